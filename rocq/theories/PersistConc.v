(* Concurrent Set calls on one editor: the invariant of the transition system of
   PersistConcModel.v and its preservation by every step of every goroutine. *)
From stdpp Require Import gmap list.
From Verif Require Import PersistModel PersistTree PersistOps PersistEdit PersistConcModel.

Local Arguments replicate : simpl never.

Section Conc.
Context {T : Type} (zero : T).
Notation heap := (@heap T).
Notation node := (@node T).
Notation st := (@st T).
Notation pc := (pc T).
Notation rd := (rd zero).
Implicit Types (h : heap) (s : st) (q : pc).

(* F: ids no editor writes; s0: the state when the goroutines start. *)
Context (F : nat -> Prop) (s0 : st) (HE0 : EI F s0).
Notation L := (hgt (sl_ s0) - 1).
Notation tid s := (aid (tr s)).

Record static s : Prop := {
  sc_tlen : tlen (sl_ s) = tlen (sl_ s0);
  sc_hgt : hgt (sl_ s) = hgt (sl_ s0);
  sc_tln : tln (sl_ s) = tln (sl_ s0);
  sc_tl : tailLen (tr s) = tailLen (tr s0) }.

Definition kind (n : node) (l : nat) : Prop :=
  match n, l with
  | Leaf vs _, 0 => length vs = 16
  | INode ps _, S _ => length ps = 16
  | _, _ => False
  end.

Definition loc_ok s (p : loc) (l i : nat) : Prop :=
  match p with
  | LRoot => l = L /\ blk L i = 0
  | LSlot a j => tid s <> 0 /\ locat (tid s) s L (LSlot a j) l i
  end.

Definition own_at s (a l i : nat) : Prop :=
  tid s <> 0 /\ owned (hp s) (tid s) a /\ opath (hp s) (tid s) i (root s) L l (PAddr a).

Definition ptr_ok s (pl : ptr) (l i : nat) : Prop :=
  match pl with
  | PNil => True
  | PTNil => False
  | PAddr a => (exists n, nodes (hp s) !! a = Some n /\ F (nid n) /\ kind n l) \/ own_at s a l i
  end.

Definition copy_of s (pl : ptr) (l : nat) (n : node) : Prop :=
  match pl with
  | PNil => n = match l with 0 => Leaf (replicate 16 zero) (tid s)
                        | S _ => INode (replicate 16 PNil) (tid s) end
  | PTNil => False
  | PAddr a => match l with
     | 0 => exists vs i, nodes (hp s) !! a = Some (Leaf vs i) /\ F i /\ length vs = 16 /\ n = Leaf vs (tid s)
     | S _ => exists ps i, nodes (hp s) !! a = Some (INode ps i) /\ F i /\ length ps = 16 /\ n = INode ps (tid s)
     end
  end.

Definition in_tree (i : nat) : Prop := i < tlen (sl_ s0).
Definition in_tail (i : nat) : Prop := tlen (sl_ s0) <= i < t_len (tr s0).

Definition tinv s q (i : nat) : Prop :=
  match q with
  | Start => i < t_len (tr s0)
  | Load l p => in_tree i /\ loc_ok s p l i
  | IdLoad l p pl | IdAdd l p pl => in_tree i /\ loc_ok s p l i /\ ptr_ok s pl l i
  | IdCas l p pl c => in_tree i /\ loc_ok s p l i /\ ptr_ok s pl l i /\ ctr s0 < c <= ctr s
  | Check l p pl t => in_tree i /\ loc_ok s p l i /\ ptr_ok s pl l i /\ tid s <> 0 /\ t = tid s
  | CopyL p pl t a acc => in_tree i /\ loc_ok s p 0 i /\ tid s <> 0 /\ t = tid s /\ pl = PAddr a /\
      exists vs j, nodes (hp s) !! a = Some (Leaf vs j) /\ F j /\ length vs = 16 /\
        acc = take (length acc) vs
  | CopyN l p pl t a acc => in_tree i /\ loc_ok s p l i /\ tid s <> 0 /\ t = tid s /\ pl = PAddr a /\ l <> 0 /\
      exists ps j, nodes (hp s) !! a = Some (INode ps j) /\ F j /\ length ps = 16 /\
        acc = take (length acc) ps
  | Cas l p pl n => in_tree i /\ loc_ok s p l i /\ tid s <> 0 /\ copy_of s pl l n
  | WriteLeaf a => in_tree i /\ own_at s a 0 i
  | TLoad | TLock | TLoad2 => in_tail i
  | TMake => in_tail i /\ wtail (tr s) = false
  | TCopy src n acc => in_tail i /\ wtail (tr s) = false /\ src = tarr (sl_ s) /\ n = tln (sl_ s0) /\
      exists l2, arr_prefix (hp s) (tarr (sl_ s)) n = Ok l2 /\ acc = take (length acc) l2 /\ length acc <= n
  | TSet n acc => in_tail i /\ wtail (tr s) = false /\ n = tln (sl_ s0) /\
      arr_prefix (hp s) (tarr (sl_ s)) n = Ok acc
  | TStore => in_tail i /\ wtail (tr s) = false /\ exists b l, tarr (sl_ s) = Some b /\
      hnext (hp s0) <= b /\ arrs (hp s) !! b = Some l /\ length l = 16
  | TUnlock | THead => in_tail i /\ wtail (tr s) = true
  | TWrite b => in_tail i /\ wtail (tr s) = true /\ tarr (sl_ s) = Some b
  | Done => True
  end.

Definition incrit q : Prop :=
  match q with
  | TLoad2 | TMake | TCopy _ _ _ | TSet _ _ | TStore | TUnlock => True
  | _ => False
  end.

(* What any step keeps. *)
Record sev s s' : Prop := {
  sv_ctr : ctr s <= ctr s';
  sv_aid : tid s <> 0 -> tid s' = tid s;
  sv_frz : forall a n, nodes (hp s) !! a = Some n -> F (nid n) -> nodes (hp s') !! a = Some n;
  sv_mono : tid s <> 0 -> mono (tid s) (hp s) (hp s');
  sv_root : tid s <> 0 -> forall c, root s = PAddr c -> owned (hp s) (tid s) c -> root s' = PAddr c;
  sv_w : wtail (tr s) = true -> wtail (tr s') = true /\ tarr (sl_ s') = tarr (sl_ s) }.

(* What steps of goroutines not holding the lock keep. *)
Record tsame s s' : Prop := {
  sm_w : wtail (tr s') = wtail (tr s);
  sm_arr : tarr (sl_ s') = tarr (sl_ s);
  sm_pre : wtail (tr s) = false -> arrs (hp s') = arrs (hp s) }.

Lemma sev_refl s : sev s s.
Proof. split; auto. intros _. apply mono_refl. Qed.

Lemma own_stable s s' a l i : sev s s' -> own_at s a l i -> own_at s' a l i.
Proof.
  intros [V1 V2 V3 V4 V5 V6] (Ht & Ho & Hp). unfold own_at. rewrite (V2 Ht). split_and!; auto.
  - apply (V4 Ht). done.
  - pose proof (opath_mono _ _ _ _ _ _ _ _ (V4 Ht) Hp Ho) as Hp'.
    assert (exists c, root s = PAddr c /\ owned (hp s) (tid s) c) as (c & Hc & Hoc).
    { clear -Hp Ho. remember (root s) as r. remember (PAddr a) as q.
      destruct Hp as [p0 L0|a0 ps L0 l0 q c Hn Hq Hp1]; [eauto|].
      exists a0. split; [done|]. eexists; split; [eauto|done]. }
    rewrite (V5 Ht c Hc Hoc). rewrite Hc in Hp'. exact Hp'.
Qed.

Lemma loc_stable s s' p l i : sev s s' -> loc_ok s p l i -> loc_ok s' p l i.
Proof.
  intros V. destruct p as [|a j]; simpl; auto. intros (Ht & Hj & Hb & Ho & Hp).
  assert (own_at s' a (S l) i) as (Ht' & Ho' & Hp') by (apply (own_stable s); [done|]; split_and!; auto).
  split; [done|]. split; [done|]. split; auto.
Qed.

Lemma ptr_stable s s' pl l i : sev s s' -> ptr_ok s pl l i -> ptr_ok s' pl l i.
Proof.
  intros V. destruct pl as [| |a]; simpl; auto. intros [(n & Hn & Hf & Hk)|Ho].
  - left. exists n. split_and!; auto. apply V; auto.
  - right. eapply own_stable; eauto.
Qed.

Lemma copy_stable s s' pl l n : sev s s' -> tid s <> 0 -> copy_of s pl l n -> copy_of s' pl l n.
Proof.
  intros V Ht. pose proof (sv_aid _ _ V Ht) as E. destruct pl as [| |a]; simpl; rewrite ?E; auto.
  destruct l as [|l].
  - intros (vs & i & Hn & Hf & Hl & ->). exists vs, i. split_and!; auto.
    apply (sv_frz _ _ V a (Leaf vs i)); auto.
  - intros (ps & i & Hn & Hf & Hl & ->). exists ps, i. split_and!; auto.
    apply (sv_frz _ _ V a (INode ps i)); auto.
Qed.

Lemma tinv_stable s s' q i : sev s s' -> (incrit q -> tsame s s') -> tinv s q i -> tinv s' q i.
Proof.
  intros V M. pose proof (sv_ctr _ _ V) as Hc.
  destruct q as [|l p|l p pl|l p pl|l p pl c|l p pl t|p pl t a acc|l p pl t a acc|l p pl n|a| | | | |src n acc|n acc| | | |b|];
    simpl; auto.
  - intros [? ?]. eauto using loc_stable.
  - intros (? & ? & ?). eauto using loc_stable, ptr_stable.
  - intros (? & ? & ?). eauto using loc_stable, ptr_stable.
  - intros (? & ? & ? & ?). split_and!; eauto using loc_stable, ptr_stable; lia.
  - intros (? & ? & ? & Ht & ->). rewrite (sv_aid _ _ V Ht). split_and!; eauto using loc_stable, ptr_stable.
  - intros (? & ? & Ht & -> & -> & vs & j & Hn & Hf & Hl & E). rewrite (sv_aid _ _ V Ht).
    split_and!; eauto using loc_stable. exists vs, j. split_and!; auto. apply (sv_frz _ _ V a (Leaf vs j)); auto.
  - intros (? & ? & Ht & -> & -> & Hl0 & vs & j & Hn & Hf & Hl & E). rewrite (sv_aid _ _ V Ht).
    split_and!; eauto using loc_stable. exists vs, j. split_and!; auto. apply (sv_frz _ _ V a (INode vs j)); auto.
  - intros (? & ? & Ht & ?). split_and!; eauto using loc_stable, copy_stable. rewrite (sv_aid _ _ V Ht). done.
  - intros (? & ?). eauto using own_stable.
  - intros (? & ?). destruct (M I). split; congruence.
  - intros (? & Hw & -> & -> & l2 & Hp & E & Hle). destruct (M I) as [M1 M2 M3]. specialize (M3 Hw).
    split_and!; auto; try congruence. exists l2. rewrite M2. split_and!; auto.
    unfold arr_prefix in *. rewrite M3. done.
  - intros (? & Hw & -> & Hp). destruct (M I) as [M1 M2 M3]. specialize (M3 Hw).
    split_and!; auto; try congruence. rewrite M2. unfold arr_prefix in *. rewrite M3. done.
  - intros (? & Hw & b & l & Hb & Hn & Ha & Hl). destruct (M I) as [M1 M2 M3]. specialize (M3 Hw).
    split_and!; auto; try congruence. exists b, l. rewrite M2, M3. auto.
  - intros (? & Hw). destruct (sv_w _ _ V Hw). auto.
  - intros (? & Hw). destruct (sv_w _ _ V Hw). auto.
  - intros (? & Hw & E). destruct (sv_w _ _ V Hw). split_and!; auto. congruence.
Qed.

(* ---- one step ---- *)
Definition next_ok s (m : option nat) (k i : nat) (x : T) q l1 l2 s' m' q' : Prop :=
  EI F s' /\ Efr s0 s' /\ static s' /\ sev s s' /\ (~ incrit q -> tsame s s') /\ tinv s' q' i /\
  (exists l1' l2', rep zero s' l1' l2' /\
     l1' ++ l2' = match q' with Done => <[i := x]> (l1 ++ l2) | _ => l1 ++ l2 end) /\
  ((m' = m /\ (incrit q <-> incrit q')) \/
   (m = None /\ m' = Some k /\ ~ incrit q /\ incrit q') \/
   (incrit q /\ m' = None /\ ~ incrit q')).

(* Steps that change only the goroutine's own position. *)
Lemma quiet s m k i x q l1 l2 q' :
  EI F s -> Efr s0 s -> static s -> rep zero s l1 l2 -> tinv s q' i -> q' <> Done ->
  (incrit q <-> incrit q') -> next_ok s m k i x q l1 l2 s m q'.
Proof.
  intros HE HF HS HR HT Hd Hc. unfold next_ok. split_and!; auto using sev_refl.
  - intros _. split; auto.
  - exists l1, l2. split; [done|]. destruct q'; done.
Qed.

Lemma tree_TI s i : EI F s -> static s -> in_tree i -> tid s <> 0 ->
  exists P, TI F (tid s) P L s /\ pres (hp s) (root s) L.
Proof.
  intros HE HS Hi Ht. destruct (ei_tree _ _ HE) as (P & Hot & Hp).
  { rewrite (sc_tlen _ HS). unfold in_tree in Hi. lia. }
  rewrite (sc_hgt _ HS) in *. exists P. split; [|done]. split_and!; auto. apply HE.
Qed.

Lemma evol_sev s s' : tid s <> 0 -> ~ F (tid s) -> evol (tid s) L s s' -> sev s s' /\ tsame s s' /\ tid s' = tid s.
Proof.
  intros Ht HFt [E1 E2 E3 E4 E5 E6 E7 E8]. assert (tid s' = tid s) as Et by (rewrite E7; done).
  split_and!; auto.
  - split; auto; try lia.
    + intros a n Hn Hf. apply E1; auto. intros Hx. apply HFt. rewrite <-Hx. done.
    + intros Hw. unfold sl_. rewrite E7. auto.
  - split; unfold sl_; rewrite ?E7; auto.
Qed.

Lemma evol_static s s' : static s -> evol (tid s) L s s' -> static s'.
Proof.
  intros [] [E1 E2 E3 E4 E5 E6 E7 E8]. unfold sl_ in *. split; unfold sl_; rewrite E7; simpl; auto.
Qed.

(* A tree step that evolves s to s'. *)
Lemma tree_step s s' m k i x q l1 l2 l1' P q' :
  EI F s -> Efr s0 s -> static s -> rep zero s l1 l2 -> in_tree i -> tid s <> 0 ->
  evol (tid s) L s s' -> TI F (tid s) P L s' ->
  length l1' = length l1 ->
  (forall j, j < tlen (sl_ s0) -> rd (hp s') (root s') L j = res_opt (l1' !! j)) ->
  l1' ++ l2 = match q' with Done => <[i := x]> (l1 ++ l2) | _ => l1 ++ l2 end ->
  tinv s' q' i -> ~ incrit q -> ~ incrit q' ->
  next_ok s m k i x q l1 l2 s' m q'.
Proof.
  intros HE HF HS HR Hi Ht Hev HT Hlen Hrd Hl' Hinv Hc Hc'.
  pose proof (ei_nF _ _ HE Ht) as HFt. destruct (evol_sev s s' Ht HFt Hev) as (V & M & Et).
  destruct (tree_TI s i HE HS Hi Ht) as (P0 & HT0 & Hp0).
  unfold next_ok. split_and!; auto.
  - eapply (rebuild F s s' P); auto using EI_EB.
    + rewrite (sc_tlen _ HS). unfold in_tree in Hi. lia.
    + rewrite (sc_hgt _ HS). exact Hev.
    + rewrite (sc_hgt _ HS). exact HT.
    + rewrite (sc_hgt _ HS). apply (ev_pres _ _ _ _ Hev). exact Hp0.
  - eapply Efr_trans; [apply HE0|exact HF|]. eapply evol_Efr. exact Hev.
  - eapply evol_static; eauto.
  - exists l1', l2. split; [|exact Hl']. destruct HR as [R1 R2 R3].
    eapply (evol_rep zero s s' l1' l2 L); auto.
    + rewrite (sc_hgt _ HS). done.
    + congruence.
    + intros j Hj. apply Hrd. rewrite <-(sc_tlen _ HS). done.
  - left. tauto.
Qed.

Lemma loc_locat s p l i : tid s <> 0 -> loc_ok s p l i -> locat (tid s) s L p l i.
Proof. intros Ht. destruct p; simpl; tauto. Qed.

Lemma in_tree_blk i : in_tree i -> blk L i = 0.
Proof.
  intros Hi. unfold in_tree in Hi. destruct (EI_cap F s0 (EI_EB _ _ HE0)) as [Hc _]; [lia|].
  apply blk_0_lt. lia.
Qed.

Lemma rep_rd s l1 l2 j : static s -> rep zero s l1 l2 -> j < tlen (sl_ s0) ->
  rd (hp s) (root s) L j = res_opt (l1 !! j).
Proof.
  intros HS [R1 R2 R3] Hj. rewrite <-R2 by (rewrite (sc_tlen _ HS); done).
  unfold rdt. rewrite (sc_hgt _ HS). done.
Qed.

(* The loaded pointer of a tree location is good. *)
Lemma load_ok s p l i : EI F s -> static s -> in_tree i -> loc_ok s p l i ->
  exists pl, load p s = Ok (pl, s) /\ ptr_ok s pl l i.
Proof.
  intros HE HS Hi Hloc. destruct (decide (tid s = 0)) as [Hz|Hz].
  - destruct p as [|a j]; [|simpl in Hloc; tauto]. destruct Hloc as [-> Hb].
    exists (root s). split; [done|].
    destruct (ei_tree _ _ HE) as (P & Hot & Hp).
    { rewrite (sc_tlen _ HS). unfold in_tree in Hi. lia. }
    rewrite (sc_hgt _ HS) in *. rewrite Hz in Hot. apply ot_zero in Hot.
    destruct (root s) as [| |a]; simpl; auto.
    + destruct L; done.
    + left. destruct L as [|l]; simpl in Hot.
      * destruct Hot as (vs & j & Hn & Hl & Hf). exists (Leaf vs j). auto.
      * destruct Hot as (ps & j & Hn & Hl & Hf & _). exists (INode ps j). auto.
  - destruct (tree_TI s i HE HS Hi Hz) as (P & HT & _).
    pose proof (ei_nF _ _ HE Hz) as HFt.
    destruct (locat_load zero F (tid s) Hz HFt s P L p l i HT (loc_locat _ _ _ _ Hz Hloc))
      as (pl & Hld & Hot & _ & Hop).
    exists pl. split; [done|]. destruct pl as [| |a]; simpl; auto.
    + destruct l; destruct Hot as [Hwf|(_ & a & Ha & _)]; simpl in *; done.
    + destruct l as [|l].
      * destruct Hot as [Hwf|(_ & a' & Ha & HP & vs & Hn & Hl)].
        -- left. destruct Hwf as (vs & j & Hn & Hl & Hf). exists (Leaf vs j). auto.
        -- right. inversion Ha; subst a'. split_and!; auto. eexists; split; [exact Hn|done].
      * destruct Hot as [Hwf|(_ & a' & Ha & HP & vs & Hn & Hl & _)].
        -- left. destruct Hwf as (vs & j & Hn & Hl & Hf & _). exists (INode vs j). auto.
        -- right. inversion Ha; subst a'. split_and!; auto. eexists; split; [exact Hn|done].
Qed.

Lemma descend_ok s a l i : in_tree i -> own_at s a l i -> tinv s (descend l a i) i.
Proof.
  intros Hi (Ht & Ho & Hp). destruct l as [|l]; simpl.
  - split; [done|]. split; auto.
  - split; [done|]. split; [done|]. split; [done|]. split_and!; auto. apply in_tree_blk. done.
Qed.

Lemma descend_out l a i : ~ incrit (descend (T:=T) l a i) /\ descend (T:=T) l a i <> Done.
Proof. destruct l; simpl; split; auto; done. Qed.

(* A successful compare-and-swap. *)
Lemma cas_ok s m k i x l p pl n l1 l2 :
  EI F s -> Efr s0 s -> static s -> rep zero s l1 l2 ->
  in_tree i -> loc_ok s p l i -> tid s <> 0 -> copy_of s pl l n -> load p s = Ok (pl, s) ->
  exists a1 s', bind (alloc_node n) (fun a1 => bind (store p (PAddr a1)) (fun _ => ret a1)) s = Ok (a1, s') /\
    next_ok s m k i x (Cas l p pl n) l1 l2 s' m (descend l a1 i).
Proof.
  intros HE HF HS HR Hi Hloc Ht Hcp Hld.
  destruct (tree_TI s i HE HS Hi Ht) as (P & HT & _).
  pose proof (ei_nF _ _ HE Ht) as HFt. pose proof (loc_locat _ _ _ _ Ht Hloc) as Hl.
  destruct (locat_load zero F (tid s) Ht HFt s P L p l i HT Hl) as (pl' & Hld' & Hot & Hrd & Hop).
  rewrite Hld in Hld'. assert (pl' = pl) as -> by congruence. clear Hld'.
  assert (exists s' P', bind (alloc_node n) (fun a1 => bind (store p (PAddr a1)) (fun _ => ret a1)) s
                = Ok (hnext (hp s), s') /\
    TI F (tid s) P' L s' /\ evol (tid s) L s s' /\ ext P P' (hp s) /\
    nodes (hp s') !! hnext (hp s) = Some n /\
    load p s' = Ok (PAddr (hnext (hp s)), s') /\
    (forall i', blk L i' = 0 -> rd (hp s') (root s') L i' = rd (hp s) (root s) L i'))
    as (s' & P' & E & HT' & Hev & _ & Hn' & Hld' & Hrd').
  { apply (install zero F (tid s) Ht HFt s P L p l i pl n); auto.
    - intros c ->. destruct l as [|l]; simpl in Hcp.
      + destruct Hcp as (vs & j & Hn & Hf & _). intros (n' & Hn' & Hi'). rewrite Hn in Hn'.
        inversion Hn'; subst. simpl in Hi'. subst j. done.
      + destruct Hcp as (vs & j & Hn & Hf & _). intros (n' & Hn' & Hi'). rewrite Hn in Hn'.
        inversion Hn'; subst. simpl in Hi'. subst j. done.
    - destruct pl as [| |a]; simpl in Hcp; [|done|].
      + subst n. destruct l as [|l]; simpl.
        * exists (replicate 16 zero). done.
        * exists (replicate 16 PNil). split; [done|]. split; [done|].
          intros j q Hq. apply lookup_replicate in Hq as [-> _]. apply wf_ot. destruct l; done.
      + destruct l as [|l]; simpl.
        * destruct Hcp as (vs & j & Hn & Hf & Hle & ->). eauto.
        * destruct Hcp as (ps & j & Hn & Hf & Hle & ->). exists ps. split_and!; auto.
          destruct Hot as [Hwf|(_ & a' & Ha & HP & ps' & Hn2 & _)].
          -- destruct Hwf as (ps2 & j2 & Hn2 & _ & _ & Hc). rewrite Hn in Hn2. inversion Hn2; subst ps2 j2.
             intros j0 q0 Hq0. apply wf_ot. eauto.
          -- inversion Ha; subst a'. rewrite Hn in Hn2. inversion Hn2; subst. done.
    - intros i' _. destruct pl as [| |a]; simpl in Hcp; [|done|].
      + subst n. destruct l as [|l].
        * cbn [node_rd]. rewrite lookup_replicate_2 by (apply Nat.mod_upper_bound; lia). done.
        * cbn [node_rd]. rewrite lookup_replicate_2 by apply slot_lt. destruct l; done.
      + destruct l as [|l].
        * destruct Hcp as (vs & j & Hn & Hf & Hle & ->). cbn [node_rd PersistModel.rd]. rewrite Hn. done.
        * destruct Hcp as (vs & j & Hn & Hf & Hle & ->). cbn [node_rd PersistModel.rd]. rewrite Hn. done.
    - destruct pl as [| |a]; simpl in Hcp; [|done|].
      + destruct l; simpl; done.
      + destruct l as [|l]; [done|].
        destruct Hcp as (vs & j & Hn & Hf & Hle & ->). simpl. rewrite Hn.
        destruct (vs !! 0) eqn:E0; [|done]. eauto. }
  exists (hnext (hp s)), s'. split; [done|].
  destruct (evol_sev s s' Ht HFt Hev) as (V & M & Et).
  assert (own_at s' (hnext (hp s)) l i) as Hown.
  { unfold own_at. rewrite Et. split_and!; auto.
    - exists n. split; [done|].
      destruct pl as [| |a]; simpl in Hcp; [|done|].
      + subst n. destruct l; done.
      + destruct l; destruct Hcp as (? & ? & _ & _ & _ & ->); done.
    - destruct (locat_load zero F (tid s) Ht HFt s' P' L p l i HT') as (q' & Hq' & _ & _ & Hop').
      { eapply evol_locat; eauto. }
      rewrite Hld' in Hq'. inversion Hq'; subst. done. }
  destruct (descend_out l (hnext (hp s)) i) as [Ho Hd].
  eapply (tree_step s s' m k i x _ l1 l2 l1 P'); auto.
  - intros j Hj. rewrite Hrd' by (apply in_tree_blk; done). eapply rep_rd; eauto.
  - destruct l; done.
  - apply descend_ok; auto.
Qed.

Lemma tailLen_tln s : EI F s -> tailLen (tr s) = tln (sl_ s).
Proof. apply ei_tl. Qed.

Lemma sev_tail s s' : hp s' = hp s -> ctr s' = ctr s -> tid s' = tid s -> root s' = root s ->
  (wtail (tr s) = true -> wtail (tr s') = true /\ tarr (sl_ s') = tarr (sl_ s)) -> sev s s'.
Proof.
  intros E1 E2 E3 E4 E5. split; auto; rewrite ?E1; auto; try lia.
  - intros _. apply mono_refl.
  - intros _ c Hc _. congruence.
Qed.

Lemma step_ok s m k i x q l1 l2 r :
  EI F s -> Efr s0 s -> static s -> rep zero s l1 l2 -> tinv s q i ->
  tstep zero s m k i x q = Some r ->
  exists s' m' q', r = Ok (s', m', q') /\ next_ok s m k i x q l1 l2 s' m' q'.
Proof.
  intros HE HF HS HR Hinv Hstep.
  pose proof (tailLen_tln s HE) as Htl.
  assert (t_len (tr s) = t_len (tr s0)) as Htlen.
  { unfold t_len. fold (sl_ s) (sl_ s0). rewrite (sc_tlen _ HS), (sc_tl _ HS). done. }
  destruct q as [|l p|l p pl|l p pl|l p pl c|l p pl t|p pl t a acc|l p pl t a acc|l p pl n|a| | | | |src n acc|n acc| | | |b|];
    simpl in Hinv; cbn [tstep] in Hstep.
  - (* Start *)
    rewrite Htlen in Hstep. rewrite decide_False in Hstep by lia. fold (sl_ s) in Hstep.
    rewrite (sc_tlen _ HS), (sc_hgt _ HS) in Hstep.
    destruct (decide (tlen (sl_ s0) <= i)) as [Hge|Hlt]; inversion Hstep; subst r; clear Hstep.
    + exists s, m, TLoad. split; [done|]. apply quiet; [auto|auto|auto|auto| |done|done]. split; auto.
    + exists s, m, (Load L LRoot). split; [done|]. apply quiet; [auto|auto|auto|auto| |done|done].
      assert (in_tree i) by (unfold in_tree; lia). split; [done|]. split; [done|]. apply in_tree_blk. done.
  - (* Load *)
    destruct Hinv as [Hi Hloc]. destruct (load_ok s p l i HE HS Hi Hloc) as (pl & Hld & Hpl).
    rewrite Hld in Hstep. inversion Hstep; subst r. exists s, m, (IdLoad l p pl). split; [done|].
    apply quiet; [auto|auto|auto|auto| |done|done]. split_and!; auto.
  - (* IdLoad *)
    destruct Hinv as (Hi & Hloc & Hpl).
    destruct (decide (aid (tr s) = 0)) as [Hz|Hz]; inversion Hstep; subst r.
    + exists s, m, (IdAdd l p pl). split; [done|]. apply quiet; [auto|auto|auto|auto| |done|done]. split_and!; auto.
    + exists s, m, (Check l p pl (tid s)). split; [done|]. apply quiet; [auto|auto|auto|auto| |done|done]. split_and!; auto.
  - (* IdAdd *)
    destruct Hinv as (Hi & Hloc & Hpl). inversion Hstep; subst r. clear Hstep.
    set (s' := mkSt (hp s) (S (ctr s)) (tr s)).
    exists s', m, (IdCas l p pl (S (ctr s))). split; [done|].
    assert (sev s s') as V.
    { split; simpl; auto. intros _. apply mono_refl. }
    assert (Efr s s') as HF' by (split; simpl; auto).
    split_and!; auto.
    + destruct HE as [G1 G2 G3 G4 G5 G6 G7 G8 G9 G10 G11 G12]. split; simpl; auto.
    + eapply Efr_trans; [apply HE0|exact HF|exact HF'].
    + destruct HS. split; auto.
    + intros _. split; auto.
    + split; [done|]. split; [eapply loc_stable; eauto|]. split; [eapply ptr_stable; eauto|].
      simpl. pose proof (ef_ctr _ _ HF). lia.
    + exists l1, l2. split; [|done]. destruct HR. split; auto.
  - (* IdCas *)
    destruct Hinv as (Hi & Hloc & Hpl & Hc).
    destruct (decide (aid (tr s) = 0)) as [Hz|Hz]; inversion Hstep; subst r; clear Hstep.
    + set (s' := upd_aid s c). exists s', m, (Check l p pl c). split; [done|].
      assert (sev s s') as V.
      { split; simpl; auto; try done. }
      assert (~ F c) as HFc.
      { intros Hf. pose proof (ei_F _ _ HE0 _ Hf). lia. }
      assert (EI F s') as HE'.
      { destruct HE as [G1 G2 G3 G4 G5 G6 G7 G8 G9 G10 G11 G12]. split; simpl; auto; try lia.
        intros Hne. destruct (G9 Hne) as (P & Hot & Hp). exists P. split; [|done].
        rewrite Hz in Hot. apply ot_zero in Hot. apply wf_ot. done. }
      split_and!; auto.
      * pose proof HF as [A1 A2 A3 A4 A5 A6]. split; auto; simpl.
        destruct A3 as [A3|A3]; [|lia]. right. split; [congruence|lia].
      * destruct HS. split; auto.
      * intros _. split; auto.
      * split; [done|]. split; [eapply loc_stable; eauto|]. split; [eapply ptr_stable; eauto|].
        simpl. split; [lia|done].
      * exists l1, l2. split; [|done]. destruct HR. split; auto.
    + exists s, m, (IdLoad l p pl). split; [done|]. apply quiet; [auto|auto|auto|auto| |done|done]. split_and!; auto.
  - (* Check *)
    destruct Hinv as (Hi & Hloc & Hpl & Ht & ->).
    pose proof (ei_nF _ _ HE Ht) as HFt.
    destruct pl as [| |a]; [|done|].
    + inversion Hstep; subst r. eexists s, m, _. split; [done|]. apply quiet; [auto|auto|auto|auto| |done|done].
      split_and!; auto. done.
    + destruct Hpl as [(n & Hn & Hf & Hk)|Hown].
      * rewrite Hn in Hstep. rewrite decide_False in Hstep by (intros E; rewrite E in Hf; done).
        destruct l as [|l]; destruct n as [vs j|ps j]; try done; inversion Hstep; subst r;
          eexists s, m, _; (split; [done|]); (apply quiet; [auto|auto|auto|auto| |done|done]); split_and!; eauto 10.
      * pose proof Hown as (_ & (n & Hn & Hid) & _). rewrite Hn in Hstep. rewrite decide_True in Hstep by done.
        inversion Hstep; subst r. exists s, m, (descend l a i). split; [done|].
        destruct (descend_out l a i) as [Ho Hd].
        apply quiet; auto; [apply descend_ok; auto|]. split; [done|]. auto.
  - (* CopyL *)
    destruct Hinv as (Hi & Hloc & Ht & -> & -> & vs & j & Hn & Hf & Hl & Hacc).
    rewrite Hn in Hstep.
    destruct (vs !! length acc) as [v|] eqn:Ev; inversion Hstep; subst r; eexists s, m, _; (split; [done|]);
      (apply quiet; [auto|auto|auto|auto| |done|done]).
    + split_and!; auto. exists vs, j. split_and!; auto.
      rewrite app_length. simpl. rewrite Nat.add_comm. simpl. rewrite (take_S_r _ _ _ Ev). congruence.
    + apply lookup_ge_None in Ev. split_and!; auto. exists vs, j. split_and!; auto. f_equal.
      rewrite Hacc. apply take_ge. done.
  - (* CopyN *)
    destruct Hinv as (Hi & Hloc & Ht & -> & -> & Hl0 & vs & j & Hn & Hf & Hl & Hacc).
    rewrite Hn in Hstep. destruct l as [|l]; [done|].
    destruct (vs !! length acc) as [v|] eqn:Ev; inversion Hstep; subst r; eexists s, m, _; (split; [done|]);
      (apply quiet; [auto|auto|auto|auto| |done|done]).
    + split_and!; auto. exists vs, j. split_and!; auto.
      rewrite app_length. simpl. rewrite Nat.add_comm. simpl. rewrite (take_S_r _ _ _ Ev). congruence.
    + apply lookup_ge_None in Ev. split_and!; auto. exists vs, j. split_and!; auto. f_equal.
      rewrite Hacc. apply take_ge. done.
  - (* Cas *)
    destruct Hinv as (Hi & Hloc & Ht & Hcp).
    destruct (load_ok s p l i HE HS Hi Hloc) as (pl' & Hld & Hpl'). rewrite Hld in Hstep.
    destruct (decide (pl' = pl)) as [->|Hne].
    + destruct (cas_ok s m k i x l p pl n l1 l2) as (a1 & s' & E & Hok); auto.
      rewrite E in Hstep. inversion Hstep; subst r. eauto 10.
    + inversion Hstep; subst r. exists s, m, (Load l p). split; [done|]. apply quiet; [auto|auto|auto|auto| |done|done].
      split; auto.
  - (* WriteLeaf *)
    destruct Hinv as (Hi & Ht & Ho & Hp).
    destruct (tree_TI s i HE HS Hi Ht) as (P & HT & _).
    pose proof (ei_nF _ _ HE Ht) as HFt. pose proof (in_tree_blk i Hi) as Hb.
    destruct (write_leaf_spec zero F (tid s) Ht HFt s P L a i (fun vs => <[i mod 16 := x]> vs) HT Hb Ho Hp)
      as (s' & vs & E & HT' & Ev & Hl & Hr1 & Hr2 & Hr3).
    { intros vs Hvs. rewrite insert_length. done. }
    rewrite E in Hstep. inversion Hstep; subst r. exists s', m, Done. split; [done|].
    pose proof HR as [R1 R2 R3].
    eapply (tree_step s s' m k i x _ l1 l2 (<[i := x]> l1) P); auto; try done.
    + rewrite insert_length. done.
    + intros j Hj. pose proof (in_tree_blk j Hj) as Hbj.
      pose proof (sc_tlen _ HS). unfold in_tree in Hi.
      destruct (decide (blk 0 j = blk 0 i)) as [Hbk|Hbk].
      * rewrite Hr2 by done. destruct (decide (j = i)) as [->|Hji].
        -- rewrite !list_lookup_insert; [done|lia|]. rewrite Hl. apply Nat.mod_upper_bound. lia.
        -- rewrite !list_lookup_insert_ne; [|done|].
           ++ rewrite <-Hr1 by done. exact (rep_rd s l1 l2 j HS HR Hj).
           ++ intros Hm. apply Hji. apply mod16_blk; auto.
      * rewrite Hr3 by done. rewrite list_lookup_insert_ne by congruence. exact (rep_rd s l1 l2 j HS HR Hj).
    + rewrite insert_app_l; [done|]. rewrite R1, (sc_tlen _ HS). exact Hi.
  - (* TLoad *)
    destruct (wtail (tr s)) eqn:Hw; inversion Hstep; subst r; eexists s, m, _; (split; [done|]);
      (apply quiet; [auto|auto|auto|auto| |done|done]); simpl; auto.
  - (* TLock *)
    destruct m as [m0|]; [done|]. inversion Hstep; subst r. exists s, (Some k), TLoad2. split; [done|].
    split_and!; auto using sev_refl.
    + intros _. split; auto.
    + exists l1, l2. done.
    + right. left. split_and!; auto; done.
  - (* TLoad2 *)
    destruct (wtail (tr s)) eqn:Hw; inversion Hstep; subst r; eexists s, m, _; (split; [done|]);
      (apply quiet; [auto|auto|auto|auto| |done|done]); simpl; auto.
  - (* TMake *)
    destruct Hinv as (Hi & Hw). pose proof (ei_t16 _ _ HE) as H16. fold (sl_ s) in Hstep.
    rewrite decide_False in Hstep by lia. inversion Hstep; subst r.
    eexists s, m, _. split; [done|]. apply quiet; [auto|auto|auto|auto| |done|done]. split_and!; auto.
    + apply HS.
    + exists l2. destruct HR as [R1 R2 R3]. split_and!; auto. simpl. lia.
  - (* TCopy *)
    destruct Hinv as (Hi & Hw & -> & -> & l2' & Hpre & Hacc & Hle).
    destruct (decide (length acc < tln (sl_ s0))) as [Hlt|Hge].
    + rewrite (arr_prefix_get _ _ _ _ (length acc) Hpre) in Hstep.
      pose proof (arr_prefix_len _ _ _ _ Hpre) as Hl2'.
      destruct (lookup_lt_is_Some_2 l2' (length acc) ltac:(lia)) as [v Hv]. rewrite Hv in Hstep. simpl in Hstep.
      inversion Hstep; subst r. eexists s, m, _. split; [done|]. apply quiet; [auto|auto|auto|auto| |done|done].
      split_and!; auto. exists l2'. split_and!; auto.
      * rewrite app_length. simpl. rewrite Nat.add_comm. simpl. rewrite (take_S_r _ _ _ Hv). congruence.
      * rewrite app_length. simpl. lia.
    + inversion Hstep; subst r. eexists s, m, _. split; [done|]. apply quiet; [auto|auto|auto|auto| |done|done].
      split_and!; auto. rewrite Hpre. f_equal. rewrite Hacc. symmetry. apply take_ge.
      rewrite (arr_prefix_len _ _ _ _ Hpre). lia.
  - (* TSet *)
    destruct Hinv as (Hi & Hw & -> & Hpre).
    pose proof (arr_prefix_len _ _ _ _ Hpre) as Hacc.
    assert (acc = l2) as ->.
    { destruct HR as [R1 R2 R3]. rewrite (sc_tln _ HS) in R3. congruence. }
    set (n := tln (sl_ s0)) in *. set (arr := l2 ++ replicate (16 - n) zero).
    set (b := hnext (hp s)).
    set (s' := mkSt (mkHeap (nodes (hp s)) (<[b := arr]> (arrs (hp s))) (S b)) (ctr s)
       (mkTr (mkSlice (tree (sl_ s)) (hgt (sl_ s)) (tlen (sl_ s)) (Some b) n) (tid s) n (wtail (tr s)))).
    assert (r = Ok (s', m, TStore)) as -> by (injection Hstep as <-; reflexivity).
    exists s', m, TStore. split; [done|].
    pose proof (ei_t16 _ _ HE) as H16. rewrite (sc_tln _ HS) in H16. fold n in H16.
    assert (length arr = 16) as Harr by (unfold arr; rewrite app_length, replicate_length; lia).
    assert (arr_prefix (hp s') (Some b) n = Ok l2) as Hpre'.
    { simpl. rewrite lookup_insert. rewrite decide_True by lia. unfold arr. rewrite take_app_alt; done. }
    assert (forall p l i, rd (hp s') p l i = rd (hp s) p l i) as Hrd.
    { intros p l j. apply rd_nodes. done. }
    assert (tailLen (tr s) = n) as Hn.
    { rewrite Htl, (sc_tln _ HS). done. }
    assert (Efr s s') as HF'.
    { split; simpl; auto.
      - intros b' l Hb' _. rewrite lookup_insert_ne; [done|]. intros <-.
        destruct (ei_hw _ _ HE b) as [_ E]; [unfold b; lia|congruence].
      - right. exists b. auto. }
    split_and!; auto.
    + pose proof (sc_tln _ HS) as Hn0. destruct HE as [G1 G2 G3 G4 G5 G6 G7 G8 G9 G10 G11 G12].
      split; simpl; auto; try done.
      * intros a Ha. simpl in *. rewrite lookup_insert_ne by lia. apply G1. unfold b in Ha. lia.
      * intros Hne. destruct (G9 Hne) as (P & Hot & Hp). exists P. split.
        -- unfold root in *. simpl. apply (ot_frame zero (hp s) (hp s') F F (tid s) P P); auto.
        -- eapply pres_frame; [|exact Hp]. auto.
      * exists l2. exact Hpre'.
      * rewrite Hw. done.
    + eapply Efr_trans; [apply HE0|exact HF|exact HF'].
    + destruct HS as [S1 S2 S3 S4]. split; simpl; auto. congruence.
    + split; simpl; auto.
      * intros _. split; eauto.
      * rewrite Hw. done.
    + intros Hc. exfalso. apply Hc. exact I.
    + split; [done|]. split; [done|]. exists b, arr. split_and!; auto.
      * apply (ef_next _ _ HF).
      * simpl. apply lookup_insert.
    + exists l1, l2. split; [|done]. destruct HR as [R1 R2 R3]. split; auto.
      intros j Hj. unfold rdt. rewrite Hrd. apply R2. done.
  - (* TStore *)
    destruct Hinv as (Hi & Hw & b & l & Hb & Hnx & Hbl & Hl16). inversion Hstep; subst r. clear Hstep.
    set (s' := mkSt (hp s) (ctr s) (mkTr (ts (tr s)) (tid s) (tailLen (tr s)) true)).
    exists s', m, TUnlock. split; [done|]. split_and!; auto.
    + destruct HE as [G1 G2 G3 G4 G5 G6 G7 G8 G9 G10 G11 G12]. split; simpl; auto.
      intros _. exists b, l. auto.
    + pose proof HF as [A1 A2 A3 A4 A5 A6]. split; auto. right. exists b. auto.
    + destruct HS. split; auto.
    + apply sev_tail; auto.
    + intros Hc. exfalso. apply Hc. exact I.
    + split; auto.
    + exists l1, l2. split; [|done]. destruct HR. split; auto.
  - (* TUnlock *)
    destruct Hinv as (Hi & Hw). inversion Hstep; subst r. exists s, None, THead. split; [done|].
    split_and!; auto using sev_refl.
    + intros _. split; auto.
    + split; auto.
    + exists l1, l2. done.
    + right. right. split_and!; auto. done.
  - (* THead *)
    destruct Hinv as (Hi & Hw). destruct (ei_wtail _ _ HE Hw) as (b & l & Hb & Hbl & Hl).
    fold (sl_ s) in Hstep. rewrite Hb in Hstep.
    assert (i mod 16 < tln (sl_ s)) as Hm.
    { destruct Hi as [Hi1 Hi2]. unfold t_len in Hi2. fold (sl_ s0) in Hi2.
      rewrite (tailLen_tln s0 HE0) in Hi2. pose proof (ei_t16 _ _ HE0).
      rewrite (mod16_tail (tlen (sl_ s0)) i); auto; [|apply HE0|lia].
      rewrite (sc_tln _ HS). lia. }
    rewrite decide_True in Hstep by done. inversion Hstep; subst r.
    eexists s, m, _. split; [done|]. apply quiet; [auto|auto|auto|auto| |done|done]. split_and!; auto.
  - (* TWrite *)
    destruct Hinv as (Hi & Hw & Hb). destruct (ei_wtail _ _ HE Hw) as (b' & l & Hb' & Hbl & Hl).
    rewrite Hb in Hb'. inversion Hb'; subst b'. rewrite Hbl in Hstep. inversion Hstep; subst r. clear Hstep.
    assert (i mod 16 = i - tlen (sl_ s0) /\ i mod 16 < tln (sl_ s)) as [Hm1 Hm2].
    { destruct Hi as [Hi1 Hi2]. unfold t_len in Hi2. fold (sl_ s0) in Hi2.
      rewrite (tailLen_tln s0 HE0) in Hi2. pose proof (ei_t16 _ _ HE0).
      rewrite (mod16_tail (tlen (sl_ s0)) i); auto; [|apply HE0|lia].
      rewrite (sc_tln _ HS). lia. }
    set (s' := mkSt (set_arrs (hp s) (<[b := <[i mod 16 := x]> l]> (arrs (hp s)))) (ctr s) (tr s)).
    assert (Efr s s') as HF'.
    { split; simpl; auto. intros b' l' Hb1 Hne. rewrite lookup_insert_ne; [done|].
      intros <-. apply Hne; auto. }
    assert (l2 = take (tln (sl_ s)) l) as Hl2.
    { destruct HR as [R1 R2 R3]. rewrite Hb in R3. simpl in R3. rewrite Hbl in R3.
      destruct (decide _); congruence. }
    pose proof (ei_t16 _ _ HE) as H16.
    exists s', m, Done. split; [done|]. split_and!; auto.
    + destruct HE as [G1 G2 G3 G4 G5 G6 G7 G8 G9 G10 G11 G12]. split; simpl; auto.
      * intros a Ha. simpl in *. rewrite lookup_insert_ne; [auto|]. intros ->.
        destruct (G1 a Ha). congruence.
      * intros Hne. destruct (G9 Hne) as (P & Hot & Hp). exists P. split.
        -- unfold root in *. apply (ot_frame zero (hp s) (hp s') F F (tid s) P P); auto.
        -- eapply pres_frame; [|exact Hp]. auto.
      * change (sl_ s') with (sl_ s). rewrite Hb. simpl. rewrite lookup_insert.
        rewrite insert_length. rewrite decide_True by lia. eauto.
      * intros _. exists b, (<[i mod 16 := x]> l). change (sl_ s') with (sl_ s). rewrite lookup_insert.
        rewrite insert_length. auto.
    + eapply Efr_trans; [apply HE0|exact HF|exact HF'].
    + destruct HS. split; auto.
    + split; simpl; auto. intros _. apply mono_refl || (split; eauto).
    + intros _. split; auto. rewrite Hw. done.
    + exact I.
    + destruct HR as [R1 R2 R3]. exists l1, (<[i - tlen (sl_ s0) := x]> l2). split.
      * split; auto.
        -- intros j Hj. rewrite <-R2 by done. unfold rdt. apply rd_nodes. done.
        -- change (sl_ s') with (sl_ s). rewrite Hb. simpl. rewrite lookup_insert.
           rewrite insert_length. rewrite decide_True by lia. f_equal. rewrite <-Hm1, Hl2.
           apply list_eq. intros j. destruct (decide (j < tln (sl_ s))) as [Hj|Hj].
           ++ rewrite lookup_take by done. destruct (decide (j = i mod 16)) as [->|Hji].
              ** rewrite !list_lookup_insert; auto; [rewrite take_length|]; lia.
              ** rewrite !list_lookup_insert_ne by done. rewrite lookup_take by done. done.
           ++ rewrite !lookup_ge_None_2; auto; [rewrite insert_length|]; rewrite take_length; lia.
      * rewrite insert_app_r_alt; [do 2 f_equal|].
        -- rewrite R1, (sc_tlen _ HS). done.
        -- rewrite R1, (sc_tlen _ HS). destruct Hi. lia.
  - done.
Qed.

End Conc.

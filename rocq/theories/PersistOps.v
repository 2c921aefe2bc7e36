(* What the tree operations of an editor do: wnode, wleaf, the descent of Set,
   and copy. *)
From stdpp Require Import gmap list.
From Verif Require Import PersistModel PersistTree.

Lemma add_slot_same l i m :
  i mod 16 ^ l + m < 16 ^ l -> slot l (i + m) = slot l i.
Proof.
  intros H. unfold slot. f_equal.
  rewrite (Nat.div_mod i (16 ^ l)) at 1 by apply pow16_pos.
  rewrite <-Nat.add_assoc, Nat.mul_comm, Nat.div_add_l by apply pow16_pos.
  rewrite (Nat.div_small (_ + _)) by lia. lia.
Qed.

(* The start of the next child of the same parent. *)
Lemma next_child l off total :
  let w := 16 ^ S l in
  0 < total -> total <= 16 ^ S (S l) - off mod 16 ^ S (S l) ->
  let m := Nat.min total (w - off mod w) in
  0 < total - m ->
  slot (S l) (off + m) = S (slot (S l) off) /\
  S (slot (S l) off) < 16 /\
  blk (S l) (off + m) = blk (S l) off /\
  total - m <= 16 ^ S (S l) - (off + m) mod 16 ^ S (S l).
Proof.
  intros w Ht Hle m Hm.
  assert (m = w - off mod w) as Em by lia. clearbody m.
  assert (w <> 0) as Hw by apply pow16_pos.
  assert (16 ^ S (S l) = w * 16) as EW by (unfold w; rewrite (Nat.pow_succ_r' 16 (S l)); lia).
  rewrite EW in *.
  pose proof (Nat.mod_upper_bound off w Hw) as Hr.
  pose proof (Nat.div_mod off w Hw) as Hdm.
  set (q := off / w) in *. set (r := off mod w) in *.
  assert (off mod (w * 16) = r + w * (q mod 16)) as Hmod.
  { rewrite Nat.mod_mul_r by lia. reflexivity. }
  rewrite Hmod in Hle.
  assert (slot (S l) off = q mod 16) as Hs by reflexivity.
  pose proof (Nat.mod_upper_bound q 16 ltac:(lia)) as Hq16.
  assert (off + m = (q + 1) * w) as Hoff by lia.
  assert ((off + m) / w = q + 1) as Hdiv by (rewrite Hoff; apply Nat.div_mul; lia).
  assert (w < w * (16 - q mod 16)) as Hlt by (rewrite Nat.mul_sub_distr_l; lia).
  assert (q mod 16 < 15) as Hlt15.
  { destruct (decide (q mod 16 = 15)) as [E|]; [|lia].
    rewrite E in Hlt. replace (16 - 15) with 1 in Hlt by lia. lia. }
  pose proof (Nat.div_mod q 16 ltac:(lia)) as Hq.
  assert ((q + 1) mod 16 = q mod 16 + 1) as Hq1.
  { symmetry. apply (Nat.mod_unique _ _ (q / 16)); lia. }
  assert ((q + 1) / 16 = q / 16) as Hq2.
  { symmetry. apply (Nat.div_unique _ _ _ (q mod 16 + 1)); lia. }
  split_and!.
  - unfold slot at 1. fold w. rewrite Hdiv, Hs, Hq1. lia.
  - rewrite Hs. lia.
  - unfold blk. rewrite EW. rewrite <-!Nat.div_div by lia. fold w q. rewrite Hdiv. exact Hq2.
  - rewrite Nat.mod_mul_r by lia. rewrite Hdiv, Hq1.
    replace ((off + m) mod w) with 0 by (rewrite Hoff, Nat.mod_mul; lia).
    rewrite Nat.mul_add_distr_l. lia.
Qed.

Section Ops.
Context {T : Type} (zero : T).
Notation heap := (@heap T).
Notation node := (@node T).
Notation st := (@st T).
Notation rd := (rd zero).
Implicit Types (h : heap) (s : st).

Definition root s : ptr := tree (ts (tr s)).

Definition HW h : Prop := forall a, hnext h <= a -> nodes h !! a = None /\ arrs h !! a = None.

Record evol (tid L : nat) s s' : Prop := {
  ev_sub : forall a n, nodes (hp s) !! a = Some n -> nid n <> tid -> nodes (hp s') !! a = Some n;
  ev_mono : mono tid (hp s) (hp s');
  ev_root : forall c, root s = PAddr c -> owned (hp s) tid c -> root s' = PAddr c;
  ev_pres : pres (hp s) (root s) L -> pres (hp s') (root s') L;
  ev_arrs : arrs (hp s') = arrs (hp s);
  ev_ctr : ctr s' = ctr s;
  ev_tr : tr s' = with_s (tr s) (set_tree (ts (tr s)) (root s'));
  ev_next : hnext (hp s) <= hnext (hp s') }.

Lemma with_s_id (t : transient) : with_s t (set_tree (ts t) (tree (ts t))) = t.
Proof. destruct t as [[] ]; reflexivity. Qed.

Lemma evol_refl tid L s : evol tid L s s.
Proof. split; auto using mono_refl. unfold root. rewrite with_s_id. done. Qed.

Lemma evol_trans tid L s1 s2 s3 : evol tid L s1 s2 -> evol tid L s2 s3 -> evol tid L s1 s3.
Proof.
  intros [A1 A2 A3 A0 A4 A5 A6 A7] [B1 B2 B3 B0 B4 B5 B6 B7]. split.
  - intros a n Hn Hi. eauto.
  - eapply mono_trans; eauto.
  - intros c Hc Ho. apply B3; [eauto|]. apply A2; auto.
  - auto.
  - congruence.
  - congruence.
  - rewrite B6, A6. reflexivity.
  - lia.
Qed.

Section Tid.
Context (F : nat -> Prop) (tid : nat) (Htid : tid <> 0) (HFt : ~ F tid).

Definition TI (P : nat -> nat * nat) (L : nat) s : Prop :=
  HW (hp s) /\ aid (tr s) = tid /\ ot (hp s) F tid P (root s) L 0.

(* Positions of nodes that already existed are kept. *)
Definition ext (P P' : nat -> nat * nat) h : Prop :=
  forall a n, nodes h !! a = Some n -> P' a = P a.

Definition slotloc s (L a l i : nat) : Prop :=
  blk L i = 0 /\ owned (hp s) tid a /\ opath (hp s) tid i (root s) L (S l) (PAddr a).

Definition locat s (L : nat) (p : loc) (l i : nat) : Prop :=
  match p with
  | LRoot => l = L /\ blk L i = 0
  | LSlot a j => j = slot (S l) i /\ slotloc s L a l i
  end.

Lemma evol_slotloc s s' L a l i : evol tid L s s' -> slotloc s L a l i -> slotloc s' L a l i.
Proof.
  intros E (Hb & Ho & Hp). split_and!; auto.
  - apply (ev_mono _ _ _ _ E). auto.
  - pose proof (opath_mono _ _ _ _ _ _ _ _ (ev_mono _ _ _ _ E) Hp Ho) as Hp'.
    assert (exists c, root s = PAddr c /\ owned (hp s) tid c) as (c & Hc & Hoc).
    { clear -Hp Ho. remember (root s) as r. remember (PAddr a) as q.
      destruct Hp as [p0 L0|a0 ps L0 l0 q c Hn Hq Hp1]; [eauto|].
      exists a0. split; [done|]. eexists; split; [eauto|done]. }
    rewrite (ev_root _ _ _ _ E c Hc Hoc). rewrite Hc in Hp'. exact Hp'.
Qed.

Lemma evol_locat s s' L p l i : evol tid L s s' -> locat s L p l i -> locat s' L p l i.
Proof. intros E. destruct p; simpl; auto. intros [? ?]. split; eauto using evol_slotloc. Qed.

Lemma locat_load s P L p l i :
  TI P L s -> locat s L p l i ->
  exists q, load p s = Ok (q, s) /\ ot (hp s) F tid P q l (blk l i) /\
    (forall i', blk l i' = blk l i -> rd (hp s) (root s) L i' = rd (hp s) q l i') /\
    opath (hp s) tid i (root s) L l q.
Proof.
  intros (HHW & Ha & Hot) Hloc. destruct p as [|a j]; simpl in Hloc.
  - destruct Hloc as [-> Hb]. exists (root s). rewrite Hb. split_and!; auto. constructor.
  - destruct Hloc as (-> & Hb & Ho & Hp).
    pose proof (ot_opath F tid Htid HFt _ _ _ _ _ _ _ _ Hot Hp Hb) as Hota.
    destruct (ot_owned_inode F tid Htid HFt _ _ _ _ _ Hota Ho) as (HP & ps & Hn & Hl & Hc).
    destruct (lookup_lt_is_Some_2 ps (slot (S l) i)) as [q Hq].
    { rewrite Hl. apply slot_lt. }
    exists q. simpl. rewrite Hn, Hq. split_and!; auto.
    + rewrite (blk_split l i). eauto.
    + intros i' Hi'. symmetry in Hi'.
      pose proof (opath_snoc _ _ _ _ _ _ _ _ _ Hp Hn Hq) as Hp'.
      rewrite (opath_rd zero _ _ _ _ _ _ _ (opath_blk _ _ _ i' _ _ _ _ Hp' Hi')). done.
    + eapply opath_snoc; eauto.
Qed.

(* The subtree predicate of a candidate new node. *)
Definition new_ok h P (n : node) (l b : nat) : Prop :=
  match l with
  | 0 => exists vs, n = Leaf vs tid /\ length vs = 16
  | S l' => exists ps, n = INode ps tid /\ length ps = 16 /\
              forall j q, ps !! j = Some q -> ot h F tid P q l' (16 * b + j)
  end.

(* What the new node reads as. *)
Definition node_rd h (n : node) (l i : nat) : res T :=
  match l, n with
  | 0, Leaf vs _ => match vs !! (i mod 16) with Some x => Ok x | None => Crash end
  | S l', INode ps _ => match ps !! slot l i with Some q => rd h q l' i | None => Crash end
  | _, _ => Crash
  end.

Lemma alloc_frame h F' t P P' p l b n :
  HW h -> (forall a m, nodes h !! a = Some m -> P' a = P a) ->
  ot h F' t P p l b ->
  let h' := mkHeap (<[hnext h := n]> (nodes h)) (arrs h) (S (hnext h)) in
  ot h' F' t P' p l b /\ forall i, rd h' p l i = rd h p l i.
Proof.
  intros HH HP Hot h'. apply (ot_frame zero h h' F' F' t P P'); eauto.
  intros a m Hm _. simpl. rewrite lookup_insert_ne; [done|].
  intros <-. destruct (HH (hnext h)) as [E _]; [lia|congruence].
Qed.

Lemma HW_alloc h n : HW h -> HW (mkHeap (<[hnext h := n]> (nodes h)) (arrs h) (S (hnext h))).
Proof.
  intros HH a Ha. simpl in *. rewrite lookup_insert_ne by lia. apply HH. lia.
Qed.

Lemma pres_ot_unalloc h F' t P q l b n :
  HW h -> ot h F' t P q l b ->
  pres (mkHeap (<[hnext h := n]> (nodes h)) (arrs h) (S (hnext h))) q l -> pres h q l.
Proof.
  intros HH. revert q b. induction l as [|l IH]; intros q b Hot Hp; destruct q as [| |a]; simpl in *; try done.
  assert (nodes h !! hnext h = None) as Hf by (apply HH; lia).
  assert (exists ps i, nodes h !! a = Some (INode ps i) /\
     forall j q, ps !! j = Some q -> exists b', ot h F' t P q l b') as (ps & i & Hn & Hc).
  { destruct Hot as [(ps & i & Hn & _ & _ & Hc)|(_ & a' & Ha & _ & ps & Hn & _ & Hc)].
    - exists ps, i. split; [done|]. intros j q Hq. exists 0. apply wf_ot. eauto.
    - inversion Ha; subst a'. exists ps, t. eauto. }
  rewrite lookup_insert_ne in Hp by congruence. rewrite Hn in *.
  destruct (ps !! 0) as [c|] eqn:E; [|done]. destruct (Hc _ _ E) as [b' Hb']. eauto.
Qed.

(* The new node keeps the first slot if the replaced pointer had it. *)
Definition new_pres h (n : node) (l : nat) : Prop :=
  match l, n with
  | 0, _ => True
  | S l', INode ps _ => exists c, ps !! 0 = Some c /\ pres h c l'
  | _, _ => False
  end.

Lemma install s P L p l i q n :
  TI P L s -> locat s L p l i -> load p s = Ok (q, s) ->
  (forall c, q = PAddr c -> ~ owned (hp s) tid c) ->
  new_ok (hp s) P n l (blk l i) ->
  (forall i', blk l i' = blk l i -> node_rd (hp s) n l i' = rd (hp s) q l i') ->
  (pres (hp s) q l -> new_pres (hp s) n l) ->
  exists s' P', bind (alloc_node n) (fun a1 => bind (store p (PAddr a1)) (fun _ => ret a1)) s
                = Ok (hnext (hp s), s') /\
    TI P' L s' /\ evol tid L s s' /\ ext P P' (hp s) /\
    nodes (hp s') !! hnext (hp s) = Some n /\
    load p s' = Ok (PAddr (hnext (hp s)), s') /\
    (forall i', blk L i' = 0 -> rd (hp s') (root s') L i' = rd (hp s) (root s) L i').
Proof.
  intros HT Hloc Hld Hno Hnew Hrd Hpn. pose proof HT as (HH & Haid & Hot).
  set (a1 := hnext (hp s)). set (h1 := mkHeap (<[a1 := n]> (nodes (hp s))) (arrs (hp s)) (S a1)).
  set (P' := fun a => if decide (a = a1) then (l, blk l i) else P a).
  assert (nodes (hp s) !! a1 = None) as Hfresh by (apply HH; unfold a1; lia).
  assert (ext P P' (hp s)) as Hext.
  { intros a m Hm. unfold P'. rewrite decide_False; [done|]. intros ->. congruence. }
  assert (forall p0 l0 b0, ot (hp s) F tid P p0 l0 b0 ->
     ot h1 F tid P' p0 l0 b0 /\ forall i, rd h1 p0 l0 i = rd (hp s) p0 l0 i) as Hfr.
  { intros p0 l0 b0 H0. apply (alloc_frame (hp s) F tid P P' p0 l0 b0 n); auto. }
  assert (nodes h1 !! a1 = Some n) as Hn1 by (simpl; rewrite lookup_insert; done).
  assert (nid n = tid) as Hnid.
  { destruct l as [|l]; [destruct Hnew as (vs & -> & _)|destruct Hnew as (ps & -> & _)]; done. }
  assert (ot h1 F tid P' (PAddr a1) l (blk l i)) as Hot1.
  { assert (P' a1 = (l, blk l i)) as HPa by (unfold P'; rewrite decide_True; done).
    destruct l as [|l]; right; (split; [done|]); exists a1; (split_and!; [done|done|]).
    - destruct Hnew as (vs & E & Hl). exists vs. rewrite Hn1, E. auto.
    - destruct Hnew as (ps & E & Hl & Hc). exists ps. rewrite Hn1, E. split_and!; auto.
      intros j q0 Hq0. apply Hfr. auto. }
  assert (forall i', blk l i' = blk l i -> rd h1 (PAddr a1) l i' = rd (hp s) q l i') as Hrd1.
  { intros i' Hi'. rewrite <-Hrd by done. destruct l as [|l].
    - destruct Hnew as (vs & E & Hl). simpl. rewrite lookup_insert, E. reflexivity.
    - destruct Hnew as (ps & E & Hl & Hc). simpl. rewrite lookup_insert, E.
      destruct (ps !! slot (S l) i') as [q1|] eqn:Hq1; [|reflexivity].
      eapply Hfr. eauto. }
  assert (forall p0 l0, pres (hp s) p0 l0 -> pres h1 p0 l0) as Hpfr.
  { intros p0 l0. apply pres_frame. intros a0 ps0 i0 Hn0. simpl. rewrite lookup_insert_ne; [done|]. congruence. }
  assert (pres (hp s) q l -> pres h1 (PAddr a1) l) as Hp1.
  { intros Hpq. specialize (Hpn Hpq). destruct l as [|l]; [done|].
    cbn [pres]. rewrite Hn1. simpl in Hpn. destruct n as [|ps0 i0]; [done|].
    destruct Hpn as (c & -> & Hc). auto. }
  assert (mono tid (hp s) h1) as Hm1.
  { split.
    - intros a (m & Hm & Hi). exists m. split; [|done]. simpl. rewrite lookup_insert_ne; [done|]. congruence.
    - intros a ps Hm. exists ps. split_and!; auto. simpl. rewrite lookup_insert_ne; [done|]. congruence. }
  destruct p as [|a j].
  - destruct Hloc as [-> Hb]. rewrite Hb in *.
    simpl in Hld. injection Hld as Hq.
    exists (mkSt h1 (ctr s) (with_s (tr s) (set_tree (ts (tr s)) (PAddr a1)))), P'.
    split; [reflexivity|]. split_and!; auto.
    + split_and!; auto. apply HW_alloc; auto.
    + split; simpl; auto.
      * intros a m Hm Hi. rewrite lookup_insert_ne; [done|]. congruence.
      * intros c Hc Ho. exfalso. apply (Hno c); auto. unfold root in Hc. congruence.
      * intros Hpr. unfold root in Hpr. rewrite Hq in Hpr. auto.
    + intros i' Hi'. unfold root at 1. simpl. rewrite Hrd1 by congruence. subst q. reflexivity.
  - destruct Hloc as (-> & Hb & Ho & Hp).
    pose proof (ot_opath F tid Htid HFt _ _ _ _ _ _ _ _ Hot Hp Hb) as Hota.
    destruct (ot_owned_inode F tid Htid HFt _ _ _ _ _ Hota Ho) as (HP & ps & Hn & Hl & Hc).
    simpl in Hld. rewrite Hn in Hld.
    destruct (ps !! slot (S l) i) as [q'|] eqn:Hq; [|done]. inversion Hld; subst q'. clear Hld.
    assert (a <> a1) as Hne by congruence.
    assert (nodes h1 !! a = Some (INode ps tid)) as Hna.
    { simpl. rewrite lookup_insert_ne; auto. }
    set (ps' := <[slot (S l) i := PAddr a1]> ps).
    set (h2 := set_nodes h1 (<[a := INode ps' tid]> (nodes h1))).
    assert (P' a = (S l, blk (S l) i)) as HPa by (rewrite (Hext a _ Hn); exact HP).
    assert (ot h2 F tid P' (PAddr a1) l (16 * blk (S l) i + slot (S l) i) /\
            forall i', rd h2 (PAddr a1) l i' = rd h1 (PAddr a1) l i') as [Hot2 Hrd2].
    { rewrite <-blk_split.
      (* a is at level S l, so the subtree at level l does not contain it *)
      assert (forall l0 p0 b0, l0 <= l -> ot h1 F tid P' p0 l0 b0 ->
          ot h2 F tid P' p0 l0 b0 /\ forall i', rd h2 p0 l0 i' = rd h1 p0 l0 i') as Hlow.
      { clear -Htid HFt Hna HPa. induction l0 as [|l0 IH]; intros p0 b0 Hle H0.
        - destruct H0 as [Hwf|(Ht & a' & -> & HP' & vs & Hn & Hl)].
          + destruct (wf_frame zero h1 h2 F F p0 0) as [H1 H2]; auto.
            { intros a2 m Hm Hf. subst h2. simpl in *. rewrite lookup_insert_ne; [done|]. intros ->.
              rewrite Hna in Hm; inversion Hm; subst; auto. }
            split; [left|]; auto.
          + assert (a <> a') by (intros ->; rewrite HPa in HP'; inversion HP').
            assert (nodes h2 !! a' = Some (Leaf vs tid)) as Hn2.
            { subst h2. simpl in *. rewrite lookup_insert_ne; auto. }
            split.
            * right. split; [done|]. exists a'. eauto 10.
            * intros i'. cbn [PersistModel.rd]. rewrite Hn2, Hn. reflexivity.
        - destruct H0 as [Hwf|(Ht & a' & -> & HP' & ps0 & Hn & Hl & Hc)].
          + destruct (wf_frame zero h1 h2 F F p0 (S l0)) as [H1 H2]; auto.
            { intros a2 m Hm Hf. subst h2. simpl in *. rewrite lookup_insert_ne; [done|]. intros ->.
              rewrite Hna in Hm; inversion Hm; subst; auto. }
            split; [left|]; auto.
          + assert (a <> a') by (intros ->; rewrite HPa in HP'; inversion HP'; lia).
            assert (nodes h2 !! a' = Some (INode ps0 tid)) as Hn2.
            { subst h2. simpl in *. rewrite lookup_insert_ne; auto. }
            split.
            * right. split; [done|]. exists a'. split_and!; auto. exists ps0. split_and!; auto.
              intros j0 q0 Hq0. apply IH; [lia|auto].
            * intros i'. cbn [PersistModel.rd]. rewrite Hn2, Hn.
              destruct (ps0 !! slot (S l0) i') eqn:E; [|done]. eapply IH; [lia|eauto]. }
      apply Hlow; auto. }
    destruct (store_slot zero F tid Htid HFt h1 P' (root s) L 0 a ps (slot (S l) i) q (PAddr a1) l (blk (S l) i))
      as [Hot3 Hrd3]; auto.
    { intros i' Hi'. rewrite <-blk_split in Hi'. fold ps' h2. rewrite Hrd2, Hrd1 by done. symmetry.
      eapply Hfr. rewrite (blk_split l i) in *. eauto. }
    { apply Hfr. exact Hot. }
    exists (mkSt h2 (ctr s) (tr s)), P'.
    split.
    { unfold bind, alloc_node, store, ret. cbn [hp ctr tr nodes]. fold a1. fold h1.
      change (<[a1:=n]> (nodes (hp s))) with (nodes h1). rewrite Hna.
      rewrite decide_True by (rewrite Hl; apply slot_lt). reflexivity. }
    split_and!; auto.
    + split_and!; auto.
      * intros a0 Ha0. simpl in *. rewrite !lookup_insert_ne by (try (intros ->; rewrite (proj1 (HH a0 ltac:(lia))) in Hn; done); lia).
        apply HH. lia.
    + split; simpl; auto.
      * intros a0 m Hm Hi. rewrite lookup_insert_ne by (intros ->; rewrite Hn in Hm; inversion Hm; subst; auto).
        rewrite lookup_insert_ne; [done|]. congruence.
      * eapply mono_trans; [exact Hm1|]. split.
        -- intros a0 (m & Hm & Hi). destruct (decide (a0 = a)) as [->|Hne0].
           ++ exists (INode ps' tid). split; [|done]. simpl. rewrite lookup_insert. done.
           ++ exists m. split; [|done]. simpl in *. rewrite (lookup_insert_ne _ a a0); auto.
        -- intros a0 ps0 Hm. destruct (decide (a0 = a)) as [->|Hne0].
           ++ rewrite Hna in Hm. inversion Hm; subst ps0. exists ps'. split_and!.
              ** simpl. rewrite lookup_insert. done.
              ** unfold ps'. rewrite insert_length. done.
              ** intros j0 c Hj0 Hc0. unfold ps'. rewrite list_lookup_insert_ne; [done|].
                 intros <-. rewrite Hq in Hj0. inversion Hj0; subst q.
                 destruct (decide (c = a1)) as [->|Hc1].
                 { (* a1 is fresh, cannot be the old pointer *)
                   pose proof (Hc _ _ Hq) as Hotc.
                   clear -Hotc Hfresh. destruct l as [|l]; destruct Hotc as [Hwf|(_ & a' & Ha' & _ & Hx)].
                   - simpl in Hwf; destruct Hwf as (? & ? & Hx & _); congruence.
                   - inversion Ha'; subst a'. destruct Hx as (? & Hx & _); congruence.
                   - simpl in Hwf; destruct Hwf as (? & ? & Hx & _); congruence.
                   - inversion Ha'; subst a'. destruct Hx as (? & Hx & _); congruence. }
                 apply (Hno c); auto. destruct Hc0 as (m & Hm0 & Hi0). exists m. split; [|done].
                 simpl in Hm0. rewrite lookup_insert_ne in Hm0; auto.
           ++ exists ps0. split_and!; auto. simpl in *. rewrite (lookup_insert_ne _ a a0); auto.
      * intros Hpr. unfold root. cbn [tr]. fold (root s).
        eapply (store_slot_pres F tid Htid HFt h1 P' (root s) L 0 a ps (slot (S l) i) q (PAddr a1) l); eauto.
        -- intros Hpq.
           assert (pres (hp s) q l) as Hpq0.
           { apply (pres_ot_unalloc (hp s) F tid P q l (blk l i) n); auto.
             rewrite (blk_split l i). eauto. }
           fold ps' h2.
           eapply (low_pres F tid Htid HFt h1 P' (PAddr a1) l (blk l i) a ps ps' l); eauto.
        -- apply Hfr. exact Hot.
      * unfold root. simpl. rewrite with_s_id. done.
    + simpl. rewrite lookup_insert_ne by done. rewrite lookup_insert. done.
    + simpl. rewrite lookup_insert. unfold ps'.
      rewrite list_lookup_insert by (rewrite Hl; apply slot_lt). done.
    + intros i' Hi'. unfold root at 1. simpl. fold (root s). rewrite Hrd3 by done.
      eapply Hfr. exact Hot.
Qed.


Definition res_opt (o : option T) : res T := match o with Some x => Ok x | None => Crash end.

Lemma get_id_owned s P L : TI P L s -> get_id s = Ok (tid, s).
Proof.
  intros (_ & Ha & _). unfold get_id. rewrite decide_False by congruence. rewrite Ha. done.
Qed.

Lemma wnode_spec s P L p l i :
  TI P L s -> locat s L p (S l) i ->
  exists a s' P', wnode p s = Ok (a, s') /\ TI P' L s' /\ evol tid L s s' /\ ext P P' (hp s) /\
    slotloc s' L a l i /\
    (forall i', blk L i' = 0 -> rd (hp s') (root s') L i' = rd (hp s) (root s) L i').
Proof.
  intros HT Hloc. destruct (locat_load _ _ _ _ _ _ HT Hloc) as (q & Hld & Hot & Hrd & Hop).
  assert (blk L i = 0) as Hb by (destruct p; simpl in Hloc; [|unfold slotloc in Hloc]; tauto).
  unfold wnode. unfold bind at 1. rewrite Hld. unfold bind at 1. rewrite (get_id_owned s P L HT).
  assert (forall n, new_ok (hp s) P n (S l) (blk (S l) i) ->
     (forall i', blk (S l) i' = blk (S l) i -> node_rd (hp s) n (S l) i' = rd (hp s) q (S l) i') ->
     (forall c, q = PAddr c -> ~ owned (hp s) tid c) ->
     (pres (hp s) q (S l) -> new_pres (hp s) n (S l)) ->
     exists (a : nat) s' P', bind (alloc_node n) (fun a1 => bind (store p (PAddr a1)) (fun _ => ret a1)) s
        = Ok (a, s') /\ TI P' L s' /\ evol tid L s s' /\ ext P P' (hp s) /\ slotloc s' L a l i /\
    (forall i', blk L i' = 0 -> rd (hp s') (root s') L i' = rd (hp s) (root s) L i')) as Hinst.
  { intros n Hnew Hnrd Hno Hpn.
    destruct (install s P L p (S l) i q n) as (s' & P' & E & HT' & Ev & Hx & Hn & Hld' & Hrd'); auto.
    exists (hnext (hp s)), s', P'. split_and!; auto. split_and!; auto.
    - exists n. split; [done|]. destruct Hnew as (ps & -> & _). done.
    - destruct (locat_load s' P' L p (S l) i) as (q' & Hld2 & _ & _ & Hop'); eauto using evol_locat.
      rewrite Hld' in Hld2. inversion Hld2; subst. done. }
  destruct q as [| |a].
  - apply Hinst.
    + exists (replicate 16 PNil). rewrite replicate_length. split_and!; auto.
      intros j q Hq. apply lookup_replicate in Hq as [-> _]. apply wf_ot. destruct l; done.
    + intros i' _. cbn [node_rd]. rewrite lookup_replicate_2 by apply slot_lt. destruct l; done.
    + done.
    + done.
  - destruct Hot as [Hwf|(_ & a & Ha & _)]; done.
  - destruct Hot as [Hwf|(_ & a' & Ha & HP & ps & Hn & Hl & Hc)].
    + pose proof (wf_not_owned F tid Htid HFt _ _ _ Hwf) as Hno.
      destruct Hwf as (ps & i0 & Hn & Hl & Hf & Hc).
      unfold bind at 1, fetch. rewrite Hn. rewrite decide_False by (intros ->; auto).
      apply Hinst.
      * exists ps. split_and!; auto. intros j q Hq. apply wf_ot. eauto.
      * intros i' _. cbn [node_rd PersistModel.rd]. rewrite Hn. done.
      * intros c Hc0. inversion Hc0; subst. done.
      * simpl. rewrite Hn. destruct (ps !! 0) eqn:E; [|done]. eauto.
    + inversion Ha; subst a'. unfold bind at 1, fetch. rewrite Hn, decide_True by done.
      exists a, s, P. split_and!; auto using evol_refl; [done|].
      split_and!; auto. eexists; split; [eauto|done].
Qed.

Lemma wleaf_spec s P L p i :
  TI P L s -> locat s L p 0 i ->
  exists a s' P', wleaf zero p s = Ok (a, s') /\ TI P' L s' /\ evol tid L s s' /\ ext P P' (hp s) /\
    (blk L i = 0 /\ owned (hp s') tid a /\ opath (hp s') tid i (root s') L 0 (PAddr a)) /\
    (forall i', blk L i' = 0 -> rd (hp s') (root s') L i' = rd (hp s) (root s) L i').
Proof.
  intros HT Hloc. destruct (locat_load _ _ _ _ _ _ HT Hloc) as (q & Hld & Hot & Hrd & Hop).
  assert (blk L i = 0) as Hb by (destruct p; simpl in Hloc; [|unfold slotloc in Hloc]; tauto).
  unfold wleaf. unfold bind at 1. rewrite Hld. unfold bind at 1. rewrite (get_id_owned s P L HT).
  assert (forall n, new_ok (hp s) P n 0 (blk 0 i) ->
     (forall i', blk 0 i' = blk 0 i -> node_rd (hp s) n 0 i' = rd (hp s) q 0 i') ->
     (forall c, q = PAddr c -> ~ owned (hp s) tid c) ->
     exists (a : nat) s' P', bind (alloc_node n) (fun a1 => bind (store p (PAddr a1)) (fun _ => ret a1)) s
        = Ok (a, s') /\ TI P' L s' /\ evol tid L s s' /\ ext P P' (hp s) /\
    (blk L i = 0 /\ owned (hp s') tid a /\ opath (hp s') tid i (root s') L 0 (PAddr a)) /\
    (forall i', blk L i' = 0 -> rd (hp s') (root s') L i' = rd (hp s) (root s) L i')) as Hinst.
  { intros n Hnew Hnrd Hno.
    destruct (install s P L p 0 i q n) as (s' & P' & E & HT' & Ev & Hx & Hn & Hld' & Hrd'); auto; [done|].
    exists (hnext (hp s)), s', P'. split_and!; auto.
    - exists n. split; [done|]. destruct Hnew as (ps & -> & _). done.
    - destruct (locat_load s' P' L p 0 i) as (q' & Hld2 & _ & _ & Hop'); eauto using evol_locat.
      rewrite Hld' in Hld2. inversion Hld2; subst. done. }
  destruct q as [| |a].
  - apply Hinst.
    + exists (replicate 16 zero). rewrite replicate_length. split_and!; auto.
    + intros i' _. cbn [node_rd]. rewrite lookup_replicate_2 by (apply Nat.mod_upper_bound; lia). done.
    + done.
  - destruct Hot as [Hwf|(_ & a & Ha & _)]; done.
  - destruct Hot as [Hwf|(_ & a' & Ha & HP & vs & Hn & Hl)].
    + pose proof (wf_not_owned F tid Htid HFt _ _ 0 Hwf) as Hno.
      destruct Hwf as (vs & i0 & Hn & Hl & Hf).
      unfold bind at 1, fetch. rewrite Hn. rewrite decide_False by (intros ->; auto).
      apply Hinst.
      * exists vs. split_and!; auto.
      * intros i' _. cbn [node_rd PersistModel.rd]. rewrite Hn. done.
      * intros c Hc0. inversion Hc0; subst. done.
    + inversion Ha; subst a'. unfold bind at 1, fetch. rewrite Hn, decide_True by done.
      exists a, s, P. split_and!; auto using evol_refl; [done|].
      eexists; split; [eauto|done].
Qed.

Lemma write_leaf_spec s P L a i f :
  TI P L s -> blk L i = 0 -> owned (hp s) tid a -> opath (hp s) tid i (root s) L 0 (PAddr a) ->
  (forall vs : list T, length vs = 16 -> length (f vs) = 16) ->
  exists s' vs, write_leaf a f s = Ok (tt, s') /\ TI P L s' /\ evol tid L s s' /\ length vs = 16 /\
    (forall i', blk 0 i' = blk 0 i -> rd (hp s) (root s) L i' = res_opt (vs !! (i' mod 16))) /\
    (forall i', blk 0 i' = blk 0 i -> rd (hp s') (root s') L i' = res_opt (f vs !! (i' mod 16))) /\
    (forall i', blk L i' = 0 -> blk 0 i' <> blk 0 i ->
       rd (hp s') (root s') L i' = rd (hp s) (root s) L i').
Proof.
  intros (HH & Haid & Hot) Hb Ho Hp Hf.
  pose proof (ot_opath F tid Htid HFt _ _ _ _ _ _ _ _ Hot Hp Hb) as Hota.
  destruct (ot_owned_leaf F tid Htid HFt _ _ _ _ Hota Ho) as (HP & vs & Hn & Hl).
  destruct (write_leaf_tree zero F tid Htid HFt (hp s) P (root s) L 0 a vs (f vs) (blk 0 i))
    as [Hot' Hrd']; auto.
  set (h' := set_nodes (hp s) (<[a := Leaf (f vs) tid]> (nodes (hp s)))) in *.
  exists (mkSt h' (ctr s) (tr s)), vs.
  assert (mono tid (hp s) h') as Hm.
  { split.
    - intros a0 (m & Hm & Hi). destruct (decide (a0 = a)) as [->|Hne].
      + eexists. split; [simpl; rewrite lookup_insert; done|done].
      + exists m. split; [|done]. simpl. rewrite lookup_insert_ne; auto.
    - intros a0 ps Hm. exists ps. split_and!; auto. simpl. rewrite lookup_insert_ne; congruence. }
  split; [unfold write_leaf; rewrite Hn; reflexivity|]. split_and!; auto.
  - split_and!; auto. intros a0 Ha0. simpl in *. rewrite lookup_insert_ne; [auto|].
    intros ->. rewrite (proj1 (HH a0 Ha0)) in Hn. done.
  - split; simpl; auto.
    + intros a0 n Hn0 Hi. rewrite lookup_insert_ne; [done|]. intros ->. rewrite Hn in Hn0. inversion Hn0; subst; auto.
    + intros Hpr. unfold root; cbn [tr]. fold (root s). eapply pres_frame; [|exact Hpr].
      intros a0 ps0 i0 Hn0. simpl. rewrite lookup_insert_ne; congruence.
    + unfold root; simpl. rewrite with_s_id. done.
  - intros i' Hi'. rewrite (opath_rd zero _ _ _ _ _ _ _ (opath_blk _ _ _ i' _ _ _ _ Hp (eq_sym Hi'))).
    cbn [PersistModel.rd]. rewrite Hn. done.
  - intros i' Hi'. pose proof (opath_mono _ _ _ _ _ _ _ _ Hm Hp Ho) as Hp'.
    unfold root. cbn [hp tr]. fold (root s).
    rewrite (opath_rd zero _ _ _ _ _ _ _ (opath_blk _ _ _ i' _ _ _ _ Hp' (eq_sym Hi'))).
    cbn [PersistModel.rd]. simpl. rewrite lookup_insert. done.
Qed.

(* The descent of Set. *)
Lemma walk_spec l s P L p i :
  TI P L s -> locat s L p l i ->
  exists p' s' P', walk l p i s = Ok (p', s') /\ TI P' L s' /\ evol tid L s s' /\ ext P P' (hp s) /\
    locat s' L p' 0 i /\
    (forall i', blk L i' = 0 -> rd (hp s') (root s') L i' = rd (hp s) (root s) L i').
Proof.
  revert s P p. induction l as [|l IH]; intros s P p HT Hloc; cbn [walk].
  - exists p, s, P. split_and!; auto using evol_refl; done.
  - destruct (wnode_spec s P L p l i HT Hloc) as (a & s1 & P1 & E1 & HT1 & Ev1 & Hx1 & Hsl & Hrd1).
    unfold bind. rewrite E1.
    destruct (IH s1 P1 (LSlot a (slot (S l) i)) HT1) as (p' & s2 & P2 & E2 & HT2 & Ev2 & Hx2 & Hl2 & Hrd2).
    { split; auto. }
    exists p', s2, P2. split_and!; auto.
    + eapply evol_trans; eauto.
    + intros a0 n Hn. rewrite <-(Hx1 a0 n Hn).
      destruct (decide (nid n = tid)) as [Hi|Hi].
      * destruct (ev_mono _ _ _ _ Ev1) as [Hmo _]. destruct (Hmo a0) as (n' & Hn' & _); [exists n; auto|].
        apply (Hx2 a0 n'). done.
      * apply (Hx2 a0 n). apply (ev_sub _ _ _ _ Ev1); auto.
    + intros i' Hi'. rewrite Hrd2, Hrd1; auto.
Qed.

Lemma ext_trans L s1 s2 P1 P2 P3 :
  evol tid L s1 s2 -> ext P1 P2 (hp s1) -> ext P2 P3 (hp s2) -> ext P1 P3 (hp s1).
Proof.
  intros Ev1 Hx1 Hx2 a0 n Hn. rewrite <-(Hx1 a0 n Hn).
  destruct (decide (nid n = tid)) as [Hi|Hi].
  - destruct (ev_mono _ _ _ _ Ev1) as [Hmo _]. destruct (Hmo a0) as (n' & Hn' & _); [exists n; auto|].
    apply (Hx2 a0 n'). done.
  - apply (Hx2 a0 n). apply (ev_sub _ _ _ _ Ev1); auto.
Qed.

(* Set in the tree: one read changes. *)
Lemma set_tree_spec s P L i x :
  TI P L s -> blk L i = 0 ->
  exists s' P', bind (walk L LRoot i) (fun p => bind (wleaf zero p) (fun a =>
                   write_leaf a (fun vs => <[i mod 16 := x]> vs))) s = Ok (tt, s') /\
    TI P' L s' /\ evol tid L s s' /\ ext P P' (hp s) /\
    (forall i', blk L i' = 0 -> rd (hp s') (root s') L i' =
        if decide (i' = i) then Ok x else rd (hp s) (root s) L i').
Proof.
  intros HT Hb.
  destruct (walk_spec L s P L LRoot i HT) as (p & s1 & P1 & E1 & HT1 & Ev1 & Hx1 & Hl1 & Hrd1); [done|].
  destruct (wleaf_spec s1 P1 L p i HT1 Hl1) as (a & s2 & P2 & E2 & HT2 & Ev2 & Hx2 & (_ & Ho & Hp) & Hrd2).
  destruct (write_leaf_spec s2 P2 L a i (fun vs => <[i mod 16 := x]> vs) HT2 Hb Ho Hp)
    as (s3 & vs & E3 & HT3 & Ev3 & Hl & Hr3a & Hr3b & Hr3c).
  { intros vs Hvs. rewrite insert_length. done. }
  exists s3, P2. split_and!; auto.
  - unfold bind. rewrite E1, E2. exact E3.
  - eauto using evol_trans.
  - eapply ext_trans; eauto.
  - intros i' Hi'. destruct (decide (blk 0 i' = blk 0 i)) as [Hbk|Hbk].
    + rewrite Hr3b by done. destruct (decide (i' = i)) as [->|Hne].
      * rewrite list_lookup_insert; [done|]. rewrite Hl. apply Nat.mod_upper_bound. lia.
      * rewrite list_lookup_insert_ne.
        -- rewrite <-Hr3a by done. rewrite Hrd2, Hrd1; done.
        -- intros Hm. apply Hne. apply mod16_blk; auto.
    + rewrite decide_False by congruence. rewrite Hr3c, Hrd2, Hrd1; auto.
Qed.

(* copy: reads in [off, off+total) come from src, the others are unchanged. *)
Definition copied s s' (L off : nat) (src : list T) (total : nat) : Prop :=
  forall i', blk L i' = 0 -> rd (hp s') (root s') L i' =
    if decide (off <= i' < off + total) then res_opt (src !! (i' - off))
    else rd (hp s) (root s) L i'.

(* The leaf for index i is owned, and so is the path to it. *)
Definition leafpath s (L i : nat) : Prop :=
  exists a, owned (hp s) tid a /\ opath (hp s) tid i (root s) L 0 (PAddr a).

Lemma evol_leafpath s s' L i : evol tid L s s' -> leafpath s L i -> leafpath s' L i.
Proof.
  intros E (a & Ho & Hp). exists a. split.
  - apply (ev_mono _ _ _ _ E). auto.
  - pose proof (opath_mono _ _ _ _ _ _ _ _ (ev_mono _ _ _ _ E) Hp Ho) as Hp'.
    assert (exists c, root s = PAddr c /\ owned (hp s) tid c) as (c & Hc & Hoc).
    { clear -Hp Ho. remember (root s) as r. remember (PAddr a) as q.
      destruct Hp as [p0 L0|a0 ps L0 l0 q c Hn Hq Hp1]; [eauto|].
      exists a0. split; [done|]. eexists; split; [eauto|done]. }
    rewrite (ev_root _ _ _ _ E c Hc Hoc). rewrite Hc in Hp'. exact Hp'.
Qed.

Lemma copy_spec l : forall s P L p off src total,
  TI P L s -> locat s L p l off ->
  off mod 16 = 0 -> total mod 16 = 0 -> 0 < total ->
  total <= 16 ^ S l - off mod 16 ^ S l -> total <= length src ->
  exists s' P', copy_ zero l p off src total s = Ok (tt, s') /\
    TI P' L s' /\ evol tid L s s' /\ ext P P' (hp s) /\ copied s s' L off src total /\
    leafpath s' L off.
Proof.
  induction l as [|l IH]; intros s P L p off src total HT Hloc Ho16 Ht16 Ht0 Htw Hts; cbn [copy_].
  - destruct (wleaf_spec s P L p off HT Hloc) as (a & s2 & P2 & E2 & HT2 & Ev2 & Hx2 & (Hb & Ho & Hp) & Hrd2).
    change (16 ^ 1) with 16 in Htw.
    assert (total = 16) as ->.
    { pose proof (Nat.div_mod total 16 ltac:(lia)). lia. }
    destruct (write_leaf_spec s2 P2 L a off (fun _ => take 16 src) HT2 Hb Ho Hp)
      as (s3 & vs & E3 & HT3 & Ev3 & Hl & Hr3a & Hr3b & Hr3c).
    { intros vs _. rewrite take_length. lia. }
    exists s3, P2. split_and!; auto.
    + unfold bind. rewrite E2. rewrite decide_True by lia. exact E3.
    + eauto using evol_trans.
    + intros i' Hi'. pose proof (Nat.div_mod off 16 ltac:(lia)) as Hd.
      pose proof (Nat.div_mod i' 16 ltac:(lia)) as Hd'.
      pose proof (Nat.mod_upper_bound i' 16 ltac:(lia)) as Hm'.
      unfold blk in Hr3b, Hr3c. change (16 ^ 1) with 16 in *.
      destruct (decide (off <= i' < off + 16)) as [Hin|Hin].
      * rewrite Hr3b by lia. rewrite lookup_take by lia. do 2 f_equal. lia.
      * rewrite Hr3c, Hrd2; auto. lia.
    + eapply evol_leafpath; [exact Ev3|]. exists a. auto.
  - destruct (wnode_spec s P L p l off HT Hloc) as (a & s1 & P1 & E1 & HT1 & Ev1 & Hx1 & Hsl1 & Hrd1).
    unfold bind at 1. rewrite E1.
    match goal with |- context [(fix go (k j off : nat) (src : list T) (total : nat) {struct k} := _) ] =>
      set (go := (fix go (k j off : nat) (src : list T) (total : nat) {struct k} : M unit := _)) end.
    assert (forall k j off src total s1 P1, k = 16 - j -> TI P1 L s1 ->
       (0 < total -> slotloc s1 L a l off /\ j = slot (S l) off /\ off mod 16 = 0 /\
           total <= 16 ^ S (S l) - off mod 16 ^ S (S l)) ->
       total mod 16 = 0 -> total <= length src ->
       exists s' P', go k j off src total s1 = Ok (tt, s') /\
          TI P' L s' /\ evol tid L s1 s' /\ ext P1 P' (hp s1) /\ copied s1 s' L off src total /\
          (0 < total -> leafpath s' L off)) as Hgo.
    { clear -IH Htid HFt. induction k as [|k IHk]; intros j off src total s1 P1 Hk HT1 Hpre Ht16 Hts.
      - destruct (decide (total = 0)) as [->|Hne].
        + exists s1, P1. split_and!; auto using evol_refl; [done| |lia].
          intros i' Hi'. rewrite decide_False by lia. done.
        + exfalso. destruct Hpre as (_ & Hj & _); [lia|]. pose proof (slot_lt (S l) off). lia.
      - cbn [go]. destruct (decide (total = 0)) as [->|Hne].
        + exists s1, P1. split_and!; auto using evol_refl; [done| |lia].
          intros i' Hi'. rewrite decide_False by lia. done.
        + destruct Hpre as (Hsl & Hj & Ho16 & Htw); [lia|].
          set (w := 16 ^ S l) in *. set (m := Nat.min total (w - off mod w)).
          assert (w <> 0) as Hw by apply pow16_pos.
          pose proof (Nat.mod_upper_bound off w Hw) as Hmo.
          assert (exists w', w = 16 * w') as [w' Hw'].
          { exists (16 ^ l). unfold w. apply Nat.pow_succ_r'. }
          assert (m mod 16 = 0) as Hm16.
          { unfold m. destruct (decide (total <= w - off mod w)) as [Hc|Hc].
            - rewrite Nat.min_l by lia. done.
            - rewrite Nat.min_r by lia.
              assert ((off mod w) mod 16 = 0) as Hom.
              { rewrite Hw'. rewrite Nat.mod_mul_r by lia. rewrite Ho16, Nat.add_0_l.
                rewrite Nat.mul_comm. apply Nat.mod_mul. lia. }
              rewrite Hw' in *.
              pose proof (Nat.div_mod (off mod (16 * w')) 16 ltac:(lia)) as Hd.
              rewrite Hom in Hd.
              replace (16 * w' - off mod (16 * w')) with ((w' - (off mod (16*w')) / 16) * 16) by lia.
              apply Nat.mod_mul. lia. }
          rewrite decide_True by lia.
          destruct (IH s1 P1 L (LSlot a j) off (take m src) m) as (s2 & P2 & E2 & HT2 & Ev2 & Hx2 & Hc2 & Hlp2); auto.
          { split; auto. }
          { unfold m. lia. }
          { fold w. unfold m. lia. }
          { rewrite take_length. lia. }
          unfold bind. rewrite E2.
          pose proof (next_child l off total ltac:(lia) Htw) as Hnc. cbv zeta in Hnc. fold w m in Hnc.
          destruct (IHk (S j) (off + m) (drop m src) (total - m) s2 P2) as (s3 & P3 & E3 & HT3 & Ev3 & Hx3 & Hc3 & _); auto.
          { lia. }
          { intros Htm. destruct (Hnc Htm) as (Hs & Hs16 & Hbk & Hlt). split_and!; auto.
            - pose proof (evol_slotloc s1 s2 L a l off Ev2 Hsl) as (Hb2 & Ho2 & Hp2).
              assert (S l <= L) as HlL by (eapply opath_le; eauto).
              split_and!; auto.
              + rewrite <-Hb2. eapply blk_ge; [exact HlL|]. done.
              + eapply opath_blk; [exact Hp2|]. done.
            - lia.
            - rewrite <-Nat.add_mod_idemp_l, Ho16, Nat.add_0_l by lia. done. }
          { pose proof (Nat.div_mod total 16 ltac:(lia)) as D1. pose proof (Nat.div_mod m 16 ltac:(lia)) as D2.
            replace (total - m) with ((total / 16 - m / 16) * 16) by lia. apply Nat.mod_mul. lia. }
          { rewrite drop_length. lia. }
          exists s3, P3. split_and!; auto.
          * eauto using evol_trans.
          * eapply ext_trans; eauto.
          * intros i' Hi'. rewrite Hc3 by done. rewrite Hc2 by done.
            assert (m <= total) as Hmt by (unfold m; lia).
            destruct (decide (off + m <= i' < off + m + (total - m))) as [H1|H1].
            -- rewrite decide_True by lia. rewrite lookup_drop. do 2 f_equal. lia.
            -- destruct (decide (off <= i' < off + m)) as [H2|H2].
               ++ rewrite decide_True by lia. rewrite lookup_take by lia. done.
               ++ rewrite decide_False by lia. done.
          * intros _. eapply evol_leafpath; eauto. }
    destruct (Hgo (16 - slot (S l) off) (slot (S l) off) off src total s1 P1) as (s2 & P2 & E2 & HT2 & Ev2 & Hx2 & Hc2 & Hlp2); auto.
    exists s2, P2. split_and!; auto.
    + eauto using evol_trans.
    + eapply ext_trans; eauto.
    + intros i' Hi'. rewrite Hc2 by done. rewrite Hrd1 by done. done.
Qed.

End Tid.
End Ops.

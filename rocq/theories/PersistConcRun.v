(* Concurrent Set calls: the invariant over whole configurations, runs under any
   schedule, absence of data races, and progress. *)
From stdpp Require Import gmap list.
From Verif Require Import PersistModel PersistTree PersistOps PersistEdit PersistSpec PersistWorld
  PersistConcModel PersistConcSpec PersistConc.

Section Run.
Context {T : Type} (zero : T).
Notation st := (@st T).
Notation pc := (pc T).
Notation cfg := (cfg T).
Notation thread := (thread T).
Implicit Types (s : st) (c : cfg).

(* ---- the writes made so far ---- *)

Definition wr (l : list T) (tl : list thread) : list T :=
  foldl (fun l th => if decide (returned th) then <[tidx th := tval th]> l else l) l tl.

Lemma wr_insert l i x tl : i ∉ tidx <$> tl -> wr (<[i := x]> l) tl = <[i := x]> (wr l tl).
Proof.
  revert l. induction tl as [|th tl IH]; intros l Hi; [done|]. cbn.
  rewrite fmap_cons in Hi. apply not_elem_of_cons in Hi as [Hne Hi].
  fold (wr (if decide (returned th) then <[tidx th := tval th]> (<[i := x]> l) else <[i := x]> l) tl).
  fold (wr (if decide (returned th) then <[tidx th := tval th]> l else l) tl).
  destruct (decide (returned th)); [|auto]. rewrite list_insert_commute by done. auto.
Qed.

Lemma wr_step l tl k th q' : NoDup (tidx <$> tl) -> tl !! k = Some th -> ~ returned th ->
  wr l (<[k := mkTh (tidx th) (tval th) q']> tl) =
  match q' with Done => <[tidx th := tval th]> (wr l tl) | _ => wr l tl end.
Proof.
  revert l k. induction tl as [|th0 tl IH]; intros l k Hnd Hk Hd; [done|].
  rewrite fmap_cons in Hnd. apply NoDup_cons in Hnd as [Hni Hnd].
  destruct k as [|k]; simpl in Hk.
  - inversion Hk; subst th0. cbn [insert list_insert]. cbn [wr foldl].
    fold (wr l tl). rewrite (decide_False (P := returned th)) by done.
    destruct q'; try (rewrite decide_False by (intros []); done).
    rewrite decide_True by exact I. cbn [tidx tval]. apply (wr_insert l); done.
  - cbn [insert list_insert]. cbn [wr foldl]. apply IH; auto.
Qed.

Lemma wr_finished l tl s m : wr l tl = set_all l (finished (mkCfg s m tl)).
Proof.
  revert l. induction tl as [|th tl IH]; intros l; [done|].
  unfold finished, set_all in *. cbn [wr foldl ths] in *.
  rewrite filter_cons.
  destruct (decide (returned th)) as [Hd|Hd].
  - rewrite fmap_cons. cbn [foldl]. rewrite <-IH. done.
  - rewrite <-IH. done.
Qed.

(* ---- the invariant ---- *)
Section Inv.
Context (F : nat -> Prop) (s0 : st) (HE0 : EI F s0) (l0 : list T) (ws : list (nat * T)).

Record CI (c : cfg) : Prop := {
  ci_ei : EI F (cst c);
  ci_efr : Efr s0 (cst c);
  ci_st : static s0 (cst c);
  ci_rep : exists l1 l2, rep zero (cst c) l1 l2 /\ l1 ++ l2 = wr l0 (ths c);
  ci_ws : (fun th => (tidx th, tval th)) <$> ths c = ws;
  ci_inv : forall k th, ths c !! k = Some th -> tinv zero F s0 (cst c) (tpc th) (tidx th);
  ci_mu : forall k th, ths c !! k = Some th -> incrit (tpc th) <-> mu c = Some k;
  ci_mu_len : forall k, mu c = Some k -> k < length (ths c) }.

Lemma CI_step c k r : NoDup (ws.*1) -> CI c -> cstep zero c k = Some r ->
  exists c', r = Ok c' /\ CI c'.
Proof.
  intros Hnd [I1 I2 I3 (l1 & l2 & HR & Hl) I5 I6 I7 I8] Hs. unfold cstep in Hs.
  destruct (ths c !! k) as [th|] eqn:Hk; [|done].
  destruct (tstep zero (cst c) (mu c) k (tidx th) (tval th) (tpc th)) as [r'|] eqn:Ht; [|done].
  destruct (step_ok zero F s0 HE0 (cst c) (mu c) k (tidx th) (tval th) (tpc th) l1 l2 r' I1 I2 I3 HR)
    as (s' & m' & q' & -> & N1 & N2 & N3 & N4 & N5 & N6 & (l1' & l2' & HR' & Hl') & N8); auto.
  { eapply I6; eauto. }
  injection Hs as <-. eexists. split; [done|].
  assert (k < length (ths c)) as Hkl by (eapply lookup_lt_Some; eauto).
  assert (~ returned th) as Hnd_.
  { unfold returned. intros Hd. destruct (tpc th) eqn:E; try done. }
  assert (NoDup (tidx <$> ths c)) as Hnd2.
  { rewrite <-I5 in Hnd. rewrite <-list_fmap_compose in Hnd. exact Hnd. }
  split; cbn [cst mu ths]; auto.
  - exists l1', l2'. split; [done|]. rewrite Hl'. rewrite wr_step by done. rewrite Hl. done.
  - rewrite <-I5. rewrite list_fmap_insert. cbn [tidx tval]. apply list_insert_id.
    rewrite list_lookup_fmap, Hk. done.
  - intros k' th' Hk'. destruct (decide (k' = k)) as [->|Hne].
    + rewrite list_lookup_insert in Hk' by done. inversion Hk'; subst th'. exact N6.
    + rewrite list_lookup_insert_ne in Hk' by done.
      apply (tinv_stable zero F s0 (cst c) s'); auto; [|eauto].
      intros Hc. apply N5. intros Hc'. apply Hne.
      apply (I7 _ _ Hk') in Hc. apply (I7 _ _ Hk) in Hc'. congruence.
  - intros k' th' Hk'. destruct (decide (k' = k)) as [->|Hne].
    + rewrite list_lookup_insert in Hk' by done. inversion Hk'; subst th'. cbn [tpc].
      destruct N8 as [[-> E]|[(_ & -> & _ & Hq)|(_ & -> & Hq)]].
      * rewrite <-E. apply (I7 _ _ Hk).
      * split; auto.
      * split; [tauto|done].
    + rewrite list_lookup_insert_ne in Hk' by done. specialize (I7 _ _ Hk') as I7'.
      destruct N8 as [[-> E]|[(Em & -> & _ & Hq)|(Hq0 & -> & Hq)]].
      * exact I7'.
      * rewrite I7', Em. split; [done|]. congruence.
      * rewrite I7'. apply (I7 _ _ Hk) in Hq0. rewrite Hq0. split; congruence.
  - intros k' Hm. rewrite insert_length.
    destruct N8 as [[-> E]|[(Em & -> & _ & Hq)|(Hq0 & -> & Hq)]]; [auto| |done].
    inversion Hm; subst. done.
Qed.

Lemma CI_exec sched : NoDup (ws.*1) -> forall c, CI c -> exists c', exec zero c sched = Ok c' /\ CI c'.
Proof.
  intros Hnd. induction sched as [|k ks IH]; intros c HC; simpl; [eauto|].
  destruct (cstep zero c k) as [r|] eqn:E; [|auto].
  destruct (CI_step c k r Hnd HC E) as (c' & -> & HC'). auto.
Qed.

(* ---- no two goroutines touch the same plain memory, one writing ---- *)
Lemma CI_race c : NoDup (ws.*1) -> CI c -> ~ race c.
Proof.
  intros Hnd HC (j & k & u & v & cell & Hjk & Hu & Hv & Hw & Hrw).
  pose proof HC as [I1 I2 I3 _ I5 I6 I7 I8].
  pose proof (I6 _ _ Hu) as Iu. pose proof (I6 _ _ Hv) as Iv.
  pose proof (I7 _ _ Hu) as Mu. pose proof (I7 _ _ Hv) as Mv.
  assert (tidx u <> tidx v) as Hix.
  { rewrite <-I5 in Hnd. rewrite <-list_fmap_compose in Hnd. intros E.
    apply Hjk. eapply (NoDup_lookup _ _ _ (tidx u) Hnd); rewrite list_lookup_fmap.
    - rewrite Hu. done.
    - rewrite Hv. simpl. congruence. }
  assert (forall (q q' : pc), incrit q -> incrit q' -> tpc u = q -> tpc v = q' -> False) as Hex.
  { intros q q' Hq Hq' Eu Ev. rewrite Eu in Mu. rewrite Ev in Mv. apply Mu in Hq. apply Mv in Hq'. congruence. }
  assert (tailLen (tr (cst c)) = tln (sl_ s0)) as Htl.
  { rewrite (ei_tl _ _ I1). apply I3. }
  destruct (tpc u) as [|l p|l p pl|l p pl|l p pl c0|l p pl t|p pl t a acc|l p pl t a acc|l p pl n|a| | | | |src n acc|n acc| | | |b|] eqn:Eu;
    simpl in Hw; try (apply elem_of_nil in Hw; done).
  - (* WriteLeaf *)
    apply elem_of_list_singleton in Hw as ->. destruct Iu as (Hi & Ht & Ho & Hp).
    destruct (tree_TI F s0 (cst c) (tidx u) I1 I3 Hi Ht) as (P & (HH & Haid & Hot) & _).
    pose proof (ei_nF _ _ I1 Ht) as HFt.
    destruct (tpc v) as [|l' p'|l' p' pl'|l' p' pl'|l' p' pl' c0'|l' p' pl' t'|p' pl' t' a' acc'|l' p' pl' t' a' acc'|l' p' pl' n'|a'| | | | |src' n' acc'|n' acc'| | | |b'|] eqn:Ev;
      simpl in Hrw; try (destruct Hrw as [Hrw|Hrw]; inversion Hrw; fail).
    + destruct Hrw as [Hrw|Hrw]; [|inversion Hrw]. apply elem_of_list_singleton in Hrw. done.
    + destruct Hrw as [Hrw|Hrw]; [|inversion Hrw]. destruct pl' as [| |a']; try (inversion Hrw; fail).
      apply elem_of_list_singleton in Hrw. done.
    + destruct Hrw as [Hrw|Hrw]; [|inversion Hrw]. apply elem_of_list_singleton in Hrw. inversion Hrw; subst a'.
      destruct Iv as (_ & _ & _ & _ & _ & vs & j0 & Hn & Hf & _). destruct Ho as (n & Hn' & Hid).
      rewrite Hn in Hn'. inversion Hn'; subst n. simpl in Hid. subst j0. done.
    + destruct Hrw as [Hrw|Hrw]; [inversion Hrw|]. apply elem_of_list_singleton in Hrw.
      inversion Hrw; subst a'. destruct Iv as (Hi' & _ & _ & Hp').
      pose proof (ot_opath F _ Ht HFt _ _ _ _ _ _ _ _ Hot Hp (in_tree_blk F s0 HE0 _ Hi)) as O1.
      pose proof (ot_opath F _ Ht HFt _ _ _ _ _ _ _ _ Hot Hp' (in_tree_blk F s0 HE0 _ Hi')) as O2.
      destruct (ot_owned_leaf F _ Ht HFt _ _ _ _ O1 Ho) as (E1 & _).
      destruct (ot_owned_leaf F _ Ht HFt _ _ _ _ O2 Ho) as (E2 & _).
      apply Hix. apply mod16_blk; congruence.
    + destruct Hrw as [Hrw|Hrw]; [|inversion Hrw]. apply elem_of_list_singleton in Hrw. done.
    + destruct Hrw as [Hrw|Hrw]; [|inversion Hrw]. destruct src'; [|inversion Hrw].
      apply elem_of_list_singleton in Hrw. done.
    + destruct Hrw as [Hrw|Hrw].
      * apply elem_of_list_singleton in Hrw. done.
      * apply elem_of_cons in Hrw as [Hrw|Hrw]; [done|]. destruct (decide _); [inversion Hrw|].
        apply elem_of_list_singleton in Hrw. done.
    + destruct Hrw as [Hrw|Hrw]; [|inversion Hrw]. apply elem_of_list_singleton in Hrw. done.
    + destruct Hrw as [Hrw|Hrw]; [inversion Hrw|]. apply elem_of_list_singleton in Hrw. done.
  - (* TSet *)
    destruct Iu as (Hi & Hwt & -> & Hpre). rewrite decide_True in Hw by done.
    apply elem_of_list_singleton in Hw as ->.
    destruct (tpc v) as [|l' p'|l' p' pl'|l' p' pl'|l' p' pl' c0'|l' p' pl' t'|p' pl' t' a' acc'|l' p' pl' t' a' acc'|l' p' pl' n'|a'| | | | |src' n' acc'|n' acc'| | | |b'|] eqn:Ev;
      simpl in Hrw; try (destruct Hrw as [Hrw|Hrw]; inversion Hrw; fail).
    + destruct Hrw as [Hrw|Hrw]; [|inversion Hrw]. apply elem_of_list_singleton in Hrw. done.
    + destruct Hrw as [Hrw|Hrw]; [|inversion Hrw]. destruct pl' as [| |a']; try (inversion Hrw; fail).
      apply elem_of_list_singleton in Hrw. done.
    + destruct Hrw as [Hrw|Hrw]; [|inversion Hrw]. apply elem_of_list_singleton in Hrw. done.
    + destruct Hrw as [Hrw|Hrw]; [inversion Hrw|]. apply elem_of_list_singleton in Hrw. done.
    + eapply Hex; eauto; exact I.
    + eapply Hex; eauto; exact I.
    + eapply Hex; eauto; exact I.
    + destruct Iv as (_ & Hwt'). congruence.
    + destruct Iv as (_ & Hwt' & _). congruence.
  - (* TWrite *)
    apply elem_of_list_singleton in Hw as ->. destruct Iu as (Hi & Hwt & Hb).
    destruct (tpc v) as [|l' p'|l' p' pl'|l' p' pl'|l' p' pl' c0'|l' p' pl' t'|p' pl' t' a' acc'|l' p' pl' t' a' acc'|l' p' pl' n'|a'| | | | |src' n' acc'|n' acc'| | | |b'|] eqn:Ev;
      simpl in Hrw; try (destruct Hrw as [Hrw|Hrw]; inversion Hrw; fail).
    + destruct Hrw as [Hrw|Hrw]; [|inversion Hrw]. apply elem_of_list_singleton in Hrw. done.
    + destruct Hrw as [Hrw|Hrw]; [|inversion Hrw]. destruct pl' as [| |a']; try (inversion Hrw; fail).
      apply elem_of_list_singleton in Hrw. done.
    + destruct Hrw as [Hrw|Hrw]; [|inversion Hrw]. apply elem_of_list_singleton in Hrw. done.
    + destruct Hrw as [Hrw|Hrw]; [inversion Hrw|]. apply elem_of_list_singleton in Hrw. done.
    + destruct Hrw as [Hrw|Hrw]; [|inversion Hrw]. apply elem_of_list_singleton in Hrw. done.
    + destruct Iv as (_ & Hwt' & _). congruence.
    + destruct Iv as (_ & Hwt' & _). congruence.
    + destruct Hrw as [Hrw|Hrw]; [|inversion Hrw]. apply elem_of_list_singleton in Hrw. done.
    + destruct Hrw as [Hrw|Hrw]; [inversion Hrw|]. apply elem_of_list_singleton in Hrw.
      injection Hrw as <- Hm. destruct Iv as (Hi' & _ & _).
      pose proof (ei_t16 _ _ HE0) as H16. pose proof (ei_tl _ _ HE0) as Htl0.
      destruct Hi as [Hi1 Hi2], Hi' as [Hi1' Hi2']. unfold t_len in *. fold (sl_ s0) in *.
      rewrite (mod16_tail (tlen (sl_ s0)) (tidx u)) in Hm by (try apply HE0; lia).
      rewrite (mod16_tail (tlen (sl_ s0)) (tidx v)) in Hm by (try apply HE0; lia). lia.
Qed.

(* ---- some goroutine can always run ---- *)
Lemma CI_progress c : CI c -> ~ all_done c -> exists k, cstep zero c k <> None.
Proof.
  intros HC Hnd. pose proof HC as [I1 I2 I3 _ I5 I6 I7 I8].
  assert (forall k th, ths c !! k = Some th -> tpc th <> Done ->
     (tpc th = TLock -> mu c = None) -> cstep zero c k <> None) as Hrun.
  { intros k th Hk Hd Hl. unfold cstep. rewrite Hk.
    assert (tstep zero (cst c) (mu c) k (tidx th) (tval th) (tpc th) <> None) as Hne.
    { destruct (tpc th) as [|l p|l p pl|l p pl|l p pl c0|l p pl t|p pl t a acc|l p pl t a acc|l p pl n|a| | | | |src n acc|n acc| | | |b|];
        cbn [tstep]; try done; unfold go, panic;
        repeat match goal with
        | |- context [if ?b then _ else _] => destruct b
        | |- (match ?x with _ => _ end) <> None => destruct x
        end; try done; try (specialize (Hl eq_refl); done). }
    destruct (tstep _ _ _ _ _ _ _) as [[[[s' m'] q']|]|]; done. }
  unfold all_done in Hnd. apply not_Forall_Exists in Hnd; [|intros th; destruct (tpc th); (left; done) || (right; done)].
  apply Exists_exists in Hnd as (th & Hin & Hd). apply elem_of_list_lookup in Hin as [k Hk].
  destruct (mu c) as [k'|] eqn:Em.
  - pose proof (I8 k' eq_refl) as Hlt. destruct (lookup_lt_is_Some_2 _ _ Hlt) as [th' Hk'].
    exists k'. assert (incrit (tpc th')) as Hc by (apply (I7 _ _ Hk'); done).
    apply (Hrun k' th' Hk').
    + intros E. rewrite E in Hc. done.
    + intros E. rewrite E in Hc. done.
  - exists k. apply (Hrun k th Hk); auto.
Qed.

End Inv.

(* ---- worlds ---- *)
Lemma CI_begin w a k t l ws : WI zero w a -> wtrs w !! k = Some t -> aeditors a !! k = Some l ->
  Forall (fun ix => ix.1 < t_len t) ws ->
  EI (Fz w) (stof w t) /\ CI (Fz w) (stof w t) l ws (begin w t ws).
Proof.
  intros HW Ht Hl Hws.
  destruct (Forall2_lookup_lr _ _ _ _ _ _ (wi_tr _ _ _ HW) Ht Hl) as (l1 & l2 & -> & HE & HR).
  split; [done|]. split; cbn [begin cst mu ths]; auto.
  - apply Efr_refl.
  - split; auto.
  - exists l1, l2. split; [done|]. clear. induction ws as [|ix ws IH]; [done|]. cbn. exact IH.
  - rewrite <-list_fmap_compose. erewrite list_fmap_ext; [apply list_fmap_id|].
    intros i [] _. done.
  - intros k' th Hk'. rewrite list_lookup_fmap in Hk'. destruct (ws !! k') as [ix|] eqn:E; [|done].
    simpl in Hk'. inversion Hk'; subst th. simpl. rewrite Forall_lookup in Hws. apply (Hws _ _ E).
  - intros k' th Hk'. rewrite list_lookup_fmap in Hk'. destruct (ws !! k') as [ix|] eqn:E; [|done].
    simpl in Hk'. inversion Hk'; subst th. simpl. split; done.
  - done.
Qed.

Lemma CI_WI w a k t l ws c : WI zero w a -> wtrs w !! k = Some t -> aeditors a !! k = Some l ->
  CI (Fz w) (stof w t) l ws c ->
  WI zero (back w k c) (mkA (aslices a) (<[k := set_all l (finished c)]> (aeditors a))).
Proof.
  intros HW Ht Hl [I1 I2 I3 (l1 & l2 & HR & El) I5 I6 I7 I8].
  destruct c as [s m tl]. cbn [cst ths] in *. rewrite <-(wr_finished l tl s m), <-El.
  unfold back. cbn [cst]. eapply WI_edit; eauto.
Qed.

Lemma WI_reads_world w a : WI zero w a -> reads_world zero w a.
Proof. intros H. destruct (WI_reads zero w a H) as (H1 & H2). split; auto. Qed.

Lemma finished_all c ws : all_done c -> (fun th => (tidx th, tval th)) <$> ths c = ws -> finished c = ws.
Proof.
  intros Hd <-. unfold finished. f_equal. unfold all_done in Hd. induction Hd as [|th tl E Hd IH]; [done|].
  rewrite filter_cons. rewrite decide_True by (unfold returned; rewrite E; done). f_equal. exact IH.
Qed.

Lemma spec_sets (a : aworld T) k l ws : aeditors a !! k = Some l -> Forall (fun ix => ix.1 < length l) ws ->
  spec_run a (sets k ws) (mkA (aslices a) (<[k := set_all l ws]> (aeditors a))).
Proof.
  revert a l. induction ws as [|[i x] ws IH]; intros a l Hl Hws.
  - cbn. rewrite list_insert_id by done. destruct a. constructor.
  - inversion Hws; subst. simpl in *. econstructor.
    + apply sp_set; [exact Hl|]. lia.
    + rewrite Nat2Z.id. 
      specialize (IH (mkA (aslices a) (<[k := <[i := x]> l]> (aeditors a))) (<[i := x]> l)).
      cbn [aslices aeditors] in IH. rewrite list_insert_insert in IH. apply IH.
      * apply list_lookup_insert. eapply lookup_lt_Some; eauto.
      * rewrite insert_length. done.
Qed.

Lemma set_all_perm (l : list T) ws ws' : NoDup (ws.*1) -> ws ≡ₚ ws' -> set_all l ws = set_all l ws'.
Proof.
  intros Hnd HP. revert l Hnd. induction HP as [|ix ws ws' HP IH|[i x] [j y] ws|ws1 ws2 ws3 HP1 IH1 HP2 IH2];
    intros l Hnd; cbn; auto.
  - apply IH. rewrite fmap_cons in Hnd. apply NoDup_cons in Hnd. tauto.
  - simpl in Hnd. apply NoDup_cons in Hnd as [Hn _]. apply not_elem_of_cons in Hn as [Hn _].
    simpl. rewrite list_insert_commute by done. done.
  - rewrite IH1 by done. apply IH2. rewrite <-HP1. done.
Qed.

Lemma spec_run_app (a a1 a2 : aworld T) os1 os2 : spec_run a os1 a1 -> spec_run a1 os2 a2 -> spec_run a (os1 ++ os2) a2.
Proof. induction 1; simpl; eauto using sr_ok, sr_panic. Qed.

Lemma conc_main os k t ws sched : let w := run zero winit os in
  wtrs w !! k = Some t -> NoDup (ws.*1) -> Forall (fun ix => ix.1 < t_len t) ws ->
  exists a l c, spec_run (mkA [] []) os a /\ aeditors a !! k = Some l /\ t_len t = length l /\
    WI zero w a /\ exec zero (begin w t ws) sched = Ok c /\ CI (Fz w) (stof w t) l ws c /\ EI (Fz w) (stof w t).
Proof.
  intros w Ht Hnd Hws. destruct (WI_run zero os winit _ (WI_init zero)) as (a & Hsp & HW). fold w in HW.
  destruct (Forall2_lookup_l _ _ _ _ _ (wi_tr _ _ _ HW) Ht) as (l & Hl & Hden).
  destruct (CI_begin w a k t l ws HW Ht Hl Hws) as [HE HC].
  destruct (CI_exec (Fz w) (stof w t) HE l ws sched Hnd _ HC) as (c & Hx & HC').
  exists a, l, c. split_and!; auto.
  destruct (WI_reads zero w a HW) as (_ & H2). 
  pose proof (Forall2_lookup_lr _ _ _ _ _ _ H2 Ht Hl) as [_ E]. exact E.
Qed.

End Run.

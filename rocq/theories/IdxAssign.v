(* Indexed assignment; invalid indexes. *)
From Verif Require Import Value NumModel ArrSpec ArrBase ArrRot EvalSpec EvalProofs ParModel ParSpec ParProofs IdxModel IdxSpec IdxProofs IdxOps.
Open Scope nat_scope.

Lemma in_order_some l : forall m m' x, in_order l m = Ok m' -> m x <> None -> m' x <> None.
Proof.
  induction l as [|a l IH]; intros m m' x E H; cbn [in_order] in E; [now injection E as <-|].
  destruct (a m) as [[k y]| | |]; try discriminate. eapply IH; [exact E|]. unfold mset. destruct (x =? k); congruence.
Qed.
Lemma contents_ok v m : arr v -> wf v -> (forall x, x < length (data_of v) -> m x <> None) ->
  wf (contents v m) /\ shape_of (contents v m) = shape_of v /\ forall t, inb (shape_of v) t -> elem (contents v m) t = m (ravel (shape_of v) t).
Proof.
  intros Hv W Hm.
  assert (Get : forall (d : list value) i, i < length d -> m i <> None -> nth_error (map (fun k => match m k with Some x => x | None => VInt 0 end) (seq 0 (length d))) i = m i).
  { intros d i Hi Hn. rewrite nth_error_map_seq by auto. destruct (m i); congruence. }
  destruct v as [| | | | |l|s d]; try contradiction; cbn [contents].
  - split; [exact I|]. cbn [shape_of]. split; [rewrite map_length, seq_length; reflexivity|]. intros t Ht. unfold elem. cbn [data_of shape_of].
    rewrite map_length, seq_length. apply ravel_lt in Ht. assert (L : ravel [length l] t < length l) by (cbn [vol] in Ht; lia). apply Get; auto.
  - destruct W as (W1 & W2 & W3). split; [split; [auto|split; [rewrite map_length, seq_length; auto|auto]]|]. split; [reflexivity|].
    intros t Ht. unfold elem. cbn [data_of shape_of]. apply ravel_lt in Ht. cbn [shape_of] in Ht. apply Get; [lia|apply Hm; cbn; lia].
Qed.
Lemma app_inj {T} (a b a' b' : list T) : length a = length a' -> a ++ b = a' ++ b' -> a = a' /\ b = b'.
Proof. revert a'. induction a as [|x a IH]; intros [|x' a'] L E; try discriminate; [auto|]. cbn in *. injection E as <- E. destruct (IH a' ltac:(lia) E) as [<- <-]. auto. Qed.

Definition the_data (v : value) : list value := match v with VMat _ d => d | VVec l => l | _ => [] end.
Lemma the_data_ok v : arr v -> the_data v = data_of v. Proof. destruct v; cbn; tauto. Qed.

Lemma plan_bound ok procs work size n lo hi : procs <> 0 -> work <> 0 -> In (lo, hi) (plan ok procs work size n) -> hi <= n.
Proof.
  intros Hp Hw. unfold plan. destruct (negb ok || (procs =? 1) || (n <=? 1) || (n * size <? work * 2)) eqn:B.
  - intros [E|[]]. injection E as <- <-. auto.
  - intros H. apply in_map_iff in H. destruct H as (i & E & Hi). injection E as <- <-. apply in_seq in Hi.
    apply Nat.div_le_upper_bound; [lia|]. nia.
Qed.
Section Assign.
Variables (c : conf) (v rhs : value) (xs : list (option value)) (s : selection) (D R A : list nat) (tg : list nat -> list nat) (src : nat -> res value).
Hypothesis Init : init (origin c) v xs = Ok s.
Hypothesis G : good s D R A tg.
Hypothesis SD : sel_data s = data_of v.
Hypothesis SH : shape_of v = D ++ R.
Hypothesis Hv : arr v.
Hypothesis W : wf v.
Hypothesis Wr : wf rhs.
Hypothesis Src : source (sel_out s) rhs = Ok src.
Hypothesis NR : vol R <> 0.

(* What prepare gives, in both cases. *)
Lemma prepare_ok : exists steps n k, prepare c v xs rhs = Ok (steps, n, k) /\ 
  ((sel_out s = [] /\ n = 1 /\ A = [] /\ R = [] /\ forall r, exists a, steps r = [a] /\ forall m, a m = Ok (ravel D (tg []), rhs)) \/
   (sel_out s <> [] /\ n = vol A /\ k = vol R /\ (forall lo hi, hi <= vol A -> steps (lo, hi) = each_k (item_body D R A tg src) (lo, hi)))).
Proof.
  unfold prepare. rewrite Init. cbn [bind]. rewrite Src. cbn [bind]. destruct (sel_out s) as [|n0 out] eqn:EO.
  - pose proof (g_one _ _ _ _ _ G EO) as O1. destruct (g_out _ _ _ _ _ G) as (A' & EA & _ & EL). rewrite EO in EA. symmetry in EA. apply app_eq_nil in EA.
    destruct EA as [-> ER]. assert (A = []) by now destruct A.
    destruct (sel_items s) as [idx|cs].
    + destruct (at_coord idx (map (fun _ => 0) idx)) as [ks| | |]; cbn [bind] in *; try discriminate. injection O1 as ->.
      eexists _, _, _. split; [reflexivity|]. left. split; [auto|]. split; [auto|]. split; [auto|]. split; [auto|]. intros r. eexists. split; [reflexivity|]. reflexivity.
    + injection O1 as O1. eexists _, _, _. split; [reflexivity|]. left. split; [auto|]. split; [auto|]. split; [auto|]. split; [auto|]. intros r. eexists. split; [reflexivity|].
      intros m. now rewrite O1.
  - rewrite (copy_ok s D R A tg G). replace (vol R =? 0) with false by (symmetry; now apply Nat.eqb_neq).
    rewrite (items_ok s D R A tg G _ EO NR). eexists _, _, _. split; [reflexivity|]. right. split; [discriminate|]. split; [auto|]. split; [auto|].
    intros lo hi H. now apply (steps_each s).
Qed.

Definition tgt (k : list nat) : option (list nat) := Some (tg (firstn (length A) k) ++ skipn (length A) k).
(* Cells that have been assigned as the index list says. *)
Definition assigned (m' : mem) : Prop := exists src', (forall k, inb (A ++ R) k -> Some (src' (ravel (A ++ R) k)) = stored (A ++ R) rhs k) /\
  (forall x, (forall i, i < vol A -> x / vol R <> off D A tg i) -> m' x = cells (data_of v) x) /\
  (forall x i, i < vol A -> x / vol R = off D A tg i -> (forall i', i < i' < vol A -> off D A tg i' <> off D A tg i) -> m' x = Some (src' (x mod vol R + i * vol R))).
Lemma assigned_replaced m' : (forall x, cells (data_of v) x <> None -> m' x <> None) -> assigned m' ->
  replaced v (contents v m') (A ++ R) tgt (stored (A ++ R) rhs).
Proof.
  intros Keep (src' & HS & H1 & H2).
  destruct (contents_ok v m' Hv W) as (C1 & C2 & C3). { intros x Hx. apply Keep. unfold cells. now apply nth_error_Some. }
  split; [auto|]. split; [auto|]. intros t Ht. rewrite SH in *.
  pose proof Ht as Ht'. apply inb_split in Ht'. destruct Ht' as (td & tr & -> & Ltd & Itd & Itr).
  pose proof (ravel_app D R td tr Ltd) as RA. pose proof (ravel_lt _ _ Itr) as TR.
  assert (Div : ravel (D ++ R) (td ++ tr) / vol R = ravel D td) by (rewrite RA; now apply dm_div).
  assert (Mod : ravel (D ++ R) (td ++ tr) mod vol R = ravel R tr) by (rewrite RA; now apply dm_mod).
  rewrite C3 by auto. split.
  - intros Hno. rewrite H1; [unfold elem, cells; rewrite SH; reflexivity|].
    intros i Hi E. rewrite Div in E. pose proof (unravel_inb A i Hi) as Iu.
    apply ravel_inj in E; [|auto|apply (g_tg _ _ _ _ _ G); auto].
    apply (Hno (unravel A i ++ tr)); [apply inb_app; [apply unravel_len|auto]|]. unfold tgt.
    rewrite <-(unravel_len A i). rewrite firstn_len_app, skipn_len_app. now rewrite <-E.
  - intros k Ik Ek Later. apply inb_split in Ik. destruct Ik as (a & b & -> & La & Ia & Ib). unfold tgt in Ek. rewrite <-La, firstn_len_app, skipn_len_app in Ek.
    injection Ek as Ek. apply app_inj in Ek; [|rewrite (inb_len _ _ (g_tg _ _ _ _ _ G a Ia)); auto]. destruct Ek as [Ek ->].
    pose proof (ravel_lt _ _ Ia) as AL. assert (Off : off D A tg (ravel A a) = ravel D td) by (unfold off; rewrite unravel_ravel by auto; congruence).
    rewrite (H2 _ (ravel A a)).
    + rewrite Mod, <-HS by (apply inb_app; auto). rewrite (ravel_app A R a tr La). do 2 f_equal. lia.
    + auto.
    + rewrite Div. auto.
    + intros i' Hi' E. pose proof (unravel_inb A i' ltac:(lia)) as Iu. unfold off in E at 1. rewrite Off in E. apply ravel_inj in E; [|apply (g_tg _ _ _ _ _ G); auto|auto].
      specialize (Later (unravel A i' ++ tr)). rewrite !ravel_app in Later by (rewrite ?unravel_len; auto). rewrite ravel_unravel in Later by lia.
      assert (i' * vol R + ravel R tr <= ravel A a * vol R + ravel R tr); [|nia]. apply Later; [apply inb_app; [apply unravel_len|auto]|].
      unfold tgt. rewrite <-(unravel_len A i'). rewrite firstn_len_app, skipn_len_app. congruence.
Qed.
(* One goroutine. *)
Lemma steps_ok steps n k : prepare c v xs rhs = Ok (steps, n, k) ->
  exists m', in_order (steps (0, n)) (cells (data_of v)) = Ok m' /\ (sel_out s = A ++ R -> assigned m').
Proof.
  intros EP. destruct prepare_ok as (steps' & n' & k' & E & H). rewrite EP in E. injection E as <- <- <-.
  destruct H as [(EO & -> & EA & ER & Hs)|(NO & -> & -> & Hs)].
  - destruct (Hs (0, 1)) as (a & -> & Ha). cbn [in_order]. rewrite Ha. eexists. split; [reflexivity|]. intros _.
    unfold assigned. rewrite EA, ER. exists (fun _ => rhs). split; [reflexivity|]. cbn [app vol]. split.
    + intros x Hx. unfold mset. rewrite (proj2 (Nat.eqb_neq _ _)); auto. specialize (Hx 0 ltac:(lia)). rewrite Nat.div_1_r in Hx. unfold off in Hx. exact Hx.
    + intros x i Hi Hx _. assert (i = 0) by lia. subst i. rewrite Nat.div_1_r in Hx. unfold off in Hx. cbn [unravel] in Hx. unfold mset. rewrite Hx, Nat.eqb_refl. reflexivity.
  - rewrite Hs by auto. unfold each_k. cbn [fst snd]. rewrite Nat.sub_0_r.
    destruct (source_ok _ _ _ Wr Src) as (src' & S1 & S2).
    assert (Len : vol (sel_out s) = vol A * vol R). { destruct (g_out _ _ _ _ _ G) as (A' & -> & E & _). now rewrite vol_app, E. }
    destruct (items_in_order D R A tg src src' (cells (data_of v)) ltac:(intros j Hj; apply S1; lia) (vol A) (le_n _)) as (m' & E & H1 & H2).
    exists m'. split; [exact E|]. intros EO. rewrite EO in S2. exists src'. split; [exact S2|]. split; [exact H1|]. intros x i Hi Hx Hl. now apply H2.
Qed.
Lemma assign_succeeds : exists m', index_assign c v xs rhs = (contents v m', Ok tt) /\
  (forall x, cells (data_of v) x <> None -> m' x <> None) /\ (sel_out s = A ++ R -> assigned m').
Proof.
  destruct prepare_ok as (steps & n & k & E & _). destruct (steps_ok _ _ _ E) as (m' & E' & H).
  exists m'. unfold index_assign. rewrite E. fold (the_data v). rewrite the_data_ok by auto. rewrite (store_in_order _ _ _ E'). split; [reflexivity|].
  split; [|exact H]. intros x. eapply in_order_some. exact E'.
Qed.
Lemma assign_replaces : sel_out s = A ++ R -> exists v', index_assign c v xs rhs = (v', Ok tt) /\ replaced v v' (A ++ R) tgt (stored (A ++ R) rhs).
Proof.
  intros EO. destruct assign_succeeds as (m' & E & K & H). eexists. split; [exact E|]. apply assigned_replaced; auto.
Qed.

(* Many goroutines. *)
Hypothesis Inj : forall a b, inb A a -> inb A b -> tg a = tg b -> a = b.
Lemma off_inj i j : i < vol A -> j < vol A -> off D A tg i = off D A tg j -> i = j.
Proof.
  intros Hi Hj E. unfold off in E. apply ravel_inj in E; try (apply (g_tg _ _ _ _ _ G), unravel_inb; auto).
  apply Inj in E; try (apply unravel_inb; auto). rewrite <-(ravel_unravel A i Hi), <-(ravel_unravel A j Hj). now rewrite E.
Qed.
Definition owner (x : nat) : nat := match find (fun i => off D A tg i =? x / vol R) (seq 0 (vol A)) with Some i => i | None => vol A end.
Lemma owner_ok i k : i < vol A -> k < vol R -> owner (off D A tg i * vol R + k) = i.
Proof.
  intros Hi Hk. unfold owner. rewrite dm_div by auto. destruct (find _ _) as [j|] eqn:F.
  - apply find_some in F. destruct F as [Fi Fe]. apply in_seq in Fi. apply Nat.eqb_eq in Fe. apply off_inj; auto; lia.
  - pose proof (find_none _ _ F i ltac:(apply in_seq; lia)) as X. cbn beta in X. rewrite Nat.eqb_refl in X. discriminate.
Qed.
Lemma assign_independent : independent owner (vol A) (item_body D R A tg src).
Proof.
  intros i a Hi Ha. unfold item_body in Ha. apply in_map_iff in Ha. destruct Ha as (k & <- & Hk). apply in_seq in Hk. split; [reflexivity|].
  intros m x y E. cbn [bind] in E. destruct (src (k + i * vol R)); try discriminate. cbn [bind] in E. injection E as <- <-. apply owner_ok; lia.
Qed.
Lemma contents_ext m m' : (forall x, m x = m' x) -> contents v m = contents v m'.
Proof.
  intros H. destruct v; try reflexivity; cbn [contents]; f_equal; apply map_ext; intros x; now rewrite H.
Qed.
Lemma parallel_assign_ok ok procs work schedule r steps n k : procs <> 0 -> work <> 0 -> prepare c v xs rhs = Ok (steps, n, k) ->
  let st := run (cells (data_of v), spawn steps (plan ok procs work k n)) schedule in
  finished st -> outcome st r -> exists m', r = Ok m' /\ index_assign c v xs rhs = (contents v m', Ok tt).
Proof.
  intros Hp Hw EP st Fin Out.
  destruct (steps_ok _ _ _ EP) as (m1 & E1 & _). destruct (prepare_ok) as (steps' & n' & k' & E & H). rewrite EP in E. injection E as <- <- <-.
  assert (Seq : index_assign c v xs rhs = (contents v m1, Ok tt)).
  { unfold index_assign. rewrite EP. fold (the_data v). rewrite the_data_ok by auto. now rewrite (store_in_order _ _ _ E1). }
  assert (Same : exists m', r = Ok m' /\ forall x, m' x = m1 x).
  { destruct H as [(EO & -> & _ & _ & Hs)|(NO & -> & -> & Hs)].
    - (* a single item: one goroutine *)
      assert (PL : plan ok procs work k 1 = [(0, 1)]).
      { unfold plan. replace (negb ok || (procs =? 1) || (1 <=? 1) || (1 * k <? work * 2)) with true; [reflexivity|]. cbn [Nat.leb]. now rewrite orb_true_r. }
      assert (Fin' : finished (run (cells (data_of v), spawn (each_k (fun _ => steps (0, 1))) [(0, 1)]) schedule)).
      { unfold st in Fin. rewrite PL in Fin. cbn [spawn map each_k flat_map fst snd seq Nat.sub]. rewrite app_nil_r. exact Fin. }
      pose proof (pfor_ok (fun _ => 0) 1 (fun _ => steps (0, 1)) (cells (data_of v))) as P.
      specialize (P ltac:(intros i a Hi Ha; destruct (Hs (0, 1)) as (a' & Es & Ha'); rewrite Es in Ha; destruct Ha as [<-|[]]; split; [intros m m' _; now rewrite !Ha'|intros; lia])).
      specialize (P [(0, 1)] eq_refl steps schedule r ltac:(intros p [<-|[]]; cbn; now rewrite app_nil_r)). cbv zeta in P.
      unfold st in Fin, Out. rewrite PL in Fin, Out. specialize (P Fin Out). unfold as_if_sequential in P. cbn [seq flat_map] in P. rewrite app_nil_r, E1 in P. exact P.
    - pose proof (pfor_ok owner (vol A) (item_body D R A tg src) (cells (data_of v)) assign_independent _ (plan_tiles ok procs work (vol R) (vol A) Hp Hw) steps schedule r) as P.
      specialize (P ltac:(intros [lo hi] Hin; apply Hs; exact (plan_bound _ _ _ _ _ _ _ Hp Hw Hin))). specialize (P Fin Out).
      unfold as_if_sequential in P. rewrite Hs in E1 by auto. unfold each_k in E1. cbn [fst snd] in E1. rewrite Nat.sub_0_r in E1. rewrite E1 in P. exact P. }
  destruct Same as (m' & -> & Hx). exists m'. split; [reflexivity|]. rewrite Seq. f_equal. apply contents_ext. intros x. now rewrite Hx.
Qed.
End Assign.

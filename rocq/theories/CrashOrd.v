(* C47: comparison, sets, grading, searching, indexing. *)
From Verif Require Import Value NumModel ArrModel ArrSpec ArrBase ArrSel OrdModel OrdSpec IdxModel IdxSpec IdxProofs IdxOps IdxErr
  CrashSpec CrashBase CrashArr CrashArr2 CrashEval.
From Coq Require Import ZifyBool ZifyNat Permutation.
Open Scope nat_scope.

Lemma sound_to_int b : sound (to_int b). Proof. now destruct b. Qed.
Lemma sound_membership srt c u v : Forall sound (membership srt c u v).
Proof. unfold membership. apply Forall_forall. intros x X. apply in_map_iff in X. destruct X as (y & <- & _). apply sound_to_int. Qed.
Lemma sound_shrink_vec l : Forall sound l -> sound (shrink_vec l).
Proof. intros F. unfold shrink_vec. destruct l as [|x [|y l]]; try now apply sound_vec. now inversion F. Qed.
Lemma ok_in srt c : ok2 (op_in srt c).
Proof.
  intros u v Su Sv. apply fine_alv; auto.
  - intros a b _ _ _ _ _ _. apply sound_shrink_vec, sound_membership.
  - intros _ (N & _) _. cbv zeta. destruct (_ <=? _); [apply sound_shrink_vec, sound_membership|]. apply fine_new_matrix; auto. apply sound_membership.
Qed.
Lemma pick_sound w fl l : Forall sound l -> Forall sound (OrdModel.pick w fl l).
Proof.
  revert l. induction fl as [|f fl IH]; intros [|x l] F; cbn [OrdModel.pick]; try constructor. inversion F; subst. cbv zeta.
  destruct (Bool.eqb _ _); auto.
Qed.
Lemma filter_sound p l : Forall sound l -> Forall sound (filter p l).
Proof. intros F. apply Forall_forall. intros x X. apply filter_In in X. rewrite Forall_forall in F. now apply F. Qed.
Lemma ok_union srt c : ok2 (op_union srt c).
Proof.
  intros u v Su Sv.
  assert (~ matrix u -> ~ matrix v -> fine sound (op_union srt c u v)) as G.
  { intros MU MV. assert (Forall sound [u; v]) as P by (constructor; [exact Su|constructor; [exact Sv|constructor]]).
    assert (sound (VVec [u; v])) as P' by now apply sound_vec.
    assert (Forall sound [v]) as Q by (constructor; [exact Sv|constructor]).
    destruct u as [z|z|z|q|re im|l|s d]; try (now destruct (MU Logic.I)); destruct v as [z'|z'|z'|q'|re' im'|l'|s' d']; try (now destruct (MV Logic.I));
      unfold op_union, fine; try (match goal with |- sound (if ?b then _ else _) => destruct b; assumption end);
      try (match goal with |- sound (VVec (_ :: filter _ _)) => apply sound_vec; constructor; [exact Su|apply filter_sound; now apply sound_vec] end);
      try (match goal with |- sound (if ?b then _ else _) => destruct b; [exact Su|apply sound_vec, Forall_app; split; [now apply sound_vec|exact Q]] end).
    apply sound_vec, Forall_app. split; [now apply sound_vec|]. apply pick_sound. now apply sound_vec. }
  destruct u; try (now apply G; [intros []|intros []; discriminate]); destruct v; try exact Logic.I; apply G; intros [].
Qed.
Lemma ok_intersect srt c : ok2 (op_intersect srt c).
Proof.
  intros u v Su Sv.
  assert (~ matrix u -> ~ matrix v -> fine sound (op_intersect srt c u v)) as G.
  { intros MU MV. assert (Forall sound [u]) as Q by (constructor; [exact Su|constructor]).
    assert (forall b : bool, sound (VVec (if b then [u] else []))) as P by (intros b; apply sound_vec; destruct b; [exact Q|constructor]).
    assert (forall b : bool, sound (if b then u else VVec [])) as P' by (intros b; destruct b; [exact Su|exact Logic.I]).
    destruct u as [z|z|z|q|re im|l|s d]; try (now destruct (MU Logic.I)); destruct v as [z'|z'|z'|q'|re' im'|l'|s' d']; try (now destruct (MV Logic.I));
      unfold op_intersect, fine; try apply P; try apply P'; apply sound_vec; try (apply filter_sound; now apply sound_vec).
    apply pick_sound. now apply sound_vec. }
  destruct u; try (now apply G; [intros []|intros []; discriminate]); destruct v; try exact Logic.I; apply G; intros [].
Qed.
Lemma dedup_in c l : forall p x, In x (dedup c p l) -> In x l.
Proof.
  induction l as [|y l IH]; intros p x H; cbn [dedup] in H; [exact H|]. destruct (negb _); [|right; eapply IH; eauto].
  destruct H as [->|H]; [now left|right; eapply IH; eauto].
Qed.
Lemma ok_unique srt c : a_sort srt -> ok1 (op_unique srt c).
Proof.
  intros A v S. destruct v as [z|z|z|q|re im|l|s d]; try exact S; try exact Logic.I. destruct l as [|x l]; [exact S|].
  unfold op_unique. set (k := combine (seq 0 (length (x :: l))) (x :: l)).
  pose proof (proj1 (A _ (unique_less c) k)) as P. destruct (srt (nat * value)%type (unique_less c) k) as [|p t] eqn:E.
  { apply Permutation_sym, Permutation_nil in P. discriminate. }
  unfold fine. apply sound_vec. apply sound_vec in S. apply Forall_forall. intros y Y. apply in_map_iff in Y. destruct Y as (q & <- & Q).
  apply (Permutation_in _ (Permutation_sym (proj1 (A _ index_less (p :: dedup c p t))))) in Q.
  assert (In q (p :: t)) as I by (destruct Q as [->|Q]; [now left|right; eapply dedup_in; eauto]).
  apply (Permutation_in _ (Permutation_sym P)) in I. destruct q as [i w]. apply in_combine_r in I. rewrite Forall_forall in S. now apply S.
Qed.
Lemma fine_mat_grade srt c v : sound v -> forall s d, v = VMat s d -> ~ (matrix v /\ empty_axis v) -> fine (Forall sound) (mat_grade srt c s d).
Proof.
  intros S s d -> NE. apply sound_mat in S. unfold mat_grade. destruct s as [|s0 s]; [tauto|].
  destruct (Nat.eqb_spec s0 0) as [->|]; [exfalso; apply NE; split; [exact Logic.I|now left]|]. cbv zeta. unfold fine.
  apply (sound_ints (fun i => (Z.of_nat i + origin c)%Z)).
Qed.
Lemma fine_up srt stable c v : sound v -> ~ (matrix v /\ empty_axis v) -> fine sound (op_up srt stable c v).
Proof.
  intros S NE. destruct v as [z|z|z|q|re im|l|s d]; try exact S; try exact Logic.I; cbn [op_up].
  - apply vec_fine. apply (sound_ints (fun i => (Z.of_nat i + origin c)%Z)).
  - eapply fine_bind; [eapply fine_mat_grade; eauto|]. intros r _ R. now apply vec_fine.
Qed.
Lemma fine_down srt stable c v : sound v -> ~ (matrix v /\ empty_axis v) -> fine sound (op_down srt stable c v).
Proof.
  intros S NE. destruct v as [z|z|z|q|re im|l|s d]; try exact S; try exact Logic.I; cbn [op_down].
  - apply fine_vec_reverse. apply (sound_ints (fun i => (Z.of_nat i + origin c)%Z)).
  - eapply fine_bind; [eapply fine_mat_grade; eauto|]. intros r _ R. now apply fine_vec_reverse.
Qed.
Lemma fine_all_equal c x y : Forall sound x -> Forall sound y -> forall n xlo ylo, xlo + n <= length x -> ylo + n <= length y ->
  fine (fun _ => True) (all_equal c x y xlo ylo n).
Proof.
  intros FX FY. induction n as [|n IH]; intros xlo ylo LX LY; cbn [all_equal]; [exact Logic.I|].
  eapply fine_bind; [apply fine_at; [exact FX|lia]|]. intros a _ _. eapply fine_bind; [apply fine_at; [exact FY|lia]|]. intros b _ _.
  destruct (negb _); [exact Logic.I|]. apply IH; lia.
Qed.
Lemma fine_first_equal c x y ylo n : Forall sound x -> Forall sound y -> ylo + n <= length y -> forall rows j, (j + rows) * n <= length x ->
  fine sound (first_equal c x y ylo n rows j).
Proof.
  intros FX FY LY. induction rows as [|rows IH]; intros j L; cbn [first_equal]; [exact Logic.I|].
  eapply fine_bind; [apply fine_all_equal; auto; nia|]. intros e _ _. destruct e; [exact Logic.I|]. apply IH. lia.
Qed.
Lemma fine_iota2 stable c u v : sound u -> sound v -> clear u v -> fine sound (op_iota2 stable c u v).
Proof.
  intros Su Sv CL. apply fine_alv; auto.
  - intros a b _ _ _ _ _ _. apply vec_fine. unfold vec_iota. apply Forall_forall. intros x X. apply in_map_iff in X. destruct X as (y & <- & _).
    unfold find_index. destruct (nth_error _ _) as [[w i]|]; [|exact Logic.I]. now destruct (_ =? _)%Z.
  - intros M GU GV. destruct (CL M) as [NU NV]. apply not_empty_mat in NU, NV. unfold mat_iota.
    destruct (to_mat u) as [sa da], (to_mat v) as [sb db]. destruct GU as (UN & UL & _ & UF), GV as (VN & VL & _ & VF). cbn [fst snd] in *.
    destruct sa as [|s0 sa]; [congruence|]. destruct (_ || _); [exact Logic.I|]. cbv zeta.
    destruct (Nat.eqb_spec s0 0) as [->|Z]; [exfalso; apply NU; now left|]. cbn [vol] in UL.
    assert (length da / s0 = vol sa) as -> by (rewrite UL, Nat.mul_comm; now apply Nat.div_mul).
    assert (vol sa <> 0) as ZA by (apply vol_filled; intros H; apply NU; now right).
    destruct (Nat.eqb_spec (vol sa) 0); [congruence|].
    assert (forall n m, m <> 0 -> n / m * m <= n) as DM by (intros; rewrite Nat.mul_comm; now apply Nat.mul_div_le).
    eapply fine_bind; [apply (fine_build sound)|].
    + intros i I. apply fine_first_equal; auto.
      * specialize (DM (length db) (vol sa) ZA). nia.
      * rewrite Nat.add_0_l. now apply DM.
    + intros r _ [_ R]. destruct (firstn _ sb) as [|a [|b t]]; [now apply vec_fine|now apply vec_fine|]. apply fine_new_matrix; auto. discriminate.
Qed.

(* ---- indexing ---- *)
Lemma fine_good c v xs s D R A tg : init (origin c) v xs = Ok s -> good s D R A tg -> Forall sound (sel_data s) -> vol R <> 0 ->
  fine sound (op_index c v xs).
Proof.
  intros Init G F NR. destruct (sel_out s) as [|x0 out0] eqn:EO.
  - destruct (index_one c v xs s D R A tg Init G EO) as (x & E & ->). eapply nth_sound; eauto.
  - unfold op_index. rewrite Init. cbn [bind]. rewrite EO. rewrite (copy_ok s D R A tg G).
    destruct (Nat.eqb_spec (vol R) 0); [congruence|]. rewrite (items_ok s D R A tg G _ EO NR).
    rewrite (g_off _ _ _ _ _ G) by lia. rewrite Nat.sub_0_r, mapM_map.
    eapply fine_bind; [apply (fine_mapM (Forall sound))|].
    + intros i I. apply in_seq in I. cbn [bind]. eapply fine_weak; [|apply (fine_build sound)]; [now intros r [_ ?]|].
      intros k K. apply fine_at; auto. rewrite (g_data _ _ _ _ _ G), vol_app.
      pose proof (off_lt s D R A tg G i ltac:(lia)) as OL. unfold off in *. nia.
    + intros rows _ [_ FR]. apply concat_sound in FR. destruct out0; [now apply vec_fine|]. apply fine_new_matrix; auto. discriminate.
Qed.
Lemma skip_filled n s : ~ In 0 s -> vol (skipn n s) <> 0.
Proof.
  intros H. apply vol_filled. intros I. apply H. rewrite <-(firstn_skipn n s). apply in_or_app. now right.
Qed.
Lemma fine_index c v xs : sound v -> Forall (fun x => match x with Some w => sound w | None => True end) xs -> ~ empty_axis v ->
  fine sound (op_index c v xs).
Proof.
  intros S SX NE. assert (Forall wf_index xs) as WX.
  { eapply Forall_impl; [|exact SX]. intros [w|]; [apply sound_wf|auto]. }
  assert (arr v \/ ~ arr v) as [Hv|Hv] by (destruct v; cbn; tauto).
  2: { destruct (index_invalid c v xs WX ltac:(tauto)) as [-> _]. exact Logic.I. }
  assert (Forall sound (data_of v)) as F.
  { destruct v; cbn in Hv; try tauto; [now apply sound_vec|apply sound_mat in S; tauto]. }
  destruct (init_cases (origin c) v xs Hv WX) as [E|[V|(w & n & -> & V)]].
  - unfold op_index. rewrite E. exact Logic.I.
  - destruct (init_axes _ v xs Hv (sound_wf v S) V) as (s & Init & SD & G & EO).
    eapply fine_good; eauto; [now rewrite SD|]. now apply skip_filled.
  - destruct (init_coords _ v w n Hv (sound_wf v S) V) as (s & Init & SD & G & EO).
    eapply fine_good; eauto; [now rewrite SD|]. now apply skip_filled.
Qed.

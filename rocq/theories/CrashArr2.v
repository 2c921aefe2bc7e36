(* C47: transposition, catenation, take, drop, sel, fill, part, iota, where, split, mix. *)
From Verif Require Import Value NumModel ArrModel ArrSpec ArrBase ArrTransp ArrTake ArrMix ArrSel CrashSpec CrashBase CrashArr.
From Coq Require Import ZifyBool ZifyNat.
Open Scope nat_scope.

Lemma array_fine r s f : s <> [] -> (forall c x, inb s c -> f c = Some x -> sound x) -> is_array r s f -> fine sound r.
Proof.
  intros N F (v & -> & W & E & EL). unfold fine.
  assert (length (data_of v) = vol s -> Forall sound (data_of v)) as D.
  { intros L. apply Forall_forall. intros x X. apply In_nth_error in X. destruct X as (p & P).
    assert (p < vol s) as PV by (rewrite <-L; apply nth_error_Some; congruence).
    destruct (EL (unravel s p) (unravel_inb s p PV)) as [H _]. unfold elem in H. rewrite E, ravel_unravel, P in H by auto.
    eapply F; [apply unravel_inb, PV|now symmetry]. }
  destruct v; cbn [shape_of] in E; try congruence; cbn [data_of] in D.
  - apply sound_vec, D. subst s. cbn. lia.
  - apply sound_mat. destruct W as (A & B & C). split; [tauto|]. apply D. congruence.
Qed.
Lemma gives_fine r s f : s <> [] -> (forall c x, inb s c -> f c = Some x -> sound x) -> gives_array r s f -> fine sound r.
Proof. intros N F [[_ A]|[_ ->]]; [eapply array_fine; eauto|exact Logic.I]. Qed.
Lemma nth_sound d i x : Forall sound d -> nth_error d i = Some x -> sound x.
Proof. intros F H. apply nth_error_In in H. rewrite Forall_forall in F. auto. Qed.

(* ---- transp ---- *)
Lemma fine_transp1 c v : sound v -> ~ (matrix v /\ empty_axis v) -> fine sound (op_transp1 c v).
Proof.
  intros Sv NE. destruct v as [| | | | |l|s d]; try exact Sv. cbn [op_transp1].
  apply sound_mat in Sv. destruct Sv as [(A & B & C) F].
  assert (fine sound (transpose c s d)) as H.
  { apply (gives_fine _ (rev s) (fun k => nth_error d (ravel s (rev k)))).
    - intros E. apply (f_equal (@rev nat)) in E. rewrite rev_involutive in E. auto.
    - intros k x _. now apply nth_sound.
    - apply transpose_ok; auto. intros x ->. apply NE. split; [exact Logic.I|]. right. now left. }
  destruct s as [|n [|m s]]; auto. exact Logic.I.
Qed.
Lemma fine_axis_map c rank v : fine (fun m => length m = length v /\ Forall (fun j => j < rank) m) (axis_map c rank v).
Proof.
  induction v as [|x v IH]; cbn [axis_map]; [now split|].
  eapply fine_bind with (P := fun _ => True); [now destruct x|]. intros z _ _.
  destruct ((z <? origin c)%Z || (origin c + Z.of_nat rank <=? z)%Z) eqn:E; [exact Logic.I|].
  eapply fine_bind; [exact IH|]. intros m _ [L F]. cbn. split; [lia|]. constructor; [lia|exact F].
Qed.
Lemma fine_binary_transpose c s d v : s <> [] -> length d = vol s -> Forall sound d -> fine sound (binary_transpose c s d v).
Proof.
  intros N LD F. unfold binary_transpose. destruct (Nat.eqb_spec (length v) (length s)) as [LV|]; [cbn [negb]|exact Logic.I].
  eapply fine_bind; [apply fine_axis_map|]. intros m _ [L FM]. cbv zeta. fold (bt_shape s m).
  destruct (bt_shape s m) as [t|] eqn:E; [|exact Logic.I].
  assert (t <> []) as TN.
  { intros ->. apply bt_shape_inv in E; [|congruence]. destruct E as [A _]. destruct s; [congruence|].
    destruct (A 0) as [X _]; [rewrite L, LV; cbn; lia|cbn in X; lia]. }
  apply bt_shape_inv in E; [|congruence]. unfold bt_chunk. rewrite Nat.sub_0_r. change (size t) with (vol t).
  eapply fine_bind; [apply (fine_mapM sound)|].
  - intros ix X. assert (odo_run (vol t) t (fst (odo_start t 0)) = map (unravel t) (seq 0 (vol t))) as Q.
    { destruct (Nat.eq_dec (vol t) 0) as [Z|Z]; [rewrite Z; reflexivity|]. rewrite odo_start_lt by lia. apply odo_run_unravel. lia. }
    rewrite Q in X. apply in_map_iff in X. destruct X as (p & <- & P). apply in_seq in P.
    rewrite old_index_spec by congruence. cbn [mult plus]. apply fine_at; auto. rewrite LD. apply ravel_lt.
    eapply axes_from_inb; eauto; [congruence|]. apply unravel_inb. lia.
  - intros r _ [_ R]. now apply fine_new_matrix.
Qed.
Lemma fine_transp c u v : sound u -> sound v -> fine sound (op_transp c u v).
Proof.
  intros Su Sv. unfold op_transp. eapply fine_bind; [apply fine_to_vec, Su|]. intros a _ _.
  destruct (sound_to_mat v Sv) as (A & B & C & D). eapply fine_bind; [apply fine_binary_transpose; auto|].
  intros r _ R. destruct r; auto. destruct (_ <=? 1); auto. apply sound_mat in R. apply vec_fine. tauto.
Qed.

(* ---- catenation ---- *)
Lemma shape_eqb_eq a b : shape_eqb a b = true -> a = b.
Proof. unfold shape_eqb. destruct (list_eq_dec Nat.eq_dec a b); [auto|discriminate]. Qed.
Lemma fine_copy dx dy nrows nl al nr ar : Forall sound dx -> Forall sound dy ->
  (forall i k, i < nrows -> k < nl -> i * al + k < length dx) -> (forall i k, i < nrows -> k < nr -> i * ar + k < length dy) ->
  fine (Forall sound) (copy_elems dx dy nrows nl al nr ar).
Proof.
  intros FX FY HX HY. unfold copy_elems. eapply fine_bind; [apply (fine_mapM (Forall sound))|].
  - intros i I. apply in_seq in I.
    eapply fine_bind; [apply (fine_build sound)|]; [intros k K; apply fine_at; auto; apply HX; lia|]. intros a _ [_ A].
    eapply fine_bind; [apply (fine_build sound)|]; [intros k K; apply fine_at; auto; apply HY; lia|]. intros b _ [_ B].
    cbn. now apply Forall_app.
  - intros rows _ [_ R]. cbn. now apply concat_sound.
Qed.
Lemma bump_last_nonnil s k : bump_last s k <> [].
Proof. unfold bump_last. destruct (init_ s); discriminate. Qed.
Lemma row_in i k n m : i < m -> k < n -> i * n + k < m * n.
Proof. nia. Qed.
Lemma fine_mat_catenate x y : good_mat x -> good_mat y ->
  (length (fst x) <> length (fst y) -> ~ In 0 (fst x) /\ ~ In 0 (fst y)) -> fine sound (mat_catenate x y).
Proof.
  destruct x as [sx dx], y as [sy dy]. intros (XN & XL & _ & XF) (YN & YL & _ & YF) NE. cbn [fst snd] in *. unfold mat_catenate.
  destruct (_ || _); [exact Logic.I|]. pose proof (vol_last sx XN) as VX. pose proof (vol_last sy YN) as VY.
  destruct ((length sx =? length sy) && shape_eqb (init_ sx) (init_ sy)) eqn:E1.
  { apply andb_prop in E1. destruct E1 as [_ E1]. apply shape_eqb_eq in E1. change (size (init_ sx)) with (vol (init_ sx)).
    eapply fine_bind; [apply fine_copy; auto|intros; apply fine_new_matrix; auto using bump_last_nonnil].
    - intros i k I K. rewrite XL, VX. now apply row_in.
    - intros i k I K. rewrite YL, VY, <-E1. now apply row_in. }
  destruct ((length sx =? S (length sy)) && shape_eqb (init_ sx) sy) eqn:E2.
  { apply andb_prop in E2. destruct E2 as [E2' E2]. apply shape_eqb_eq in E2. apply Nat.eqb_eq in E2'.
    destruct (NE ltac:(lia)) as [_ NY]. rewrite E2. apply vol_filled in NY. change (size sy) with (vol sy) in *.
    destruct (Nat.eqb_spec (vol sy) 0); [congruence|]. cbv zeta. rewrite Nat.div_same by auto.
    eapply fine_bind; [apply fine_copy; auto|intros; apply fine_new_matrix; auto using bump_last_nonnil].
    - intros i k I K. rewrite XL, VX, E2. now apply row_in.
    - intros i k I K. rewrite YL. lia. }
  destruct ((S (length sx) =? length sy) && shape_eqb sx (init_ sy)) eqn:E3.
  { apply andb_prop in E3. destruct E3 as [E3' E3]. apply shape_eqb_eq in E3. apply Nat.eqb_eq in E3'.
    destruct (NE ltac:(lia)) as [NX _]. rewrite <-E3. apply vol_filled in NX. change (size sx) with (vol sx) in *.
    destruct (Nat.eqb_spec (vol sx) 0); [congruence|]. cbv zeta. rewrite Nat.div_same by auto.
    eapply fine_bind; [apply fine_copy; auto|intros; apply fine_new_matrix; auto using bump_last_nonnil].
    - intros i k I K. rewrite XL. lia.
    - intros i k I K. rewrite YL, VY, <-E3. now apply row_in. }
  destruct (shape_eqb sx [1] && _) eqn:E4.
  { apply andb_prop in E4. destruct E4 as [E4 _]. apply shape_eqb_eq in E4. change (size (init_ sy)) with (vol (init_ sy)).
    eapply fine_bind; [apply fine_copy; auto|intros; apply fine_new_matrix; auto using bump_last_nonnil].
    - intros i k I K. rewrite XL, E4. cbn. lia.
    - intros i k I K. rewrite YL, VY. now apply row_in. }
  destruct (_ && shape_eqb sy [1]) eqn:E5; [|exact Logic.I].
  apply andb_prop in E5. destruct E5 as [_ E5]. apply shape_eqb_eq in E5. change (size (init_ sx)) with (vol (init_ sx)).
  eapply fine_bind; [apply fine_copy; auto|intros; apply fine_new_matrix; auto using bump_last_nonnil].
  - intros i k I K. rewrite XL, VX. now apply row_in.
  - intros i k I K. rewrite YL, E5. cbn. lia.
Qed.
Lemma fine_cat u v : sound u -> sound v -> clear u v -> fine sound (op_cat u v).
Proof.
  intros Su Sv CL. apply fine_alv; auto; [intros; apply vec_fine; now apply Forall_app|].
  intros M GU GV. apply fine_mat_catenate; auto. intros _. destruct (CL M). split; now apply not_empty_mat.
Qed.
Lemma bump_first_nonnil s k : s <> [] -> bump_first s k <> [].
Proof. destruct s; cbn; congruence. Qed.
Lemma fine_mat_catenate_first x y : good_mat x -> good_mat y -> fine sound (mat_catenate_first x y).
Proof.
  destruct x as [sx dx], y as [sy dy]. intros (XN & XL & _ & XF) (YN & YL & _ & YF). cbn [fst snd] in *. unfold mat_catenate_first.
  destruct sx as [|x0 sx]; [exact Logic.I|]. destruct sy as [|y0 sy]; [exact Logic.I|].
  assert (Forall sound (dx ++ dy)) as A by now apply Forall_app.
  repeat match goal with |- fine _ (if ?b then _ else _) => destruct b eqn:? end; try exact Logic.I;
    try (apply fine_new_matrix; [discriminate|exact A]).
  - apply andb_prop in Heqb2. destruct Heqb2 as [E _]. apply shape_eqb_eq in E.
    eapply fine_bind; [apply fine_at; [exact XF|rewrite XL, E; cbn; lia]|]. intros a _ Sa.
    apply fine_new_matrix; [discriminate|]. apply Forall_app. split; auto. now apply repeat_sound.
  - apply andb_prop in Heqb3. destruct Heqb3 as [_ E]. apply shape_eqb_eq in E.
    eapply fine_bind; [apply fine_at; [exact YF|rewrite YL, E; cbn; lia]|]. intros a _ Sa.
    apply fine_new_matrix; [discriminate|]. apply Forall_app. split; auto. now apply repeat_sound.
Qed.
Lemma fine_cat_first u v : sound u -> sound v -> fine sound (op_cat_first u v).
Proof.
  intros Su Sv. apply fine_alv; auto; [intros; apply vec_fine; now apply Forall_app|].
  intros M GU GV. now apply fine_mat_catenate_first.
Qed.

(* ---- take, drop ---- *)
Lemma sound_blank l : sound (blank_for l).
Proof. unfold blank_for. now destruct (forallb _ l). Qed.
Lemma sound_map_blank {A} l (f : list A) : Forall sound (map (fun _ => blank_for l) f).
Proof. apply Forall_forall. intros x X. apply in_map_iff in X. destruct X as (y & <- & _). apply sound_blank. Qed.
Lemma sound_filler l : Forall sound l -> sound (filler l).
Proof.
  intros F. destruct l as [|x l]; [exact Logic.I|]. inversion F as [|? ? Sx _]; subst.
  destruct x; try apply sound_blank.
  - apply sound_vec. apply sound_map_blank.
  - apply sound_mat in Sx. apply sound_mat. rewrite map_length. split; [tauto|]. apply sound_map_blank.
Qed.
Lemma forall_wf l : Forall sound l -> Forall wf l.
Proof. apply Forall_impl, sound_wf. Qed.
Lemma fine_fill_value l : Forall sound l -> fine sound (fill_value l).
Proof. intros F. rewrite fill_value_ok by now apply forall_wf. now apply sound_filler. Qed.
Lemma all_ints_inv l : all_ints l = true -> l = map VInt (ints_of l).
Proof.
  induction l as [|x l IH]; [reflexivity|]. destruct x; try discriminate. cbn. intros H. f_equal. now apply IH.
Qed.
Lemma all_axes_nonnil s ks : s <> [] -> all_axes s ks <> [].
Proof.
  intros N E. unfold all_axes in E. apply app_eq_nil in E. destruct E as [-> E]. destruct s; [congruence|discriminate].
Qed.
Lemma fine_mat_take s d v : s <> [] -> length d = vol s -> Forall sound d -> fine sound (mat_take s d v).
Proof.
  intros N L F. destruct (all_ints v) eqn:A; [|unfold mat_take; rewrite A; exact Logic.I].
  apply all_ints_inv in A. rewrite A. set (ks := ints_of v) in *. clearbody ks. clear A v.
  destruct (Nat.ltb_spec (length s) (length ks)) as [X|X];
    [destruct (Nat.eq_dec (vol s) 1) as [O|O]|].
  2: { unfold mat_take. rewrite all_ints_map, map_length. cbn [negb]. destruct (Nat.ltb_spec (length s) (length ks)); [|lia].
       change (size s) with (vol s). destruct (Nat.eqb_spec (vol s) 1); [congruence|exact Logic.I]. }
  all: destruct (mat_take_ok s d ks N L (forall_wf d F) ltac:(intros; auto; lia)) as [H1 H2];
    set (s' := take_shape s ks) in *; assert (s' <> []) as N' by (unfold s', take_shape; destruct (Nat.ltb_spec (length s) (length ks)); [destruct ks; [cbn in *; lia|discriminate]|auto]);
    cbv zeta in *; destruct (Z_le_gt_dec (Z.of_nat (vol (dims (all_axes s' ks)))) maxInt) as [Z|Z];
    [|rewrite H2 by lia; exact Logic.I];
    (eapply gives_fine; [apply dims_nonnil, all_axes_nonnil, N'| |apply H1, Z]);
    intros c x _; cbv beta; destruct (take_coord s' (all_axes s' ks) c); [apply nth_sound, F|intros [= <-]; now apply sound_filler].
Qed.
Lemma fine_vec_take n l : Forall sound l -> fine sound (vec_take n l).
Proof.
  intros F. unfold vec_take. eapply fine_bind; [apply fine_fill_value, F|]. intros x _ Sx.
  assert (forall k, Forall sound (repeat x k)) as R by (intros; now apply repeat_sound).
  repeat match goal with |- fine _ (if ?b then _ else _) => destruct b end; apply vec_fine;
    try (apply Forall_app; split; auto); try constructor; auto using firstn_sound, skipn_sound.
Qed.
Lemma fine_as_int v : fine (fun _ => True) (as_int v).
Proof. now destruct v. Qed.
Lemma fine_as_uint v : fine (fun _ => True) (as_uint v).
Proof. unfold as_uint. destruct v; try exact Logic.I. match goal with |- context [if ?b then _ else _] => now destruct b end. Qed.
Lemma fine_take u v : sound u -> sound v -> fine sound (op_take u v).
Proof.
  intros Su Sv. unfold op_take. eapply fine_bind; [apply fine_to_vec, Su|]. intros a _ _.
  assert (fine sound (let! l := to_vec v in match a with [x] => let! n := as_int x in vec_take n l | _ => mat_take [length l] l a end)) as V.
  { eapply fine_bind; [apply fine_to_vec, Sv|]. intros l _ F.
    assert (fine sound (mat_take [length l] l a)) as M by (apply fine_mat_take; auto; [discriminate|cbn; lia]).
    destruct a as [|x [|y a]]; auto. eapply fine_bind; [apply fine_as_int|]. intros n _ _. now apply fine_vec_take. }
  destruct v; auto. apply sound_mat in Sv. apply fine_mat_take; tauto.
Qed.
Lemma fine_mat_drop s d v : s <> [] -> length d = vol s -> Forall sound d -> fine sound (mat_drop s d v).
Proof.
  intros N L F. unfold mat_drop. destruct (_ <? _); [exact Logic.I|]. destruct (negb _); [exact Logic.I|]. now apply fine_mat_take.
Qed.
Lemma fine_vec_drop n l : Forall sound l -> fine sound (vec_drop n l).
Proof.
  intros F. unfold vec_drop.
  repeat match goal with |- fine _ (if ?b then _ else _) => destruct b end; apply vec_fine; auto using firstn_sound, skipn_sound.
Qed.
Lemma fine_drop u v : sound u -> sound v -> fine sound (op_drop u v).
Proof.
  intros Su Sv. unfold op_drop. eapply fine_bind; [apply fine_to_vec, Su|]. intros a _ _.
  assert (fine sound (let! l := to_vec v in match a with [x] => let! n := as_int x in vec_drop n l | _ => Err end)) as V.
  { eapply fine_bind; [apply fine_to_vec, Sv|]. intros l _ F.
    destruct a as [|x [|y a]]; try exact Logic.I. eapply fine_bind; [apply fine_as_int|]. intros n _ _. now apply fine_vec_drop. }
  destruct v; auto. apply sound_mat in Sv. apply fine_mat_drop; tauto.
Qed.

(* ---- sel, fill ---- *)
Lemma sound_all_zeros v : sound v -> sound (all_zeros v).
Proof.
  induction v using value_ind'; intros S; try exact Logic.I; cbn [all_zeros].
  - apply sound_vec in S. apply sound_vec. clear -H S. induction l; [constructor|].
    inversion H; inversion S; subst. cbn [map]. constructor; auto.
  - apply sound_mat in S. destruct S as [A S]. apply sound_mat. rewrite map_length. split; [exact A|]. clear -H S. induction d; [constructor|].
    inversion H; inversion S; subst. cbn [map]. constructor; auto.
Qed.
Lemma fine_vec_sel l n k : Forall sound l -> Forall sound n -> (length n = k -> k = 0 -> l = []) -> fine (Forall sound) (vec_sel l n k).
Proof.
  intros FL FN H. unfold vec_sel. destruct (negb (length n =? 1) && negb (length n =? k)) eqn:E; [exact Logic.I|].
  eapply fine_bind; [apply (fine_mapM (Forall sound))|].
  - intros i I. apply in_seq in I.
    assert (length n <> 0) as NZ by (intros Z; assert (l = []) as -> by (apply H; lia); cbn in I; lia).
    eapply fine_bind; [apply fine_at; [exact FN|now apply Nat.mod_upper_bound]|]. intros cv _ _.
    eapply fine_bind; [apply fine_as_int|]. intros count _ _.
    eapply fine_bind; [apply fine_at; [exact FL|lia]|]. intros x _ Sx. unfold fine, sel_one.
    destruct (_ <? _)%Z; apply repeat_sound; auto using sound_all_zeros.
  - intros rows _ [_ R]. cbn. now apply concat_sound.
Qed.
Lemma fine_sel u v : sound u -> sound v -> clear u v -> fine sound (op_sel u v).
Proof.
  intros Su Sv CL. apply fine_alv; auto.
  - intros a b FA FB _ _ _ _. eapply fine_bind; [apply fine_vec_sel; auto; intros _ Z; now destruct b|]. intros r _ R. now apply vec_fine.
  - intros M GU GV. unfold mat_sel. destruct (CL M) as [_ NV]. apply not_empty_mat in NV.
    destruct (to_mat v) as [s d], (to_mat u) as [su du]. destruct GU as (_ & _ & _ & FU), GV as (N & L & _ & F). cbn [fst snd] in *.
    destruct su as [|k [|? ?]]; try exact Logic.I. destruct s as [|n s]; [congruence|]. set (t := n :: s) in *.
    eapply fine_bind; [apply fine_vec_sel; auto|].
    + intros _ Z. rewrite (vol_last t N), Z, Nat.mul_0_r in L. now destruct d.
    + intros r _ R. change (size (init_ t)) with (vol (init_ t)). destruct (Nat.eqb_spec (vol (init_ t)) 0) as [Z|Z].
      * exfalso. apply NV. apply in_init. now apply vol_zero.
      * apply fine_new_matrix; auto. destruct (init_ t); discriminate.
Qed.
Lemma fine_fill_loop i : forall p j jx z, fill_counts i = Ok p -> jx + snd p <= length j -> Forall sound j -> sound z ->
  fine (Forall sound) (fill_loop i j jx z).
Proof.
  induction i as [|x i IH]; intros p j jx z E L F Sz; [constructor|]. cbn [fill_counts fill_loop] in *.
  destruct x as [y| | | | | |]; try exact Logic.I.
  destruct (fill_counts i) as [q| | |] eqn:Q; try discriminate. cbn [bind] in E. injection E as <-. cbn [snd] in L.
  destruct (y =? 0)%Z eqn:Y0; [|destruct (y <? 0)%Z eqn:Y1].
  - eapply fine_bind; [eapply IH; eauto; destruct (0 <? y)%Z; lia|]. intros r _ R. now constructor.
  - eapply fine_bind; [eapply IH; eauto; destruct (0 <? y)%Z; lia|]. intros r _ R. apply Forall_app. split; auto. now apply repeat_sound.
  - destruct (0 <? y)%Z eqn:Y2; [|lia]. eapply fine_bind; [apply fine_at; [exact F|lia]|]. intros a _ Sa.
    eapply fine_bind; [eapply IH; eauto; lia|]. intros r _ R. apply Forall_app. split; auto. now apply repeat_sound.
Qed.
Lemma fine_fill_counts i : fine (fun _ => True) (fill_counts i).
Proof. induction i as [|x i IH]; cbn [fill_counts]; [exact Logic.I|]. destruct x; try exact Logic.I. eapply fine_bind; [exact IH|]. now intros. Qed.
Lemma fine_fill u v : sound u -> sound v -> fine sound (op_fill u v).
Proof.
  intros Su Sv. apply fine_alv; auto; [|intros; exact Logic.I]. intros a b _ FB _ _ _ _. unfold vec_fill.
  destruct a as [|x a]; [now apply vec_fine|]. eapply fine_bind; [apply fine_fill_counts|]. intros p E _.
  destruct (Nat.eqb_spec (snd p) (length b)) as [L|]; [cbn [negb]|exact Logic.I]. destruct (_ <? _)%Z; [exact Logic.I|].
  eapply fine_bind; [eapply fine_fill_loop; eauto; [lia|now destruct (forallb _ b)]|]. intros r _ R. now apply vec_fine.
Qed.

(* ---- part ---- *)
Lemma fine_part_loop score v : score <> [] -> Forall sound score -> forall i prev acc r dim, Forall sound v -> Forall sound acc -> Forall sound r ->
  fine (fun p => Forall sound (fst p)) (part_loop v score i prev acc r dim).
Proof.
  intros N FS. induction v as [|x v IH]; intros i prev acc r dim FV FA FR; cbn [part_loop].
  - unfold fine. cbn [fst]. destruct (0 <? length acc); auto. apply Forall_app. split; auto. constructor; [now apply sound_vec|constructor].
  - assert (i mod length score < length score) as M by (apply Nat.mod_upper_bound; destruct score; [congruence|discriminate]).
    inversion FV; subst. eapply fine_bind; [apply fine_at; [exact FS|exact M]|]. intros sv _ _.
    eapply fine_bind; [apply fine_as_uint|]. intros sc _ _.
    assert (Forall sound [VVec acc]) as VA by (constructor; [now apply sound_vec|constructor]).
    destruct (negb _); [destruct (_ && (0 <? length acc))|]; apply IH; auto; apply Forall_app; auto.
Qed.
Lemma fine_do_partition v score : (score = [] -> v = []) -> Forall sound score -> Forall sound v ->
  fine (fun p => Forall sound (fst p)) (do_partition v score).
Proof.
  intros H FS FV. unfold do_partition. destruct v as [|x v]; [now constructor|]. destruct score as [|y score]; [now specialize (H eq_refl)|].
  apply fine_part_loop; auto. discriminate.
Qed.
Lemma legal_prefix0 s : s <> [] -> legal s -> legal (init_ s ++ [0]).
Proof.
  intros N L k Hk. rewrite app_length in Hk. cbn [length] in Hk. rewrite firstn_app. rewrite (init_last s N) in L.
  specialize (L k). rewrite app_length in L. cbn [length] in L. specialize (L Hk). rewrite firstn_app in L.
  destruct (k - length (init_ s)) as [|j] eqn:E; cbn [firstn] in *; [exact L|].
  rewrite vol_app. cbn [vol]. rewrite Nat.mul_0_r. cbn. lia.
Qed.
Lemma fine_part u v : sound u -> sound v -> fine sound (op_part u v).
Proof.
  intros Su Sv. apply fine_alv; auto.
  - intros a b FA FB _ _ _ _. unfold vec_partition. destruct (Nat.eqb_spec (length a) (length b)) as [E|]; [cbn [negb]|exact Logic.I].
    eapply fine_bind; [apply fine_do_partition; auto; intros ->; now destruct b|]. intros p _ P. now apply vec_fine.
  - intros _ GU GV. unfold mat_partition. destruct (to_mat v) as [s d], (to_mat u) as [su du].
    destruct GU as (_ & LU & _ & FU), GV as (N & L & LG & F). cbn [fst snd] in *.
    destruct su as [|k [|? ?]]; try exact Logic.I. destruct s as [|n s]; [congruence|]. set (t := n :: s) in *.
    eapply fine_bind with (P := Forall sound).
    { destruct (Nat.eqb_spec k 1) as [->|]; [|exact FU]. eapply fine_bind; [apply fine_at; [exact FU|rewrite LU; cbn; lia]|]. intros x _ _.
      eapply fine_bind; [apply fine_as_uint|]. intros m _ _. now apply repeat_sound. }
    intros score _ FS. destruct (Nat.eqb_spec (length score) (last_ t)) as [E|]; [cbn [negb]|exact Logic.I].
    eapply fine_bind; [apply fine_do_partition; auto|].
    + intros ->. cbn [length] in E. rewrite (vol_last t N), <-E, Nat.mul_0_r in L. now destruct d.
    + intros p _ P. destruct (snd p); [apply fine_new_matrix; [destruct (init_ t); discriminate|exact P]|].
      destruct ((size (init_ t) =? 0) && _) eqn:Z; [|exact Logic.I]. unfold fine. apply sound_mat. split; [|constructor].
      split; [destruct (init_ t); discriminate|]. split; [rewrite vol_app; cbn; lia|]. now apply legal_prefix0.
Qed.

(* ---- iota, where, split, mix ---- *)
Lemma fine_new_iota c n : fine sound (new_iota c n).
Proof. unfold new_iota. destruct (_ || _); [exact Logic.I|]. apply vec_fine. apply (sound_ints (fun i => (origin c + Z.of_nat i)%Z)). Qed.
Lemma coord_sound c k : sound (coord_value c k).
Proof. apply sound_vec. apply (sound_ints (fun x => (origin c + Z.of_nat x)%Z)). Qed.
Lemma fine_iota1 c v : sound v -> fine sound (op_iota1 c v).
Proof.
  intros Sv. destruct v as [z|z|z|q|a b|l|s d]; try exact Logic.I; cbn [op_iota1]; [apply fine_new_iota|].
  destruct l as [|x [|y l]]; [exact Logic.I|eapply fine_bind; [apply fine_as_int|]; intros; apply fine_new_iota|].
  eapply fine_bind; [apply fine_shape|]. intros s _ L. apply fine_new_matrix; [destruct s; [discriminate|discriminate]|].
  apply Forall_forall. intros w W. apply in_map_iff in W. destruct W as (k & <- & _). apply coord_sound.
Qed.
Lemma fine_where c v : sound v -> fine sound (op_where c v).
Proof.
  intros Sv. destruct v as [z|z|z|q|a b|l|s d]; try exact Logic.I; cbn [op_where].
  - apply sound_vec in Sv. eapply fine_bind; [apply (fine_mapM (Forall sound))|].
    + intros i I. apply in_seq in I. eapply fine_bind; [apply fine_at; [exact Sv|lia]|]. intros x _ _.
      eapply fine_bind; [apply fine_as_uint|]. intros e _ _. now apply repeat_sound.
    + intros r _ [_ R]. apply vec_fine. now apply concat_sound.
  - eapply fine_bind; [apply (fine_mapM (Forall sound))|].
    + intros p _. eapply fine_bind; [apply fine_as_uint|]. intros e _ _. apply repeat_sound, coord_sound.
    + intros r _ [_ R]. apply vec_fine. now apply concat_sound.
Qed.
Lemma sound_int_vec l : sound (int_vec l).
Proof. apply sound_vec. apply (sound_ints Z.of_nat). Qed.
Lemma sound_rho1 v : sound (op_rho1 v).
Proof. destruct v; try exact Logic.I; apply sound_int_vec. Qed.
Lemma sound_count v : sound (op_count v).
Proof. destruct v; try exact Logic.I. now destruct shape. Qed.
Lemma sound_ravel v : sound v -> sound (op_ravel v).
Proof.
  intros S. destruct v; cbn [op_ravel]; auto; apply sound_vec; try (constructor; [exact S|constructor]). apply sound_mat in S. tauto.
Qed.
Lemma sound_flatten v : sound v -> Forall sound (flatten v).
Proof.
  induction v using value_ind'; intros S; cbn [flatten]; try (constructor; [exact S|constructor]).
  - apply sound_vec in S. clear -H S. induction l; [constructor|].
    inversion H; inversion S; subst. cbn [flat_map]. apply Forall_app. auto.
  - apply sound_mat in S. destruct S as [_ S]. clear -H S. induction d; [constructor|].
    inversion H; inversion S; subst. cbn [flat_map]. apply Forall_app. auto.
Qed.
Lemma sound_shrink_mat v : sound v -> sound (shrink_mat v).
Proof.
  intros S. destruct v as [| | | | | |s d]; auto. apply sound_mat in S as T. destruct s as [|a [|b s]]; auto. apply sound_vec. tauto.
Qed.
Lemma fine_split v : sound v -> fine sound (op_split v).
Proof.
  intros Sv. destruct v as [z|z|z|q|a b|l|s d]; try exact Logic.I; try exact Sv; cbn [op_split].
  apply sound_mat in Sv. destruct Sv as [(N & L & LG) F]. unfold mat_split. destruct s as [|x [|y s]]; try exact Logic.I.
  set (t := x :: y :: s) in *. change (size (init_ t)) with (vol (init_ t)).
  eapply fine_bind; [apply (fine_mapM sound)|].
  - intros i I. apply in_seq in I. eapply fine_bind; [apply (fine_build sound)|].
    + intros k K. apply fine_at; auto. rewrite L, (vol_last t N). apply row_in; lia.
    + intros r _ [_ R]. now apply vec_fine.
  - intros rows _ [_ R]. eapply fine_bind; [apply fine_new_matrix; [|exact R]|]; [unfold t, init_; cbn; destruct s; discriminate|].
    intros m _ M. now apply sound_shrink_mat.
Qed.
Lemma fine_mix_elem shape e : sound e -> fine (Forall sound) (mix_elem shape e).
Proof.
  intros S. set (v := map (fun n => VInt (Z.of_nat n)) shape).
  assert (forall ts d, ts <> [] -> Forall sound d -> fine (Forall sound)
    (let! m := new_matrix ts d in match m with VMat s dd => let! r := mat_take s dd v in match r with VMat _ o => Ok o | _ => Crash end | _ => Crash end)) as T.
  { intros ts d N F. pose proof (fine_new_matrix ts d N F) as H. destruct (new_matrix ts d) as [m| | |] eqn:E; auto. cbn [bind fine] in *.
    assert (exists s' d', m = VMat s' d') as (s' & d' & ->).
    { revert E. unfold new_matrix. destruct (too_large _); [discriminate|]. destruct (_ =? _); [|discriminate]. injection 1 as <-. eauto. }
    apply sound_mat in H. destruct H as [(A & B & C) D]. pose proof (fine_mat_take s' d' v A B D) as G.
    destruct (mat_take s' d' v) as [r| | |] eqn:R; auto. destruct (mat_take_mat _ _ _ _ R) as (s2 & o & ->). cbn [fine bind] in *.
    apply sound_mat in G. tauto. }
  assert (fine (Forall sound) (let! m := new_matrix (repeat 1 (length shape - 0)) [e] in
     match m with VMat s dd => let! r := mat_take s dd v in match r with VMat _ o => Ok o | _ => Crash end | _ => Crash end)) as T0.
  { destruct shape as [|k shape]; [exact Logic.I|]. apply T; [discriminate|constructor; [exact S|constructor]]. }
  destruct e as [z|z|z|q|a b|l|s d]; cbn [mix_elem]; auto.
  - apply T; [intros E; apply app_eq_nil in E; destruct E as [_ E]; discriminate E|now apply sound_vec].
  - apply sound_mat in S. destruct (_ && _); [cbn; tauto|]. apply T; [|tauto]. intros E. apply app_eq_nil in E. tauto.
Qed.
Lemma mix_shape_nonnil d : mix_shape d <> [].
Proof.
  unfold mix_shape. assert (forall s, s <> [] -> fold_left mix_step d s <> []) as H; [|apply H; discriminate].
  induction d as [|x d IH]; intros s N; cbn [fold_left]; auto. apply IH. destruct x; cbn [mix_step]; unfold set_last_max, mix_grow;
    try (destruct (last_ s =? 0)); auto; try (intros E; apply app_eq_nil in E; destruct E as [_ E]; discriminate E).
  all: destruct s; [congruence|]; cbn; destruct shape; discriminate.
Qed.
Lemma fine_mat_mix s d : sound (VMat s d) -> fine sound (mat_mix s d).
Proof.
  intros S. unfold mat_mix. destruct (forallb _ d); [exact S|]. apply sound_mat in S. destruct S as [_ F].
  eapply fine_bind; [apply (fine_mapM (Forall sound))|].
  - intros e E. apply fine_mix_elem. rewrite Forall_forall in F. auto.
  - intros r _ [_ R]. apply fine_new_matrix; [|now apply concat_sound]. intros E. apply app_eq_nil in E. destruct E as [_ E]. now apply mix_shape_nonnil in E.
Qed.
Lemma fine_mix v : sound v -> fine sound (op_mix v).
Proof.
  intros S. destruct v as [z|z|z|q|a b|l|s d]; try exact S; try exact Logic.I; cbn [op_mix].
  - eapply fine_bind; [apply fine_mat_mix|].
    + apply sound_mat. apply sound_vec in S. split; auto. split; [discriminate|]. split; [cbn; lia|]. apply legal_short. cbn. lia.
    + intros m _ M. now apply sound_shrink_mat.
  - now apply fine_mat_mix.
Qed.

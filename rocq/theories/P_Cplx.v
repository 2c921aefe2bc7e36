(* Complex numbers with exact parts: floor and ceiling, equality, construction, inverse.  Model: CplxModel.v,
   NumModel.v.  Specification: CplxSpec.v, NumSpec.v. *)
From Coq Require Import QArith Qabs.
From Verif Require Import Value NumModel NumSpec QuoRemHeap CplxModel CplxSpec CplxProofs CplxPow.
Import ListNotations.
Open Scope Z_scope.

(* ---- C105 ---- *)
(* floor of a complex number whose parts are not in one cell is McDonnell's floor ... *)
Theorem complex_floor_partial : forall c h r i z, denotes h r i z -> apart r i ->
  exists g, mcdonnell z g /\
    limited c (snd (complex_floor c h r i)) (cgives (snd (complex_floor c h r i)) (gauss g)).
Proof.
  intros c h r i z D A. destruct (mc_exists z) as [g M]. exists g. split; [exact M|]. apply (floor_ok c h r i z g D A M).
Qed.
Print Assumptions complex_floor_partial.
(* ... which is less than 1 away from the number, has the floor of the sum of its parts as the sum of its parts,
   is the only such corner, goes along with shifts by Gaussian integers, and leaves these alone. *)
Theorem complex_floor_close : forall z g, mcdonnell z g -> (dist2 z (gauss g) < 1)%Q /\ floor_of (fst z + snd z) (fst g + snd g).
Proof. intros z g M. split; [apply mc_close, M|apply mc_sum, M]. Qed.
Print Assumptions complex_floor_close.
Theorem complex_floor_one : forall z g g', mcdonnell z g -> mcdonnell z g' -> g = g'.
Proof. exact mc_unique. Qed.
Print Assumptions complex_floor_one.
Theorem complex_floor_shifts : forall c h r i z h' r' i' w d, denotes h r i z -> apart r i -> denotes h' r' i' w -> apart r' i' ->
  ceq w (fst z + inject_Z (fst d), snd z + inject_Z (snd d))%Q -> maxbits c = 0 ->
  exists g, cgives (snd (complex_floor c h r i)) (gauss g) /\
    cgives (snd (complex_floor c h' r' i')) (gauss (fst g + fst d, snd g + snd d)).
Proof.
  intros c h r i z h' r' i' w d D A D' A' E M0. destruct (mc_exists z) as [g M]. exists g.
  destruct (floor_ok c h r i z g D A M) as [[H|[_ H]] _]; [|contradiction].
  destruct (floor_ok c h' r' i' w _ D' A' (mc_shift z g w d E M)) as [[H'|[_ H']] _]; [|contradiction].
  split; assumption.
Qed.
Print Assumptions complex_floor_shifts.
Theorem complex_floor_fixes : forall c h r i g, denotes h r i (gauss g) -> apart r i ->
  limited c (snd (complex_floor c h r i)) (cgives (snd (complex_floor c h r i)) (gauss g)).
Proof. intros c h r i g D A. apply (floor_ok c h r i _ g D A (mc_gauss g)). Qed.
Print Assumptions complex_floor_fixes.
(* The ceiling, which works on copies, needs no condition on cells. *)
Theorem complex_ceiling : forall c h r i z, denotes h r i z ->
  exists g, mcdonnell (copp z) g /\
    limited c (snd (complex_ceil c h r i)) (cgives (snd (complex_ceil c h r i)) (copp (gauss g))).
Proof.
  intros c h r i z D. destruct (mc_exists (copp z)) as [g M]. exists g. split; [exact M|]. apply (ceil_ok c h r i z g D M).
Qed.
Print Assumptions complex_ceiling.
(* With both parts in one cell, as in x j x, the floor is not the floor: y is -2/3, and floor y j y is not
   floor -2/3j-2/3. *)
Theorem complex_floor_refuted : exists h r i h' r' i', let z := (-2 # 3, -2 # 3)%Q in
  denotes h r i z /\ denotes h' r' i' z /\
  snd (complex_floor (mkConf 0 1) h r i) = Ok (VInt (-1)) /\
  snd (complex_floor (mkConf 0 1) h' r' i') = Ok (VCplx (VInt (-1)) (VInt (-1))) /\
  ~ mcdonnell z (-1, 0).
Proof.
  exists [(-2 # 3)%Q], (PRat 0), (PRat 0), [(-2 # 3)%Q; (-2 # 3)%Q], (PRat 0), (PRat 1). cbv zeta.
  split; [|split; [|split; [|split]]].
  - vm_compute. intuition discriminate || auto.
  - vm_compute. intuition discriminate || auto.
  - vm_compute. reflexivity.
  - vm_compute. reflexivity.
  - intros M. assert (mcdonnell (-2 # 3, -2 # 3)%Q (-1, -1)) as M'.
    { exists (-1), (-1). unfold floor_of. cbn [fst snd]. repeat split; try (vm_compute; reflexivity); try (vm_compute; discriminate).
      left. split; [vm_compute; reflexivity|reflexivity]. }
    pose proof (mc_unique _ _ _ M M') as E. discriminate E.
Qed.
Print Assumptions complex_floor_refuted.
Example complex_floor_case : let h := [(-7 # 2)%Q; (9 # 4)%Q] in
  denotes h (PRat 0) (PRat 1) (-7 # 2, 9 # 4)%Q /\ apart (PRat 0) (PRat 1) /\
  snd (complex_floor (mkConf 0 1) h (PRat 0) (PRat 1)) = Ok (VCplx (VInt (-4)) (VInt 2)) /\
  snd (complex_ceil (mkConf 0 1) h (PRat 0) (PRat 1)) = Ok (VCplx (VInt (-3)) (VInt 2)) /\
  snd (complex_floor (mkConf 0 1) [(15 # 2)%Q; (23 # 4)%Q] (PRat 0) (PRat 1)) = Ok (VCplx (VInt 7) (VInt 6)) /\
  snd (complex_ceil (mkConf 0 1) [] (PInt (VInt 3)) (PInt (VInt 4))) = Ok (VCplx (VInt 3) (VInt 4)).
Proof. vm_compute. intuition discriminate || auto. Qed.

(* ---- C106 ---- *)
(* floor makes the negative rational parts of its operand positive, and touches nothing else; ceil touches nothing. *)
Theorem floor_effect : forall c h r i z j, denotes h r i z -> apart r i -> (j < length h)%nat ->
  cell (fst (complex_floor c h r i)) j =
    if (match r with PRat a => Nat.eqb j a | _ => false end) || (match i with PRat a => Nat.eqb j a | _ => false end)
    then Qabs (cell h j) else cell h j.
Proof. intros c h r i z j D A J. destruct (mc_exists z) as [g M]. apply (floor_ok c h r i z g D A M); exact J. Qed.
Print Assumptions floor_effect.
Theorem floor_keeps_operand_refuted : exists h r i,
  denotes h r i (-1 # 2, 3)%Q /\ snd (complex_floor (mkConf 0 1) h r i) = Ok (VCplx (VInt (-1)) (VInt 3)) /\
  denotes (fst (complex_floor (mkConf 0 1) h r i)) r i (1 # 2, 3)%Q /\
  snd (complex_floor (mkConf 0 1) (fst (complex_floor (mkConf 0 1) h r i)) r i) = Ok (VCplx (VInt 0) (VInt 3)).
Proof.
  exists [(-1 # 2)%Q], (PRat 0), (PInt (VInt 3)). vm_compute. intuition discriminate || auto.
Qed.
Print Assumptions floor_keeps_operand_refuted.
Theorem ceiling_keeps_operand : forall c h r i z j, denotes h r i z -> (j < length h)%nat ->
  cell (fst (complex_ceil c h r i)) j = cell h j.
Proof. intros c h r i z j D J. destruct (mc_exists (copp z)) as [g M]. apply (ceil_ok c h r i z g D M); exact J. Qed.
Print Assumptions ceiling_keeps_operand.

(* ---- C107 ---- *)
Theorem complex_equality : forall c u v p q, cvalid u -> cvalid v -> cval u = Some p -> cval v = Some q ->
  truth (eval_scalar c BEq u v) (ceq p q) /\ truth (eval_scalar c BNe u v) (~ ceq p q).
Proof. exact complex_eq_ok. Qed.
Print Assumptions complex_equality.
(* Complex numbers are not ordered. *)
Theorem complex_unordered : forall c o a b v q, (o = BLt \/ o = BLe \/ o = BGt \/ o = BGe) -> cvalid (VCplx a b) -> cvalid v ->
  cval v = Some q -> eval_scalar c o (VCplx a b) v = Err /\ eval_scalar c o v (VCplx a b) = Err.
Proof.
  intros c o a b v q Ho Vu Vv Nv.
  assert (exists p, cval (VCplx a b) = Some p) as [p Nu].
  { destruct Vu as (Va & Vb & _). cbn [cval]. destruct a; try contradiction; destruct b; try contradiction; cbn [numval]; eauto. }
  split; eapply complex_cmp_err; eauto. rewrite orb_true_r. reflexivity.
Qed.
Print Assumptions complex_unordered.
Example complex_equality_case : cvalid (VCplx (VInt 1) (VRat (1 # 2))) /\
  eval_scalar (mkConf 0 1) BEq (VCplx (VInt 1) (VRat (1 # 2))) (VCplx (VBig 1) (VRat (1 # 2))) = Ok (VInt 1) /\
  eval_scalar (mkConf 0 1) BNe (VCplx (VInt 1) (VRat (1 # 2))) (VInt 1) = Ok (VInt 1) /\
  eval_scalar (mkConf 0 1) BLt (VCplx (VInt 1) (VRat (1 # 2))) (VInt 1) = Err.
Proof.
  split; [|vm_compute; auto]. simpl. split; [lia|]. split; [split; [reflexivity|discriminate]|].
  exists (1 # 2)%Q. split; [reflexivity|discriminate].
Qed.

(* ---- C108 ---- *)
(* A j B is A+Bi, j B is B times i, and / B is 1/B. *)
Theorem complex_built : forall c u v x y, valid u -> valid v -> numval u = Some x -> numval v = Some y ->
  cgives (eval_scalar c BJ u v) (x, y).
Proof. exact build_ok. Qed.
Print Assumptions complex_built.
Theorem complex_times_i : forall c u p, cvalid u -> cval u = Some p -> cgives (eval_unary_scalar c UJ u) (- snd p, fst p)%Q.
Proof. exact times_i_ok. Qed.
Print Assumptions complex_times_i.
Theorem complex_inverse : forall c u p, cvalid u -> cval u = Some p ->
  (ceq p (0, 0)%Q /\ eval_unary_scalar c UInv u = Err) \/
  (~ ceq p (0, 0)%Q /\ limited c (eval_unary_scalar c UInv u)
     (cgives (eval_unary_scalar c UInv u) (fst p / (fst p * fst p + snd p * snd p), - snd p / (fst p * fst p + snd p * snd p))%Q)).
Proof. exact cinv_ok. Qed.
Print Assumptions complex_inverse.
Example complex_built_case :
  eval_scalar (mkConf 0 1) BJ (VRat (1 # 2)) (VInt 3) = Ok (VCplx (VRat (1 # 2)) (VInt 3)) /\
  eval_unary_scalar (mkConf 0 1) UJ (VCplx (VRat (1 # 2)) (VInt 3)) = Ok (VCplx (VInt (-3)) (VRat (1 # 2))) /\
  eval_unary_scalar (mkConf 0 1) UInv (VCplx (VInt 3) (VInt 4)) = Ok (VCplx (VRat (3 # 25)) (VRat (-4 # 25))).
Proof. vm_compute. auto. Qed.

(* ---- C109 ---- *)
(* A complex number to the power of a small integer is exact: the repeated product, or its inverse. *)
Theorem complex_power_exact : forall c a b n z, cvalid (VCplx a b) -> cval (VCplx a b) = Some z -> - 2 ^ 31 <= n <= 2 ^ 31 ->
  limited c (complex_power c a b (VInt n))
    (exists v w, complex_power c a b (VInt n) = Ok v /\ cvalid v /\ cval v = Some w /\ is_power z n w).
Proof. exact complex_power_ok. Qed.
Print Assumptions complex_power_exact.
(* There is one such number, unless 0 is to be inverted. *)
Theorem complex_power_one : forall z n w w', (n < 0 -> ~ ceq z (0, 0)%Q) -> is_power z n w -> is_power z n w' -> ceq w w'.
Proof. exact is_power_unique. Qed.
Print Assumptions complex_power_one.
(* Powers of a number that is not 0 add their exponents when multiplied. *)
Theorem complex_power_adds : forall z m n w w', ~ ceq z (0, 0)%Q -> is_power z m w -> is_power z n w' -> is_power z (m + n) (ctimes w w').
Proof. exact is_power_adds. Qed.
Print Assumptions complex_power_adds.
Example complex_power_case : complex_power (mkConf 0 1) (VInt 1) (VInt 2) (VInt 5) = Ok (VCplx (VInt 41) (VInt (-38))) /\
  complex_power (mkConf 0 1) (VRat (1 # 2)) (VInt (-1)) (VInt (-2)) = Ok (VCplx (VRat (-12 # 25)) (VRat (16 # 25))) /\
  complex_power (mkConf 0 1) (VInt 0) (VInt 1) (VInt 6) = Ok (VInt (-1)) /\
  complex_power (mkConf 100 1) (VInt 3) (VInt 1) (VInt 200) = Err.
Proof. vm_compute. auto. Qed.

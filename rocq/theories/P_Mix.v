(* Properties of arithmetic and order with floats among the numbers. *)
From Coq Require Import QArith Qabs Lqa.
From Verif Require Import Value FloatModel RandSpec OrdModel NumModel NumSpec MixModel MixSpec MixProofs.
Open Scope list_scope.
Open Scope Z_scope.

Definition c0 := mkConf 1000000000 1.
(* float x in the default precision *)
Definition f (x : Q) : num := Fl 256 (rnd 256 x).

(* ---- C97 ---- *)
(* + - * / with a float: the exact result on the operands as floats, rounded to nearest. *)
Theorem float_arithmetic : forall c P o u v, 1 <= P -> real u -> real v -> is_float u \/ is_float v -> In o [BAdd; BSub; BMul; BQuo] ->
  exists x y, operand P u x /\ operand P v y /\
    (forall z, exactly o x y z -> exists r, mixed c P o u v = Ok r /\ nearest P z (val r) /\ float_form P r) /\
    (o = BQuo -> (y == 0)%Q -> mixed c P o u v = Err \/ mixed c P o u v = Unmod).
Proof. exact mixed_nearest. Qed.
Print Assumptions float_arithmetic.
Theorem float_unary : forall c P o p q z, 1 <= P -> exactly1 o q z ->
  exists r, mixed_unary c P (FU o) (Fl p q) = Ok r /\ nearest P z (val r) /\ float_form P r.
Proof. exact unary_nearest. Qed.
Print Assumptions float_unary.
Theorem float_nearest : forall c P u, 1 <= P -> real u ->
  exists p x, mixed_unary c P FFloat u = Ok (Fl p x) /\ operand P u x /\ mixed_unary c P FFloat (Fl p x) = Ok (Fl p x).
Proof. exact float_operand. Qed.
Print Assumptions float_nearest.
(* What can be written with P bits is not changed, so an exact result comes out exactly. *)
Theorem nearest_is_exact : forall p z r, nearest p z r -> representable p z -> (r == z)%Q.
Proof. exact nearest_exact. Qed.
Print Assumptions nearest_is_exact.
Theorem float_commutes : forall c P o u v, 1 <= P -> o = BAdd \/ o = BMul -> real u -> real v -> is_float u \/ is_float v ->
  exists r s, mixed c P o u v = Ok r /\ mixed c P o v u = Ok s /\ (val r == val s)%Q.
Proof. exact mixed_commutes. Qed.
Print Assumptions float_commutes.
Theorem float_add_monotone : forall c P u u' v, 1 <= P -> real u -> real u' -> real v -> is_float v -> (val u <= val u')%Q ->
  exists r s, mixed c P BAdd u v = Ok r /\ mixed c P BAdd u' v = Ok s /\ (fits P u -> fits P u' -> (val r <= val s)%Q).
Proof. exact mixed_add_mono. Qed.
Print Assumptions float_add_monotone.
(* 1/3 and a float: the sum is a float near 1/3 + 1/10; half and half is an integer; 2**100 stays a float *)
Example float_arithmetic_example :
  (exists q, mixed c0 256 BAdd (Ex (VRat (1 # 3))) (f (1 # 10)) = Ok (Fl 256 q)) /\
  mixed c0 256 BAdd (f (1 # 2)) (f (1 # 2)) = Ok (Ex (VInt 1)) /\
  mixed c0 256 BMul (f (2 ^ 50 # 1)) (f (2 ^ 49 # 1)) = Ok (Ex (VBig (2 ^ 99))) /\
  (exists q, mixed c0 256 BMul (f (2 ^ 50 # 1)) (f (2 ^ 50 # 1)) = Ok (Fl 256 q)) /\
  real (Ex (VRat (1 # 3))) /\ is_float (f (1 # 10)).
Proof. repeat (split; [first [vm_compute; reflexivity | eexists; vm_compute; reflexivity | exact Logic.I]|]); exact Logic.I. Qed.

(* ---- C98 ---- *)
(* Floats and integers of P bits are compared as the numbers they are. *)
Theorem float_comparisons_partial : forall c P o u v, 1 <= P -> is_cmp o -> fits P u -> fits P v -> is_float u \/ is_float v ->
  decides (mixed c P o u v) (cmp_rel o (val u) (val v)).
Proof. exact mixed_compares. Qed.
Print Assumptions float_comparisons_partial.
Theorem float_order_partial : forall c P u v, 1 <= P -> fits P u -> fits P v -> is_float u \/ is_float v ->
  exists s, order c P u v = Ok s /\ sign_of (val u) (val v) s.
Proof. exact order_mixed. Qed.
Print Assumptions float_order_partial.
(* Whatever the numbers, they are compared as the floats nearest to them. *)
Theorem float_comparisons_rounded : forall c P o u v, 1 <= P -> is_cmp o -> real u -> real v -> is_float u \/ is_float v ->
  exists x y, operand P u x /\ operand P v y /\ decides (mixed c P o u v) (cmp_rel o x y).
Proof. exact mixed_compares_rounded. Qed.
Print Assumptions float_comparisons_rounded.
Theorem float_min_max_partial : forall c P o u v, 1 <= P -> o = BMin \/ o = BMax -> fits P u -> fits P v -> is_float u \/ is_float v ->
  exists r, mixed c P o u v = Ok r /\ ((val r == val u)%Q \/ (val r == val v)%Q) /\
    (o = BMin -> (val r <= val u)%Q /\ (val r <= val v)%Q) /\ (o = BMax -> (val u <= val r)%Q /\ (val v <= val r)%Q).
Proof. exact mixed_min_max. Qed.
Print Assumptions float_min_max_partial.
Theorem float_logic_partial : forall c P o u v, 1 <= P -> is_logic o -> fits P u -> fits P v -> is_float u \/ is_float v ->
  decides (mixed c P o u v) (logic_rel o (is_true_q (val u)) (is_true_q (val v))).
Proof. exact mixed_logic. Qed.
Print Assumptions float_logic_partial.
Example float_comparisons_example : fits 256 (f (1 # 10)) /\ fits 256 (Ex (VBig (2 ^ 200))) /\ mixed c0 256 BLt (f (1 # 10)) (Ex (VBig (2 ^ 200))) = Ok (Ex (VInt 1)) /\ order c0 256 (Ex (VInt 3)) (f 3) = Ok 0.
Proof.
  split; [|split; [cbn; lia|split; vm_compute; reflexivity]]. split; [apply Z.le_refl|]. apply rnd_nearest. lia.
Qed.
(* With rationals among them, == is not transitive and the order sets and sorting rest on is none: with
   x = 1/3, y = float x and z = x + 1/10**100, x == y and y == z but x < z. *)
Theorem float_equality_refuted : exists u v w, mixed_unary c0 256 FFloat u = Ok v /\
  mixed c0 256 BEq u v = Ok (Ex (VInt 1)) /\ mixed c0 256 BEq v w = Ok (Ex (VInt 1)) /\ mixed c0 256 BEq u w = Ok (Ex (VInt 0)) /\ mixed c0 256 BLt u w = Ok (Ex (VInt 1)).
Proof. exists (Ex (VRat (1 # 3))), (f (1 # 3)), (Ex (VRat ((10 ^ 100 + 3) # (3 * 10 ^ 100)))). vm_compute. repeat split. Qed.
Print Assumptions float_equality_refuted.
Theorem float_order_refuted : exists u v w, order c0 256 u v = Ok 0 /\ order c0 256 v w = Ok 0 /\ order c0 256 u w = Ok (-1).
Proof. exists (Ex (VRat (1 # 3))), (f (1 # 3)), (Ex (VRat ((10 ^ 100 + 3) # (3 * 10 ^ 100)))). vm_compute. repeat split. Qed.
Print Assumptions float_order_refuted.

(* ---- C99 ---- *)
Theorem float_floor : forall c P p q, exists z, mixed_unary c P (FU UFloor) (Fl p q) = Ok (Ex (shrink_big z)) /\ (inject_Z z <= q)%Q /\ (q < inject_Z z + 1)%Q.
Proof. exact floor_float. Qed.
Print Assumptions float_floor.
Theorem float_ceil : forall c P p q, exists z, mixed_unary c P (FU UCeil) (Fl p q) = Ok (Ex (shrink_big z)) /\ (inject_Z z - 1 < q)%Q /\ (q <= inject_Z z)%Q.
Proof. exact ceil_float. Qed.
Print Assumptions float_ceil.
Theorem float_sgn : forall c P p q, exists s, mixed_unary c P (FU USgn) (Fl p q) = Ok (Ex (VInt s)) /\ sign_of q 0 s.
Proof. exact sgn_float. Qed.
Print Assumptions float_sgn.
Theorem float_not : forall c P p q, decides (mixed_unary c P (FU ULNot) (Fl p q)) (q == 0)%Q.
Proof. exact not_float. Qed.
Print Assumptions float_not.
Example float_floor_example : mixed_unary c0 256 (FU UFloor) (f (-5 # 2)) = Ok (Ex (VInt (-3))) /\ mixed_unary c0 256 (FU UCeil) (f (-5 # 2)) = Ok (Ex (VInt (-2))) /\
  mixed_unary c0 256 (FU UFloor) (f (2 ^ 70 + 1 # 2)) = Ok (Ex (VBig (2 ^ 69))).
Proof. vm_compute. repeat split. Qed.

(* ---- C100 ---- *)
(* A remainder of floats is one but for an error of the order of the 50th bit, and so is its range. *)
Theorem float_mod_partial : forall c P u v, 1 <= P -> real u -> real v -> is_float u \/ is_float v ->
  exists x y, operand P u x /\ operand P v y /\
   ((y == 0)%Q -> exists r, mixed c P BMod u v = Ok r /\ (val r == x)%Q) /\
   (~ (y == 0)%Q -> exists r, mixed c P BMod u v = Ok r /\ remainder x y (val r) ((Qabs x + Qabs y) * (1 # 2 ^ 50)) /\
      (- (Qabs y * (1 # 2 ^ 50)) <= val r)%Q /\ (val r <= Qabs y * (1 + (1 # 2 ^ 50)))%Q).
Proof. exact mod_float_near. Qed.
Print Assumptions float_mod_partial.
Example float_mod_example : mixed c0 256 BMod (f (15 # 2)) (Ex (VInt 2)) = Ok (Fl 53 (3 # 2)) /\ mixed c0 256 BMod (f (-15 # 2)) (Ex (VInt 2)) = Ok (Fl 53 (1 # 2)).
Proof. vm_compute. repeat split. Qed.
(* Integers as floats of 256 bits: 7 mod 3 is not 1, 100000000000000001 mod 3 is 0. *)
Theorem float_mod_refuted : exists r, mixed c0 256 BMod (f 7) (Ex (VInt 3)) = Ok r /\ ~ (val r == 1)%Q /\
  mixed c0 256 BMod (f 100000000000000001) (Ex (VInt 3)) = Ok (Ex (VInt 0)) /\ 100000000000000001 mod 3 = 2.
Proof. eexists. split; [vm_compute; reflexivity|]. split; [intros H; vm_compute in H; discriminate|]. split; vm_compute; reflexivity. Qed.
Print Assumptions float_mod_refuted.
(* The remainder may be larger than the divisor. *)
Theorem float_mod_range_refuted : exists r, mixed c0 256 BMod (f (-1 # 10 ^ 20)) (f (5 # 3)) = Ok r /\ (val (f (5 # 3)) < val r)%Q.
Proof. eexists. split; [vm_compute; reflexivity|]. vm_compute. reflexivity. Qed.
Print Assumptions float_mod_range_refuted.
(* Operands that are not negative are left alone; a negative float is negated where it is, in a variable too. *)
Theorem float_mod_operands_partial : forall P u v r u' v', mod_float P u v = Ok (r, u', v') ->
  (~ is_float u \/ 0 <= val u)%Q -> (~ is_float v \/ 0 <= val v)%Q ->
  (match u' with Fl p q => exists q', u = Fl p q' /\ (q == q')%Q | _ => u' = u end) /\
  (match v' with Fl p q => exists q', v = Fl p q' /\ (q == q')%Q | _ => v' = v end).
Proof. exact mod_operands. Qed.
Print Assumptions float_mod_operands_partial.
Theorem float_mod_operands_refuted : exists r, mod_float 256 (f (-15 # 2)) (Ex (VInt 2)) = Ok (r, f (15 # 2), Ex (VInt 2)).
Proof. eexists. vm_compute. reflexivity. Qed.
Print Assumptions float_mod_operands_refuted.

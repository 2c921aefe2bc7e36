(* What is said about random numbers. *)
From Coq Require Import QArith Permutation.
From Verif Require Import Value NumSpec ArrModel RandModel.
Open Scope list_scope.
Open Scope Z_scope.

(* The documentation of Int64N, crypto/rand.Int and Perm. *)
Definition honest (gen : generator) : Prop :=
  (forall g n, 0 < n -> 0 <= fst (int64n gen g n) < n) /\
  (forall g n, 0 < n -> 0 <= fst (big_int gen g n) < n) /\
  (forall g n, Permutation (fst (perm gen g n)) (map Z.of_nat (seq 0 n))).
(* r is v with each number n > 0 replaced by one of the first n integers, counted from the origin. *)
Inductive rolled (origin : Z) : value -> value -> Prop :=
| rolled_int n z : 0 < n -> origin <= z < origin + n -> rolled origin (VInt n) (VInt z)
| rolled_vec l l' : Forall2 (rolled origin) l l' -> rolled origin (VVec l) (VVec l')
| rolled_mat s l l' : Forall2 (rolled origin) l l' -> rolled origin (VMat s l) (VMat s l').
(* v holds positive small integers only. *)
Fixpoint dice (v : value) : Prop :=
  match v with
  | VInt n => 0 < n
  | VVec l | VMat _ l => (fix all (l : list value) := match l with [] => True | x :: l' => dice x /\ all l' end) l
  | _ => False
  end.
(* The numbers that a float of p bits can hold. *)
Definition representable (p : Z) (q : Q) : Prop := exists m e, Z.abs m <= 2 ^ p /\ (q == inject_Z m * FloatModel.pow2 e)%Q.

(* What the inverse functions must do, in terms of real numbers given as fractions. *)
From Coq Require Import QArith Qabs.
From Verif Require Import Value FloatModel RandSpec ArcModel.
Open Scope Z_scope.

(* the constant pi at p bits: a number of p bits between 3 and 4 *)
Definition pi_like (p : Z) (pi : Q) : Prop := representable p pi /\ (3 <= pi)%Q /\ (pi <= 4)%Q.
(* the square root of q comes out *)
Definition converges (p : Z) (fuel : nat) (q : Q) : Prop := exists s, float_sqrt (rnd p) p fuel q = Some (Ok s).
(* z has the sign of x *)
Definition signed (x z : Q) : Prop := ((0 < x)%Q -> (0 < z)%Q) /\ ((x < 0)%Q -> (z < 0)%Q) /\ ((x == 0)%Q -> (z == 0)%Q).
Definition between (a z b : Q) : Prop := (a <= z)%Q /\ (z <= b)%Q.
(* the answer is the real number z *)
Definition real (a : answer) (z : Q) : Prop := a = Real (Some (Ok z)).

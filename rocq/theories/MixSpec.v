(* What is said about numbers with floats among them. *)
From Coq Require Import QArith Qabs.
From Verif Require Import Value FloatModel NumModel NumSpec RandSpec MixModel.
Open Scope list_scope.
Open Scope Z_scope.

(* The real numbers and the number each of them stands for. *)
Definition real (u : num) : Prop := match u with Ex (VInt _) | Ex (VBig _) | Ex (VRat _) | Fl _ _ => True | _ => False end.
Definition val (u : num) : Q := match u with Ex (VInt z) | Ex (VBig z) => inject_Z z | Ex (VRat q) => q | Fl _ q => q | _ => 0%Q end.
Definition is_float (u : num) : Prop := match u with Fl _ _ => True | _ => False end.
(* r is a number of p bits, and none is nearer to x. *)
Definition nearest (p : Z) (x r : Q) : Prop := representable p r /\ forall s, representable p s -> (Qabs (r - x) <= Qabs (s - x))%Q.
(* A number as an operand beside a float, with p bits configured: a float stands for itself, another number for
   one that is nearest to it. *)
Definition operand (p : Z) (u : num) (x : Q) : Prop := match u with Fl _ q => (x == q)%Q | _ => nearest p (val u) x end.
Definition exactly (o : bop) (x y z : Q) : Prop :=
  match o with
  | BAdd => (z == x + y)%Q | BSub => (z == x - y)%Q | BMul => (z == x * y)%Q
  | BQuo => ~ (y == 0)%Q /\ (z == x / y)%Q
  | _ => False
  end.
(* Integers below 2 ** 100 are integers, not floats. *)
Definition float_form (p : Z) (r : num) : Prop :=
  match r with
  | Ex v => (exists z, v = VInt z /\ - 2 ^ 31 < z < 2 ^ 31) \/ (exists z, v = VBig z /\ 2 ^ 31 <= Z.abs z < 2 ^ 100)
  | Fl p' q => p' = p /\ ~ exists z, (q == inject_Z z)%Q /\ Z.abs z < 2 ^ 100
  end.
(* Floats of p bits at most, and integers of p bits. *)
Definition fits (p : Z) (u : num) : Prop :=
  match u with Fl p' q => p' <= p /\ representable p' q | Ex (VInt z) | Ex (VBig z) => Z.abs z <= 2 ^ p | _ => False end.
(* r is 1 if R holds and 0 if not. *)
Definition decides (r : res num) (R : Prop) : Prop := (R -> r = Ok (Ex (VInt 1))) /\ (~ R -> r = Ok (Ex (VInt 0))).
Definition sign_of (x y : Q) (s : Z) : Prop := (s = -1 /\ (x < y)%Q) \/ (s = 0 /\ (x == y)%Q) \/ (s = 1 /\ (y < x)%Q).
(* r is a remainder of x by y but for an error of d. *)
Definition remainder (x y r d : Q) : Prop := exists n, (Qabs (x - inject_Z n * y - r) <= d)%Q.
Definition exactly1 (o : uop) (x z : Q) : Prop :=
  match o with UNeg => (z == - x)%Q | UAbs => (z == Qabs x)%Q | UInv => ~ (x == 0)%Q /\ (z == / x)%Q | _ => False end.

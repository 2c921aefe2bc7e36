(* What the complex floor and the complex operators should give. *)
From Coq Require Import QArith.
From Verif Require Import Value NumModel NumSpec QuoRemHeap CplxModel.
Open Scope Z_scope.

(* k is the floor of x *)
Definition floor_of (x : Q) (k : Z) : Prop := (inject_Z k <= x)%Q /\ (x < inject_Z k + 1)%Q.
(* McDonnell's floor of x+yi: of the corners of the unit square that x+yi lies in, the lower left one k+li, if the
   fractional parts add to less than 1; or else the one to the right of it, if the real part has the larger
   fraction or they are equal; or else the one above it. *)
Definition mcdonnell (z : Q * Q) (g : Z * Z) : Prop :=
  exists k l, floor_of (fst z) k /\ floor_of (snd z) l /\
  let fx := (fst z - inject_Z k)%Q in let fy := (snd z - inject_Z l)%Q in
  ((fx + fy < 1)%Q /\ g = (k, l)) \/
  ((1 <= fx + fy)%Q /\ (fy <= fx)%Q /\ g = (k + 1, l)) \/
  ((1 <= fx + fy)%Q /\ (fx < fy)%Q /\ g = (k, l + 1)).
Definition gauss (g : Z * Z) : Q * Q := (inject_Z (fst g), inject_Z (snd g)).
(* the square of the distance of two complex numbers *)
Definition dist2 (z w : Q * Q) : Q := ((fst z - fst w) * (fst z - fst w) + (snd z - snd w) * (snd z - snd w))%Q.
Definition copp (z : Q * Q) : Q * Q := (- fst z, - snd z)%Q.

(* A part of a complex number as the interpreter holds it: its address is in the heap. *)
Definition part_ok (h : heap) (p : part) : Prop :=
  valid (part_val h p) /\ match p with PInt (VInt _) | PInt (VBig _) => True | PInt _ => False | PRat a => (a < length h)%nat end.
(* The number with these parts *)
Definition denotes (h : heap) (r i : part) (z : Q * Q) : Prop :=
  part_ok h r /\ part_ok h i /\ numval (part_val h r) = Some (fst z) /\ numval (part_val h i) = Some (snd z).
(* No two parts in one cell *)
Definition apart (r i : part) : Prop := match r, i with PRat a, PRat b => a <> b | _, _ => True end.
(* The result, unless a limit on the size of integers stops the evaluation *)
Definition limited (c : conf) (r : res value) (P : Prop) : Prop := P \/ (r = Err /\ maxbits c <> 0).

(* Complex multiplication, and powers as repeated multiplication *)
Definition ctimes (z w : Q * Q) : Q * Q := (fst z * fst w - snd z * snd w, fst z * snd w + snd z * fst w)%Q.
Fixpoint cpow (z : Q * Q) (n : nat) : Q * Q := match n with O => (1, 0)%Q | S m => ctimes z (cpow z m) end.
(* w is z ** n: for a negative n, the number that is 1 when multiplied by z ** -n *)
Definition is_power (z : Q * Q) (n : Z) (w : Q * Q) : Prop :=
  if n <? 0 then ceq (ctimes w (cpow z (Z.to_nat (- n)))) (1, 0)%Q else ceq w (cpow z (Z.to_nat n)).

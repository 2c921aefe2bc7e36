(* What encode and decode mean: mixed-radix numerals over the rationals. *)
From Coq Require Import QArith Qabs.
From Verif Require Import Value NumSpec ArrSpec.
Open Scope nat_scope.

(* v is a number, equal to q. *)
Definition number (v : value) (q : Q) : Prop := valid v /\ exists x, numval v = Some x /\ (x == q)%Q.

Definition product (l : list Q) : Q := fold_right Qmult 1%Q l.
(* The number written with digits ds in the bases bs: a digit counts as often as the
   product of the bases to its right. *)
Fixpoint radix (bs ds : list Q) : Q :=
  match bs, ds with
  | _ :: bs', d :: ds' => (d * product bs' + radix bs' ds')%Q
  | _, _ => 0%Q
  end.
(* A single element stands for as many as needed. *)
Definition extend (n : nat) (l : list Q) : list Q := match l with [x] => repeat x n | _ => l end.

Definition positive (bs : list Q) : Prop := Forall (fun b => (0 < b)%Q) bs.
Definition in_range (bs ds : list Q) : Prop := Forall2 (fun b d => (0 <= d)%Q /\ (d < b)%Q) bs ds.
(* x and y differ by a whole multiple of p. *)
Definition congruent (x y p : Q) : Prop := exists k : Z, (x == y + inject_Z k * p)%Q.

(* Digit i of the integer x in the integer bases bs. *)
Definition product_z (l : list Z) : Z := fold_right Z.mul 1%Z l.
Definition digit (bs : list Z) (x : Z) (i : nat) : Z :=
  ((x / product_z (skipn (S i) bs)) mod nth i bs 1)%Z.

(* A vector, or a scalar for a vector of one element. *)
Definition vector_like (u : value) (l : list value) : Prop := u = VVec l \/ (scalar u /\ l = [u]).

(* The shape of encode's result for la bases: the digits of an element run along a new
   first axis.  In front of a vector or scalar, axes of length 1 are left out. *)
Definition encode_shape (la : nat) (v : value) : list nat :=
  match v with
  | VMat s _ => la :: s
  | _ => (if la =? 1 then [] else [la]) ++ (if length (data_of v) =? 1 then [] else [length (data_of v)])
  end.
(* ... and of what is decoded from it. *)
Definition decoded_shape (v : value) : list nat := match v with VVec [_] => [] | _ => shape_of v end.
(* The la digits for the j-th of n encoded elements, in row-major order, are ds. *)
Definition column (r : value) (la n j : nat) (ds : list Q) : Prop :=
  length ds = la /\
  forall i d, nth_error ds i = Some d -> exists e, nth_error (data_of r) (i * n + j) = Some e /\ number e d.

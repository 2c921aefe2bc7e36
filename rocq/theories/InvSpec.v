(* Matrices of exact complex numbers, their products, and what it is to be singular.
   Independent of the elimination.  A number is a pair of rationals (real and imaginary
   part); ceq, from NumSpec.v, is equality of such pairs. *)
From Verif Require Import Value NumSpec ArrSpec.
From Coq Require Import QArith.
Open Scope nat_scope.

Definition cnumber := (Q * Q)%type.
Definition c0 : cnumber := (0, 0)%Q.
Definition c1 : cnumber := (1, 0)%Q.
Definition cadd (x y : cnumber) : cnumber := (fst x + fst y, snd x + snd y)%Q.
Definition cmul (x y : cnumber) : cnumber := (fst x * fst y - snd x * snd y, fst x * snd y + snd x * fst y)%Q.
(* f 0 + ... + f (n-1) *)
Fixpoint csum (n : nat) (f : nat -> cnumber) : cnumber := match n with O => c0 | S m => cadd (csum m f) (f m) end.
Definition delta (i j : nat) : cnumber := if i =? j then c1 else c0.

(* The number at row i, column j of a value, and at position i. *)
Definition num_of (v : option value) : cnumber :=
  match v with Some x => match cval x with Some p => p | None => c0 end | None => c0 end.
Definition at2 (v : value) (i j : nat) : cnumber := num_of (elem v [i; j]).
Definition at1 (v : value) (i : nat) : cnumber := num_of (elem v [i]).

(* An n by m matrix of exact numbers. *)
Definition exact_matrix (v : value) (n m : nat) : Prop :=
  wf v /\ shape_of v = [n; m] /\ Forall cvalid (data_of v).
Definition exact_vector (v : value) (n : nat) : Prop :=
  wf v /\ shape_of v = [n] /\ Forall cvalid (data_of v).

(* a times b is the n by n identity. *)
Definition product_is_identity (n : nat) (a b : value) : Prop :=
  forall i j, i < n -> j < n -> ceq (csum n (fun k => cmul (at2 a i k) (at2 b k j))) (delta i j).

(* The upper left k by k part of m sends a vector that is not zero to zero. *)
Definition singular_block (m : value) (k : nat) : Prop :=
  exists x : nat -> cnumber, (exists j, j < k /\ ~ ceq (x j) c0) /\
    forall i, i < k -> ceq (csum k (fun j => cmul (at2 m i j) (x j))) c0.
(* An array of exact numbers. *)
Definition exact_array (v : value) (s : list nat) : Prop :=
  wf v /\ shape_of v = s /\ Forall cvalid (data_of v).
Definition at_c (v : value) (c : list nat) : cnumber := num_of (elem v c).
(* The product of a and b along the last axis of a (shape s ++ [n]) and the first of b, at c. *)
Definition product_at (n : nat) (s : list nat) (a b : value) (c : list nat) : cnumber :=
  csum n (fun k => cmul (at_c a (firstn (length s) c ++ [k])) (at_c b (k :: skipn (length s) c))).
(* The conjugate. *)
Definition cconj (x : cnumber) : cnumber := (fst x, - snd x)%Q.

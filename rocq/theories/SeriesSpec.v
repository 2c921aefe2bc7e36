(* The power series of the exponential and the hyperbolic functions, over the rationals. *)
From Coq Require Import QArith Qabs.
(* x ^ n / n! *)
Fixpoint pterm (x : Q) (n : nat) : Q := match n with O => 1 | S m => pterm x m * x / inject_Z (Z.of_nat n) end.
(* the sum of t 0, ..., t n *)
Fixpoint sum_to (t : nat -> Q) (n : nat) : Q := match n with O => t O | S m => sum_to t m + t n end.
Definition exp_sum (x : Q) (n : nat) : Q := sum_to (pterm x) n.
Definition sinh_sum (x : Q) (n : nat) : Q := sum_to (fun k => pterm x (2 * k + 1)) n.
Definition cosh_sum (x : Q) (n : nat) : Q := sum_to (fun k => pterm x (2 * k)) n.
(* z is, up to the relative error d, the limit of the sums s 0, s 1, ... *)
Definition near_limit (d z : Q) (s : nat -> Q) : Prop :=
  exists n0, forall n, (n0 <= n)%nat -> (Qabs (z - s n) <= d * Qabs (s n))%Q.
(* t with the sign of (-1) ^ k *)
Definition alt (k : nat) (t : Q) : Q := if Nat.even k then t else - t.
Definition sin_sum (x : Q) (n : nat) : Q := sum_to (fun k => alt k (pterm x (2 * k + 1))) n.
Definition cos_sum (x : Q) (n : nat) : Q := sum_to (fun k => alt k (pterm x (2 * k))) n.
(* z is, up to d, the limit of the sums s 0, s 1, ... *)
Definition within_limit (d z : Q) (s : nat -> Q) : Prop :=
  exists n0, forall n, (n0 <= n)%nat -> (Qabs (z - s n) <= d)%Q.

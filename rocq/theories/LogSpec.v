(* The power series of the logarithm of 1 - y. *)
From Coq Require Import QArith Qabs.
From Verif Require Import SeriesSpec.
Fixpoint npow (y : Q) (n : nat) : Q := match n with O => 1 | S m => npow y m * y end.
(* - (y + y^2 / 2 + ... + y^(n+1) / (n+1)) *)
Definition log_sum (y : Q) (n : nat) : Q := sum_to (fun k => - (npow y (S k) / inject_Z (Z.of_nat (S k)))) n.

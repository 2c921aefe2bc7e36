(* How an exact number should look under a floating-point format. *)
From Coq Require Import QArith Qabs.
From Verif Require Import Value NumModel NumSpec ScanModel TextModel TextSpec FTextSpec.
Open Scope list_scope.
Open Scope Z_scope.

(* the digits of q before the point, or minus the zeros after it: 10 ** (e-1) <= |q| < 10 ** e *)
Definition magnitude (q : Q) (e : Z) : Prop := (inject_Z 10 ^ (e - 1) <= Qabs q /\ Qabs q < inject_Z 10 ^ e)%Q.
(* y is q cut after n significant digits: its digits are the first n of q *)
Definition cut_after (n : Z) (q y : Q) : Prop :=
  exists e k, magnitude q e /\ (y == inject_Z k * inject_Z 10 ^ (e - n))%Q /\
    (0 <= y * q)%Q /\ (Qabs y <= Qabs q)%Q /\ (Qabs q < Qabs y + inject_Z 10 ^ (e - n))%Q.
(* y is q to n digits, off by less than one in the last *)
Definition about (n : Z) (q y : Q) : Prop :=
  exists e k, magnitude q e /\ (y == inject_Z k * inject_Z 10 ^ (e - n))%Q /\ (Qabs (y - q) < inject_Z 10 ^ (e - n))%Q.
(* q, rounded to k digits, does not need one more before the point *)
Definition stays_below (k : Z) (q : Q) : Prop :=
  forall e, magnitude q e -> (Qabs q + (1 # 2) * inject_Z 10 ^ (e - k) < inject_Z 10 ^ e)%Q.
(* |q| is not 1/10**9, 1/10**18, ... *)
Definition not_billionth (q : Q) : Prop := forall j, 0 < j -> ~ (Qabs q == inject_Z 10 ^ (- (9 * j)))%Q.
(* no more than 80000 digits before the point, or zeros after it *)
Definition sized (q : Q) : Prop := exists e, magnitude q e /\ Z.abs e <= 80000.
(* y is q to n digits, rounded to nearest, halves away from zero *)
Definition rounded (n : Z) (q y : Q) : Prop :=
  exists e k, magnitude q e /\ (y == inject_Z k * inject_Z 10 ^ (e - n))%Q /\
    (Qabs (y - q) <= (1 # 2) * inject_Z 10 ^ (e - n))%Q /\
    (Qabs (y - q) == (1 # 2) * inject_Z 10 ^ (e - n) -> Qabs q < Qabs y)%Q.
(* the formats %.nf, %.nF and %.ng, %.nG *)
Definition fixed_format (format : text) (n : Z) : Prop :=
  exists v, (v = 102 \/ v = 70) /\ 0 <= n <= 800000 /\ format = [37; 46] ++ format_nat 10 n ++ [v].
Definition general_format (format : text) (n : Z) : Prop :=
  exists v, (v = 103 \/ v = 71) /\ 1 <= n <= 800000 /\ format = [37; 46] ++ format_nat 10 n ++ [v].

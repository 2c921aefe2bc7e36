(* What the text of a float should be. *)
From Coq Require Import QArith Qabs.
From Verif Require Import Value ScanModel TextModel TextSpec.
Open Scope list_scope.
Open Scope Z_scope.

(* y is the decimal number of n significant digits nearest to q; of two, the one with the even last digit *)
Definition nearest_decimal (n : Z) (q y : Q) : Prop :=
  exists e k, (inject_Z 10 ^ (e - 1) <= Qabs q /\ Qabs q < inject_Z 10 ^ e)%Q /\
    (y == inject_Z k * inject_Z 10 ^ (e - n))%Q /\
    (Qabs (y - q) <= (1 # 2) * inject_Z 10 ^ (e - n))%Q /\
    ((Qabs (y - q) == (1 # 2) * inject_Z 10 ^ (e - n))%Q -> Z.even k = true).
(* the text has an exponent *)
Definition scientific (t : text) : Prop := In 101 t \/ In 69 t.
(* the format asks for n significant digits: none is set, or it is %.ng or %.nG *)
Definition digits_format (format : text) (n : Z) : Prop :=
  (format = [] /\ n = 12) \/
  (exists v k, (v = 103 \/ v = 71) /\ 0 <= k <= 800000 /\ format = [37; 46] ++ format_nat 10 k ++ [v] /\ n = Z.max 1 k).
(* the format is %.ne, %.nE *)
Definition exponent_format (format : text) (n : Z) : Prop :=
  exists v, (v = 101 \/ v = 69) /\ 0 <= n <= 800000 /\ format = [37; 46] ++ format_nat 10 n ++ [v].
(* neither enormous nor minute *)
Definition moderate (q : Q) : Prop := (inject_Z 2 ^ (-9990) <= Qabs q /\ Qabs q < inject_Z 2 ^ 9990)%Q.
(* the digits after the point, if there is one, do not end in a zero *)
Definition trimmed (t : text) : Prop :=
  ~ In 46 t \/ exists a f e, t = a ++ [46] ++ f ++ e /\ ~ In 46 a /\ digits f /\ f <> [] /\ List.last f 48 <> 48 /\ (e = [] \/ exists r x, e = r :: x /\ (r = 101 \/ r = 69)).
(* a sign, one digit, n digits after the point, and an exponent with a sign and two digits or more *)
Definition one_and (n : Z) (t : text) : Prop :=
  exists s c f r g x, t = s ++ [c] ++ (if 0 <? n then [46] ++ f else []) ++ [r; g] ++ x /\ (s = [] \/ s = [45]) /\ digits [c] /\ digits f /\ Z.of_nat (length f) = n /\
    (r = 101 \/ r = 69) /\ (g = 43 \/ g = 45) /\ digits x /\ (2 <= length x)%nat.

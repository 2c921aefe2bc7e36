(* Integers and fractions under a floating-point format such as %.3e: value/int.go:37-44 and 65-145, value/bigint.go:44-60,
   81-131 and 172-187, value/bigrat.go:45-53 and 63-160.  Executable; no proofs.

   The loops over big.Int and big.Rat have as fuel a bound on their number of iterations.  big.Rat.FloatString is
   modelled by its documentation: decimals rounded to nearest, halves away from zero.  The manyZeros buffer of
   int.go:138-145 is left out. *)
From Coq Require Import QArith Qabs.
From Verif Require Import Value NumModel ScanModel TextModel FloatModel TimeModel FmtModel FTextModel.
Open Scope list_scope.
Open Scope Z_scope.

Definition minus (neg : bool) (t : text) : text := if neg then 45 :: t else t.
(* int.go:122-136; s[a:b] of a string that is too short panics *)
Definition e_format (verb prec : Z) (neg : bool) (str : text) (exp : Z) : res text :=
  let str := if Z.of_nat (length str) - 1 <? prec then str ++ zeros (prec - Z.of_nat (length str) + 1)
             else firstn (Z.to_nat (1 + prec)) str in
  match str with
  | [] => Crash
  | c :: f => Ok (minus neg ([c] ++ (if prec =? 0 then [] else [46]) ++ f
                             ++ [verb; if exp <? 0 then 45 else 43] ++ pad_left 2 (format_nat 10 (Z.abs exp))))
  end.
(* int.go:94-107; bigint.go:117-131: while the number is at least k, divide by k; how often, and what is left *)
Fixpoint divide (fuel : nat) (k z : Z) : Z * Z :=
  match fuel with
  | O => (0, z)
  | S f => if k <=? z then let (n, r) := divide f k (z / k) in (n + 1, r) else (0, z)
  end.
Definition fuel_for (z : Z) : nat := S (Z.to_nat (Z.log2 (Z.abs z))).
Definition int_exponent (z : Z) : Z := fst (divide (fuel_for z) 10 (Z.abs z)).
Definition big_exponent (z : Z) : Z :=
  let (n, r) := divide (fuel_for z) (10 ^ 9) (Z.abs z) in 9 * n + fst (divide (fuel_for z) 10 r).
(* bigint.go:174-187; the panic of s[n-1] at the start cannot happen for a text with another digit than 0 *)
Fixpoint index (b : Z) (s : text) : option nat :=
  match s with [] => None | r :: s' => if r =? b then Some O else option_map S (index b s') end.
(* s without the zeros at its end; None if nothing is left, which panics *)
Definition strip0 (s : text) : res text := match trim0 s with [] => Crash | t => Ok t end.
Definition no_point (t : text) : text := match rev t with 46 :: u => rev u | _ => t end.
Definition trim_e (e : Z) (s : text) : res text :=
  match index e s with
  | None => Ok s
  | Some n => let! t := strip0 (firstn n s) in Ok (no_point t ++ skipn n s)
  end.
(* int.go:65-91 Int.floatString *)
Definition int_text (verb prec z : Z) : res text :=
  let e verb prec := e_format verb prec (z <? 0) (format_nat 10 (Z.abs z)) (int_exponent z) in
  if (verb =? 102) || (verb =? 70) then Ok (format_int 10 z ++ (if 0 <? prec then 46 :: zeros prec else []))
  else if (verb =? 101) || (verb =? 69) then e verb prec
  else if (verb =? 103) || (verb =? 71) then
    if prec <=? int_exponent z then e (verb - 2) (prec - 1) else Ok (format_int 10 z)
  else Err.
(* bigint.go:81-114 BigInt.floatString *)
Definition big_text (verb prec z : Z) : res text :=
  let e verb prec := e_format verb prec (z <? 0) (format_nat 10 (Z.abs z)) (big_exponent z) in
  if (verb =? 102) || (verb =? 70) then Ok (format_int 10 z ++ (if 0 <? prec then 46 :: zeros prec else []))
  else if (verb =? 101) || (verb =? 69) then e verb prec
  else if (verb =? 103) || (verb =? 71) then
    if prec <=? big_exponent z then let! t := e (verb - 2) (prec - 1) in trim_e (verb - 2) t else Ok (format_int 10 z)
  else Err.
(* bigrat.go:123-145: while the number is at least, or more than, k, divide by k *)
Fixpoint divide_q (fuel : nat) (strict : bool) (k q : Q) : Z * Q :=
  match fuel with
  | O => (0, q)
  | S f => if (if strict then negb (Qle_bool q k) else Qle_bool k q) then let (n, r) := divide_q f strict k (Qred (q / k)) in (n + 1, r) else (0, q)
  end.
Definition fuel_q (q : Q) : nat := S (Z.to_nat (Z.log2 (Z.abs (Qnum q) + Zpos (Qden q)))).
Definition rat_exponent (q : Q) : Z :=
  let x := Qabs q in
  let invert := Qnum x <? Zpos (Qden x) in
  let x := if invert then Qinv x else x in
  let (n, x) := divide_q (fuel_q q) false (inject_Z (10 ^ 9)) x in
  let e := (if invert then 1 else 0) + 9 * n + fst (divide_q (fuel_q q) true 10 x) in
  if invert then - e else e.
(* bigrat.go:148-162: x / 10 ** exp, by inverses if exp is negative *)
Fixpoint scale_down (n : nat) (x : Q) : Q := match n with O => x | S n' => scale_down n' (Qred (x / 10)) end.
Definition rat_scale (x : Q) (exp : Z) : Q :=
  if exp <? 0 then Qinv (scale_down (Z.to_nat (- exp)) (Qinv x)) else scale_down (Z.to_nat exp) x.
(* big.Rat.FloatString of a number that is not negative: n decimals *)
Definition half_up (q : Q) : Z := (2 * Qnum q + Zpos (Qden q)) / (2 * Zpos (Qden q)).
Definition float_string (n : Z) (q : Q) : text :=
  let m := half_up (q * inject_Z (10 ^ n)) in
  format_nat 10 (m / 10 ^ n) ++ (if 0 <? n then 46 :: pad_left n (format_nat 10 (m mod 10 ^ n)) else []).
(* bigrat.go:63-120 BigRat.floatString *)
Definition rat_text (verb prec : Z) (q : Q) : res text :=
  let x := Qabs q in
  let neg := Qnum q <? 0 in
  let e verb prec :=
    let exp := rat_exponent q in
    let str := float_string (prec + 1) (rat_scale x exp) in
    let '(str, exp) := match str with
                       | 48 :: _ => (skipn 2 str, exp - 1)
                       | c :: 46 :: f => (c :: f, exp)
                       | _ => (str, exp)
                       end in
    e_format verb prec neg str exp in
  if (verb =? 102) || (verb =? 70) then Ok (minus neg (float_string prec x))
  else if (verb =? 101) || (verb =? 69) then e verb prec
  else if (verb =? 103) || (verb =? 71) then
    let exp := rat_exponent q in
    if (exp <? -4) || (prec <=? exp) then let! t := e (verb - 2) (prec - 1) in trim_e (verb - 2) t
    else let str := minus neg (float_string (prec - exp - 1) x) in
         match index 46 str with
         | Some (S _) => let! t := strip0 str in Ok (no_point t)
         | _ => Ok str
         end
  else Err.
(* int.go:37-44, bigint.go:44-60 with )maxdigits 0, bigrat.go:45-53, when a floating-point format is set *)
Definition exact_text (verb prec : Z) (v : value) : res text :=
  match v with
  | VInt z => int_text verb prec z
  | VBig z => big_text verb prec z
  | VRat q => rat_text verb prec q
  | _ => Unmod
  end.
Definition print_exact (format : text) (v : value) : res text :=
  match set_format format with Some (verb, prec) => exact_text verb prec v | None => Unmod end.

(* How a float is shown: value/bigfloat.go:36-121 Sprint, config/config.go:122-156 SetFormat and FloatFormat, and the
   part of math/big's Float.Text that they use (ftoa.go: Append, fmtE, fmtF).  Executable; no proofs.

   Text is modelled by its documentation: the exact value is rounded to the digits asked for, halves to even.  Floats
   whose binary exponent is beyond 10000 (bigfloat.go:58-119) are left out: Unmod. *)
From Coq Require Import QArith Qabs.
From Verif Require Import Value ScanModel TextModel FloatModel TimeModel FmtModel.
Open Scope list_scope.
Open Scope Z_scope.

(* The digits of a decimal number without zeros at their end, and its exponent: 0.mant * 10 ** exp *)
Record dec := mkDec { dmant : text; dexp : Z }.
Fixpoint trim0 (t : text) : text :=
  match t with [] => [] | r :: t' => match trim0 t' with [] => if r =? 48 then [] else [r] | t'' => r :: t'' end end.
(* how often q > 0 can be multiplied by 10 and stay below 1 *)
Fixpoint shift (fuel : nat) (q : Q) : Z :=
  match fuel with O => 0 | S f => if Qle_bool 1 (q * 10) then 0 else 1 + shift f (Qred (q * 10)) end.
(* the e with 10 ** (e-1) <= q < 10 ** e *)
Definition exp10 (q : Q) : Z :=
  if Qle_bool 1 q then Z.of_nat (length (format_nat 10 (Qnum q / Zpos (Qden q))))
  else - shift (S (Z.to_nat (Z.log2 (Zpos (Qden q))))) q.
(* d.init and d.round(n) of ftoa.go, for q >= 0 *)
Definition round_dec (n : Z) (q : Q) : dec :=
  if Qnum q =? 0 then mkDec [] 0
  else let e := exp10 q in
       let m := rne (q * qpow 10 (n - e)) in
       if m =? 10 ^ n then mkDec [49] (e + 1) else mkDec (trim0 (format_nat 10 m)) e.
(* fmtE: a digit, a point and more digits, an exponent of at least two digits *)
Definition fmt_e (ch prec : Z) (d : dec) : text :=
  let exp := match dmant d with [] => 0 | _ => dexp d - 1 end in
  hd 48 (dmant d) :: (if 0 <? prec then 46 :: firstn (Z.to_nat prec) (tl (dmant d) ++ zeros prec) else [])
  ++ [ch; if exp <? 0 then 45 else 43] ++ pad_left 2 (format_nat 10 (Z.abs exp)).
(* fmtF: the digits before the point, and prec digits after it *)
Definition fmt_fixed (prec : Z) (d : dec) : text :=
  (if 0 <? dexp d then firstn (Z.to_nat (dexp d)) (dmant d ++ zeros (dexp d)) else [48])
  ++ (if 0 <? prec
      then 46 :: firstn (Z.to_nat prec) (skipn (Z.to_nat (dexp d)) (zeros (- dexp d) ++ dmant d) ++ zeros prec)
      else []).
(* Append with 'g' or 'G'; e or E for the exponent *)
Definition fmt_g (ch prec : Z) (d : dec) : text :=
  let len := Z.of_nat (length (dmant d)) in
  let eprec := if (len <? prec) && (dexp d <=? len) then len else prec in
  let exp := dexp d - 1 in
  if (exp <? -4) || (eprec <=? exp) then fmt_e ch ((if len <? prec then len else prec) - 1) d
  else let prec := if dexp d <? prec then len else prec in fmt_fixed (Z.max (prec - dexp d) 0) d.
(* Float.Text; a verb it does not know, as F, is shown with a % and nothing else *)
Definition float_text (verb prec : Z) (q : Q) : text :=
  let a := Qabs q in
  let sign t := if Qnum q <? 0 then 45 :: t else t in
  if (verb =? 101) || (verb =? 69) then sign (fmt_e verb prec (round_dec (1 + prec) a))
  else if verb =? 102 then sign (decimals prec a)
  else if (verb =? 103) || (verb =? 71) then
    let prec := if prec =? 0 then 1 else prec in sign (fmt_g (verb - 2) prec (round_dec prec a))
  else [37; verb].

(* config.go:122-150: the verb and the precision that a format sets; None if it is not a format for floats.  The
   precision is what is between the last point, not at the start, and the verb, if that is a number *)
Fixpoint last_index (b : Z) (s : text) (i : nat) (found : option nat) : option nat :=
  match s with [] => found | r :: s' => last_index b s' (S i) (if r =? b then Some i else found) end.
(* strconv.ParseInt of 32 bits, negative numbers left out as 146 does *)
Definition parse_prec (s : text) : option Z :=
  let s := match s with 43 :: s' => s' | _ => s end in
  match take_digits s with (d, []) => match d with [] => None | _ => if decimal d <? 2 ^ 31 then Some (decimal d) else None end | _ => None end.
Definition set_format (s : text) : option (Z * Z) :=
  match rev s with
  | [] => None
  | v :: _ =>
    if existsb (Z.eqb v) [102; 70; 103; 71; 101; 69] then
      Some (v, match last_index 46 s O None with
               | Some (S i) => match parse_prec (skipn (S (S i)) (removelast s)) with Some p => p | None => 6 end
               | _ => 6
               end)
    else None
  end.
(* bigfloat.go:36-121 with the format that is set *)
Definition print_float (format : text) (q : Q) : res text :=
  let (verb, prec) := match set_format format with Some vp => vp | None => (103, 12) end in
  if 10000 <? Z.abs (snd (mant_exp q)) then Unmod else Ok (float_text verb prec q).

(* Numbers with floats among them: the float column of the tables of operators, value/binary.go,
   value/unary.go, value/bigfloat.go and value/eval.go:917-1013.  Executable; no proofs.

   A float is a rational number with a precision (FloatModel.v); there are no infinities, so a quotient by a
   float 0 is Unmod.  Complex numbers are left out. *)
From Coq Require Import QArith Qabs.
From Verif Require Import Value FloatModel TimeModel NumModel OrdModel.
Open Scope list_scope.
Open Scope Z_scope.

(* Exact numbers as in NumModel.v; a big.Float of p bits. *)
Inductive num := Ex (v : value) | Fl (p : Z) (q : Q).

Section Conf.
Variable c : conf.
(* )prec: config.go FloatPrec *)
Variable P : Z.

(* toType to a float: int.go:163-164, bigint.go:158-160, bigrat.go:188-190, bigfloat.go:153-154; characters
   (char.go toType) cannot be converted *)
Definition as_float (u : num) : res (Z * Q) :=
  match u with
  | Ex (VInt z) | Ex (VBig z) => Ok (P, rnd P (inject_Z z))
  | Ex (VRat q) => Ok (P, rnd P q)
  | Fl p q => Ok (p, q)
  | Ex (VChar _) => Err
  | _ => Unmod
  end.
(* big.Float.IsInt *)
Definition is_int (q : Q) : bool := Qnum q mod Zpos (Qden q) =? 0.
(* bigfloat.go:166-174 shrink *)
Definition shrink_float (p : Z) (q : Q) : num :=
  if is_int q && ((Qnum q =? 0) || (ilog2 q + 1 <=? 100)) then Ex (shrink_big (trunc q)) else Fl p q.
(* binary.go:105-110 binaryBigFloatOp: the result has the configured precision *)
Definition rounded (q : Q) : num := shrink_float P (rnd P q).
(* the float column: + 240, - 270, * 302, / 322, comparisons 646-795, and or xor nand nor 814-925,
   min 1233, max 1274; mod, 428, is below; the others have none or are in the Float files *)
Definition fn_float (o : bop) (x y : Z * Q) : res num :=
  let (p, a) := x in let (r, b) := y in
  match o with
  | BAdd => Ok (rounded (a + b))
  | BSub => Ok (rounded (a - b))
  | BMul => Ok (rounded (a * b))
  | BQuo => if Qnum b =? 0 then (if Qnum a =? 0 then Err else Unmod) else Ok (rounded (a / b))
  | BEq | BNe | BLt | BLe | BGt | BGe => Ok (Ex (to_int (cmp_op o (q_cmp a b))))
  | LAnd => Ok (Ex (to_int (negb (Qnum a =? 0) && negb (Qnum b =? 0))))
  | LOr => Ok (Ex (to_int (negb (Qnum a =? 0) || negb (Qnum b =? 0))))
  | LXor => Ok (Ex (to_int (xorb (negb (Qnum a =? 0)) (negb (Qnum b =? 0)))))
  | LNand => Ok (Ex (to_int (negb (negb (Qnum a =? 0) && negb (Qnum b =? 0)))))
  | LNor => Ok (Ex (to_int (negb (negb (Qnum a =? 0) || negb (Qnum b =? 0)))))
  | BMin => Ok (match q_cmp a b with Lt => shrink_float p a | _ => shrink_float r b end)
  | BMax => Ok (match q_cmp a b with Gt => shrink_float p a | _ => shrink_float r b end)
  | BJ | BPow => Unmod
  | _ => Err
  end.
(* eval.go:982-1009 QuoRem on floats, for mod: the remainder, and what becomes of the two operands: x.Copy(x)
   is x, so a negative float is negated in its place.  The quotient has 53 bits (big.NewFloat). *)
Definition in_place (u : num) : num := match u with Fl p q => Fl p (Qabs q) | Ex _ => u end.
Definition mod_float (u v : num) : res (num * num * num) :=
  let! x := as_float u in let! y := as_float v in
  let (_, a) := x in let (_, b) := y in
  if Qnum b =? 0 then Ok (Fl (fst x) a, u, v)             (* 918: b.shrink() is 0; a, by now a float, is returned *)
  else
    let quo := rnd 53 (Qabs a / Qabs b) in
    let rem := rnd 53 (rnd 53 (quo - inject_Z (trunc quo)) * Qabs b) in
    let rem := if (Qnum a <? 0) && negb (Qnum rem =? 0) then rnd 53 (Qabs b - rem) else rem in
    Ok (shrink_float 53 rem, in_place u, in_place v).
(* eval.go:109-130 EvalBinary: the operands are brought to the larger type *)
Definition mixed (o : bop) (u v : num) : res num :=
  match u, v with
  | Ex a, Ex b => let! r := eval_scalar c o a b in Ok (Ex r)
  | _, _ =>
    match o, u, v with
    | BEq, Ex (VChar _), _ | BEq, _, Ex (VChar _) => Ok (Ex vzero)               (* eval.go:137-149 *)
    | BNe, Ex (VChar _), _ | BNe, _, Ex (VChar _) => Ok (Ex vone)
    | BMod, _, _ => let! r := mod_float u v in Ok (fst (fst r))
    | _, _, _ => let! x := as_float u in let! y := as_float v in fn_float o x y
    end
  end.
(* unary.go: + 280, - 300, / 322 (bigfloat.go:125-136), sgn 379, not 448, abs 480, floor 557-570, ceil 604-617,
   float 1219 with floatSelf 102-116 *)
Inductive funop := FU (o : uop) | FFloat.
Definition mixed_unary (o : funop) (u : num) : res num :=
  match o, u with
  | FFloat, _ => let! x := as_float u in Ok (Fl (fst x) (snd x))
  | FU o, Ex a => let! r := eval_unary_scalar c o a in Ok (Ex r)
  | FU UPlus, Fl _ _ => Ok u
  | FU UNeg, Fl p q => Ok (rounded (- q))
  | FU UInv, Fl p q => if Qnum q =? 0 then Err else Ok (rounded (/ q))
  | FU USgn, Fl p q => Ok (Ex (VInt (Z.sgn (Qnum q))))
  | FU ULNot, Fl p q => Ok (Ex (if Qnum q =? 0 then vone else vzero))
  | FU UAbs, Fl p q => Ok (rounded (Qabs q))
  | FU UReal, Fl _ _ => Ok u
  | FU UImag, Fl _ _ => Ok (Ex vzero)
  | FU UConj, Fl _ _ => Ok u
  | FU UFloor, Fl p q => let i := trunc q in
      Ok (Ex (shrink_big (match Qcompare (inject_Z i) q with Gt => i - 1 | _ => i end)))     (* accuracy Above *)
  | FU UCeil, Fl p q => let i := trunc q in
      Ok (Ex (shrink_big (match Qcompare (inject_Z i) q with Lt => i + 1 | _ => i end)))     (* accuracy Below *)
  | FU UJ, Fl _ _ => Unmod
  | FU _, Fl _ _ => Err
  end.
(* sets.go:293-301 sgn2 and 198-252 OrderedCompare on numbers and characters: it orders sets, sorts and grades *)
Definition order (u v : num) : res Z :=
  match u, v with
  | Ex a, Ex b => Ok (ordered_compare c a b)
  | Fl _ a, Fl _ b => Ok (match q_cmp a b with Lt => -1 | Eq => 0 | Gt => 1 end)
  | Ex (VChar _), _ => Ok (-1)
  | _, Ex (VChar _) => Ok 1
  | _, _ =>
    let! l := mixed BLt u v in
    match l with Ex (VInt 1) => Ok (-1)
    | _ => let! e := mixed BEq u v in match e with Ex (VInt 1) => Ok 0 | _ => Ok 1 end
    end
  end.

End Conf.

(* Rational operands as the interpreter holds them: a BigRat is a pointer to a
   big.Rat cell that variables, vectors and parsed constants share.  This file
   models which cells the operators write. *)
From Verif Require Import Value NumModel.
From Coq Require Import QArith Qabs Qreduction.
Open Scope Z_scope.

(* The cells, by address; new cells go at the end. *)
Definition heap := list Q.
Definition cell (h : heap) (a : nat) : Q := nth a h 0%Q.
Fixpoint put (h : heap) (a : nat) (q : Q) : heap :=
  match h, a with
  | [], _ => []
  | _ :: h', O => q :: h'
  | x :: h', S a' => x :: put h' a' q
  end.

(* eval.go:956-981  QuoRem on two rationals.  x.Set(x) sets x to itself, so the
   "copy" is the operand and x.Neg(x) writes it.  The quotient and remainder
   are read after both writes. *)
Definition quorem_heap (h : heap) (a b : nat) : heap * (value * value) :=
  let negX := Qnum (cell h a) <? 0 in
  let h := if negX then put h a (Qopp (cell h a)) else h in
  let negY := Qnum (cell h b) <? 0 in
  let h := if negY then put h b (Qopp (cell h b)) else h in
  let x := cell h a in let y := cell h b in
  let quo := Qred (x / y) in
  let iquo := Z.quot (Qnum quo) (Zpos (Qden quo)) in
  let rem := Qred (Qred (quo - inject_Z iquo) * y) in
  let '(iquo, rem) := if negX && negb (Qnum rem =? 0) then (iquo + 1, Qred (y - rem)) else (iquo, rem) in
  let iquo := if xorb negX negY then - iquo else iquo in
  (h, (shrink_big iquo, shrink_rat rem)).

(* binary.go:99-104 binaryBigRatOp, unary.go unaryBigRatOp: the result goes to a
   new cell.  mod is eval.go:900-906. *)
Inductive rop := RAdd (a b : nat) | RSub (a b : nat) | RMul (a b : nat) | RQuo (a b : nat)
  | RNeg (a : nat) | RAbs (a : nat) | RMod (a b : nat).
Definition rstep (h : heap) (o : rop) : heap * res value :=
  match o with
  | RAdd a b => let z := Qred (cell h a + cell h b) in (h ++ [z], Ok (shrink_rat z))
  | RSub a b => let z := Qred (cell h a - cell h b) in (h ++ [z], Ok (shrink_rat z))
  | RMul a b => let z := Qred (cell h a * cell h b) in (h ++ [z], Ok (shrink_rat z))
  | RQuo a b => if Qnum (cell h b) =? 0 then (h, Err)
                else let z := Qred (cell h a / cell h b) in (h ++ [z], Ok (shrink_rat z))
  | RNeg a => let z := Qopp (cell h a) in (h ++ [z], Ok (shrink_rat z))
  | RAbs a => let z := Qabs (cell h a) in (h ++ [z], Ok (shrink_rat z))
  | RMod a b => if Qnum (cell h b) =? 0 then (h, Ok (VRat (cell h a)))
                else let '(h', (_, rem)) := quorem_heap h a b in (h', Ok rem)
  end.
Fixpoint rrun (h : heap) (os : list rop) : heap * list (res value) :=
  match os with
  | [] => (h, [])
  | o :: os' => let '(h1, r) := rstep h o in let '(h2, rs) := rrun h1 os' in (h2, r :: rs)
  end.

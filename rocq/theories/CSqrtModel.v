(* value/sqrt.go, complex.go: square roots of negative and complex numbers and the absolute value, over floatSqrt of FloatModel.
   Executable; no proofs. *)
From Coq Require Import QArith.
From Verif Require Import Value FloatModel.
Open Scope Z_scope.

Section CSqrt.
Variable R : Q -> Q.
Variable p : Z.
(* a real number, or a complex one by its parts *)
Inductive root := RealRoot (z : Q) | CplxRoot (r i : Q).
(* the control flow of a chain of floatSqrt calls: an error ends it *)
Definition after {A} (r : option (res Q)) (f : Q -> option (res A)) : option (res A) :=
  match r with
  | None => None
  | Some (Ok z) => f z
  | Some Err => Some Err
  | Some Crash => Some Crash
  | Some Unmod => Some Unmod
  end.
(* sqrt.go:25-45 complexSqrt; a and b are the parts as they are, unary.go:102-116 floatSelf rounds them.
   The quotients by floatTwo are rounded like the rest. *)
Definition complex_sqrt (fuel : nat) (a0 b0 : Q) : option (res root) :=
  let a := R a0 in
  let b := R b0 in
  after (float_sqrt R p fuel (fadd R (fmul R a a) (fmul R b b))) (fun mag =>
  after (float_sqrt R p fuel (R (fadd R mag a / 2))) (fun r =>
  after (float_sqrt R p fuel (R (fsub R mag a / 2))) (fun i =>
  Some (Ok (CplxRoot r (if Qnum b <? 0 then (- i)%Q else i)))))).
(* sqrt.go:10-22 sqrt of the complex number ajb, or, when b is 0, of the real number a *)
Definition sqrt_op (fuel : nat) (a b : Q) : option (res root) :=
  if negb (Qnum b =? 0) then complex_sqrt fuel a b
  else if Qnum a <? 0 then after (float_sqrt R p fuel (R (- a))) (fun z => Some (Ok (CplxRoot 0 z)))
  else after (float_sqrt R p fuel (R a)) (fun z => Some (Ok (RealRoot z))).
(* complex.go:117-121 abs, for exact parts: the sum of the squares is exact *)
Definition abs_op (fuel : nat) (a b : Q) : option (res root) := sqrt_op fuel (a * a + b * b) 0.
End CSqrt.

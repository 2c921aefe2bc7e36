(* value/sinh.go: the hyperbolic tangent, over the series of FloatModel.  Executable; no proofs. *)
From Coq Require Import QArith.
From Verif Require Import Value FloatModel ArcModel.
Open Scope Z_scope.

(* sinh.go:103-113 floatTanh, for a finite argument *)
Definition float_tanh (R : Q -> Q) (p : Z) (fuel : nat) (x : Q) : option (res Q) :=
  then_ (float_cosh R p fuel x) (fun c =>
  if Qeq_bool c 0 then Some Err else then_ (float_sinh R p fuel x) (fun s => of_res (fquo R s c))).

(* power.go:25-34 exp, sinh.go:11-39 sinh, cosh, tanh on a real number q, exactly as it is: unary.go:102-116 floatSelf rounds it *)
Definition exp_op (R : Q -> Q) (p : Z) (fuel : nat) (q : Q) : option (res Q) := exponential R p fuel (R q).
Definition sinh_op (R : Q -> Q) (p : Z) (fuel : nat) (q : Q) : option (res Q) := float_sinh R p fuel (R q).
Definition cosh_op (R : Q -> Q) (p : Z) (fuel : nat) (q : Q) : option (res Q) := float_cosh R p fuel (R q).
Definition tanh_op (R : Q -> Q) (p : Z) (fuel : nat) (q : Q) : option (res Q) := float_tanh R p fuel (R q).

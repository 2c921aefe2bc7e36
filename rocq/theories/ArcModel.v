(* The inverse functions: value/asin.go, asinh.go for real arguments, over the series of FloatModel.
   A real argument is the rational number it stands for; pi and log2 are the constants, already rounded to p bits.
   The complex branches are not computed: only the choice of branch is.  Executable; no proofs. *)
From Coq Require Import QArith Qabs.
From Verif Require Import Value FloatModel.
Open Scope Z_scope.

Section Arc.
Variable R : Q -> Q.
Variable p : Z.
Variables pi log2 : Q.
Notation sqrt_ := (float_sqrt R p).
Definition then_ (r : option (res Q)) (f : Q -> option (res Q)) : option (res Q) :=
  match r with Some (Ok z) => f z | Some Err => Some Err | Some Crash => Some Crash | Some Unmod => Some Unmod | None => None end.
Definition of_res (r : res Q) : option (res Q) := Some r.
Definition below (x y : Q) : bool := negb (Qle_bool y x).
(* asin.go:83-153 floatAtan; d bounds the calls of itself *)
Fixpoint float_atan (d fuel : nat) (x : Q) : option (res Q) :=
  match d with
  | O => None
  | S d' =>
    if Qnum x <? 0 then neg_res true (float_atan d' fuel (- x))
    else if below (Qabs (fsub R 1 x)) (1 # 2) then
      then_ (of_res (fquo R pi (fint R 8))) (fun z =>
      then_ (sqrt_ fuel 2) (fun s =>
      let y := fsub R s 1 in
      then_ (of_res (fquo R (fsub R x y) (fadd R (fmul R x y) 1))) (fun t =>
      then_ (float_atan d' fuel t) (fun w => Some (Ok (fadd R z w))))))
    else if below 1 x then atan_large R p fuel pi x
    else atan_small R p fuel x
  end.
(* asin.go:52-71 floatAsin *)
Definition half_pi : option (res Q) := of_res (fquo R pi 2).
Definition float_asin (d fuel : nat) (x : Q) : option (res Q) :=
  if Qeq_bool x 1 then half_pi
  else if Qeq_bool x (-1) then neg_res true half_pi
  else then_ (sqrt_ fuel (fsub R 1 (fmul R x x))) (fun z => then_ (of_res (fquo R x z)) (fun t => float_atan d fuel t)).
(* asin.go:74-79 floatAcos *)
Definition float_acos (d fuel : nat) (x : Q) : option (res Q) :=
  then_ half_pi (fun z => then_ (float_asin d fuel x) (fun w => Some (Ok (fsub R z w)))).
(* asinh.go:49-56 floatAsinh *)
Definition float_asinh (fuel : nat) (x : Q) : option (res Q) :=
  then_ (sqrt_ fuel (fadd R (fmul R x x) 1)) (fun z => float_log R p fuel log2 (fadd R z x)).
(* asinh.go:60-70 floatAcosh *)
Definition float_acosh (fuel : nat) (x : Q) : option (res Q) :=
  if below x 1 then Some Err
  else then_ (sqrt_ fuel (fsub R (fmul R x x) 1)) (fun z => float_log R p fuel log2 (fadd R z x)).
(* asinh.go:74-82 floatAtanh *)
Definition float_atanh (fuel : nat) (x : Q) : option (res Q) :=
  if Qle_bool x (-1) || Qle_bool 1 x then Some Err
  else then_ (of_res (fquo R (fadd R 1 x) (fsub R 1 x))) (fun q =>
       then_ (float_log R p fuel log2 q) (fun z => of_res (fquo R z 2))).

(* The operators on a real number q, exactly as it is: the result is real, or that of the complex function.
   unary.go:102-116 floatSelf rounds it. *)
Inductive answer := Real (r : option (res Q)) | Complex.
(* asin.go:11-39 *)
Definition in_arc_domain (q : Q) : bool := Qle_bool (-1) q && Qle_bool q 1.
Definition asin (d fuel : nat) (q : Q) : answer := if in_arc_domain q then Real (float_asin d fuel (R q)) else Complex.
Definition acos (d fuel : nat) (q : Q) : answer := if in_arc_domain q then Real (float_acos d fuel (R q)) else Complex.
(* asin.go:41-49 *)
Definition atan (d fuel : nat) (q : Q) : answer := Real (float_atan d fuel (R q)).
(* asinh.go:11-45 *)
Definition asinh (fuel : nat) (q : Q) : answer := Real (float_asinh fuel (R q)).
Definition acosh (fuel : nat) (q : Q) : answer := if below q 1 then Complex else Real (float_acosh fuel (R q)).
Definition atanh (fuel : nat) (q : Q) : answer := if Qle_bool q (-1) || Qle_bool 1 q then Complex else Real (float_atanh fuel (R q)).
End Arc.

(* value/power.go: powers of floats, over the series of FloatModel.  Executable; no proofs. *)
From Coq Require Import QArith Qabs Qround.
From Verif Require Import Value FloatModel ArcModel.
Open Scope Z_scope.

(* big.Float.Int64 of a number that is not negative: truncated, at most MaxInt64, and whether that is exact *)
Definition to_int64 (q : Q) : Z * bool :=
  if Qle_bool (inject_Z (2 ^ 63)) q then (2 ^ 63 - 1, false) else (Qfloor q, Qeq_bool q (inject_Z (Qfloor q))).
Section Pow.
Variable R : Q -> Q.
Variable p : Z.
Variable log2 : Q.
(* power.go:50-97 floatPower, for x >= 0: x and y are floats; fexp is the absolute value of y, positive its sign *)
Definition invert_if (neg : bool) (z : Q) : option (res Q) := if neg then of_res (fquo R 1 z) else Some (Ok z).
Definition float_power (fuel : nat) (x y : Q) : option (res Q) :=
  let neg := Qnum y <? 0 in
  let fexp := Qabs y in
  if Qnum y =? 0 then Some (Ok (fint R 1))
  else if neg && (Qnum x =? 0) then Some Err
  else if Qeq_bool x 1 || (Qnum x =? 0) then Some (Ok x)
  else if Qeq_bool fexp (1 # 2) then then_ (float_sqrt R p fuel x) (invert_if neg)
  else
    let '(e, is_int) := to_int64 fexp in
    match integer_power R fuel x e with
    | None => None
    | Some z =>
      then_ (if is_int then Some (Ok z)
             else then_ (float_log R p fuel log2 x) (fun l =>
                  then_ (exponential R p fuel (fmul R (fsub R fexp (fint R e)) l)) (fun w => Some (Ok (fmul R z w)))))
            (invert_if neg)
    end.
(* power.go:13-23 power, on real numbers u and v exactly as they are *)
Definition power (fuel : nat) (u v : Q) : answer := if Qnum u <? 0 then Complex else Real (float_power fuel (R u) (R v)).
End Pow.

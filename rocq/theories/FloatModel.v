(* Model of the floating-point functions: value/loop.go, power.go:97-145, sinh.go:41-114,
   sin.go:60-155, asin.go:50-186, log.go:107-165, sqrt.go:48-85.  Executable; no proofs.

   A finite big.Float is the rational number it stands for.  Every operation of math/big
   computes the exact result and rounds it to the precision of its destination, which is
   the configured precision p throughout (newF, const.go:80-86), to nearest, ties to even.
   Simplified: all operands have precision p; exponents are unbounded, so there are no
   infinities except by a division by zero, which is outside the model (Unmod).
   The outer option of a loop is None when the iterations of the model ran out: the Go
   loop would still be running. *)
From Coq Require Import QArith Qabs.
From Verif Require Import Value.
Open Scope Z_scope.

(* ---- rounding ---- *)
Definition pow2 (e : Z) : Q := if 0 <=? e then inject_Z (2 ^ e) else 1 # Z.to_pos (2 ^ (- e)).
(* floor (log2 |q|), for q <> 0: one less than the exponent that big.Float.MantExp returns *)
Definition ilog2 (q : Q) : Z :=
  let k := Z.log2 (Z.abs (Qnum q)) - Z.log2 (Zpos (Qden q)) in
  if Qle_bool (pow2 k) (Qabs q) then k else k - 1.
(* to the nearest integer, ties to even *)
Definition rne (q : Q) : Z :=
  let d := Zpos (Qden q) in
  let f := Qnum q / d in
  match 2 * (Qnum q mod d) ?= d with Lt => f | Gt => f + 1 | Eq => if Z.even f then f else f + 1 end.
(* m * 2 ** e, in lowest terms *)
Fixpoint halve (n d : positive) : Q :=
  match n, d with xO n', xO d' => halve n' d' | _, _ => Zpos n # d end.
Definition dyadic (m e : Z) : Q :=
  if 0 <=? e then inject_Z (m * 2 ^ e)
  else match m with
       | Z0 => 0%Q
       | Zpos n => halve n (Z.to_pos (2 ^ (- e)))
       | Zneg n => (- halve n (Z.to_pos (2 ^ (- e))))%Q
       end.
Definition rnd (p : Z) (q : Q) : Q :=
  if Qnum q =? 0 then 0%Q
  else let e := ilog2 q - p + 1 in dyadic (rne (q * pow2 (- e))) e.
(* big.Float.MantExp: mantissa in [1/2, 1) and exponent *)
Definition mant_exp (q : Q) : Q * Z :=
  if Qnum q =? 0 then (0%Q, 0) else (Qred (q * pow2 (- (ilog2 q + 1))), ilog2 q + 1).

(* ---- value/loop.go ---- *)
(* loop.go:13-20; the name and the argument are for messages only *)
Record looper := mkLoop { l_i : Z; l_max : Z; l_prev : Q }.
(* loop.go:27-35, in uint64 *)
Definition new_loop (k p : Z) : looper := mkLoop 0 ((10 + (k * p) mod 2 ^ 64) mod 2 ^ 64) 0.
(* loop.go:53-56: 2 ** (exponent of z - precision) *)
Definition eps (p : Z) (z : Q) : Q := pow2 (snd (mant_exp z) - p).
Inductive verdict := Stop | Fail | More (l : looper).
Section Fl.
Variable R : Q -> Q.                                                   (* the rounding *)
Variable p : Z.                                                        (* the precision *)
(* loop.go:41-66 *)
Definition done (l : looper) (z : Q) : verdict :=
  let delta := R (l_prev l - z) in
  if Qeq_bool delta 0 && (3 <=? l_i l) then Stop
  else if Qle_bool (Qabs delta) (eps p z) && (3 <=? l_i l) then Stop
  else let i := (l_i l + 1) mod 2 ^ 64 in
       if i =? l_max l then Fail else More (mkLoop i (l_max l) z).

Definition fadd (x y : Q) : Q := R (x + y).
Definition fsub (x y : Q) : Q := R (x - y).
Definition fmul (x y : Q) : Q := R (x * y).
Definition fquo (x y : Q) : res Q := if Qeq_bool y 0 then Unmod else Ok (R (x / y)).
Definition fint (n : Z) : Q := R (inject_Z n).                          (* SetInt64, SetUint64 *)

(* for loop := newLoop(...); ; { body; if loop.done(z) { break }; next }.
   body and next see loop.i as it is when they run. *)
Section Series.
Variable S : Type.
Variable zof : S -> Q.
Variable body : Z -> S -> res S.
Variable next : Z -> S -> S.
Fixpoint series (fuel : nat) (l : looper) (s : S) : option (res S) :=
  match fuel with
  | O => None
  | Datatypes.S f =>
    match body (l_i l) s with
    | Ok s' =>
      match done l (zof s') with
      | Stop => Some (Ok s')
      | Fail => Some Err
      | More l' => series f l' (next (l_i l') s')
      end
    | Err => Some Err | Crash => Some Crash | Unmod => Some Unmod
    end
  end.
End Series.
Definition result {S} (zof : S -> Q) (r : option (res S)) : option (res Q) :=
  match r with Some (Ok s) => Some (Ok (zof s)) | Some Err => Some Err | Some Crash => Some Crash | Some Unmod => Some Unmod | None => None end.

(* power.go:99-126, exponential, sinh.go:41-66 floatSinh, 71-97 floatCosh: the state is
   (z, xN, nFactorial) *)
Definition pw : Type := Q * Q * Q.
Definition pw_z (s : pw) : Q := fst (fst s).
Definition pw_body (_ : Z) (s : pw) : res pw :=
  let '(z, xN, f) := s in let! t := fquo xN f in Ok (fadd z t, xN, f).
Definition exp_next (x : Q) (i : Z) (s : pw) : pw :=
  let '(z, xN, f) := s in (z, fmul xN x, fmul f (fint (i + 1))).
Definition exponential (fuel : nat) (x : Q) : option (res Q) :=
  result pw_z (series pw pw_z pw_body (exp_next x) fuel (new_loop 10 p) (fint 1, x, fint 1)).
Definition sinh_next (x : Q) (i : Z) (s : pw) : pw :=
  let '(z, xN, f) := s in (z, fmul (fmul xN x) x, fmul (fmul f (fint (2 * i))) (fint (2 * i + 1))).
Definition float_sinh (fuel : nat) (x : Q) : option (res Q) :=
  result pw_z (series pw pw_z pw_body (sinh_next x) fuel (new_loop 10 p) (fint 0, x, fint 1)).
Definition cosh_next (x : Q) (i : Z) (s : pw) : pw :=
  let '(z, xN, f) := s in (z, fmul (fmul xN x) x, fmul (fmul f (fint (2 * i + 1))) (fint (2 * i + 2))).
Definition float_cosh (fuel : nat) (x : Q) : option (res Q) :=
  result pw_z (series pw pw_z pw_body (cosh_next x) fuel (new_loop 10 p) (fint 1, fmul x x, fint 2)).

(* sin.go:99-126 sincos; the state is (z, xN, factorial, exp); term is a copy of xN when
   the body starts *)
Definition sc : Type := Q * Q * Q * Z.
Definition sc_z (s : sc) : Q := fst (fst (fst s)).
Definition sc_body (_ : Z) (s : sc) : res sc :=
  let '(z, xN, f, e) := s in let f' := (- f)%Q in let! t := fquo xN f' in Ok (fadd z t, xN, f', e).
Definition sc_next (x2 : Q) (_ : Z) (s : sc) : sc :=
  let '(z, xN, f, e) := s in (z, fmul xN x2, fmul (fmul f (fint (e + 1))) (fint (e + 2)), e + 2).
Fixpoint fpow (n : nat) (t x : Q) : Q := match n with O => t | S m => fpow m (fmul t x) x end.
Definition sincos (fuel index : nat) (x z : Q) (e : Z) (f : Q) : option (res Q) :=
  result sc_z (series sc sc_z sc_body (sc_next (fmul x x)) fuel (new_loop 4 p) (z, fpow index (fint 1) x, f, e)).

(* sin.go:129-155 twoPiReduce.  The loop that collects multiples of 2 pi, largest first;
   then the subtractions. *)
Fixpoint multiples (fuel : nat) (x m : Q) (acc : list Q) : option (list Q) :=
  match fuel with
  | O => None
  | S f => let m' := fmul m (fint 16) in
           if Qle_bool m' x then multiples f x m' (m' :: acc) else Some acc
  end.
Fixpoint subtract (fuel : nat) (x m : Q) : option Q :=
  match fuel with O => None | S f => if Qle_bool m x then subtract f (fsub x m) m else Some x end.
Fixpoint subtract_all (fuel : nat) (x : Q) (ms : list Q) : option Q :=
  match ms with [] => Some x | m :: ms' => match subtract fuel x m with Some x' => subtract_all fuel x' ms' | None => None end end.
Definition two_pi_reduce (fuel : nat) (pi x : Q) : option Q :=
  let two_pi := fmul (fint 2) pi in
  match (if Qle_bool x (fint 1000) then Some x
         else match multiples fuel x two_pi [] with Some ms => subtract_all fuel x ms | None => None end) with
  | Some x' => subtract fuel x' two_pi
  | None => None
  end.
(* sin.go:61-83 floatSin and 86-97 floatCos.  Both change the number that their argument
   points to; the second component is what it is afterwards. *)
Definition neg_res (b : bool) (r : option (res Q)) : option (res Q) :=
  if b then match r with Some (Ok z) => Some (Ok (- z)%Q) | r' => r' end else r.
Definition float_sin (fuel : nat) (pi x : Q) : option (res Q) * Q :=
  let neg := Qnum x <? 0 in
  let x0 := if neg then (- x)%Q else x in
  match two_pi_reduce fuel pi x0 with
  | None => (None, x0)
  | Some x' => (neg_res neg (sincos fuel 3 x' x' 3 (fint 6)), x')
  end.
Definition float_cos (fuel : nat) (pi x : Q) : option (res Q) * Q :=
  match two_pi_reduce fuel pi x with
  | None => (None, x)
  | Some x' => (sincos fuel 2 x' (fint 1) 2 (fint 2), x')
  end.

(* asin.go:127-152: the state is (z, xN) *)
Definition at_st : Type := Q * Q.
Definition atan_body (i : Z) (s : at_st) : res at_st :=
  let '(z, xN) := s in let! t := fquo xN (fint (2 * i + 1)) in Ok (fadd z t, (- xN)%Q).
Definition atan_next (x2 : Q) (_ : Z) (s : at_st) : at_st := let '(z, xN) := s in (z, fmul xN x2).
Definition atan_small (fuel : nat) (x : Q) : option (res Q) :=
  result fst (series at_st fst atan_body (atan_next (fmul x x)) fuel (new_loop 4 p) (0%Q, x)).
(* asin.go:157-186 floatAtanLarge *)
Definition atanl_body (i : Z) (s : at_st) : res at_st :=
  let '(z, xN) := s in let xN' := (- xN)%Q in
  let! t := fquo (fint 1) (fmul xN' (fint (2 * i + 1))) in Ok (fadd z t, xN').
Definition atan_large (fuel : nat) (pi x : Q) : option (res Q) :=
  match fquo pi (fint 2) with
  | Ok h => result fst (series at_st fst atanl_body (atan_next (fmul x x)) fuel (new_loop 4 p) (h, x))
  | _ => Some Unmod
  end.
(* log.go:140-158: the state is (z, yN) *)
Definition log_body (i : Z) (s : at_st) : res at_st :=
  let '(z, yN) := s in let! t := fquo yN (fint (i + 1)) in Ok (fsub z t, yN).
Definition log_series (fuel : nat) (y : Q) : option (res Q) :=
  result fst (series at_st fst log_body (atan_next y) fuel (new_loop 40 p) (0%Q, y)).
(* log.go:107-165 floatLog; log2 is the constant *)
Definition float_log (fuel : nat) (log2 x : Q) : option (res Q) :=
  if Qnum x <=? 0 then Some Err
  else if Qeq_bool x 1 then Some (Ok 0%Q)
  else
    let invert := negb (Qle_bool x 1) in
    match (if invert then fquo (fint 1) x else Ok x) with
    | Ok x' =>
      let '(m, e) := mant_exp x' in
      let ex := fmul (fint e) log2 in
      match neg_res invert (log_series fuel (fsub (fint 1) m)) with
      | Some (Ok z) => Some (Ok (fadd z (if invert then (- ex)%Q else ex)))
      | r => r
      end
    | _ => Some Unmod
    end.

(* sqrt.go:50-85: Newton's method; the state is z.  exp/2 rounds towards zero *)
Definition newton (x : Q) (_ : Z) (z : Q) : res Q :=
  let! t := fquo (fsub (fmul z z) x) (fmul (fint 2) z) in Ok (fsub z t).
Definition sqrt_start (x : Q) : Q := let '(m, e) := mant_exp x in Qred (m * pow2 (Z.quot e 2)).
Definition float_sqrt (fuel : nat) (x : Q) : option (res Q) :=
  if Qnum x <? 0 then Some Err
  else if Qnum x =? 0 then Some (Ok 0%Q)
  else series Q (fun z => z) (newton x) (fun _ z => z) fuel (new_loop 1 p) (sqrt_start x).

(* power.go:129-143 integerPower *)
Fixpoint int_power (fuel : nat) (z y : Q) (e : Z) : option Q :=
  if e <=? 0 then Some z
  else match fuel with
       | O => None
       | S f => int_power f (if Z.odd e then fmul z y else z) (fmul y y) (e / 2)
       end.
Definition integer_power (fuel : nat) (x : Q) (e : Z) : option Q := int_power fuel (fint 1) x e.
End Fl.

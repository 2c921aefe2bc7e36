(* Random numbers: the operators ?, both monadic (roll) and dyadic (deal), and rand.
   value/unary.go:54-68, 141-165, 168-215; value/binary.go:927-950; config/config.go:218-270.
   Executable; no proofs. *)
From Coq Require Import QArith String.
From Verif Require Import Value NumModel EvalModel FloatModel ParModel.
Open Scope list_scope.
Open Scope Z_scope.

(* The generator of config.go:218-228 with its state: Rand.Int64N, crypto/rand.Int reading from
   the source, Rand.Perm, and the source's Seed (253-260).  What the theorems assume of them,
   their documentation, is RandSpec.honest. *)
Record generator := mkGen {
  state : Type;
  int64n : state -> Z -> Z * state;
  big_int : state -> Z -> Z * state;
  perm : state -> nat -> list Z * state;
  seeded : Z -> state }.

Section Rand.
Variable gen : generator.
Variable origin : Z.

(* unary.go:171-188.  "?" is no safe operator (eval.go:176-180), so that pfor runs the loops of
   eval.go:649-671 in order in one goroutine.  Int64 addition cannot overflow for the origins
   that are allowed. *)
Definition roll_scalar (v : value) (g : state gen) : res value * state gen :=
  match v with
  | VInt i => if i <=? 0 then (Err, g) else let (r, g') := int64n gen g i in (Ok (VInt (origin + r)), g')
  | VBig b => if b <=? 0 then (Err, g) else let (r, g') := big_int gen g b in (Ok (shrink_big r), g')
  | _ => (Err, g)
  end.
Section Each.
Variable f : value -> state gen -> res value * state gen.
Fixpoint in_turn (l : list value) (g : state gen) : res (list value) * state gen :=
  match l with
  | [] => (Ok [], g)
  | x :: l' =>
    match f x g with
    | (Ok y, g1) => match in_turn l' g1 with (Ok r, g2) => (Ok (y :: r), g2) | e => e end
    | (Err, g1) => (Err, g1) | (Crash, g1) => (Crash, g1) | (Unmod, g1) => (Unmod, g1)
    end
  end.
End Each.
Fixpoint roll (v : value) (g : state gen) {struct v} : res value * state gen :=
  let each := (fix go (l : list value) (g : state gen) : res (list value) * state gen :=
    match l with
    | [] => (Ok [], g)
    | x :: l' =>
      match roll x g with
      | (Ok y, g1) => match go l' g1 with (Ok r, g2) => (Ok (y :: r), g2) | e => e end
      | (Err, g1) => (Err, g1) | (Crash, g1) => (Crash, g1) | (Unmod, g1) => (Unmod, g1)
      end
    end) in
  match v with
  | VVec l => match each l g with (Ok r, g') => (Ok (VVec r), g') | (Err, g') => (Err, g') | (Crash, g') => (Crash, g') | (Unmod, g') => (Unmod, g') end
  | VMat s l => match each l g with (Ok r, g') => (Ok (VMat s r), g') | (Err, g') => (Err, g') | (Crash, g') => (Crash, g') | (Unmod, g') => (Unmod, g') end
  | _ => roll_scalar v g
  end.

(* binary.go:932-947; for all other operands there is no function, or no conversion.  ints[i] of
   a permutation that is too short would be a run-time panic. *)
Definition deal (u v : value) (g : state gen) : res value * state gen :=
  match u, v with
  | VInt a, VInt b =>
    if ((a <? 0) || (maxInt <? a)) || ((b <? 0) || (maxInt <? b)) then (Err, g)
    else if b <? a then (Err, g)
    else let (ints, g') := perm gen g (Z.to_nat b) in
         (if (Z.to_nat a <=? length ints)%nat then Ok (VVec (map (fun i => VInt (i + origin)) (firstn (Z.to_nat a) ints))) else Crash, g')
  | _, _ => (Err, g)
  end.

(* unary.go:144-165 bigFloatRand of the number f, which has been made a float.  The floats it
   makes with big.NewFloat(0) have 53 bits, and so have all results. *)
Definition rand_float (p : Z) (f : Q) (g : state gen) : res Q * state gen :=
  if Qle_bool 0 f then
    let max := 2 ^ p + 1 in
    let (r, g') := big_int gen g max in
    let x := rnd 53 (inject_Z r) in
    let x := rnd 53 (x / rnd 53 (inject_Z max)) in
    (Ok (rnd 53 (x * f)), g')
  else (Err, g).
(* unary.go:190-213: the operand as a float.  SetInt64 and SetInt are exact; SetRat rounds to the
   largest of 64 and the lengths of numerator and denominator. *)
Definition rand_operand (v : value) : res Q :=
  match v with
  | VInt z | VBig z => Ok (inject_Z z)
  | VRat q => Ok (rnd (Z.max 64 (Z.max (bitlen (Qnum q)) (bitlen (Zpos (Qden q))))) q)
  | _ => Err
  end.
Definition rand (p : Z) (v : value) (g : state gen) : res Q * state gen :=
  match rand_operand v with Ok f => rand_float p f g | _ => (Err, g) end.
End Rand.

(* ---- a vector of draws ---- *)
(* eval.go:191-235, 649-660: the loop over the elements k of a vector, divided into the ranges of
   plan.  Each draw is one step under the lock of config.go:262-270; the schedule is the list of
   the goroutines that take the next step.  The elements left to each goroutine, the state of
   the generator, and what each element has got. *)
Section Par.
Variable A : Type.
Variable gen : generator.
Variable draw : nat -> state gen -> A * state gen.
Definition par_state := (list (list nat) * state gen * (nat -> option A))%type.
Definition par_start (ranges : list (nat * nat)) (g : state gen) : par_state :=
  (map (fun r => seq (fst r) (snd r - fst r)) ranges, g, fun _ => None).
Definition par_step (st : par_state) (i : nat) : par_state :=
  match st with (todo, g, cells) =>
    match nth_error todo i with
    | Some (k :: rest) => let (x, g') := draw k g in (set_nth todo i rest, g', fun j => if (j =? k)%nat then Some x else cells j)
    | _ => st
    end
  end.
Definition par_run (st : par_state) (schedule : list nat) : par_state := fold_left par_step schedule st.
Definition par_done (st : par_state) : Prop := Forall (fun l => l = []) (fst (fst st)).
Definition par_cells (st : par_state) : nat -> option A := snd st.
End Par.
(* The ranges for a built-in unary operator op applied to a vector of n elements. *)
Definition unary_plan (procs : nat) (op : string) (n : nat) : list (nat * nat) := plan (safe [op] op) procs 100 1 n.

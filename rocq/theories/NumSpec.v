(* What the scalar operators should compute, in terms of Z and Q. *)
From Verif Require Import Value NumModel.
From Coq Require Import QArith Qabs Qround.
Open Scope Z_scope.

(* The rational number a real value denotes. *)
Definition numval (v : value) : option Q :=
  match v with VInt z | VBig z => Some (inject_Z z) | VRat q => Some q | _ => None end.
(* The integer an integer value denotes. *)
Definition intval (v : value) : option Z :=
  match v with VInt z | VBig z => Some z | _ => None end.

(* Real values as the interpreter builds them: a small integer lies within
   -2^31 .. 2^31, a rational is in lowest terms and not an integer. *)
Definition valid (v : value) : Prop :=
  match v with
  | VInt z => - 2 ^ 31 <= z <= 2 ^ 31
  | VBig _ => True
  | VRat q => Qred q = q /\ Qden q <> 1%positive
  | _ => False
  end.

(* The documented canonical form: small integers fill the int32 range exactly. *)
Definition canonical (v : value) : Prop :=
  match v with
  | VInt z => - 2 ^ 31 <= z < 2 ^ 31
  | VBig z => ~ (- 2 ^ 31 <= z < 2 ^ 31)
  | VRat q => Qred q = q /\ Qden q <> 1%positive
  | _ => False
  end.
(* The same but undecided for the two values 2^31 and -2^31. *)
Definition near_canonical (v : value) : Prop :=
  match v with
  | VInt z => - 2 ^ 31 <= z <= 2 ^ 31
  | VBig z => ~ (- 2 ^ 31 < z < 2 ^ 31)
  | VRat q => Qred q = q /\ Qden q <> 1%positive
  | _ => False
  end.

(* The evaluation yields a well-formed value denoting exactly q. *)
Definition gives (r : res value) (q : Q) : Prop :=
  exists v x, r = Ok v /\ valid v /\ numval v = Some x /\ (x == q)%Q.
(* ... the integer z. *)
Definition gives_int (r : res value) (z : Z) : Prop :=
  exists v, r = Ok v /\ intval v = Some z.

(* Size in bits of an integer operand (0 for others). *)
Definition zbits (z : Z) : Z := if z =? 0 then 0 else Z.log2 (Z.abs z) + 1.
Definition vbits (v : value) : Z := match v with VInt z | VBig z => zbits z | _ => 0 end.

(* 1 for true, 0 for false. *)
Definition truth (r : res value) (P : Prop) : Prop := (P /\ r = Ok (VInt 1)) \/ (~ P /\ r = Ok (VInt 0)).

(* n! as the product 1 * 2 * ... * n, and the number of k-element subsets of an
   n-element set by Pascal's rule. *)
Fixpoint fact_z (n : nat) : Z := match n with O => 1 | S m => Z.of_nat n * fact_z m end.
Fixpoint choose (n k : nat) : Z :=
  match n, k with
  | _, O => 1
  | O, S _ => 0
  | S n', S k' => choose n' k' + choose n' k
  end.

(* x = k*y + r with 0 <= r < |y| *)
Definition euclid_q (x y : Q) (k : Z) (r : Q) : Prop :=
  (x == inject_Z k * y + r)%Q /\ (0 <= r)%Q /\ (r < Qabs y)%Q.
(* x = q*y + r, |r| < |y|, r has the sign of x, and q*y does not exceed x in size. *)
Definition trunc (x y q r : Z) : Prop := x = q * y + r /\ Z.abs r < Z.abs y /\ 0 <= r * x /\ Z.abs (q * y) <= Z.abs x.

(* The relations the comparison and logical operators should decide. *)
Definition cmp_rel (o : bop) (x y : Q) : Prop :=
  match o with
  | BEq => (x == y)%Q | BNe => ~ (x == y)%Q | BLt => (x < y)%Q
  | BLe => (x <= y)%Q | BGt => (y < x)%Q | BGe => (y <= x)%Q | _ => False
  end.
Definition is_cmp (o : bop) : Prop := match o with BEq | BNe | BLt | BLe | BGt | BGe => True | _ => False end.

Definition is_true_q (x : Q) : Prop := ~ (x == 0)%Q.
Definition logic_rel (o : bop) (P Q : Prop) : Prop :=
  match o with
  | LAnd => P /\ Q | LOr => P \/ Q | LXor => (P /\ ~ Q) \/ (~ P /\ Q)
  | LNand => ~ (P /\ Q) | LNor => ~ (P \/ Q) | _ => False
  end.
Definition is_logic (o : bop) : Prop := match o with LAnd | LOr | LXor | LNand | LNor => True | _ => False end.

(* The bit operation of each bitwise operator. *)
Definition bit_fn (o : bop) : option (bool -> bool -> bool) :=
  match o with BAnd => Some andb | BOr => Some orb | BXor => Some xorb | _ => None end.

(* When an exponentiation may be refused: |x| is not 0 or 1 and the exponent needs
   64 bits or the result may need more than maxbits bits. *)
Definition pow_limit (c : conf) (x : Q) (n : Z) : Prop :=
  ~ (Qabs x == 1)%Q /\ ~ (x == 0)%Q /\
  (2 ^ 63 <= Z.abs n \/
   (maxbits c <> 0 /\ maxbits c < Z.max (zbits (Qnum x)) (zbits (Zpos (Qden x))) * Z.abs n)).


(* Arithmetic expressions over number literals, as a user types them. *)
Inductive aexp :=
| ELit (v : value)
| EBin (o : bop) (a b : aexp)
| EUn (o : uop) (a : aexp).
Fixpoint run_aexp (c : conf) (e : aexp) : res value :=
  match e with
  | ELit v => Ok v
  | EBin o a b => let! y := run_aexp c b in let! x := run_aexp c a in eval_scalar c o x y
  | EUn o a => let! x := run_aexp c a in eval_unary_scalar c o x
  end.
(* Operators of exact arithmetic: + - * / min max and unary + - / abs sgn floor ceil. *)
Definition arith_bop (o : bop) : Prop :=
  match o with BAdd | BSub | BMul | BQuo | BMin | BMax => True | _ => False end.
Definition arith_uop (o : uop) : Prop :=
  match o with UPlus | UNeg | UInv | UAbs | USgn | UFloor | UCeil => True | _ => False end.
(* A literal: an integer written in decimal, or a fraction of two. *)
Definition literal (v : value) : Prop := canonical v.
Fixpoint arith_aexp (e : aexp) : Prop :=
  match e with
  | ELit v => literal v
  | EBin o a b => arith_bop o /\ arith_aexp a /\ arith_aexp b
  | EUn o a => arith_uop o /\ arith_aexp a
  end.
(* Its mathematical value; None when it divides by zero. *)
Definition sem_bop (o : bop) (x y : Q) : option Q :=
  match o with
  | BAdd => Some (x + y)%Q
  | BSub => Some (x - y)%Q
  | BMul => Some (x * y)%Q
  | BQuo => if Qeq_bool y 0 then None else Some (x / y)%Q
  | BMin => Some (if Qle_bool x y then x else y)
  | BMax => Some (if Qle_bool x y then y else x)
  | _ => None
  end.
Definition sem_uop (o : uop) (x : Q) : option Q :=
  match o with
  | UPlus => Some x
  | UNeg => Some (- x)%Q
  | UInv => if Qeq_bool x 0 then None else Some (/ x)%Q
  | UAbs => Some (Qabs x)
  | USgn => Some (inject_Z (Z.sgn (Qnum x)))
  | UFloor => Some (inject_Z (Qfloor x))
  | UCeil => Some (inject_Z (Qceiling x))
  | _ => None
  end.
Fixpoint sem_aexp (e : aexp) : option Q :=
  match e with
  | ELit v => numval v
  | EBin o a b =>
      match sem_aexp a, sem_aexp b with Some x, Some y => sem_bop o x y | _, _ => None end
  | EUn o a => match sem_aexp a with Some x => sem_uop o x | None => None end
  end.

(* Complex numbers with rational parts. *)
Definition cval (v : value) : option (Q * Q) :=
  match v with
  | VCplx a b => match numval a, numval b with Some x, Some y => Some (x, y) | _, _ => None end
  | _ => match numval v with Some x => Some (x, 0%Q) | None => None end
  end.
(* Well formed: exact parts, and the imaginary part is not zero. *)
Definition cvalid (v : value) : Prop :=
  match v with
  | VCplx a b => valid a /\ valid b /\ exists y, numval b = Some y /\ ~ (y == 0)%Q
  | _ => valid v
  end.
(* A complex number is true unless it is zero. *)
Definition c_true (p : Q * Q) : Prop := ~ ((fst p == 0)%Q /\ (snd p == 0)%Q).
Definition ceq (p q : Q * Q) : Prop := (fst p == fst q)%Q /\ (snd p == snd q)%Q.
Definition cgives (r : res value) (p : Q * Q) : Prop :=
  exists v x, r = Ok v /\ cvalid v /\ cval v = Some x /\ ceq x p.
Definition c_bop (o : bop) (x y : Q * Q) : option (Q * Q) :=
  let '(a, b) := x in let '(d, e) := y in
  match o with
  | BAdd => Some (a + d, b + e)%Q
  | BSub => Some (a - d, b - e)%Q
  | BMul => Some (a * d - b * e, a * e + b * d)%Q
  | BQuo => if Qeq_bool d 0 && Qeq_bool e 0 then None
            else Some ((a * d + b * e) / (d * d + e * e), (b * d - a * e) / (d * d + e * e))%Q
  | _ => None
  end.
Definition c_arith (o : bop) : Prop := match o with BAdd | BSub | BMul | BQuo => True | _ => False end.

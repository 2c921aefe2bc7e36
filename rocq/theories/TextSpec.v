(* What is said about numbers as text. *)
From Verif Require Import Value NumModel NumSpec ScanModel TextModel.
Open Scope Z_scope.

(* the bases the commands )base, )ibase and )obase accept *)
Definition legal_base (b : Z) : Prop := b = 0 \/ 2 <= b <= 16.
(* a number in canonical form: an integer, a fraction, or a complex number of these that is
   not real *)
Definition canonical_num (v : value) : Prop :=
  match v with VCplx a b => canonical a /\ canonical b /\ b <> VInt 0 | _ => canonical v end.
(* The value of a string of decimal digits before and after a point. *)
Fixpoint whole (d : text) (acc : Z) : Z := match d with [] => acc | r :: d' => whole d' (10 * acc + (r - 48)) end.
Fixpoint fraction (d : text) : Q := match d with [] => 0 | r :: d' => (inject_Z (r - 48) + fraction d') / 10 end.
Definition digits (d : text) : Prop := Forall (fun r => 48 <= r <= 57) d.

(* The text of a number: digits of the base, a sign, a denominator, an imaginary part. *)
Definition base_digit (base r : Z) : Prop := 48 <= r <= 57 \/ 97 <= r < 97 + (base - 10).
Definition base_digits (base : Z) (d : text) : Prop := d <> [] /\ Forall (base_digit base) d.
Definition unsigned_text (base : Z) (t : text) : Prop :=
  base_digits base t \/ exists a b, base_digits base a /\ base_digits base b /\ t = a ++ [47] ++ b.
Definition real_text (base : Z) (t : text) : Prop :=
  unsigned_text base t \/ exists u, unsigned_text base u /\ t = 45 :: u.
Definition number_text (base : Z) (t : text) : Prop :=
  real_text base t \/ exists a b, real_text base a /\ real_text base b /\ t = a ++ [106] ++ b.
(* No operator has a name that could be a number (the built-in operator j apart). *)
Definition no_digit_operators (c : sctx) : Prop :=
  forall w, all_digits w (ibase c) false = true -> w <> [106] -> w <> [] -> defined c w = false.
(* The next tokens of a scanner. *)
Fixpoint reads (c : sctx) (s : sc) (l : list token) (s' : sc) : Prop :=
  match l with [] => s' = s | t :: l' => exists s1, Next c s = Some (t, s1) /\ reads c s1 l' s' end.
Fixpoint spaced (l : list text) : text :=
  match l with [] => [] | [t] => t | t :: l' => t ++ [32] ++ spaced l' end.
(* A sign here is the sign of a number: nothing it could be subtracted from precedes. *)
Definition sign_ok (c : sctx) (s : sc) : Prop :=
  start s = 0%nat \/
  (let r := nth (start s - 1) (input s) 0 in is_alnum c r = false /\ r <> 41 /\ r <> 93).
(* What may follow a number directly: the end, a space, a newline, a semicolon, a closing
   parenthesis or a bracket. *)
Definition number_end (l : text) : Prop :=
  let r := hd (-1) l in r = -1 \/ r = 32 \/ r = 10 \/ r = 41 \/ r = 59 \/ r = 91 \/ r = 93.
(* Decimal notation: a sign, digits with at most one point, an exponent of ten or of two. *)
Definition sign_text (s : text) (k : Z) : Prop := (s = [] /\ k = 1) \/ (s = [43] /\ k = 1) \/ (s = [45] /\ k = -1).
Definition mantissa_text (m : text) (places : Z) (q : Q) : Prop :=
  exists a f, digits a /\ digits f /\ a ++ f <> [] /\ places = Z.of_nat (length f) /\
    (q = inject_Z (whole a 0) + fraction f)%Q /\ (m = a ++ [46] ++ f \/ m = a /\ f = []).
Definition exponent_text (e : text) (base k : Z) : Prop :=
  e = [] /\ base = 10 /\ k = 0 \/
  exists r s x sg, e = r :: s ++ x /\ ((r = 101 \/ r = 69) /\ base = 10 \/ (r = 112 \/ r = 80) /\ base = 2) /\
    sign_text s sg /\ digits x /\ x <> [] /\ k = sg * whole x 0.
(* Exponents are limited to a million decimal, ten million binary places. *)
Definition exponent_in_range (places base k : Z) : Prop :=
  - 2 ^ 63 <= k < 2 ^ 63 /\
  if base =? 10 then Z.abs (k - places) <= 1000000 else places <= 1000000 /\ Z.abs (k - places) <= 10000000.
Definition decimal_text (t : text) (q : Q) : Prop :=
  exists s sg m places x e base k, t = s ++ m ++ e /\ sign_text s sg /\ mantissa_text m places x /\ exponent_text e base k /\
    exponent_in_range places base k /\ (q = inject_Z sg * x * inject_Z base ^ k)%Q.
(* Integers that are printed digit by digit: all of them in the bases 2, 8, 10 and 16, those
   of less than 32 bits in every base, as long as they have no more digits than )maxdigits
   allows (0: no limit). *)
Definition digits_fit (c : pconf) (z : Z) : Prop := maxdigits c = 0 \/ Z.abs z < 2 ^ (maxdigits c * 33222 / 10000).
Definition printable_int (c : pconf) (z : Z) : Prop :=
  digits_fit c z /\ (- 2 ^ 31 < z < 2 ^ 31 \/ In (obase c) [0; 2; 8; 10; 16]).
Definition printable_real (c : pconf) (v : value) : Prop :=
  match v with VInt _ => True | VBig z => printable_int c z | VRat q => printable_int c (Qnum q) /\ printable_int c (Zpos (Qden q)) | _ => False end.
Definition printable (c : pconf) (v : value) : Prop :=
  match v with VCplx a b => printable_real c a /\ printable_real c b | _ => printable_real c v end.

(* Numbers as text: printing them in the output base and reading a number token. *)
From Coq Require Import String.
From Verif Require Import Value NumModel ScanModel.
Open Scope string_scope.
Open Scope list_scope.
Open Scope Z_scope.

(* strconv.FormatInt, and package fmt with b, o, d, x on a big.Int *)
Definition digit_char (d : Z) : Z := if d <? 10 then 48 + d else 87 + d.
Fixpoint format_digits (fuel : nat) (b n : Z) (acc : text) : text :=
  match fuel with
  | O => acc
  | S f => if n <? b then digit_char n :: acc else format_digits f b (n / b) (digit_char (n mod b) :: acc)
  end.
Definition format_nat (b n : Z) : text := format_digits (S (Z.to_nat (Z.log2 n))) b n [].
Definition format_int (b z : Z) : text := if z <? 0 then 45 :: format_nat b (- z) else format_nat b z.

(* The settings of config/config.go that printing reads, for an empty )format. *)
Record pconf := mkPconf { obase : Z; maxdigits : Z }.
Definition real_base (b : Z) : Z := if b =? 0 then 10 else b.
(* value/int.go:37-51 Int.Sprint *)
Definition print_int (c : pconf) (z : Z) : text := format_int (real_base (obase c)) z.
(* value/bigint.go:44-75 BigInt.Sprint; a number of too many digits is printed as a
   floating-point number, which is not modelled *)
Definition print_big (c : pconf) (z : Z) : res text :=
  let mb := (maxdigits c * 33222) / 10000 in
  if negb (mb =? 0) && (mb <? bitlen z) then Unmod
  else if bitlen z <? intBits then Ok (print_int c z)
  else if obase c =? 0 then Ok (format_int 10 z)
  else if obase c =? 10 then Ok (format_int 10 z)
  else if obase c =? 2 then Ok (format_int 2 z)
  else if obase c =? 8 then Ok (format_int 8 z)
  else if obase c =? 16 then Ok (format_int 16 z)
  else Err.
Definition print_real (c : pconf) (v : value) : res text :=
  match v with
  | VInt z => Ok (print_int c z)
  | VBig z => print_big c z
  (* value/bigrat.go:45-57 BigRat.Sprint *)
  | VRat q => let! n := print_big c (Qnum q) in let! d := print_big c (Zpos (Qden q)) in Ok (n ++ [47] ++ d)
  | _ => Unmod
  end.
(* value/complex.go:45-47 Complex.Sprint *)
Definition print_num (c : pconf) (v : value) : res text :=
  match v with
  | VCplx a b => let! x := print_real c a in let! y := print_real c b in Ok (x ++ [106] ++ y)
  | _ => print_real c v
  end.

(* strconv.ParseUint and big.Int.SetString without the sign: the digits, with underscores in
   base 0 only; the first loop reads, the second checks that underscores separate digits. *)
Definition digit_val (r : Z) : option Z :=
  if between 48 r 57 then Some (r - 48)
  else if between 97 (Z.lor r 32) 122 then Some (Z.lor r 32 - 87) else None.
Fixpoint read_digits (b : Z) (us : bool) (s : text) (acc : Z) : option Z :=
  match s with
  | [] => Some acc
  | r :: s' => if us && (r =? 95) then read_digits b us s' acc
               else match digit_val r with
                    | Some d => if d <? b then read_digits b us s' (acc * b + d) else None
                    | None => None
                    end
  end.
Fixpoint separators_ok (prev : bool) (s : text) : bool :=
  match s with
  | [] => prev
  | r :: s' => if r =? 95 then prev && separators_ok false s' else separators_ok true s'
  end.
(* base 0: the prefixes 0b, 0o, 0x and 0 *)
Definition prefix (s : text) : Z * text * bool :=
  match s with
  | 48 :: x :: y :: s' =>
    let l := Z.lor x 32 in
    if l =? 98 then (2, y :: s', true) else if l =? 111 then (8, y :: s', true) else if l =? 120 then (16, y :: s', true) else (8, x :: y :: s', true)
  | 48 :: s' => (8, s', true)
  | _ => (10, s, false)
  end.
Definition read_unsigned (base : Z) (s : text) : option Z :=
  match s with
  | [] => None
  | _ => if base =? 0 then let '(b, d, p) := prefix s in if separators_ok p d then read_digits b true d 0 else None
         else read_digits base false s 0
  end.
Definition read_int (base : Z) (s : text) : option Z :=
  match s with
  | 43 :: s' => read_unsigned base s'
  | 45 :: s' => option_map Z.opp (read_unsigned base s')
  | _ => read_unsigned base s
  end.
(* value/bigrat.go:22-35 setBigRatFromFloatString: big.Rat.SetString of a number with a point or
   an exponent.  Mantissas with a prefix or underscores are not modelled. *)
Fixpoint take_digits (s : text) : text * text :=
  match s with
  | r :: s' => if between 48 r 57 then let '(a, b) := take_digits s' in (r :: a, b) else ([], s)
  | [] => ([], [])
  end.
Definition decimal (d : text) : Z := fold_left (fun a r => a * 10 + (r - 48)) d 0.
(* the exponent: none, or e, E, p, P, a sign, and digits to the end *)
Definition read_exponent (s : text) : option (bool * Z) :=
  match s with
  | [] => Some (false, 0)
  | r :: s1 =>
    if mem r (zs "eEpP") then
      let two := (Z.lor r 32 =? 112) in
      let '(neg, s2) := match s1 with 43 :: t => (false, t) | 45 :: t => (true, t) | _ => (false, s1) end in
      let '(d, s3) := take_digits s2 in
      match d, s3 with [], _ => None | _, _ :: _ => None | _, [] => Some (two, if neg then - decimal d else decimal d) end
    else None
  end.
Definition qpow (b : Z) (n : Z) : Q := if n <? 0 then (1 # Z.to_pos (b ^ (- n))) else inject_Z (b ^ n).
Definition has_prefix (s : text) : bool :=
  match s with 48 :: x :: _ => mem x (zs "xXoObB") | _ => false end.
Definition parse_float (s : text) : res value :=
  let '(neg, s1) := match s with 43 :: t => (false, t) | 45 :: t => (true, t) | _ => (false, s) end in
  if existsb (fun r => r =? 95) s1 || has_prefix s1 then Unmod
  else
    let '(a, s2) := take_digits s1 in
    let '(f, s3) := match s2 with 46 :: t => take_digits t | _ => ([], s2) end in
    match a ++ f with
    | [] => Err
    | d =>
      match read_exponent s3 with
      | None => Err
      | Some (two, e) =>
        let m := decimal d in
        let exp5 := (if two then 0 else e) - Z.of_nat (length f) in
        let exp2 := e - Z.of_nat (length f) in
        if negb ((- 2 ^ 63 <=? e) && (e <? 2 ^ 63)) then Err
        else if m =? 0 then Ok (VInt 0)
        else if (1000000 <? Z.abs exp5) || (10000000 <? Z.abs exp2) then Err
        else Ok (shrink_rat (Qred (inject_Z (if neg then - m else m) * qpow 5 exp5 * qpow 2 exp2)))
      end
    end.
(* value/value.go:109-123: setIntString (int.go:28-31), setBigIntString (bigint.go:32-38),
   setBigRatFromFloatString *)
Definition parse_int (base : Z) (s : text) : res value :=
  match read_int base s with
  | Some z => if (- 2 ^ 31 <=? z) && (z <? 2 ^ 31) then Ok (VInt z) else Ok (shrink_big z)
  | None => if existsb (fun r => mem r (zs ".eEpP")) s then parse_float s else Err
  end.
(* strings.Split(s, sep): the parts, when there are exactly two *)
Fixpoint cut (sep : Z) (s : text) : option (text * text) :=
  match s with
  | [] => None
  | r :: s' => if r =? sep then Some ([], s') else match cut sep s' with Some (a, b) => Some (r :: a, b) | None => None end
  end.
(* value/value.go:58-85 parseTwo: two parts, neither empty *)
Definition two_parts (sep : Z) (s : text) : res (text * text) :=
  match cut sep s with
  | Some (a, b) => if mem sep b then Err else match a, b with [], _ | _, [] => Err | _, _ => Ok (a, b) end
  | None => Err
  end.
Definition to_rat (v : value) : res Q := match v with VInt z | VBig z => Ok (inject_Z z) | VRat q => Ok q | _ => Err end.
(* value/value.go:87-125 Parse without 'j' *)
Definition parse_real (base : Z) (s : text) : res value :=
  if mem 47 s then
    let! p := two_parts 47 s in
    let! v1 := parse_int base (fst p) in
    let! v2 := parse_int base (snd p) in
    match v1, v2 with
    | VInt x, VInt y => if y =? 0 then Err else Ok (shrink_rat (set_frac x y))
    | _, _ => let! y := to_rat v2 in
              if Qnum y =? 0 then Err else let! x := to_rat v1 in Ok (shrink_rat (Qred (x / y)))
    end
  else parse_int base s.
Definition parse_num (base : Z) (s : text) : res value :=
  if mem 106 s then
    let! p := two_parts 106 s in
    let! v1 := parse_real base (fst p) in
    let! v2 := parse_real base (snd p) in
    let! w := new_cplx v1 v2 in Ok (shrink_cplx (fst w) (snd w))
  else parse_real base s.
(* value/vector.go:113-131 Sprint with 156-174 oneLineSprint, for a vector of numbers *)
Fixpoint print_numbers (c : pconf) (l : list value) : res text :=
  match l with
  | [] => Ok []
  | [v] => print_num c v
  | v :: l' => let! x := print_num c v in let! y := print_numbers c l' in Ok (x ++ [32] ++ y)
  end.

(* Binary text: value/format.go, with the part of package fmt that it uses, and value/matrix.go:165-197.
   Executable; no proofs.

   A format is a text of characters below 128.  Package fmt, and the Format methods of *big.Int and *big.Float, are
   modelled by their documentation, for one operand: literal text, %%, and one directive with the flags - + 0,
   a width and a precision, and the verbs d, f and (for a string) s and v.  Other directives, and one of which
   format.go mistakes the verb, give Unmod. *)
From Coq Require Import QArith Qabs.
From Verif Require Import Value ScanModel TextModel FloatModel TimeModel NumModel MixModel.
Open Scope list_scope.
Open Scope Z_scope.

(* ---- the verb, format.go:110-145 ---- *)
Definition modifier (r : Z) : bool := existsb (Z.eqb r) [43; 45; 35; 32; 48; 46; 49; 50; 51; 52; 53; 54; 55; 56; 57].
(* b c d e E f F g G o O q s t T U v x X *)
Definition is_verb (r : Z) : bool := existsb (Z.eqb r) [98; 99; 100; 101; 69; 102; 70; 103; 71; 111; 79; 113; 115; 116; 84; 85; 118; 120; 88].
Fixpoint index_byte (b : Z) (s : text) : option nat :=
  match s with [] => None | r :: s' => if r =? b then Some O else match index_byte b s' with Some n => Some (S n) | None => None end end.
Fixpoint skip_modifiers (s : text) : nat := match s with r :: s' => if modifier r then S (skip_modifiers s') else O | [] => O end.
(* 119-145 verbIndex: after %% the index is that in the rest of the text, as in the code *)
Fixpoint verb_index_fuel (fuel : nat) (format : text) : res nat :=
  match fuel with
  | O => Err
  | S fuel =>
    match index_byte 37 format with
    | None => Err
    | Some percent =>
      let s := skipn (percent + 1) format in
      let i := skip_modifiers s in
      match nth_error s i with
      | Some r => if r =? 37 then verb_index_fuel fuel (skipn (i + 1) s)
                  else if is_verb r then Ok (percent + 1 + i)%nat else Err
      | None => Err
      end
    end
  end.
Definition verb_index (format : text) : res nat := verb_index_fuel (S (length format)) format.
(* 110-115 verbOf; an index beyond the end would panic *)
Definition verb_of (format : text) : res Z := let! i := verb_index format in match nth_error format i with Some r => Ok r | None => Crash end.

(* ---- package fmt ---- *)
Record directive := mkDir { minus : bool; plus : bool; zero : bool; wid : option Z; prec : option Z; verb : Z }.
Inductive outcome := Out (pre : text) (d : directive) (post : text).
(* literal text with %%: None at a directive *)
Fixpoint literal (s : text) : option text :=
  match s with
  | [] => Some []
  | 37 :: 37 :: s' => match literal s' with Some t => Some (37 :: t) | None => None end
  | 37 :: _ => None
  | r :: s' => match literal s' with Some t => Some (r :: t) | None => None end
  end.
Fixpoint flags (s : text) (d : directive) : option (directive * text) :=
  match s with
  | 45 :: s' => flags s' (mkDir true (plus d) (zero d) None None 0)
  | 43 :: s' => flags s' (mkDir (minus d) true (zero d) None None 0)
  | 48 :: s' => flags s' (mkDir (minus d) (plus d) true None None 0)
  | 35 :: _ | 32 :: _ => None
  | _ => Some (d, s)
  end.
(* parsenum: digits, at least one *)
Definition parsenum (s : text) : option Z * text :=
  let (n, rest) := take_digits s in (match n with [] => None | _ => Some (decimal n) end, rest).
Definition directive_of (s : text) : res (directive * text) :=
  match flags s (mkDir false false false None None 0) with
  | None => Unmod
  | Some (d, s) =>
    let (w, s) := parsenum s in
    let '(p, s) := match s with
                   | 46 :: s' => let (n, s') := parsenum s' in (Some (match n with Some z => z | None => 0 end), s')
                   | _ => (None, s)
                   end in
    match s with
    | v :: s' => Ok (mkDir (minus d) (plus d) (zero d) w p v, s')
    | [] => Err
    end
  end.
Fixpoint parse_format (s : text) : res outcome :=
  match s with
  | [] => Unmod
  | 37 :: 37 :: s' => let! o := parse_format s' in match o with Out pre d post => Ok (Out (37 :: pre) d post) end
  | 37 :: s' => let! ds := directive_of s' in
                match literal (snd ds) with Some post => Ok (Out [] (fst ds) post) | None => Unmod end
  | r :: s' => let! o := parse_format s' in match o with Out pre d post => Ok (Out (r :: pre) d post) end
  end.
Definition spaces (n : Z) : text := repeat 32 (Z.to_nat n).
Definition zeros (n : Z) : text := repeat 48 (Z.to_nat n).
(* A number in its field: sign and digits *)
Definition field (d : directive) (neg : bool) (t : text) : text :=
  let sign := if neg then [45] else if plus d then [43] else [] in
  let n := match wid d with Some w => w - Z.of_nat (length sign + length t) | None => 0 end in
  if minus d then sign ++ t ++ spaces n
  else if zero d then sign ++ zeros n ++ t
  else spaces n ++ sign ++ t.
(* %d *)
Definition fmt_d (d : directive) (z : Z) : res text :=
  match prec d with Some _ => Unmod | None => Ok (field d (z <? 0) (format_nat 10 (Z.abs z))) end.
(* %f of a big.Float: exactly rounded, halves to even; six decimals if there is no precision.  Of - and 0, 0 wins
   (Float.Format): Unmod. *)
Definition pad_left (n : Z) (t : text) : text := zeros (n - Z.of_nat (length t)) ++ t.
Definition decimals (n : Z) (q : Q) : text :=
  let m := rne (q * inject_Z (10 ^ n)) in
  format_nat 10 (m / 10 ^ n) ++ (if 0 <? n then 46 :: pad_left n (format_nat 10 (m mod 10 ^ n)) else []).
Definition fmt_f (d : directive) (q : Q) : res text :=
  if minus d && zero d then Unmod else
  Ok (field d (Qnum q <? 0) (decimals (match prec d with Some p => p | None => 6 end) (Qabs q))).
(* %s and %v of a string *)
Definition fmt_s (d : directive) (t : text) : res text :=
  if zero d || plus d then Unmod else
  let t := match prec d with Some p => firstn (Z.to_nat p) t | None => t end in
  let n := match wid d with Some w => w - Z.of_nat (length t) | None => 0 end in
  Ok (if minus d then t ++ spaces n else spaces n ++ t).

(* Fprintf of one operand *)
Definition around (o : outcome) (k : directive -> res text) : res text :=
  match o with Out pre d post => let! t := k d in Ok (pre ++ t ++ post) end.

Section Conf.
(* )prec *)
Variable P : Z.

(* newFloat and SetInt64, SetInt, SetRat: format.go:229-245 *)
Definition to_float (v : num) : res Q :=
  match v with
  | Ex (VInt z) | Ex (VBig z) | Ex (VChar z) => Ok (rnd P (inject_Z z))
  | Ex (VRat q) => Ok (rnd P q)
  | Fl _ q => Ok q
  | _ => Unmod
  end.
(* format.go:150-256 formatOne: the verbs d (199-227) and f (228-252); the verb prepared for must be the one that fmt
   finds, or the result is outside the model *)
Definition format_one (format : text) (vb : Z) (v : num) : res text :=
  let! o := parse_format format in
  let v_fmt := match o with Out _ d _ => verb d end in
  if negb (v_fmt =? vb) then Unmod
  else if vb =? 100 then
    match v with
    | Ex (VInt z) | Ex (VBig z) | Ex (VChar z) => around o (fun d => fmt_d d z)
    | Ex (VRat q) => let! a := around o (fun d => fmt_d d (Qnum q)) in
                     let! b := around o (fun d => fmt_d d (Zpos (Qden q))) in Ok (a ++ 47 :: b)
    | Fl _ q => around o (fun d => fmt_d d (trunc q))
    | _ => Unmod
    end
  else if vb =? 102 then let! q := to_float v in around o (fun d => fmt_f d q)
  else Unmod.

(* ---- the format, format.go:61-108 ---- *)
Definition is_char (v : num) : option Z := match v with Ex (VChar r) => Some r | _ => None end.
Definition is_int_num (v : num) : option Z := match v with Ex (VInt z) => Some z | _ => None end.
Definition all_chars (l : list num) : bool := forallb (fun v => match is_char v with Some _ => true | None => false end) l.
Definition chars_of (l : list num) : text := flat_map (fun v => match is_char v with Some r => [r] | None => [] end) l.
Inductive arg := AScalar (v : num) | AVector (l : list num) | AMatrix (shape : list nat) (l : list num).
(* the empty format is an illegal one: fmtText 29-31 *)
Definition format_string (u : arg) : res (text * Z) :=
  match u with
  | AScalar (Ex (VInt z)) => Ok ([37; 46] ++ format_int 10 z ++ [102], 102)
  | AScalar (Ex (VChar r)) => let! v := verb_of [37; r] in Ok ([37; r], v)
  | AVector l =>
    if all_chars l then
      let s := chars_of l in
      let s := if existsb (Z.eqb 37) s then s else 37 :: s in
      let! v := verb_of s in Ok (s, v)
    else
      match l with
      | [a] => match is_int_num a with Some d => Ok ([37; 46] ++ format_int 10 d ++ [102], 102) | None => Err end
      | [a; b] => match is_int_num a, is_int_num b with
                  | Some w, Some d => Ok ([37] ++ format_int 10 w ++ [46] ++ format_int 10 d ++ [102], 102)
                  | _, _ => Err
                  end
      | [a; b; c] => match is_char c with
                     | Some r => let r := Z.lor r 32 in
                                 if (r =? 101) || (r =? 102) || (r =? 103) then
                                   match is_int_num a, is_int_num b with
                                   | Some w, Some d => Ok ([37] ++ format_int 10 w ++ [46] ++ format_int 10 d ++ [r], r)
                                   | _, _ => Err
                                   end
                                 else Err
                     | None => Err
                     end
      | _ => Err
      end
  | _ => Err
  end.

(* ---- arrays ---- *)
(* format.go:43-48 *)
Fixpoint join_space (l : list text) : text := match l with [] => [] | [x] => x | x :: l' => x ++ 32 :: join_space l' end.
(* matrix.go:178-194: the counters, innermost first: how many of them overflow *)
Fixpoint bump (sh cs : list nat) : nat * list nat :=
  match sh, cs with
  | n :: sh', k :: cs' => if (S k <? n)%nat then (O, S k :: cs') else let (j, cs'') := bump sh' cs' in (S j, O :: cs'')
  | _, _ => (O, [])
  end.
(* matrix.go:172-196 the loop of fprintf over the elements, formatted *)
Fixpoint lay (sh cs : list nat) (sp : bool) (l : list text) : text :=
  match l with
  | [] => []
  | x :: l' => (if sp then [32] else []) ++ x ++
               let (j, cs') := bump sh cs in
               match l' with [] => [] | _ => repeat 10 j ++ lay sh cs' (j =? 0)%nat l' end
  end.
Definition lay_matrix (shape : list nat) (l : list text) : text := lay (rev shape) (repeat O (length shape)) false l.
Fixpoint format_all (format : text) (vb : Z) (l : list num) : res (list text) :=
  match l with [] => Ok [] | v :: l' => let! t := format_one format vb v in let! ts := format_all format vb l' in Ok (t :: ts) end.
(* b o O q s v x X *)
Definition string_verb (r : Z) : bool := existsb (Z.eqb r) [98; 111; 79; 113; 115; 118; 120; 88].
(* format.go:27-59 fmtText *)
Definition fmt_text (u v : arg) : res text :=
  let! fv := format_string u in
  let (format, vb) := (fv : text * Z) in
  match v with
  | AScalar x => format_one format vb x
  | AVector l => if all_chars l && string_verb vb then
                   let! o := parse_format format in
                   if (vb =? 115) || (vb =? 118) then around o (fun d => if verb d =? vb then fmt_s d (chars_of l) else Unmod) else Unmod
                 else let! ts := format_all format vb l in Ok (join_space ts)
  | AMatrix shape l => match shape, l with
                       | [], _ | _, [] => Ok []                             (* matrix.go:165-168 *)
                       | _, _ => let! ts := format_all format vb l in Ok (lay_matrix shape ts)
                       end
  end.

End Conf.

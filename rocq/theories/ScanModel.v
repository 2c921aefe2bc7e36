(* Model of the scanner: scan/scan.go.  Executable; no proofs.

   Text is a list of code points: invalid UTF-8 is outside the model, and positions count
   code points instead of bytes (so every width is 1, and 0 at the end of the input).
   The reader's whole text is pending; the debugging output and line numbers are left out.
   readOK is always true (it is never set to false in scan.go). *)
From Coq Require Import String Ascii.
From Verif Require Import Value.
Open Scope string_scope.
Open Scope list_scope.
Open Scope Z_scope.

Definition text := list Z.
Fixpoint zs (s : string) : text := match s with EmptyString => [] | String a r => Z.of_nat (nat_of_ascii a) :: zs r end.
Definition mem (r : Z) (s : text) : bool := existsb (Z.eqb r) s.                (* strings.ContainsRune *)
Fixpoint teq (a b : text) : bool :=
  match a, b with [], [] => true | x :: a', y :: b' => (x =? y) && teq a' b' | _, _ => false end.

(* scan.go:26-52; Rational and Complex are never emitted *)
Inductive ttype := TEof | TErr | TNewline | TAssign | TChar | TIdent | TLBrack | TLParen | TNumber
  | TOperator | TOp | TOpDelete | TRBrack | TRParen | TSemi | TString | TColon.
Record token := mkTok { t_type : ttype; t_text : text }.

(* What the scanner asks its context (scan.go:761-764, exec/context.go:179-184,
   exec/operator.go:15-36) and the unicode package (for code points above 127). *)
Record sctx := mkSctx {
  ibase : Z;
  binary_op : text -> bool;                    (* value.BinaryOps[w] != nil *)
  predefined : text -> bool;                   (* exec.Predefined *)
  user_unary : text -> bool; user_binary : text -> bool;
  u_letter : Z -> bool; u_digit : Z -> bool; u_punct : Z -> bool; u_symbol : Z -> bool }.

Definition eof : Z := -1.
Definition nl : Z := 10.
Definition at_sign : Z := 64.
Definition dot : Z := 46.
Definition between (a r b : Z) : bool := (a <=? r) && (r <=? b).

(* scan.go:71-85 Scanner: buf, name, line, token are left out *)
Record sc := mkSc { input : text; pending : text; fin : bool; pos : nat; start : nat; last : Z; width : nat }.
Definition set_pos (s : sc) (p : nat) : sc := mkSc (input s) (pending s) (fin s) p (start s) (last s) (width s).

(* scan.go:87-113 loadLine *)
Fixpoint take_line (l : text) : text * text * bool :=
  match l with
  | [] => ([], [], true)
  | c :: l' => if c =? nl then ([c], l', false)
               else let '(b, r, d) := take_line l' in (if c =? 13 then b else c :: b, r, d)
  end.
Definition load_line (s : sc) : sc :=
  let '(b, r, d) := take_line (pending s) in
  if Nat.eqb (start s) (pos s) then mkSc b r (fin s || d) 0 0 (last s) (width s)
  else mkSc (input s ++ b) r (fin s || d) (pos s) (start s) (last s) (width s).
(* scan.go:115-128 readRune: rune, width, scanner *)
Definition read_rune (s : sc) : Z * nat * sc :=
  let s1 := if negb (fin s) && Nat.eqb (pos s) (length (input s)) then load_line s else s in
  if Nat.eqb (length (input s1)) (pos s1) then (eof, 0%nat, s1) else (List.nth (pos s1) (input s1) 0, 1%nat, s1).
(* scan.go:130-135 *)
Definition next (s : sc) : Z * sc :=
  let '(r, w, s1) := read_rune s in (r, mkSc (input s1) (pending s1) (fin s1) (pos s1 + w) (start s1) r w).
(* scan.go:137-141 *)
Definition peek (s : sc) : Z * sc := let '(r, _, s1) := read_rune s in (r, s1).
(* scan.go:143-158: position and width are restored, the last rune is not *)
Definition peek2 (s : sc) : Z * Z * sc :=
  let '(r1, s1) := next s in
  let '(r2, s2) := if r1 =? nl then (r1, s1) else next s1 in
  (r1, r2, mkSc (input s2) (pending s2) (fin s2) (pos s) (start s2) (last s2) (width s)).
(* scan.go:160-171; errorf (204-211) empties the input *)
Definition wipe (s : sc) : sc := mkSc [] (pending s) (fin s) 0 0 (last s) (width s).
Definition backup (s : sc) : sc :=
  if last s =? eof then s
  else if Nat.eqb (pos s) (start s) then wipe s
  else if Nat.ltb (start s) (pos s) then set_pos s (pos s - width s) else s.

(* length of the current token *)
Definition off (s : sc) : nat := (pos s - start s)%nat.

(* What a state function returns: a token has been emitted, an error reported, the end
   reached, or lexAny is to go on; OutOfFuel only when the model's loops ran out. *)
Inductive lexed := Emit (t : ttype) (s : sc) | LErr (s : sc) | LEof (s : sc) | Again (s : sc) | OutOfFuel.
(* upper bound for the length of a run *)
Definition room (s : sc) : nat := (length (input s) - pos s + length (pending s))%nat.
Definition slice (s : sc) (a b : nat) : text := firstn (b - a) (skipn a (input s)).
Definition tok_text (s : sc) : text := slice s (start s) (pos s).

(* scan.go:188-195 *)
Definition accept (valid : text) (s : sc) : bool * sc :=
  let '(r, s1) := next s in if mem r valid then (true, s1) else (false, backup s1).
(* scan.go:197-202 and the loops of that shape *)
Fixpoint next_while (P : Z -> bool) (n : nat) (s : sc) : option sc :=
  match n with
  | O => None
  | S m => let '(r, s1) := next s in if P r then next_while P m s1 else Some (backup s1)
  end.
(* for P(l.peek()) { l.next() } *)
Fixpoint peek_while (P : Z -> bool) (n : nat) (s : sc) : option sc :=
  match n with
  | O => None
  | S m => let '(r, s1) := peek s in if P r then peek_while P m (snd (next s1)) else Some s1
  end.
Definition accept_run (valid : text) (s : sc) : option sc := next_while (fun r => mem r valid) (S (room s)) s.
Definition skip_while (P : Z -> bool) (s : sc) : option sc := peek_while P (S (room s)) s.
(* if l.peek() == c { l.next() } *)
Definition opt_next (c : Z) (s : sc) : bool * sc :=
  let '(r, s1) := peek s in if r =? c then (true, snd (next s1)) else (false, s1).

(* scan.go:622-630, 656-659 *)
Definition is_space (r : Z) : bool := (r =? 32) || (r =? 9).
Definition is_eol (r : Z) : bool := (r =? nl) || (r =? 59).
Definition is_digit (r : Z) : bool := between 48 r 57.
Definition ascii_letter (r : Z) : bool := between 65 r 90 || between 97 r 122.

Section Ctx.
Variable c : sctx.
(* unicode.IsLetter, IsDigit, IsPunct, IsSymbol *)
Definition letter (r : Z) : bool := if r <? 128 then ascii_letter r else u_letter c r.
Definition digit (r : Z) : bool := if r <? 128 then is_digit r else u_digit c r.
Definition punct (r : Z) : bool := if r <? 128 then mem r (zs "!#%&'()*,-./:;?@[\]_{}" ++ [34]) else u_punct c r.
Definition symbol (r : Z) : bool := if r <? 128 then mem r (zs "$+<=>^`|~") else u_symbol c r.
(* scan.go:651-654 *)
Definition is_alnum (r : Z) : bool := (r =? 95) || letter r || digit r.
(* scan.go:632-649 isIdentifier *)
Fixpoint ident_rest (s : text) : bool :=
  match s with [] => true | r :: s' => (digit r || (r =? 95) || letter r) && ident_rest s' end.
Definition is_identifier (s : text) : bool :=
  if teq s [95] then false
  else match s with [] => true | r :: s' => negb (digit r) && ((r =? 95) || letter r) && ident_rest s' end.
(* scan.go:661-681 isNumeral: note that the bounds include 'a' + (base - 10) *)
Definition is_numeral (r : Z) : bool :=
  if between 48 r 57 then true
  else if ibase c <? 10 then false
  else between 97 r (97 + (ibase c - 10)) || between 65 r (65 + (ibase c - 10)).
(* scan.go:683-706 isAllDigits *)
Fixpoint all_digits (s : text) (base : Z) (saw_j : bool) : bool :=
  match s with
  | [] => true
  | r :: s' =>
    if (r =? 106) && negb saw_j then all_digits s' base true
    else if between 48 r 57 || between 97 r (97 + (base - 10) - 1) || between 65 r (65 + (base - 10) - 1) then all_digits s' base saw_j
    else false
  end.
Definition defined (w : text) : bool := predefined c w || user_binary c w.       (* scan.go:761-764 *)
(* scan.go:558-587 digitsForBase *)
Definition digits_for (base : Z) : text :=
  let b := if base =? 0 then 10 else base in
  let decimal := zs "_0123456789" in
  if b <=? 10 then decimal
  else decimal ++ firstn (Z.to_nat (1 + b - 10)) (zs "_abcdefghijklmnopqrstuvwxyz") ++ firstn (Z.to_nat (1 + b - 10)) (zs "_ABCDEFGHIJKLMNOPQRSTUVWXYZ").

(* scan.go:726-759 isOperatorToken *)
Definition is_operator_token (r : Z) (s : sc) : bool * sc :=
  if mem r (zs "?+-/&|^") then (true, s)
  else if r =? 44 then (true, snd (opt_next 37 s))                               (* , ,% *)
  else if (r =? 33) || (r =? 61) then                                            (* ! != !== = == === *)
    (true, let '(b, s1) := opt_next 61 s in if b then snd (opt_next 61 s1) else s1)
  else if r =? 62 then (true, let '(b, s1) := opt_next 62 s in if b then s1 else snd (opt_next 61 s1))
  else if r =? 60 then (true, let '(b, s1) := opt_next 60 s in if b then s1 else snd (opt_next 61 s1))
  else if r =? 42 then (true, snd (opt_next 42 s))
  else (false, s).
(* scan.go:708-724 isOperator: first skip further @'s, counting *)
Fixpoint skip_ats (n : nat) (r : Z) (k : nat) (s : sc) : option (Z * nat * sc) :=
  match n with
  | O => None
  | S m => if r =? at_sign then let '(r', s1) := next s in skip_ats m r' (S k) s1 else Some (r, k, s)
  end.
Definition is_operator (r : Z) (s : sc) : option (bool * sc) :=
  match skip_ats (S (S (room s))) r 0 s with
  | None => None
  | Some (r', k, s1) =>
    let '(b, s2) := is_operator_token r' s1 in
    if b then match skip_while (Z.eqb at_sign) s2 with Some s3 => Some (true, s3) | None => None end
    else Some (false, set_pos s2 (pos s2 - k))
  end.

(* scan.go:429-444 atTerminator *)
Definition at_terminator (s : sc) : bool * sc :=
  let '(r, s1) := peek s in
  if (r =? eof) || is_space r || is_eol r || punct r || symbol r then (true, s1)
  else if Nat.ltb (pos s1) (length (input s1)) then
    let '(r1, r2, s2) := peek2 s1 in ((r1 =? 111) && (r2 =? dot), s2)
  else (false, s1).

(* strings.Trim(word, "@") *)
Fixpoint trim_ats (s : text) : text := match s with r :: s' => if r =? at_sign then trim_ats s' else s | [] => [] end.
Definition trim (s : text) : text := rev (trim_ats (rev (trim_ats s))).

(* scan.go:378-427 lexOperator *)
Definition lex_operator_end (s : sc) : lexed := if is_identifier (tok_text s) then Emit TIdent s else Emit TOperator s.
Definition lex_operator (s0 : sc) : lexed :=
  match skip_while (Z.eqb at_sign) s0 with
  | None => OutOfFuel
  | Some s =>
    let word := tok_text s in
    let w := trim word in
    if teq word (zs "o") || binary_op c w || user_binary c w then
      let '(r, s1) := peek s in
      if (r =? 47) || (r =? 92) then                                             (* / \ *)
        lex_operator_end (snd (opt_next 37 (snd (next s1))))
      else if r =? dot then
        let s2 := snd (next s1) in
        let '(r2, s3) := peek s2 in
        if is_digit r2 then Emit TOperator (backup s3)
        else
          let prev := pos s3 in
          let '(r3, s4) := next s3 in
          let '(b, s5) := is_operator_token r3 s4 in
          if b then lex_operator_end s5
          else if is_alnum r3 then
            match next_while is_alnum (S (room s5)) s5 with
            | None => OutOfFuel
            | Some s6 =>
              let '(t, s7) := at_terminator s6 in
              if negb t then LErr s7
              else if defined (slice s7 prev (pos s7)) then lex_operator_end s7 else LErr s7
            end
          else lex_operator_end s5
      else lex_operator_end s1
    else lex_operator_end s
  end.

(* scan.go:513-556 scanNumber; None when a loop ran out *)
Definition scan_number (slash_ok j_ok : bool) (s0 : sc) : option (bool * sc) :=
  let base := ibase c in
  let '(digits, s) :=
    if base =? 0 then
      let '(z, s1) := accept (zs "0") s0 in
      if z then
        let '(b1, s2) := accept (zs "xX") s1 in if b1 then (digits_for 16, s2) else
        let '(b2, s3) := accept (zs "oO") s2 in if b2 then (digits_for 8, s3) else
        let '(b3, s4) := accept (zs "bB") s3 in if b3 then (digits_for 2, s4) else (digits_for base, s4)
      else (digits_for base, s1)
    else (digits_for base, s0) in
  match accept_run digits s with
  | None => None
  | Some s1 =>
    let '(d, s2) := accept [dot] s1 in
    match (if d then accept_run digits s2 else Some s2) with
    | None => None
    | Some s3 =>
      let '(e, s4) := accept (zs "eEpP") s3 in
      match (if e then accept_run (zs "0123456789") (snd (accept (zs "+-") s4)) else Some s4) with
      | None => None
      | Some s5 =>
        let '(r, s6) := peek s5 in
        if slash_ok && (r =? 47) then Some (true, s6)
        else if j_ok && (r =? 106) then Some (true, s6)
        else if negb (r =? 111) && is_alnum r then Some (false, snd (next s6))
        else if r =? dot then Some (false, snd (next s6))
        else let '(t, s7) := at_terminator s6 in
             if t then Some (true, s7) else Some (false, snd (next s7))
      end
    end
  end.

(* scan.go:461-511 acceptNumber.  NumOk s: a number has been accepted; otherwise what
   lexComplex returns *)
Inductive accepted := NumOk (s : sc) | NumFn (l : lexed).
(* scan.go:485-510: after the sign *)
Definition accept_unsigned (real_part : bool) (s : sc) : accepted :=
  match scan_number true real_part s with
  | None => NumFn OutOfFuel
  | Some (false, s2) => NumFn (LErr s2)
  | Some (true, s2) =>
    let '(r, s3) := peek s2 in
    if negb (r =? 47) then NumOk s3
    else
      let s4 := snd (accept (zs "/") s3) in
      let '(r', s5) := peek s4 in
      if real_part && negb (r' =? dot) && negb (is_numeral r') then NumOk (set_pos s5 (pos s5 - 1))
      else match scan_number false real_part s5 with
           | None => NumFn OutOfFuel
           | Some (false, s6) => NumFn (LErr s6)
           | Some (true, s6) => let '(r'', s7) := peek s6 in if r'' =? dot then NumFn (LErr s7) else NumOk s7
           end
  end.
Definition accept_number (real_part : bool) (s0 : sc) : accepted :=
  let '(sign, s1) := accept (zs "+-") s0 in
  if sign && real_part then
    let '(r, s2) := peek s1 in
    if (r =? 47) || (r =? 92) then
      NumFn (Emit TOperator (snd (opt_next 37 (snd (next s2)))))
    else if negb (r =? dot) && negb (is_numeral r) then NumFn (lex_operator s2)
    else accept_unsigned real_part s2
  else accept_unsigned real_part s1.
(* scan.go:446-459 lexComplex *)
Definition lex_complex (s : sc) : lexed :=
  match accept_number true s with
  | NumFn l => l
  | NumOk s1 =>
    let '(j, s2) := accept (zs "j") s1 in
    if negb j then Emit TNumber s2
    else match accept_number true s2 with
         | NumOk s3 => Emit TNumber s3
         | NumFn OutOfFuel => OutOfFuel
         | NumFn (Emit _ s3) | NumFn (LErr s3) | NumFn (LEof s3) | NumFn (Again s3) => LErr s3
         end
  end.

(* scan.go:333-376 lexIdentifier *)
Definition lex_identifier (s0 : sc) : lexed :=
  match skip_while (Z.eqb at_sign) s0 with
  | None => OutOfFuel
  | Some s1 =>
    let left := (off s1 - off s0)%nat in
    match skip_while is_alnum s1 with
    | None => OutOfFuel
    | Some s2 =>
      let '(t, s3) := at_terminator s2 in
      if negb t then LErr s3
      else match skip_while (Z.eqb at_sign) s3 with
      | None => OutOfFuel
      | Some s4 =>
        let right := (off s4 - off s3)%nat in
        let word := slice s4 (start s4 + left) (pos s4 - right) in
        let '(r, s5) := peek s4 in
        if teq word (zs "op") then Emit TOp s5
        else if teq word (zs "opdelete") then Emit TOpDelete s5
        else if teq word (zs "o") && (r =? dot) then lex_operator s5
        else if defined word then lex_operator s5
        else if teq word [] || negb (Nat.eqb left 0) then LErr s5
        else if all_digits word (ibase c) false then lex_complex (set_pos s5 (start s5))
        else if user_unary c word then Emit TIdent s5
        else Emit TIdent (set_pos s5 (pos s5 - right))
      end
    end
  end.

(* scan.go:589-607 lexQuote: the quote has been read *)
Fixpoint quoted (q : Z) (n : nat) (s : sc) : lexed :=
  match n with
  | O => OutOfFuel
  | S m =>
    let '(r, s1) := next s in
    if r =? 92 then
      let '(r2, s2) := next s1 in
      if negb (r2 =? eof) && negb (r2 =? nl) then quoted q m s2 else LErr s2
    else if (r =? eof) || (r =? nl) then LErr s1
    else if r =? q then Emit TString s1
    else quoted q m s1
  end.
(* scan.go:609-620 lexRawQuote *)
Fixpoint raw_quoted (n : nat) (s : sc) : lexed :=
  match n with
  | O => OutOfFuel
  | S m => let '(r, s1) := next s in
           if r =? eof then LErr s1 else if r =? 96 then Emit TString s1 else raw_quoted m s1
  end.

(* scan.go:253-320 lexAny, with lexComment (241-251) and lexSpace (322-331) *)
Definition lex_any (s : sc) : lexed :=
  let '(r, s1) := next s in
  if r =? eof then LEof s1
  else if r =? nl then Emit TNewline s1
  else if r =? 59 then Emit TSemi s1
  else if r =? 35 then
    match next_while (fun x => negb ((x =? eof) || (x =? nl))) (S (room s1)) s1 with Some s2 => Again s2 | None => OutOfFuel end
  else if is_space r then
    match skip_while is_space s1 with
    | Some s2 => Again (mkSc (input s2) (pending s2) (fin s2) (pos s2) (pos s2) (last s2) (width s2))
    | None => OutOfFuel
    end
  else if (r =? 39) || (r =? 34) then
    let '(q, s2) := next (backup s1) in quoted q (S (room s2)) s2
  else if r =? 96 then raw_quoted (S (room s1)) s1
  else if (r =? 45) || (r =? 43) then
    match start s1 with
    | O => lex_complex (backup s1)
    | S b =>
      let rr := List.nth b (input s1) 0 in
      if is_alnum rr || (rr =? 41) || (rr =? 93) then lex_operator s1
      else let '(r1, r2, s2) := peek2 s1 in
           if (r1 =? dot) && negb (is_numeral r2) then lex_operator s2
           else lex_complex (backup s2)
    end
  else if (r =? dot) || is_digit r then lex_complex (backup s1)
  else if r =? 61 then
    let '(r1, s2) := peek s1 in
    if negb (r1 =? 61) then Emit TAssign s2
    else lex_operator (snd (opt_next 61 (snd (next s2))))
  else match is_operator r s1 with
  | None => OutOfFuel
  | Some (true, s2) => lex_operator s2
  | Some (false, s2) =>
    if is_alnum r || (r =? at_sign) then lex_identifier (backup s2)
    else if r =? 91 then Emit TLBrack s2
    else if r =? 58 then Emit TColon s2
    else if r =? 93 then Emit TRBrack s2
    else if r =? 40 then Emit TLParen s2
    else if r =? 41 then Emit TRParen s2
    else if between 32 r 126 then Emit TChar s2
    else LErr s2
  end.
Fixpoint run_states (n : nat) (s : sc) : option (token * sc) :=
  match n with
  | O => None
  | S m =>
    match lex_any s with
    | Emit t s1 => Some (mkTok t (tok_text s1), mkSc (input s1) (pending s1) (fin s1) (pos s1) (pos s1) (last s1) (width s1))
    | LErr s1 => Some (mkTok TErr [], wipe s1)
    | LEof s1 => Some (mkTok TEof [], s1)
    | Again s1 => run_states m s1
    | OutOfFuel => None
    end
  end.
(* scan.go:213-222 New; 224-237 Next; emit 173-186 *)
Definition new_scanner (t : text) : sc := mkSc [] t false 0 0 0 0.
Definition Next (s : sc) : option (token * sc) :=
  run_states (S (S (room s))) (mkSc (input s) (pending s) (fin s) (pos s) (start s) eof 0).
(* parse.go:184-206 readTokensToNewline outside a definition: the tokens of the next line,
   whether there was one, and the scanner; None inside when an Error token came. *)
Fixpoint read_tokens (n : nat) (acc : list token) (s : sc) : option (option (list token) * bool * sc) :=
  match n with
  | O => None
  | S m =>
    match Next s with
    | None => None
    | Some (t, s1) =>
      match t_type t with
      | TErr => Some (None, true, s1)
      | TNewline => Some (Some (rev acc), true, s1)
      | TEof => Some (Some (rev acc), match acc with [] => false | _ => true end, s1)
      | _ => read_tokens m (t :: acc) s1
      end
    end
  end.
End Ctx.

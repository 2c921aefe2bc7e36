(* Character strings as text: printing them in source form and reading string tokens. *)
From Coq Require Import String.
From Verif Require Import Value NumModel ScanModel.
Open Scope string_scope.
Open Scope list_scope.
Open Scope Z_scope.

(* unicode/utf8.ValidRune *)
Definition valid_rune (r : Z) : bool := between 0 r 0xD7FF || between 0xE000 r 0x10FFFF.
(* %0nx of a number with at most n hexadecimal digits *)
Definition hex_char (d : Z) : Z := if d <? 10 then 48 + d else 87 + d.
Fixpoint hex (n : nat) (z : Z) (acc : text) : text :=
  match n with O => acc | S m => hex m (z / 16) (hex_char (z mod 16) :: acc) end.
(* the escapes with a letter of their own *)
Definition letter_escape (r : Z) : option Z :=
  if r =? 7 then Some 97 else if r =? 8 then Some 98 else if r =? 12 then Some 102 else if r =? 10 then Some 110
  else if r =? 13 then Some 114 else if r =? 9 then Some 116 else if r =? 11 then Some 118 else None.

Section Print.
(* strconv.IsPrint beyond ASCII *)
Variable u_print : Z -> bool.
Definition is_print (r : Z) : bool := if r <? 128 then between 32 r 126 else u_print r.

(* value/expr.go:95-105 charEscape, 107-127 VectorExpr.ProgString: one character *)
Definition prog_char (r : Z) : text :=
  if (r =? 92) || (r =? 39) then [92; r]
  else match letter_escape r with
       | Some e => [92; e]
       | None => if is_print r then [r]
                 else if r <=? 0xFFFF then 92 :: 117 :: hex 4 r [] else 92 :: 85 :: hex 8 r []
       end.
(* value/expr.go:107-127: a vector of characters *)
Definition prog_chars (l : text) : text := 39 :: flat_map prog_char l ++ [39].
(* package strconv, appendEscapedRune *)
Definition escaped (q r : Z) : text :=
  if (r =? q) || (r =? 92) then [92; r]
  else if is_print r then [r]
  else match letter_escape r with
       | Some e => [92; e]
       | None => if (r <? 32) || (r =? 127) then 92 :: 120 :: hex 2 r []
                 else let r' := if valid_rune r then r else 0xFFFD in
                      if r' <? 0x10000 then 92 :: 117 :: hex 4 r' [] else 92 :: 85 :: hex 8 r' []
       end.
(* value/char.go:35-37 Char.ProgString and parse/save.go:163-164: %q of a rune *)
Definition quote_char (r : Z) : text := 39 :: escaped 39 r ++ [39].
(* parse/save.go:188-191: %q of a string *)
Definition quote_string (l : text) : text := 34 :: flat_map (escaped 34) l ++ [34].
End Print.

(* What one step of unquoting yields: a character, or a byte that need not be one. *)
Definition unhex (r : Z) : option Z :=
  if between 48 r 57 then Some (r - 48) else if between 97 r 102 then Some (r - 87) else if between 65 r 70 then Some (r - 55) else None.
Fixpoint read_hex (n : nat) (v : Z) (s : text) : option (Z * text) :=
  match n with
  | O => Some (v, s)
  | S m => match s with
           | r :: s' => match unhex r with Some d => read_hex m (16 * v + d) s' | None => None end
           | [] => None
           end
  end.
Definition octal (r : Z) : option Z := if between 48 r 55 then Some (r - 48) else None.
Inductive unquoted := Rune (r : Z) | Byte (b : Z).
(* strconv.UnquoteChar *)
Definition unquote_char (q : Z) (s : text) : option (unquoted * text) :=
  match s with
  | [] => None
  | r :: s1 =>
    if r =? q then None
    else if negb (r =? 92) then Some (Rune r, s1)
    else match s1 with
    | [] => None
    | c :: s2 =>
      if c =? 97 then Some (Rune 7, s2) else if c =? 98 then Some (Rune 8, s2) else if c =? 102 then Some (Rune 12, s2)
      else if c =? 110 then Some (Rune 10, s2) else if c =? 114 then Some (Rune 13, s2) else if c =? 116 then Some (Rune 9, s2)
      else if c =? 118 then Some (Rune 11, s2)
      else if c =? 120 then match read_hex 2 0 s2 with Some (v, s3) => Some (Byte v, s3) | None => None end
      else if (c =? 117) || (c =? 85) then
        match read_hex (if c =? 117 then 4 else 8) 0 s2 with
        | Some (v, s3) => if valid_rune v then Some (Rune v, s3) else None
        | None => None
        end
      else if between 48 c 55 then
        match s2 with
        | a :: b :: s3 =>
          match octal a, octal b with
          | Some x, Some y => let v := ((c - 48) * 8 + x) * 8 + y in if v <=? 255 then Some (Byte v, s3) else None
          | _, _ => None
          end
        | _ => None
        end
      else if c =? 92 then Some (Rune 92, s2)
      else if (c =? 39) || (c =? 34) then if c =? q then Some (Rune c, s2) else None
      else None
    end
  end.
(* value/char.go:83-129 unquote, the loop; bytes from 128 on are not modelled *)
Fixpoint unquote_loop (n : nat) (q : Z) (s : text) : res text :=
  match s with
  | [] => Ok []
  | _ => match n with
         | O => Unmod
         | S m => match unquote_char q s with
                  | None => Err
                  | Some (Rune r, s') => let! t := unquote_loop m q s' in Ok (r :: t)
                  | Some (Byte b, s') => if b <? 128 then let! t := unquote_loop m q s' in Ok (b :: t) else Unmod
                  end
         end
  end.
(* value/char.go:70-79 ParseString, 81-129 unquote: the token, quotes included *)
Definition parse_string (s : text) : res text :=
  let q := hd 0 s in
  let body := removelast (tl s) in
  if Nat.ltb (length s) 2 then Err
  else if negb (List.last s 0 =? q) then Err
  else if q =? 96 then (if mem 96 body then Err else Ok body)
  else if negb ((q =? 34) || (q =? 39)) then Err
  else if mem 10 body then Err
  else if negb (mem 92 body) && negb (mem q body) then Ok body
  else unquote_loop (length body) q body.
(* parse/parse.go:508-520 evalString, evaluated *)
Definition string_value (s : text) : value :=
  match s with [r] => VChar r | _ => VVec (map VChar s) end.

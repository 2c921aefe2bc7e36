(* The source form of operators as text, and the part of a saved workspace that holds the
   operators: value/expr.go ProgString, exec/function.go, parse/save.go:85-111.
   Executable; no proofs. *)
From Coq Require Import String Ascii.
From Verif Require Import Value NumModel Syntax ExecModel ScanModel TextModel StrModel SaveModel ReadModel.
From Verif Require ParseModel.
Open Scope string_scope.
Open Scope list_scope.
Open Scope Z_scope.

(* The code points of a name, from its UTF-8 form *)
Fixpoint decode (fuel : nat) (l : list Z) : text :=
  match fuel, l with
  | S f, b :: l1 =>
    if b <? 0x80 then b :: decode f l1
    else if b <? 0xE0 then match l1 with b1 :: l2 => ((b - 0xC0) * 64 + (b1 - 0x80)) :: decode f l2 | _ => [] end
    else if b <? 0xF0 then
      match l1 with b1 :: b2 :: l2 => (((b - 0xE0) * 64 + (b1 - 0x80)) * 64 + (b2 - 0x80)) :: decode f l2 | _ => [] end
    else
      match l1 with
      | b1 :: b2 :: b3 :: l2 => ((((b - 0xF0) * 64 + (b1 - 0x80)) * 64 + (b2 - 0x80)) * 64 + (b3 - 0x80)) :: decode f l2
      | _ => []
      end
  | _, _ => []
  end.
Definition text_of (s : string) : text := let b := zs s in decode (length b) b.

Section Source.
Variable u_print : Z -> bool.
(* int.go:53, bigint.go:77, bigrat.go:59, char.go:35 ProgString.  The parts of a complex
   number (complex.go:49-51) are printed with "%s", which puts parentheses around them
   (int.go:33); parts of more than 10000 digits, which are printed in another form, are
   outside.  A vector or a matrix is no constant of a program (vector.go:137: a panic). *)
Definition prog_real (v : value) : text :=
  match v with
  | VInt z | VBig z => format_int 10 z
  | VRat q => format_int 10 (Qnum q) ++ [47] ++ format_int 10 (Zpos (Qden q))
  | _ => []
  end.
Definition prog_value (v : value) : text :=
  match v with
  | VChar r => quote_char u_print r
  | VCplx a b => [40] ++ prog_real a ++ [41; 106; 40] ++ prog_real b ++ [41]
  | _ => prog_real v
  end.
Definition in_parens (b : bool) (t : text) : text := if b then [40] ++ t ++ [41] else t.
(* expr.go:29-31, 43-51, 67, 107-143, 160-180, 215-217 ProgString *)
Fixpoint prog_text (e : expr) : text :=
  match e with
  | EVal v => prog_value v
  | EVar s _ => text_of s
  | EUnary op r => text_of op ++ [32] ++ prog_text r
  | EBinary op l r => in_parens (ParseModel.compound l) (prog_text l) ++ [32] ++ text_of op ++ [32] ++ prog_text r
  | ECond l r => in_parens (ParseModel.compound l) (prog_text l) ++ [32] ++ [58] ++ [32] ++ prog_text r
  | EVector l =>
    match ParseModel.all_chars l with
    | Some cs => prog_chars u_print cs
    | None => with_spaces (map (fun x => in_parens (ParseModel.compound x) (prog_text x)) l)
    end
  | EIndex l idx =>
    in_parens (ParseModel.compound l) (prog_text l) ++ [91] ++
    (fix go (idx : list (option expr)) : text :=
       match idx with
       | [] => []
       | [o] => match o with Some x => prog_text x | None => [] end
       | o :: idx' => match o with Some x => prog_text x | None => [] end ++ [59; 32] ++ go idx'
       end) idx ++ [93]
  end.
(* exec/function.go:28-45 argProgString; the parser makes no other arguments *)
Fixpoint arg_text (e : expr) : text :=
  match e with
  | EVar s _ => text_of s
  | EVector l => [40] ++ with_spaces (map arg_text l) ++ [41]
  | _ => []
  end.
(* exec/function.go:47-67 Function.String *)
Definition func_text (fn : func) : text :=
  zs "op " ++
  match f_left fn with Some e => arg_text e ++ [32] | None => [] end ++
  text_of (f_name fn) ++ [32] ++ arg_text (f_right fn) ++ zs " = " ++
  match f_body fn with
  | Some [e] => prog_text e
  | Some l => flat_map (fun e => [10; 9] ++ prog_text e) l
  | None => []
  end.

(* ---- parse/save.go: the operators ---- *)
(* function.go:178-194 references, 258-292 walk: the operators applied in e, in the order of
   the calls: those of the operands, from right to left, then e's own *)
Fixpoint applied (e : expr) : list (string * bool) :=
  match e with
  | EVal _ | EVar _ _ => []
  | EUnary op r => applied r ++ [(op, false)]
  | EBinary op l r => applied r ++ applied l ++ [(op, true)]
  | ECond l r => applied r ++ applied l ++ [(":", true)]
  | EVector l => (fix go (l : list expr) := match l with [] => [] | x :: l' => go l' ++ applied x end) l
  | EIndex l idx =>
    (fix go (idx : list (option expr)) :=
       match idx with [] => [] | o :: idx' => go idx' ++ match o with Some x => applied x | None => [] end end) idx ++ applied l
  end.
Definition in_defs (x : string * bool) (l : list (string * bool)) : bool := existsb (same_def x) l.
(* function.go:196-209 addReference *)
Definition add_reference (refs : list (string * bool)) (x : string * bool) : list (string * bool) :=
  if in_defs x refs then refs else refs ++ [x].
Definition user_op (st : ctx) (x : string * bool) : bool :=
  ParseModel.names (if snd x then binary st else unary st) (fst x).
Definition references (st : ctx) (body : list expr) : list (string * bool) :=
  fold_left add_reference (filter (user_op st) (flat_map applied body)) [].
(* save.go:95-99 *)
Definition declaration (x : string * bool) : text :=
  (if snd x then zs "op _ " else zs "op ") ++ text_of (fst x) ++ zs " _" ++ [nl].
(* save.go:104-109: a definition of several lines ends in a blank line *)
Definition definition (fn : func) : text :=
  func_text fn ++ (if mem nl (func_text fn) then [nl] else []) ++ [nl].
(* save.go:86-110: printed holds the operators declared or defined so far.  An operator in the
   list of definitions that is in no table is a nil pointer. *)
Fixpoint save_ops (st : ctx) (printed ds : list (string * bool)) : res text :=
  match ds with
  | [] => Ok []
  | d :: ds' =>
    match find (if snd d then binary st else unary st) (fst d) with
    | None => Crash
    | Some fn =>
      let missing := filter (fun x => negb (in_defs x printed)) (references st (match f_body fn with Some b => b | None => [] end)) in
      let! t := save_ops st (printed ++ missing ++ [d]) ds' in
      Ok (flat_map declaration missing ++ definition fn ++ t)
    end
  end.
End Source.

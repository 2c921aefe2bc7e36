(* What is said about the source form of operators: the spellings the scanner takes as one
   operator, and the expressions whose names and constants have readable spellings. *)
From Coq Require Import String.
From Verif Require Import Value NumModel NumSpec Syntax ExecModel ScanModel ScanSpec TextModel TextSpec StrModel StrSpec ReadModel SaveModel SourceModel.
From Verif Require ParseModel ParseSpec.
Open Scope string_scope.
Open Scope list_scope.
Open Scope Z_scope.

(* The operators spelled with symbols. *)
Definition symbols : list text :=
  map zs ["?"; "+"; "-"; "/"; "&"; "|"; "^"; ","; ",%"; "!"; "!="; "!=="; "=="; "==="; ">"; ">>"; ">="; "<"; "<<"; "<="; "*"; "**"].
(* A word: letters, digits and underscores, the first no digit. *)
Definition spelled (c : sctx) (w : text) : Prop :=
  w <> [] /\ Forall (fun r => is_alnum c r = true) w /\ is_digit (hd 0 w) = false /\ w <> zs "op" /\ w <> zs "opdelete".
(* What may follow the name of a binary operator f: f/ f/% f\ f\% and f.g *)
Definition reducing : list text := map zs ["/"; "/%"; "\"; "\%"].
Definition inner (c : sctx) (x : text) : Prop :=
  exists s, x = 46 :: s /\ (In s symbols \/ spelled c s /\ defined c s = true).
Definition suffix (c : sctx) (x : text) : Prop := x = [] \/ In x reducing \/ inner c x.
Definition binary_name (c : sctx) (s : text) : Prop := binary_op c s = true \/ user_binary c s = true.
(* The spellings of operators, with the kind of token each is. *)
Inductive operator_text (c : sctx) : text -> ttype -> Prop :=
| ot_symbol m s n x : In s symbols -> suffix c x -> (x <> [] -> binary_name c s) -> operator_text c (ats m ++ s ++ ats n ++ x) TOperator
| ot_word m s n x : spelled c s -> defined c s = true -> suffix c x -> (x <> [] -> binary_name c s) ->
    operator_text c (ats m ++ s ++ ats n ++ x) (if is_identifier c (ats m ++ s ++ ats n ++ x) then TIdent else TOperator)
| ot_outer x : inner c x -> operator_text c (zs "o" ++ x) TOperator
| ot_user s n : spelled c s -> defined c s = false -> all_digits s (ibase c) false = false -> (n <> 0%nat -> user_unary c s = true) -> operator_text c (s ++ ats n) TIdent.
(* +.f and -.f, which begin like a number when nothing is before them on the line *)
Definition sign_dot (w : text) : Prop := (hd 0 w = 43 \/ hd 0 w = 45) /\ nth 1 w 0 = 46.
(* The kind of token a spelling is; the token the parser sees of an operator's name. *)
Definition op_kind (c : sctx) (w : text) : ttype :=
  if is_identifier c w || forallb (fun r => is_alnum c r || (r =? at_sign)) w && negb (defined c (trim w)) then TIdent else TOperator.
Definition op_token (c : sctx) (s : string) : ParseModel.token := parser_token (ibase c) (mkTok (op_kind c (text_of s)) (text_of s)).

(* The string s is the UTF-8 form of its spelling. *)
Definition named (s : string) : Prop := name_of (text_of s) = s.
Definition op_named (c : sctx) (s : string) : Prop := named s /\ exists ty, operator_text c (text_of s) ty.
(* The constants of a program: a real number in lowest terms and of the smallest kind, or a
   character. *)
Definition constant (v : value) : Prop := match v with VChar r => code_point r | _ => canonical v end.
(* Every constant, variable and operator of e has a spelling that can be read.  An operator
   like +.g is not the first on a line; in base 10 (but not in the default base 0), "a" after
   the point counts as a digit. *)
Fixpoint sourced (c : sctx) (e : expr) : Prop :=
  match e with
  | EVal v => constant v
  | EVar s _ => named s /\ spelled c (text_of s) /\ defined c (text_of s) = false /\ all_digits (text_of s) (ibase c) false = false
  | EUnary o r => op_named c o /\ ~ sign_dot (text_of o) /\ sourced c r
  | EBinary o l r => (o = "=" \/ op_named c o /\ (sign_dot (text_of o) -> is_numeral c (nth 2 (text_of o) 0) = false)) /\ sourced c l /\ sourced c r
  | ECond l r => sourced c l /\ sourced c r
  | EVector l => fold_right (fun x P => sourced c x /\ P) True l
  | EIndex l idx => sourced c l /\ fold_right (fun o P => match o with Some x => sourced c x | None => True end /\ P) True idx
  end.
(* ---- operators ---- *)
(* A name for an operator: a word that is an identifier and no number. *)
Definition operator_name (c : sctx) (s : string) : Prop :=
  named s /\ spelled c (text_of s) /\ is_identifier c (text_of s) = true /\ all_digits (text_of s) (ibase c) false = false /\ Forall code_point (text_of s).
(* The arguments of an operator: names of variables, and lists of these. *)
Fixpoint arg_sourced (c : sctx) (e : expr) : Prop :=
  match e with
  | EVar _ _ => sourced c e
  | EVector l => fold_right (fun x P => arg_sourced c x /\ P) True l
  | _ => False
  end.
Definition header_sourced (c : sctx) (fn : func) : Prop :=
  match f_left fn with Some e => arg_sourced c e | None => True end /\ arg_sourced c (f_right fn).

(* ---- workspaces ---- *)
(* The state st with no operators but those of the list ds. *)
Definition only (ds : list (string * bool)) (st : ctx) : ctx :=
  set_ops st (filter (fun p => in_defs (fst p, false) ds) (unary st)) (filter (fun p => in_defs (fst p, true) ds) (binary st)) ds.
Section Saved.
Variables letters digits puncts symbols : Z -> bool.
Variables bu bb : string -> bool.
Notation context st := (scan_ctx 0 letters digits puncts symbols bu bb st).
(* The operator fn of the workspace A is one that the parser makes of a definition where just
   the operators ds are there, and can be printed.  A body of several lines is scanned when fn
   itself is there too. *)
Definition made_with (ds : list (string * bool)) (A : ctx) (fn : func) : Prop :=
  exists body fn0 ts more,
    let H := only ds A in
    let I := match body with [_] => H | _ => only (ds ++ [(f_name fn, f_binary fn)]) A end in
    let d := ParseSpec.def_scope bu bb (unary H) (binary H) fn0 in
    f_body fn = Some body /\
    ParseModel.parse_tokens bu bb (unary H) (binary H) (ParseModel.KDef :: ts) more = LDefine fn0 fn true /\
    Forall (ParseSpec.scanned (op_token (context I))) ts /\ Forall (Forall (ParseSpec.scanned (op_token (context I)))) more /\
    Forall (fun e => ParseSpec.names_apart d e /\ ParseSpec.separable d e = true) body /\
    header_sourced (context H) fn /\ Forall (sourced (context I)) body.
(* The operators ds, in this order, can be defined when those of the list before are there:
   each uses operators that come before it and, if these are unary, others. *)
Fixpoint in_order (A : ctx) (before ds : list (string * bool)) : Prop :=
  match ds with
  | [] => True
  | d :: ds' =>
    exists fn, find (if snd d then binary A else unary A) (fst d) = Some fn /\ f_name fn = fst d /\ f_binary fn = snd d /\
      let ahead := filter (fun x => negb (in_defs x before)) (references A (match f_body fn with Some b => b | None => [] end)) in
      Forall (fun x => snd x = false) ahead /\ made_with (before ++ ahead) A fn /\ in_order A (before ++ ahead ++ [d]) ds'
  end.
(* A workspace whose operators can be saved. *)
Definition operators_ok (A : ctx) : Prop :=
  NoDup (defs A) /\ (forall x, user_op A x = true <-> In x (defs A)) /\
  Forall (fun x => operator_name (context A) (fst x) /\ ~ In (fst x) ["_"; "e"; "pi"]) (defs A) /\ in_order A [] (defs A).
End Saved.

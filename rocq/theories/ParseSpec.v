(* The grammar of ivy expressions, as a relation between a sequence of tokens and the tree it
   stands for, independent of the parser; and what is said about names in operators. *)
From Coq Require Import String.
From Verif Require Import Value Syntax ExecModel ParseModel.
Open Scope string_scope.
Open Scope list_scope.
Open Scope nat_scope.

Section Grammar.
Variable d : scope.

(* A binary operator: a symbol, or a word that names one. *)
Inductive binop : token -> string -> Prop :=
| bo_op o : binop (KOp o) o
| bo_id s : defined_binary d s = true -> binop (KId s) s.
Inductive unop : token -> string -> Prop :=
| uo_op o : unop (KOp o) o
| uo_id s : defined_unary d (trim s) = true -> unop (KId s) s.
(* What can stand on the left of "=": a variable, an indexed expression that is not indexed
   twice, or a list of these. *)
Inductive target : expr -> Prop :=
| ta_var s i : target (EVar s i)
| ta_index e l : (forall e' l', e <> EIndex e' l') -> target (EIndex e l)
| ta_list l : Forall target l -> target (EVector l).
Definition chars (s : list Z) : list expr := map (fun c => EVal (VChar c)) s.
(* The first token of an operand is not a unary operator. *)
Definition no_unop (ts : list token) : Prop := forall s ts', ts = KId s :: ts' -> defined_unary d (trim s) = false.
(* A later element of a vector is not the name of an operator. *)
Definition no_op (ts : list token) : Prop := forall s ts', ts = KId s :: ts' -> defined_op d s = false.

(* expression: operand
             | unary operator, expression
             | operand, binary operator, expression
             | operand, "=", expression
   so that an operator takes all that is to its right.
   operand: a vector of one element or more, then any number of indexes.
   element: number | string | variable, then indexes | "(" expression ")".
   The flag is false where the last element is a variable with its indexes: further indexes
   are then the variable's, and not those of the whole vector. *)
Inductive Expr : list token -> expr -> Prop :=
| g_operand c ts e : Operand c ts e -> no_unop ts -> Expr ts e
| g_unary t o ts e : unop t o -> Expr ts e -> Expr (t :: ts) (EUnary o e)
| g_binary c ts l t o ts' r : Operand c ts l -> no_unop ts -> binop t o -> Expr ts' r ->
    Expr (ts ++ t :: ts') (EBinary o l r)
| g_assign c ts l ts' r : Operand c ts l -> no_unop ts -> target l -> Expr ts' r ->
    Expr (ts ++ KAssign :: ts') (EBinary "=" l r)
with Operand : bool -> list token -> expr -> Prop :=
| g_single c ts e : Elements c ts [e] -> Operand c ts e
| g_vector c ts l : Elements c ts l -> 2 <= length l -> Operand c ts (EVector l)
| g_index ts e ts' idx : Operand true ts e -> Indexes ts' idx ->
    Operand true (ts ++ KLBrack :: ts' ++ [KRBrack]) (EIndex e idx)
with Elements : bool -> list token -> list expr -> Prop :=
| g_last c ts e : Element c ts e -> Elements c ts [e]
| g_more c c' ts e ts' l : Element c' ts e -> Elements c ts' l -> no_op ts' -> Elements c (ts ++ ts') (e :: l)
with Element : bool -> list token -> expr -> Prop :=
| g_num v : Element true [KNum (Some v)] (EVal v)
| g_char c : Element true [KStr (Some [c])] (EVal (VChar c))
| g_str s : length s <> 1 -> Element true [KStr (Some s)] (EVector (chars s))
| g_paren ts e : Expr ts e -> Element true (KLParen :: ts ++ [KRParen]) e
| g_var s : Element false [KId s] (EVar s 0)
| g_var_index ts e ts' idx : Element false ts e -> Indexes ts' idx ->
    Element false (ts ++ KLBrack :: ts' ++ [KRBrack]) (EIndex e idx)
with Indexes : list token -> list (option expr) -> Prop :=
| g_only ts o : Index ts o -> Indexes ts [o]
| g_semi ts o ts' l : Index ts o -> Indexes ts' l -> Indexes (ts ++ KSemi :: ts') (o :: l)
with Index : list token -> option expr -> Prop :=
| g_none : Index [] None
| g_some ts e : Expr ts e -> Index ts (Some e).

(* A line: statements separated by semicolons; a statement is an expression, or two with a
   colon in between. *)
Inductive Statement : list token -> expr -> Prop :=
| g_expr ts e : Expr ts e -> Statement ts e
| g_cond ts l ts' r : Expr ts l -> Expr ts' r -> Statement (ts ++ KColon :: ts') (ECond l r).
Inductive Statements : list token -> list expr -> Prop :=
| g_stmt ts e : Statement ts e -> Statements ts [e]
| g_stmts ts e ts' l : Statement ts e -> Statements ts' l -> Statements (ts ++ KSemi :: ts') (e :: l).
End Grammar.

(* An expression read from the left: items, each an operator with its left operand, if any,
   then a last operand; and the tree in which every operator takes all that follows. *)
Definition item := (option expr * string)%type.
Definition nest (items : list item) (last : expr) : expr :=
  fold_right (fun i r => match fst i with Some l => EBinary (snd i) l r | None => EUnary (snd i) r end) last items.
Inductive Chain (d : scope) : list token -> list item -> expr -> Prop :=
| ch_last c ts e : Operand d c ts e -> no_unop d ts -> Chain d ts [] e
| ch_unary t o ts items e : unop d t o -> Chain d ts items e -> Chain d (t :: ts) ((None, o) :: items) e
| ch_binary c ts l t o ts' items e : Operand d c ts l -> no_unop d ts -> binop d t o -> Chain d ts' items e ->
    Chain d (ts ++ t :: ts') ((Some l, o) :: items) e
| ch_assign c ts l ts' items e : Operand d c ts l -> no_unop d ts -> target l -> Chain d ts' items e ->
    Chain d (ts ++ KAssign :: ts') ((Some l, "=") :: items) e.
(* Running a chain: what is to the right first, then the left operand, then the operator. *)
Inductive RunChain (E : env) (n : nat) : list item -> expr -> ctx -> ctx -> rval -> Prop :=
| rc_last e st st' v : exec E n (TExpr e) st = (st', Ok v) -> RunChain E n [] e st st' v
| rc_unary o items e st st1 st2 w v : RunChain E n items e st st1 w ->
    exec E n (TUnary o (loud (val w))) st1 = (st2, Ok v) -> RunChain E n ((None, o) :: items) e st st2 v
| rc_binary l o items e st st1 st2 st3 w a v : o <> "=" -> RunChain E n items e st st1 w ->
    exec E n (TExpr l) st1 = (st2, Ok a) -> exec E n (TBinary a o (loud (val w))) st2 = (st3, Ok v) ->
    RunChain E n ((Some l, o) :: items) e st st3 v
| rc_assign s items e st st1 w : RunChain E n items e st st1 w ->
    RunChain E n ((Some (EVar s 0), "=") :: items) e st (set_globals st1 (store (globals st1) s (loud (val w)))) (mkR true (val w)).

(* The argument of an operator: a name, or a list of arguments in parentheses. *)
Inductive Arg : list token -> expr -> Prop :=
| g_name s : Arg [KId s] (EVar s 0)
| g_list ts l : Args ts l -> Arg (KLParen :: ts ++ [KRParen]) (EVector l)
with Args : list token -> list expr -> Prop :=
| g_nil : Args [] []
| g_cons ts e ts' l : Arg ts e -> Args ts' l -> Args (ts ++ ts') (e :: l).
Scheme Arg_mut := Induction for Arg Sort Prop
  with Args_mut := Induction for Args Sort Prop.
Combined Scheme arg_ind from Arg_mut, Args_mut.

Scheme Expr_mut := Induction for Expr Sort Prop
  with Operand_mut := Induction for Operand Sort Prop
  with Elements_mut := Induction for Elements Sort Prop
  with Element_mut := Induction for Element Sort Prop
  with Indexes_mut := Induction for Indexes Sort Prop
  with Index_mut := Induction for Index Sort Prop.
Combined Scheme grammar_ind from Expr_mut, Operand_mut, Elements_mut, Element_mut, Indexes_mut, Index_mut.

(* Where an expression ends: at the end of the line, or before ")", "]", ";" or ":". *)
Definition stops (ts : list token) : Prop :=
  match ts with [] | KRParen :: _ | KRBrack :: _ | KSemi :: _ | KColon :: _ => True | _ => False end.

(* ---- printing ---- *)
(* tok is the token the scanner makes of an operator's name: the tokens ts agree with it,
   and are as the scanner makes them: "=" is not an operator, a number is not a character. *)
Definition scanned (tok : string -> token) (t : token) : Prop :=
  match t with
  | KOp o => tok o = KOp o /\ o <> "="
  | KId s => tok s = KId s /\ s <> "="
  | KNum (Some (VChar _)) => False
  | _ => True
  end.
Fixpoint variables (e : expr) : list string :=
  match e with
  | EVal _ => []
  | EVar s _ => [s]
  | EUnary _ r => variables r
  | EBinary _ l r | ECond l r => variables l ++ variables r
  | EVector l => concat (map variables l)
  | EIndex l idx => variables l ++ concat (map (fun o => match o with Some e => variables e | None => [] end) idx)
  end.
(* No variable has the name of a unary operator, or that followed by "@".  (Such a name can
   be a variable only after another element of a vector.) *)
Definition names_apart (d : scope) (e : expr) : Prop :=
  forall s, In s (variables e) -> defined_unary d (trim s) = false.
(* A constant with indexes; a variable, with or without indexes, that has the name of an
   operator. *)
Fixpoint indexed_constant (e : expr) : bool :=
  match e with EIndex (EVal _) _ => true | EIndex l _ => indexed_constant l | _ => false end.
Fixpoint operator_named (d : scope) (e : expr) : bool :=
  match e with EVar s _ => defined_op d s | EIndex l _ => operator_named d l | _ => false end.
(* In every vector of e, no element is of the first kind, and none but the first is of the
   second. *)
Fixpoint separable (d : scope) (e : expr) : bool :=
  match e with
  | EVal _ | EVar _ _ => true
  | EUnary _ r => separable d r
  | EBinary _ l r | ECond l r => separable d l && separable d r
  | EVector l => forallb (fun x => negb (indexed_constant x) && separable d x) l && forallb (fun x => negb (operator_named d x)) (tl l)
  | EIndex l idx => separable d l && forallb (fun o => match o with Some x => separable d x | None => true end) idx
  end.

(* Where the body of the definition of fn0 is parsed: after fn0 is installed in the table of
   its kind, with its arguments as variables. *)
Definition def_scope (bu bb : string -> bool) (u b : table func) (fn0 : func) : scope :=
  mkScope bu bb (names (if f_binary fn0 then u else store u (f_name fn0) fn0)) (names (if f_binary fn0 then store b (f_name fn0) fn0 else b))
    (match f_left fn0 with Some e => walk_vars e | None => [] end ++ walk_vars (f_right fn0)).
(* A body: statements on the rest of the line, or on the lines after up to an empty line or
   the end. *)
Inductive Lines (d : scope) : list (list token) -> list expr -> Prop :=
| l_nil : Lines d [] []
| l_cons ts l lines l' : Statements d ts l -> Lines d lines l' -> Lines d (ts :: lines) (l ++ l').
Inductive Body (d : scope) : list token -> list (list token) -> list expr -> Prop :=
| b_line ts more l : Statements d ts l -> Body d ts more l
| b_lines lines rest l : Lines d lines l -> l <> [] -> (rest = [] \/ exists r, rest = [] :: r) -> Body d [] (lines ++ rest) l.
(* The text of a definition: [left] name right [= body], where the names of the arguments
   are distinct and none is the operator's, and no binary operator is "o".  fn0 is the
   operator without its body. *)
Inductive DefText (bu bb : string -> bool) (u b : table func) (more : list (list token)) : list token -> func -> option (list expr) -> Prop :=
| def_text tl tr ts fn0 body :
    match f_left fn0 with Some e => f_binary fn0 = true /\ Arg tl e | None => f_binary fn0 = false /\ tl = [] end ->
    Arg tr (f_right fn0) -> f_body fn0 = None -> f_locals fn0 = [] ->
    NoDup (f_name fn0 :: match f_left fn0 with Some e => variables e | None => [] end ++ variables (f_right fn0)) ->
    ~ (f_binary fn0 = true /\ f_name fn0 = "o") ->
    match body with
    | None => ts = []
    | Some l => exists ts', ts = KAssign :: ts' /\ Body (def_scope bu bb u b fn0) ts' more l
    end ->
    DefText bu bb u b more (tl ++ KId (f_name fn0) :: tr ++ ts) fn0 body.

(* ---- which names are local ---- *)
(* The uses of variables in e in the order of evaluation, from right to left except that
   the condition of "l : r" comes first; true for an assignment.  An indexed assignment
   reads the variable. *)
Fixpoint uses (assign : bool) (e : expr) : list (string * bool) :=
  match e with
  | EVal _ => []
  | EVar s _ => [(s, assign)]
  | EUnary _ r => uses false r
  | EBinary op l r => uses false r ++ uses (String.eqb op "=") l
  | ECond l r => uses false l ++ uses false r
  | EVector l => concat (rev (map (uses assign) l))
  | EIndex l idx => concat (rev (map (fun o => match o with Some e => uses false e | None => [] end) idx)) ++ uses false l
  end.
(* The first use of a name, if any. *)
Fixpoint first_use (s : string) (us : list (string * bool)) : option bool :=
  match us with [] => None | (s', a) :: us' => if String.eqb s s' then Some a else first_use s us' end.
Definition arguments (fn : func) : list (string * bool) :=
  match f_left fn with Some e => uses true e | None => [] end ++ uses true (f_right fn).
Definition body_uses (body : list expr) : list (string * bool) := concat (map (uses false) body).
Definition func_uses (fn : func) : list (string * bool) :=
  arguments fn ++ match f_body fn with Some b => body_uses b | None => [] end.
(* In each conditional, a name used on both sides has been used before, or is used first in
   the same way on either side. *)
Fixpoint conditionals_agree (before : list (string * bool)) (body : list expr) : Prop :=
  match body with
  | [] => True
  | e :: body' =>
    match e with
    | ECond l r => forall s, first_use s before <> None \/ first_use s (uses false l) = None \/ first_use s (uses false r) = None \/
                             first_use s (uses false l) = first_use s (uses false r)
    | _ => True
    end /\ conditionals_agree (before ++ uses false e) body'
  end.
(* Conditionals are whole statements. *)
Fixpoint no_cond (e : expr) : bool :=
  match e with
  | EVal _ | EVar _ _ => true
  | EUnary _ r => no_cond r
  | EBinary _ l r => no_cond l && no_cond r
  | ECond _ _ => false
  | EVector l => forallb no_cond l
  | EIndex l idx => no_cond l && forallb (fun o => match o with Some x => no_cond x | None => true end) idx
  end.
Definition statement (e : expr) : bool := match e with ECond l r => no_cond l && no_cond r | _ => no_cond e end.
(* Every occurrence of a variable in e has the index given by loc. *)
Fixpoint indexed_by (loc : string -> nat) (e : expr) : Prop :=
  match e with
  | EVal _ => True
  | EVar s i => i = loc s
  | EUnary _ r => indexed_by loc r
  | EBinary _ l r | ECond l r => indexed_by loc l /\ indexed_by loc r
  | EVector l => fold_right (fun x P => indexed_by loc x /\ P) True l
  | EIndex l idx => indexed_by loc l /\ fold_right (fun o P => match o with Some x => indexed_by loc x | None => True end /\ P) True idx
  end.
(* The tree without the indexes. *)
Fixpoint plain (e : expr) : expr :=
  match e with
  | EVal v => EVal v
  | EVar s _ => EVar s 0
  | EUnary o r => EUnary o (plain r)
  | EBinary o l r => EBinary o (plain l) (plain r)
  | ECond l r => ECond (plain l) (plain r)
  | EVector l => EVector (map plain l)
  | EIndex l idx => EIndex (plain l) (map (option_map plain) idx)
  end.
(* An operator without the indexes of its variables. *)
Definition plain_func (fn : func) : func :=
  mkFunc (f_binary fn) (f_name fn) (option_map plain (f_left fn)) (plain (f_right fn)) (option_map (map plain) (f_body fn)) [].
(* An operator's variables are resolved by loc: every occurrence in its arguments and body
   is; a local's index is its place, from 1, in the list of locals, which are distinct. *)
Definition resolved (loc : string -> nat) (fn : func) : Prop :=
  match f_left fn with Some e => indexed_by loc e | None => True end /\
  indexed_by loc (f_right fn) /\
  match f_body fn with Some b => Forall (indexed_by loc) b | None => True end /\
  NoDup (f_locals fn) /\
  (forall s i, nth_error (f_locals fn) i = Some s -> loc s = S i) /\
  (forall s, loc s <> 0 -> nth_error (f_locals fn) (loc s - 1) = Some s).

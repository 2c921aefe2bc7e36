(* Model of the parser: parse/parse.go:105-530, parse/function.go:27-173, 221-305,
   exec/operator.go, and the source form of expressions, value/expr.go:29-245.
   The scanner is outside: a line is given as its tokens.  Special commands are outside.
   Executable; no proofs. *)
From Coq Require Import String Ascii.
From Verif Require Import Value Syntax ExecModel.
Open Scope string_scope.
Open Scope list_scope.
Open Scope nat_scope.

(* scan.go:31-52.  A number carries what value.Parse makes of it (None: an error), a string
   what value.ParseString does.  KErr is the token of a scanning error, KOther stands for
   any other token the parser has no use for. *)
Inductive token :=
| KNum (v : option value)
| KStr (s : option (list Z))
| KId (name : string)
| KOp (op : string)
| KAssign
| KLParen | KRParen | KLBrack | KRBrack
| KSemi | KColon
| KDef | KUndef
| KErr | KOther.

(* What a parsing function returns: a result and the tokens left, or an error
   (parse.go:138-141 errorf).  PFuel is not in the code: the bound on the number of steps
   is used up. *)
Inductive pr (A : Type) := POk (a : A) (rest : list token) | PErr | PFuel.
Arguments POk {A}. Arguments PErr {A}. Arguments PFuel {A}.
Definition pbind {A B} (r : pr A) (f : A -> list token -> pr B) : pr B :=
  match r with POk a rest => f a rest | PErr => PErr | PFuel => PFuel end.

(* What the parser asks of the context (exec/operator.go): which names are built in, which
   are defined by the user, which are declared to be variables for the time being. *)
Record scope := mkScope {
  built_unary : string -> bool;
  built_binary : string -> bool;
  user_unary : string -> bool;
  user_binary : string -> bool;
  declared : list string
}.
Definition is_variable (d : scope) (s : string) : bool := existsb (String.eqb s) (declared d).
(* operator.go:15-20 *)
Definition defined_op (d : scope) (s : string) : bool :=
  negb (is_variable d s) && (built_binary d s || built_unary d s || user_binary d s || user_unary d s).
(* operator.go:23-28 *)
Definition defined_binary (d : scope) (s : string) : bool :=
  negb (is_variable d s) && (user_binary d s || built_binary d s).
(* operator.go:31-36 *)
Definition defined_unary (d : scope) (s : string) : bool :=
  negb (is_variable d s) && (user_unary d s || built_unary d s).
(* strings.Trim(text, "@") *)
Fixpoint trim_left (s : string) : string :=
  match s with String "@" s' => trim_left s' | _ => s end.
Fixpoint reverse (s acc : string) : string :=
  match s with EmptyString => acc | String a s' => reverse s' (String a acc) end.
Definition trim (s : string) : string := reverse (trim_left (reverse (trim_left s) "")) "".

(* parse.go:520-530 evalString *)
Definition eval_string (s : list Z) : expr :=
  match s with [c] => EVal (VChar c) | _ => EVector (map (fun c => EVal (VChar c)) s) end.

(* parse.go:298-325 checkAssign: can the expression be assigned to?  An indexed expression
   is accepted unless it is indexed twice. *)
Fixpoint check_assign (e : expr) : bool :=
  match e with
  | EVar _ _ => true
  | EIndex (EIndex _ _) _ => false
  | EIndex _ _ => true
  | EVector l => forallb check_assign l
  | _ => false
  end.

Section Parse.
Variable d : scope.

Section Step.
(* ex parses an expression; k bounds the iterations of each loop. *)
Variable ex : list token -> pr expr.
Variable k : nat.

(* parse.go:387-409 indexList; the closing bracket is left *)
Fixpoint index_list (j : nat) (seen : bool) (acc : list (option expr)) (ts : list token) : pr (list (option expr)) :=
  match j with
  | O => PFuel
  | S j' =>
    match ts with
    | KRBrack :: _ => POk (if seen then acc else acc ++ [None]) ts
    | KSemi :: ts' => index_list j' false (if seen then acc else acc ++ [None]) ts'
    | _ => pbind (ex ts) (fun e ts' => index_list j' true (acc ++ [Some e]) ts')
    end
  end.

(* parse.go:368-382 index *)
Fixpoint index_loop (j : nat) (e : expr) (ts : list token) : pr expr :=
  match ts with
  | KLBrack :: ts' =>
    match j with
    | O => PFuel
    | S j' => pbind (index_list k false [] ts') (fun l ts2 =>
        match ts2 with KRBrack :: ts3 => index_loop j' (EIndex e l) ts3 | _ => PErr end)
    end
  | _ => POk e ts
  end.

(* parse.go:421-442 number, with the use of evalString in 462 and 483 *)
Definition number (t : token) (ts : list token) : pr expr :=
  match t with
  | KId s => index_loop k (EVar s 0) ts
  | KStr (Some s) => POk (eval_string s) ts
  | KNum (Some v) => POk (EVal v) ts
  | KLParen => pbind (ex ts) (fun e ts' => match ts' with KRParen :: ts2 => POk e ts2 | _ => PErr end)
  | _ => PErr
  end.

(* parse.go:466-488, the loop over the further elements.  No operator is named "(". *)
Fixpoint elements (j : nat) (acc : list expr) (ts : list token) : pr (list expr) :=
  let more t ts' :=
    match j with
    | O => PFuel
    | S j' => pbind (number t ts') (fun e ts2 => elements j' (acc ++ [e]) ts2)
    end in
  match ts with
  | KLParen :: ts' => more KLParen ts'
  | KId s :: ts' => if defined_op d s then POk acc ts else more (KId s) ts'
  | KNum v :: ts' => more (KNum v) ts'
  | KStr s :: ts' => more (KStr s) ts'
  | _ => POk acc ts
  end.
(* parse.go:450-494 numberOrVector *)
Definition number_or_vector (t : token) (ts : list token) : pr expr :=
  pbind (number t ts) (fun e ts1 => pbind (elements k [e] ts1) (fun l ts2 =>
    POk (match l with [x] => x | _ => EVector l end) ts2)).

(* parse.go:335-361 operand; indexOK is always true *)
Definition operand (t : token) (ts : list token) : pr expr :=
  pbind (match t with
         | KOp o => pbind (ex ts) (fun e ts' => POk (EUnary o e) ts')
         | KId s => if defined_unary d (trim s) then pbind (ex ts) (fun e ts' => POk (EUnary s e) ts')
                    else number_or_vector t ts
         | KNum _ | KStr _ | KLParen => number_or_vector t ts
         | _ => PErr
         end) (fun e ts' => index_loop k e ts').

(* parse.go:261-295 expr; next at the end of the line gives a token that is no operand *)
Definition expr_step (ts : list token) : pr expr :=
  match ts with
  | [] => PErr
  | t :: ts0 => pbind (operand t ts0) (fun l ts1 =>
    match ts1 with
    | [] | KRParen :: _ | KRBrack :: _ | KSemi :: _ | KColon :: _ => POk l ts1
    | KId s :: ts2 => if defined_binary d s then pbind (ex ts2) (fun r ts3 => POk (EBinary s l r) ts3) else PErr
    | KAssign :: ts2 => if check_assign l then pbind (ex ts2) (fun r ts3 => POk (EBinary "=" l r) ts3) else PErr
    | KOp o :: ts2 => pbind (ex ts2) (fun r ts3 => POk (EBinary o l r) ts3)
    | _ => PErr
    end)
  end.
End Step.

Fixpoint p_expr (n : nat) (ts : list token) : pr expr :=
  match n with O => PFuel | S m => expr_step (p_expr m) m ts end.

(* parse.go:231-255 statementList: expr [':' expr] [';' statementList] *)
Fixpoint statement_list (n : nat) (ts : list token) : pr (list expr) :=
  match n with
  | O => PFuel
  | S m =>
    pbind (pbind (p_expr n ts) (fun e ts1 =>
             match ts1 with
             | KColon :: ts2 => pbind (p_expr n ts2) (fun r ts3 => POk (ECond e r) ts3)
             | _ => POk e ts1
             end))
          (fun e ts1 => match ts1 with
                        | KSemi :: ts2 => pbind (statement_list m ts2) (fun l ts3 => POk (e :: l) ts3)
                        | _ => POk [e] ts1
                        end)
  end.
(* parse.go:211-228 expressionList: to the end of the line *)
Definition expression_list (n : nat) (ts : list token) : pr (list expr) :=
  pbind (statement_list n ts) (fun l ts1 => match ts1 with [] => POk l [] | _ => PErr end).
End Parse.

(* ---- definitions of operators ---- *)
(* function.go:159-173 funcArg: name | '(' args ')' *)
Fixpoint args_loop (arg : list token -> pr expr) (j : nat) (acc : list expr) (ts : list token) : pr expr :=
  match ts with
  | KRParen :: ts' => POk (EVector acc) ts'
  | _ => match j with
         | O => PFuel
         | S j' => pbind (arg ts) (fun e ts2 => args_loop arg j' (acc ++ [e]) ts2)
         end
  end.
Fixpoint func_arg (n : nat) (ts : list token) : pr expr :=
  match n with
  | O => PFuel
  | S m =>
    match ts with
    | KId s :: ts' => POk (EVar s 0) ts'
    | KLParen :: ts' => args_loop (func_arg m) m [] ts'
    | _ => PErr
    end
  end.

(* function.go:294-305 walkVars: the names in a list of arguments, from right to left *)
Fixpoint walk_vars (e : expr) : list string :=
  match e with
  | EVar s _ => [s]
  | EVector l => fold_left (fun acc e => walk_vars e ++ acc) l []
  | _ => []
  end.
(* function.go:64-73 declare, of every name: none is the function's, no two are equal *)
Fixpoint distinct (l : list string) : bool :=
  match l with [] => true | s :: l' => negb (existsb (String.eqb s) l') && distinct l' end.

(* function.go:221-252 funcVars: the index known of each name so far, 0 for a global, and
   the locals *)
Definition vars := (table nat * list string)%type.
Definition use_var (assign : bool) (name : string) (s : vars) : nat * vars :=
  match find (fst s) name with
  | Some i => (i, s)
  | None => if assign then (S (length (snd s)), (store (fst s) name (S (length (snd s))), snd s ++ [name]))
            else (0, (store (fst s) name 0, snd s))
  end.
(* function.go:258-292 walk, with the function f of funcVars *)
Fixpoint walk (assign : bool) (e : expr) (s : vars) {struct e} : expr * vars :=
  match e with
  | EVal v => (EVal v, s)
  | EVar name _ => let (i, s') := use_var assign name s in (EVar name i, s')
  | EUnary op r => let (r', s') := walk false r s in (EUnary op r', s')
  | EBinary op l r =>
    let (r', s1) := walk false r s in
    let (l', s2) := walk (String.eqb op "=") l s1 in (EBinary op l' r', s2)
  | ECond l r =>
    let (r', s1) := walk false r s in
    let (l', s2) := walk false l s1 in (ECond l' r', s2)
  | EVector l =>
    let (l', s') :=
      (fix go (l : list expr) (s : vars) : list expr * vars :=
         match l with
         | [] => ([], s)
         | e :: l1 => let (l2, s1) := go l1 s in let (e', s2) := walk assign e s1 in (e' :: l2, s2)
         end) l s in
    (EVector l', s')
  | EIndex l idx =>
    let (idx', s1) :=
      (fix go (l : list (option expr)) (s : vars) : list (option expr) * vars :=
         match l with
         | [] => ([], s)
         | o :: l1 =>
           let (l2, s1) := go l1 s in
           match o with
           | None => (None :: l2, s1)
           | Some e => let (e', s2) := walk false e s1 in (Some e' :: l2, s2)
           end
         end) idx s in
    let (l', s2) := walk false l s1 in (EIndex l' idx', s2)
  end.
(* The statements of a body, in order *)
Fixpoint walk_body (l : list expr) (s : vars) : list expr * vars :=
  match l with
  | [] => ([], s)
  | e :: l' => let (e', s1) := walk false e s in let (l2, s2) := walk_body l' s1 in (e' :: l2, s2)
  end.
Definition func_vars (fn : func) : func :=
  let (left, s1) := match f_left fn with
                    | Some e => let (e', s) := walk true e ([], []) in (Some e', s)
                    | None => (None, ([], []))
                    end in
  let (right, s2) := walk true (f_right fn) s1 in
  let (body, s3) := match f_body fn with
                    | Some b => let (b', s) := walk_body b s2 in (Some b', s)
                    | None => (None, s2)
                    end in
  mkFunc (f_binary fn) (f_name fn) left right body (snd s3).

Section Lines.
(* the names of the built-in operators: value.UnaryOps, value.BinaryOps *)
Variable bu bb : string -> bool.
(* enough steps for a line: see fuel_enough in P_Parse.v *)
Definition enough (ts : list token) : nat := S (length ts).
Definition has_err (ts : list token) : bool := existsb (fun t => match t with KErr => true | _ => false end) ts.
Definition names {A} (t : table A) (s : string) : bool := match find t s with Some _ => true | None => false end.

(* function.go:110-125, a body of several lines: each a list of statements, up to an empty
   line or the end of the input *)
Fixpoint body_lines (d : scope) (lines : list (list token)) : option (list expr) :=
  match lines with
  | [] => Some []
  | [] :: _ => Some []
  | ts :: lines' =>
    if has_err ts then None
    else match expression_list d (enough ts) ts, body_lines d lines' with
         | POk l _, Some l' => Some (l ++ l')
         | _, _ => None
         end
  end.

(* function.go:27-147 functionDefn, given the tokens after "op" or "opdelete" and the
   lines after; u and b are the operators defined.  The names declared are forgotten at the
   end; in the code they are not if the arguments are rejected, which is not modelled. *)
Definition function_defn (undef : bool) (u b : table func) (ts : list token) (more : list (list token)) : line :=
  match func_arg (enough ts) ts with
  | POk a0 ts1 =>
    match func_arg (enough ts1) ts1 with
    | POk a1 ts2 =>
      let third := match ts2 with KId _ :: _ | KLParen :: _ => true | _ => false end in
      match (if third then match func_arg (enough ts2) ts2 with POk a2 ts3 => Some (Some a2, ts3) | _ => None end
             else Some (None, ts2)) with
      | None => LBad
      | Some (a2, ts3) =>
        match (if third then a1 else a0) with
        | EVar name _ =>
          let fn0 := mkFunc third name (if third then Some a0 else None)
                            (match a2 with Some e => e | None => a1 end) None [] in
          if undef then match ts3 with [] => LDelete name third | _ => LBad end
          else
            let args := match f_left fn0 with Some e => walk_vars e | None => [] end ++ walk_vars (f_right fn0) in
            if third && String.eqb name "o" then LBad
            else if existsb (String.eqb name) args || negb (distinct args) then LBad
            else
              let u' := if third then u else store u name fn0 in
              let b' := if third then store b name fn0 else b in
              let d := mkScope bu bb (names u') (names b') args in
              let complete body := func_vars (mkFunc third name (f_left fn0) (f_right fn0) body []) in
              match ts3 with
              | [] => LDefine fn0 (complete None) true
              | KAssign :: ts4 =>
                match (match ts4 with
                       | [] => body_lines d more
                       | _ => match expression_list d (enough ts4) ts4 with POk l _ => Some l | _ => None end
                       end) with
                | None | Some [] => LDefine fn0 fn0 false
                | Some body => LDefine fn0 (complete (Some body)) true
                end
              | _ => LDefine fn0 fn0 false
              end
        | _ => LBad
        end
      end
    | _ => LBad
    end
  | _ => LBad
  end.

(* parse.go:152-177 Line *)
Definition parse_tokens (u b : table func) (ts : list token) (more : list (list token)) : line :=
  if has_err ts then LBad
  else match ts with
       | [] => LExprs []
       | KRParen :: _ => LBad                          (* a special command: outside *)
       | KDef :: ts' => function_defn false u b ts' more
       | KUndef :: ts' => function_defn true u b ts' more
       | _ => match expression_list (mkScope bu bb (names u) (names b) []) (enough ts) ts with
              | POk l _ => LExprs l
              | _ => LBad
              end
       end.
(* The parser of ExecModel.v: a scanner, which also asks which operators are defined,
   followed by this. *)
Definition parse_with (scan : table func -> table func -> string -> list token * list (list token))
    (u b : table func) (text : string) : line :=
  let (ts, more) := scan u b text in parse_tokens u b ts more.
End Lines.

(* ---- the source form of an expression, as tokens: expr.go ---- *)
(* expr.go:221-238 IsCompound *)
Fixpoint compound (e : expr) : bool :=
  match e with EVal _ | EVar _ _ => false | EIndex l _ => compound l | _ => true end.
(* expr.go:145-152 allChars *)
Fixpoint all_chars (l : list expr) : option (list Z) :=
  match l with
  | [] => Some []
  | EVal (VChar c) :: l' => option_map (cons c) (all_chars l')
  | _ => None
  end.
Section Print.
(* the token of an operator's name *)
Variable tok : string -> token.
Definition parens (b : bool) (ts : list token) : list token := if b then KLParen :: ts ++ [KRParen] else ts.
(* expr.go:29-31, 43-51, 67, 107-143, 160-180, 215-217 ProgString; a number or a character
   is printed as a constant *)
Fixpoint print (e : expr) : list token :=
  match e with
  | EVal (VChar c) => [KStr (Some [c])]
  | EVal v => [KNum (Some v)]
  | EVar s _ => [KId s]
  | EUnary op r => tok op :: print r
  | EBinary op l r => parens (compound l) (print l) ++ (if String.eqb op "=" then KAssign else tok op) :: print r
  | ECond l r => parens (compound l) (print l) ++ KColon :: print r
  | EVector l =>
    match all_chars l with
    | Some cs => [KStr (Some cs)]
    | None => concat (map (fun x => parens (compound x) (print x)) l)
    end
  | EIndex l idx =>
    parens (compound l) (print l) ++ KLBrack ::
    (fix go (idx : list (option expr)) : list token :=
       match idx with
       | [] => []
       | [o] => match o with Some x => print x | None => [] end
       | o :: idx' => match o with Some x => print x | None => [] end ++ KSemi :: go idx'
       end) idx ++ [KRBrack]
  end.
(* exec/function.go:27-45 argProgString *)
Fixpoint print_arg (e : expr) : list token :=
  match e with
  | EVar s _ => [KId s]
  | EVector l => KLParen :: concat (map print_arg l) ++ [KRParen]
  | _ => [KOther]
  end.
(* exec/function.go:47-68 Function.String, as the tokens of its first line and the lines
   after.  An operator without a body is printed as one with an empty body. *)
Definition print_func (fn : func) : list token * list (list token) :=
  let body := match f_body fn with Some b => b | None => [] end in
  (KDef :: match f_left fn with Some e => print_arg e | None => [] end ++ KId (f_name fn) :: print_arg (f_right fn) ++
     KAssign :: match body with [e] => print e | _ => [] end,
   match body with [_] => [] | _ => map print body end).
End Print.

(* Theorems about the parser: C52, C56, C57, C58, C64; and C49, C50 and C61 for the parser. *)
From Coq Require Import String Lia Permutation.
From Verif Require Import Value Syntax ExecModel ExecSpec ExecProofs ParseModel ParseSpec ParseProofs ParseComplete ParsePrint ParseVars ParseDefn ParseMore P_Exec.
Open Scope string_scope.
Open Scope list_scope.
Open Scope nat_scope.

(* ---- for the examples: + - * mod are built in, f is a user's unary operator ---- *)
Definition bu0 (s : string) : bool := existsb (String.eqb s) ["-"; "iota"; "rho"].
Definition bb0 (s : string) : bool := existsb (String.eqb s) ["+"; "-"; "*"; "mod"; "rho"].
Definition d0 : scope := mkScope bu0 bb0 (String.eqb "f") (fun _ => false) [].
(* the scanner makes an operator of a symbol, an identifier of a word *)
Definition tok0 (s : string) : token := if existsb (String.eqb s) ["+"; "-"; "*"; "+/"] then KOp s else KId s.
Definition k (z : Z) : token := KNum (Some (VInt z)).

(* ==== C52 ==== *)
(* The parser accepts the expressions of the grammar and gives their trees. *)
Theorem parse_iff : forall d ts e, p_expr d (enough ts) ts = POk e [] <-> Expr d ts e.
Proof.
  intros d ts e. split.
  - intros H. destruct (p_expr_sound d _ _ _ _ H) as (u & -> & He & _). now rewrite app_nil_r.
  - intros H. unfold enough. rewrite <-(app_nil_r ts) at 2. apply p_expr_complete; auto; [exact I|rewrite app_nil_r; lia].
Qed.
Print Assumptions parse_iff.
Theorem unambiguous : forall d ts e1 e2, Expr d ts e1 -> Expr d ts e2 -> e1 = e2.
Proof. intros d ts e1 e2 H1 H2. apply parse_iff in H1. apply parse_iff in H2. congruence. Qed.
Print Assumptions unambiguous.
(* Every expression is a chain of operators, with or without a left operand, and its tree
   is the one where each takes everything to its right. *)
Theorem right_to_left : forall d ts e,
  p_expr d (enough ts) ts = POk e [] <-> exists items last, Chain d ts items last /\ e = nest items last.
Proof. intros. rewrite parse_iff. apply chain_expr. Qed.
Print Assumptions right_to_left.
(* and is evaluated in that order *)
Theorem chain_order : forall E n items e st st' v, RunChain E n items e st st' v ->
  exec E (n + length items) (TExpr (nest items e)) st = (st', Ok v).
Proof. exact run_chain. Qed.
Print Assumptions chain_order.
(* Both together, for a line. *)
Theorem line_value : forall E n bu bb scan text st st' ts more items e v,
  parse_line E = parse_with bu bb scan -> scan (unary st) (binary st) text = (ts, more) -> match ts with KDef :: _ | KUndef :: _ => False | _ => True end ->
  Chain (mkScope bu bb (names (unary st)) (names (binary st)) []) ts items e ->
  RunChain E n items e st st' v ->
  run_line E (n + length items) text st = ((if quiet v then st' else set_globals st' (store (globals st') "_" v)), Ok [v]).
Proof.
  intros E n bu bb scan text st st' ts more items e v HE Hs Ht C R.
  apply run_chain in R. set (d := mkScope bu bb (names (unary st)) (names (binary st)) []) in *.
  assert (X : Expr d ts (nest items e)) by (apply chain_expr; eauto).
  assert (P : parse_tokens bu bb (unary st) (binary st) ts more = LExprs [nest items e]).
  { unfold parse_tokens. rewrite (proj1 (no_err_all d) _ _ X). destruct (proj1 (starts_all d) _ _ X) as (t & ts' & -> & Hst).
    assert (L : expression_list d (enough (t :: ts')) (t :: ts') = POk [nest items e] []).
    { apply expression_list_complete; [now apply g_stmt, g_expr|unfold enough; lia]. }
    fold d. destruct t; try contradiction; now rewrite L. }
  unfold run_line, run_line_with, mbind. rewrite HE. unfold parse_with. rewrite Hs, P. cbn [eval_line eval_list]. unfold mbind.
  unfold exec in R. rewrite R. cbn. destruct (quiet v); cbn; reflexivity.
Qed.
Print Assumptions line_value.

(* 2 * 3 - -x + 1: the operands 2, 3, x and 1 *)
Example chain_example : Chain d0 [k 2; KOp "*"; k 3; KOp "-"; KOp "-"; KId "x"; KOp "+"; k 1]
  [(Some (num 2), "*"); (Some (num 3), "-"); (None, "-"); (Some (EVar "x" 0), "+")] (num 1).
Proof.
  assert (N : forall z, Operand d0 true [k z] (num z)) by (intros; apply g_single, g_last, g_num).
  apply (ch_binary d0 true [k 2] (num 2) (KOp "*")); [auto|intros s ts E; discriminate|constructor|].
  apply (ch_binary d0 true [k 3] (num 3) (KOp "-")); [auto|intros s ts E; discriminate|constructor|].
  apply ch_unary; [constructor|].
  apply (ch_binary d0 false [KId "x"] (EVar "x" 0) (KOp "+")); [apply g_single, g_last, g_var|intros s ts E; injection E as <- _; reflexivity|constructor|].
  apply ch_last with (c := true); [auto|intros s ts E; discriminate].
Qed.
Example nest_example : nest [(Some (num 2), "*"); (Some (num 3), "-"); (None, "-"); (Some (EVar "x" 0), "+")] (num 1) =
  EBinary "*" (num 2) (EBinary "-" (num 3) (EUnary "-" (EBinary "+" (EVar "x" 0) (num 1)))).
Proof. reflexivity. Qed.
(* x + x = 2 with x = 10 gives 4: the assignment comes first. *)
Definition scan0 (u b : table func) (text : string) : list token * list (list token) := ([KId "x"; KOp "+"; KId "x"; KAssign; k 2], []).
Definition env0 : env := mkEnv (mkConf 1000 1) 10 bs (parse_with bu0 bb0 scan0).
Definition st10 : ctx := mkCtx [("x", loud (VInt 10))] [] [] [] [] [] [] 0.
Example order_example : RunChain env0 3 [(Some (EVar "x" 0), "+"); (Some (EVar "x" 0), "=")] (num 2) st10
  (set_globals st10 (store (globals st10) "x" (loud (VInt 2)))) (loud (VInt 4)).
Proof.
  eapply rc_binary with (st1 := set_globals st10 (store (globals st10) "x" (loud (VInt 2)))); [discriminate| | |].
  - apply (rc_assign env0 3 "x" [] (num 2) st10 st10 (loud (VInt 2))). now apply rc_last.
  - reflexivity.
  - reflexivity.
Qed.

(* ==== C56 ==== *)
(* With one step more than there are tokens none of the parsing functions runs out of steps:
   each returns a tree and what is left of the tokens, or an error. *)
Theorem parser_stops : forall d ts,
  p_expr d (enough ts) ts <> PFuel /\ expression_list d (enough ts) ts <> PFuel /\ func_arg (enough ts) ts <> PFuel.
Proof.
  intros d ts. split; [apply p_expr_fuel; unfold enough; lia|]. split; [|apply func_arg_fuel; unfold enough; lia].
  unfold expression_list. intros H. destruct (statement_list d (enough ts) ts) as [l r| |] eqn:E; cbn in H; try discriminate; [destruct r; discriminate|].
  revert E. apply statement_fuel. unfold enough. lia.
Qed.
Print Assumptions parser_stops.
(* More steps change nothing, so the bound is not part of the result. *)
Theorem steps_irrelevant : forall d ts n, enough ts <= n ->
  p_expr d n ts = p_expr d (enough ts) ts /\ expression_list d n ts = expression_list d (enough ts) ts.
Proof.
  intros d ts n H. unfold enough in *.
  assert (A : p_expr d n ts = p_expr d (S (length ts)) ts) by (apply p_expr_any; lia). split; auto.
  destruct (expression_list d (S (length ts)) ts) as [l r| |] eqn:E.
  - apply expression_list_sound in E. destruct E as [-> E]. apply expression_list_complete; auto.
  - destruct (expression_list d n ts) as [l r| |] eqn:E2; auto.
    + apply expression_list_sound in E2. destruct E2 as [-> E2]. rewrite (expression_list_complete d (S (length ts)) ts l) in E; [discriminate|auto|lia].
    + exfalso. revert E2. unfold expression_list. destruct (statement_list d n ts) as [l r| |] eqn:E3; cbn; try discriminate; [now destruct r|].
      intros _. revert E3. apply statement_fuel. lia.
  - exfalso. revert E. apply (parser_stops d ts).
Qed.
Print Assumptions steps_irrelevant.
(* What is parsed is a part of the line from its beginning, not empty; parsing stops at the
   end of the line or before a closing bracket, a semicolon or a colon. *)
Theorem parser_consumes : forall d n ts e rest, p_expr d n ts = POk e rest ->
  exists used, used <> [] /\ ts = used ++ rest /\ Expr d used e /\ stops rest.
Proof.
  intros d n ts e rest H. destruct (p_expr_sound d _ _ _ _ H) as (u & -> & He & Hs). exists u.
  split; [exact (begins_nonempty _ _ (proj1 (starts_all d) _ _ He))|auto].
Qed.
Print Assumptions parser_consumes.
(* A line is a list of statements of the grammar, or it is an error: nothing is dropped. *)
Theorem line_statements : forall bu bb u b ts more l, ts <> [] -> match ts with KDef :: _ | KUndef :: _ => False | _ => True end ->
  parse_tokens bu bb u b ts more = LExprs l <-> Statements (mkScope bu bb (names u) (names b) []) ts l.
Proof.
  intros bu bb u b ts more l Ne Hd. set (d := mkScope bu bb (names u) (names b) []).
  assert (S1 : Statements d ts l -> has_err ts = false /\ begins starts_expr ts).
  { clear Ne Hd. intros H.
    assert (One : forall ts e, Statement d ts e -> begins starts_expr ts).
    { intros ts0 e [ts' e' X|ts1 l1 ts2 r X1 X2]; [exact (proj1 (starts_all d) _ _ X)|].
      destruct (proj1 (starts_all d) _ _ X1) as (t & ts' & -> & Hst). exists t. eexists. split; [reflexivity|auto]. }
    induction H as [ts e X|ts e ts' l X Hl IH].
    - split; [exact (proj2 (statement_ne _ _ _ X))|eauto].
    - split; [rewrite has_err_app, has_err_cons, (proj2 (statement_ne _ _ _ X)); cbn; tauto|].
      destruct (One _ _ X) as (t & ts2 & -> & Hst). exists t. eexists. split; [reflexivity|auto]. }
  split.
  - unfold parse_tokens. destruct (has_err ts); [discriminate|]. fold d.
    assert (K : match expression_list d (enough ts) ts with POk l _ => LExprs l | _ => LBad end = LExprs l -> Statements d ts l).
    { destruct (expression_list d (enough ts) ts) as [l' r| |] eqn:E; try discriminate. intros X. injection X as <-. now apply expression_list_sound in E. }
    destruct ts as [|t ts]; [congruence|]. destruct t; try exact K; try discriminate; contradiction.
  - intros H. destruct (S1 H) as [He (t & ts' & E & Hst)]. unfold parse_tokens. rewrite He. fold d.
    rewrite (expression_list_complete d (enough ts) ts l H) by (unfold enough; lia). subst ts. destruct t; try contradiction; auto.
Qed.
Print Assumptions line_statements.
Example stops_example : p_expr d0 (enough [k 1; KOp "+"; KLParen; k 2]) [k 1; KOp "+"; KLParen; k 2] = PErr /\
  expression_list d0 9 [KId "x"; KLBrack; k 1; KSemi; KRBrack; KSemi; KId "y"; KColon; k 2] =
    POk [EIndex (EVar "x" 0) [Some (num 1); None]; ECond (EVar "y" 0) (num 2)] [].
Proof. split; reflexivity. Qed.

(* The parser satisfies what P_Exec.v asks of one, whatever the scanner. *)
Theorem parser_wf : forall E bu bb scan, parse_line E = parse_with bu bb scan -> wf_parser wf_func E.
Proof.
  intros E bu bb scan H u b text. rewrite H. unfold parse_with. destruct (scan u b text) as [ts more]. apply parse_tokens_wf.
Qed.
Print Assumptions parser_wf.
(* So the call stack is balanced after every line of every program, from the empty state. *)
Theorem program_stack : forall E bu bb scan n ls st, parse_line E = parse_with bu bb scan ->
  st = mkCtx [] [] [] [] [] [] [] 0 -> stack (fst (run_lines E n ls st)) = [] /\ frames (fst (run_lines E n ls st)) = [].
Proof.
  intros E bu bb scan n ls st H ->. apply lines_stack; auto.
  - exact (parser_wf E bu bb scan H).
  - split; intros name fn X; discriminate.
Qed.
Print Assumptions program_stack.

(* ==== C57 ==== *)
Theorem print_parse_refuted :
  (* 1 (3[1]) is printed as 1 3[1], which is (1 3)[1] *)
  (exists ts e, p_expr d0 (enough ts) ts = POk e [] /\ Forall (scanned tok0) ts /\
     p_expr d0 (enough (print tok0 e)) (print tok0 e) <> POk e [] /\
     exists e', p_expr d0 (enough (print tok0 e)) (print tok0 e) = POk e' []) /\
  (* 3 (mod), with a variable named mod, is printed as 3 mod, which is an error *)
  (exists ts e, p_expr d0 (enough ts) ts = POk e [] /\ Forall (scanned tok0) ts /\
     p_expr d0 (enough (print tok0 e)) (print tok0 e) = PErr).
Proof.
  split.
  - exists [k 1; KLParen; k 3; KLBrack; k 1; KRBrack; KRParen], (EVector [num 1; EIndex (num 3) [Some (num 1)]]).
    split; [reflexivity|]. split; [repeat constructor|]. split; [vm_compute; discriminate|]. eexists. vm_compute. reflexivity.
  - exists [k 3; KLParen; KId "mod"; KRParen], (EVector [num 3; EVar "mod" 0]).
    split; [reflexivity|]. split; [|reflexivity]. repeat constructor. discriminate.
Qed.
Print Assumptions print_parse_refuted.
(* Apart from these: the printed form of a parsed expression parses to the same tree. *)
Theorem print_parse_partial : forall d tok ts e, p_expr d (enough ts) ts = POk e [] -> Forall (scanned tok) ts ->
  names_apart d e -> separable d e = true -> p_expr d (enough (print tok e)) (print tok e) = POk e [].
Proof. intros. eapply print_parse; eauto. Qed.
Print Assumptions print_parse_partial.
(* The same for a whole operator: the printed definition, followed by an empty line or the
   end of the input, defines the same operator. *)
Theorem print_operator_partial : forall tok bu bb u b ts more fn0 fn body rest,
  parse_tokens bu bb u b (KDef :: ts) more = LDefine fn0 fn true -> f_body fn = Some body ->
  Forall (scanned tok) ts -> Forall (Forall (scanned tok)) more ->
  Forall (fun e => names_apart (def_scope bu bb u b fn0) e /\ separable (def_scope bu bb u b fn0) e = true) body ->
  (rest = [] \/ exists r, rest = [] :: r) ->
  parse_tokens bu bb u b (fst (print_func tok fn)) (snd (print_func tok fn) ++ rest) = LDefine fn0 fn true.
Proof. exact print_func_parse. Qed.
Print Assumptions print_operator_partial.
(* An operator that has only been declared does not print back. *)
Theorem print_declared_refuted : exists tok bu bb u b ts fn0 fn,
  parse_tokens bu bb u b (KDef :: ts) [] = LDefine fn0 fn true /\
  parse_tokens bu bb u b (fst (print_func tok fn)) (snd (print_func tok fn)) = LDefine fn0 fn0 false.
Proof.
  exists tok0, bu0, bb0, [], [], [KId "g"; KId "x"]. eexists. eexists. split; [reflexivity|]. reflexivity.
Qed.
Print Assumptions print_declared_refuted.
(* (x + 1) - x[2; ] ; 'ab' *)
Example print_example :
  let ts := [KLParen; KId "x"; KOp "+"; k 1; KRParen; KOp "-"; KId "x"; KLBrack; k 2; KSemi; KRBrack] in
  exists e, p_expr d0 (enough ts) ts = POk e [] /\ Forall (scanned tok0) ts /\ names_apart d0 e /\ separable d0 e = true /\ print tok0 e = ts.
Proof.
  cbn zeta. eexists. split; [reflexivity|]. split; [repeat constructor; discriminate|]. split; [|split; reflexivity].
  intros s H. cbn in H. repeat (destruct H as [<-|H]; [reflexivity|]). contradiction.
Qed.
(* op (a b) g n =
     n == 0 : a
     (b a+b) g n - 1 *)
Definition gsrc : list token := [KLParen; KId "a"; KId "b"; KRParen; KId "g"; KId "n"; KAssign].
Definition gbody : list (list token) :=
  [[KId "n"; KOp "-"; k 0; KColon; KId "a"]; [KLParen; KId "b"; KLParen; KId "a"; KOp "+"; KId "b"; KRParen; KRParen; KId "g"; KId "n"; KOp "-"; k 1]].
Example print_operator_example : exists fn0 fn body, parse_tokens bu0 bb0 [] [] (KDef :: gsrc) gbody = LDefine fn0 fn true /\ f_body fn = Some body /\
  Forall (scanned tok0) gsrc /\ Forall (Forall (scanned tok0)) gbody /\
  Forall (fun e => names_apart (def_scope bu0 bb0 [] [] fn0) e /\ separable (def_scope bu0 bb0 [] [] fn0) e = true) body /\
  f_locals fn = ["b"; "a"; "n"].
Proof.
  eexists. eexists. eexists. split; [vm_compute; reflexivity|]. split; [reflexivity|].
  split; [repeat constructor; discriminate|]. split; [repeat constructor; discriminate|]. split; [|reflexivity].
  repeat constructor; intros s H; cbn in H; repeat (destruct H as [<-|H]; [reflexivity|]); contradiction.
Qed.

(* ==== C58 ==== *)
(* Every occurrence of a name in an operator refers to one variable: loc gives for each name
   its local variable, or 0 for the global. *)
Theorem one_variable : forall bu bb u b ts more fn0 fn, parse_tokens bu bb u b ts more = LDefine fn0 fn true -> exists loc, resolved loc fn.
Proof. intros. edestruct parsed_resolved as (loc & R & _); eauto. Qed.
Print Assumptions one_variable.
(* It is the local variable if its first use is an assignment; proved where each conditional
   uses first in the same way a name it has on both sides. *)
Theorem local_iff_partial : forall bu bb u b ts more fn0 fn, parse_tokens bu bb u b ts more = LDefine fn0 fn true ->
  match f_body fn with Some body => conditionals_agree (arguments fn) body | None => True end ->
  exists loc, resolved loc fn /\ forall s, loc s <> 0 <-> first_use s (func_uses fn) = Some true.
Proof. intros bu bb u b ts more fn0 fn H C. destruct (parsed_resolved _ _ _ _ _ _ _ _ H) as (loc & R & F). eauto. Qed.
Print Assumptions local_iff_partial.
(* Not in general: in
     op f n = x : x = 1
   x is read first, but is made local because the right side is looked at first. *)
Theorem local_iff_refuted : exists bu bb u b ts more fn0 fn, parse_tokens bu bb u b ts more = LDefine fn0 fn true /\
  first_use "x" (func_uses fn) = Some false /\ forall loc, resolved loc fn -> loc "x" <> 0.
Proof.
  exists bu0, bb0, [], [], [KDef; KId "g"; KId "n"; KAssign; KId "x"; KColon; KId "x"; KAssign; k 1], []. eexists. eexists.
  split; [vm_compute; reflexivity|]. split; [reflexivity|]. intros loc (_ & _ & B & _). cbn in B. inversion B as [|? ? X _]; subst.
  destruct X as [X _]. cbn in X. rewrite <-X. discriminate.
Qed.
Print Assumptions local_iff_refuted.
(* the arguments are local *)
Theorem arguments_local : forall bu bb u b ts more fn0 fn s, parse_tokens bu bb u b ts more = LDefine fn0 fn true ->
  In s (map fst (arguments fn)) -> forall loc, resolved loc fn -> loc s <> 0.
Proof.
  intros bu bb u b ts more fn0 fn s H Hs loc R. exact (parsed_arguments _ _ _ _ _ _ _ _ s H Hs loc R).
Qed.
Print Assumptions arguments_local.
(* op g n =
     t = n + x
     t : x = 5
     t + y *)
Definition lsrc : list token := [KDef; KId "g"; KId "n"; KAssign].
Definition lbody : list (list token) :=
  [[KId "t"; KAssign; KId "n"; KOp "+"; KId "x"]; [KId "t"; KColon; KId "x"; KAssign; k 5]; [KId "t"; KOp "+"; KId "y"]].
Example local_example : exists fn0 fn body, parse_tokens bu0 bb0 [] [] lsrc lbody = LDefine fn0 fn true /\ f_body fn = Some body /\
  conditionals_agree (arguments fn) body /\ f_locals fn = ["n"; "t"] /\
  first_use "t" (func_uses fn) = Some true /\ first_use "x" (func_uses fn) = Some false /\ first_use "n" (func_uses fn) = Some true.
Proof.
  eexists. eexists. eexists. split; [vm_compute; reflexivity|]. split; [reflexivity|]. split; [|repeat split].
  cbn. repeat split; auto. intros s. destruct (String.eqb_spec s "t") as [->|N1]; [left; discriminate|]. right. left. cbn. now destruct (String.eqb_spec s "t").
Qed.

(* ==== C64 ==== *)
(* A definition defines the operator its text says: its name, arguments and the statements
   of its body, parsed where the operator itself is already known and its arguments are
   variables. *)
Theorem definition_text : forall bu bb u b ts more fn0,
  (forall fn, parse_tokens bu bb u b (KDef :: ts) more = LDefine fn0 fn true ->
     exists body, DefText bu bb u b more ts fn0 body /\ plain_func fn = mkFunc (f_binary fn0) (f_name fn0) (f_left fn0) (f_right fn0) body []) /\
  (forall body, DefText bu bb u b more ts fn0 body ->
     exists fn, parse_tokens bu bb u b (KDef :: ts) more = LDefine fn0 fn true /\
       plain_func fn = mkFunc (f_binary fn0) (f_name fn0) (f_left fn0) (f_right fn0) body []).
Proof. intros. split; intros; [eapply definition_sound|eapply definition_complete]; eauto. Qed.
Print Assumptions definition_text.
(* The arguments and the operator's name are distinct names: op x x x and op a f a are
   rejected. *)
Theorem definition_names : forall bu bb u b ts more fn0 fn, parse_tokens bu bb u b (KDef :: ts) more = LDefine fn0 fn true ->
  NoDup (f_name fn :: map fst (arguments fn)).
Proof.
  intros bu bb u b ts more fn0 fn H. destruct (definition_sound _ _ _ _ _ _ _ _ H) as (body & D & P).
  assert (E : NoDup (f_name fn0 :: match f_left fn0 with Some e => variables e | None => [] end ++ variables (f_right fn0))) by now destruct D.
  rewrite <-arguments_plain. assert (En : f_name fn = f_name fn0) by exact (f_equal f_name P). rewrite En, P. unfold arguments. cbn [f_left f_right].
  assert (A : forall ts e, Arg ts e -> Permutation (map fst (uses true e)) (variables e)) by exact (proj1 arg_names).
  destruct D as [tl tr ts fn0 body Hleft Ar _ _ _ _ _]. rewrite map_app.
  eapply Permutation_NoDup; [|exact E]. apply perm_skip. symmetry. apply Permutation_app; [|exact (A _ _ Ar)].
  destruct (f_left fn0) as [e|]; auto. destruct Hleft as [_ Ha]. exact (A _ _ Ha).
Qed.
Print Assumptions definition_names.
(* opdelete: the operator named, unary or binary, and nothing else on the line *)
Theorem delete_text : forall bu bb u b ts more name bin, parse_tokens bu bb u b (KUndef :: ts) more = LDelete name bin <->
  if bin then exists tl tr l r, ts = tl ++ KId name :: tr /\ Arg tl l /\ Arg tr r
  else exists tr r, ts = KId name :: tr /\ Arg tr r.
Proof. exact delete_iff. Qed.
Print Assumptions delete_text.
Example definition_example : exists fn0 body, DefText bu0 bb0 [] [] gbody gsrc fn0 (Some body) /\ f_name fn0 = "g" /\ length body = 2.
Proof.
  destruct print_operator_example as (fn0 & fn & body & H & Hb & _).
  destruct (proj1 (definition_text bu0 bb0 [] [] gsrc gbody fn0) fn H) as (b' & D & P).
  assert (Pb := f_equal f_body P). cbn in Pb. rewrite Hb in Pb. cbn in Pb. subst b'. exists fn0, (map plain body). split; [exact D|].
  vm_compute in H. injection H as <- <-. cbn in Hb. injection Hb as <-. auto.
Qed.
Example delete_example : parse_tokens bu0 bb0 [] [] [KUndef; KId "a"; KId "g"; KId "b"] [] = LDelete "g" true.
Proof. reflexivity. Qed.

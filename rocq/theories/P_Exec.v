(* Theorems about the execution of programs: C48, C49, C50, C51, C61, C62. *)
From Coq Require Import String Lia QArith.
From Verif Require Import NumSpec Value Syntax ExecModel ExecSpec ExecProofs ExecMono ExecFresh ExecTrans ExecHist ExecBody.
Open Scope string_scope.
Open Scope list_scope.
Open Scope nat_scope.

(* ---- a small interpreter for the examples ---- *)
(* Binary + on integers; unary "-"; reduction by calling back. *)
Definition add_prog (a b : rval) : prog :=
  match val a, val b with VInt x, VInt y => Done (Ok (loud (VInt (x + y)))) | _, _ => Done Err end.
Definition reduce_prog (op : string) (v : rval) : prog :=
  match val v with VVec [x; y] => Call2 (loud x) op (loud y) (fun r => Done (Ok r)) | _ => Done Err end.
Definition none1 (_ : string) (_ : rval) : prog := Done Err.
Definition none2 (_ : rval) (_ : string) (_ : rval) : prog := Done Err.
Definition ivy_prog (v : rval) : prog := CallLine "f 1" (fun l => Done (match l with [x] => Ok x | _ => Err end)).
Definition bs : builtins :=
  mkB [("ivy", ivy_prog)] [("+", add_prog)] reduce_prog none1 none1 none1 none1 none2 none2 (fun _ _ _ => None).
Definition num (z : Z) : expr := EVal (VInt z).
(* op f n =
     n : x = 1
     x *)
Definition stale : func := mkFunc false "f" None (EVar "n" 1)
  (Some [ECond (EVar "n" 1) (EBinary "=" (EVar "x" 2) (num 1)); EVar "x" 2]) ["n"; "x"].
Definition declared (fn : func) : func := mkFunc (f_binary fn) (f_name fn) (f_left fn) (f_right fn) None [].
(* op a add b =
     t = a + b
     b : t + 1
     t *)
Definition adder : func := mkFunc true "add" (Some (EVar "a" 1)) (EVar "b" 2)
  (Some [EBinary "=" (EVar "t" 3) (EBinary "+" (EVar "a" 1) (EVar "b" 2));
         ECond (EVar "b" 2) (EBinary "+" (EVar "t" 3) (num 1)); EVar "t" 3]) ["a"; "b"; "t"].
Definition adder0 : func := mkFunc true "add" (Some (EVar "a" 1)) (EVar "b" 2) None ["a"; "b"].
Definition stale0 : func := mkFunc false "f" None (EVar "n" 1) None ["n"].
(* op g x =
     x : f
     f = x *)
Definition meddler : func := mkFunc false "g" None (EVar "x" 1)
  (Some [ECond (EVar "x" 1) (EVar "f" 0); EBinary "=" (EVar "f" 0) (EVar "x" 1)]) ["x"].
Definition meddler0 : func := mkFunc false "g" None (EVar "x" 1) None ["x"].
(* op f x = x *)
Definition ident : func := mkFunc false "f" None (EVar "x" 1) (Some [EVar "x" 1]) ["x"].
Definition ident0 : func := mkFunc false "f" None (EVar "x" 1) None ["x"].
(* op r x = r x + 1 *)
Definition loop : func := mkFunc false "r" None (EVar "x" 1) (Some [EUnary "r" (EBinary "+" (EVar "x" 1) (num 1))]) ["x"].
Definition loop0 : func := mkFunc false "r" None (EVar "x" 1) None ["x"].
Definition read (_ _ : table func) (text : string) : line :=
  if String.eqb text "op add" then LDefine adder0 adder true
  else if String.eqb text "op g" then LDefine meddler0 meddler true
  else if String.eqb text "op f" then LDefine ident0 ident true
  else if String.eqb text "op r" then LDefine loop0 loop true
  else if String.eqb text "op f bad" then LDefine ident0 ident false
  else if String.eqb text "f 1" then LExprs [EUnary "f" (num 1)]
  else if String.eqb text "f 0" then LExprs [EUnary "f" (num 0)]
  else if String.eqb text "g 0" then LExprs [EUnary "g" (num 0)]
  else if String.eqb text "r 0" then LExprs [EUnary "r" (num 0)]
  else if String.eqb text "y = 2 add 3" then LExprs [EBinary "=" (EVar "y" 0) (EBinary "add" (num 2) (num 3))]
  else if String.eqb text "y" then LExprs [EVar "y" 0]
  else if String.eqb text "y; z" then LExprs [EBinary "=" (EVar "y" 0) (num 7); EVar "z" 0]
  else LBad.
Definition env0 : env := mkEnv (mkConf 0 1) 5 bs read.
Definition start : ctx := mkCtx [] [] [] [] [] [] [] 0.

Lemma wf_adder : definite adder /\ definite adder0.
Proof.
  split; (split; [split; [split; [discriminate|easy]|split; [intros e H; injection H as <-; reflexivity|split; [easy|]]];
     intros body H; try discriminate; injection H as <-; reflexivity|]); (eexists; split; [vm_compute; reflexivity|]);
     intros body H; try discriminate; injection H as <-; reflexivity.
Qed.
Ltac wf1 := split; [split; [discriminate|easy]|split; [discriminate|split; [easy|]]];
     intros body H; try discriminate; injection H as <-; reflexivity.
Ltac def1 := split; [wf1|]; (eexists; split; [vm_compute; reflexivity|]);
     intros body H; try discriminate; injection H as <-; reflexivity.
Lemma definite_read : wf_parser definite env0.
Proof.
  intros u b text. cbn. unfold read.
  repeat match goal with |- context [if ?c then _ else _] => destruct c end; cbn; auto.
  - split; [easy|]. split; [easy|]. apply and_comm, wf_adder.
  - split; [easy|]. split; [easy|]. split; def1.
  - split; [easy|]. split; [easy|]. split; def1.
  - split; [easy|]. split; [easy|]. split; def1.
  - split; [easy|]. split; [easy|]. split; def1.
Qed.
Lemma wf_read : wf_parser wf_func env0.
Proof.
  intros u b text. pose proof (definite_read u b text) as H. destruct (parse_line env0 u b text); cbn in *; auto.
  destruct H as (? & ? & [? _] & [? _]). auto.
Qed.
Lemma tables_start P : tables P start.
Proof. split; discriminate. Qed.

(* ---- C49 ---- *)
(* After a call of an operator, by the user or by the interpreter itself, whatever its
   outcome, the stack holds what it held. *)
Theorem call_balanced : forall E n t st, wf_parser wf_func E -> tables wf_func st ->
  match t with TExpr _ => False | _ => True end ->
  let st' := fst (exec E n t st) in stack st' = stack st /\ frames st' = frames st /\ tables wf_func st'.
Proof.
  intros E n t st Hp T Ht. assert (K := exec_safe wf_func pad E pad_length (fun fn H => H) Hp n 0 t).
  destruct t; [contradiction| |]; specialize (K eq_refl st T); destruct K as [F L Hs Tb _ _]; cbn [task_depth] in *;
    rewrite Nat.sub_0_r in Hs; rewrite firstn_all in Hs; rewrite <- L, firstn_all in Hs; (split; [exact Hs|]; split; [exact F|now apply Tb]).
Qed.
Print Assumptions call_balanced.
(* Evaluating an expression changes none of the locals of the callers. *)
Theorem expression_balanced : forall E n e k st, wf_parser wf_func E -> tables wf_func st -> within k e = true ->
  let st' := fst (exec E n (TExpr e) st) in
  frames st' = frames st /\ length (stack st') = length (stack st) /\
  firstn (length (stack st) - k) (stack st') = firstn (length (stack st) - k) (stack st).
Proof.
  intros E n e k st Hp T He.
  destruct (exec_safe wf_func pad E pad_length (fun fn H => H) Hp n k (TExpr e) He st T) as [F L Hs _ _ _]. auto.
Qed.
Print Assumptions expression_balanced.
(* Nesting never exceeds maxstack. *)
Theorem stack_bounded : forall E n t k st, wf_parser wf_func E -> tables wf_func st ->
  match t with TExpr e => within k e = true | _ => True end ->
  peak (fst (exec E n t st)) <= Nat.max (peak st) (maxstack E).
Proof.
  intros E n t k st Hp T Ht.
  assert (K : task_within k t = true) by (destruct t; auto).
  exact (k_high _ _ _ _ _ (exec_safe wf_func pad E pad_length (fun fn H => H) Hp n k t K st T)).
Qed.
Print Assumptions stack_bounded.
(* peak is what it says: at least the depth on entering any operator, and never lowered.
   With stack_bounded: no operator is ever entered at a depth above maxstack. *)
Theorem depth_recorded : forall E n t k st m, wf_parser wf_func E -> tables wf_func st ->
  match t with TExpr e => within k e = true | _ => True end ->
  length (frames (push m st)) = S (length (frames st)) /\ length (frames (push m st)) <= peak (push m st) /\
  peak st <= peak (push m st) /\ peak st <= peak (pop st) /\ peak st <= peak (fst (exec E n t st)).
Proof.
  intros E n t k st m Hp T Ht.
  assert (K : task_within k t = true) by (destruct t; auto).
  unfold push, push_cells, pop. cbn [frames peak]. rewrite app_length. cbn [length].
  repeat split; try lia.
  exact (k_low _ _ _ _ _ (exec_safe wf_func pad E pad_length (fun fn H => H) Hp n k t K st T)).
Qed.
Print Assumptions depth_recorded.
(* A call that would exceed it is an error, and changes nothing. *)
Theorem stack_overflow : forall E n op v st fn, classify1 op = FPlain -> operator st op false = Some fn ->
  maxstack E <= length (frames st) -> exec E (S n) (TUnary op v) st = (st, Err).
Proof.
  intros E n op v st fn Hc Hf Hm. unfold exec. cbn [exec_with step]. rewrite Hc. unfold operator in Hf. rewrite Hf.
  unfold call. destruct (f_body fn); [|reflexivity]. destruct (Nat.leb_spec (maxstack E) (length (frames st))); [reflexivity|lia].
Qed.
Print Assumptions stack_overflow.
Theorem stack_overflow_binary : forall E n op a v st fn, classify2 op = GPlain -> op <> "==" -> op <> "!=" ->
  operator st op true = Some fn -> maxstack E <= length (frames st) -> exec E (S n) (TBinary a op v) st = (st, Err).
Proof.
  intros E n op a v st fn Hc H1 H2 Hf Hm. unfold exec. cbn [exec_with step].
  rewrite (proj2 (String.eqb_neq _ _) H1), (proj2 (String.eqb_neq _ _) H2), Hc. unfold operator in Hf. rewrite Hf.
  unfold call. destruct (f_body fn); [|reflexivity]. destruct (Nat.leb_spec (maxstack E) (length (frames st))); [reflexivity|lia].
Qed.
Print Assumptions stack_overflow_binary.
(* r calls itself without end: an error after five frames, and the stack is empty. *)
Example stack_example :
  let r := run_lines env0 100 ["op r"; "r 0"] start in
  snd r = [Ok []; Err] /\ stack (fst r) = [] /\ frames (fst r) = [] /\ peak (fst r) = 5.
Proof. vm_compute. auto. Qed.

(* More steps never change an outcome that has been reached. *)
Theorem more_steps : forall E n m t st, n <= m -> snd (exec E n t st) <> Unmod -> exec E m t st = exec E n t st.
Proof. intros E n m t st H. now apply exec_more. Qed.
Print Assumptions more_steps.
Theorem more_steps_lines : forall E n m ls st, n <= m -> ~ In Unmod (snd (run_lines E n ls st)) -> run_lines E m ls st = run_lines E n ls st.
Proof. intros E n m ls st H. now apply run_lines_more. Qed.
Print Assumptions more_steps_lines.

(* ---- C48 ---- *)
(* A value of an earlier call shows: f 0 reads x, which it has not assigned, and gives
   the 1 that f 1 assigned to its own x. *)
Definition env1 : env := mkEnv (mkConf 0 1) 5 bs
  (fun _ _ text => if String.eqb text "op f" then LDefine stale0 stale true else read [] [] text).
Theorem locals_fresh_refuted :
  snd (run_lines env1 100 ["op f"; "f 0"; "f 1"; "f 0"] start) =
    [Ok []; Err; Ok [mkR true (VInt 1)]; Ok [loud (VInt 1)]] /\
  snd (fresh_run_lines env1 100 ["op f"; "f 0"; "f 1"; "f 0"] start) =
    [Ok []; Err; Ok [mkR true (VInt 1)]; Err].
Proof. vm_compute. auto. Qed.
Print Assumptions locals_fresh_refuted.
(* If no operator reads a local before assigning it, every program behaves as with frames
   that start empty.  Missing: operators that may do so, for which the claim is false. *)
Theorem locals_fresh_partial : forall E n ls st, wf_parser definite E -> tables definite st ->
  snd (run_lines E n ls st) = snd (fresh_run_lines E n ls st) /\
  globals (fst (run_lines E n ls st)) = globals (fst (fresh_run_lines E n ls st)) /\
  unary (fst (run_lines E n ls st)) = unary (fst (fresh_run_lines E n ls st)) /\
  binary (fst (run_lines E n ls st)) = binary (fst (fresh_run_lines E n ls st)) /\
  defs (fst (run_lines E n ls st)) = defs (fst (fresh_run_lines E n ls st)).
Proof.
  intros E n ls st Hp T. destruct (run_lines_rel E Hp n ls st st T) as [H1 [H2 H3 H4 H5 H6 _ _ _]]; [|auto].
  constructor; auto.
Qed.
Print Assumptions locals_fresh_partial.
Example fresh_example : wf_parser definite env0 /\ tables definite start /\
  snd (run_lines env0 100 ["op add"; "y = 2 add 3"; "y"] start) = [Ok []; Ok [mkR true (VInt 6)]; Ok [loud (VInt 6)]].
Proof. split; [exact definite_read|]. split; [apply tables_start|]. vm_compute. auto. Qed.

(* ---- C50 ---- *)
(* Whatever is evaluated, the symbol tables change by assignments, definitions and
   deletions only. *)
Theorem evaluation_history : forall E n t st, wf_parser (fun _ => True) E -> tables (fun _ => True) st ->
  exists evs, Forall wf_event evs /\ symbols (fst (exec E n t st)) = symbols (fold_left happens evs st).
Proof. intros E n t st Hp T. now apply exec_reached. Qed.
Print Assumptions evaluation_history.
Theorem program_history : forall E n ls st, wf_parser (fun _ => True) E -> tables (fun _ => True) st ->
  exists evs, Forall wf_event evs /\ symbols (fst (run_lines E n ls st)) = symbols (fold_left happens evs st).
Proof. intros E n ls st Hp T. now apply run_lines_reached. Qed.
Print Assumptions program_history.
(* The order of definitions lists the operators defined, each once, after any history in
   which the definitions that fail are of operators defined before.  Missing: a new
   operator whose definition fails, for which it is false (below). *)
Theorem table_consistent_partial : forall evs st, Forall wf_event evs -> consistent st -> no_new_failure st evs ->
  consistent (fold_left happens evs st).
Proof. exact history_consistent. Qed.
Print Assumptions table_consistent_partial.
Example table_example :
  let evs := [EvDefine ident0 ident true; EvDefine meddler0 meddler true; EvAssign "y" (loud (VInt 1));
              EvDefine ident0 ident false; EvDelete "g" false; EvDefine adder0 adder true] in
  Forall wf_event evs /\ no_new_failure start evs /\ defs (fold_left happens evs start) = [("f", false); ("add", true)].
Proof.
  split; [repeat constructor|]. split; [|reflexivity].
  cbn. repeat split; auto. unfold defined. cbn. discriminate.
Qed.
(* A failed definition of a new operator leaves it in the order of definitions. *)
Theorem failed_definition_refuted :
  consistent start /\ snd (run_lines env0 100 ["op f bad"] start) = [Err] /\
  ~ consistent (fst (run_lines env0 100 ["op f bad"] start)).
Proof.
  split; [split; [constructor|]; intros name b; split; [intros []|]; destruct b; intros H; now destruct H|].
  split; [vm_compute; reflexivity|]. intros [_ H]. specialize (H "f" false).
  assert (Hin : In ("f", false) (defs (fst (run_lines env0 100 ["op f bad"] start)))) by (vm_compute; auto).
  apply H in Hin. apply Hin. vm_compute. reflexivity.
Qed.
Print Assumptions failed_definition_refuted.
(* A failed definition keeps every operator, and every variable but that of the name. *)
Theorem failed_definition : forall fn0 fn parsed st st' r, f_name fn0 = f_name fn -> f_binary fn0 = f_binary fn ->
  define_op fn0 fn parsed st = (st', r) -> r <> Ok tt ->
  (forall name b, operator st' name b = operator st name b) /\
  (forall name, name <> f_name fn -> find (globals st') name = find (globals st) name).
Proof.
  intros fn0 fn parsed st st' r H1 H2 H3 H4. split.
  - exact (failed_keeps fn0 fn parsed st st' r H1 H2 H3 H4).
  - exact (failed_variables fn0 fn parsed st st' r H1 H2 H3).
Qed.
Print Assumptions failed_definition.
(* A definition defines the operator and nothing else; it is then the most recent. *)
Theorem definition : forall fn0 fn st st', f_name fn0 = f_name fn -> f_binary fn0 = f_binary fn ->
  define_op fn0 fn true st = (st', Ok tt) ->
  operator st' (f_name fn) (f_binary fn) = Some fn /\
  find (globals st') (f_name fn) = None /\
  (forall name b, (name, b) <> (f_name fn, f_binary fn) -> operator st' name b = operator st name b) /\
  (forall name, name <> f_name fn -> find (globals st') name = find (globals st) name) /\
  (NoDup (defs st) -> exists l, defs st' = l ++ [(f_name fn, f_binary fn)] /\
     forall d, In d l <-> In d (defs st) /\ d <> (f_name fn, f_binary fn)).
Proof.
  intros fn0 fn st st' H1 H2 H3. destruct (success_defines fn0 fn st st' H1 H2 H3) as (A & B & C & D).
  repeat split; auto. exact (failed_variables fn0 fn true st st' _ H1 H2 H3).
Qed.
Print Assumptions definition.
(* A definition succeeds unless the name is reserved or that of a variable not zero. *)
Theorem definition_succeeds : forall fn0 fn st, f_name fn0 = f_name fn -> f_binary fn0 = f_binary fn ->
  (snd (define_op fn0 fn true st) = Ok tt <->
   ~ In (f_name fn) ["_"; "pi"; "e"] /\
   (find (globals st) (f_name fn) = None \/ find (globals st) (f_name fn) = Some (loud (VInt 0)))).
Proof.
  intros fn0 fn st Hn Hb.
  destruct (define_op_cases fn0 fn true st Hn Hb) as [[H H0]|(st1 & H0 & [(_ & st2 & H1 & H)|(Hx & _)])]; [| |discriminate].
  - rewrite H. cbn [snd]. split; [discriminate|]. intros [Hr Hv]. exfalso.
    destruct (define_cases fn0 st) as [[_ Hbad]|[_ (s & Hs & _)]]; [|congruence]. rewrite Hn in Hbad.
    destruct Hbad as [Hbad|(v & Hf & Hz)]; [apply Hr; cbn; intuition|].
    destruct Hv as [Hv|Hv]; rewrite Hf in Hv; [discriminate|]. injection Hv as ->. discriminate.
  - rewrite H. cbn [snd]. split; [intros _|auto].
    destruct (define_cases fn0 st) as [[Hbad _]|[Hg (s & Hs & Hr & _)]]; [congruence|]. rewrite Hn in Hr.
    split; [cbn; intuition|]. clear Hs Hr.
    unfold define, mbind, no_var in H0. rewrite Hn in H0.
    destruct (_ || _ || _); [discriminate|]. destruct (find (globals st) (f_name fn)) as [v|]; auto.
    right. f_equal. destruct (is_zero_int v) eqn:Hz; [|discriminate].
    destruct v as [q w]. unfold is_zero_int in Hz. cbn in Hz. destruct q; [discriminate|]. destruct w; try discriminate. 
    destruct z; try discriminate. reflexivity.
Qed.
Print Assumptions definition_succeeds.
(* opdelete removes the operator named and nothing else; it fails, changing nothing, if
   there is none. *)
Theorem opdelete : forall st name b, consistent st ->
  (operator st name b = None -> undefine name b st = (st, Err)) /\
  (operator st name b <> None -> exists st', undefine name b st = (st', Ok tt) /\
     operator st' name b = None /\ (forall n c, (n, c) <> (name, b) -> operator st' n c = operator st n c) /\
     globals st' = globals st /\ forall d, In d (defs st') <-> In d (defs st) /\ d <> (name, b)).
Proof.
  intros st name b [N D]. specialize (D name b). unfold defined, operator in *. unfold undefine.
  assert (He : existsb (fun x => same_def x (name, b)) (defs st) = true <-> In (name, b) (defs st)).
  { rewrite existsb_exists. split.
    - intros (x & Hx & Hs). destruct (same_def_spec x (name, b)); [congruence|discriminate].
    - intros H. exists (name, b). split; [exact H|]. now destruct (same_def_spec (name, b) (name, b)). }
  split.
  - intros H. destruct (existsb _ _); [|reflexivity]. exfalso. apply D in H; [exact H|]. now apply He.
  - intros H. apply D, He in H. rewrite H. eexists. split; [reflexivity|]. cbn. split; [|split; [|split]].
    + destruct b; cbn; now rewrite find_remove, String.eqb_refl.
    + intros n c Hne. destruct b, c; cbn; auto; rewrite find_remove; destruct (String.eqb_spec name n); congruence.
    + reflexivity.
    + intros d. now apply drop_def_in.
Qed.
Print Assumptions opdelete.

(* ---- C51 ---- *)
(* op g x = (x : f; f = x), then op f x = x, then g 0: f is an operator and a variable. *)
Theorem clash_refuted :
  snd (run_lines env0 100 ["op g"; "op f"; "g 0"] start) = [Ok []; Ok []; Ok [mkR true (VInt 0)]] /\
  clash (fst (run_lines env0 100 ["op g"; "op f"; "g 0"] start)) "f".
Proof. vm_compute. split; [easy|]. split; [discriminate|left; discriminate]. Qed.
Print Assumptions clash_refuted.
(* Definitions and deletions never make a name both.  Missing: assignments to the name of
   an operator, which are not prevented (exec/context.go:301 is never called). *)
Theorem no_clash_partial : forall evs st name, Forall wf_event evs -> no_op_assigned st evs ->
  ~ clash st name -> ~ clash (fold_left happens evs st) name.
Proof. intros evs st name W N H C. apply H. now apply history_clash in C. Qed.
Print Assumptions no_clash_partial.
Example no_clash_example :
  no_op_assigned start [EvAssign "f" (loud (VInt 0)); EvDefine ident0 ident true; EvAssign "y" (loud (VInt 3))] /\
  symbols (fold_left happens [EvAssign "f" (loud (VInt 0)); EvDefine ident0 ident true] start) = ([], [("f", ident)], [], [("f", false)]).
Proof. split; [|reflexivity]. cbn. unfold defined. cbn. repeat split; auto. Qed.

(* ---- C61 ---- *)
(* Lines are run one after the other, each in the context the one before left, whether
   or not that ended in an error. *)
Theorem lines_continue : forall E n before after st,
  forallb line_ends (snd (run_lines E n before st)) = true ->
  let st1 := fst (run_lines E n before st) in
  run_lines E n (before ++ after) st =
    (fst (run_lines E n after st1), snd (run_lines E n before st) ++ snd (run_lines E n after st1)).
Proof. intros E n before after st. apply run_lines_app. Qed.
Print Assumptions lines_continue.
(* Between lines the call stack is empty. *)
Theorem lines_stack : forall E n ls st, wf_parser wf_func E -> tables wf_func st -> stack st = [] -> frames st = [] ->
  stack (fst (run_lines E n ls st)) = [] /\ frames (fst (run_lines E n ls st)) = [].
Proof.
  intros E n ls st Hp T H1 H2. destruct (run_lines_stack pad E pad_length n ls Hp st T) as (A & B & _).
  unfold run_lines. rewrite A, B. auto.
Qed.
Print Assumptions lines_stack.
(* What was done before the error stays done: if the statements es1 of a line are executed
   and the next fails, the context is the one in which it failed. *)
Theorem error_keeps : forall E n u b text es1 e es2 st st1 st2 vs,
  unary st = u -> binary st = b -> parse_line E u b text = LExprs (es1 ++ e :: es2) ->
  eval_list (exec E n) es1 st = (st1, Ok vs) -> exec E n (TExpr e) st1 = (st2, Err) ->
  run_line E n text st = (st2, Err).
Proof.
  intros E n u b text es1 e es2 st st1 st2 vs <- <- Hp H1 H2. unfold exec in *. unfold run_line, run_line_with. unfold mbind at 1.
  rewrite Hp. cbn [eval_line]. rewrite (eval_list_app _ _ _ _ _ _ H1). cbn [eval_list]. unfold mbind. now rewrite H2.
Qed.
Print Assumptions error_keeps.
(* A line that does not parse changes nothing. *)
Theorem parse_error_keeps : forall E n text st, parse_line E (unary st) (binary st) text = LBad -> run_line E n text st = (st, Err).
Proof. intros E n text st H. unfold run_line, run_line_with, mbind. now rewrite H. Qed.
Print Assumptions parse_error_keeps.
(* An assignment whose right side fails assigns nothing. *)
Theorem failed_assignment : forall E n l r st st', exec E n (TExpr r) st = (st', Err) ->
  exec E (S n) (TExpr (EBinary "=" l r)) st = (st', Err).
Proof. intros E n l r st st' H. unfold exec in *. cbn [exec_with step]. unfold mbind. now rewrite H. Qed.
Print Assumptions failed_assignment.
(* A variable assigned by no expression of the line, nor by any operator or any text that
   could be executed, keeps its value, whatever the outcome. *)
Theorem unassigned_variable_kept : forall E n e x st,
  let ok := fun name => negb (String.eqb name x) in
  (forall u b text, line_targets ok (parse_line E u b text)) -> tables (func_targets ok) st -> targets ok e = true ->
  find (globals (fst (exec E n (TExpr e) st))) x = find (globals st) x.
Proof. intros E n e x st ok Hp T He. exact (exec_untouched pad E x n (TExpr e) st Hp T He). Qed.
Print Assumptions unassigned_variable_kept.
Example lines_example :
  snd (run_lines env0 100 ["op add"; "y = 2 add 3"; "y; z"; "nonsense"; "r 0"; "y"] start) =
  [Ok []; Ok [mkR true (VInt 6)]; Err; Err; Err; Ok [loud (VInt 7)]].
Proof. vm_compute. reflexivity. Qed.

(* ---- C62 ---- *)
(* The value of a body, whatever the statements. *)
Theorem body_value : forall E n body st st' v,
  eval_body (exec E n) body None st = (st', Ok (Some v)) <->
  yields (fun e s s' w => exec E n (TExpr e) s = (s', Ok w)) body st st' v.
Proof. intros E n. exact (body_iff (exec E n)). Qed.
Print Assumptions body_value.
(* A condition holds when it is a number other than 0, or a character other than the
   null character; an array of one element counts as the element; the value of an
   assignment, or another array, is an error. *)
Theorem condition_value : forall v,
  (forall q, canonical v -> numval v = Some q ->
     (~ (q == 0)%Q -> is_true (loud v) = Ok true) /\ ((q == 0)%Q -> is_true (loud v) = Ok false)) /\
  (forall z, is_true (loud (VChar z)) = Ok true <-> z <> 0%Z) /\
  (forall z, is_true (loud (VChar z)) = Ok false <-> z = 0%Z) /\
  is_true (loud (VVec [v])) = is_true (loud v) /\ (forall shape, is_true (loud (VMat shape [v])) = is_true (loud v)) /\
  (forall l, length l <> 1 -> is_true (loud (VVec l)) = Err /\ forall shape, is_true (loud (VMat shape l)) = Err) /\
  is_true (mkR true v) = Err.
Proof.
  intros v. split; [|split; [|split; [|split; [|split; [|split]]]]]; try reflexivity.
  - intros q Hc Hq. destruct v; try discriminate; injection Hq as <-; unfold is_true; cbn [quiet val loud truth].
    + unfold Qeq. cbn [inject_Z Qnum Qden]. split; intros H; f_equal; destruct (Z.eqb_spec z 0); cbn; auto; lia.
    + cbn in Hc. unfold Qeq. cbn [inject_Z Qnum Qden]. split; auto. intros H. exfalso. apply Hc. lia.
    + cbn in Hc. destruct Hc as [Hr Hd]. split; auto. intros H. exfalso. apply Hd.
      rewrite <-Hr. rewrite (Qred_complete _ _ H). reflexivity.
  - intros z. unfold is_true. cbn. destruct (Z.eqb_spec z 0); cbn; split; intros; congruence.
  - intros z. unfold is_true. cbn. destruct (Z.eqb_spec z 0); cbn; split; intros; congruence.
  - intros l Hl. destruct l as [|x [|y l]]; cbn in Hl; try congruence; split; reflexivity.
Qed.
Print Assumptions condition_value.
Example condition_example : is_true (loud (VInt (-1))) = Ok true /\ is_true (loud (VVec [VInt 0])) = Ok false.
Proof. split; reflexivity. Qed.
(* Nothing after a taken return is evaluated: the outcome is that of its right side,
   value or error, whatever follows. *)
Theorem return_stops : forall E n pre l r post u c st st1 st2,
  no_return (fun e s s' w => exec E n (TExpr e) s = (s', Ok w)) pre None st st1 u ->
  exec E n (TExpr l) st1 = (st2, Ok c) -> is_true c = Ok true ->
  fst (eval_body (exec E n) (pre ++ ECond l r :: post) None st) = fst (exec E n (TExpr r) st2) /\
  forall post', eval_body (exec E n) (pre ++ ECond l r :: post) None st = eval_body (exec E n) (pre ++ ECond l r :: post') None st.
Proof.
  intros E n pre l r post u c st st1 st2 H1 H2 H3. split.
  - rewrite (body_taken (exec E n) pre l r post None u c st st1 st2 H1 H2 H3). unfold mbind, ret.
    destruct (exec E n (TExpr r) st2) as [s [x| | |]]; reflexivity.
  - intros post'. rewrite (body_taken (exec E n) pre l r post None u c st st1 st2 H1 H2 H3).
    symmetry. exact (body_taken (exec E n) pre l r post' None u c st st1 st2 H1 H2 H3).
Qed.
Print Assumptions return_stops.
(* A unary operator with one argument: its body is executed with the argument in a new
   frame, and the frame is then dropped. *)
Theorem unary_call_value : forall E n op x i body locals v w st st',
  classify1 op = FPlain -> operator st op false = Some (mkFunc false op None (EVar x i) (Some body) locals) ->
  1 <= i <= length locals -> length (frames st) < maxstack E ->
  let st1 := push (length locals) st in
  let st2 := set_stack st1 (upd (stack st1) (length (stack st1) - i) (Some v)) in
  (exec E (S n) (TUnary op v) st = (st', Ok w) <->
   exists st3, yields (fun e s s' w => exec E n (TExpr e) s = (s', Ok w)) body st2 st3 w /\ st' = pop st3).
Proof.
  intros E n op x i body locals v w st st' Hc Hf Hi Hm st1 st2. unfold exec at 1. cbn [exec_with step]. rewrite Hc.
  unfold operator in Hf. rewrite Hf. rewrite (call_unfold E pad n _ body) by (auto; reflexivity). cbn [f_left f_right f_locals].
  fold push. fold st1. unfold mbind at 1, ret at 1. cbn [assign_to]. unfold var_write.
  destruct (Nat.leb_spec 1 i); [|lia]. unfold mbind at 1. rewrite local_write_ok.
  2:{ unfold st1, push, push_cells. cbn. rewrite app_length, pad_length. lia. }
  fold st2. split.
  - intros H0. unfold mbind in H0. destruct (eval_body (exec_with pad E n) body None st2) as [st3 [[y|]| | |]] eqn:He;
      unfold leave, ret, raise in H0; cbn [fst snd] in H0; try discriminate.
    injection H0 as <- <-. exists st3. split; [|reflexivity]. now apply body_value.
  - intros (st3 & Hy & ->). apply body_value in Hy. unfold exec in Hy. unfold mbind. rewrite Hy. reflexivity.
Qed.
Print Assumptions unary_call_value.
(* The same for a binary operator. *)
Theorem binary_call_value : forall E n op x i y j body locals a v w st st',
  classify2 op = GPlain -> op <> "==" -> op <> "!=" ->
  operator st op true = Some (mkFunc true op (Some (EVar x i)) (EVar y j) (Some body) locals) ->
  1 <= i <= length locals -> 1 <= j <= length locals -> length (frames st) < maxstack E ->
  let st1 := push (length locals) st in
  let k := length (stack st1) in
  let st2 := set_stack st1 (upd (upd (stack st1) (k - i) (Some a)) (k - j) (Some v)) in
  (exec E (S n) (TBinary a op v) st = (st', Ok w) <->
   exists st3, yields (fun e s s' w => exec E n (TExpr e) s = (s', Ok w)) body st2 st3 w /\ st' = pop st3).
Proof.
  intros E n op x i y j body locals a v w st st' Hc Hn1 Hn2 Hf Hi Hj Hm st1 k st2. unfold exec at 1. cbn [exec_with step].
  rewrite (proj2 (String.eqb_neq _ _) Hn1), (proj2 (String.eqb_neq _ _) Hn2), Hc.
  unfold operator in Hf. rewrite Hf. rewrite (call_unfold E pad n _ body) by (auto; reflexivity). cbn [f_left f_right f_locals].
  fold push. fold st1. cbn [assign_to]. unfold var_write.
  destruct (Nat.leb_spec 1 i); [|lia]. destruct (Nat.leb_spec 1 j); [|lia]. unfold mbind at 1. 
  assert (Hk : length locals <= k). { unfold k, st1, push, push_cells. cbn. rewrite app_length, pad_length. lia. }
  fold k in Hk. rewrite local_write_ok by (fold k; lia). fold k.
  unfold mbind at 1. rewrite local_write_ok by (cbn [stack set_stack]; rewrite upd_length; fold k; lia).
  cbn [stack set_stack]. rewrite upd_length. fold k. unfold set_stack at 1 2. cbn [globals spare frames unary binary defs peak].
  fold (set_stack st1 (upd (upd (stack st1) (k - i) (Some a)) (k - j) (Some v))). fold st2. split.
  - intros H1. unfold mbind in H1. destruct (eval_body (exec_with pad E n) body None st2) as [st3 [[z|]| | |]] eqn:He;
      unfold leave, ret, raise in H1; cbn [fst snd] in H1; try discriminate.
    injection H1 as <- <-. exists st3. split; [|reflexivity]. now apply body_value.
  - intros (st3 & Hy & ->). apply body_value in Hy. unfold exec in Hy. unfold mbind. rewrite Hy. reflexivity.
Qed.
Print Assumptions binary_call_value.
Example body_example :
  let st := fst (run_lines env0 100 ["op add"] start) in
  snd (exec env0 10 (TBinary (loud (VInt 2)) "add" (loud (VInt 3))) st) = Ok (loud (VInt 6)) /\
  snd (exec env0 10 (TBinary (loud (VInt 2)) "add" (loud (VInt 0))) st) = Ok (loud (VInt 2)).
Proof. vm_compute. auto. Qed.

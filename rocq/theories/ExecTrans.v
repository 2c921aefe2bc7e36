(* What an evaluation does to the symbol tables, as a reflexive and transitive relation
   that its elementary steps satisfy. *)
From Coq Require Import String Lia.
From Verif Require Import Value Syntax ExecModel ExecSpec ExecProofs.
Open Scope string_scope.
Open Scope list_scope.
Open Scope nat_scope.

Lemma tables_define_op (P : func -> Prop) fn0 fn parsed st :
  f_name fn0 = f_name fn -> f_binary fn0 = f_binary fn -> P fn0 -> P fn -> tables P st ->
  tables P (fst (define_op fn0 fn parsed st)).
Proof.
  intros Hn Hb H0 H1 T.
  pose proof (safe_define_op P (mkEnv (mkConf 0 0) 0 (mkB [] [] (fun _ _ => Done Err) (fun _ _ => Done Err) (fun _ _ => Done Err)
     (fun _ _ => Done Err) (fun _ _ => Done Err) (fun _ _ _ => Done Err) (fun _ _ _ => Done Err) (fun _ _ _ => None)) (fun _ _ _ => LBad))
     0 fn0 fn parsed Hn Hb H0 H1 st T) as K.
  now apply (k_tables _ _ _ _ _ K).
Qed.
Lemma tables_undefine (P : func -> Prop) name b st : tables P st -> tables P (fst (undefine name b st)).
Proof.
  intros [Tu Tb]. unfold undefine. destruct (existsb _ _); [|now split]. destruct b; split; cbn; auto;
    intros nm fn; rewrite find_remove; destruct (_ =? _)%string; try discriminate; eauto.
Qed.

Section Trans.
Variable cells : nat -> list (option rval) -> list (option rval).
Variable E : env.
Variable ok : string -> bool.
Variable R : ctx -> ctx -> Prop.
Hypothesis Rrefl : forall st, R st st.
Hypothesis Rtrans : forall a b c, R a b -> R b c -> R a c.
Hypothesis Rglobal : forall name v st, ok name = true -> R st (fst (assign_global name v st)).
Hypothesis Rlocal : forall i v st, R st (fst (local_write i v st)).
Hypothesis Rcall : forall n st st2, R (push_cells cells n st) st2 -> R st (pop st2).
Hypothesis Rdefine : forall fn0 fn parsed st,
  f_name fn0 = f_name fn -> f_binary fn0 = f_binary fn -> ok (f_name fn) = true -> R st (fst (define_op fn0 fn parsed st)).
Hypothesis Rundefine : forall name b st, R st (fst (undefine name b st)).
Let P := func_targets ok.
Hypothesis Hparse : forall u b text, line_targets ok (parse_line E u b text).

Definition tr {A} (m : M A) : Prop := forall st, tables P st -> R st (fst (m st)) /\ tables P (fst (m st)).
Lemma tr_ret {A} (a : A) : tr (ret a).
Proof. intros st T. cbn. auto. Qed.
Lemma tr_raise {A} (r : res A) : tr (raise r).
Proof. intros st T. cbn. auto. Qed.
Lemma tr_bind {A B} (m : M A) (f : A -> M B) : tr m -> (forall a, tr (f a)) -> tr (mbind m f).
Proof.
  intros Hm Hf st T. unfold mbind. destruct (Hm st T) as [H1 T1]. destruct (m st) as [st' [a| | |]]; cbn in *; auto.
  destruct (Hf a st' T1) as [H2 T2]. eauto.
Qed.
Lemma tr_local_read i : tr (local_read i).
Proof. intros st T. unfold local_read. destruct (_ || _); [now split|]. destruct (nth_error _ _); now split. Qed.
Lemma tr_var_read name i : tr (var_read name i).
Proof.
  unfold var_read. destruct (1 <=? i).
  - apply tr_bind; [apply tr_local_read|]. intros [v|]; [apply tr_ret|apply tr_raise].
  - intros st T. destruct (find _ _); now split.
Qed.
Lemma tr_var_write name i v : (1 <=? i) || ok name = true -> tr (var_write name i v).
Proof.
  intros H. unfold var_write. destruct (1 <=? i).
  - intros st T. split; [apply Rlocal|]. unfold local_write. destruct ((i =? 0) || (length (stack st) <? i)); exact T.
  - intros st T. split; [now apply Rglobal|exact T].
Qed.

Definition task_targets (t : task) : bool := match t with TExpr e => targets ok e | _ => true end.
Section Step.
Variable ex : task -> M rval.
Hypothesis IH : forall t, task_targets t = true -> tr (ex t).

Lemma tr_expr e : targets ok e = true -> tr (ex (TExpr e)).
Proof. intros H. now apply IH. Qed.
Lemma tr_eval_right l : forallb (targets ok) l = true -> tr (eval_right ex l).
Proof.
  induction l as [|e l IHl]; intros H; [apply tr_ret|]. cbn in H. apply andb_prop in H. destruct H.
  cbn. apply tr_bind; [auto|]. intros vs. apply tr_bind; [now apply tr_expr|]. intros v. apply tr_ret.
Qed.
Lemma tr_eval_index l : forallb (fun o => match o with Some e => targets ok e | None => true end) l = true -> tr (eval_index ex l).
Proof.
  induction l as [|o l IHl]; intros H; [apply tr_ret|]. cbn in H. apply andb_prop in H. destruct H.
  cbn. apply tr_bind; [auto|]. intros vs. destruct o; [|apply tr_ret].
  apply tr_bind; [now apply tr_expr|]. intros v. apply tr_bind; [apply tr_raise|]. intros w. apply tr_ret.
Qed.
Lemma tr_assign e : forall v, target_ok ok e = true -> targets ok e = true -> tr (assign_to E ex e v).
Proof.
  induction e as [v0|name i|o r IHr|o l r IHl IHr|l r IHl IHr|l IHl|l idx IHl IHidx] using expr_ind'; intros v H H';
    try apply tr_raise.
  - now apply tr_var_write.
  - cbn [assign_to]. destruct v as [[|] w]; [apply tr_raise|]. destruct w; try apply tr_raise.
    destruct (_ =? _); [|apply tr_raise]. cbn in H, H'.
    rename l0 into vs. revert vs. induction l as [|e l IHl2]; intros vs; [apply tr_ret|].
    destruct vs as [|w vs]; [apply tr_ret|]. inversion IHl; subst.
    cbn in H, H'. apply andb_prop in H, H'. destruct H, H'. apply tr_bind; [auto|]. intros _. auto.
  - destruct l; try apply tr_raise. cbn [assign_to]. cbn in H, H'.
    apply tr_bind; [now apply tr_eval_index|]. intros vs. apply tr_bind.
    { destruct (1 <=? local); [|apply tr_var_read].
      apply tr_bind; [apply tr_local_read|]. intros [x|]; [apply tr_ret|apply tr_raise]. }
    intros lhs. destruct (quiet lhs); [apply tr_raise|].
    apply tr_bind; [now apply tr_var_write|]. intros _. apply tr_raise.
Qed.
Lemma tr_body body : forall v, forallb (targets ok) body = true -> tr (eval_body ex body v).
Proof.
  induction body as [|e body IHb]; intros v H; [apply tr_ret|]. cbn in H. apply andb_prop in H. destruct H as [H1 H2].
  assert (Hplain : tr (mbind (ex (TExpr e)) (fun x => eval_body ex body (Some x)))).
  { apply tr_bind; [now apply tr_expr|]. auto. }
  destruct e; auto. cbn in H1. apply andb_prop in H1. destruct H1 as [Hl Hr].
  cbn. apply tr_bind; [now apply tr_expr|]. intros c. apply tr_bind; [apply tr_raise|].
  intros [|]; [|auto]. apply tr_bind; [now apply tr_expr|]. intros x. apply tr_ret.
Qed.
Lemma tr_call fn left right : P fn -> tr (call cells E ex fn left right).
Proof.
  intros (HL & HR1 & HR2 & HB) st T. unfold call.
  destruct (f_body fn) as [body|] eqn:Hbody; [|now split]. destruct (_ <=? _); [now split|].
  match goal with |- context [pop (fst (?m ?s))] => set (m0 := m) end.
  assert (Hm : tr m0).
  { unfold m0. apply tr_bind.
    { destruct (f_left fn) as [e|]; [|apply tr_ret]. destruct left; [|apply tr_ret].
      destruct (HL e eq_refl). now apply tr_assign. }
    intros _. apply tr_bind; [now apply tr_assign|]. intros _.
    apply tr_bind; [apply tr_body; now apply HB|]. intros [v|]; [apply tr_ret|apply tr_raise]. }
  destruct (Hm (push_cells cells (length (f_locals fn)) st) T) as [H1 T1]. cbn [fst]. split; [eapply Rcall; exact H1|exact T1].
Qed.
Lemma tr_eval_list l : forallb (targets ok) l = true -> tr (eval_list ex l).
Proof.
  induction l as [|e l IHl]; intros H; [apply tr_ret|]. cbn in H. apply andb_prop in H. destruct H.
  cbn. apply tr_bind; [now apply tr_expr|]. intros v. apply tr_bind; [auto|]. intros vs. apply tr_ret.
Qed.
Lemma tr_eval_line l : line_targets ok l -> tr (eval_line ex l).
Proof.
  destruct l as [es|fn0 fn parsed|name b|]; intros H; cbn in *.
  - now apply tr_eval_list.
  - destruct H as (H1 & H2 & H3 & H4 & H5). apply tr_bind; [|intros _; apply tr_ret].
    intros st T. split; [now apply Rdefine|]. now apply tables_define_op.
  - apply tr_bind; [|intros _; apply tr_ret]. intros st T. split; [apply Rundefine|now apply tables_undefine].
  - apply tr_raise.
Qed.
Lemma tr_interp p : tr (interp E ex p).
Proof.
  induction p as [r|op v k IHk|a op b k IHk|text k IHk]; cbn; [apply tr_raise| | |];
    (apply tr_bind; [|auto]); try (now apply IH).
  intros st T. apply tr_eval_line; auto.
Qed.
Lemma tr_step t : task_targets t = true -> tr (step cells E ex t).
Proof.
  destruct t as [e|op v|a op b]; intros H.
  - destruct e; cbn [step]; cbn in H.
    + apply tr_ret.
    + apply tr_var_read.
    + apply tr_bind; [now apply tr_expr|]. intros v. now apply IH.
    + apply andb_prop in H. destruct H as [H H3]. apply andb_prop in H. destruct H as [Hl Hr].
      apply tr_bind; [now apply tr_expr|]. intros v. destruct (op =? "=")%string.
      * cbn in H3. apply tr_bind; [now apply tr_assign|]. intros _. apply tr_ret.
      * apply tr_bind; [now apply tr_expr|]. intros w. now apply IH.
    + apply andb_prop in H. destruct H as [Hl Hr].
      apply tr_bind; [now apply tr_expr|]. intros v. apply tr_bind; [now apply tr_expr|]. intros w. now apply IH.
    + apply tr_bind; [now apply tr_eval_right|]. intros vs. apply tr_ret.
    + apply andb_prop in H. destruct H as [Hl Hr].
      apply tr_bind; [now apply tr_eval_index|]. intros vs. apply tr_bind; [now apply tr_expr|]. intros w.
      apply tr_bind; [apply tr_raise|]. intros x. apply tr_ret.
  - cbn [step]. destruct (classify1 op); try apply tr_interp.
    intros st T. destruct (find (unary st) op) as [fn|] eqn:Hf.
    + apply tr_call; [|exact T]. now apply (proj1 T _ _ Hf).
    + destruct (find (b_unary (ops E)) op); [now apply tr_interp|now split].
  - cbn [step]. destruct (if (op =? "==")%string then _ else _) as [r|]; [apply tr_raise|].
    destruct (classify2 op); try apply tr_interp.
    intros st T. destruct (find (binary st) op) as [fn|] eqn:Hf.
    + apply tr_call; [|exact T]. now apply (proj2 T _ _ Hf).
    + destruct (find (b_binary (ops E)) op); [now apply tr_interp|now split].
Qed.
End Step.
Lemma exec_tr n : forall t, task_targets t = true -> tr (exec_with cells E n t).
Proof. induction n as [|n IHn]; intros t H; [apply tr_raise|]. cbn [exec_with]. now apply tr_step. Qed.
Lemma run_line_tr n text : ok "_" = true -> tr (run_line_with cells E n text).
Proof.
  intros Hu. unfold run_line_with. apply tr_bind.
  { intros st T. apply tr_eval_line; auto. apply exec_tr. }
  intros vs. destruct (existsb _ _); [|apply tr_ret].
  apply tr_bind; [intros st T; split; [now apply Rglobal|exact T]|]. intros _. apply tr_ret.
Qed.
Lemma run_lines_tr n ls : ok "_" = true -> forall st, tables P st ->
  R st (fst (run_lines_with cells E n ls st)) /\ tables P (fst (run_lines_with cells E n ls st)).
Proof.
  intros Hu. induction ls as [|l ls IHls]; intros st T; [now split|].
  cbn. destruct (run_line_tr n l Hu st T) as [H1 T1].
  destruct (run_line_with cells E n l st) as [st1 r]. cbn in H1, T1.
  destruct (IHls st1 T1) as [H2 T2]. destruct r; cbn; eauto.
Qed.
End Trans.

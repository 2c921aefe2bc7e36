(* More steps do not change an outcome that was reached. *)
From Coq Require Import String Lia.
From Verif Require Import Value Syntax ExecModel ExecSpec ExecProofs.
Open Scope string_scope.
Open Scope list_scope.
Open Scope nat_scope.

Definition below {A} (m m' : M A) : Prop := forall st, snd (m st) <> Unmod -> m' st = m st.
Lemma below_refl {A} (m : M A) : below m m.
Proof. easy. Qed.
Lemma below_bind {A B} (m m' : M A) (f f' : A -> M B) :
  below m m' -> (forall a, below (f a) (f' a)) -> below (mbind m f) (mbind m' f').
Proof.
  intros Hm Hf st H. unfold mbind in *. destruct (m st) as [st1 r] eqn:Em.
  assert (Hr : r <> Unmod) by (intros ->; now apply H).
  rewrite (Hm st), Em by (now rewrite Em). destruct r; auto.
  apply Hf. exact H.
Qed.

Section Mono.
Variable cells : nat -> list (option rval) -> list (option rval).
Variable E : env.
Section Step.
Variables ex ex' : task -> M rval.
Hypothesis IH : forall t, below (ex t) (ex' t).

Lemma below_eval_right l : below (eval_right ex l) (eval_right ex' l).
Proof.
  induction l as [|e l IHl]; [apply below_refl|]. cbn. apply below_bind; [exact IHl|]. intros vs.
  apply below_bind; [apply IH|]. intros v. apply below_refl.
Qed.
Lemma below_eval_index l : below (eval_index ex l) (eval_index ex' l).
Proof.
  induction l as [|o l IHl]; [apply below_refl|]. cbn. apply below_bind; [exact IHl|]. intros vs.
  destruct o; [|apply below_refl]. apply below_bind; [apply IH|]. intros v. apply below_refl.
Qed.
Lemma below_assign e : forall v, below (assign_to E ex e v) (assign_to E ex' e v).
Proof.
  induction e as [v0|name i|o r IHr|o l r IHl IHr|l r IHl IHr|l IHl|l idx IHl IHidx] using expr_ind'; intros v;
    try apply below_refl.
  - cbn [assign_to]. destruct v as [[|] w]; [apply below_refl|]. destruct w; try apply below_refl.
    destruct (_ =? _); [|apply below_refl].
    rename l0 into vs. revert vs. induction l as [|e l IHl2]; intros vs; [apply below_refl|].
    destruct vs as [|w vs]; [apply below_refl|]. inversion IHl; subst.
    apply below_bind; [auto|]. intros _. auto.
  - destruct l; try apply below_refl. cbn [assign_to]. apply below_bind; [apply below_eval_index|].
    intros vs. apply below_refl.
Qed.
Lemma below_body body : forall v, below (eval_body ex body v) (eval_body ex' body v).
Proof.
  induction body as [|e body IHb]; intros v; [apply below_refl|].
  assert (Hplain : below (mbind (ex (TExpr e)) (fun x => eval_body ex body (Some x)))
                         (mbind (ex' (TExpr e)) (fun x => eval_body ex' body (Some x)))).
  { apply below_bind; [apply IH|]. intros x. apply IHb. }
  destruct e; auto.
  cbn. apply below_bind; [apply IH|]. intros c. apply below_bind; [apply below_refl|]. intros [|]; [|apply IHb].
  apply below_bind; [apply IH|]. intros x. apply below_refl.
Qed.
Lemma below_call fn left right : below (call cells E ex fn left right) (call cells E ex' fn left right).
Proof.
  intros st. unfold call. destruct (f_body fn) as [body|]; [|easy]. destruct (_ <=? _); [easy|].
  cbn [snd]. intros H.
  match goal with |- (pop (fst (?m' ?s)), _) = (pop (fst (?m ?s)), _) => assert (Hb : below m m') end.
  { apply below_bind.
    { destruct (f_left fn); [|apply below_refl]. destruct left; [|apply below_refl]. apply below_assign. }
    intros _. apply below_bind; [apply below_assign|]. intros _. apply below_bind; [apply below_body|].
    intros v. apply below_refl. }
  now rewrite (Hb _ H).
Qed.
Lemma below_eval_list l : below (eval_list ex l) (eval_list ex' l).
Proof.
  induction l as [|e l IHl]; [apply below_refl|]. cbn. apply below_bind; [apply IH|]. intros v.
  apply below_bind; [exact IHl|]. intros vs. apply below_refl.
Qed.
Lemma below_eval_line l : below (eval_line ex l) (eval_line ex' l).
Proof. destruct l; try apply below_refl. apply below_eval_list. Qed.
Lemma below_interp p : below (interp E ex p) (interp E ex' p).
Proof.
  induction p as [r|op v k IHk|a op b k IHk|text k IHk]; cbn; try apply below_refl;
    (apply below_bind; [|auto]); try apply IH.
  intros st. apply below_eval_line.
Qed.
Lemma below_step t : below (step cells E ex t) (step cells E ex' t).
Proof.
  destruct t as [e|op v|a op b].
  - destruct e; cbn [step]; try apply below_refl.
    + apply below_bind; [apply IH|]. intros v. apply IH.
    + apply below_bind; [apply IH|]. intros v. destruct (op =? "=")%string.
      * apply below_bind; [apply below_assign|]. intros _. apply below_refl.
      * apply below_bind; [apply IH|]. intros w. apply IH.
    + apply below_bind; [apply IH|]. intros v. apply below_bind; [apply IH|]. intros w. apply IH.
    + apply below_bind; [apply below_eval_right|]. intros vs. apply below_refl.
    + apply below_bind; [apply below_eval_index|]. intros vs. apply below_bind; [apply IH|]. intros w. apply below_refl.
  - cbn [step]. destruct (classify1 op); try apply below_interp.
    intros st. destruct (find (unary st) op); [apply below_call|]. destruct (find _ op); [apply below_interp|easy].
  - cbn [step]. destruct (if (op =? "==")%string then _ else _); [apply below_refl|].
    destruct (classify2 op); try apply below_interp.
    intros st. destruct (find (binary st) op); [apply below_call|]. destruct (find _ op); [apply below_interp|easy].
Qed.
End Step.

Lemma exec_below n : forall t, below (exec_with cells E n t) (exec_with cells E (S n) t).
Proof.
  induction n as [|n IHn]; intros t.
  - intros st H. now destruct H.
  - cbn [exec_with]. apply below_step. exact IHn.
Qed.
Lemma below_trans {A} (a b c : M A) : below a b -> below b c -> below a c.
Proof. intros H1 H2 st H. rewrite (H2 st); rewrite (H1 st); auto. Qed.
Lemma exec_more n m t : n <= m -> below (exec_with cells E n t) (exec_with cells E m t).
Proof.
  induction 1 as [|m H IH]; [apply below_refl|]. eapply below_trans; [exact IH|]. apply exec_below.
Qed.
Lemma run_line_more n m text : n <= m -> below (run_line_with cells E n text) (run_line_with cells E m text).
Proof.
  intros H. unfold run_line_with. apply below_bind.
  - intros st. apply below_eval_line. intros t. now apply exec_more.
  - intros vs. apply below_refl.
Qed.
Lemma run_lines_more n m ls : n <= m -> forall st,
  ~ In Unmod (snd (run_lines_with cells E n ls st)) -> run_lines_with cells E m ls st = run_lines_with cells E n ls st.
Proof.
  intros Hle. induction ls as [|l ls IHls]; intros st H; [easy|].
  cbn in *. pose proof (run_line_more n m l Hle st) as Hl.
  destruct (run_line_with cells E n l st) as [st1 r]. cbn in Hl.
  assert (Hr : r <> Unmod). { intros ->. apply H. cbn; auto. }
  rewrite (Hl Hr). destruct r; auto; cbn in *; now rewrite IHls by tauto.
Qed.
End Mono.

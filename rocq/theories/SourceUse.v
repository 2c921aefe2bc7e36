(* The operators that an expression applies, and the list of them that )save declares. *)
From Coq Require Import String.
From Verif Require Import Value Syntax ExecModel ExecProofs SourceModel SourceSave.
Open Scope list_scope.

(* x is applied somewhere in e: a name, and whether it has two operands *)
Inductive applies : expr -> string * bool -> Prop :=
| at_unary op r : applies (EUnary op r) (op, false)
| at_binary op l r : applies (EBinary op l r) (op, true)
| at_cond l r : applies (ECond l r) (":"%string, true)
| in_unary op r x : applies r x -> applies (EUnary op r) x
| in_left op l r x : applies l x -> applies (EBinary op l r) x
| in_right op l r x : applies r x -> applies (EBinary op l r) x
| in_cond_left l r x : applies l x -> applies (ECond l r) x
| in_cond_right l r x : applies r x -> applies (ECond l r) x
| in_vector l e x : In e l -> applies e x -> applies (EVector l) x
| in_indexed l idx x : applies l x -> applies (EIndex l idx) x
| in_index l idx e x : In (Some e) idx -> applies e x -> applies (EIndex l idx) x.

Lemma applied_applies : forall e x, In x (applied e) <-> applies e x.
Proof.
  induction e as [v|s k|o r IHr|o l r IHl IHr|l r IHl IHr|l H|l idx IHl H] using expr_ind'; intros x; cbn [applied].
  1-2: split; [intros []|intros H; inversion H].
  - rewrite in_app_iff, IHr. cbn [In]. split.
    + intros [A|[<-|[]]]; [apply in_unary, A|apply at_unary].
    + intros A. inversion A; subst; auto.
  - rewrite !in_app_iff, IHr, IHl. cbn [In]. split.
    + intros [A|[A|[<-|[]]]]; [apply in_right, A|apply in_left, A|apply at_binary].
    + intros A. inversion A; subst; auto.
  - rewrite !in_app_iff, IHr, IHl. cbn [In]. split.
    + intros [A|[A|[<-|[]]]]; [apply in_cond_right, A|apply in_cond_left, A|apply at_cond].
    + intros A. inversion A; subst; auto.
  - match goal with |- In x ?g <-> _ => assert (G : In x g <-> exists e, In e l /\ applies e x) end.
    { induction H as [|e l He Hl IH]; [split; [intros []|intros (e & [] & _)]|].
      rewrite in_app_iff, IH, He. cbn [In]. split.
      - intros [(y & Y & A)|A]; [exists y; auto|exists e; auto].
      - intros (y & [-> |Y] & A); [right; exact A|left; exists y; auto]. }
    rewrite G. split.
    + intros (e & I & A). eapply in_vector; eauto.
    + intros A. inversion A; subst. eauto.
  - rewrite in_app_iff, IHl.
    match goal with |- In x ?g \/ _ <-> _ => assert (G : In x g <-> exists e, In (Some e) idx /\ applies e x) end.
    { induction H as [|o idx Ho Hl IH]; [split; [intros []|intros (e & [] & _)]|].
      rewrite in_app_iff, IH. destruct o as [e|].
      - rewrite Ho. cbn [In]. split.
        + intros [(y & Y & A)|A]; [exists y; auto|exists e; auto].
        + intros (y & [Y|Y] & A); [injection Y as ->; right; exact A|left; exists y; auto].
      - cbn [In]. split.
        + intros [(y & Y & A)|[]]. exists y; auto.
        + intros (y & [Y|Y] & A); [discriminate|left; exists y; auto]. }
    rewrite G. split.
    + intros [(e & I & A)|A]; [eapply in_index; eauto|apply in_indexed, A].
    + intros A. inversion A; subst; eauto.
Qed.

Lemma in_defs_spec x l : in_defs x l = true <-> In x l.
Proof.
  unfold in_defs. rewrite existsb_exists. split.
  - intros (y & Y & E). apply same_def_spec in E. subst. exact Y.
  - intros H. exists x. split; [exact H|apply same_def_spec; reflexivity].
Qed.

Lemma references_in st body x : In x (references st body) <-> user_op st x = true /\ exists e, In e body /\ applies e x.
Proof.
  unfold references.
  assert (X : forall l acc, In x (fold_left add_reference l acc) <-> In x acc \/ In x l).
  { induction l as [|y l IH]; intros acc; cbn [fold_left In]; [tauto|]. rewrite IH. unfold add_reference.
    destruct (in_defs y acc) eqn:D.
    - apply in_defs_spec in D. split; [tauto|]. intros [A|[<-|A]]; auto.
    - rewrite in_app_iff. cbn [In]. tauto. }
  rewrite X, filter_In, in_flat_map. split.
  - intros [[]|[(e & I & A) U]]. split; [exact U|]. exists e. split; [exact I|apply applied_applies, A].
  - intros [U (e & I & A)]. right. split; [|exact U]. exists e. split; [exact I|apply applied_applies, A].
Qed.

Lemma references_nodup st body : NoDup (references st body).
Proof.
  unfold references.
  assert (X : forall l acc, NoDup acc -> NoDup (fold_left add_reference l acc)).
  { induction l as [|y l IH]; intros acc N; cbn [fold_left]; [exact N|]. apply IH. unfold add_reference.
    destruct (in_defs y acc) eqn:D; [exact N|].
    assert (~ In y acc) as D' by (intros H; apply in_defs_spec in H; congruence).
    clear -N D'. induction N as [|z acc Z N IH]; cbn [app]; [constructor; [intros []|constructor]|].
    constructor; [rewrite in_app_iff; cbn [In]; intros [A|[A|[]]]; [contradiction|subst; apply D'; left; reflexivity]|].
    apply IH. intros A. apply D'. right. exact A. }
  apply X. constructor.
Qed.

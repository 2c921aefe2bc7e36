(* Proofs about the execution model: the stack is kept, evaluation is monotone in the
   step counter. *)
From Coq Require Import String Lia.
From Verif Require Import Value Syntax ExecModel ExecSpec.
Open Scope string_scope.
Open Scope list_scope.
Open Scope nat_scope.

Section Ind.
Variable P : expr -> Prop.
Hypothesis HVal : forall v, P (EVal v).
Hypothesis HVar : forall n i, P (EVar n i).
Hypothesis HUn : forall o r, P r -> P (EUnary o r).
Hypothesis HBin : forall o l r, P l -> P r -> P (EBinary o l r).
Hypothesis HCond : forall l r, P l -> P r -> P (ECond l r).
Hypothesis HVec : forall l, Forall P l -> P (EVector l).
Hypothesis HIdx : forall l idx, P l -> Forall (fun o => match o with Some e => P e | None => True end) idx -> P (EIndex l idx).
Fixpoint expr_ind' (e : expr) : P e :=
  match e with
  | EVal v => HVal v
  | EVar n i => HVar n i
  | EUnary o r => HUn o r (expr_ind' r)
  | EBinary o l r => HBin o l r (expr_ind' l) (expr_ind' r)
  | ECond l r => HCond l r (expr_ind' l) (expr_ind' r)
  | EVector l => HVec l ((fix go l : Forall P l := match l with [] => Forall_nil _ | e :: l' => Forall_cons _ (expr_ind' e) (go l') end) l)
  | EIndex l idx => HIdx l idx (expr_ind' l)
      ((fix go (idx : list (option expr)) : Forall (fun o => match o with Some e => P e | None => True end) idx :=
          match idx with
          | [] => Forall_nil _
          | Some e :: idx' => Forall_cons (Some e) (expr_ind' e) (go idx')
          | None :: idx' => Forall_cons None I (go idx')
          end) idx)
  end.
End Ind.

(* ---- symbol tables ---- *)
Lemma find_remove {A} (t : table A) k k' : find (remove t k) k' = if String.eqb k k' then None else find t k'.
Proof.
  unfold remove. induction t as [|[x a] t IH]; cbn; [now destruct (k =? k')%string|].
  destruct (String.eqb_spec k x) as [->|Hx]; cbn.
  - rewrite IH. destruct (String.eqb_spec x k') as [->|H]; [easy|].
    now destruct (String.eqb_spec k' x) as [->|].
  - rewrite IH. destruct (String.eqb_spec k' x) as [->|]; [|easy].
    now destruct (String.eqb_spec k x).
Qed.
Lemma find_store {A} (t : table A) k a k' : find (store t k a) k' = if String.eqb k k' then Some a else find t k'.
Proof.
  unfold store. cbn [find]. rewrite find_remove.
  destruct (String.eqb_spec k' k) as [->|H]; [now rewrite String.eqb_refl|].
  destruct (String.eqb_spec k k') as [->|]; [easy|easy].
Qed.

Arguments store : simpl never.
Arguments remove : simpl never.

Lemma upd_length {A} (l : list A) i x : length (upd l i x) = length l.
Proof. revert i; induction l as [|y l IH]; intros [|i]; cbn; auto. Qed.
Lemma upd_firstn {A} (l : list A) i x n : n <= i -> firstn n (upd l i x) = firstn n l.
Proof.
  revert i n; induction l as [|y l IH]; intros [|i] [|n] H; cbn; auto; try lia.
  f_equal. apply IH. lia.
Qed.
Lemma upd_nth {A} (l : list A) i x j : i < length l -> nth_error (upd l i x) j = if j =? i then Some x else nth_error l j.
Proof.
  revert i j; induction l as [|y l IH]; intros [|i] [|j] H; cbn in *; try lia; auto.
  apply IH. lia.
Qed.

(* ---- what an evaluation keeps ---- *)
Section Keeps.
Variable P : func -> Prop.
Variable cells : nat -> list (option rval) -> list (option rval).
Variable E : env.
Hypothesis Hcells : forall n l, length (cells n l) = n.
Hypothesis Hwf : forall fn, P fn -> wf_func fn.
Hypothesis Hparse : wf_parser P E.

Record keeps (k : nat) (st st' : ctx) : Prop := {
  k_frames : frames st' = frames st;
  k_length : length (stack st') = length (stack st);
  k_stack : firstn (length (stack st) - k) (stack st') = firstn (length (stack st) - k) (stack st);
  k_tables : tables P st -> tables P st';
  k_low : peak st <= peak st';
  k_high : peak st' <= Nat.max (peak st) (maxstack E)
}.
Lemma keeps_refl k st : keeps k st st.
Proof. constructor; auto; lia. Qed.
Lemma keeps_trans k a b c : keeps k a b -> keeps k b c -> keeps k a c.
Proof.
  intros [F1 L1 S1 T1 W1 H1] [F2 L2 S2 T2 W2 H2]. constructor; try congruence; try lia; auto.
Qed.
Lemma keeps_mono j k a b : j <= k -> keeps j a b -> keeps k a b.
Proof.
  intros H [F L St T W Hi]. constructor; auto.
  replace (firstn (length (stack a) - k) (stack b)) with (firstn (length (stack a) - k) (firstn (length (stack a) - j) (stack b)))
    by (rewrite firstn_firstn; f_equal; lia).
  rewrite St, firstn_firstn. f_equal; lia.
Qed.

Definition safe {A} (k : nat) (m : M A) : Prop := forall st, tables P st -> keeps k st (fst (m st)).
Lemma safe_ret {A} k (a : A) : safe k (ret a).
Proof. intros st _. apply keeps_refl. Qed.
Lemma safe_raise {A} k (r : res A) : safe k (raise r).
Proof. intros st _. apply keeps_refl. Qed.
Lemma safe_bind {A B} k (m : M A) (f : A -> M B) : safe k m -> (forall a, safe k (f a)) -> safe k (mbind m f).
Proof.
  intros Hm Hf st T. unfold mbind. specialize (Hm st T). destruct (m st) as [st' [a| | |]]; cbn in *; auto.
  eapply keeps_trans; [exact Hm|]. apply Hf. now apply (k_tables _ _ _ Hm).
Qed.
Lemma safe_mono {A} j k (m : M A) : j <= k -> safe j m -> safe k m.
Proof. intros H Hm st T. eapply keeps_mono; [exact H|auto]. Qed.
Lemma safe_local_read k i : safe k (local_read i).
Proof.
  intros st T. unfold local_read. destruct (_ || _); [apply keeps_refl|].
  destruct (nth_error _ _); apply keeps_refl.
Qed.
Lemma safe_var_read k name i : safe k (var_read name i).
Proof.
  unfold var_read. destruct (1 <=? i).
  - apply safe_bind; [apply safe_local_read|]. intros [v|]; [apply safe_ret|apply safe_raise].
  - intros st T. destruct (find _ _); apply keeps_refl.
Qed.
Lemma safe_assign_global k name v : safe k (assign_global name v).
Proof. intros st T. constructor; cbn; auto; lia. Qed.
Lemma safe_var_write k name i v : i <= k -> safe k (var_write name i v).
Proof.
  intros Hi. unfold var_write. destruct (Nat.leb_spec 1 i); [|apply safe_assign_global].
  intros st T. unfold local_write. destruct (_ || _) eqn:Hb; [apply keeps_refl|].
  apply Bool.orb_false_iff in Hb. destruct Hb as [_ Hb]. apply Nat.ltb_ge in Hb.
  constructor; cbn; auto; try lia.
  - apply upd_length.
  - apply upd_firstn. lia.
Qed.
Lemma tables_define st fn : tables P st -> P fn -> tables P (fst (define fn st)).
Proof.
  intros T HP. unfold define, mbind, no_var.
  destruct (_ || _ || _); [exact T|].
  assert (Hs : forall st, tables P st ->
    tables P (set_ops st (if f_binary fn then unary st else store (unary st) (f_name fn) fn)
                      (if f_binary fn then store (binary st) (f_name fn) fn else binary st)
                      match rev (defs st) with
                      | [] => [(f_name fn, f_binary fn)]
                      | x :: _ => if same_def x (f_name fn, f_binary fn) then defs st
                                  else drop_def (defs st) (f_name fn, f_binary fn) ++ [(f_name fn, f_binary fn)]
                      end)).
  { clear st T. intros st [Tu Tb]. destruct (f_binary fn) eqn:Hb; split; cbn; auto.
    - intros name g. rewrite find_store. destruct (_ =? _)%string; [injection 1; intros <-; auto|eauto].
    - intros name g. rewrite find_store. destruct (_ =? _)%string; [injection 1; intros <-; auto|eauto]. }
  destruct (find (globals st) (f_name fn)) as [v|]; [|now apply Hs].
  destruct (is_zero_int v); [|exact T]. cbn. apply (Hs (set_globals st _)). exact T.
Qed.
Lemma define_ctx fn st :
  stack (fst (define fn st)) = stack st /\ frames (fst (define fn st)) = frames st /\
  peak (fst (define fn st)) = peak st /\ spare (fst (define fn st)) = spare st.
Proof.
  unfold define, mbind, no_var. destruct (_ || _ || _); [easy|].
  destruct (find (globals st) (f_name fn)) as [v|]; [|easy]. destruct (is_zero_int v); easy.
Qed.
Lemma safe_same {A} k (m : M A) :
  (forall st, stack (fst (m st)) = stack st /\ frames (fst (m st)) = frames st /\ peak (fst (m st)) = peak st) ->
  (forall st, tables P st -> tables P (fst (m st))) -> safe k m.
Proof.
  intros H T st Ht. destruct (H st) as (Hs & Hf & Hp).
  constructor; rewrite ?Hs, ?Hf, ?Hp; auto; lia.
Qed.
Lemma define_op_ctx fn0 fn parsed st :
  let st' := fst (define_op fn0 fn parsed st) in
  stack st' = stack st /\ frames st' = frames st /\ peak st' = peak st /\ spare st' = spare st.
Proof.
  unfold define_op.
  pose proof (define_ctx fn0 st) as (A1 & A2 & A3 & A4). destruct (define fn0 st) as [st1 [[]| | |]]; cbn in *; auto.
  destruct parsed; [|auto].
  pose proof (define_ctx fn st1) as (B1 & B2 & B3 & B4). destruct (define fn st1) as [st2 [[]| | |]]; cbn in *;
    repeat split; congruence.
Qed.
Lemma safe_define_op k fn0 fn parsed :
  f_name fn0 = f_name fn -> f_binary fn0 = f_binary fn -> P fn0 -> P fn -> safe k (define_op fn0 fn parsed).
Proof.
  intros Hn Hb H0 H1. apply safe_same.
  { intros st. pose proof (define_op_ctx fn0 fn parsed st) as H. cbn in H. tauto. }
  intros st T. unfold define_op.
  pose proof (tables_define st fn0 T H0) as T1. destruct (define fn0 st) as [st1 [[]| | |]]; cbn in *; auto.
  assert (Hres : forall st', tables P st' -> tables P
    (set_ops st' (if f_binary fn then unary st' else match find (if f_binary fn then binary st else unary st) (f_name fn) with
                                                     | Some old => store (if f_binary fn then binary st' else unary st') (f_name fn) old
                                                     | None => remove (if f_binary fn then binary st' else unary st') (f_name fn) end)
                 (if f_binary fn then match find (if f_binary fn then binary st else unary st) (f_name fn) with
                                      | Some old => store (if f_binary fn then binary st' else unary st') (f_name fn) old
                                      | None => remove (if f_binary fn then binary st' else unary st') (f_name fn) end
                  else binary st') (defs st'))).
  { intros st' [Tu Tb]. destruct T as [Su Sb]. destruct (f_binary fn); split; cbn; auto.
    - intros name g. destruct (find (binary st) (f_name fn)) as [old|] eqn:Ho; rewrite ?find_store, ?find_remove;
        destruct (_ =? _)%string; try discriminate; eauto; injection 1; intros <-; eauto.
    - intros name g. destruct (find (unary st) (f_name fn)) as [old|] eqn:Ho; rewrite ?find_store, ?find_remove;
        destruct (_ =? _)%string; try discriminate; eauto; injection 1; intros <-; eauto. }
  destruct parsed; [|now apply Hres].
  pose proof (tables_define st1 fn T1 H1) as T2. destruct (define fn st1) as [st2 [[]| | |]]; cbn in *; auto.
Qed.
Lemma safe_undefine k name b : safe k (undefine name b).
Proof.
  apply safe_same; intros st; unfold undefine; destruct (existsb _ _); cbn; auto.
  intros [Tu Tb]; destruct b; split; cbn; auto; intros nm fn; rewrite find_remove; destruct (_ =? _)%string; try discriminate; eauto.
Qed.

Definition task_within (k : nat) (t : task) : bool := match t with TExpr e => within k e | _ => true end.
Definition task_depth (k : nat) (t : task) : nat := match t with TExpr e => k | _ => 0 end.

Section Step.
Variable ex : task -> M rval.
Hypothesis IH : forall k t, task_within k t = true -> safe (task_depth k t) (ex t).

Lemma ex_expr k e : within k e = true -> safe k (ex (TExpr e)).
Proof. intros H. exact (IH k (TExpr e) H). Qed.
Lemma ex_unary k o v : safe k (ex (TUnary o v)).
Proof. eapply (safe_mono 0); [lia|]. exact (IH 0 (TUnary o v) eq_refl). Qed.
Lemma ex_binary k a o v : safe k (ex (TBinary a o v)).
Proof. eapply (safe_mono 0); [lia|]. exact (IH 0 (TBinary a o v) eq_refl). Qed.

Lemma safe_eval_right k l : forallb (within k) l = true -> safe k (eval_right ex l).
Proof.
  induction l as [|e l IHl]; intros H; [apply safe_ret|].
  cbn in H. apply andb_prop in H. destruct H as [H1 H2].
  cbn. apply safe_bind; [auto|]. intros vs. apply safe_bind; [now apply ex_expr|]. intros v. apply safe_ret.
Qed.
Lemma safe_eval_index k l :
  forallb (fun o => match o with Some e => within k e | None => true end) l = true -> safe k (eval_index ex l).
Proof.
  induction l as [|o l IHl]; intros H; [apply safe_ret|].
  cbn in H. apply andb_prop in H. destruct H as [H1 H2].
  cbn. apply safe_bind; [auto|]. intros vs. destruct o as [e|]; [|apply safe_ret].
  apply safe_bind; [now apply ex_expr|]. intros v. apply safe_bind; [apply safe_raise|]. intros w. apply safe_ret.
Qed.
Lemma safe_assign k e : forall v, within k e = true -> safe k (assign_to E ex e v).
Proof.
  induction e as [v0|name i|o r IHr|o l r IHl IHr|l r IHl IHr|l IHl|l idx IHl IHidx] using expr_ind'; intros v H;
    try apply safe_raise.
  - cbn. apply safe_var_write. cbn in H. now apply Nat.leb_le in H.
  - cbn [assign_to]. destruct v as [[|] w]; [apply safe_raise|]. destruct w; try apply safe_raise.
    destruct (_ =? _); [|apply safe_raise].
    cbn in H. rename l0 into vs. revert vs.
    induction l as [|e l IHl2]; intros vs; [apply safe_ret|].
    destruct vs as [|w vs]; [apply safe_ret|].
    cbn in H. apply andb_prop in H. destruct H as [H1 H2]. inversion IHl; subst.
    apply safe_bind; [now apply IHl2|]. intros _. auto.
  - destruct l; try apply safe_raise. cbn [assign_to].
    cbn in H. apply andb_prop in H. destruct H as [H1 H2]. apply Nat.leb_le in H1.
    apply safe_bind; [now apply safe_eval_index|]. intros vs.
    apply safe_bind.
    { destruct (1 <=? local); [|apply safe_var_read].
      apply safe_bind; [apply safe_local_read|]. intros [x|]; [apply safe_ret|apply safe_raise]. }
    intros lhs. destruct (quiet lhs); [apply safe_raise|].
    apply safe_bind; [now apply safe_var_write|]. intros _. apply safe_raise.
Qed.
Lemma safe_body k body : forall v, forallb (within k) body = true -> safe k (eval_body ex body v).
Proof.
  induction body as [|e body IHb]; intros v H; [apply safe_ret|].
  cbn in H. apply andb_prop in H. destruct H as [H1 H2].
  assert (Hplain : safe k (mbind (ex (TExpr e)) (fun x => eval_body ex body (Some x)))).
  { apply safe_bind; [now apply ex_expr|]. auto. }
  destruct e; auto.
  cbn in H1. apply andb_prop in H1. destruct H1 as [Hl Hr].
  cbn. apply safe_bind; [now apply ex_expr|]. intros c. apply safe_bind; [apply safe_raise|].
  intros [|]; [|auto]. apply safe_bind; [now apply ex_expr|]. intros x. apply safe_ret.
Qed.
Lemma safe_call k fn left right : P fn -> safe k (call cells E ex fn left right).
Proof.
  intros HP. apply (safe_mono 0); [lia|]. intros st T. unfold call.
  destruct (f_body fn) as [body|] eqn:Hbody; [|apply keeps_refl].
  destruct (Nat.leb_spec (maxstack E) (length (frames st))) as [Hm|Hm]; [apply keeps_refl|].
  destruct (Hwf fn HP) as (_ & HL & HR & HB).
  match goal with |- context [pop (fst (?m ?s))] => set (m0 := m); set (st1 := s) end.
  assert (Hs : safe (length (f_locals fn)) m0).
  { unfold m0. apply safe_bind.
    { destruct (f_left fn) as [e|]; [|apply safe_ret]. destruct left; [|apply safe_ret]. apply safe_assign. now apply HL. }
    intros _. apply safe_bind; [now apply safe_assign|]. intros _.
    apply safe_bind; [apply safe_body; now apply HB|]. intros [v|]; [apply safe_ret|apply safe_raise]. }
  specialize (Hs st1 T). cbn [fst]. destruct Hs as [F L St Tb W Hi].
  set (st2 := fst (m0 st1)) in *. clearbody st2. clear m0.
  unfold st1, push_cells in F, L, St, Tb, W, Hi. cbn in F, L, St, Tb, W, Hi.
  rewrite app_length, Hcells in L, St.
  replace (length (stack st) + length (f_locals fn) - length (f_locals fn)) with (length (stack st)) in St by lia.
  assert (Hfst : firstn (length (stack st)) (stack st2) = stack st).
  { rewrite St. rewrite firstn_app, Nat.sub_diag. cbn. rewrite app_nil_r. apply firstn_all. }
  assert (Hl : last (frames st2) 0 = length (f_locals fn)) by (rewrite F; apply last_last).
  assert (Hk : length (stack st2) - last (frames st2) 0 = length (stack st)) by lia.
  constructor; unfold pop; cbn; rewrite ?Hk, ?Hfst; auto; try lia.
  rewrite F. apply removelast_last.
Qed.
Lemma safe_eval_list k l : forallb (within k) l = true -> safe k (eval_list ex l).
Proof.
  induction l as [|e l IHl]; intros H; [apply safe_ret|].
  cbn in H. apply andb_prop in H. destruct H as [H1 H2].
  cbn. apply safe_bind; [now apply ex_expr|]. intros v. apply safe_bind; [auto|]. intros vs. apply safe_ret.
Qed.
Lemma safe_eval_line l : wf_line P l -> safe 0 (eval_line ex l).
Proof.
  destruct l as [es|fn0 fn parsed|name b|]; intros H; cbn in *.
  - now apply safe_eval_list.
  - destruct H as (H1 & H2 & H3 & H4). apply safe_bind; [now apply safe_define_op|]. intros _. apply safe_ret.
  - apply safe_bind; [apply safe_undefine|]. intros _. apply safe_ret.
  - apply safe_raise.
Qed.
Lemma safe_interp p : safe 0 (interp E ex p).
Proof.
  induction p as [r|op v k IHk|a op b k IHk|text k IHk]; cbn.
  - apply safe_raise.
  - apply safe_bind; [apply ex_unary|auto].
  - apply safe_bind; [apply ex_binary|auto].
  - apply safe_bind; [|auto]. intros st T. apply safe_eval_line; auto.
Qed.
Lemma safe_step k t : task_within k t = true -> safe (task_depth k t) (step cells E ex t).
Proof.
  destruct t as [e|op v|a op b]; intros H.
  - destruct e; cbn [step task_depth]; cbn in H.
    + apply safe_ret.
    + apply safe_var_read.
    + apply safe_bind; [now apply ex_expr|]. intros v. apply ex_unary.
    + apply andb_prop in H. destruct H as [Hl Hr].
      apply safe_bind; [now apply ex_expr|]. intros v. destruct (op =? "=")%string.
      * apply safe_bind; [now apply safe_assign|]. intros _. apply safe_ret.
      * apply safe_bind; [now apply ex_expr|]. intros w. apply ex_binary.
    + apply andb_prop in H. destruct H as [Hl Hr].
      apply safe_bind; [now apply ex_expr|]. intros v. apply safe_bind; [now apply ex_expr|]. intros w. apply ex_binary.
    + apply safe_bind; [now apply safe_eval_right|]. intros vs. apply safe_ret.
    + apply andb_prop in H. destruct H as [Hl Hr].
      apply safe_bind; [now apply safe_eval_index|]. intros vs. apply safe_bind; [now apply ex_expr|]. intros w.
      apply safe_bind; [apply safe_raise|]. intros x. apply safe_ret.
  - cbn [step task_depth]. destruct (classify1 op); try apply safe_interp.
    intros st T. destruct (find (unary st) op) as [fn|] eqn:Hf.
    + apply safe_call; [|exact T]. now apply (proj1 T _ _ Hf).
    + destruct (find (b_unary (ops E)) op); [now apply safe_interp|apply keeps_refl].
  - cbn [step task_depth].
    assert (Hrest : safe 0 match classify2 op with
      | GEach => interp E ex (b_binary_each (ops E) a op b)
      | GProduct => interp E ex (b_product (ops E) a op b)
      | GPlain => fun st : ctx => match find (binary st) op with
                  | Some fn => call cells E ex fn (Some a) b st
                  | None => match find (b_binary (ops E)) op with Some f => interp E ex (f a b) st | None => (st, Err) end
                  end
      end).
    { destruct (classify2 op); try apply safe_interp.
      intros st T. destruct (find (binary st) op) as [fn|] eqn:Hf.
      + apply safe_call; [|exact T]. now apply (proj2 T _ _ Hf).
      + destruct (find (b_binary (ops E)) op); [now apply safe_interp|apply keeps_refl]. }
    destruct (if (op =? "==")%string then _ else _) as [r|]; [apply safe_raise|exact Hrest].
Qed.
End Step.

Lemma exec_safe n : forall k t, task_within k t = true -> safe (task_depth k t) (exec_with cells E n t).
Proof.
  induction n as [|n IHn]; intros k t H; [apply safe_raise|]. cbn [exec_with]. now apply safe_step.
Qed.
Lemma run_line_safe n text : safe 0 (run_line_with cells E n text).
Proof.
  unfold run_line_with. apply safe_bind.
  { intros st T. apply safe_eval_line; auto. apply exec_safe. }
  intros vs. destruct (existsb _ _); [|apply safe_ret].
  apply safe_bind; [apply safe_assign_global|]. intros _. apply safe_ret.
Qed.
End Keeps.

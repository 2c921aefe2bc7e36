(* Conditional return; a line in error; variables that are not assigned. *)
From Coq Require Import String Lia.
From Verif Require Import Value Syntax ExecModel ExecSpec ExecProofs ExecFresh ExecTrans ExecHist.
Open Scope string_scope.
Open Scope list_scope.
Open Scope nat_scope.

Section Body.
Variable ex : task -> M rval.
Let ev (e : expr) (st st' : ctx) (v : rval) : Prop := ex (TExpr e) st = (st', Ok v).

Lemma eval_body_cond l r body v st :
  eval_body ex (ECond l r :: body) v st =
  mbind (ex (TExpr l)) (fun c => mbind (raise (is_true c)) (fun b : bool =>
    if b then mbind (ex (TExpr r)) (fun x => ret (Some x)) else eval_body ex body v)) st.
Proof. reflexivity. Qed.
Lemma eval_body_expr e body v st : (forall l r, e <> ECond l r) ->
  eval_body ex (e :: body) v st = mbind (ex (TExpr e)) (fun x => eval_body ex body (Some x)) st.
Proof. intros H. destruct e; try reflexivity. now destruct (H e1 e2). Qed.
Lemma is_cond e : {p | e = ECond (fst p) (snd p)} + {forall l r, e <> ECond l r}.
Proof. destruct e as [| | | |l r| |]; try (right; discriminate). left. now exists (l, r). Qed.

Lemma body_split pre post : forall v st st1 u, no_return ev pre v st st1 u ->
  eval_body ex (pre ++ post) v st = eval_body ex post u st1.
Proof.
  induction pre as [|e pre IH]; intros v st st1 u H; inversion H; subst; [reflexivity| |].
  - unfold ev in *. cbn [app]. rewrite eval_body_cond. unfold mbind at 1.
    match goal with H1 : ex _ _ = _, H2 : is_true _ = _ |- _ => rewrite H1; unfold mbind at 1, raise; rewrite H2 end. now apply IH.
  - unfold ev in *. cbn [app]. rewrite eval_body_expr by assumption. unfold mbind.
    match goal with H1 : ex _ _ = _ |- _ => rewrite H1 end. now apply IH.
Qed.
Lemma body_sound body : forall v0 st st' v, eval_body ex body v0 st = (st', Ok v) ->
  (exists pre l r post u c st1 st2 x, v = Some x /\
     body = pre ++ ECond l r :: post /\ no_return ev pre v0 st st1 u /\
     ev l st1 st2 c /\ is_true c = Ok true /\ ev r st2 st' x) \/
  no_return ev body v0 st st' v.
Proof.
  induction body as [|e body IH]; intros v0 st st' v H.
  - right. injection H as <- <-. constructor.
  - destruct (is_cond e) as [[[l r] He]|He]; [cbn in He; subst e|].
    + rewrite eval_body_cond in H. unfold mbind at 1 in H. destruct (ex (TExpr l) st) as [st1 [c| | |]] eqn:El; try discriminate.
      unfold mbind at 1, raise in H. destruct (is_true c) as [[|]| | |] eqn:Ec; try discriminate.
      * unfold mbind, ret in H. destruct (ex (TExpr r) st1) as [st2 [x| | |]] eqn:Er; try discriminate.
        injection H as <- <-. left. exists [], l, r, body, v0, c, st, st1, x. repeat split; auto. constructor.
      * apply IH in H. destruct H as [(pre & l1 & r1 & post & u & c1 & s1 & s2 & x & -> & -> & H1 & H2 & H3 & H4)|H].
        -- left. exists (ECond l r :: pre), l1, r1, post, u, c1, s1, s2, x. repeat split; auto. eapply nr_cond; eauto.
        -- right. eapply nr_cond; eauto.
    + rewrite eval_body_expr in H by exact He. unfold mbind in H. destruct (ex (TExpr e) st) as [st1 [y| | |]] eqn:Ee; try discriminate.
      apply IH in H. destruct H as [(pre & l1 & r1 & post & u & c1 & s1 & s2 & x & -> & -> & H1 & H2 & H3 & H4)|H].
      * left. exists (e :: pre), l1, r1, post, u, c1, s1, s2, x. repeat split; auto. eapply nr_expr; eauto.
      * right. eapply nr_expr; eauto.
Qed.
Lemma body_taken pre l r post v0 u c st st1 st2 : no_return ev pre v0 st st1 u -> ev l st1 st2 c -> is_true c = Ok true ->
  eval_body ex (pre ++ ECond l r :: post) v0 st = mbind (ex (TExpr r)) (fun x => ret (Some x)) st2.
Proof.
  intros H1 H2 H3. rewrite (body_split _ _ _ _ _ _ H1), eval_body_cond. unfold mbind at 1. unfold ev in H2. rewrite H2.
  unfold mbind at 1, raise. now rewrite H3.
Qed.
Lemma body_complete body st st' v : yields ev body st st' v -> eval_body ex body None st = (st', Ok (Some v)).
Proof.
  intros [(pre & l & r & post & u & c & st1 & st2 & -> & H1 & H2 & H3 & H4)|H].
  - erewrite body_taken by eauto. unfold mbind, ret. unfold ev in H4. now rewrite H4.
  - pose proof (body_split _ [] _ _ _ _ H) as Q. now rewrite app_nil_r in Q.
Qed.
Lemma body_iff body st st' v : eval_body ex body None st = (st', Ok (Some v)) <-> yields ev body st st' v.
Proof.
  split; [|apply body_complete]. intros H. apply body_sound in H.
  destruct H as [(pre & l & r & post & u & c & st1 & st2 & x & Hx & -> & H1 & H2 & H3 & H4)|H]; [|now right].
  injection Hx as ->. left. exists pre, l, r, post, u, c, st1, st2. auto 10.
Qed.
End Body.

(* ---- calls ---- *)
(* An operator called with simple arguments: the state in which its body is executed. *)
Section Calls.
Variable E : env.
Definition leave (r : ctx * res rval) : ctx * res rval := (pop (fst r), snd r).
Lemma call_unfold cells n fn body left right st :
  f_body fn = Some body -> length (frames st) < maxstack E ->
  call cells E (exec_with cells E n) fn left right st =
  leave (mbind (match f_left fn, left with Some e, Some v => assign_to E (exec_with cells E n) e v | _, _ => ret tt end)
             (fun _ => mbind (assign_to E (exec_with cells E n) (f_right fn) right)
             (fun _ => mbind (eval_body (exec_with cells E n) body None)
             (fun v => match v with Some v => ret v | None => raise Err end)))
             (push_cells cells (length (f_locals fn)) st)).
Proof. intros Hb Hm. unfold call. rewrite Hb. destruct (Nat.leb_spec (maxstack E) (length (frames st))); [lia|reflexivity]. Qed.
Lemma local_write_ok i v st : 1 <= i <= length (stack st) ->
  local_write i v st = (set_stack st (upd (stack st) (length (stack st) - i) (Some v)), Ok tt).
Proof.
  intros H. unfold local_write. destruct (Nat.eqb_spec i 0); [lia|]. destruct (Nat.ltb_spec (length (stack st)) i); [lia|]. reflexivity.
Qed.
End Calls.

(* ---- lines ---- *)
Section Lines.
Variable cells : nat -> list (option rval) -> list (option rval).
Variable E : env.
Lemma run_lines_app n ls1 ls2 : forall st,
  forallb line_ends (snd (run_lines_with cells E n ls1 st)) = true ->
  run_lines_with cells E n (ls1 ++ ls2) st =
  (fst (run_lines_with cells E n ls2 (fst (run_lines_with cells E n ls1 st))),
   snd (run_lines_with cells E n ls1 st) ++ snd (run_lines_with cells E n ls2 (fst (run_lines_with cells E n ls1 st)))).
Proof.
  induction ls1 as [|l ls1 IH]; intros st H; cbn in *.
  - now destruct (run_lines_with cells E n ls2 st).
  - destruct (run_line_with cells E n l st) as [st1 r]. destruct r; cbn in *; try discriminate; rewrite IH by exact H; reflexivity.
Qed.
Lemma eval_list_app ex es1 es2 st st1 vs : eval_list ex es1 st = (st1, Ok vs) ->
  eval_list ex (es1 ++ es2) st = mbind (eval_list ex es2) (fun ws => ret (vs ++ ws)) st1.
Proof.
  revert st vs. induction es1 as [|e es1 IH]; intros st vs H; cbn in *.
  - injection H as <- <-. unfold mbind, ret. cbn. destruct (eval_list ex es2 st) as [s [a| | |]]; reflexivity.
  - unfold mbind in H. destruct (ex (TExpr e) st) as [s [v| | |]] eqn:He; try discriminate.
    destruct (eval_list ex es1 s) as [s1 [ws| | |]] eqn:Hs; try discriminate. injection H as <- <-.
    unfold mbind at 1. rewrite He. unfold mbind at 1. rewrite (IH s ws Hs). unfold mbind, ret.
    destruct (eval_list ex es2 s1) as [s2 [a| | |]]; reflexivity.
Qed.
Hypothesis Hcells : forall n l, length (cells n l) = n.
Lemma run_lines_stack n ls : wf_parser wf_func E -> forall st, tables wf_func st -> 
  stack (fst (run_lines_with cells E n ls st)) = stack st /\ frames (fst (run_lines_with cells E n ls st)) = frames st /\
  tables wf_func (fst (run_lines_with cells E n ls st)).
Proof.
  intros Hp. induction ls as [|l ls IH]; intros st T; cbn; [auto|].
  pose proof (run_line_safe wf_func cells E Hcells (fun fn H => H) Hp n l st T) as K.
  destruct (run_line_with cells E n l st) as [st1 r]. cbn in K.
  assert (Hs : stack st1 = stack st).
  { destruct K as [_ HL Hs _ _ _]. rewrite Nat.sub_0_r in Hs. rewrite firstn_all in Hs. rewrite <- HL in Hs. now rewrite firstn_all in Hs. }
  pose proof (k_frames _ _ _ _ _ K) as Hf. pose proof (k_tables _ _ _ _ _ K T) as T1.
  destruct (IH st1 T1) as (I1 & I2 & I3).
  destruct r; cbn; rewrite ?I1, ?I2; auto.
Qed.
End Lines.

(* ---- a variable that is not assigned keeps its value ---- *)
Section Untouched.
Variable cells : nat -> list (option rval) -> list (option rval).
Variable E : env.
Variable x : string.
Let ok (name : string) : bool := negb (String.eqb name x).
Definition same_x (st st' : ctx) : Prop := find (globals st') x = find (globals st) x.
Lemma same_define fn0 fn parsed st : f_name fn0 = f_name fn -> f_binary fn0 = f_binary fn -> ok (f_name fn) = true ->
  same_x st (fst (define_op fn0 fn parsed st)).
Proof.
  intros Hn Hb Hk. unfold same_x. destruct (define_op fn0 fn parsed st) as [st' r] eqn:He. cbn.
  eapply failed_variables; eauto. unfold ok in Hk. destruct (String.eqb_spec (f_name fn) x); [discriminate|congruence].
Qed.
Lemma same_global name v st : ok name = true -> same_x st (fst (assign_global name v st)).
Proof. unfold same_x, ok. cbn. rewrite find_store. destruct (String.eqb_spec name x); [discriminate|reflexivity]. Qed.
Lemma same_local i v st : same_x st (fst (local_write i v st)).
Proof. unfold local_write. destruct (_ || _); reflexivity. Qed.
Lemma same_undefine name b st : same_x st (fst (undefine name b st)).
Proof. unfold undefine. destruct (existsb _ _); reflexivity. Qed.
Lemma exec_untouched n t st : (forall u b text, line_targets ok (parse_line E u b text)) -> tables (func_targets ok) st ->
  match t with TExpr e => targets ok e = true | _ => True end ->
  find (globals (fst (exec_with cells E n t st))) x = find (globals st) x.
Proof.
  intros Hp T Ht.
  apply (exec_tr cells E ok same_x (fun st => eq_refl) (fun a b c H1 H2 => eq_trans H2 H1)
    same_global same_local (fun _ st st2 H => H) same_define same_undefine Hp n t); [|exact T].
  destruct t; auto.
Qed.
End Untouched.

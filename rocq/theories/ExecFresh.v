(* If no operator reads a local before assigning it, what an earlier call left on the
   stack makes no difference. *)
From Coq Require Import String Lia.
From Verif Require Import Value Syntax ExecModel ExecSpec ExecProofs.
Open Scope string_scope.
Open Scope list_scope.
Open Scope nat_scope.

Record agree (A : list nat) (a b : ctx) : Prop := {
  a_globals : globals a = globals b;
  a_frames : frames a = frames b;
  a_unary : unary a = unary b;
  a_binary : binary a = binary b;
  a_defs : defs a = defs b;
  a_peak : peak a = peak b;
  a_length : length (stack a) = length (stack b);
  a_cells : forall i, In i A -> 1 <= i <= length (stack a) ->
            nth_error (stack a) (length (stack a) - i) = nth_error (stack b) (length (stack a) - i)
}.
Lemma agree_weak A B a b : incl B A -> agree A a b -> agree B a b.
Proof. intros H [? ? ? ? ? ? ? Hc]. constructor; auto. Qed.

Lemma known_in A i : known A i = true -> i = 0 \/ In i A.
Proof.
  unfold known. rewrite Bool.orb_true_iff, Nat.eqb_eq, existsb_exists. intros [->|(x & Hx & He)]; auto.
  apply Nat.eqb_eq in He. subst. auto.
Qed.

(* ---- the analysis of a closed expression ---- *)
Definition grows (A : list nat) (r : option (list nat)) : Prop := exists A', r = Some A' /\ incl A A'.
Lemma grows_refl A : grows A (Some A).
Proof. exists A. split; auto. apply incl_refl. Qed.
Lemma grows_then A r f : grows A r -> (forall A1, grows A1 (f A1)) -> grows A (then_ r f).
Proof.
  intros (A1 & -> & H) Hf. destruct (Hf A1) as (A2 & H2 & H3). exists A2. split; auto. eapply incl_tran; eauto.
Qed.
Lemma closed_assigned e : within 0 e = true -> forall lhs A, grows A (assigned lhs A e).
Proof.
  induction e as [v0|name i|o r IHr|o l r IHl IHr|l r IHl IHr|l IHl|l idx IHl IHidx] using expr_ind'; intros H lhs A; cbn in H.
  - apply grows_refl.
  - destruct i; [|discriminate]. cbn. destruct lhs; [|apply grows_refl]. exists (0 :: A). split; auto. now apply incl_tl, incl_refl.
  - cbn. destruct lhs; [apply grows_refl|auto].
  - apply andb_prop in H. destruct H. cbn. destruct lhs; [apply grows_refl|]. apply grows_then; auto.
  - apply andb_prop in H. destruct H. cbn. destruct lhs; [apply grows_refl|]. apply grows_then; auto.
  - cbn [assigned]. induction l as [|e l IHl2]; [apply grows_refl|].
    cbn in H. apply andb_prop in H. destruct H. inversion IHl; subst. cbn. apply grows_then; auto.
  - apply andb_prop in H. destruct H as [H1 H2]. cbn [assigned].
    set (after := fold_right _ _ idx).
    assert (Ha : grows A after).
    { unfold after. clear after. induction idx as [|o idx IH2]; [apply grows_refl|].
      cbn in H2. apply andb_prop in H2. destruct H2. inversion IHidx; subst. cbn.
      destruct o; [apply grows_then; auto|auto]. }
    destruct lhs; [|apply grows_then; auto].
    destruct l; try apply grows_refl. apply grows_then; auto. intros A1.
    cbn in H1. destruct local; [|discriminate]. cbn. apply grows_refl.
Qed.

Section Fresh.
Variable E : env.
Hypothesis Hparse : wf_parser definite E.

Lemma definite_wf fn : definite fn -> wf_func fn.
Proof. now intros [H _]. Qed.
Lemma pad_length n l : length (pad n l) = n.
Proof. unfold pad. rewrite app_length, firstn_length, repeat_length. lia. Qed.
Lemma empty_length n l : length (empty_frame n l) = n.
Proof. apply repeat_length. Qed.

Definition rel {A} (X Y : list nat) (m1 m2 : M A) : Prop := forall s1 s2,
  tables definite s1 -> agree X s1 s2 ->
  snd (m1 s1) = snd (m2 s2) /\ tables definite (fst (m1 s1)) /\
  agree (match snd (m1 s1) with Ok _ => Y | _ => [] end) (fst (m1 s1)) (fst (m2 s2)).
Lemma agree_nil A a b : agree A a b -> agree [] a b.
Proof. apply agree_weak. intros x []. Qed.
Lemma rel_ret {A} X (a : A) : rel X X (ret a) (ret a).
Proof. intros s1 s2 T H. cbn. auto. Qed.
Lemma rel_raise {A} X (r : res A) : rel X X (raise r) (raise r).
Proof. intros s1 s2 T H. cbn. split; [easy|]. split; [exact T|]. destruct r; auto; now apply agree_nil in H. Qed.
Lemma rel_bad {A} X Y (r : res A) : (forall a, r <> Ok a) -> rel X Y (raise r) (raise r).
Proof. intros Hr s1 s2 T H. cbn. apply agree_nil in H. split; [easy|]. split; [exact T|]. destruct r; auto; now edestruct Hr. Qed.
Lemma rel_err {A} X Y : @rel A X Y (raise Err) (raise Err).
Proof. now apply rel_bad. Qed.
Lemma rel_crash {A} X Y : @rel A X Y (raise Crash) (raise Crash).
Proof. now apply rel_bad. Qed.
Lemma rel_bind {A B} X Y Z (m1 m2 : M A) (f1 f2 : A -> M B) :
  rel X Y m1 m2 -> (forall a, rel Y Z (f1 a) (f2 a)) -> rel X Z (mbind m1 f1) (mbind m2 f2).
Proof.
  intros Hm Hf s1 s2 T H. specialize (Hm s1 s2 T H). unfold mbind.
  destruct (m1 s1) as [t1 r1], (m2 s2) as [t2 r2]. cbn in Hm. destruct Hm as (Hr & T1 & H1). subst r2.
  destruct r1; cbn; auto. now apply Hf.
Qed.
Lemma rel_weak {A} X X' Y Y' (m1 m2 : M A) : incl X X' -> incl Y' Y -> rel X Y m1 m2 -> rel X' Y' m1 m2.
Proof.
  intros HX HY Hm s1 s2 T H. destruct (Hm s1 s2 T) as (Hr & T1 & H1); [eapply agree_weak; eauto|].
  split; [easy|]. split; [exact T1|]. destruct (snd (m1 s1)); auto. eapply agree_weak; eauto.
Qed.
Lemma rel_any {A} X Y (m1 m2 : M A) : rel X Y m1 m2 -> rel X [] m1 m2.
Proof. apply rel_weak; [apply incl_refl|intros x []]. Qed.

Lemma rel_local_read X i : In i X -> rel X X (local_read i) (local_read i).
Proof.
  intros Hi s1 s2 T H. pose proof (agree_nil _ _ _ H) as H0. unfold local_read. rewrite <- (a_length _ _ _ H).
  destruct (Nat.eqb_spec i 0) as [->|Hz]; cbn [orb]; [cbn; auto|].
  destruct (Nat.ltb_spec (length (stack s1)) i) as [|Hl]; cbn [orb]; [cbn; auto|].
  rewrite <- (a_cells _ _ _ H i Hi) by lia.
  destruct (nth_error _ _); cbn; auto.
Qed.
Lemma rel_var_read X name i : known X i = true -> rel X X (var_read name i) (var_read name i).
Proof.
  intros Hk. apply known_in in Hk. unfold var_read. destruct (Nat.leb_spec 1 i) as [H1|H1].
  - destruct Hk as [->|Hk]; [lia|]. eapply rel_bind; [now apply rel_local_read|].
    intros [v|]; [apply rel_ret|apply rel_err].
  - intros s1 s2 T H. pose proof (agree_nil _ _ _ H) as H0. rewrite (a_globals _ _ _ H).
    destruct (find _ _); cbn; auto.
Qed.
Lemma rel_assign_global X name v : rel X X (assign_global name v) (assign_global name v).
Proof.
  intros s1 s2 T H. cbn. split; [easy|]. split; [exact T|]. destruct H. constructor; cbn; auto. congruence.
Qed.
Lemma rel_var_write X name i v : rel X (i :: X) (var_write name i v) (var_write name i v).
Proof.
  unfold var_write. destruct (Nat.leb_spec 1 i) as [H1|H1].
  - intros s1 s2 T H. pose proof (agree_nil _ _ _ H) as H0. unfold local_write. rewrite <- (a_length _ _ _ H).
    destruct (Nat.eqb_spec i 0) as [->|Hz]; cbn [orb]; [cbn; auto|].
    destruct (Nat.ltb_spec (length (stack s1)) i) as [|Hl]; cbn [orb]; [cbn; auto|].
    cbn. split; [easy|]. split; [exact T|]. destruct H. constructor; cbn; auto; rewrite ?upd_length; auto.
    intros j Hj Hb. rewrite !upd_nth by lia.
    destruct (Nat.eqb_spec (length (stack s1) - j) (length (stack s1) - i)) as [|Hne]; [easy|].
    destruct Hj as [->|Hj]; [lia|auto].
  - assert (i = 0) by lia. subst i. intros s1 s2 T H.
    destruct (rel_assign_global X name v s1 s2 T H) as (Hr & T1 & Ha). split; [easy|]. split; [exact T1|].
    cbn in *. destruct Ha. constructor; auto. cbn. intros j [<-|Hj] Hb; [lia|auto].
Qed.
Lemma incl_cons_tl {A} (x : A) l : incl l (x :: l).
Proof. now apply incl_tl, incl_refl. Qed.

(* changes of the tables only *)
Lemma rel_symbols {A} X (m : M A) :
  (forall st, tables definite st -> tables definite (fst (m st))) ->
  (forall a b, globals a = globals b -> unary a = unary b -> binary a = binary b -> defs a = defs b ->
     snd (m a) = snd (m b) /\ symbols (fst (m a)) = symbols (fst (m b))) ->
  (forall st, stack (fst (m st)) = stack st /\ frames (fst (m st)) = frames st /\ peak (fst (m st)) = peak st) ->
  rel X X m m.
Proof.
  intros HT Hs Hk s1 s2 T H. destruct H as [H1 H2 H3 H4 H5 H6 H7 H8].
  destruct (Hs s1 s2 H1 H3 H4 H5) as [Hr Hsy]. unfold symbols in Hsy.
  destruct (Hk s1) as (K1 & K2 & K3), (Hk s2) as (L1 & L2 & L3).
  split; [exact Hr|]. split; [auto|].
  assert (Hag : agree X (fst (m s1)) (fst (m s2))).
  { constructor; rewrite ?K1, ?K2, ?K3, ?L1, ?L2, ?L3; auto; congruence. }
  destruct (snd (m s1)); auto; now apply agree_nil in Hag.
Qed.
Lemma define_symbols fn a b :
  globals a = globals b -> unary a = unary b -> binary a = binary b -> defs a = defs b ->
  snd (define fn a) = snd (define fn b) /\ symbols (fst (define fn a)) = symbols (fst (define fn b)).
Proof.
  intros H1 H2 H3 H4. unfold define, mbind, no_var, symbols. rewrite <- H1.
  destruct (_ || _ || _); cbn; [rewrite H1, H2, H3, H4; auto|].
  destruct (find (globals a) (f_name fn)) as [v|]; cbn; [destruct (is_zero_int v); cbn|];
    rewrite ?H2, ?H3, ?H4, ?H1; auto.
Qed.
Lemma define_op_symbols fn0 fn parsed a b :
  globals a = globals b -> unary a = unary b -> binary a = binary b -> defs a = defs b ->
  snd (define_op fn0 fn parsed a) = snd (define_op fn0 fn parsed b) /\
  symbols (fst (define_op fn0 fn parsed a)) = symbols (fst (define_op fn0 fn parsed b)).
Proof.
  intros H1 H2 H3 H4. unfold define_op. destruct (define_symbols fn0 a b H1 H2 H3 H4) as [Hr Hs].
  destruct (define fn0 a) as [a1 r], (define fn0 b) as [b1 r']. cbn in Hr, Hs. subst r'.
  unfold symbols in Hs. assert (G1 : globals a1 = globals b1) by congruence. assert (G2 : unary a1 = unary b1) by congruence.
  assert (G3 : binary a1 = binary b1) by congruence. assert (G4 : defs a1 = defs b1) by congruence. clear Hs.
  destruct r as [[]| | |]; cbn; unfold symbols; rewrite ?G1, ?G2, ?G3, ?G4; auto.
  destruct parsed; [|cbn; rewrite ?G1, ?G2, ?G3, ?G4, ?H2, ?H3; auto].
  destruct (define_symbols fn a1 b1 G1 G2 G3 G4) as [Hr Hs].
  destruct (define fn a1) as [a2 r], (define fn b1) as [b2 r']. cbn in Hr, Hs. subst r'.
  unfold symbols in Hs. assert (F1 : globals a2 = globals b2) by congruence. assert (F2 : unary a2 = unary b2) by congruence.
  assert (F3 : binary a2 = binary b2) by congruence. assert (F4 : defs a2 = defs b2) by congruence. clear Hs.
  destruct r as [[]| | |]; cbn; unfold symbols; cbn; rewrite ?F1, ?F2, ?F3, ?F4, ?H2, ?H3; auto.
Qed.

Definition task_assigned (X : list nat) (t : task) : option (list nat) :=
  match t with TExpr e => assigned false X e | _ => Some X end.

Section Step.
Variables ex1 ex2 : task -> M rval.
Hypothesis IH : forall t X Y, task_assigned X t = Some Y -> rel X Y (ex1 t) (ex2 t).
Hypothesis S1 : forall k t, task_within k t = true -> safe definite E (task_depth k t) (ex1 t).
Hypothesis S2 : forall k t, task_within k t = true -> safe definite E (task_depth k t) (ex2 t).

Lemma rel_expr X Y e : assigned false X e = Some Y -> rel X Y (ex1 (TExpr e)) (ex2 (TExpr e)).
Proof. apply (IH (TExpr e)). Qed.
Lemma rel_unary X o v : rel X X (ex1 (TUnary o v)) (ex2 (TUnary o v)).
Proof. now apply IH. Qed.
Lemma rel_binary X a o v : rel X X (ex1 (TBinary a o v)) (ex2 (TBinary a o v)).
Proof. now apply IH. Qed.

Lemma rel_eval_right l : forall X Y, assigned false X (EVector l) = Some Y -> rel X Y (eval_right ex1 l) (eval_right ex2 l).
Proof.
  induction l as [|e l IHl]; intros X Y H.
  - injection H as <-. apply rel_ret.
  - cbn in H. destruct (fold_right _ _ l) as [A1|] eqn:Hf; [|discriminate]. cbn in H.
    cbn. eapply rel_bind; [apply IHl; exact Hf|]. intros vs. eapply rel_bind; [apply rel_expr; exact H|]. intros v. apply rel_ret.
Qed.
Definition index_assigned (X : list nat) (idx : list (option expr)) :=
  fold_right (fun o acc => match o with Some e => then_ acc (fun A1 => assigned false A1 e) | None => acc end) (Some X) idx.
Lemma rel_eval_index idx : forall X Y, index_assigned X idx = Some Y -> rel X Y (eval_index ex1 idx) (eval_index ex2 idx).
Proof.
  induction idx as [|o l IHl]; intros X Y H.
  - injection H as <-. apply rel_ret.
  - cbn in H. cbn. destruct o as [e|].
    + unfold index_assigned in IHl. destruct (fold_right _ _ l) as [A1|] eqn:Hf; [|discriminate]. cbn in H.
      eapply rel_bind; [apply IHl; exact Hf|]. intros vs.
      eapply rel_bind; [apply rel_expr; exact H|]. intros v. eapply rel_bind; [apply rel_raise|]. intros w. apply rel_ret.
    + eapply rel_bind; [apply IHl; exact H|]. intros vs. apply rel_ret.
Qed.
Lemma rel_assign e : forall v X Y, assigned true X e = Some Y -> rel X Y (assign_to E ex1 e v) (assign_to E ex2 e v).
Proof.
  induction e as [v0|name i|o r IHr|o l r IHl IHr|l r IHl IHr|l IHl|l idx IHl IHidx] using expr_ind'; intros v X Y H;
    try apply rel_err.
  - injection H as <-. apply rel_var_write.
  - cbn [assign_to]. destruct v as [[|] w]; [apply rel_err|]. destruct w; try apply rel_err.
    destruct (Nat.eqb_spec (length l) (length l0)) as [Hlen|]; [|apply rel_err]. cbn [assigned] in H.
    rename l0 into vs. revert X Y vs H Hlen. induction l as [|e l IHl2]; intros X Y vs H Hlen.
    + injection H as <-. destruct vs; [|discriminate]. apply rel_ret.
    + destruct vs as [|w vs]; [discriminate|]. inversion IHl; subst. injection Hlen as Hlen.
      cbn in H. destruct (fold_right _ _ l) as [A1|] eqn:Hf; [|discriminate]. cbn in H.
      eapply rel_bind; [apply IHl2; [assumption|exact Hf|exact Hlen]|]. intros _. auto.
  - destruct l; try apply rel_err. cbn [assign_to]. cbn [assigned] in H. fold (index_assigned X idx) in H.
    destruct (index_assigned X idx) as [A1|] eqn:Ha; [|discriminate]. cbn [then_] in H.
    destruct (known A1 local) eqn:Hk; [|discriminate]. injection H as <-.
    eapply rel_bind; [apply rel_eval_index; eassumption|]. intros vs.
    eapply rel_bind.
    { instantiate (1 := A1). destruct (Nat.leb_spec 1 local) as [H1|H1]; [|now apply rel_var_read].
      apply known_in in Hk. destruct Hk as [->|Hk]; [lia|].
      eapply rel_bind; [now apply rel_local_read|]. intros [x|]; [apply rel_ret|apply rel_crash]. }
    intros lhs. destruct (quiet lhs); [apply rel_err|].
    eapply rel_bind; [eapply (rel_weak A1 A1 _ A1); [apply incl_refl| |apply rel_var_write]; apply incl_cons_tl|].
    intros _. apply rel_raise.
Qed.
Lemma rel_body body : forall v X, body_assigned X body = true -> rel X [] (eval_body ex1 body v) (eval_body ex2 body v).
Proof.
  induction body as [|e body IHb]; intros v X H.
  - apply (rel_any X X), rel_ret.
  - assert (Hplain : match assigned false X e with Some A1 => body_assigned A1 body | None => false end = true ->
      rel X [] (mbind (ex1 (TExpr e)) (fun x => eval_body ex1 body (Some x))) (mbind (ex2 (TExpr e)) (fun x => eval_body ex2 body (Some x)))).
    { destruct (assigned false X e) as [A1|] eqn:Ha; [|discriminate]. intros Hb.
      eapply rel_bind; [apply rel_expr; exact Ha|]. intros x. now apply IHb. }
    destruct e as [v0|name i|o r|o l r|l r|l|l idx]; try (apply Hplain; exact H).
    cbn [body_assigned] in H. cbn [eval_body].
    destruct (assigned false X l) as [A1|] eqn:Hl; [|discriminate].
    destruct (assigned false A1 r) as [A2|] eqn:Hr; [|discriminate].
    eapply rel_bind; [apply rel_expr; exact Hl|]. intros c. eapply rel_bind; [apply rel_raise|].
    intros [|]; [|now apply IHb]. eapply rel_bind; [apply rel_expr; exact Hr|]. intros x. apply (rel_any A2 A2), rel_ret.
Qed.
Lemma rel_call X fn left right : definite fn -> (f_left fn = None <-> left = None) ->
  rel X X (call pad E ex1 fn left right) (call empty_frame E ex2 fn left right).
Proof.
  intros HD Hlr s1 s2 T H.
  pose proof (safe_call definite pad E pad_length definite_wf ex1 S1 0 fn left right HD s1 T) as K1.
  assert (T2 : tables definite s2). { unfold tables. rewrite <- (a_unary _ _ _ H), <- (a_binary _ _ _ H). exact T. }
  pose proof (safe_call definite empty_frame E empty_length definite_wf ex2 S2 0 fn left right HD s2 T2) as K2.
  assert (Hst : forall a b, keeps definite E 0 a b -> stack b = stack a).
  { clear. intros a b [? HL Hs _ _ _]. rewrite Nat.sub_0_r in Hs. rewrite firstn_all in Hs. rewrite <- HL in Hs. now rewrite firstn_all in Hs. }
  apply Hst in K1 as Q1. apply Hst in K2 as Q2.
  assert (Hgoal : snd (call pad E ex1 fn left right s1) = snd (call empty_frame E ex2 fn left right s2) /\
    symbols (fst (call pad E ex1 fn left right s1)) = symbols (fst (call empty_frame E ex2 fn left right s2)) /\
    frames (fst (call pad E ex1 fn left right s1)) = frames (fst (call empty_frame E ex2 fn left right s2)) /\
    peak (fst (call pad E ex1 fn left right s1)) = peak (fst (call empty_frame E ex2 fn left right s2))).
  2:{ destruct Hgoal as (Hr & Hs & Hf & Hp). split; [exact Hr|]. split; [now apply (k_tables _ _ _ _ _ K1)|].
      unfold symbols in Hs.
      assert (Ha : agree X (fst (call pad E ex1 fn left right s1)) (fst (call empty_frame E ex2 fn left right s2))).
      { destruct H. constructor; rewrite ?Q1, ?Q2; auto; congruence. }
      destruct (snd (call pad E ex1 fn left right s1)); auto; now apply agree_nil in Ha. }
  clear K1 K2 Q1 Q2 Hst. destruct HD as (Hw & A & HA & HB). unfold call, symbols.
  destruct (f_body fn) as [body|] eqn:Hbody; [|destruct H; cbn; repeat split; congruence].
  rewrite <- (a_frames _ _ _ H).
  destruct (_ <=? _); [destruct H; cbn; repeat split; congruence|].
  match goal with |- context [pop (fst (?m ?s))] => set (m1 := m) end.
  match goal with |- context [empty_frame] => idtac end.
  match goal with |- context [snd (?m (push_cells empty_frame ?n s2))] => set (m2 := m) end.
  assert (Hm : rel [] [] m1 m2).
  { unfold m1, m2. destruct (match f_left fn with Some e => assigned true [] e | None => Some [] end) as [A1|] eqn:HA1; [|discriminate].
    cbn [then_] in HA. eapply rel_bind.
    { instantiate (1 := A1). destruct (f_left fn) as [e|].
      - destruct left as [x|]; [apply rel_assign; eassumption|]. exfalso. destruct Hlr as [_ Hlr]. now specialize (Hlr eq_refl).
      - injection HA1 as <-. apply rel_ret. }
    intros _. eapply rel_bind; [apply rel_assign; exact HA|]. intros _.
    eapply rel_bind; [apply rel_body; now apply HB|]. intros [v|]; [apply rel_ret|apply rel_err]. }
  destruct (Hm (push_cells pad (length (f_locals fn)) s1) (push_cells empty_frame (length (f_locals fn)) s2)) as (Hr & HT & Ha).
  { exact T. }
  { destruct H. constructor; cbn; auto; rewrite ?app_length, ?pad_length, ?empty_length; try congruence. intros i []. }
  cbn [fst snd]. split; [exact Hr|]. apply agree_nil in Ha. destruct Ha. unfold pop. cbn. repeat split; congruence.
Qed.
Lemma rel_eval_list X l : forallb (within 0) l = true -> rel X X (eval_list ex1 l) (eval_list ex2 l).
Proof.
  induction l as [|e l IHl]; intros H; [apply rel_ret|].
  cbn in H. apply andb_prop in H. destruct H as [H1 H2].
  cbn. destruct (closed_assigned e H1 false X) as (Y & HY & Hi).
  eapply rel_bind; [eapply (rel_weak X X Y X); [apply incl_refl|exact Hi|now apply rel_expr]|].
  intros v. eapply rel_bind; [now apply IHl|]. intros vs. apply rel_ret.
Qed.
Lemma rel_eval_line X l : wf_line definite l -> rel X X (eval_line ex1 l) (eval_line ex2 l).
Proof.
  destruct l as [es|fn0 fn parsed|name b|]; intros H; cbn in *.
  - now apply rel_eval_list.
  - destruct H as (H1 & H2 & H3 & H4). eapply rel_bind; [|intros _; apply rel_ret].
    apply rel_symbols.
    + intros st T. pose proof (safe_define_op definite E 0 fn0 fn parsed H1 H2 H3 H4 st T) as K. now apply (k_tables _ _ _ _ _ K).
    + intros a b Q1 Q2 Q3 Q4. now apply define_op_symbols.
    + intros st. pose proof (define_op_ctx fn0 fn parsed st) as Q. cbn in Q. tauto.
  - eapply rel_bind; [|intros _; apply rel_ret]. apply rel_symbols.
    + intros st T. pose proof (safe_undefine definite E 0 name b st T) as K. now apply (k_tables _ _ _ _ _ K).
    + intros a c Q1 Q2 Q3 Q4. unfold undefine, symbols. rewrite <- Q4. destruct (existsb _ _); cbn; rewrite ?Q1, ?Q2, ?Q3, ?Q4; auto.
    + intros st. unfold undefine. destruct (existsb _ _); cbn; auto.
  - apply rel_err.
Qed.
Lemma rel_interp X p : rel X X (interp E ex1 p) (interp E ex2 p).
Proof.
  induction p as [r|op v k IHk|a op b k IHk|text k IHk]; cbn.
  - apply rel_raise.
  - eapply rel_bind; [apply rel_unary|auto].
  - eapply rel_bind; [apply rel_binary|auto].
  - eapply rel_bind; [|auto]. intros s1 s2 T H. rewrite (a_unary _ _ _ H), (a_binary _ _ _ H).
    apply rel_eval_line; auto.
Qed.
Lemma rel_step t X Y : task_assigned X t = Some Y -> rel X Y (step pad E ex1 t) (step empty_frame E ex2 t).
Proof.
  destruct t as [e|op v|a op b]; intros H; cbn [task_assigned] in H.
  - destruct e as [v|name i|op r|op l r|l r|l|l idx]; cbn [step]; cbn [assigned] in H.
    + injection H as <-. apply rel_ret.
    + destruct (known X i) eqn:Hk; [|discriminate]. injection H as <-. now apply rel_var_read.
    + eapply rel_bind; [apply rel_expr; eassumption|]. intros v. apply rel_unary.
    + destruct (assigned false X r) as [A1|] eqn:Hr; [|discriminate]. cbn [then_] in H.
      eapply rel_bind; [apply rel_expr; eassumption|]. intros v. destruct (op =? "=")%string.
      * eapply rel_bind; [apply rel_assign; eassumption|]. intros _. apply rel_ret.
      * eapply rel_bind; [apply rel_expr; eassumption|]. intros w. apply rel_binary.
    + destruct (assigned false X r) as [A1|] eqn:Hr; [|discriminate]. cbn [then_] in H.
      eapply rel_bind; [apply rel_expr; eassumption|]. intros v. eapply rel_bind; [apply rel_expr; eassumption|]. intros w. apply rel_binary.
    + eapply rel_bind; [apply rel_eval_right; eassumption|]. intros vs. apply rel_ret.
    + fold (index_assigned X idx) in H. destruct (index_assigned X idx) as [A1|] eqn:Hi; [|discriminate]. cbn [then_] in H.
      eapply rel_bind; [apply rel_eval_index; eassumption|]. intros vs. eapply rel_bind; [apply rel_expr; eassumption|]. intros w.
      eapply rel_bind; [apply rel_raise|]. intros x. apply rel_ret.
  - injection H as <-. cbn [step]. destruct (classify1 op); try apply rel_interp.
    intros s1 s2 T Ha. rewrite <- (a_unary _ _ _ Ha). destruct (find (unary s1) op) as [fn|] eqn:Hf.
    + destruct (proj1 T _ _ Hf) as [Hb HD]. apply rel_call; auto.
      destruct HD as [[[_ Hw] _] _]. rewrite Hb in Hw. split; auto. intros _. destruct (f_left fn); auto. now discriminate Hw.
    + destruct (find (b_unary (ops E)) op); [now apply rel_interp|]. cbn. apply agree_nil in Ha. auto.
  - injection H as <-. cbn [step]. destruct (if (op =? "==")%string then _ else _); [apply rel_raise|].
    destruct (classify2 op); try apply rel_interp.
    intros s1 s2 T Ha. rewrite <- (a_binary _ _ _ Ha). destruct (find (binary s1) op) as [fn|] eqn:Hf.
    + destruct (proj2 T _ _ Hf) as [Hb HD]. apply rel_call; auto.
      destruct HD as [[[Hw _] _] _]. specialize (Hw Hb). split; intros; congruence.
    + destruct (find (b_binary (ops E)) op); [now apply rel_interp|]. cbn. apply agree_nil in Ha. auto.
Qed.
End Step.

Lemma exec_rel n : forall t X Y, task_assigned X t = Some Y ->
  rel X Y (exec_with pad E n t) (exec_with empty_frame E n t).
Proof.
  induction n as [|n IHn]; intros t X Y H; [now apply rel_bad|].
  cbn [exec_with]. apply rel_step; auto; intros k t' Hk; apply exec_safe; auto using pad_length, empty_length, definite_wf.
Qed.
Lemma run_line_rel n text : rel [] [] (run_line_with pad E n text) (run_line_with empty_frame E n text).
Proof.
  unfold run_line_with. eapply rel_bind.
  - intros s1 s2 T H. rewrite (a_unary _ _ _ H), (a_binary _ _ _ H).
    apply rel_eval_line; auto. intros t X Y. apply exec_rel. exact H.
  - intros vs. destruct (existsb _ _); [|apply rel_ret]. eapply rel_bind; [apply rel_assign_global|]. intros _. apply rel_ret.
Qed.
Lemma run_lines_rel n ls : forall s1 s2, tables definite s1 -> agree [] s1 s2 ->
  snd (run_lines_with pad E n ls s1) = snd (run_lines_with empty_frame E n ls s2) /\
  agree [] (fst (run_lines_with pad E n ls s1)) (fst (run_lines_with empty_frame E n ls s2)).
Proof.
  induction ls as [|l ls IHls]; intros s1 s2 T H; [now cbn|].
  cbn. destruct (run_line_rel n l s1 s2 T H) as (Hr & T1 & Ha).
  destruct (run_line_with pad E n l s1) as [a r], (run_line_with empty_frame E n l s2) as [b r']. cbn in Hr, T1, Ha.
  subst r'. assert (Ha' : agree [] a b) by (destruct r; exact Ha).
  destruct r; cbn; auto; destruct (IHls a b T1 Ha') as [-> H2]; auto.
Qed.
End Fresh.

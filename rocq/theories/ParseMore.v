(* Chains of operators; local variables of parsed operators. *)
From Coq Require Import String Lia Permutation.
From Verif Require Import Value Syntax ExecModel ExecSpec ExecProofs ExecMono ParseModel ParseSpec ParseProofs ParseComplete ParsePrint ParseVars ParseDefn.
Open Scope string_scope.
Open Scope list_scope.
Open Scope nat_scope.

Lemma chain_expr d ts e : Expr d ts e <-> exists items last, Chain d ts items last /\ e = nest items last.
Proof.
  split.
  - induction 1 as [c ts e O N|t o ts e U He IH|c ts l t o ts' r O N B Hr IH|c ts l ts' r O N T Hr IH].
    + exists [], e. split; [econstructor; eauto|reflexivity].
    + destruct IH as (items & last & C & ->). exists ((None, o) :: items), last. split; [now constructor|reflexivity].
    + destruct IH as (items & last & C & ->). exists ((Some l, o) :: items), last. split; [now apply ch_binary with (c := c)|reflexivity].
    + destruct IH as (items & last & C & ->). exists ((Some l, "=") :: items), last. split; [now apply ch_assign with (c := c)|reflexivity].
  - intros (items & last & C & ->). induction C; cbn [nest fold_right fst snd].
    + now apply g_operand with (c := c).
    + now constructor.
    + now apply g_binary with (c := c).
    + now apply g_assign with (c := c).
Qed.

Lemma run_more E n m t st st' v : n <= m -> exec E n t st = (st', Ok v) -> exec E m t st = (st', Ok v).
Proof.
  intros H X. assert (B := exec_more pad E n m t H st). unfold exec in *. rewrite B; [exact X|]. rewrite X. discriminate.
Qed.
Lemma run_chain E n items e st st' v : RunChain E n items e st st' v -> exec E (n + length items) (TExpr (nest items e)) st = (st', Ok v).
Proof.
  induction 1 as [e st st' v H|o items e st st1 st2 w v H IH Ho|l o items e st st1 st2 st3 w a v No H IH Hl Ho|s items e st st1 w H IH].
  - cbn [length nest fold_right]. now rewrite Nat.add_0_r.
  - cbn [length nest fold_right fst snd]. rewrite Nat.add_succ_r. fold (nest items e). unfold exec in *. cbn [exec_with step]. unfold mbind.
    rewrite IH. apply run_more with (m := n + length items) in Ho; [exact Ho|lia].
  - cbn [length nest fold_right fst snd]. rewrite Nat.add_succ_r. fold (nest items e). unfold exec in *. cbn [exec_with step]. unfold mbind.
    rewrite IH. destruct (String.eqb_spec o "=") as [?|_]; [contradiction|].
    apply run_more with (m := n + length items) in Hl; [|lia]. apply run_more with (m := n + length items) in Ho; [|lia].
    unfold exec in *. rewrite Hl. exact Ho.
  - cbn [length nest fold_right fst snd]. rewrite Nat.add_succ_r. fold (nest items e). unfold exec in *. cbn [exec_with step]. unfold mbind.
    rewrite IH. reflexivity.
Qed.

(* ---- local variables ---- *)
Lemma uses_plain e : forall a, uses a (plain e) = uses a e.
Proof.
  induction e as [v|s i|o r IHr|o l r IHl IHr|l r IHl IHr|l IHl|l idx IHl IHidx] using expr_ind'; intros a; cbn; auto.
  - now rewrite IHl, IHr.
  - now rewrite IHl, IHr.
  - f_equal. f_equal. rewrite map_map. apply map_ext_in. intros x Hx. rewrite Forall_forall in IHl. now apply IHl.
  - rewrite IHl. f_equal. f_equal. f_equal. rewrite map_map. apply map_ext_in. intros o Ho. rewrite Forall_forall in IHidx. specialize (IHidx o Ho). destruct o; cbn; auto.
Qed.
Lemma no_cond_all d :
  (forall ts e, Expr d ts e -> no_cond e = true) /\ (forall c ts e, Operand d c ts e -> no_cond e = true) /\
  (forall c ts l, Elements d c ts l -> forallb no_cond l = true) /\ (forall c ts e, Element d c ts e -> no_cond e = true) /\
  (forall ts l, Indexes d ts l -> forallb (fun o => match o with Some x => no_cond x | None => true end) l = true) /\
  (forall ts o, Index d ts o -> match o with Some x => no_cond x | None => true end = true).
Proof.
  apply grammar_ind; intros; cbn in *; auto; repeat match goal with H : _ = true |- _ => rewrite H; clear H end; auto.
  - match goal with H : _ && true = true |- _ => now rewrite andb_true_r in H end.
  - unfold chars. clear. induction s; cbn; auto.
Qed.
Lemma no_cond_arg : (forall ts e, Arg ts e -> no_cond e = true) /\ (forall ts l, Args ts l -> forallb no_cond l = true).
Proof. apply arg_ind; intros; cbn; auto. now rewrite H, H0. Qed.
Lemma statement_parsed d ts e : Statement d ts e -> statement e = true.
Proof.
  intros [ts' e' H|ts1 l ts2 r H1 H2].
  - pose proof (proj1 (no_cond_all d) _ _ H) as N. destruct e'; try exact N; discriminate.
  - cbn. now rewrite (proj1 (no_cond_all d) _ _ H1), (proj1 (no_cond_all d) _ _ H2).
Qed.
Lemma statements_parsed d ts l : Statements d ts l -> forallb statement l = true.
Proof. induction 1 as [ts e H|ts e ts' l H Hl IH]; cbn; rewrite (statement_parsed _ _ _ H); auto. Qed.
Lemma body_lines_parsed d lines : forall l, body_lines d lines = Some l -> forallb statement l = true /\ forallb (within 0) l = true.
Proof.
  induction lines as [|ts lines IH]; intros l H; [cbn in H; now injection H as <-|].
  cbn [body_lines] in H. destruct ts as [|t ts]; [now injection H as <-|]. destruct (has_err (t :: ts)); [discriminate|].
  destruct (expression_list d (enough (t :: ts)) (t :: ts)) as [l1 r| |] eqn:E; try discriminate. destruct (body_lines d lines) as [l2|]; [|discriminate].
  injection H as <-. apply expression_list_sound in E. destruct E as [_ E]. destruct (IH l2 eq_refl) as [I1 I2]. rewrite !forallb_app, I1, I2.
  now rewrite (statements_parsed _ _ _ E), (statements_within _ _ _ E).
Qed.

Lemma first_use_true s us : Forall (fun p => snd p = true) us -> In s (map fst us) -> first_use s us = Some true.
Proof.
  induction 1 as [|[s' a] us Ha _ IH]; intros H; [destruct H|]. cbn in *. subst a. destruct (String.eqb_spec s s') as [->|N]; auto.
  destruct H as [H|H]; [congruence|auto].
Qed.
Lemma arg_uses : (forall ts e, Arg ts e -> Forall (fun p => snd p = true) (uses true e)) /\
  (forall ts l, Args ts l -> Forall (Forall (fun p : string * bool => snd p = true)) (map (uses true) l)).
Proof.
  apply arg_ind; intros; cbn; auto. apply Forall_concat. now apply Forall_rev.
Qed.
(* The tree of a definition before its variables are resolved. *)
Lemma define_raw bu bb u b ts more fn0 fn : parse_tokens bu bb u b ts more = LDefine fn0 fn true ->
  exists raw, fn = func_vars raw /\ plain_func raw = raw /\ match f_left raw with Some e => no_cond e = true | None => True end /\
    no_cond (f_right raw) = true /\ Forall (fun p => snd p = true) (arguments raw) /\
    match f_body raw with Some body => forallb statement body = true | None => True end.
Proof.
  intros H.
  assert (D : forall undef ts, function_defn bu bb undef u b ts more = LDefine fn0 fn true ->
    exists raw, fn = func_vars raw /\ plain_func raw = raw /\ match f_left raw with Some e => no_cond e = true | None => True end /\
    no_cond (f_right raw) = true /\ Forall (fun p => snd p = true) (arguments raw) /\
    match f_body raw with Some body => forallb statement body = true | None => True end).
  { clear ts H. intros undef ts H. rewrite function_defn_eq in H. destruct (defn_head ts) as [[fn0' rest]|] eqn:E; [|discriminate].
    destruct undef; [destruct rest; discriminate|]. unfold defn_rest in H. destruct (rejected fn0'); [discriminate|].
    destruct (defn_head_sound _ _ _ E) as (Hb & Hl & tl & tr & Ar & _ & Hleft).
    assert (G : forall body, fn = func_vars (mkFunc (f_binary fn0') (f_name fn0') (f_left fn0') (f_right fn0') body []) ->
      match body with Some body => forallb statement body = true /\ forallb (within 0) body = true | None => True end ->
      exists raw, fn = func_vars raw /\ plain_func raw = raw /\ match f_left raw with Some e => no_cond e = true | None => True end /\
        no_cond (f_right raw) = true /\ Forall (fun p => snd p = true) (arguments raw) /\
    match f_body raw with Some body => forallb statement body = true | None => True end).
    { intros body Ef Hbody. eexists. split; [exact Ef|]. cbn [f_left f_right f_body].
      assert (Wr : plain (f_right fn0') = f_right fn0') by (apply plain_within; exact (proj1 arg_within _ _ Ar)).
      assert (Wl : option_map plain (f_left fn0') = f_left fn0').
      { destruct (f_left fn0') as [e|]; auto. cbn. f_equal. apply plain_within. destruct Hleft as [_ Ha]. exact (proj1 arg_within _ _ Ha). }
      assert (Wb : option_map (map plain) body = body).
      { destruct body as [body|]; auto. cbn. f_equal. destruct Hbody as [_ Hw]. clear -Hw. induction body as [|e body IH]; auto. cbn in *.
        apply andb_prop in Hw. destruct Hw. now rewrite IH, plain_within. }
      split; [unfold plain_func; cbn; now rewrite Wl, Wr, Wb|].
      split; [destruct (f_left fn0'); auto; destruct Hleft as [_ Ha]; exact (proj1 no_cond_arg _ _ Ha)|].
      split; [exact (proj1 no_cond_arg _ _ Ar)|]. split; [|destruct body; tauto]. unfold arguments. cbn [f_left f_right]. apply Forall_app.
      split; [|exact (proj1 arg_uses _ _ Ar)]. destruct (f_left fn0'); [|constructor]. destruct Hleft as [_ Ha]. exact (proj1 arg_uses _ _ Ha). }
    destruct rest as [|t rest].
    - apply (G None); [injection H; auto|exact I].
    - destruct t; try discriminate. destruct (match rest with [] => _ | _ => _ end) as [[|e body]|] eqn:Eb; try discriminate.
      apply (G (Some (e :: body))); [injection H; auto|]. destruct rest as [|t rest].
      + now apply body_lines_parsed in Eb.
      + destruct (expression_list _ _ (t :: rest)) as [l r| |] eqn:E2; try discriminate. injection Eb as ->.
        apply expression_list_sound in E2. destruct E2 as [_ E2]. split; [exact (statements_parsed _ _ _ E2)|exact (statements_within _ _ _ E2)]. }
  unfold parse_tokens in H. destruct (has_err ts); [discriminate|].
  assert (L : match expression_list (mkScope bu bb (names u) (names b) []) (enough ts) ts with POk l _ => LExprs l | _ => LBad end <> LDefine fn0 fn true).
  { destruct (expression_list _ (enough ts) ts); discriminate. }
  destruct ts as [|t ts]; [discriminate|]. destruct t; try (now elim L); try discriminate; eapply D; eauto.
Qed.
Lemma arguments_plain raw : arguments (plain_func raw) = arguments raw.
Proof. unfold arguments. cbn. rewrite uses_plain. destruct (f_left raw); cbn; auto. now rewrite uses_plain. Qed.
Lemma body_uses_plain body : body_uses (map plain body) = body_uses body.
Proof. unfold body_uses. f_equal. rewrite map_map. apply map_ext. intros. apply uses_plain. Qed.
Lemma func_uses_plain fn : func_uses (plain_func fn) = func_uses fn.
Proof. unfold func_uses. rewrite arguments_plain. cbn. destruct (f_body fn); cbn; auto. now rewrite body_uses_plain. Qed.
Lemma conditionals_plain body : forall before, conditionals_agree before (map plain body) <-> conditionals_agree before body.
Proof.
  induction body as [|e body IH]; intros before; cbn [map conditionals_agree]; [tauto|]. rewrite uses_plain, IH.
  destruct e; cbn [plain]; try tauto. rewrite !uses_plain. tauto.
Qed.
Lemma parsed_resolved bu bb u b ts more fn0 fn : parse_tokens bu bb u b ts more = LDefine fn0 fn true -> exists loc, resolved loc fn /\
  (match f_body fn with Some body => conditionals_agree (arguments fn) body | None => True end ->
   forall s, loc s <> 0 <-> first_use s (func_uses fn) = Some true).
Proof.
  intros H. destruct (define_raw _ _ _ _ _ _ _ _ H) as (raw & -> & Praw & Nl & Nr & _ & Nb).
  destruct (func_vars_good raw) as (loc & R & P & F). exists loc. split; [exact R|]. intros C s. rewrite F.
  assert (E : plain_func (func_vars raw) = raw) by (rewrite P; exact Praw).
  assert (U : func_uses (func_vars raw) = func_uses raw) by (rewrite <-func_uses_plain, E; reflexivity).
  assert (A : arguments (func_vars raw) = arguments raw) by (rewrite <-arguments_plain, E; reflexivity).
  assert (Ew : match f_left raw with Some e => wuses true e | None => [] end ++ wuses true (f_right raw) = arguments raw).
  { unfold arguments. rewrite (wuses_uses _ Nr). destruct (f_left raw); auto. now rewrite (wuses_uses _ Nl). }
  rewrite U. unfold wfunc_uses. rewrite Ew. unfold func_uses.
  destruct (f_body raw) as [body|] eqn:Eb; [|tauto].
  assert (Cb : conditionals_agree (arguments raw) body).
  { rewrite A in C. assert (Fb := f_equal f_body E). rewrite Eb in Fb. cbn in Fb. destruct (f_body (func_vars raw)) as [b'|]; [|discriminate].
    cbn in Fb. injection Fb as Fb. rewrite <-Fb. now apply conditionals_plain. }
  rewrite (body_order s body Nb (arguments raw) (arguments raw) eq_refl Cb). tauto.
Qed.

Lemma resolvers_agree e : forall loc loc' a s, indexed_by loc e -> indexed_by loc' e -> In s (map fst (uses a e)) -> loc s = loc' s.
Proof.
  induction e as [v|n i|o r IHr|o l r IHl IHr|l r IHl IHr|l IHl|l idx IHl IHidx] using expr_ind'; intros loc loc' a s H1 H2 Hs; cbn in *.
  - contradiction.
  - destruct Hs as [<-|[]]. congruence.
  - eauto.
  - rewrite map_app in Hs. apply in_app_or in Hs. destruct H1, H2, Hs; eauto.
  - rewrite map_app in Hs. apply in_app_or in Hs. destruct H1, H2, Hs; eauto.
  - apply in_map_iff in Hs. destruct Hs as (p & <- & Hp). apply in_concat in Hp. destruct Hp as (us & Hu & Hp). apply in_rev in Hu.
    apply in_map_iff in Hu. destruct Hu as (x & <- & Hx). revert H1 H2 Hx. induction IHl as [|y l Hy _ IH]; cbn; intros H1 H2 Hx; [contradiction|].
    destruct H1, H2, Hx as [->|Hx]; auto. apply (Hy loc loc' a (fst p)); auto. now apply in_map.
  - rewrite map_app in Hs. apply in_app_or in Hs. destruct H1 as [H1 H1'], H2 as [H2 H2']. destruct Hs as [Hs|Hs]; [|eauto].
    apply in_map_iff in Hs. destruct Hs as (p & <- & Hp). apply in_concat in Hp. destruct Hp as (us & Hu & Hp). apply in_rev in Hu.
    apply in_map_iff in Hu. destruct Hu as (x & <- & Hx). clear H1 H2. revert H1' H2' Hx. induction IHidx as [|y l' Hy _ IH]; cbn; intros H1 H2 Hx; [contradiction|].
    destruct H1, H2, Hx as [->|Hx]; auto. destruct x as [x|]; [|contradiction]. apply (Hy loc loc' false (fst p)); auto. now apply in_map.
Qed.
Lemma parsed_arguments bu bb u b ts more fn0 fn s : parse_tokens bu bb u b ts more = LDefine fn0 fn true ->
  In s (map fst (arguments fn)) -> forall loc, resolved loc fn -> loc s <> 0.
Proof.
  intros H Hs loc R. destruct (define_raw _ _ _ _ _ _ _ _ H) as (raw & -> & Praw & Nl & Nr & Ha & _).
  destruct (func_vars_good raw) as (loc' & R' & P & F).
  assert (E : plain_func (func_vars raw) = raw) by (rewrite P; exact Praw).
  assert (A : arguments (func_vars raw) = arguments raw) by (rewrite <-arguments_plain, E; reflexivity).
  assert (L' : loc' s <> 0).
  { apply F. unfold wfunc_uses.
    assert (Ew : match f_left raw with Some e => wuses true e | None => [] end ++ wuses true (f_right raw) = arguments raw).
    { unfold arguments. rewrite (wuses_uses _ Nr). destruct (f_left raw); auto. now rewrite (wuses_uses _ Nl). }
    rewrite Ew, first_use_app. rewrite first_use_true; auto. now rewrite <-A. }
  replace (loc s) with (loc' s); auto. destruct R as (R1 & R2 & _), R' as (R1' & R2' & _). unfold arguments in Hs. rewrite map_app in Hs.
  apply in_app_or in Hs. destruct Hs as [Hs|Hs].
  - destruct (f_left (func_vars raw)) as [e|]; [|contradiction]. exact (resolvers_agree e loc' loc true s R1' R1 Hs).
  - exact (resolvers_agree _ loc' loc true s R2' R2 Hs).
Qed.

(* ---- the text of a definition ---- *)
Lemma walk_vars_fold l : forall acc, fold_left (fun acc e => walk_vars e ++ acc) l acc = concat (rev (map walk_vars l)) ++ acc.
Proof.
  induction l as [|e l IH]; intros acc; cbn; auto. rewrite IH, concat_app. cbn. now rewrite app_nil_r, <-!app_assoc.
Qed.
Lemma concat_rev_perm {A} (l : list (list A)) : Permutation (concat (rev l)) (concat l).
Proof.
  induction l as [|x l IH]; cbn; auto. rewrite concat_app. cbn. rewrite app_nil_r. rewrite Permutation_app_comm. now apply Permutation_app_head.
Qed.
Lemma walk_vars_perm : (forall ts e, Arg ts e -> Permutation (walk_vars e) (variables e)) /\
  (forall ts l, Args ts l -> Permutation (concat (map walk_vars l)) (concat (map variables l))).
Proof.
  apply arg_ind; intros; cbn; auto.
  - rewrite walk_vars_fold, app_nil_r, concat_rev_perm. auto.
  - now apply Permutation_app.
Qed.
Lemma distinct_iff l : distinct l = true <-> NoDup l.
Proof.
  induction l as [|s l IH]; cbn; [split; [constructor|auto]|]. rewrite andb_true_iff, negb_true_iff, IH. split.
  - intros [H1 H2]. constructor; auto. intros Hin. assert (X : existsb (String.eqb s) l = true); [|congruence].
    apply existsb_exists. exists s. split; auto. apply String.eqb_refl.
  - intros H. inversion H as [|? ? N1 N2]; subst. split; auto. destruct (existsb (String.eqb s) l) eqn:E; auto.
    apply existsb_exists in E. destruct E as (x & Hx & Ex). apply String.eqb_eq in Ex. now subst.
Qed.
Lemma rejected_iff fn0 tl tr : Arg tr (f_right fn0) ->
  match f_left fn0 with Some e => f_binary fn0 = true /\ Arg tl e | None => f_binary fn0 = false /\ tl = [] end ->
  rejected fn0 = false <->
  NoDup (f_name fn0 :: match f_left fn0 with Some e => variables e | None => [] end ++ variables (f_right fn0)) /\ ~ (f_binary fn0 = true /\ f_name fn0 = "o").
Proof.
  intros Ar Hl. unfold rejected. set (args := match f_left fn0 with Some e => walk_vars e | None => [] end ++ walk_vars (f_right fn0)).
  set (vs := match f_left fn0 with Some e => variables e | None => [] end ++ variables (f_right fn0)).
  assert (P : Permutation args vs).
  { apply Permutation_app; [|exact (proj1 walk_vars_perm _ _ Ar)]. destruct (f_left fn0); auto. destruct Hl as [_ Ha]. exact (proj1 walk_vars_perm _ _ Ha). }
  assert (D : NoDup (f_name fn0 :: vs) <-> existsb (String.eqb (f_name fn0)) args || negb (distinct args) = false).
  { change (existsb (String.eqb (f_name fn0)) args || negb (distinct args) = false) with (existsb (String.eqb (f_name fn0)) args || negb (distinct args) = false).
    rewrite <-(Permutation.perm_skip (f_name fn0) P), <-distinct_iff. cbn [distinct]. rewrite orb_false_iff, andb_true_iff, negb_true_iff, negb_false_iff. tauto. }
  rewrite orb_false_iff, <-D, andb_false_iff, String.eqb_neq. destruct (f_binary fn0); intuition congruence.
Qed.
Lemma body_lines_sound d more : forall l, body_lines d more = Some l -> exists lines rest, more = lines ++ rest /\ Lines d lines l /\ (rest = [] \/ exists r, rest = [] :: r).
Proof.
  induction more as [|ts more IH]; intros l H.
  - injection H as <-. exists [], []. repeat split; auto. constructor.
  - cbn [body_lines] in H. destruct ts as [|t ts]; [injection H as <-; exists [], ([] :: more); repeat split; eauto; constructor|].
    destruct (has_err (t :: ts)); [discriminate|]. destruct (expression_list d (enough (t :: ts)) (t :: ts)) as [l1 r| |] eqn:E; try discriminate.
    destruct (body_lines d more) as [l2|] eqn:E2; [|discriminate]. injection H as <-. apply expression_list_sound in E. destruct E as [_ E].
    destruct (IH l2 eq_refl) as (lines & rest & -> & HL & Hr). exists ((t :: ts) :: lines), rest. split; [reflexivity|]. split; auto. now constructor.
Qed.
Lemma statements_ne d ts l : Statements d ts l -> ts <> [] /\ has_err ts = false /\ l <> [].
Proof.
  induction 1 as [ts e H|ts e ts' l H Hl IH].
  - destruct (statement_ne _ _ _ H). repeat split; auto. discriminate.
  - destruct (statement_ne _ _ _ H) as [H1 H2]. split; [destruct ts; discriminate|]. split; [|discriminate].
    rewrite has_err_app, has_err_cons, H2. cbn. tauto.
Qed.
Lemma body_lines_complete d lines l rest : Lines d lines l -> (rest = [] \/ exists r, rest = [] :: r) -> body_lines d (lines ++ rest) = Some l.
Proof.
  intros H Hr. induction H as [|ts l lines l' H HL IH]; cbn [app].
  - destruct Hr as [-> |[r ->]]; reflexivity.
  - destruct (statements_ne _ _ _ H) as (Ne & Hx & _). cbn [body_lines]. rewrite Hx, IH, (expression_list_complete d (enough ts) ts l H) by (unfold enough; lia).
    destruct ts; [congruence|reflexivity].
Qed.
Lemma definition_sound bu bb u b ts more fn0 fn : parse_tokens bu bb u b (KDef :: ts) more = LDefine fn0 fn true ->
  exists body, DefText bu bb u b more ts fn0 body /\ plain_func fn = mkFunc (f_binary fn0) (f_name fn0) (f_left fn0) (f_right fn0) body [].
Proof.
  intros H. unfold parse_tokens in H. destruct (has_err (KDef :: ts)); [discriminate|].
  rewrite function_defn_eq in H. destruct (defn_head ts) as [[fn0' rest]|] eqn:Eh; [|discriminate].
  unfold defn_rest in H. destruct (rejected fn0') eqn:Rj; [discriminate|].
  destruct (defn_head_sound _ _ _ Eh) as (Hb & Hl & tl & tr & Ar & -> & Hleft).
  apply (rejected_iff _ _ _ Ar Hleft) in Rj. destruct Rj as [R1 R2].
  assert (G : forall body, fn = func_vars (mkFunc (f_binary fn0') (f_name fn0') (f_left fn0') (f_right fn0') body []) -> fn0' = fn0 ->
    match body with Some body => forallb (within 0) body = true | None => True end ->
    match body with None => rest = [] | Some l => exists ts', rest = KAssign :: ts' /\ Body (def_scope bu bb u b fn0') ts' more l end ->
    exists body, DefText bu bb u b more (tl ++ KId (f_name fn0') :: tr ++ rest) fn0 body /\ plain_func fn = mkFunc (f_binary fn0) (f_name fn0) (f_left fn0) (f_right fn0) body []).
  { intros body -> <- Hw Hrest. exists body. split; [now constructor|].
    destruct (func_vars_good (mkFunc (f_binary fn0') (f_name fn0') (f_left fn0') (f_right fn0') body [])) as (loc & _ & P & _). rewrite P.
    unfold plain_func. cbn [f_binary f_name f_left f_right f_body]. f_equal.
    - destruct (f_left fn0') as [e|]; auto. cbn. f_equal. apply plain_within. destruct Hleft as [_ Ha]. exact (proj1 arg_within _ _ Ha).
    - apply plain_within. exact (proj1 arg_within _ _ Ar).
    - destruct body as [body|]; auto. cbn. f_equal. clear -Hw. induction body as [|e body IH]; auto. cbn in *.
      apply andb_prop in Hw. destruct Hw. now rewrite IH, plain_within. }
  destruct rest as [|t rest].
  - apply (G None); auto; injection H; auto.
  - destruct t; try discriminate. destruct (match rest with [] => _ | _ => _ end) as [[|e body]|] eqn:Eb; try discriminate.
    assert (E1 : fn0' = fn0) by (injection H; auto).
    assert (E2 : func_vars (mkFunc (f_binary fn0') (f_name fn0') (f_left fn0') (f_right fn0') (Some (e :: body)) []) = fn) by (injection H; auto).
    apply (G (Some (e :: body))); auto.
    + destruct rest as [|t rest]; [exact (proj2 (body_lines_parsed _ _ _ Eb))|].
      destruct (expression_list _ _ (t :: rest)) as [l r| |] eqn:E3; try discriminate. injection Eb as ->. apply expression_list_sound in E3.
      destruct E3 as [_ E3]. exact (statements_within _ _ _ E3).
    + exists rest. split; auto. destruct rest as [|t rest].
      * destruct (body_lines_sound _ _ _ Eb) as (lines & rest & -> & HL & Hr). apply b_lines; auto. discriminate.
      * destruct (expression_list _ _ (t :: rest)) as [l r| |] eqn:E3; try discriminate. injection Eb as ->. apply expression_list_sound in E3.
        destruct E3 as [_ E3]. now apply b_line.
Qed.
Lemma definition_complete bu bb u b ts more fn0 body : DefText bu bb u b more ts fn0 body ->
  exists fn, parse_tokens bu bb u b (KDef :: ts) more = LDefine fn0 fn true /\
    plain_func fn = mkFunc (f_binary fn0) (f_name fn0) (f_left fn0) (f_right fn0) body [].
Proof.
  intros H. assert (H0 := H). destruct H0 as [tl tr ts fn0 body Hleft Ar Hb Hl Nd No Hbody].
  assert (X : exists fn, parse_tokens bu bb u b (KDef :: tl ++ KId (f_name fn0) :: tr ++ ts) more = LDefine fn0 fn true /\
     fn = func_vars (mkFunc (f_binary fn0) (f_name fn0) (f_left fn0) (f_right fn0) body [])).
  { eexists. split; [|reflexivity]. unfold parse_tokens.
    assert (Et : has_err ts = false).
    { destruct body as [l|]; [|now subst]. destruct Hbody as (ts' & -> & B). rewrite has_err_cons. cbn. destruct B as [ts' more l S|]; auto.
      exact (proj1 (proj2 (statements_ne _ _ _ S))). }
    assert (Er2 : has_err (KDef :: tl ++ KId (f_name fn0) :: tr ++ ts) = false).
    { repeat (rewrite has_err_app || rewrite has_err_cons). cbn [is_err orb]. rewrite Et, (proj1 no_err_arg _ _ Ar).
      assert (has_err tl = false) as ->; [|reflexivity]. destruct (f_left fn0); destruct Hleft as [_ Ha]; [exact (proj1 no_err_arg _ _ Ha)|now subst]. }
    rewrite Er2, function_defn_eq.
    rewrite defn_head_complete; auto; [|destruct body; [destruct Hbody as (ts' & -> & _)|subst]; exact I].
    unfold defn_rest. assert (Rj : rejected fn0 = false) by (apply (rejected_iff _ _ _ Ar Hleft); auto). rewrite Rj.
    destruct body as [l|]; [|now subst]. destruct Hbody as (ts' & -> & B). destruct B as [ts' more l S|lines rest l HL Hne Hr].
    - destruct (statements_ne _ _ _ S) as (N1 & _ & N2). rewrite (expression_list_complete _ (enough ts') ts' l S) by (unfold enough; lia).
      destruct ts'; [congruence|]. destruct l; [congruence|reflexivity].
    - rewrite (body_lines_complete _ _ _ _ HL Hr). destruct l; [congruence|reflexivity]. }
  destruct X as (fn & E & Ef). exists fn. split; auto. destruct (definition_sound _ _ _ _ _ _ _ _ E) as (body' & D & P).
  rewrite P. f_equal.
  destruct (func_vars_good (mkFunc (f_binary fn0) (f_name fn0) (f_left fn0) (f_right fn0) body [])) as (loc & _ & P' & _). rewrite <-Ef, P in P'.
  apply (f_equal f_body) in P'. cbn in P'. rewrite P'. destruct body as [l|]; auto. cbn. f_equal. destruct Hbody as (ts' & _ & B).
  assert (W : forallb (within 0) l = true).
  { destruct B as [ts' more l S|lines rest l HL Hne Hr]; [exact (statements_within _ _ _ S)|]. clear -HL. induction HL; cbn; auto. rewrite forallb_app, IHHL.
    now rewrite (statements_within _ _ _ H). }
  clear -W. induction l as [|e l IH]; auto. cbn in *. apply andb_prop in W. destruct W. now rewrite IH, plain_within.
Qed.

Lemma arg_names : (forall ts e, Arg ts e -> Permutation (map fst (uses true e)) (variables e)) /\
  (forall ts l, Args ts l -> Permutation (concat (map (fun e => map fst (uses true e)) l)) (concat (map variables l))).
Proof.
  apply arg_ind; intros; cbn; auto.
  - rewrite concat_map, map_rev, concat_rev_perm, map_map. exact H.
  - now apply Permutation_app.
Qed.
Lemma delete_iff bu bb u b ts more name bin : parse_tokens bu bb u b (KUndef :: ts) more = LDelete name bin <->
  if bin then exists tl tr l r, ts = tl ++ KId name :: tr /\ Arg tl l /\ Arg tr r
  else exists tr r, ts = KId name :: tr /\ Arg tr r.
Proof.
  split.
  - intros H. unfold parse_tokens in H. destruct (has_err (KUndef :: ts)); [discriminate|]. rewrite function_defn_eq in H.
    destruct (defn_head ts) as [[fn0 rest]|] eqn:E; [|discriminate]. destruct rest; [|discriminate]. injection H as <- <-.
    destruct (defn_head_sound _ _ _ E) as (_ & _ & tl & tr & Ar & -> & Hl). rewrite app_nil_r.
    destruct (f_left fn0); destruct Hl as [-> Ha]; [eauto 10|subst tl; cbn [app]; eauto].
  - intros H.
    assert (X : exists fn0, f_binary fn0 = bin /\ f_name fn0 = name /\ defn_head ts = Some (fn0, []) /\ has_err ts = false).
    { destruct bin.
      - destruct H as (tl & tr & l & r & -> & Hl & Hr). exists (mkFunc true name (Some l) r None []). repeat split.
        + rewrite <-(app_nil_r tr). apply (defn_head_complete (mkFunc true name (Some l) r None []) tl tr []); cbn; auto.
        + rewrite has_err_app, has_err_cons, (proj1 no_err_arg _ _ Hl), (proj1 no_err_arg _ _ Hr). reflexivity.
      - destruct H as (tr & r & -> & Hr). exists (mkFunc false name None r None []). repeat split.
        + rewrite <-(app_nil_r tr). apply (defn_head_complete (mkFunc false name None r None []) [] tr []); cbn; auto.
        + rewrite has_err_cons, (proj1 no_err_arg _ _ Hr). reflexivity. }
    destruct X as (fn0 & <- & <- & E & Er). unfold parse_tokens. rewrite has_err_cons, Er. cbn [is_err orb]. now rewrite function_defn_eq, E.
Qed.

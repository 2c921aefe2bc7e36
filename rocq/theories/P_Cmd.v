(* C60, C78-C81: special commands, the settings, )save and )get. *)
From Coq Require Import String Ascii ZifyBool Permutation.
From Verif Require Import Value NumModel NumSpec ArrModel ArrSpec Syntax ExecModel ScanModel ScanSpec ScanProofs ScanLex ScanNext TextModel TextSpec TextProofs TextScan StrModel StrSpec StrProofs SaveModel SaveSpec SaveProofs SaveRun ReadModel ReadScan SourceModel CmdModel CmdSpec CmdProofs CmdRun CmdSave CmdReject.
From Verif Require ParseModel.
From Verif Require Import P_Scan P_Save.
Open Scope string_scope.
Open Scope list_scope.
Open Scope Z_scope.

Section Cmd.
Variable u_print : Z -> bool.
Variables letters digits puncts symbols : Z -> bool.
Variables bu bb : string -> bool.
Variable E : settings -> env.
Variables const_e const_pi : Z -> value.
Notation context b := (scan_ctx b letters digits puncts symbols bu bb).
Notation nline := (next_line letters digits puncts symbols bu bb).
Notation constants := (set_constants const_e const_pi).
Notation snext := (session_next u_print letters digits puncts symbols bu bb E const_e const_pi).
Notation stext := (session_text u_print letters digits puncts symbols bu bb E const_e const_pi).

(* Whatever text a session is given - expressions, commands, files read with )get -, the
   settings stay within the ranges of the documentation. *)
Theorem settings_stay_legal : forall k n s q rs s' q', legal_settings (ses_set s) -> stext k n s q = (rs, s', q') -> legal_settings (ses_set s').
Proof using Type. intros k n s q rs s' q' L H. exact (text_legal u_print letters digits puncts symbols bu bb E const_e const_pi k n s q rs s' q' L H). Qed.

(* The line ")name n", n in decimal: whatever the input base, it sets just that setting to n,
   or is rejected when n is out of range, and then changes nothing. *)
Theorem numeric_commands : forall m w n s r q more, documented w n (ses_set s) = Some r -> 0 <= n -> legal_settings (ses_set s) ->
  no_digit_operators (context (in_base (ses_set s)) (ses_ctx s)) -> between_tokens q ->
  to_come q = zs ")" ++ zs w ++ zs " " ++ format_int 10 n ++ [nl] ++ more ->
  exists q', to_come q' = more /\ between_tokens q' /\
    snext m s q = Some (match r with Some c' => (Ok [], constants (with_set s c')) | None => (Err, s) end, q').
Proof using Type.
  intros m w n s r q more D N L ND B T. apply (numeric_command u_print letters digits puncts symbols bu bb E const_e const_pi m w n s r q more D N (proj1 L) ND B).
  rewrite T. unfold numeric_text. rewrite <-!app_assoc. reflexivity.
Qed.

(* A command other than )get, with at most one argument, that is rejected changes nothing. *)
Theorem rejected_commands_partial : forall m s q t args q' s' q2, nline s q = (RSpecial (t :: args), q') -> (length args <= 1)%nat -> t_text t <> zs "get" ->
  snext m s q = Some (Err, s', q2) -> s' = s.
Proof using Type.
  intros m s q t args q' s' q2 NL LA G. unfold session_next. rewrite NL. unfold command.
  destruct (special u_print _ (t :: args) s) as [s1 [u| | |]] eqn:S; intros H; inversion H; subst. exact (special_rejected u_print _ t args s s' LA G S).
Qed.

(* A command other than )get changes no variable, apart from e and pi; nor the operators. *)
Theorem commands_keep_variables_partial : forall m s q args q' r s' q2, nline s q = (RSpecial args, q') -> (forall t rest, args = t :: rest -> t_text t <> zs "get") ->
  snext m s q = Some (r, s', q2) -> same_variables_but ["e"; "pi"] (ses_ctx s') (ses_ctx s) /\ same_but_variables (ses_ctx s') (ses_ctx s).
Proof using Type.
  intros m s q args q' r s' q2 NL G. unfold session_next. rewrite NL. unfold command.
  pose proof (special_ctx u_print (get_file u_print letters digits puncts symbols bu bb E const_e const_pi 6 m) args s G) as C.
  destruct (special u_print _ args s) as [s1 [u| | |]]; cbn [fst] in C; intros H; inversion H; subst.
  - split.
    + intros x N. cbn [set_constants with_ctx ses_ctx globals set_globals]. rewrite !find_store. cbn [In] in N.
      destruct (String.eqb_spec x "pi"); [subst; tauto|]. destruct (String.eqb_spec x "e"); [subst; tauto|]. rewrite C. reflexivity.
    + unfold same_but_variables. rewrite <-C. destruct s1 as [[] ? ? ?]; reflexivity.
  - rewrite C. split; [intros x _; reflexivity|]. unfold same_but_variables. destruct (ses_ctx s); reflexivity.
  - rewrite C. split; [intros x _; reflexivity|]. unfold same_but_variables. destruct (ses_ctx s); reflexivity.
  - rewrite C. split; [intros x _; reflexivity|]. unfold same_but_variables. destruct (ses_ctx s); reflexivity.
Qed.

(* )save "name" writes the file *)
Theorem save_command : forall m A q name t more, save_text u_print A = Ok t -> legal_settings (ses_set A) -> Forall code_point name -> between_tokens q ->
  to_come q = zs ")save " ++ quote_string u_print name ++ [nl] ++ more ->
  exists A' q', snext m A q = Some (Ok [], A', q') /\ to_come q' = more /\ between_tokens q' /\ ses_files A' name = Some t /\ ses_set A' = ses_set A.
Proof using Type.
  intros m A q name t more S L F B T.
  destruct (string_line u_print letters digits puncts symbols bu bb "save" name A q more ltac:(cbn; tauto) F (proj1 L) B) as (q' & NL & T' & B'). { rewrite T. unfold string_text. rewrite <-!app_assoc. reflexivity. }
  eexists. exists q'. split. { unfold session_next. rewrite NL. unfold command. rewrite (save_special u_print _ name A t F S). reflexivity. }
  split; [exact T'|]. split; [exact B'|]. split; [|reflexivity]. cbn. assert (teq name name = true) as -> by (apply ScanNext.teq_eq; reflexivity). reflexivity.
Qed.
(* What )save wrote in the session A, )get reads in the session B: the settings of A, apart from
   the bases; the variables of A; the other variables of B; and e and pi to the precision of A. *)
Theorem workspace_comes_back_partial : forall A B name t q more,
  defs (ses_ctx A) = [] -> save_text u_print A = Ok t -> ses_files B name = Some t ->
  legal_settings (ses_set A) -> Forall code_point (prompt_text (ses_set A)) -> Forall code_point (format_text (ses_set A)) ->
  NoDup (map fst (globals (ses_ctx A))) ->
  Forall (fun p => exists w, fst p = name_of w /\ variable_name (context 10 (ses_ctx B)) w /\ saveable (val (snd p))) (globals (ses_ctx A)) ->
  legal_settings (ses_set B) -> ses_depth B <= 8 -> (forall b, legal_base b -> no_digit_operators (context b (ses_ctx B))) -> (forall c, rho_built_in bb (E c) (ses_ctx B)) ->
  Forall code_point name -> between_tokens q -> to_come q = zs ")get " ++ quote_string u_print name ++ [nl] ++ more ->
  exists m0 B' q', (forall m, (m0 <= m)%nat -> snext m B q = Some (Ok [], B', q')) /\ to_come q' = more /\ between_tokens q' /\
    ses_set B' = loaded_settings (ses_set A) (ses_set B) /\
    (forall x v, find (globals (ses_ctx A)) x = Some v -> ~ In x ["e"; "pi"] -> find (globals (ses_ctx B')) x = Some (loud (val v))) /\
    (forall x, find (globals (ses_ctx A)) x = None -> ~ In x ["e"; "pi"] -> find (globals (ses_ctx B')) x = find (globals (ses_ctx B)) x) /\
    find (globals (ses_ctx B')) "e" = Some (loud (const_e (float_prec (ses_set A)))) /\
    find (globals (ses_ctx B')) "pi" = Some (loud (const_pi (float_prec (ses_set A)))) /\
    same_but_variables (ses_ctx B') (ses_ctx B) /\ ses_depth B' = ses_depth B /\ ses_files B' = ses_files B.
Proof using Type.
  intros A B name t q more DA S F LA CP CF NDp VO LB D NDg RB FN BT T.
  destruct (string_line u_print letters digits puncts symbols bu bb "get" name B q more ltac:(cbn; tauto) FN (proj1 LB) BT) as (q' & NL & T' & B'). { rewrite T. unfold string_text. rewrite <-!app_assoc. reflexivity. }
  set (B0 := with_depth (with_set B (set_base (ses_set B) 0 0)) (ses_depth B + 2)).
  destruct (file_saved u_print letters digits puncts symbols bu bb E const_e const_pi A B0 t DA S LA CP CF eq_refl NDg RB VO NDp) as (m0 & G & R & G1 & G2 & G3 & G4).
  exists m0. eexists. exists q'. split.
  { intros m M. unfold session_next. rewrite NL. unfold command. rewrite (get_special u_print _ name B FN).
    cbn [get_file]. change (ses_files (with_set B (set_base (ses_set B) 0 0)) name) with (ses_files B name). rewrite F. cbv zeta.
    change (ses_depth (with_set B (set_base (ses_set B) 0 0))) with (ses_depth B). replace (10 <? ses_depth B + 1) with false by lia. replace (10 <? ses_depth B + 2) with false by lia.
    fold B0. rewrite R by exact M. reflexivity. }
  split; [exact T'|]. split; [exact B'|]. split; [reflexivity|].
  assert (K1 : forall x, ~ In x ["e"; "pi"] -> x <> "e" /\ x <> "pi") by (intros x N; cbn in N; split; intros ->; tauto).
  cbn [set_constants with_ctx ses_ctx globals set_globals ses_set with_set ses_depth ses_files with_depth].
  split; [|split; [|split; [|split; [|split; [|split]]]]].
  - intros x v H N. destruct (K1 x N) as [N1 N2]. rewrite !find_store. destruct (String.eqb_spec x "pi"); [contradiction|]. destruct (String.eqb_spec x "e"); [contradiction|]. apply G1; auto.
  - intros x H N. destruct (K1 x N) as [N1 N2]. rewrite !find_store. destruct (String.eqb_spec x "pi"); [contradiction|]. destruct (String.eqb_spec x "e"); [contradiction|]. apply G2; auto.
  - rewrite !find_store. reflexivity.
  - rewrite !find_store. reflexivity.
  - unfold same_but_variables. cbn. destruct (ses_ctx B); reflexivity.
  - cbn. lia.
  - reflexivity.
Qed.
(* Once runDepth is 10, every )get fails, and it stays so whatever is done. *)
Theorem get_stuck : forall k m s q rs s' q' name g, 10 <= ses_depth s -> stext k m s q = (rs, s', q') ->
  10 <= ses_depth s' /\ snd (get_file u_print letters digits puncts symbols bu bb E const_e const_pi g m name s') = Err.
Proof using Type.
  assert (GF : forall g m name s, 10 <= ses_depth s -> 10 <= ses_depth (fst (get_file u_print letters digits puncts symbols bu bb E const_e const_pi g m name s)) /\ snd (get_file u_print letters digits puncts symbols bu bb E const_e const_pi g m name s) = Err).
  { intros g m name s H. destruct g; cbn [get_file]; (destruct (ses_files s name); [|split; [exact H|reflexivity]]); cbv zeta; replace (10 <? ses_depth s + 1) with true by lia; cbn; split; [lia|reflexivity|lia|reflexivity]. }
  assert (SP : forall m args s, 10 <= ses_depth s -> 10 <= ses_depth (fst (special u_print (get_file u_print letters digits puncts symbols bu bb E const_e const_pi 6 m) args s))).
  { intros m args s H. unfold special. destruct args as [|t args]; [exact H|]. 
    assert (X : forall s0 i o, 10 <= ses_depth s0 -> 10 <= ses_depth (fst (fst (body u_print (get_file u_print letters digits puncts symbols bu bb E const_e const_pi 6 m) (t_text t) args s0 i o)))).
    { intros s0 i o H0. unfold body. destruct (word_in (t_text t) ["get"]).
      - unfold setting, string_setting, debug_command. destruct (file_name args) as [[name rest]| | |]; [pose proof (proj1 (GF 6%nat m name s0 H0)) as Y; destruct (get_file _ _ _ _ _ _ _ _ _ _ _ _ _ _) as [s1 r1]; cbn [fst] in Y| | |];
        repeat first [exact H0 | exact Y | match goal with |- 10 <= ses_depth (fst (fst (match ?x with _ => _ end))) => destruct x end].
      - unfold setting, string_setting, debug_command.
        repeat first [exact H0 | match goal with |- 10 <= ses_depth (fst (fst (match ?x with _ => _ end))) => destruct x end]. }
    specialize (X (with_set s (set_base (ses_set s) 0 0)) (in_base (ses_set s)) (out_base (ses_set s)) H). destruct (body _ _ _ _ _ _ _) as [[s1 [i o]] r]. cbn [fst] in X. destruct (t_type t); first [exact H|exact X]. }
  assert (SN : forall m s q r s' q', 10 <= ses_depth s -> snext m s q = Some (r, s', q') -> 10 <= ses_depth s').
  { intros m s q r s' q' H. unfold session_next. destruct (nline s q) as [[| | |ts|ts|ts] q0]; try (intros X; inversion X; subst; assumption); try discriminate.
    - unfold command. pose proof (SP m ts s H) as Y. destruct (special u_print _ ts s) as [s1 [u| | |]]; cbn [fst] in Y; intros X; inversion X; subst; exact Y.
    - destruct (read_defn _ _ _ _ _ _ s ts q0) as [l q1]. destruct (eval_line _ _ _) as [st1 r1]. intros X; inversion X; subst; exact H.
    - cbv zeta. destruct (eval_line _ _ _) as [st1 [vs| | |]]; [destruct (existsb _ vs)| | |]; intros X; inversion X; subst; exact H. }
  induction k as [|k IH]; intros m s q rs s' q' name g H; cbn [session_text].
  - intros X. inversion X; subst. split; [exact H|apply GF, H].
  - destruct (snext m s q) as [[[r s1] q1]|] eqn:N; [|intros X; inversion X; subst; split; [exact H|apply GF, H]].
    apply SN in N; [|exact H]. destruct (stext k m s1 q1) as [[rs1 s2] q2] eqn:TT. intros X. inversion X; subst. exact (IH m s1 q1 rs1 s' q' name g N TT).
Qed.

(* The value of a line whose last expression is not an assignment is kept in _. *)
Theorem last_value_partial : forall m s q vs v s' q', snext m s q = Some (Ok (vs ++ [v]), s', q') -> quiet v = false ->
  find (globals (ses_ctx s')) "_" = Some v.
Proof using Type.
  intros m s q vs v s' q'. unfold session_next. assert (NN : [] <> vs ++ [v]) by (destruct vs; discriminate).
  destruct (nline s q) as [[| | |ts|ts|ts] q0]; try (intros X Q; inversion X; congruence); try discriminate.
  - destruct (command _ _ _ _ _ _) as [s1 [u| | |]]; intros X Q; inversion X; congruence.
  - destruct (read_defn _ _ _ _ _ _ s ts q0) as [l q1]. destruct (eval_line _ _ _) as [st1 [r1| | |]]; intros X Q; inversion X; congruence.
  - cbv zeta. destruct (eval_line _ _ _) as [st1 [l| | |]]; try (intros X Q; inversion X; congruence).
    destruct (existsb _ l) eqn:K; intros X Q; inversion X; subst.
    + cbn [with_ctx ses_ctx set_globals globals]. rewrite find_store, last_last. reflexivity.
    + exfalso. rewrite existsb_app in K. apply orb_false_iff in K. cbn in K. rewrite Q in K. cbn in K. destruct K; discriminate.
Qed.
Theorem last_value_text_partial : forall base env m s st vs v st' q', run_next base letters digits puncts symbols bu bb env m s st = Some (Ok (vs ++ [v]), st', q') -> quiet v = false ->
  find (globals st') "_" = Some v.
Proof using Type.
  intros base env m s st vs v st' q'. unfold run_next. destruct (read_tokens _ _ _ _) as [[[[ts|] []] q0]|]; try (intros X Q; inversion X; congruence); try discriminate.
  assert (H : match eval_line (exec env m) (ParseModel.parse_tokens bu bb (unary st) (binary st) (map (parser_token base) ts) []) st with
     | (st1, Ok l) => if existsb (fun v => negb (quiet v)) l then Some (Ok l, set_globals st1 (store (globals st1) "_" (List.last l (loud (VInt 0)))), q0) else Some (Ok l, st1, q0)
     | (st1, r) => Some (r, st1, q0) end = Some (Ok (vs ++ [v]), st', q') -> quiet v = false -> find (globals st') "_" = Some v).
  { destruct (eval_line _ _ _) as [st1 [l| | |]]; try (intros X Q; inversion X; congruence).
    destruct (existsb _ l) eqn:K; intros X Q; inversion X; subst.
    + cbn [set_globals globals]. rewrite find_store, last_last. reflexivity.
    + exfalso. rewrite existsb_app in K. apply orb_false_iff in K. cbn in K. rewrite Q in K. cbn in K. destruct K; discriminate. }
  cbv zeta. destruct (map (parser_token base) ts) as [|k l]; [exact H|]. destruct k; try exact H; intros X; inversion X.
Qed.
(* What else a line of expressions does: it is the evaluation of its parse in the context, and
   then only _ is set.  The settings, the files and the operators stay. *)
Theorem line_effects : forall m s q ts q' r s' q2, nline s q = (RLine ts, q') -> snext m s q = Some (r, s', q2) ->
  exists st1, eval_line (exec (E (ses_set s)) m) (ParseModel.parse_tokens bu bb (unary (ses_ctx s)) (binary (ses_ctx s)) ts []) (ses_ctx s) = (st1, r) /\
    same_variables_but ["_"] (ses_ctx s') st1 /\ same_but_variables (ses_ctx s') st1 /\
    (forall vs, r = Ok vs -> Forall (fun v => quiet v = true) vs -> ses_ctx s' = st1) /\
    ses_set s' = ses_set s /\ ses_files s' = ses_files s /\ ses_depth s' = ses_depth s /\ q2 = q'.
Proof using Type.
  intros m s q ts q' r s' q2 NL. unfold session_next. rewrite NL. cbv zeta.
  destruct (eval_line _ _ _) as [st1 [vs| | |]] eqn:EV; [destruct (existsb _ vs) eqn:X| | |]; intros H; inversion H; subst; exists st1;
    (split; [reflexivity|]); cbn [with_ctx ses_ctx ses_set ses_files ses_depth].
  1: { split; [|split; [|split; [|repeat split]]].
       - intros x N. cbn [set_globals globals]. rewrite find_store. cbn [In] in N. destruct (String.eqb_spec x "_"); [subst; tauto|reflexivity].
       - unfold same_but_variables. destruct st1; reflexivity.
       - intros vs' EQ Q. inversion EQ; subst. exfalso. apply existsb_exists in X. destruct X as (v & I & N). rewrite Forall_forall in Q. rewrite (Q v I) in N. discriminate. }
  all: split; [intros x _; reflexivity|]; split; [unfold same_but_variables; destruct st1; reflexivity|]; repeat split.
Qed.
(* )save and )get without a name use the file save.ivy. *)
Theorem default_file : forall m s q q' t a q1, nline s q = (RSpecial [t], q1) -> nline s q' = (RSpecial [t; a], q1) ->
  t_text t = zs "save" \/ t_text t = zs "get" -> t_type a = TString -> parse_string (t_text a) = Ok (zs "save.ivy") ->
  snext m s q = snext m s q'.
Proof using Type.
  intros m s q q' t a q1 N N' W TA PA. unfold session_next. rewrite N, N'. unfold command, special.
  assert (B : forall s0 i o, body u_print (get_file u_print letters digits puncts symbols bu bb E const_e const_pi 6 m) (t_text t) [] s0 i o =
                             body u_print (get_file u_print letters digits puncts symbols bu bb E const_e const_pi 6 m) (t_text t) [a] s0 i o).
  { intros s0 i o. assert (F : file_name [a] = file_name []) by (unfold file_name, get_string; rewrite TA, PA; reflexivity).
    assert (WI : forall x, word_in (t_text t) [x] = teq (t_text t) (zs x)) by (intros x; unfold word_in; cbn [existsb]; apply orb_false_r).
    unfold body. rewrite !WI. unfold word_in. cbn [existsb].
    destruct W as [W|W]; rewrite W;
      repeat match goal with |- context [teq (zs ?x) (zs ?y)] => let v := eval vm_compute in (teq (zs x) (zs y)) in replace (teq (zs x) (zs y)) with v by (vm_compute; reflexivity) end;
      cbn [orb]; rewrite F; reflexivity. }
  rewrite B. reflexivity.
Qed.
(* )debug name turns that flag on if it was off, off if it was on, and changes nothing else. *)
Theorem debug_toggles : forall m s q q' t f k, nline s q = (RSpecial [t; f], q') -> t_type t = TIdent -> t_text t = zs "debug" -> t_type f = TIdent ->
  nth_error debug_flags k = Some (t_text f) -> length (debug (ses_set s)) = 6%nat ->
  exists c', snext m s q = Some (Ok [], constants (with_set s c'), q') /\
    nth k (debug c') 0 = (if nth k (debug (ses_set s)) 0 =? 0 then 1 else 0) /\
    (forall j, j <> k -> nth j (debug c') 0 = nth j (debug (ses_set s)) 0) /\ length (debug c') = 6%nat /\
    mkSettings (in_base c') (out_base c') (index_origin c') (max_bits c') (max_digits c') (max_stack c') (float_prec c') (prompt_text c') (format_text c') (random_seed c') (debug (ses_set s)) = ses_set s.
Proof using Type.
  intros m s q q' t f k NL TT TX TF FK LD.
  assert (FI : flag_index (t_text f) debug_flags = Some k /\ (k < 6)%nat).
  { do 6 (destruct k as [|k]; [cbn in FK; injection FK as <-; split; [vm_compute; reflexivity|lia]|]). destruct k; discriminate FK. }
  destruct FI as [FI K6]. unfold session_next. rewrite NL. unfold command, special. rewrite TT, TX.
  assert (B : forall s0 i o, body u_print (get_file u_print letters digits puncts symbols bu bb E const_e const_pi 6 m) (zs "debug") [f] s0 i o = debug_command [f] s0 i o) by reflexivity.
  rewrite B. unfold debug_command. rewrite TF, FI. cbv beta iota zeta.
  eexists. split; [reflexivity|]. destruct s as [st [i o og mb md ms fp pt ft sd db] dp fs]. cbn [ses_set debug with_set set_base set_debug in_base out_base index_origin max_bits max_digits max_stack float_prec prompt_text format_text random_seed] in *.
  destruct db as [|d0 [|d1 [|d2 [|d3 [|d4 [|d5 [|]]]]]]]; try discriminate LD.
  split; [|split; [|split; [|reflexivity]]]; do 6 (destruct k as [|k]; [try reflexivity; intros [|[|[|[|[|[|[|j]]]]]]] J; first [reflexivity|contradiction]|]); lia.
Qed.
(* In a file read with )get too the value of the last expression is kept in _. *)
Theorem file_last_value : forall (ex : task -> M rval) l e st st', eval_each ex (l ++ [e]) st = (st', Ok tt) ->
  exists st1 st2 v, ex (TExpr e) st1 = (st2, Ok v) /\ (if quiet v then st' = st2 else find (globals st') "_" = Some v).
Proof using Type.
  intros ex. induction l as [|x l IH]; intros e st st' H; cbn [app eval_each] in H; unfold mbind in H at 1.
  - destruct (ex (TExpr e) st) as [st2 [v| | |]] eqn:X; try discriminate H. exists st, st2, v. split; [exact X|].
    unfold mbind in H. destruct (quiet v); [now inversion H|]. cbn in H. inversion H; subst. cbn [set_globals globals]. rewrite find_store. reflexivity.
  - destruct (ex (TExpr x) st) as [st2 [v| | |]] eqn:X; try discriminate H. unfold mbind in H.
    destruct (quiet v); cbn [ret assign_global] in H; exact (IH _ _ _ H).
Qed.
End Cmd.
Print Assumptions settings_stay_legal.
Print Assumptions numeric_commands.
Print Assumptions rejected_commands_partial.
Print Assumptions commands_keep_variables_partial.
Print Assumptions save_command.
Print Assumptions workspace_comes_back_partial.
Print Assumptions get_stuck.
Print Assumptions last_value_partial.
Print Assumptions last_value_text_partial.
Print Assumptions line_effects.
Print Assumptions default_file.
Print Assumptions debug_toggles.
Print Assumptions file_last_value.

(* The interpreter with its operator names and rho; rationals for e and pi. *)
Definition cmd_env (_ : settings) : env := save_env.
Definition e_value (_ : Z) : value := VRat (19 # 7).
Definition pi_value (_ : Z) : value := VRat (22 # 7).
Notation ivy_next := (session_next no_letters no_letters no_letters no_letters no_letters built_unary built_binary cmd_env e_value pi_value).
Notation ivy_lines := (session_text no_letters no_letters no_letters no_letters no_letters built_unary built_binary cmd_env e_value pi_value).
Definition start (files : text -> option text) : session := new_session e_value pi_value (initial 1) files.
Definition no_files (_ : text) : option text := None.
Definition text_lines (l : list string) : text := flat_map (fun s => zs s ++ [nl]) l.
Definition results (x : list (res (list rval)) * session * sc) := fst (fst x).
Definition after (x : list (res (list rval)) * session * sc) := snd (fst x).
Definition run_lines (s : session) (l : list string) := ivy_lines (length l) 20 s (new_scanner (text_lines l)).
Example initial_legal : legal_settings (initial 1).
Proof. unfold legal_settings, legal_base. cbn. repeat split; lia. Qed.
Example a_session : let x := run_lines (start no_files) [")base 16"; ")prec 0"; ")origin 3"; "x = ff"; ")maxbits 4000000000"; ")obase 2"; ")seed 12345678901"; ")timber"] in
  results x = [Ok []; Err; Ok []; Ok [mkR true (VInt 255)]; Err; Ok []; Ok []; Err] /\
  ses_set (after x) = mkSettings 16 2 3 1000000 10000 100000 256 [] [] 12345678901 [0; 0; 0; 0; 0; 0] /\
  find (globals (ses_ctx (after x))) "x" = Some (loud (VInt 255)).
Proof. vm_compute. repeat split. Qed.

(* no operator's name is a number, in any base *)
Lemma number_letters : forall b, legal_base b -> forall w j, all_digits w b j = true -> Forall (fun r => 48 <= r <= 57 \/ 97 <= r <= 106 \/ 65 <= r <= 70) w.
Proof.
  intros b L. induction w as [|r w IH]; intros j H; [constructor|]. cbn [all_digits] in H.
  destruct ((r =? 106) && negb j) eqn:Q; [constructor; [right; lia|eauto]|].
  destruct (_ || _ || _) eqn:D; [|discriminate]. constructor; [unfold between in D; destruct L; lia|eauto].
Qed.
Lemma names_no_numbers : forall b, legal_base b -> no_digit_operators (ivy_ctx b).
Proof.
  intros b L w H NJ NE. change (all_digits w b false = true) in H.
  pose proof (number_letters b L) as P.
  assert (CP : Forall code_point w) by (eapply Forall_impl; [|exact (P _ _ H)]; intros r; cbv beta; unfold code_point; lia).
  assert (NO : forall l, forallb (fun s => String.eqb s "j" || forallb (fun b => negb (all_digits (text_of s) b false)) [0;2;3;4;5;6;7;8;9;10;11;12;13;14;15;16]) l = true ->
     existsb (String.eqb (name_of w)) l = false).
  { intros l G. destruct (existsb _ l) eqn:Q; [|reflexivity]. apply existsb_exists in Q. destruct Q as (s & I & Q). apply String.eqb_eq in Q.
    rewrite forallb_forall in G. specialize (G s I). assert (W : w = text_of s) by (rewrite <-Q; symmetry; apply text_of_name, CP). apply orb_true_iff in G. destruct G as [G|G].
    - apply String.eqb_eq in G. rewrite G in W. contradiction.
    - rewrite forallb_forall in G. assert (IB : In b [0;2;3;4;5;6;7;8;9;10;11;12;13;14;15;16]) by (cbn; destruct L; lia). specialize (G b IB). rewrite <-W, H in G. discriminate G. }
  unfold defined. cbn [predefined user_binary scan_ctx]. unfold built_binary, built_unary. rewrite !NO by (vm_compute; reflexivity). reflexivity.
Qed.
(* the hypotheses of numeric_commands *)
Example numeric_hypotheses : let s := start no_files in let q := new_scanner (zs ")prec 500" ++ [nl] ++ zs "1") in
  documented "prec" 500 (ses_set s) = Some (Some (set_prec (ses_set s) 500)) /\ documented "prec" 0 (ses_set s) = Some None /\ legal_settings (ses_set s) /\
  no_digit_operators (scan_ctx (in_base (ses_set s)) no_letters no_letters no_letters no_letters built_unary built_binary (ses_ctx s)) /\ between_tokens q /\
  to_come q = zs ")" ++ zs "prec" ++ zs " " ++ format_int 10 500 ++ [nl] ++ zs "1".
Proof.
  split; [reflexivity|]. split; [reflexivity|]. split; [exact initial_legal|]. split; [exact (names_no_numbers 0 ltac:(left; reflexivity))|]. split; [|vm_compute; reflexivity].
  apply new_between. apply Forall_forall. intros x I. vm_compute in I. repeat (destruct I as [<-|I]; [lia|]). destruct I.
Qed.

(* A rejected command can change a setting: the number is used before what follows it is seen. *)
Theorem rejected_command_refuted : exists s q s' q', legal_settings (ses_set s) /\
  ivy_next 20 s q = Some (Err, s', q') /\ in_base (ses_set s) = 0 /\ in_base (ses_set s') = 3 /\ between_tokens q /\ to_come q = zs ")base 3 please" ++ [nl].
Proof.
  set (q0 := new_scanner (zs ")base 3 please" ++ [nl])).
  exists (start no_files), q0, (after (run_lines (start no_files) [")base 3 please"])), (snd (run_lines (start no_files) [")base 3 please"])).
  split; [exact initial_legal|]. split; [vm_compute; reflexivity|]. split; [reflexivity|]. split; [vm_compute; reflexivity|]. split; [|vm_compute; reflexivity].
  apply new_between. apply Forall_forall. intros x I. vm_compute in I. repeat (destruct I as [<-|I]; [lia|]). destruct I.
Qed.
Print Assumptions rejected_command_refuted.
(* A command that only shows something can change a variable: e and pi are reset. *)
Theorem commands_keep_variables_refuted : exists s, 
  results (run_lines s ["e = 5"; ")vars"]) = [Ok [mkR true (VInt 5)]; Ok []] /\
  option_map val (find (globals (ses_ctx (after (run_lines s ["e = 5"])))) "e") = Some (VInt 5) /\
  option_map val (find (globals (ses_ctx (after (run_lines s ["e = 5"; ")vars"])))) "e") = Some (e_value 256).
Proof. exists (start no_files). vm_compute. repeat split. Qed.
Print Assumptions commands_keep_variables_refuted.

(* ---- )save and )get ---- *)
Definition w_lines : list string := ["x = 3 4"; "y = 2 2 rho 'abcd'"; ")prec 100"; ")origin 0"; ")prompt '>> '"; "e = 5"].
Definition session_A : session := after (run_lines (start no_files) w_lines).
Definition file_A : text := match save_text no_letters session_A with Ok t => t | _ => [] end.
Definition with_A (name : text) : option text := if teq name (zs "w") then Some file_A else None.
Definition session_B : session := after (run_lines (start with_A) ["y = 1"; "z = 7"; ")base 2"]).
Example file_A_text : file_A = text_lines [")prec 100"; ")maxbits 1000000"; ")maxdigits 10000"; ")origin 0"] ++
  zs ")prompt " ++ [34] ++ zs ">> " ++ [34; nl] ++ zs ")format " ++ [34; 34; nl] ++
  text_lines ["# Set base 10 for parsing numbers."; ")base 10"; "e = 5"; "pi = 22/7"; "x = 3 4"] ++ zs "y = 2 2 rho " ++ [34] ++ zs "abcd" ++ [34; nl] ++ text_lines [")ibase 0"; ")obase 0"].
Proof. vm_compute. reflexivity. Qed.
Example comes_back_hypotheses : let q := new_scanner (zs ")get " ++ [34] ++ zs "w" ++ [34; nl]) in
  defs (ses_ctx session_A) = [] /\ save_text no_letters session_A = Ok file_A /\ ses_files session_B (zs "w") = Some file_A /\ legal_settings (ses_set session_A) /\
  Forall code_point (prompt_text (ses_set session_A)) /\ Forall code_point (format_text (ses_set session_A)) /\
  NoDup (map fst (globals (ses_ctx session_A))) /\
  Forall (fun p => exists w, fst p = name_of w /\ variable_name (scan_ctx 10 no_letters no_letters no_letters no_letters built_unary built_binary (ses_ctx session_B)) w /\ saveable (val (snd p))) (globals (ses_ctx session_A)) /\
  legal_settings (ses_set session_B) /\ ses_depth session_B <= 8 /\
  (forall b, legal_base b -> no_digit_operators (scan_ctx b no_letters no_letters no_letters no_letters built_unary built_binary (ses_ctx session_B))) /\
  (forall c, rho_built_in built_binary (cmd_env c) (ses_ctx session_B)) /\ Forall code_point (zs "w") /\ between_tokens q /\
  to_come q = zs ")get " ++ quote_string no_letters (zs "w") ++ [nl] ++ [].
Proof.
  assert (CP : forall l, forallb (fun r => between 0 r 0xD7FF) l = true -> Forall code_point l).
  { intros l H. rewrite forallb_forall in H. apply Forall_forall. intros r I. specialize (H r I). unfold between, code_point in *; lia. }
  assert (SA : exists d, session_A = d /\ ses_set d = mkSettings 0 0 0 1000000 10000 100000 100 (zs ">> ") [] 1 [0;0;0;0;0;0] /\
     globals (ses_ctx d) = [("e", loud (VInt 5)); ("pi", loud (VRat (22 # 7))); ("y", loud (VMat [2;2]%nat (map VChar (zs "abcd")))); ("x", loud (VVec [VInt 3; VInt 4]))]).
  { eexists. split; [reflexivity|]. split; vm_compute; reflexivity. }
  destruct SA as (d & SA & SS & SG). 
  assert (XB : exists g, ses_ctx session_B = set_globals empty_ctx g /\ ses_set session_B = mkSettings 2 2 1 1000000 10000 100000 256 [] [] 1 [0;0;0;0;0;0] /\ ses_depth session_B = 0 /\ ses_files session_B = with_A).
  { eexists. split; [|split; [|split]]; vm_compute; reflexivity. }
  destruct XB as (g & BC & BS & BD & BF).
  split; [vm_compute; reflexivity|]. split; [vm_compute; reflexivity|]. split; [rewrite BF; reflexivity|]. rewrite SA, SS, SG, BC, BS, BD.
  split; [unfold legal_settings, legal_base; cbn; repeat split; lia|]. split; [apply CP; reflexivity|]. split; [constructor|].
  split. { cbn [map fst]. repeat (constructor; [cbn [In]; intuition discriminate|]). constructor. }
  split.
  { assert (VN : forall w, (forallb (fun r => between 97 r 122) w && negb (teq w []) && negb (teq w (zs "op")) && negb (teq w (zs "opdelete")) && negb (built_binary (name_of w)) && negb (built_unary (name_of w)) && negb (all_digits w 10 false)) = true ->
       variable_name (scan_ctx 10 no_letters no_letters no_letters no_letters built_unary built_binary (set_globals empty_ctx g)) w).
    { intros w H. repeat (apply andb_true_iff in H; destruct H as [H ?]). rewrite forallb_forall in H.
      assert (TN : forall a b, negb (teq a b) = true -> a <> b) by (intros a b X ->; rewrite (proj2 (ScanNext.teq_eq b b) eq_refl) in X; discriminate).
      split; [apply TN; assumption|]. split. { apply Forall_forall. intros r I. specialize (H r I). unfold is_alnum, letter, ascii_letter, between in *. replace (r <? 128) with true by lia. lia. }
      split. { destruct w as [|r w]; [exfalso; apply (TN [] []); [assumption|reflexivity]|]. specialize (H r (or_introl eq_refl)). cbn [hd]. unfold is_digit, between in *. lia. }
      split; [apply TN; assumption|]. split; [apply TN; assumption|]. split. { apply Forall_forall. intros r I. specialize (H r I). unfold code_point, between in *. lia. }
      split. { unfold defined. cbn [predefined user_binary scan_ctx]. rewrite (proj1 (negb_true_iff _) H2), (proj1 (negb_true_iff _) H1). reflexivity. }
      split; [reflexivity|]. cbn [scan_ctx ibase]. apply negb_true_iff. assumption. }
    assert (NSC : forall r, ~ is_string (VChar r)) by (intros r (t & X); discriminate).
    assert (CA : forall r, between 0 r 0xD7FF = true -> code_point r) by (intros r X; unfold between, code_point in *; lia).
    apply Forall_cons. { exists (zs "e"). split; [reflexivity|]. split; [apply VN; vm_compute; reflexivity|]. cbn. lia. }
    apply Forall_cons. { exists (zs "pi"). split; [reflexivity|]. split; [apply VN; vm_compute; reflexivity|]. split; [reflexivity|discriminate]. }
    apply Forall_cons. { exists (zs "y"). split; [reflexivity|]. split; [apply VN; vm_compute; reflexivity|]. cbn [snd val loud saveable].
      split; [cbn; lia|]. split. { split; [repeat constructor; vm_compute; discriminate|]. intros k K. cbn in K. assert (KK : k = 1%nat \/ k = 2%nat) by lia. destruct KK as [-> | ->]; vm_compute; discriminate. }
      split; [reflexivity|]. split; [cbn; discriminate|]. cbn [map zs fold_right]. repeat (split; [split; [apply CA; vm_compute; reflexivity|apply NSC]|]). exact Logic.I. }
    apply Forall_cons. { exists (zs "x"). split; [reflexivity|]. split; [apply VN; vm_compute; reflexivity|]. cbn [snd val loud saveable length fold_right].
      split; [lia|]. split; [split; [cbn; lia|intros (t & X); discriminate]|]. split; [split; [cbn; lia|intros (t & X); discriminate]|]. exact Logic.I. }
    apply Forall_nil. }
  split; [unfold legal_settings, legal_base; cbn; repeat split; lia|]. split; [lia|]. split; [intros b L; exact (names_no_numbers b L)|].
  split. { intros c. split; [reflexivity|]. split; [reflexivity|]. eexists. split; [reflexivity|]. intros a b. reflexivity. }
  split; [apply CP; reflexivity|]. split; [|vm_compute; reflexivity].
  apply new_between. apply Forall_forall. intros x I. vm_compute in I. repeat (destruct I as [<-|I]; [lia|]). destruct I.
Qed.
Example comes_back_runs : let x := ivy_lines 1 20 session_B (new_scanner (zs ")get " ++ [34] ++ zs "w" ++ [34; nl])) in
  results x = [Ok []] /\ ses_set (after x) = mkSettings 2 2 0 1000000 10000 100000 100 (zs ">> ") [] 1 [0;0;0;0;0;0] /\
  map (fun v => option_map val (find (globals (ses_ctx (after x))) v)) ["x"; "y"; "z"; "e"] =
    [Some (VVec [VInt 3; VInt 4]); Some (VMat [2;2]%nat (map VChar (zs "abcd"))); Some (VInt 7); Some (VRat (19 # 7))].
Proof. vm_compute. repeat split. Qed.
(* The bases are written to the file, and do not come back; nor does the user's value of e. *)
Definition session_C : session := after (run_lines (start no_files) ["x = 1 2"; ")base 8"; "e = 5"]).
Definition file_C : text := match save_text no_letters session_C with Ok t => t | _ => [] end.
Theorem workspace_comes_back_refuted : exists B, ses_files B (zs "w") = Some file_C /\ save_text no_letters session_C = Ok file_C /\
  let x := ivy_lines 1 20 B (new_scanner (zs ")get " ++ [34] ++ zs "w" ++ [34; nl])) in
  results x = [Ok []] /\ in_base (ses_set session_C) = 8 /\ in_base (ses_set (after x)) = 0 /\
  option_map val (find (globals (ses_ctx session_C)) "e") = Some (VInt 5) /\ option_map val (find (globals (ses_ctx (after x))) "e") = Some (e_value 256).
Proof. exists (start (fun n => if teq n (zs "w") then Some file_C else None)). vm_compute. repeat split. Qed.
Print Assumptions workspace_comes_back_refuted.

(* )get stops working: a file that gets itself leaves runDepth one higher each time. *)
Definition q_get (name : string) : text := zs ")get " ++ [34] ++ zs name ++ [34; nl].
Definition two_files (n : text) : option text :=
  if teq n (zs "loop") then Some (q_get "loop") else if teq n (zs "good") then Some (zs "x = 1" ++ [nl]) else None.
Definition gets (l : list string) := ivy_lines (length l) 20 (start two_files) (new_scanner (flat_map q_get l)).
Theorem get_again_refuted : results (gets ["good"]) = [Ok []] /\
  results (gets (repeat "loop" 10 ++ ["good"])) = repeat (Ok []) 10 ++ [Err] /\
  forall k m q rs s' q' name g, ivy_lines k m (after (gets (repeat "loop" 10 ++ ["good"]))) q = (rs, s', q') ->
    snd (get_file no_letters no_letters no_letters no_letters no_letters built_unary built_binary cmd_env e_value pi_value g m name s') = Err.
Proof.
  split; [vm_compute; reflexivity|]. split; [vm_compute; reflexivity|]. intros k m q rs s' q' name g H.
  eapply get_stuck; [|exact H]. vm_compute. discriminate.
Qed.
Print Assumptions get_again_refuted.

Example last_value_runs : results (run_lines (start no_files) ["3; 4"; "_"; "x = 5"; "_"]) =
  [Ok [loud (VInt 3); loud (VInt 4)]; Ok [loud (VInt 4)]; Ok [mkR true (VInt 5)]; Ok [loud (VInt 4)]].
Proof. vm_compute. reflexivity. Qed.
(* The value of an assignment is kept in _ when something else on the line is printed; and
   then _ itself prints nothing. *)
Theorem last_value_refuted : results (run_lines (start no_files) ["7"; "3; x = 4"; "_"]) =
  [Ok [loud (VInt 7)]; Ok [loud (VInt 3); mkR true (VInt 4)]; Ok [mkR true (VInt 4)]].
Proof. vm_compute. reflexivity. Qed.
Print Assumptions last_value_refuted.

(* )save followed by )get in a workspace with operators. *)
From Coq Require Import String ZifyBool.
From Verif Require Import Value NumModel NumSpec ArrModel ArrSpec Syntax ExecModel ExecProofs ScanModel ScanSpec ScanProofs ScanLex ScanNext ScanForm
  TextModel TextSpec TextProofs TextScan TextNum StrModel StrSpec StrProofs ReadModel ReadScan SaveModel SaveSpec SaveProofs SaveRun SourceModel SourceSpec SourceScan SourceProofs SourceDefn SourceMove SourceSave SourceFile CmdModel CmdSpec CmdRun CmdSave.
From Verif Require ParseModel ParseSpec ParseProofs ParsePrint ParseDefn.
Open Scope string_scope.
Open Scope list_scope.
Open Scope Z_scope.

Lemma printing_clean : forall t, printing t -> clean t.
Proof. intros t H. eapply Forall_impl; [|exact H]. cbv beta. intros. lia. Qed.
Section Work.
Set Default Proof Using "Type".
Variable u_print : Z -> bool.
Variables letters digits puncts symbols : Z -> bool.
Variables bu bb : string -> bool.
Notation context b st := (scan_ctx b letters digits puncts symbols bu bb st).
Notation inorder := (in_order letters digits puncts symbols bu bb).
Notation ops_ok := (operators_ok letters digits puncts symbols bu bb).

Lemma clean_ops : forall A, (forall x, user_op A x = true -> spelled (context 0 A) (text_of (fst x))) -> forall ds p t, (forall x, In x ds -> user_op A x = true) ->
  inorder A p ds -> save_ops u_print A p ds = Ok t -> clean t.
Proof.
  intros A SP. induction ds as [|d ds IH]; intros p t K IO SV.
  - cbn [save_ops] in SV. apply ok_inj in SV. subst t. constructor.
  - destruct IO as (fn & FN & N1 & N2 & IO). cbv zeta in IO. destruct IO as (AH & MW & IO). cbn [save_ops] in SV. rewrite FN in SV. cbv zeta in SV.
    set (ahead := filter _ (references A _)) in *.
    destruct (save_ops u_print A (p ++ ahead ++ [d]) ds) as [t2| | |] eqn:SV2; try discriminate. cbn [bind] in SV. apply ok_inj in SV. subst t.
    assert (SPd : spelled (context 0 A) (text_of (f_name fn))) by (rewrite N1; apply SP, K; left; reflexivity).
    apply clean_app; [|apply clean_app; [|apply (IH _ _ (fun x X => K x (or_intror X)) IO SV2)]].
    + assert (KA : forall x, In x ahead -> user_op A x = true) by (intros x X; apply filter_In in X; exact (references_user _ _ _ (proj1 X))).
      clear -AH KA SP. revert AH KA. generalize ahead. intros l AH KA. induction l as [|x l IH]; [constructor|]. cbn [flat_map]. inversion AH as [|? ? A1 A2]; subst.
      apply clean_app; [|apply IH; [exact A2|intros y Y; apply KA; right; exact Y]]. unfold declaration. rewrite A1.
      apply clean_app; [apply nocr_clean_test; reflexivity|]. apply clean_app; [|apply nocr_clean_test; reflexivity]. apply printing_clean, (p_spelled (context 0 A)), SP, KA. left. reflexivity.
    + destruct MW as (body & fn0 & ts & more & FB & PT & _ & _ & _ & HS & SR). set (H := only (p ++ ahead) A) in *.
      assert (PH : printing (header_text fn)) by (apply (p_header (context 0 H)); [exact SPd|exact HS]).
      destruct body as [|e [|e2 l]].
      * unfold definition. rewrite func_text_is, FB. apply clean_app; [|apply nocr_clean_test; destruct (mem _ _); reflexivity].
        apply clean_app; [apply nocr_clean_test; reflexivity|]. apply clean_app; [apply nocr_clean_test; reflexivity|]. apply clean_app; [apply printing_clean, PH|apply nocr_clean_test; reflexivity].
      * rewrite (definition_one u_print (context 0 H) fn e SPd HS (Forall_inv SR) FB). apply clean_app; [apply nocr_clean_test; reflexivity|]. apply clean_app; [apply nocr_clean_test; reflexivity|].
        apply clean_app; [apply printing_clean, PH|]. apply clean_app; [apply nocr_clean_test; reflexivity|]. apply clean_app; [|apply nocr_clean_test; reflexivity].
        repeat (apply clean_cons; [lia|lia|]). apply printing_clean, (p_prog u_print (context 0 H)), (Forall_inv SR).
      * rewrite (definition_more u_print fn e e2 l FB). apply clean_app; [apply nocr_clean_test; reflexivity|]. apply clean_app; [apply nocr_clean_test; reflexivity|].
        apply clean_app; [apply printing_clean, PH|]. do 4 (apply clean_app; [apply nocr_clean_test; reflexivity|]). apply clean_app; [|apply nocr_clean_test; reflexivity].
        revert SR. generalize (e :: e2 :: l). intros l0 SR. induction SR as [|x l0 S SR IHl]; [constructor|]. unfold body_text in *. cbn [flat_map]. apply clean_app; [|exact IHl].
        apply clean_app; [apply nocr_clean_test; reflexivity|]. apply clean_app; [|apply nocr_clean_test; reflexivity]. apply printing_clean. exact (p_prog u_print _ x S).
Qed.

Variable E : settings -> env.
Variables const_e const_pi : Z -> value.
Notation flines := (file_lines u_print letters digits puncts symbols bu bb E const_e const_pi).
Definition tables_of (A : ctx) (u b : table func) : Prop := forall x : string * bool, find (if snd x then b else u) (fst x) = find (tab x A) (fst x).
Lemma tables_alike : forall A st u b ds, tables_of A u b -> alike A (set_ops st u b ds).
Proof. intros A st u b ds T. split; intros s; unfold ParseModel.names; cbn [unary binary set_ops]; [pose proof (T (s, false)) as H|pose proof (T (s, true)) as H]; cbn [fst snd] in H; rewrite H; reflexivity. Qed.
Theorem file_saved_ops : forall A B t, ops_ok (ses_ctx A) -> bu "_" = false -> bb "_" = false -> unary (ses_ctx B) = [] -> binary (ses_ctx B) = [] -> defs (ses_ctx B) = [] ->
  (forall x, In x (defs (ses_ctx A)) -> find (globals (ses_ctx B)) (fst x) = None) ->
  save_text u_print A = Ok t -> legal_settings (ses_set A) -> Forall code_point (prompt_text (ses_set A)) -> Forall code_point (format_text (ses_set A)) ->
  in_base (ses_set B) = 0 -> (forall b, legal_base b -> no_digit_operators (context b (ses_ctx A))) -> (forall c, rho_built_in bb (E c) (ses_ctx A)) ->
  variables_ok letters digits puncts symbols bu bb (globals (ses_ctx A)) (ses_ctx A) -> NoDup (map fst (globals (ses_ctx A))) ->
  exists m0 G u b, tables_of (ses_ctx A) u b /\ (forall get m, (m0 <= m)%nat -> flines get (S (length t)) m B (new_scanner t) =
      (mkSession (set_globals (set_ops (ses_ctx B) u b (defs (ses_ctx A))) G) (final_settings (ses_set A) (ses_set B)) (ses_depth B) (ses_files B), Ok tt)) /\
    (forall x v, find (globals (ses_ctx A)) x = Some v -> x <> "e" -> x <> "pi" -> find G x = Some (loud (val v))) /\
    (forall x, find (globals (ses_ctx A)) x = None -> x <> "e" -> x <> "pi" -> find G x = find (globals (ses_ctx B)) x) /\
    find G "e" = Some (loud (const_e (float_prec (ses_set A)))) /\ find G "pi" = Some (loud (const_pi (float_prec (ses_set A)))).
Proof.
  intros A B t (OND & OUS & ONM & OIO) U1 U2 BU BB BD BG ST LS CP CF IB NB RB VO NDp. rewrite Forall_forall in ONM.
  assert (exists ops, save_ops u_print (ses_ctx A) [] (defs (ses_ctx A)) = Ok ops) as (ops & SO).
  { unfold save_text in ST. destruct (save_ops u_print (ses_ctx A) [] (defs (ses_ctx A))); try discriminate. eauto. }
  assert (NBB : forall b, legal_base b -> no_digit_operators (context b (ses_ctx B))).
  { intros b LB. apply (nodig_less letters digits puncts symbols bu bb (ses_ctx A)); [apply NB, LB|]. intros x. rewrite BB. discriminate. }
  assert (SOC : clean ops).
  { refine (clean_ops (ses_ctx A) _ _ _ _ _ OIO SO); [|intros x X; apply OUS, X]. intros x X. apply OUS, ONM in X. apply X. }
  apply (file_saved_with u_print letters digits puncts symbols bu bb E const_e const_pi A B t ops (defs (ses_ctx A)) (tables_of (ses_ctx A)) (ses_ctx A)); auto.
  - intros s q more G SG GB IB0 BT TC.
    assert (I0 : inv (ses_ctx A) (ses_ctx s) [] [] (ses_ctx s)).
    { rewrite SG. constructor.
      - intros [x b]. unfold tab. cbn [fst snd set_globals unary binary]. rewrite BU, BB. destruct b; reflexivity.
      - intros x [].
      - cbn. rewrite BD. constructor.
      - cbn. rewrite BD. reflexivity.
      - cbn. rewrite BD. intros x [].
      - reflexivity. }
    assert (HU : forall x, user_op (ses_ctx A) x = true -> operator_name (context 0 (ses_ctx A)) (fst x) /\ ~ In (fst x) ["_"; "e"; "pi"] /\ find (globals (ses_ctx s)) (fst x) = None).
    { intros x X. apply OUS in X. destruct (ONM x X) as [X1 X2]. split; [exact X1|]. split; [exact X2|]. rewrite SG. cbn [globals set_globals]. rewrite GB; [apply BG, X| |]; intros Q; apply X2; rewrite Q; cbn; auto. }
    destruct (file_ops u_print letters digits puncts symbols bu bb E const_e const_pi (ses_ctx A) (ses_ctx s) HU (NB 0 (or_introl eq_refl)) U1 U2 (defs (ses_ctx A)) [] [] s q more ops IB0 I0)
      as (n & p' & st' & q' & L & I' & K' & T' & B' & R'); [intros x []|intros x X; apply OUS, X|auto|exact OND|exact OIO|exact SO|exact BT|exact TC|].
    cbn [app] in I'.
    assert (DS : defs st' = defs (ses_ctx A)).
    { refine (eq_trans _ (i_order _ _ _ _ _ I')). symmetry. apply filter_all. intros x X. apply in_defs_spec, OUS, K'. exact (i_there _ _ _ _ _ I' x X). }
    exists n, (unary st'), (binary st'), q'. split; [exact L|]. split; [|split; [exact T'|split; [exact B'|]]].
    + intros x. change (if snd x then binary st' else unary st') with (tab x st'). destruct (in_defs x (defs (ses_ctx A))) eqn:D; [apply (i_same _ _ _ _ _ I'), in_defs_spec, D|].
      assert (N1 : ~ In x (defs (ses_ctx A))) by (intros X; apply in_defs_spec in X; congruence).
      assert (N2 : find (tab x st') (fst x) = None).
      { pose proof (i_names _ _ _ _ _ I' x) as N. unfold ParseModel.names in N. destruct (find (tab x st') (fst x)); [|reflexivity]. exfalso. apply N1, OUS, K', in_defs_spec. symmetry. exact N. }
      rewrite N2. clear N2. unfold tab. destruct (find (if snd x then binary (ses_ctx A) else unary (ses_ctx A)) (fst x)) eqn:Q; [|reflexivity]. exfalso. apply N1, OUS. unfold user_op, ParseModel.names. rewrite Q. reflexivity.
    + intros get k m. rewrite R', <-DS. f_equal. f_equal. exact (i_rest _ _ _ _ _ I').
  - intros u b T. pose proof (tables_alike (ses_ctx A) (ses_ctx B) u b (defs (ses_ctx A)) T) as AL. split; [|split].
    + intros x LB. apply (al_nodig letters digits puncts symbols bu bb x _ _ AL), NB, LB.
    + intros c. destruct (RB c) as (R1 & R2 & R3). split; [exact R1|]. split; [|exact R3]. pose proof (T ("rho", true)) as Q. cbn [fst snd] in Q. cbn [binary set_ops]. rewrite Q. exact R2.
    + unfold variables_ok in *. eapply Forall_impl; [|exact VO]. intros [x v] (w & W & (V1 & V2 & V3 & V4 & V5 & V6 & V7 & V8 & V9) & S). exists w. split; [exact W|]. split; [|exact S].
      repeat (split; [assumption|]). split; [rewrite (al_defined letters digits puncts symbols bu bb 10 _ _ AL); exact V7|]. split; [|exact V9].
      cbn [user_unary scan_ctx] in *. rewrite <-(proj1 AL). exact V8.
Qed.
End Work.

(* Reading the operators of a saved workspace. *)
From Coq Require Import String ZifyBool.
From Verif Require Import Value NumModel NumSpec ArrModel ArrSpec Syntax ExecModel ExecProofs ScanModel ScanSpec ScanProofs ScanLex ScanNext ScanForm
  TextModel TextSpec TextProofs TextScan TextNum StrModel StrSpec StrProofs ReadModel ReadScan SaveModel SaveSpec SaveProofs SaveRun SourceModel SourceSpec SourceScan SourceProofs SourceDefn SourceMove SourceSave CmdModel.
From Verif Require ParseModel ParseSpec ParseProofs ParsePrint ParseDefn.
Open Scope string_scope.
Open Scope list_scope.
Open Scope Z_scope.

Lemma ok_inj : forall {X} (a b : X), Ok a = Ok b -> a = b. Proof. intros X a b H. injection H. auto. Qed.
Section Last.
Variable tok : string -> ParseModel.token.
Hypothesis TK : forall s, tok s <> ParseModel.KAssign.
Lemma last_wrap : forall b ts t, exists ts' t', ParseModel.parens b (ts ++ [t]) = ts' ++ [t'] /\ (t <> ParseModel.KAssign -> t' <> ParseModel.KAssign).
Proof.
  intros b ts t. destruct b; [|exists ts, t; auto]. exists (ParseModel.KLParen :: ts ++ [t]), ParseModel.KRParen. split; [reflexivity|discriminate].
Qed.
Lemma print_last : forall e, exists ts t, ParseModel.print tok e = ts ++ [t] /\ t <> ParseModel.KAssign.
Proof using TK.
  induction e as [v|s i|o r IHr|o l r IHl IHr|l r IHl IHr|l IHl|l idx IHl IHidx] using expr_ind'; cbn [ParseModel.print].
  - exists []. destruct v; eexists; (split; [reflexivity|discriminate]).
  - exists []. eexists. split; [reflexivity|discriminate].
  - destruct IHr as (ts & t & -> & N). exists (tok o :: ts), t. auto.
  - destruct IHr as (ts & t & -> & N). eexists (_ ++ _ :: ts), t. rewrite <-app_assoc. split; [reflexivity|exact N].
  - destruct IHr as (ts & t & -> & N). eexists (_ ++ _ :: ts), t. rewrite <-app_assoc. split; [reflexivity|exact N].
  - destruct (ParseModel.all_chars l) as [cs|] eqn:AC; [exists []; eexists; split; [reflexivity|discriminate]|].
    assert (NE : l <> []) by (intros ->; discriminate). clear AC. destruct (exists_last NE) as (l' & x & ->).
    apply Forall_app in IHl. destruct IHl as [_ IH]. destruct (Forall_inv IH) as (ts & t & E & N). rewrite map_app, concat_app. cbn [map concat]. rewrite app_nil_r, E.
    destruct (last_wrap (ParseModel.compound x) ts t) as (ts' & t' & -> & N'). eexists (_ ++ ts'), t'. rewrite <-app_assoc. split; [reflexivity|exact (N' N)].
  - match goal with |- exists ts t, ?a ++ ?b :: ?c ++ [?d] = _ /\ _ => exists (a ++ b :: c), d end. rewrite <-app_assoc. split; [reflexivity|discriminate].
Qed.
End Last.
Lemma op_token_not : forall c s, op_token c s <> ParseModel.KAssign.
Proof. intros c s. unfold op_token, op_kind, parser_token. cbn [t_type]. destruct (_ || _); discriminate. Qed.

Section File.
Set Default Proof Using "Type".
Variable u_print : Z -> bool.
Variables letters digits puncts symbols : Z -> bool.
Variables bu bb : string -> bool.
Variable E : settings -> env.
Variables const_e const_pi : Z -> value.
Notation context st := (scan_ctx 0 letters digits puncts symbols bu bb st).
Notation nline := (next_line letters digits puncts symbols bu bb).
Notation rdefn := (read_defn letters digits puncts symbols bu bb).
Notation flines := (file_lines u_print letters digits puncts symbols bu bb E const_e const_pi).
Notation KDef := ParseModel.KDef.

Lemma def_line : forall s q t ts gap more, in_base (ses_set s) = 0 -> free (context (ses_ctx s)) t (KDef :: ts) -> between_tokens q -> Forall (fun r => r = 32) gap ->
  to_come q = t ++ gap ++ [nl] ++ more -> exists q', nline s q = (RDef (KDef :: ts), q') /\ to_come q' = more /\ between_tokens q'.
Proof.
  intros s q t ts gap more IB FR B G T. destruct (free_line (context (ses_ctx s)) t _ q gap more FR B G T) as (ks & q' & M & R & T' & B').
  exists q'. split; [|auto]. unfold next_line. cbv zeta. rewrite IB. rewrite (R _ (fits_room q)).
  destruct ks as [|k ks]; [discriminate|]. change (ibase (context (ses_ctx s))) with 0 in M. rewrite M. cbn [map] in M. assert (K : parser_token 0 k = KDef) by congruence.
  unfold parser_token in K. destruct (t_type k); try discriminate. reflexivity.
Qed.
Lemma file_def : forall s q q1 q2 ts fn0 fn, nline s q = (RDef ts, q1) -> rdefn s ts q1 = (LDefine fn0 fn true, q2) -> f_name fn0 = f_name fn ->
  ~ In (f_name fn) ["_"; "e"; "pi"] -> find (globals (ses_ctx s)) (f_name fn) = None ->
  forall get k m, flines get (S k) m s q = flines get k m (with_ctx s (install fn (install fn0 (ses_ctx s)))) q2.
Proof.
  intros s q q1 q2 ts fn0 fn NL RD EN NN NG get k m. cbn [file_lines]. rewrite NL, RD. cbn [eval_line]. unfold mbind. rewrite (define_op_free fn0 fn (ses_ctx s) EN NN NG). reflexivity.
Qed.
Lemma file_declare : forall f s q more, in_base (ses_set s) = 0 -> no_digit_operators (context (ses_ctx s)) -> operator_name (context (ses_ctx s)) f ->
  ~ In f ["_"; "e"; "pi"] -> find (globals (ses_ctx s)) f = None -> bu "_" = false -> bb "_" = false -> ParseModel.names (binary (ses_ctx s)) "_" = false ->
  between_tokens q -> to_come q = declaration (f, false) ++ more ->
  exists fn0 fn q', op_of fn0 = (f, false) /\ op_of fn = (f, false) /\ to_come q' = more /\ between_tokens q' /\
    forall get k m, flines get (S k) m s q = flines get k m (with_ctx s (install fn (install fn0 (ses_ctx s)))) q'.
Proof.
  intros f s q more IB ND ON NN NG U1 U2 U3 B T. set (fn0 := mkFunc false f None (EVar "_" 0) None []).
  assert (A : arguments_ok fn0 fn0).
  { split; [reflexivity|]. split; [reflexivity|]. split.
    { unfold ParseDefn.rejected, fn0. cbn. destruct (String.eqb_spec f "_") as [->|]; [exfalso; apply NN; left; reflexivity|reflexivity]. }
    split; [reflexivity|]. split; [reflexivity|]. split; [constructor|]. split; reflexivity. }
  destruct (def_line s q (zs "op" ++ [32] ++ header_text fn0) (header fn0) [] more IB) as (q' & NL & T' & B'); [|exact B|constructor| |].
  - apply header_end; [left; reflexivity|exact ND|exact ON|reflexivity| |discriminate]. split; [reflexivity|].
    split; [split; [discriminate|split; [repeat constructor|split; [reflexivity|split; discriminate]]]|]. split; [|reflexivity].
    change (text_of "_") with [95]. unfold defined. cbn [predefined user_binary scan_ctx]. change (name_of [95]) with "_". rewrite U1, U2, U3. reflexivity.
  - rewrite T. unfold declaration, header_text. cbn [fst snd f_left f_right f_name fn0]. change (zs "op ") with (zs "op" ++ [32]). change (zs " _") with ([32] ++ arg_text (EVar "_" 0)).
    rewrite <-!app_assoc. reflexivity.
  - exists fn0, (completed fn0 None), q'. split; [reflexivity|].
    assert (EN : op_of (completed fn0 None) = (f, false)).
    { destruct (ParseVars.func_vars_good (mkFunc (f_binary fn0) (f_name fn0) (f_left fn0) (f_right fn0) None [])) as (loc & _ & P & _).
      unfold op_of, completed. apply (f_equal (fun x => (f_name x, f_binary x))) in P. exact P. }
    split; [exact EN|]. split; [exact T'|]. split; [exact B'|].
    assert (NM : f_name (completed fn0 None) = f) by (exact (f_equal fst EN)).
    apply (file_def s q q' q' _ fn0 (completed fn0 None) NL); [|rewrite NM; reflexivity|rewrite NM; exact NN|rewrite NM; exact NG].
    unfold read_defn. cbn [header f_left f_right f_name fn0 app ParseModel.print_arg rev]. rewrite <-(declaration_parse bu bb (unary (ses_ctx s)) (binary (ses_ctx s)) fn0 fn0 [] A). reflexivity.
Qed.
Lemma file_define : forall A ds fn s q more, in_base (ses_set s) = 0 -> made_with letters digits puncts symbols bu bb ds A fn ->
  alike (only ds A) (ses_ctx s) -> (forall fn0, op_of fn0 = op_of fn -> alike (only (ds ++ [op_of fn]) A) (install fn0 (ses_ctx s))) ->
  no_digit_operators (context (ses_ctx s)) -> (forall fn0, op_of fn0 = op_of fn -> no_digit_operators (context (install fn0 (ses_ctx s)))) ->
  operator_name (context (ses_ctx s)) (f_name fn) -> ~ In (f_name fn) ["_"; "e"; "pi"] -> find (globals (ses_ctx s)) (f_name fn) = None ->
  between_tokens q -> to_come q = definition u_print fn ++ more ->
  exists fn0 q', op_of fn0 = op_of fn /\ to_come q' = more /\ between_tokens q' /\
    forall get k m, flines get (S k) m s q = flines get k m (with_ctx s (install fn (install fn0 (ses_ctx s)))) q'.
Proof.
  intros A ds fn s q more IB (body & fn0 & ts & lines & FB & PT & SC & SCM & NA & HS & SR) AL AL1 ND ND1 ON NN NG B T.
  set (st := ses_ctx s) in *. set (H := only ds A) in *.
  destruct (definition_parts bu bb _ (unary H) (binary H) ts lines fn0 fn body PT FB SC SCM NA) as (AO & NE & EF & ST).
  assert (EN : f_name fn0 = f_name fn) by (symmetry; apply AO). assert (EO : op_of fn0 = op_of fn).
  { unfold op_of. rewrite EN. f_equal. symmetry. apply AO. }
  pose proof (al_header letters digits puncts symbols bu bb 0 H st AL fn HS) as HS'. assert (TEN : ibase (context st) = 0 \/ ibase (context st) = 10) by (left; reflexivity).
  destruct body as [|e [|e2 l]]; [contradiction| |].
  - pose proof (al_sourced letters digits puncts symbols bu bb 0 H st AL e (Forall_inv SR)) as SE.
    rewrite (definition_one u_print (context st) fn e (proj1 (proj2 ON)) HS' SE FB) in T.
    destruct (def_line s q (zs "op" ++ [32] ++ header_text fn ++ [32] ++ 61 :: 32 :: prog_text u_print e) (header fn ++ ParseModel.KAssign :: ParseModel.print (op_token (context st)) e) [] more IB)
      as (q' & NL & T' & B'); [|exact B|constructor|rewrite T, <-!app_assoc; reflexivity|].
    { apply header_then; [exact TEN|exact ND|exact ON|exact (proj1 HS')|exact (proj2 HS')| |discriminate]. apply free_gap, assign_spaced. exact (source_reads u_print _ TEN ND e SE). }
    exists fn0, q'. split; [exact EO|]. split; [exact T'|]. split; [exact B'|].
    apply (file_def s q q' q' _ fn0 fn NL); [|exact EN|exact NN|exact NG].
    assert (P : ParseModel.parse_tokens bu bb (unary st) (binary st) (KDef :: header fn ++ ParseModel.KAssign :: ParseModel.print (op_token (context st)) e) [] = LDefine fn0 fn true).
    { assert (ST' : Forall (stated (ParseSpec.def_scope bu bb (unary st) (binary st) fn0) (op_token (context st))) (map ParseSpec.plain [e])).
      { eapply Forall_impl; [|exact ST]. intros x. apply (al_stated bu bb H st AL). intros o. apply (al_token letters digits puncts symbols bu bb 0 H st AL). }
      pose proof (definition_parse bu bb (op_token (context st)) (unary st) (binary st) fn0 fn [e] [] AO FB NE EF ST' (or_introl eq_refl)) as D.
      unfold ParseModel.print_func in D. rewrite FB in D. cbn [fst snd app] in D. rewrite <-D. unfold header. rewrite <-app_assoc. reflexivity. }
    unfold read_defn. fold st. destruct (print_last (op_token (context st)) (op_token_not _) e) as (tl & t & E1 & E2).
    rewrite E1 in *. replace (KDef :: header fn ++ ParseModel.KAssign :: tl ++ [t]) with ((KDef :: header fn ++ ParseModel.KAssign :: tl) ++ [t]) in *
      by (cbn [app]; rewrite <-app_assoc; reflexivity).
    clear NL T. set (w := KDef :: header fn ++ ParseModel.KAssign :: tl) in *. clearbody w. rewrite rev_app_distr. cbn [rev app]. rewrite P. destruct t; try reflexivity. contradiction.
  - set (st1 := install fn0 st) in *. specialize (AL1 fn0 EO). specialize (ND1 fn0 EO). fold st1 in AL1, ND1. change (f_name fn, f_binary fn) with (op_of fn) in *. set (I1 := only (ds ++ [op_of fn]) A) in *.
    assert (SE : Forall (sourced (context st1)) (e :: e2 :: l)).
    { eapply Forall_impl; [|exact SR]. intros x. apply (al_sourced letters digits puncts symbols bu bb 0 I1 st1 AL1). }
    rewrite (definition_more u_print fn e e2 l FB) in T.
    destruct (def_line s q (zs "op" ++ [32] ++ header_text fn ++ [32] ++ [61]) (header fn ++ [ParseModel.KAssign]) [32] (body_text u_print (e :: e2 :: l) ++ [nl] ++ more) IB)
      as (q1 & NL & T1 & B1); [|exact B|repeat constructor|rewrite T, <-!app_assoc; reflexivity|].
    { apply header_then; [exact TEN|exact ND|exact ON|exact (proj1 HS')|exact (proj2 HS')| |discriminate]. apply free_gap, assign_end. }
    assert (ST' : Forall (stated (ParseSpec.def_scope bu bb (unary st) (binary st) fn0) (op_token (context st1))) (map ParseSpec.plain (e :: e2 :: l))).
    { eapply Forall_impl; [|exact ST]. intros x. apply (al_stated bu bb H st AL). intros o. apply (al_token letters digits puncts symbols bu bb 0 I1 st1 AL1). }
    destruct (body_read (context st1) (or_introl eq_refl) ND1 u_print (ParseSpec.def_scope bu bb (unary st) (binary st) fn0) (e :: e2 :: l) (S (length (input q1) + length (pending q1))) q1 more SE)
      as (q2 & RB & T2 & B2); [|exact B1|exact T1| |].
    { apply Forall_forall. intros x X. exists (ParseSpec.plain x). rewrite <-(ParseDefn.print_plain (op_token (context st1)) x). apply stated_statement. rewrite Forall_forall in ST'. apply ST'. apply in_map, X. }
    { pose proof (fits_room q1) as F. unfold fits in F. rewrite T1, app_length in F. clear -F.
      assert (L : forall l, (length l <= length (body_text u_print l))%nat) by (clear; induction l as [|x l IH]; [cbn; lia|]; unfold body_text in *; cbn [flat_map length]; rewrite !app_length; cbn [length]; lia).
      specialize (L (e :: e2 :: l)). lia. }
    exists fn0, q2. split; [exact EO|]. split; [exact T2|]. split; [exact B2|].
    apply (file_def s q q1 q2 _ fn0 fn NL); [|exact EN|exact NN|exact NG].
    unfold read_defn. fold st. replace (rev (KDef :: header fn ++ [ParseModel.KAssign])) with (ParseModel.KAssign :: rev (KDef :: header fn)) by (cbn [rev]; rewrite rev_app_distr; reflexivity).
    rewrite rev_involutive. unfold header at 1. rewrite (declaration_parse bu bb (unary st) (binary st) fn0 fn [] AO). rewrite completed_body.
    rewrite (define_free fn0 st) by (rewrite EN; assumption). fold st1. rewrite IB. change 0 with (ibase (context st1)) at 1. rewrite RB.
    f_equal. pose proof (definition_parse bu bb (op_token (context st1)) (unary st) (binary st) fn0 fn (e :: e2 :: l) [] AO FB NE EF ST' (or_introl eq_refl)) as D.
    unfold ParseModel.print_func in D. rewrite FB in D. cbn [fst snd] in D. rewrite app_nil_r in D. rewrite <-D. unfold header. rewrite <-app_assoc. reflexivity.
Qed.
Lemma nodig_less : forall A st b, no_digit_operators (scan_ctx b letters digits puncts symbols bu bb A) ->
  (forall x, ParseModel.names (binary st) x = true -> ParseModel.names (binary A) x = true) -> no_digit_operators (scan_ctx b letters digits puncts symbols bu bb st).
Proof.
  intros A st b ND L w D N1 N2. specialize (ND w D N1 N2). unfold defined in *. cbn [predefined user_binary scan_ctx] in *.
  destruct (bb (name_of w) || bu (name_of w)); [discriminate ND|]. cbn [orb] in *. destruct (ParseModel.names (binary st) (name_of w)) eqn:Q; [|reflexivity]. rewrite (L _ Q) in ND. discriminate.
Qed.
Lemma references_user : forall A body x, In x (references A body) -> user_op A x = true.
Proof.
  intros A body x. unfold references.
  assert (X : forall l acc, (forall y, In y acc -> user_op A y = true) -> (forall y, In y l -> user_op A y = true) -> In x (fold_left add_reference l acc) -> user_op A x = true).
  { induction l as [|y l IH]; intros acc HA HL I; [exact (HA x I)|]. cbn [fold_left] in I. refine (IH _ _ _ I).
    - intros z Z. unfold add_reference in Z. destruct (in_defs y acc); [auto|]. apply in_app_or in Z. destruct Z as [Z|[<-|[]]]; [auto|]. apply HL. left. reflexivity.
    - intros z Z. apply HL. right. exact Z. }
  apply X; [intros y []|]. intros y Y. apply filter_In in Y. apply Y.
Qed.
Section Ops.
Variables A st0 : ctx.
Hypothesis HU : forall x, user_op A x = true -> operator_name (context A) (fst x) /\ ~ In (fst x) ["_"; "e"; "pi"] /\ find (globals st0) (fst x) = None.
Hypothesis ND : no_digit_operators (context A).
Hypothesis U1 : bu "_" = false.
Hypothesis U2 : bb "_" = false.
Notation inv := (inv A st0).
Notation known p := (forall x, In x p -> user_op A x = true).
Lemma known_nodig : forall before p st, inv before p st -> known p -> no_digit_operators (context st).
Proof using ND.
  intros before p st I K. apply (nodig_less A); [exact ND|]. intros x X. pose proof (i_names _ _ _ _ _ I (x, true)) as N. unfold tab in N. cbn [fst snd] in N.
  rewrite N in X. apply in_defs_spec, K in X. exact X.
Qed.
Lemma inv_globals : forall before p st, inv before p st -> globals st = globals st0.
Proof. intros before p st I. rewrite (i_rest _ _ _ _ _ I). reflexivity. Qed.
Lemma file_declares : forall xs before p s q more, in_base (ses_set s) = 0 -> inv before p (ses_ctx s) -> known (p ++ xs) -> Forall (fun x => snd x = false) xs -> (forall x, In x xs -> ~ In x before) ->
  between_tokens q -> to_come q = flat_map declaration xs ++ more ->
  exists st' q', inv before (p ++ xs) st' /\ to_come q' = more /\ between_tokens q' /\ forall get k m, flines get (length xs + k) m s q = flines get k m (with_ctx s st') q'.
Proof using HU ND U1 U2.
  induction xs as [|[f b] xs IH]; intros before p s q more IB I K F NB B T.
  - rewrite app_nil_r. exists (ses_ctx s), q. split; [exact I|]. split; [exact T|]. split; [exact B|]. intros get k m. cbn [length Nat.add]. f_equal. destruct s; reflexivity.
  - inversion F as [|? ? F1 F2]; subst. cbn [snd] in F1. subst b. cbn [flat_map] in T. rewrite <-app_assoc in T.
    assert (Kf : user_op A (f, false) = true) by (apply K; apply in_or_app; right; left; reflexivity). destruct (HU _ Kf) as (ON & NN & NG). cbn [fst] in ON, NN, NG.
    assert (Kp : known p) by (intros x X; apply K; apply in_or_app; left; exact X).
    assert (NB' : ~ In (f, false) before) by (apply NB; left; reflexivity).
    assert (NG' : find (globals (ses_ctx s)) f = None) by (rewrite (inv_globals _ _ _ I); exact NG).
    destruct (file_declare f s q (flat_map declaration xs ++ more) IB (known_nodig _ _ _ I Kp) ON NN NG' U1 U2) with (3 := T) as (fn0 & fn & q1 & O0 & O1 & T1 & B1 & R1); [|exact B|].
    { pose proof (i_names _ _ _ _ _ I ("_", true)) as N. unfold tab in N. cbn [fst snd] in N. rewrite N. apply in_defs_no. intros X. apply Kp, HU in X. cbn [fst] in X. destruct X as (_ & X & _). apply X. left. reflexivity. }
    assert (I1 : inv before (p ++ [(f, false)]) (install fn (install fn0 (ses_ctx s)))).
    { apply (inv_same _ _ before ((p ++ [op_of fn0]) ++ [op_of fn])).
      - intros x. rewrite O0, O1, !in_app_iff. tauto.
      - apply inv_install; [apply inv_install; [exact I|]|]; rewrite ?O0, ?O1; assumption. }
    destruct (IH before (p ++ [(f, false)]) (with_ctx s (install fn (install fn0 (ses_ctx s)))) q1 more IB I1) as (st' & q' & I' & T' & B' & R'); auto.
    { rewrite <-app_assoc. exact K. } { intros x X. apply NB. right. exact X. }
    exists st', q'. rewrite <-app_assoc in I'. split; [exact I'|]. split; [exact T'|]. split; [exact B'|]. intros get k m. cbn [length Nat.add]. rewrite R1, R'. reflexivity.
Qed.
Lemma file_ops : forall ds before p s q more t, in_base (ses_set s) = 0 -> inv before p (ses_ctx s) -> known p -> known ds -> (forall x, In x before -> In x p) -> NoDup (before ++ ds) ->
  in_order letters digits puncts symbols bu bb A p ds -> save_ops u_print A p ds = Ok t -> between_tokens q -> to_come q = t ++ more ->
  exists n p' st' q', (n <= length t)%nat /\ inv (before ++ ds) p' st' /\ known p' /\ to_come q' = more /\ between_tokens q' /\
    forall get k m, flines get (n + k) m s q = flines get k m (with_ctx s st') q'.
Proof using HU ND U1 U2.
  induction ds as [|d ds IH]; intros before p s q more t IB I K Kd BP NDp IO SV B T.
  - cbn [save_ops] in SV. apply ok_inj in SV. subst t. rewrite app_nil_r. exists O, p, (ses_ctx s), q. split; [cbn; lia|]. split; [exact I|]. split; [exact K|]. split; [exact T|]. split; [exact B|].
    intros get k m. cbn [Nat.add]. f_equal. destruct s; reflexivity.
  - destruct IO as (fn & FN & N1 & N2 & IO). cbv zeta in IO. destruct IO as (AH & MW & IO). cbn [save_ops] in SV. rewrite FN in SV. cbv zeta in SV.
    set (ahead := filter _ (references A _)) in *.
    destruct (save_ops u_print A (p ++ ahead ++ [d]) ds) as [t2| | |] eqn:SV2; try discriminate. cbn [bind] in SV. apply ok_inj in SV. subst t. rewrite <-!app_assoc in T.
    assert (KA : known (p ++ ahead)). { intros x X. apply in_app_or in X. destruct X as [X|X]; [apply K, X|]. apply filter_In in X. exact (references_user _ _ _ (proj1 X)). }
    assert (NBa : forall x, In x ahead -> ~ In x before). { intros x X Y. apply filter_In in X. destruct X as [_ X]. rewrite (proj2 (in_defs_spec x p) (BP x Y)) in X. discriminate. }
    destruct (file_declares ahead before p s q _ IB I KA AH NBa B T) as (st1 & q1 & I1 & T1 & B1 & R1).
    assert (OD : op_of fn = d) by (unfold op_of; rewrite N1, N2; destruct d; reflexivity).
    assert (KD : user_op A d = true) by (apply Kd; left; reflexivity). destruct (HU d KD) as (ON & NN & NG).
    assert (NBd : ~ In (op_of fn) before). { rewrite OD. apply NoDup_remove_2 in NDp. intros X. apply NDp. apply in_or_app. left. exact X. }
    assert (KA2 : known ((p ++ ahead) ++ [op_of fn])). { intros x X. apply in_app_or in X. destruct X as [X|[<-|[]]]; [apply KA, X|]. rewrite OD. exact KD. }
    destruct (file_define A (p ++ ahead) fn (with_ctx s st1) q1 (t2 ++ more) IB MW) with (9 := T1) as (fn0 & q2 & O0 & T2 & B2 & R2).
    { exact (inv_alike A st0 _ _ _ I1 KA). }
    { intros fn0 E0. rewrite <-E0. apply (inv_alike A st0 before); [|rewrite E0; exact KA2]. apply inv_install; [exact I1|rewrite E0; exact NBd]. }
    { exact (known_nodig _ _ _ I1 KA). }
    { intros fn0 E0. apply (known_nodig before ((p ++ ahead) ++ [op_of fn0])); [|rewrite E0; exact KA2]. apply inv_install; [exact I1|rewrite E0; exact NBd]. }
    { rewrite N1. exact ON. } { rewrite N1. exact NN. } { rewrite N1. cbn [with_ctx ses_ctx]. rewrite (inv_globals _ _ _ I1). exact NG. } { exact B1. }
    cbn [with_ctx ses_ctx] in R2.
    assert (I2 : inv (before ++ [d]) (p ++ ahead ++ [d]) (install fn (install fn0 st1))).
    { apply (inv_same _ _ (before ++ [d]) (((p ++ ahead) ++ [op_of fn0]) ++ [op_of fn])); [intros x; rewrite O0, OD, !in_app_iff; tauto|].
      rewrite <-OD. apply inv_complete; [apply inv_install; [exact I1|rewrite O0; exact NBd]| |exact NBd]. rewrite OD, N1. exact FN. }
    destruct (IH (before ++ [d]) (p ++ ahead ++ [d]) (with_ctx s (install fn (install fn0 st1))) q2 more t2 IB I2) as (n & p' & st' & q' & L & I' & K' & T' & B' & R'); auto.
    { intros x X. apply KA2. rewrite OD, <-app_assoc. exact X. } { intros x X. apply Kd. right. exact X. }
    { intros x X. apply in_app_or in X. rewrite !in_app_iff. destruct X as [X|X]; [left; apply BP, X|auto]. }
    { rewrite <-app_assoc. exact NDp. }
    exists (length ahead + S n)%nat, p', st', q'. rewrite <-app_assoc in I'. split; [|split; [exact I'|split; [exact K'|split; [exact T'|split; [exact B'|]]]]].
    + rewrite !app_length. assert (LA : forall l, (length l <= length (flat_map declaration l))%nat).
      { clear. induction l as [|x l IH]; [cbn; lia|]. cbn [flat_map length]. rewrite app_length. unfold declaration at 1. rewrite !app_length. cbn [length]. lia. }
      specialize (LA ahead). unfold definition. rewrite !app_length. cbn [length]. lia.
    + intros get k m. rewrite <-Nat.add_assoc, R1. cbn [Nat.add]. rewrite R2, R'. reflexivity.
Qed.
End Ops.
End File.

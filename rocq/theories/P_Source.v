(* C57, C83: the source form of expressions and operators as text, and operators in a saved
   workspace. *)
From Coq Require Import String Ascii ZifyBool Permutation.
From Verif Require Import Value NumModel NumSpec ArrModel ArrSpec Syntax ExecModel ScanModel ScanSpec ScanProofs ScanLex ScanNext TextModel TextSpec TextProofs TextScan StrModel StrSpec StrProofs
  SaveModel SaveSpec SaveProofs SaveRun ReadModel ReadScan SourceModel SourceSpec SourceScan SourceProofs SourceSave SourceFile SourceWork CmdModel CmdSpec CmdProofs CmdRun CmdSave.
From Verif Require ParseModel ParseSpec ParseProofs ParsePrint SourceTest.
From Verif Require Import P_Scan P_Save P_Cmd SourceUse.
Open Scope string_scope.
Open Scope list_scope.
Open Scope Z_scope.

(* The printed source text of a parsed expression, on a line of its own, is read by the scanner
   and parsed to the same expression, when its names and constants have readable spellings. *)
Theorem printed_text_partial : forall u_print c d ts e, ibase c = 0 \/ ibase c = 10 -> no_digit_operators c ->
  ParseModel.p_expr d (ParseModel.enough ts) ts = ParseModel.POk e [] -> Forall (ParseSpec.scanned (op_token c)) ts ->
  ParseSpec.names_apart d e -> ParseSpec.separable d e = true -> sourced c e ->
  forall q more, between_tokens q -> sign_ok c q -> to_come q = prog_text u_print e ++ [nl] ++ more ->
  exists ks q', (forall fuel, (length (to_come q) < fuel)%nat -> read_tokens c fuel [] q = Some (Some ks, true, q')) /\
    to_come q' = more /\ between_tokens q' /\
    let ts' := map (parser_token (ibase c)) ks in ParseModel.p_expr d (ParseModel.enough ts') ts' = ParseModel.POk e [].
Proof.
  intros u_print c d ts e TEN ND P SC NA SE SR q more B SO TC.
  destruct (source_reads u_print c TEN ND e SR) as (ks & RD & M & PL & L).
  destruct (RD q [] ([nl] ++ more) B ltac:(constructor) TC ltac:(unfold number_end; cbn; unfold nl; lia) (fun _ => SO)) as (q1 & R1 & T1 & B1).
  destruct (next_emits c TNewline [nl] more false q1 []) as (q2 & F1 & F2 & F3 & _); auto; try discriminate.
  { apply emits_char. left. split; reflexivity. }
  exists ks, q2. split; [|split; [exact F2|split; [exact F3|]]].
  - intros fuel LF. apply (read_tokens_reads c ks fuel [] q q1 [nl] q2 R1 PL F1). rewrite TC, app_length in LF. lia.
  - cbv zeta. rewrite M. eapply ParsePrint.print_parse; eauto.
Qed.
Print Assumptions printed_text_partial.
(* 1 - +/ x, y[2; ] max 'abc' *)
Definition plain_ctx : sctx := scan_ctx 0 no_letters no_letters no_letters no_letters built_unary built_binary (ses_ctx (start no_files)).
Definition line_tokens : list ParseModel.token :=
  [ParseModel.KNum (Some (VInt 1)); ParseModel.KOp "-"; ParseModel.KOp "+/"; ParseModel.KId "x"; ParseModel.KOp ","; ParseModel.KId "y"; ParseModel.KLBrack;
   ParseModel.KNum (Some (VInt 2)); ParseModel.KSemi; ParseModel.KRBrack; ParseModel.KId "max"; ParseModel.KStr (Some (zs "abc"))].
Definition line_tree : expr :=
  EBinary "-" (EVal (VInt 1)) (EUnary "+/" (EBinary "," (EVar "x" 0) (EBinary "max" (EIndex (EVar "y" 0) [Some (EVal (VInt 2)); None])
    (EVector [EVal (VChar 97); EVal (VChar 98); EVal (VChar 99)])))).
Definition plain_scope : ParseModel.scope := ParseModel.mkScope built_unary built_binary (fun _ => false) (fun _ => false) [].
Example printed_example : ParseModel.p_expr plain_scope (ParseModel.enough line_tokens) line_tokens = ParseModel.POk line_tree [] /\
  Forall (ParseSpec.scanned (op_token plain_ctx)) line_tokens /\ ParseSpec.names_apart plain_scope line_tree /\ ParseSpec.separable plain_scope line_tree = true /\
  sourced plain_ctx line_tree /\ prog_text no_letters line_tree = zs "1 - +/ x , y[2; ] max 'abc'".
Proof.
  split; [vm_compute; reflexivity|]. split; [|split; [|split; [vm_compute; reflexivity|split; [|vm_compute; reflexivity]]]].
  - repeat (constructor; [cbn [ParseSpec.scanned]; first [exact Logic.I | split; [vm_compute; reflexivity|discriminate]]|]). constructor.
  - intros s I. cbn in I. destruct I as [<-|[<-|[]]]; vm_compute; reflexivity.
  - assert (SY : forall s, In s symbols -> operator_text plain_ctx (ats 0 ++ s ++ ats 0 ++ []) TOperator)
      by (intros s I; apply ot_symbol; [exact I|left; reflexivity|contradiction]).
    assert (V : forall v, constant v -> sourced plain_ctx (EVal v)) by (intros v C; exact C).
    assert (X : forall s i, named s -> spelled plain_ctx (text_of s) -> defined plain_ctx (text_of s) = false -> all_digits (text_of s) 0 false = false -> sourced plain_ctx (EVar s i))
      by (intros s i A B C D; exact (conj A (conj B (conj C D)))).
    assert (SP : forall w r, w = r :: tl w -> forallb (fun r => is_alnum plain_ctx r) w = true -> is_digit (hd 0 w) = false -> w <> zs "op" -> w <> zs "opdelete" -> spelled plain_ctx w).
    { intros w r E F D N1 N2. split; [rewrite E; discriminate|]. split; [|auto]. apply Forall_forall. apply forallb_forall, F. }
    assert (IX : In (text_of ",") symbols) by (vm_compute; tauto). assert (IM : In (text_of "-") symbols) by (vm_compute; tauto).
    split; [right; split; [split; [vm_compute; reflexivity|exists TOperator; exact (SY _ IM)]|intros [_ D]; vm_compute in D; discriminate]|].
    split; [apply V; cbn; lia|]. split; [split; [vm_compute; reflexivity|]|split; [intros [_ D]; vm_compute in D; discriminate|]].
    { exists TOperator. apply (ot_symbol plain_ctx 0 [43] 0 [47]); [vm_compute; tauto|right; left; vm_compute; tauto|]. left. vm_compute. reflexivity. }
    split; [right; split; [split; [vm_compute; reflexivity|exists TOperator; exact (SY _ IX)]|intros [_ D]; vm_compute in D; discriminate]|].
    split; [apply X; [reflexivity|apply (SP _ 120); [reflexivity|reflexivity|reflexivity|discriminate|discriminate]|vm_compute; reflexivity|reflexivity]|].
    split; [right; split; [split; [vm_compute; reflexivity|]|intros [[D|D] _]; vm_compute in D; discriminate]|].
    { eexists. apply (ot_word plain_ctx 0 (zs "max") 0 []); [apply (SP _ 109); [reflexivity|reflexivity|reflexivity|discriminate|discriminate]|vm_compute; reflexivity|left; reflexivity|contradiction]. }
    split; [split; [|split; [apply V; cbn; lia|split; [exact Logic.I|exact Logic.I]]]|].
    { apply X; [reflexivity|apply (SP _ 121); [reflexivity|reflexivity|reflexivity|discriminate|discriminate]|vm_compute; reflexivity|reflexivity]. }
    repeat (split; [apply V; unfold constant, code_point; lia|]). exact Logic.I.
Qed.

(* ---- operators in a saved workspace ---- *)
Section Get.
Variable u_print : Z -> bool.
Variables letters digits puncts symbols : Z -> bool.
Variables bu bb : string -> bool.
Variable E : settings -> env.
Variables const_e const_pi : Z -> value.
Notation context b st := (scan_ctx b letters digits puncts symbols bu bb st).
Notation snext := (session_next u_print letters digits puncts symbols bu bb E const_e const_pi).
(* What )save wrote in the session A, )get reads in the session B that has no operators: B then
   has the operators of A, each with the definition that it has in A, and the variables and
   settings as when there are no operators. *)
Theorem operators_come_back_partial : forall A B name t q more,
  operators_ok letters digits puncts symbols bu bb (ses_ctx A) -> bu "_" = false -> bb "_" = false ->
  save_text u_print A = Ok t -> ses_files B name = Some t ->
  unary (ses_ctx B) = [] -> binary (ses_ctx B) = [] -> defs (ses_ctx B) = [] -> (forall x b, In (x, b) (defs (ses_ctx A)) -> find (globals (ses_ctx B)) x = None) ->
  legal_settings (ses_set A) -> Forall code_point (prompt_text (ses_set A)) -> Forall code_point (format_text (ses_set A)) ->
  NoDup (map fst (globals (ses_ctx A))) ->
  Forall (fun p => exists w, fst p = name_of w /\ variable_name (context 10 (ses_ctx A)) w /\ saveable (val (snd p))) (globals (ses_ctx A)) ->
  legal_settings (ses_set B) -> ses_depth B <= 8 -> (forall b, legal_base b -> no_digit_operators (context b (ses_ctx A))) -> (forall c, rho_built_in bb (E c) (ses_ctx A)) ->
  Forall code_point name -> between_tokens q -> to_come q = zs ")get " ++ quote_string u_print name ++ [nl] ++ more ->
  exists m0 B' q', (forall m, (m0 <= m)%nat -> snext m B q = Some (Ok [], B', q')) /\ to_come q' = more /\ between_tokens q' /\
    (forall x, find (unary (ses_ctx B')) x = find (unary (ses_ctx A)) x) /\ (forall x, find (binary (ses_ctx B')) x = find (binary (ses_ctx A)) x) /\
    defs (ses_ctx B') = defs (ses_ctx A) /\
    ses_set B' = loaded_settings (ses_set A) (ses_set B) /\
    (forall x v, find (globals (ses_ctx A)) x = Some v -> ~ In x ["e"; "pi"] -> find (globals (ses_ctx B')) x = Some (loud (val v))) /\
    (forall x, find (globals (ses_ctx A)) x = None -> ~ In x ["e"; "pi"] -> find (globals (ses_ctx B')) x = find (globals (ses_ctx B)) x) /\
    find (globals (ses_ctx B')) "e" = Some (loud (const_e (float_prec (ses_set A)))) /\
    find (globals (ses_ctx B')) "pi" = Some (loud (const_pi (float_prec (ses_set A)))) /\
    ses_depth B' = ses_depth B /\ ses_files B' = ses_files B.
Proof using Type.
  intros A B name t q more OK U1 U2 S F UB BB DB GB LA CP CF NDp VO LB D NDg RB FN BT T.
  destruct (string_line u_print letters digits puncts symbols bu bb "get" name B q more ltac:(cbn; tauto) FN (proj1 LB) BT) as (q' & NL & T' & B'). { rewrite T. unfold string_text. rewrite <-!app_assoc. reflexivity. }
  set (B0 := with_depth (with_set B (set_base (ses_set B) 0 0)) (ses_depth B + 2)).
  destruct (file_saved_ops u_print letters digits puncts symbols bu bb E const_e const_pi A B0 t OK U1 U2 UB BB DB ltac:(intros [x b] I; exact (GB x b I)) S LA CP CF eq_refl NDg RB VO NDp)
    as (m0 & G & u & b & TB & R & G1 & G2 & G3 & G4).
  exists m0. eexists. exists q'. split.
  { intros m M. unfold session_next. rewrite NL. unfold command. rewrite (get_special u_print _ name B FN).
    cbn [get_file]. change (ses_files (with_set B (set_base (ses_set B) 0 0)) name) with (ses_files B name). rewrite F. cbv zeta.
    change (ses_depth (with_set B (set_base (ses_set B) 0 0))) with (ses_depth B). replace (10 <? ses_depth B + 1) with false by lia. replace (10 <? ses_depth B + 2) with false by lia.
    fold B0. rewrite R by exact M. reflexivity. }
  split; [exact T'|]. split; [exact B'|].
  assert (K1 : forall x, ~ In x ["e"; "pi"] -> x <> "e" /\ x <> "pi") by (intros x N; cbn in N; split; intros ->; tauto).
  cbn [set_constants with_ctx ses_ctx globals set_globals ses_set with_set ses_depth ses_files with_depth unary binary defs set_ops].
  split; [intros x; exact (TB (x, false))|]. split; [intros x; exact (TB (x, true))|]. split; [reflexivity|]. split; [reflexivity|].
  split; [|split; [|split; [|split; [|split]]]].
  - intros x v H N. destruct (K1 x N) as [N1 N2]. rewrite !CmdSave.find_store. destruct (String.eqb_spec x "pi"); [contradiction|]. destruct (String.eqb_spec x "e"); [contradiction|]. apply G1; auto.
  - intros x H N. destruct (K1 x N) as [N1 N2]. rewrite !CmdSave.find_store. destruct (String.eqb_spec x "pi"); [contradiction|]. destruct (String.eqb_spec x "e"); [contradiction|]. apply G2; auto.
  - rewrite !CmdSave.find_store. reflexivity.
  - rewrite !CmdSave.find_store. reflexivity.
  - cbn. lia.
  - reflexivity.
Qed.
End Get.
Print Assumptions operators_come_back_partial.
(* The file that )save writes after the lines l, and a new session that gets it. *)
Definition session_of (l : list string) : session := after (run_lines (start no_files) l).
Definition saved_file (l : list string) : text := match save_text no_letters (session_of l) with Ok t => t | _ => [] end.
Definition got_back (l : list string) := ivy_lines 1 20 (start (fun n => if teq n (zs "w") then Some (saved_file l) else None)) (new_scanner (q_get "w")).
Definition accepted (l : list string) : Prop := Forall (fun r => exists vs, r = Ok vs) (results (run_lines (start no_files) l)).
Definition operator (s : session) (name : string) (is_binary : bool) : option func := find (if is_binary then binary (ses_ctx s) else unary (ses_ctx s)) name.

(* Operators that are defined in terms of each other and of themselves, of one line and of
   several, come back as they were. *)
Definition good_session : list string :=
  ["op sq x = x * x"; "op a plus b = a + sq b"; "op two x ="; " y = x"; " y * 2"; ""; "op fac n = n < 1 : 1 ; n * fac n - 1"; "op odd x"; "op even x ="; " x == 0 : 1"; " odd x - 1"; "";
   "op odd x ="; " x == 0 : 0"; " even x - 1"; ""; "x = 3"].
Example operators_example : accepted good_session /\ results (got_back good_session) = [Ok []] /\
  unary (ses_ctx (after (got_back good_session))) <> [] /\
  forall name b, In (name, b) (defs (ses_ctx (session_of good_session))) -> operator (after (got_back good_session)) name b = operator (session_of good_session) name b.
Proof.
  split; [vm_compute; repeat (constructor; [eexists; reflexivity|]); constructor|]. split; [vm_compute; reflexivity|]. split; [vm_compute; discriminate|].
  intros name b I. vm_compute in I. repeat (destruct I as [I|I]; [injection I as <- <-; vm_compute; reflexivity|]). destruct I.
Qed.
(* This workspace meets the hypotheses of operators_come_back_partial. *)
Definition good_ctx : ctx := Eval vm_compute in ses_ctx (session_of good_session).
Definition good_start : session := start (fun n => if teq n (zs "w") then Some (saved_file good_session) else None).
Notation good_scan b := (scan_ctx b no_letters no_letters no_letters no_letters built_unary built_binary good_ctx).
Example good_operators : operators_ok no_letters no_letters no_letters no_letters built_unary built_binary good_ctx.
Proof.
  assert (ND : NoDup (defs good_ctx)) by (vm_compute; repeat (constructor; [intros X; repeat (destruct X as [X|X]; [discriminate|]); exact X|]); constructor).
  split; [exact ND|]. split; [|split].
  - assert (FI : forall (t : table func) s, ParseModel.names t s = true -> In s (map fst t)).
    { induction t as [|[k v] t IH]; intros s H; [discriminate|]. unfold ParseModel.names in *. cbn [find] in H. cbn [map fst In]. destruct (String.eqb_spec s k); [left; symmetry; assumption|right; apply IH, H]. }
    intros [s b]. split.
    + intros H. destruct b; unfold user_op in H; cbn [fst snd] in H; apply FI in H; vm_compute in H; repeat (destruct H as [<- | H]; [vm_compute; tauto|]); destruct H.
    + intros H. vm_compute in H. repeat (destruct H as [H|H]; [injection H as <- <-; vm_compute; reflexivity|]). destruct H.
  - apply Forall_forall. intros x I. split.
    + apply SourceTest.name_ok. vm_compute in I. repeat (destruct I as [<- | I]; [vm_compute; reflexivity|]). destruct I.
    + vm_compute in I. cbn [In]. repeat (destruct I as [<- | I]; [intros X; repeat (destruct X as [X|X]; [discriminate X|]); exact X|]). destruct I.
  - change (in_order no_letters no_letters no_letters no_letters built_unary built_binary good_ctx [] [("sq", false); ("plus", true); ("two", false); ("fac", false); ("even", false); ("odd", false)]).
    assert (SR : forall ds I fn, let src := (tl (fst (ParseModel.print_func (op_token (scan_ctx 0 no_letters no_letters no_letters no_letters built_unary built_binary (only I good_ctx))) fn)), snd (ParseModel.print_func (op_token (scan_ctx 0 no_letters no_letters no_letters no_letters built_unary built_binary (only I good_ctx))) fn) ++ [[]]) in
       match ParseModel.parse_tokens built_unary built_binary (unary (only ds good_ctx)) (binary (only ds good_ctx)) (ParseModel.KDef :: fst src) (snd src) with LDefine _ fn' true => fn' = fn | _ => False end ->
       SourceTest.made_test no_letters no_letters no_letters no_letters built_unary built_binary ds good_ctx fn src = true ->
       made_with no_letters no_letters no_letters no_letters built_unary built_binary ds good_ctx fn).
    { intros ds I fn src P M. exact (SourceTest.made_ok _ _ _ _ _ _ _ _ _ src P M). }
    assert (ST : forall (before : list (string * bool)) (d : string * bool) ds fn ahead, find (if snd d then binary good_ctx else unary good_ctx) (fst d) = Some fn -> f_name fn = fst d -> f_binary fn = snd d ->
       filter (fun x => negb (in_defs x before)) (references good_ctx (match f_body fn with Some b => b | None => [] end)) = ahead ->
       Forall (fun x => snd x = false) ahead -> made_with no_letters no_letters no_letters no_letters built_unary built_binary (before ++ ahead) good_ctx fn ->
       in_order no_letters no_letters no_letters no_letters built_unary built_binary good_ctx (before ++ ahead ++ [d]) ds ->
       in_order no_letters no_letters no_letters no_letters built_unary built_binary good_ctx before (d :: ds)).
    { intros before d ds fn ahead F1 F2 F3 <- A1 A2 A3. exact (ex_intro _ fn (conj F1 (conj F2 (conj F3 (conj A1 (conj A2 A3)))))). }
    repeat (eapply ST; [vm_compute; reflexivity|reflexivity|reflexivity|vm_compute; reflexivity|repeat constructor|apply (SR _ (defs good_ctx)); vm_compute; reflexivity|cbn [app]]). exact Logic.I.
Qed.
Example come_back_hypotheses : let A := session_of good_session in let B := good_start in let q := new_scanner (q_get "w") in
  operators_ok no_letters no_letters no_letters no_letters built_unary built_binary (ses_ctx A) /\ built_unary "_" = false /\ built_binary "_" = false /\
  save_text no_letters A = Ok (saved_file good_session) /\ ses_files B (zs "w") = Some (saved_file good_session) /\
  unary (ses_ctx B) = [] /\ binary (ses_ctx B) = [] /\ defs (ses_ctx B) = [] /\ (forall x b, In (x, b) (defs (ses_ctx A)) -> find (globals (ses_ctx B)) x = None) /\
  legal_settings (ses_set A) /\ Forall code_point (prompt_text (ses_set A)) /\ Forall code_point (format_text (ses_set A)) /\ NoDup (map fst (globals (ses_ctx A))) /\
  Forall (fun p => exists w, fst p = name_of w /\ variable_name (scan_ctx 10 no_letters no_letters no_letters no_letters built_unary built_binary (ses_ctx A)) w /\ saveable (val (snd p))) (globals (ses_ctx A)) /\
  legal_settings (ses_set B) /\ ses_depth B <= 8 /\ (forall b, legal_base b -> no_digit_operators (scan_ctx b no_letters no_letters no_letters no_letters built_unary built_binary (ses_ctx A))) /\
  (forall c, rho_built_in built_binary (cmd_env c) (ses_ctx A)) /\ Forall code_point (zs "w") /\ between_tokens q /\ to_come q = zs ")get " ++ quote_string no_letters (zs "w") ++ [nl] ++ [].
Proof.
  cbv zeta. replace (ses_ctx (session_of good_session)) with good_ctx by (vm_compute; reflexivity). replace (ses_set (session_of good_session)) with (initial 1) by (vm_compute; reflexivity).
  split; [exact good_operators|]. split; [reflexivity|]. split; [reflexivity|]. split; [vm_compute; reflexivity|]. split; [reflexivity|]. split; [reflexivity|]. split; [reflexivity|]. split; [reflexivity|].
  split. { intros x b I. vm_compute in I. repeat (destruct I as [I|I]; [injection I as <- <-; vm_compute; reflexivity|]). destruct I. }
  split; [exact initial_legal|]. split; [constructor|]. split; [constructor|].
  split. { vm_compute. repeat (constructor; [intros X; repeat (destruct X as [X|X]; [discriminate X|]); exact X|]). constructor. }
  split.
  { assert (VN : forall w, SourceTest.spelled_test (good_scan 10) w && forallb (fun r => (0 <=? r) && (r <? 128)) w && negb (defined (good_scan 10) w) && negb (user_unary (good_scan 10) w) && negb (all_digits w 10 false) = true -> variable_name (good_scan 10) w).
    { intros w H. apply andb_true_iff in H. destruct H as [H H1]. apply andb_true_iff in H. destruct H as [H H2]. apply andb_true_iff in H. destruct H as [H H3]. apply andb_true_iff in H. destruct H as [H H4].
      destruct (SourceTest.spelled_ok _ _ H) as (A1 & A2 & A3 & A4 & A5). repeat (split; [assumption|]). split.
      { apply Forall_forall. intros r R. rewrite forallb_forall in H4. specialize (H4 r R). unfold code_point. lia. }
      split; [apply negb_true_iff, H3|]. split; apply negb_true_iff; assumption. }
    apply Forall_cons. { exists (zs "x"). split; [reflexivity|]. split; [apply VN; vm_compute; reflexivity|]. cbn. lia. }
    apply Forall_cons. { exists (zs "pi"). split; [reflexivity|]. split; [apply VN; vm_compute; reflexivity|]. split; [reflexivity|discriminate]. }
    apply Forall_cons. { exists (zs "e"). split; [reflexivity|]. split; [apply VN; vm_compute; reflexivity|]. split; [reflexivity|discriminate]. }
    apply Forall_nil. }
  split; [exact initial_legal|]. split; [vm_compute; discriminate|]. split.
  { intros b L w H NJ NE. pose proof (names_no_numbers b L w H NJ NE) as N. unfold defined in *. apply orb_false_iff in N. apply orb_false_iff. split; [exact (proj1 N)|].
    destruct (user_binary (good_scan b) w) eqn:U; [|reflexivity]. exfalso. cbn [user_binary scan_ctx] in U. unfold ParseModel.names in U. cbn [binary good_ctx find] in U.
    destruct (String.eqb_spec (name_of w) "plus") as [Q|Q]; [|discriminate].
    pose proof (number_letters b L w false H) as F. assert (CP : Forall code_point w) by (eapply Forall_impl; [|exact F]; intros r; cbv beta; unfold code_point; lia).
    rewrite <-(text_of_name w CP), Q in F. vm_compute in F. inversion F as [|? ? F1 F2]. vm_compute in F1. destruct F1 as [[? ?]|[[? ?]|[? ?]]]; congruence. }
  split. { intros c. split; [reflexivity|]. split; [reflexivity|]. eexists. split; [reflexivity|]. intros a b. reflexivity. }
  split; [apply Forall_forall; intros r R; vm_compute in R; destruct R as [<- | []]; unfold code_point; lia|].
  split; [|vm_compute; reflexivity]. apply new_between. apply Forall_forall. intros x I. vm_compute in I. repeat (destruct I as [<-|I]; [lia|]). destruct I.
Qed.
(* Not every workspace comes back.  The declaration that )save puts before a binary operator
   that is used before it is defined, such as a recursive one, is "op _ f _": two arguments of
   the same name, which )get rejects.  What follows in the file - the operator, those after it
   and all variables - is lost. *)
Definition recursive_session : list string := ["op a pow b = b < 1 : 1 ; a * a pow b - 1"; "op sq x = x * x"; "x = 3"].
Theorem recursive_operator_refuted : accepted recursive_session /\
  operator (session_of recursive_session) "pow" true <> None /\ operator (session_of recursive_session) "sq" false <> None /\ find (globals (ses_ctx (session_of recursive_session))) "x" <> None /\
  let s := after (got_back recursive_session) in
  results (got_back recursive_session) = [Ok []] /\ operator s "pow" true = None /\ operator s "sq" false = None /\ find (globals (ses_ctx s)) "x" = None.
Proof.
  split; [vm_compute; repeat (constructor; [eexists; reflexivity|]); constructor|]. vm_compute. repeat split; discriminate.
Qed.
Print Assumptions recursive_operator_refuted.
(* An operator used only in a reduction "f/" is not declared before its use: the line is read
   as a division of two variables. *)
Definition reduction_session : list string := ["op x b y"; "op a x = b/ x"; "op x b y = x + y"].
Theorem reduced_operator_refuted : accepted reduction_session /\ results (got_back reduction_session) = [Ok []] /\
  option_map f_body (operator (session_of reduction_session) "a" false) = Some (Some [EUnary "b/" (EVar "x" 1)]) /\
  option_map f_body (operator (after (got_back reduction_session)) "a" false) = Some (Some [EBinary "/" (EVar "b" 0) (EVar "x" 1)]).
Proof.
  split; [vm_compute; repeat (constructor; [eexists; reflexivity|]); constructor|]. vm_compute. repeat split.
Qed.
Print Assumptions reduced_operator_refuted.
(* An operator that has only been declared is saved as a definition without a body, which takes
   the lines after it for its body and fails: everything after it is lost. *)
Definition declared_session : list string := ["op f x"; "y = 3"].
Theorem declared_operator_refuted : accepted declared_session /\ operator (session_of declared_session) "f" false <> None /\
  let s := after (got_back declared_session) in
  results (got_back declared_session) = [Ok []] /\ operator s "f" false = None /\ find (globals (ses_ctx s)) "y" = None /\ save_text no_letters s = Crash.
Proof.
  split; [vm_compute; repeat (constructor; [eexists; reflexivity|]); constructor|]. vm_compute. repeat split; discriminate.
Qed.
Print Assumptions declared_operator_refuted.
(* A complex constant comes back as an application of j, and in a vector as something else. *)
Definition complex_session : list string := ["op f x = x + 1j2"; "op g x = x , 1j2 3"].
Theorem complex_constant_refuted : accepted complex_session /\ results (got_back complex_session) = [Ok []] /\
  option_map f_body (operator (session_of complex_session) "f" false) = Some (Some [EBinary "+" (EVar "x" 1) (EVal (VCplx (VInt 1) (VInt 2)))]) /\
  option_map f_body (operator (after (got_back complex_session)) "f" false) = Some (Some [EBinary "+" (EVar "x" 1) (EBinary "j" (EVal (VInt 1)) (EVal (VInt 2)))]) /\
  option_map f_body (operator (session_of complex_session) "g" false) = Some (Some [EBinary "," (EVar "x" 1) (EVector [EVal (VCplx (VInt 1) (VInt 2)); EVal (VInt 3)])]) /\
  option_map f_body (operator (after (got_back complex_session)) "g" false) = Some (Some [EBinary "," (EVar "x" 1) (EBinary "j" (EVal (VInt 1)) (EVector [EVal (VInt 2); EVal (VInt 3)]))]).
Proof.
  split; [vm_compute; repeat (constructor; [eexists; reflexivity|]); constructor|]. vm_compute. repeat split.
Qed.
Print Assumptions complex_constant_refuted.
(* The operators that )save declares before a definition, if they are not yet in the file, are those of the user
   that the body applies, each once. *)
Theorem declared_operators : forall st body x, In x (references st body) <-> user_op st x = true /\ exists e, In e body /\ applies e x.
Proof. exact references_in. Qed.
Print Assumptions declared_operators.
Theorem declared_once : forall st body, NoDup (references st body).
Proof. exact references_nodup. Qed.
Print Assumptions declared_once.
Example declared_case : let st := ses_ctx (session_of good_session) in
  exists fn, find (binary st) "plus" = Some fn /\ exists body, f_body fn = Some body /\ references st body = [("sq", false)].
Proof. eexists. split; [vm_compute; reflexivity|]. eexists. split; vm_compute; reflexivity. Qed.

(* The operators of a saved workspace come back. *)
From Coq Require Import String ZifyBool.
From Verif Require Import Value NumModel NumSpec ArrModel ArrSpec Syntax ExecModel ExecProofs ScanModel ScanSpec ScanProofs ScanLex ScanNext ScanForm
  TextModel TextSpec TextProofs TextScan TextNum StrModel StrSpec StrProofs ReadModel ReadScan SaveModel SaveSpec SaveProofs SaveRun SourceModel SourceSpec SourceScan SourceProofs SourceDefn SourceMove CmdModel.
From Verif Require ParseModel ParseSpec ParseProofs ParsePrint ParseDefn.
Open Scope string_scope.
Open Scope list_scope.
Open Scope Z_scope.

(* ---- the characters of the text ---- *)
Definition printing (t : text) : Prop := Forall (fun x => 0 <= x /\ x <> 13 /\ x <> 10) t.
Lemma p_app : forall a b, printing a -> printing b -> printing (a ++ b). Proof. intros; apply Forall_app; auto. Qed.
Lemma p_test : forall t, forallb (fun x => (0 <=? x) && negb (x =? 13) && negb (x =? 10)) t = true -> printing t.
Proof. intros t H. rewrite forallb_forall in H. apply Forall_forall. intros x I. specialize (H x I). lia. Qed.
Lemma p_ats : forall n, printing (ats n). Proof. induction n; [constructor|]. cbn [ats repeat]. constructor; [unfold at_sign; lia|exact IHn]. Qed.
Lemma p_spelled : forall c w, spelled c w -> printing w.
Proof. intros c w (_ & F & _). eapply Forall_impl; [|exact F]. intros r H. apply alnum_spec in H. lia. Qed.
Lemma p_format : forall n, printing (format_int 10 n).
Proof. intros n. eapply Forall_impl; [|exact (proj1 (format_chars 10 n ltac:(lia)))]. intros x H. unfold int_char in H. lia. Qed.
Lemma p_symbol : forall s, In s symbols -> printing s.
Proof. intros s I. vm_compute in I. repeat (destruct I as [<-|I]; [apply p_test; reflexivity|]). destruct I. Qed.
Lemma p_suffix : forall c x, suffix c x -> printing x.
Proof.
  assert (IN : forall c x, inner c x -> printing x).
  { intros c x (s & -> & [I|[I _]]); (constructor; [lia|]); [apply p_symbol, I|apply (p_spelled c), I]. }
  intros c x [-> |[I|I]]; [constructor| |apply (IN c), I]. vm_compute in I. repeat (destruct I as [<-|I]; [apply p_test; reflexivity|]). destruct I.
Qed.
Lemma p_operator : forall c w ty, operator_text c w ty -> printing w.
Proof.
  intros c w ty [m s n x S X _|m s n x S _ X _|x X|s n S _ _ _].
  - repeat apply p_app; auto using p_ats, p_symbol. apply (p_suffix c), X.
  - repeat apply p_app; auto using p_ats. { apply (p_spelled c), S. } apply (p_suffix c), X.
  - apply p_app; [apply p_test; reflexivity|]. apply (p_suffix c). right. right. exact X.
  - apply p_app; [apply (p_spelled c), S|apply p_ats].
Qed.
Lemma p_parens : forall b t, printing t -> printing (in_parens b t).
Proof. intros [] t H; [|exact H]. apply p_app; [apply p_test; reflexivity|]. apply p_app; [exact H|apply p_test; reflexivity]. Qed.
Lemma p_spaces : forall l, Forall printing l -> printing (with_spaces l).
Proof. induction 1 as [|t l H F IH]; [constructor|]. cbn [with_spaces]. destruct l; [exact H|]. apply p_app; [exact H|]. constructor; [lia|exact IH]. Qed.
Section Chars.
Variable u_print : Z -> bool.
Notation prog_text := (prog_text u_print).
Lemma p_constant : forall v, constant v -> printing (prog_value u_print v).
Proof.
  intros v C. assert (R : forall v, canonical v -> printing (prog_real v)).
  { intros x X. destruct x; try (exact (False_ind _ X)); cbn [prog_real]; try apply p_format. apply p_app; [apply p_format|]. constructor; [lia|apply p_format]. }
  destruct v; cbn [constant canonical] in C; try (exact (False_ind _ C)); cbn [prog_value].
  all: match type of C with
       | code_point ?r => unfold quote_char; constructor; [lia|]; apply p_app; [|apply p_test; reflexivity];
           destruct (escaped_piece u_print 39 r ltac:(right; reflexivity) C) as (_ & _ & _ & H); exact H
       | _ => idtac end.
  all: match goal with |- printing (prog_real ?v) => exact (R v C) | |- _ => exact (R _ C) end.
Qed.
Lemma p_prog : forall c e, sourced c e -> printing (prog_text e).
Proof.
  intros c. induction e as [v|s i|o r IHr|o l r IHl IHr|l r IHl IHr|l IHl|l idx IHl IHidx] using expr_ind'; intros S.
  - apply p_constant, S.
  - destruct S as (_ & SP & _). apply (p_spelled c), SP.
  - destruct S as ((_ & ty & OT) & _ & S). cbn [SourceModel.prog_text]. apply p_app; [exact (p_operator _ _ _ OT)|]. constructor; [lia|exact (IHr S)].
  - destruct S as (O & SL & SR). cbn [SourceModel.prog_text]. apply p_app; [apply p_parens; auto|]. constructor; [lia|]. apply p_app.
    + destruct O as [-> |[(_ & ty & OT) _]]; [apply p_test; reflexivity|exact (p_operator _ _ _ OT)].
    + constructor; [lia|exact (IHr SR)].
  - destruct S as (SL & SR). cbn [SourceModel.prog_text]. apply p_app; [apply p_parens; auto|]. repeat (constructor; [lia|]). exact (IHr SR).
  - cbn [sourced] in S. apply (sourced_list c) in S. cbn [SourceModel.prog_text]. destruct (ParseModel.all_chars l) as [cs|] eqn:A.
    + unfold prog_chars. constructor; [lia|]. apply p_app; [|apply p_test; reflexivity].
      exact (pieces_chars 39 (prog_char u_print) (prog_piece u_print) cs (all_chars_points c l cs A S)).
    + apply p_spaces, Forall_forall. intros t T. apply in_map_iff in T. destruct T as (x & <- & X). rewrite Forall_forall in S, IHl. apply p_parens; auto.
  - cbn [sourced] in S. destruct S as (SL & SI). apply (sourced_index c) in SI. rewrite prog_EIndex. apply p_app; [apply p_parens; auto|]. constructor; [lia|].
    apply p_app; [|apply p_test; reflexivity]. clear SL IHl. induction idx as [|o idx IH]; [constructor|].
    inversion SI as [|? ? S1 S2]; inversion IHidx as [|? ? I1 I2]; subst.
    assert (P : printing (match o with Some x => prog_text x | None => [] end)) by (destruct o; [apply I1, S1|constructor]).
    destruct idx as [|o2 idx]; [exact P|]. apply p_app; [exact P|]. repeat (constructor; [lia|]). apply IH; assumption.
Qed.
Lemma p_arg : forall c e, arg_sourced c e -> printing (arg_text e).
Proof.
  intros c. induction e as [v|s i|o r IHr|o l r IHl IHr|l r IHl IHr|l IHl|l idx IHl IHidx] using expr_ind'; intros S; try (exact (False_ind _ S)).
  - destruct S as (_ & SP & _). apply (p_spelled c), SP.
  - cbn [arg_sourced] in S. apply (arg_list c) in S. cbn [arg_text]. constructor; [lia|]. apply p_app; [|apply p_test; reflexivity].
    apply p_spaces, Forall_forall. intros t T. apply in_map_iff in T. destruct T as (x & <- & X). rewrite Forall_forall in S, IHl. auto.
Qed.
Lemma p_header : forall c fn, spelled c (text_of (f_name fn)) -> header_sourced c fn -> printing (header_text fn).
Proof.
  intros c fn N (SL & SR). unfold header_text. apply p_app.
  - destruct (f_left fn); [|constructor]. apply p_app; [apply (p_arg c), SL|apply p_test; reflexivity].
  - apply p_app; [apply (p_spelled c), N|]. apply p_app; [apply p_test; reflexivity|apply (p_arg c), SR].
Qed.
Lemma func_text_is : forall fn, func_text u_print fn = zs "op" ++ [32] ++ header_text fn ++ [32] ++ [61] ++ [32] ++
  match f_body fn with Some [e] => prog_text e | Some l => flat_map (fun e => [10; 9] ++ prog_text e) l | None => [] end.
Proof.
  intros fn. unfold func_text, header_text. change (zs "op ") with (zs "op" ++ [32]). change (zs " = ") with ([32] ++ [61] ++ [32]). rewrite <-!app_assoc.
  destruct (f_left fn); rewrite <-?app_assoc; reflexivity.
Qed.
(* one line; several lines *)
Lemma definition_one : forall c fn e, spelled c (text_of (f_name fn)) -> header_sourced c fn -> sourced c e -> f_body fn = Some [e] ->
  definition u_print fn = zs "op" ++ [32] ++ header_text fn ++ [32] ++ (61 :: 32 :: prog_text e) ++ [nl].
Proof.
  intros c fn e N H S B. unfold definition. rewrite func_text_is, B.
  set (t := zs "op" ++ [32] ++ header_text fn ++ [32] ++ [61] ++ [32] ++ prog_text e).
  assert (mem nl t = false) as ->.
  { apply TextProofs.mem_no. assert (P : printing t).
    { unfold t. apply p_app; [apply p_test; reflexivity|]. constructor; [lia|]. apply p_app; [exact (p_header c fn N H)|]. repeat (constructor; [lia|]). exact (p_prog c e S). }
    eapply Forall_impl; [|exact P]. intros r. cbv beta. unfold nl. lia. }
  unfold t. change (61 :: 32 :: prog_text e) with ([61] ++ [32] ++ prog_text e). rewrite <-!app_assoc. reflexivity.
Qed.
Lemma definition_more : forall fn e1 e2 l, f_body fn = Some (e1 :: e2 :: l) ->
  definition u_print fn = zs "op" ++ [32] ++ header_text fn ++ [32] ++ [61] ++ [32] ++ [nl] ++ body_text u_print (e1 :: e2 :: l) ++ [nl].
Proof.
  intros fn e1 e2 l B. unfold definition. rewrite func_text_is, B.
  set (b := flat_map (fun e => [10; 9] ++ prog_text e) (e1 :: e2 :: l)).
  assert (mem nl (zs "op" ++ [32] ++ header_text fn ++ [32] ++ [61] ++ [32] ++ b) = true) as ->.
  { unfold mem. apply existsb_exists. exists 10. split; [|reflexivity]. do 6 (apply in_or_app; right). unfold b. left. reflexivity. }
  rewrite <-!app_assoc. do 6 f_equal. rewrite (app_assoc b [nl] [nl]). unfold b. rewrite (body_text_is u_print). rewrite <-app_assoc. reflexivity.
Qed.
End Chars.

(* ---- states with operators of the same names ---- *)
Definition alike (st st' : ctx) : Prop :=
  (forall s, ParseModel.names (unary st) s = ParseModel.names (unary st') s) /\ (forall s, ParseModel.names (binary st) s = ParseModel.names (binary st') s).
Lemma alike_sym : forall st st', alike st st' -> alike st' st.
Proof. intros st st' [U B]. split; intros; symmetry; auto. Qed.
Section Alike.
Set Default Proof Using "Type".
Variables letters digits puncts symbols : Z -> bool.
Variables bu bb : string -> bool.
Variable base : Z.
Variables st st' : ctx.
Hypothesis AL : alike st st'.
Notation c := (scan_ctx base letters digits puncts symbols bu bb st).
Notation c' := (scan_ctx base letters digits puncts symbols bu bb st').
Lemma al_defined : forall w, defined c' w = defined c w.
Proof using AL. intros w. unfold defined. cbn [predefined user_binary scan_ctx]. rewrite (proj2 AL). reflexivity. Qed.
Lemma al_nodig : no_digit_operators c -> no_digit_operators c'.
Proof using AL. intros H w D N1 N2. rewrite al_defined. apply H; assumption. Qed.
Lemma al_binary : forall w, binary_name c w -> binary_name c' w.
Proof using AL. intros w [H|H]; [left; exact H|right]. cbn [user_binary scan_ctx] in *. rewrite <-(proj2 AL). exact H. Qed.
Lemma al_suffix : forall x, suffix c x -> suffix c' x.
Proof using AL.
  intros x [H|[H|(s & E & H)]]; [left; exact H|right; left; exact H|right; right]. exists s. split; [exact E|].
  destruct H as [H|[H1 H2]]; [left; exact H|right]. split; [exact H1|rewrite al_defined; exact H2].
Qed.
Lemma al_operator : forall w ty, operator_text c w ty -> operator_text c' w ty.
Proof using AL.
  intros w ty [m s n x S X N|m s n x S D X N|x X|s n S D AD N].
  - constructor; auto using al_suffix. intros Q. apply al_binary, N, Q.
  - apply (ot_word c' m s n x); [exact S|rewrite al_defined; exact D|apply al_suffix, X|]. intros Q. apply al_binary, N, Q.
  - constructor. destruct (al_suffix x (or_intror (or_intror X))) as [Q|[Q|Q]]; [|exfalso|exact Q].
    + destruct X as (s & E & _). subst. discriminate.
    + destruct X as (s & E & _). subst. vm_compute in Q. repeat (destruct Q as [Q|Q]; [discriminate|]). destruct Q.
  - constructor; [exact S|rewrite al_defined; exact D|exact AD|]. intros Q. cbn [user_unary scan_ctx] in *. rewrite <-(proj1 AL). exact (N Q).
Qed.
Lemma al_token : forall s, op_token c' s = op_token c s.
Proof using AL. intros s. unfold op_token, op_kind. rewrite al_defined. reflexivity. Qed.
Lemma al_sourced : forall e, sourced c e -> sourced c' e.
Proof using AL.
  assert (NM : forall o, op_named c o -> op_named c' o) by (intros o (N & ty & H); split; [exact N|]; exists ty; apply al_operator, H).
  induction e as [v|s i|o r IHr|o l r IHl IHr|l r IHl IHr|l IHl|l idx IHl IHidx] using expr_ind'; intros S.
  - exact S.
  - destruct S as (N & SP & D & A). split; [exact N|]. split; [exact SP|]. split; [rewrite al_defined; exact D|exact A].
  - destruct S as (N & SD & S). split; [apply NM, N|]. split; [exact SD|apply IHr, S].
  - destruct S as (O & SL & SR). split; [|split; [apply IHl, SL|apply IHr, SR]]. destruct O as [O|[O SD]]; [left; exact O|right]. split; [apply NM, O|exact SD].
  - destruct S as (SL & SR). split; [apply IHl, SL|apply IHr, SR].
  - cbn [sourced] in *. apply (sourced_list c) in S. apply (sourced_list c'). rewrite Forall_forall in *. auto.
  - cbn [sourced] in *. destruct S as (SL & SI). split; [apply IHl, SL|]. apply (sourced_index c) in SI. apply (sourced_index c').
    rewrite Forall_forall in *. intros [x|] I; [|exact Logic.I]. exact (IHidx _ I (SI _ I)).
Qed.
Lemma al_arg : forall e, arg_sourced c e -> arg_sourced c' e.
Proof using AL.
  induction e as [v|s i|o r IHr|o l r IHl IHr|l r IHl IHr|l IHl|l idx IHl IHidx] using expr_ind'; intros S; try (exact (False_ind _ S)).
  - apply al_sourced, S.
  - cbn [arg_sourced] in *. apply (arg_list c) in S. apply (arg_list c'). rewrite Forall_forall in *. auto.
Qed.
Lemma al_header : forall fn, header_sourced c fn -> header_sourced c' fn.
Proof using AL. intros fn [L R]. split; [destruct (f_left fn); [apply al_arg, L|exact Logic.I]|apply al_arg, R]. Qed.
(* the parser's view *)
Lemma al_printable : forall fn0 tok tok' e, (forall s, tok' s = tok s) ->
  ParsePrint.printable (ParseSpec.def_scope bu bb (unary st) (binary st) fn0) tok e -> ParsePrint.printable (ParseSpec.def_scope bu bb (unary st') (binary st') fn0) tok' e.
Proof using AL.
  intros fn0 tok tok' e TK P. set (d := ParseSpec.def_scope _ _ (unary st) _ _) in *. set (d' := ParseSpec.def_scope _ _ (unary st') _ _).
  assert (NS : forall (t t' : table func) f s, (forall s, ParseModel.names t s = ParseModel.names t' s) -> ParseModel.names (store t (f_name f) f) s = ParseModel.names (store t' (f_name f) f) s).
  { intros t t' f s H. unfold ParseModel.names in *. rewrite !find_store. destruct (String.eqb (f_name f) s); [reflexivity|apply H]. }
  assert (U : forall s, ParseModel.user_unary d' s = ParseModel.user_unary d s).
  { intros s. cbn. destruct (f_binary fn0); [symmetry; apply AL|]. symmetry. apply NS, AL. }
  assert (B : forall s, ParseModel.user_binary d' s = ParseModel.user_binary d s).
  { intros s. cbn. destruct (f_binary fn0); [|symmetry; apply AL]. symmetry. apply NS, AL. }
  assert (V : forall s, ParseModel.is_variable d' s = ParseModel.is_variable d s) by reflexivity.
  assert (DU : forall s, ParseModel.defined_unary d' s = ParseModel.defined_unary d s) by (intros s; unfold ParseModel.defined_unary; rewrite V, U; reflexivity).
  assert (DB : forall s, ParseModel.defined_binary d' s = ParseModel.defined_binary d s) by (intros s; unfold ParseModel.defined_binary; rewrite V, B; reflexivity).
  assert (DO : forall s, ParseModel.defined_op d' s = ParseModel.defined_op d s) by (intros s; unfold ParseModel.defined_op; rewrite V, U, B; reflexivity).
  refine (printable_move d d' tok tok' _ _ e P _).
  - intros s H. rewrite <-DU. exact H.
  - intros s H. rewrite <-DO. exact H.
  - intros [o b] _. unfold moves. cbn [fst snd]. rewrite TK. destruct b.
    + right. intros H. destruct H; [constructor|]. constructor. rewrite DB. assumption.
    + intros H. destruct H; constructor. rewrite DU. assumption.
Qed.
Lemma al_stated : forall fn0 tok tok' e, (forall s, tok' s = tok s) ->
  stated (ParseSpec.def_scope bu bb (unary st) (binary st) fn0) tok e -> stated (ParseSpec.def_scope bu bb (unary st') (binary st') fn0) tok' e.
Proof using AL. intros fn0 tok tok' e TK P. unfold stated in *. eapply Forall_impl; [|exact P]. intros x. apply al_printable, TK. Qed.
End Alike.

(* ---- the tables of operators ---- *)
Definition tab (x : string * bool) (st : ctx) : table func := if snd x then binary st else unary st.
Definition op_of (fn : func) : string * bool := (f_name fn, f_binary fn).
Definition install (fn : func) (st : ctx) : ctx :=
  set_ops st (if f_binary fn then unary st else store (unary st) (f_name fn) fn) (if f_binary fn then store (binary st) (f_name fn) fn else binary st)
    (match rev (defs st) with
     | x :: _ => if same_def x (op_of fn) then defs st else drop_def (defs st) (op_of fn) ++ [op_of fn]
     | [] => [op_of fn]
     end).
Lemma define_free : forall fn st, ~ In (f_name fn) ["_"; "e"; "pi"] -> find (globals st) (f_name fn) = None -> define fn st = (install fn st, Ok tt).
Proof.
  intros fn st N G. unfold define, mbind, no_var. cbn [In] in N.
  destruct (String.eqb_spec (f_name fn) "_"); [exfalso; apply N; auto|]. destruct (String.eqb_spec (f_name fn) "pi"); [exfalso; apply N; auto|].
  destruct (String.eqb_spec (f_name fn) "e"); [exfalso; apply N; auto|]. cbn [orb]. rewrite G. reflexivity.
Qed.
Lemma define_op_free : forall fn0 fn st, f_name fn0 = f_name fn -> ~ In (f_name fn) ["_"; "e"; "pi"] -> find (globals st) (f_name fn) = None ->
  define_op fn0 fn true st = (install fn (install fn0 st), Ok tt).
Proof. intros fn0 fn st E N G. unfold define_op. rewrite define_free by (rewrite E; assumption). rewrite define_free by assumption. reflexivity. Qed.
Lemma same_def_spec : forall x y, same_def x y = true <-> x = y.
Proof.
  intros [a b] [a' b']. unfold same_def. cbn [fst snd]. split.
  - intros H. apply andb_prop in H. destruct H as [H1 H2]. apply String.eqb_eq in H1. apply Bool.eqb_prop in H2. congruence.
  - intros H. injection H as -> ->. rewrite String.eqb_refl, Bool.eqb_reflx. reflexivity.
Qed.
Lemma same_def_no : forall x y, x <> y -> same_def x y = false.
Proof. intros x y N. destruct (same_def x y) eqn:E; [|reflexivity]. apply same_def_spec in E. contradiction. Qed.
Lemma in_defs_spec : forall x l, in_defs x l = true <-> In x l.
Proof.
  intros x l. unfold in_defs. rewrite existsb_exists. split; [intros (y & I & E); apply same_def_spec in E; subst; exact I|intros I; exists x; split; [exact I|apply same_def_spec; reflexivity]].
Qed.
Lemma in_defs_no : forall x l, ~ In x l -> in_defs x l = false.
Proof. intros x l N. destruct (in_defs x l) eqn:E; [|reflexivity]. apply in_defs_spec in E. contradiction. Qed.
Lemma filter_all : forall {X} (f : X -> bool) l, (forall x, In x l -> f x = true) -> filter f l = l.
Proof. induction l as [|x l IH]; intros H; [reflexivity|]. cbn. rewrite (H x (or_introl eq_refl)). f_equal. apply IH. intros y Y. apply H. right. exact Y. Qed.
Lemma drop_filter : forall l d, NoDup l -> drop_def l d = filter (fun x => negb (same_def x d)) l.
Proof.
  induction l as [|x l IH]; intros d N; [reflexivity|]. inversion N; subst. cbn [drop_def filter]. destruct (same_def x d) eqn:E; cbn [negb]; [|f_equal; auto].
  apply same_def_spec in E. subst. symmetry. apply filter_all. intros y Y. rewrite same_def_no; [reflexivity|]. intros ->. contradiction.
Qed.
Lemma drop_last : forall l d, NoDup (l ++ [d]) -> drop_def (l ++ [d]) d = l.
Proof.
  intros l d N. apply NoDup_remove in N. rewrite app_nil_r in N. destruct N as [_ N]. induction l as [|x l IH]; cbn [app drop_def].
  - rewrite (proj2 (same_def_spec d d) eq_refl). reflexivity.
  - rewrite same_def_no by (intros ->; apply N; left; reflexivity). f_equal. apply IH. intros I. apply N. right. exact I.
Qed.
Lemma defs_install : forall fn st, NoDup (defs st) -> defs (install fn st) = drop_def (defs st) (op_of fn) ++ [op_of fn].
Proof.
  intros fn st N. unfold install. cbn [defs set_ops]. destruct (rev (defs st)) as [|x l] eqn:R.
  - apply (f_equal (@rev _)) in R. rewrite rev_involutive in R. cbn in R. rewrite R. reflexivity.
  - destruct (same_def x (op_of fn)) eqn:E; [|reflexivity]. apply same_def_spec in E. subst x. apply (f_equal (@rev _)) in R. rewrite rev_involutive in R. cbn [rev] in R. rewrite R in *.
    rewrite drop_last by exact N. reflexivity.
Qed.
Lemma find_install : forall fn st x, find (tab x (install fn st)) (fst x) = if same_def (op_of fn) x then Some fn else find (tab x st) (fst x).
Proof.
  intros fn st [s b]. unfold tab, install, same_def, op_of. cbn [fst snd unary binary set_ops]. destruct b, (f_binary fn); cbn [Bool.eqb]; rewrite ?find_store, ?Bool.andb_true_r, ?Bool.andb_false_r; reflexivity.
Qed.
Section Inv.
Variables A st0 : ctx.
Record inv (before printed : list (string * bool)) (st : ctx) : Prop := {
  i_names : forall x, ParseModel.names (tab x st) (fst x) = in_defs x printed;
  i_same : forall x, In x before -> find (tab x st) (fst x) = find (tab x A) (fst x);
  i_once : NoDup (defs st);
  i_order : filter (fun x => in_defs x before) (defs st) = before;
  i_there : forall x, In x (defs st) -> In x printed;
  i_rest : st = set_ops st0 (unary st) (binary st) (defs st) }.
Lemma inv_install : forall before printed st fn, inv before printed st -> ~ In (op_of fn) before -> inv before (printed ++ [op_of fn]) (install fn st).
Proof.
  intros before printed st fn [N S O F T R] NB. constructor.
  - intros x. unfold ParseModel.names in *. rewrite find_install. unfold in_defs in *. rewrite existsb_app. cbn [existsb]. rewrite Bool.orb_false_r, <-N.
    destruct (same_def (op_of fn) x) eqn:E.
    + apply same_def_spec in E. subst. rewrite (proj2 (same_def_spec _ _) eq_refl), Bool.orb_true_r. reflexivity.
    + rewrite (same_def_no x); [rewrite Bool.orb_false_r; reflexivity|]. intros ->. rewrite (proj2 (same_def_spec _ _) eq_refl) in E. discriminate.
  - intros x I. rewrite find_install. rewrite same_def_no by (intros <-; contradiction). apply S, I.
  - rewrite defs_install by exact O. rewrite drop_filter by exact O. apply NoDup_Add with (a := op_of fn) (l := filter (fun x => negb (same_def x (op_of fn))) (defs st)).
    { rewrite <-(app_nil_r (filter _ _)) at 1. apply Add_app. }
    split; [apply NoDup_filter, O|]. intros I. apply filter_In in I. destruct I as [_ I]. rewrite (proj2 (same_def_spec _ _) eq_refl) in I. discriminate.
  - rewrite defs_install, drop_filter, filter_app by exact O. cbn [filter]. rewrite (in_defs_no _ _ NB), app_nil_r. transitivity (filter (fun x => in_defs x before) (defs st)); [|exact F].
    clear -NB. induction (defs st) as [|x l IH]; [reflexivity|]. cbn [filter]. destruct (same_def x (op_of fn)) eqn:E; cbn [negb].
    + apply same_def_spec in E. subst. rewrite (in_defs_no _ _ NB). exact IH.
    + cbn [filter]. rewrite IH. reflexivity.
  - intros x I. rewrite defs_install, drop_filter in I by exact O. apply in_app_or in I. apply in_or_app. destruct I as [I|I]; [left|right; exact I]. apply filter_In in I. apply T, I.
  - rewrite R. reflexivity.
Qed.
Lemma inv_complete : forall before printed st fn, inv before printed st -> find (tab (op_of fn) A) (f_name fn) = Some fn -> ~ In (op_of fn) before ->
  inv (before ++ [op_of fn]) (printed ++ [op_of fn]) (install fn st).
Proof.
  intros before printed st fn I FA NB. pose proof (inv_install before printed st fn I NB) as [N S O F T R]. constructor; auto.
  - intros x X. apply in_app_or in X. destruct X as [X|[<-|[]]]; [apply S, X|]. rewrite find_install, (proj2 (same_def_spec _ _) eq_refl). symmetry. exact FA.
  - rewrite defs_install, filter_app in * by apply I. cbn [filter] in *. rewrite (in_defs_no _ _ NB), app_nil_r in F.
    rewrite (proj2 (in_defs_spec _ (before ++ [op_of fn]))) by (apply in_or_app; right; left; reflexivity). f_equal. refine (eq_trans _ F). apply filter_ext_in. intros x X.
    unfold in_defs. rewrite existsb_app. cbn [existsb]. rewrite Bool.orb_false_r. rewrite (same_def_no x); [apply Bool.orb_false_r|]. intros ->.
    rewrite drop_filter in X by apply I. apply filter_In in X. destruct X as [_ X]. rewrite (proj2 (same_def_spec _ _) eq_refl) in X. discriminate.
Qed.
Lemma inv_same : forall before p p' st, (forall x, In x p <-> In x p') -> inv before p st -> inv before p' st.
Proof.
  intros before p p' st E [N S O F T R]. constructor; auto.
  - intros x. rewrite N. destruct (in_defs x p') eqn:D; [apply in_defs_spec, E, in_defs_spec, D|]. apply in_defs_no. intros I. apply E, in_defs_spec in I. congruence.
  - intros x I. apply E, T, I.
Qed.
Lemma inv_alike : forall before p st, inv before p st -> (forall x, In x p -> user_op A x = true) -> alike (only p A) st.
Proof.
  intros before p st I U. assert (X : forall x, ParseModel.names (tab x (only p A)) (fst x) = ParseModel.names (tab x st) (fst x)).
  { intros x. rewrite (i_names _ _ _ I). transitivity (in_defs x p && user_op A x).
    - unfold user_op, tab, only. destruct x as [s b]. cbn [fst snd unary binary set_ops].
      assert (FF : forall (f : string -> bool) (t : table func), ParseModel.names (filter (fun q => f (fst q)) t) s = f s && ParseModel.names t s).
      { intros f t. unfold ParseModel.names. induction t as [|[k v] t IH]; [cbn; symmetry; apply Bool.andb_false_r|]. cbn [filter fst find].
        destruct (f k) eqn:Q; cbn [find]; destruct (String.eqb_spec s k) as [->|]; rewrite ?Q in *; try exact IH; try reflexivity. }
      destruct b; [apply (FF (fun s => in_defs (s, true) p))|apply (FF (fun s => in_defs (s, false) p))].
    - destruct (in_defs x p) eqn:D; [|reflexivity]. apply U, in_defs_spec, D. }
  split; intros s; [exact (X (s, false))|exact (X (s, true))].
Qed.
End Inv.

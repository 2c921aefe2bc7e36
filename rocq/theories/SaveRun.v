(* Executing the lines )save writes for variables. *)
From Coq Require Import String Ascii ZifyBool.
From Verif Require Import Value NumModel NumSpec ArrModel ArrSpec ArrBase ArrRot ArrTake ArrCat ArrSel Syntax ExecModel ScanModel ScanSpec ScanProofs ScanLex ScanNext
  TextModel TextSpec TextScan StrModel StrSpec StrProofs ReadModel ReadScan SaveModel SaveSpec SaveProofs.
From Verif Require ParseModel ParseSpec ParseProofs P_Parse.
Import ParseSpec.
Open Scope string_scope.
Open Scope list_scope.
Open Scope Z_scope.

(* ---- the value of the tree ---- *)
Lemma op_rho_data : forall s w, (2 <= length s)%nat -> fits s -> length (data_of w) = vol s -> is_mat w = false ->
  op_rho (VVec (map (fun n => VInt (Z.of_nat n)) s)) w = Ok (VMat s (data_of w)).
Proof.
  intros s w L F V M. unfold op_rho, at_least_vector. rewrite M. cbn [is_mat orb to_vec]. rewrite (to_vec_data w M). cbn [bind].
  change (map (fun n => VInt (Z.of_nat n)) s) with (zs_of s).
  destruct F as [F1 F2]. destruct (shape_of_vec_ok s 1 ltac:(lia)) as [(_ & _ & E)|(N & _)].
  2: { exfalso. apply N. split; [exact F1|]. intros k K. rewrite Z.mul_1_l. apply F2, K. }
  assert (NM : forall t, length t = vol s -> new_matrix s t = Ok (VMat s t)).
  { intros t T. destruct (new_matrix_ok s t) as [[_ X]|[X _]]; auto; [intros ->; cbn in L; lia|]. exfalso. apply X, fits_legal. split; assumption. }
  unfold reshape. rewrite E. destruct s as [|n1 [|n2 s]]; [cbn in L; lia|cbn in L; lia|]. set (sh := n1 :: n2 :: s) in *.
  change (zs_of sh) with (VInt (Z.of_nat n1) :: VInt (Z.of_nat n2) :: zs_of s). cbn [bind]. rewrite size_vol.
  assert (R : forall i b n t, (n <= i)%nat -> replicate_from n i b n t = Ok t).
  { intros i b n t H. destruct n; [reflexivity|]. cbn [replicate_from]. destruct (Nat.ltb_spec i (Datatypes.S n)); [lia|reflexivity]. }
  destruct (data_of w) as [|x l] eqn:D.
  - rewrite R by (rewrite <-V; cbn; lia). cbn [bind]. rewrite <-V. cbn [length firstn]. apply NM. rewrite <-V. reflexivity.
  - rewrite <-V. rewrite R by lia. cbn [bind]. rewrite firstn_all. apply NM. exact V.
Qed.
Section Eval.
Variable E : env.
Variable bb : string -> bool.
Variable st : ctx.
Hypothesis rho : rho_built_in bb E st.
Definition evaluates (e : expr) (v : value) : Prop := forall n, (esize e < n)%nat -> exec E n (TExpr e) st = (st, Ok (loud v)).
Lemma eval_val : forall v, evaluates (EVal v) v.
Proof. intros v n H. destruct n; [lia|]. reflexivity. Qed.
Lemma eval_vector : forall l vs, Forall2 evaluates l vs -> evaluates (EVector l) (VVec vs).
Proof.
  intros l vs F n H. destruct n; [lia|]. cbn [esize] in H. change (exec E (S n) (TExpr (EVector l)) st) with ((do vs <- eval_right (exec E n) l; ret (loud (VVec vs))) st).
  assert (R : eval_right (exec E n) l st = (st, Ok vs)).
  { assert (H' : (list_sum (map esize l) < n)%nat) by lia. clear H. revert H'. induction F as [|e v l vs Ev F IH]; intros H; [reflexivity|].
    cbn [map list_sum fold_right] in H. change (list_sum (map esize l)) with (fold_right Init.Nat.add 0%nat (map esize l)) in IH.
    cbn [eval_right]. unfold mbind. rewrite IH by lia. rewrite Ev by lia. reflexivity. }
  unfold mbind. rewrite R. reflexivity.
Qed.
Lemma eval_string_value : forall cs, evaluates (ParseModel.eval_string cs) (string_value cs).
Proof.
  assert (V : forall cs, evaluates (EVector (map (fun c => EVal (VChar c)) cs)) (VVec (map VChar cs))).
  { intros cs. apply eval_vector. induction cs; constructor; [apply eval_val|assumption]. }
  intros [|a [|b cs]]; [apply (V [])|apply eval_val|apply (V (a :: b :: cs))].
Qed.
Lemma eval_rho : forall l r a b v, evaluates l a -> evaluates r b -> op_rho a b = Ok v -> evaluates (EBinary "rho" l r) v.
Proof.
  intros l r a b v L R V n H. destruct n; [lia|]. cbn [esize] in H. destruct n; [lia|].
  change (exec E (S (S n)) (TExpr (EBinary "rho" l r)) st) with ((do rhs <- exec E (S n) (TExpr r); do lhs <- exec E (S n) (TExpr l); exec E (S n) (TBinary lhs "rho" (loud (val rhs)))) st).
  unfold mbind. rewrite R by lia. rewrite L by lia. destruct rho as (_ & U & f & B & F).
  change (exec E (S n) (TBinary (loud a) "rho" (loud (val (loud b)))) st) with
    (match find (binary st) "rho" with Some fn => call pad E (exec E n) fn (Some (loud a)) (loud b) st
     | None => match find (b_binary (ops E)) "rho" with Some f => interp E (exec E n) (f (loud a) (loud b)) st | None => (st, Err) end end).
  rewrite U, B, F. cbn [val loud]. rewrite V. reflexivity.
Qed.
Lemma data_value : forall l, Forall (fun x => evaluates (tree x) x) l -> (length l = 1%nat -> Forall scalar l) ->
  exists w, evaluates (data_tree l) w /\ data_of w = l /\ is_mat w = false /\ (length l <> 1%nat -> w = VVec l).
Proof.
  intros l F O. unfold data_tree. destruct (chars_of l) as [cs|] eqn:C.
  - apply chars_of_map in C. subst l. exists (string_value cs). split; [apply eval_string_value|].
    destruct cs as [|a [|b cs]]; cbn [string_value map data_of is_mat length]; repeat split; auto. intros X; contradiction.
  - destruct l as [|x [|y l]]; [discriminate C| |].
    + specialize (O eq_refl). apply Forall_inv in O. exists x. split; [apply eval_val|]. destruct x; try destruct O; cbn [data_of is_mat length]; repeat split; auto; intros X; exfalso; apply X; reflexivity.
    + exists (VVec (x :: y :: l)). split; [|auto]. apply eval_vector. clear O C. induction F; constructor; auto.
Qed.
Theorem tree_value : forall v, saveable v -> evaluates (tree v) v.
Proof.
  induction v using value_ind'; intros S; try (cbn [tree]; apply eval_val).
  - cbn [saveable] in S. destruct S as [L S]. apply all_saveable in S.
    destruct (data_value l) as (w & W & _ & _ & WV); [rewrite Forall_forall in *; intros x I; apply H; [exact I|apply S, I]|intros; contradiction|].
    rewrite (WV L) in W. unfold data_tree in W. cbn [tree]. destruct (chars_of l); [exact W|]. destruct l as [|x [|y l]]; [exact W|cbn in L; lia|exact W].
  - cbn [saveable] in S. destruct S as (L & FT & LD & O & S). apply all_saveable in S.
    destruct (data_value d) as (w & W & WD & WM & _); [rewrite Forall_forall in *; intros x I; apply H; [exact I|apply S, I]|exact O|].
    cbn [tree]. fold (data_tree d). eapply eval_rho; [|exact W|].
    + apply eval_vector with (vs := map (fun n => VInt (Z.of_nat n)) s). clear. induction s; constructor; [apply eval_val|assumption].
    + rewrite <-WD. apply op_rho_data; auto. rewrite WD. exact LD.
Qed.
End Eval.

(* ---- names ---- *)
Lemma bytes_no_at : forall l, Forall (fun b => 0 <= b < 256 /\ b <> 64) l -> ParseModel.trim_left (bytes l) = bytes l /\
  forall acc, ParseModel.trim_left acc = acc -> ParseModel.trim_left (ParseModel.reverse (bytes l) acc) = ParseModel.reverse (bytes l) acc.
Proof.
  assert (A : forall b s, 0 <= b < 256 /\ b <> 64 -> ParseModel.trim_left (String (ascii_of_nat (Z.to_nat b)) s) = String (ascii_of_nat (Z.to_nat b)) s).
  { intros b s [R N]. cbn [ParseModel.trim_left]. destruct (ascii_of_nat (Z.to_nat b)) as [b0 b1 b2 b3 b4 b5 b6 b7] eqn:X.
    destruct b0, b1, b2, b3, b4, b5, b6, b7; try reflexivity. exfalso. apply N. apply (f_equal nat_of_ascii) in X. rewrite nat_ascii_embedding in X by lia. change (Z.to_nat b = 64%nat) in X. lia. }
  intros l F. split; [destruct F; [reflexivity|apply A; assumption]|].
  induction F as [|b l H F IH]; intros acc K; [exact K|]. cbn [bytes ParseModel.reverse]. apply IH. apply A, H.
Qed.
Lemma reverse_reverse : forall s acc acc', ParseModel.reverse (ParseModel.reverse s acc) acc' = ParseModel.reverse acc (s ++ acc')%string.
Proof. induction s as [|a s IH]; intros acc acc'; [reflexivity|]. cbn [ParseModel.reverse append]. rewrite IH. reflexivity. Qed.
Lemma append_empty : forall s, (s ++ "")%string = s. Proof. induction s; cbn; congruence. Qed.
Lemma trim_bytes : forall l, Forall (fun b => 0 <= b < 256 /\ b <> 64) l -> ParseModel.trim (bytes l) = bytes l.
Proof.
  intros l F. destruct (bytes_no_at l F) as [A B]. unfold ParseModel.trim. rewrite A, B by reflexivity. rewrite reverse_reverse. cbn [ParseModel.reverse]. apply append_empty.
Qed.
Lemma name_bytes : forall c w, Forall (fun r => is_alnum c r = true) w -> Forall code_point w -> Forall (fun b => 0 <= b < 256 /\ b <> 64) (flat_map utf8 w).
Proof.
  intros c w F P. induction F as [|r w A F IH]; [constructor|]. inversion P as [|? ? P1 P2]; subst. cbn [flat_map]. apply Forall_app. split; [|apply IH, P2].
  apply alnum_spec in A. destruct P1 as [P1 _]. unfold utf8.
  destruct (r <? 0x80) eqn:E1; [repeat (apply Forall_cons; [lia|]); apply Forall_nil|].
  destruct (r <? 0x800) eqn:E2; [repeat (apply Forall_cons; [lia|]); apply Forall_nil|].
  destruct (r <? 0x10000) eqn:E3; repeat (apply Forall_cons; [lia|]); apply Forall_nil.
Qed.

(* ---- lines ---- *)
Lemma read_tokens_reads : forall c ks fuel acc s s1 tx s2, reads c s ks s1 -> Forall SaveProofs.plain ks -> Next c s1 = Some (mkTok TNewline tx, s2) -> (length ks < fuel)%nat ->
  read_tokens c fuel acc s = Some (Some (rev acc ++ ks), true, s2).
Proof.
  induction ks as [|k ks IH]; intros fuel acc s s1 tx s2 R P N L; (destruct fuel; [cbn in L; lia|]); cbn [reads read_tokens] in *.
  - subst s1. rewrite N. cbn [t_type]. rewrite app_nil_r. reflexivity.
  - destruct R as (q & Q & R). rewrite Q. inversion P as [|? ? P1 P2]; subst. specialize (IH fuel (k :: acc) q s1 tx s2 R P2 N ltac:(cbn in L; lia)).
    cbn [rev] in IH. rewrite <-app_assoc in IH. unfold SaveProofs.plain in P1. destruct (t_type k); try contradiction; exact IH.
Qed.

Section Line.
Variable u_print : Z -> bool.
Variable base : Z.
Variables letters digits puncts symbols : Z -> bool.
Variables bu bb : string -> bool.
Variable E : env.
Hypothesis ten : base = 0 \/ base = 10.
Notation context := (scan_ctx base letters digits puncts symbols bu bb).
Theorem line_parses : forall st x v s more, no_digit_operators (context st) -> variable_name (context st) x -> saveable v -> rho_built_in bb E st ->
  between_tokens s -> to_come s = put_line u_print x v ++ more ->
  exists s' ks, to_come s' = more /\ between_tokens s' /\
    read_tokens (context st) (Datatypes.S (length (input s) + length (pending s))) [] s = Some (Some (mkTok TIdent x :: ks), true, s') /\
    ParseModel.parse_tokens bu bb (unary st) (binary st) (map (parser_token base) (mkTok TIdent x :: ks)) [] = LExprs [EBinary "=" (EVar (name_of x) 0) (tree v)] /\
    forall n, (Datatypes.S (esize (tree v)) < n)%nat ->
      exec E n (TExpr (EBinary "=" (EVar (name_of x) 0) (tree v))) st = (set_globals st (store (globals st) (name_of x) (loud v)), Ok (mkR true v)).
Proof.
  intros st x v s more ND (N1 & N2 & N3 & N4 & N5 & N6 & N7 & N8 & N9) S RB B TC. set (c := context st) in *.
  set (d := ParseModel.mkScope bu bb (ParseModel.names (unary st)) (ParseModel.names (binary st)) []).
  assert (RW : operator_word c (zs "rho")).
  { split; [split; [discriminate|split; [repeat constructor|reflexivity]]|]. split; [discriminate|]. split; [discriminate|]. split; [|reflexivity].
    unfold defined, c. cbn [scan_ctx predefined]. change (name_of (zs "rho")) with "rho". rewrite (proj1 RB). reflexivity. }
  assert (DB : ParseModel.defined_binary d "rho" = true). { unfold ParseModel.defined_binary, d. cbn. rewrite (proj1 RB). apply orb_true_r. }
  destruct (put_expr u_print c d ten ND RW DB v S) as (ts & (ks & SC & MK & PK & LK) & X & ST).
  unfold put_line in TC. rewrite <-!app_assoc in TC. change (zs " = ") with ([32] ++ [61] ++ [32]) in TC. rewrite <-!app_assoc in TC.
  destruct (next_emits c TIdent x ([32] ++ [61] ++ [32] ++ put u_print v false ++ [nl] ++ more) false s []) as (s1 & A1 & A2 & A3 & _); auto; try discriminate.
  { apply emits_variable; [|right; left; reflexivity]. split; [split; auto|auto]. }
  { destruct x as [|r x]; [contradiction|]. pose proof (Forall_inv N2) as A. cbv beta in A. apply alnum_spec in A. change (((r =? 32) || (r =? 9)) = false). lia. }
  destruct (next_emits c TAssign [61] ([32] ++ put u_print v false ++ [nl] ++ more) false s1 [32]) as (s2 & C1 & C2 & C3 & _); auto; try discriminate.
  { apply emits_assign. discriminate. } { constructor; [left; reflexivity|constructor]. }
  destruct (SC s2 [32] ([nl] ++ more) C3) as (s3 & D1 & D2 & D3); auto; try discriminate.
  { constructor; [left; reflexivity|constructor]. } { right. right. left. reflexivity. }
  destruct (next_emits c TNewline [nl] more false s3 []) as (s4 & F1 & F2 & F3 & _); auto; try discriminate.
  { apply emits_char. left. split; reflexivity. }
  exists s4, (mkTok TAssign [61] :: ks). split; [exact F2|]. split; [exact F3|].
  set (all := mkTok TIdent x :: mkTok TAssign [61] :: ks).
  assert (RD : reads c s all s3). { exists s1. split; [exact A1|]. exists s2. split; [exact C1|exact D1]. }
  assert (LT : (length all < Datatypes.S (length (input s) + length (pending s)))%nat).
  { assert (T : (length (to_come s) <= length (input s) + length (pending s))%nat).
    { unfold to_come. rewrite app_length, skipn_length. assert ((length (nocr (pending s)) <= length (pending s))%nat); [|lia].
      unfold nocr. generalize (pending s). intros p. induction p as [|y p IH]; cbn; [lia|]. destruct (negb (y =? 13)); cbn; lia. }
    rewrite TC in T. rewrite !app_length in T. cbn [length] in T. destruct x; [contradiction|]. cbn [length] in T. unfold all. cbn [length]. lia. }
  split; [exact (read_tokens_reads c all _ [] s s3 [nl] s4 RD ltac:(constructor; [exact Logic.I|constructor; [exact Logic.I|exact PK]]) F1 LT)|].
  assert (MA : map (parser_token base) all = KId (name_of x) :: ParseModel.KAssign :: ts). { unfold all. cbn [map]. rewrite <-MK. reflexivity. }
  fold all. rewrite MA. split; [|intros n L; destruct n; [lia|]; clear - L S RB;
    change (exec E (Datatypes.S n) (TExpr (EBinary "=" (EVar (name_of x) 0) (tree v))) st) with
      ((do rhs <- exec E n (TExpr (tree v)); do _ <- var_write (name_of x) 0 (loud (val rhs)); ret (mkR true (val rhs))) st);
    unfold mbind; rewrite (tree_value E bb st RB v S n) by lia; reflexivity].
  { apply P_Parse.line_statements; [discriminate|exact Logic.I|]. fold d. apply g_stmt, g_expr.
    change (KId (name_of x) :: ParseModel.KAssign :: ts) with ([KId (name_of x)] ++ ParseModel.KAssign :: ts).
    apply g_assign with (c := false); [apply g_single, g_last, g_var| |apply ta_var|exact X].
    intros w ts' Q. injection Q as <- _. assert (TW : ParseModel.trim (name_of x) = name_of x) by (apply trim_bytes, (name_bytes c); assumption).
    rewrite TW. unfold ParseModel.defined_unary, d. cbn [ParseModel.is_variable ParseModel.declared existsb negb andb ParseModel.user_unary ParseModel.built_unary].
    unfold defined, c in N7. cbn [predefined scan_ctx] in N7. unfold c in N8. cbn [user_unary scan_ctx] in N8. rewrite N8.
    apply orb_false_iff in N7. destruct N7 as [N7 _]. apply orb_false_iff in N7. apply N7. }
Qed.
Theorem line_reads_back : forall st x v s more, no_digit_operators (context st) -> variable_name (context st) x -> saveable v -> rho_built_in bb E st ->
  between_tokens s -> to_come s = put_line u_print x v ++ more ->
  exists s', to_come s' = more /\ between_tokens s' /\ forall n, (S (esize (tree v)) < n)%nat ->
    run_next base letters digits puncts symbols bu bb E n s st = Some (Ok [mkR true v], set_globals st (store (globals st) (name_of x) (loud v)), s').
Proof.
  intros st x v s more ND VN S RB B TC. destruct (line_parses st x v s more ND VN S RB B TC) as (s' & ks & T & B' & R & P & X).
  exists s'. split; [exact T|]. split; [exact B'|]. intros n L. unfold run_next. rewrite R. cbn [map] in P |- *. change (parser_token base (mkTok TIdent x)) with (KId (name_of x)) in *.
  cbn beta iota. rewrite P. cbn [eval_line eval_list]. unfold mbind. rewrite (X n L). reflexivity.
Qed.
(* the context does not change *)
Theorem lines_read_back : forall vars st s more, no_digit_operators (context st) -> rho_built_in bb E st ->
  Forall (fun p => variable_name (context st) (fst p) /\ saveable (snd p)) vars ->
  between_tokens s -> to_come s = put_lines u_print vars ++ more ->
  exists n0 s', to_come s' = more /\ between_tokens s' /\ forall n, (n0 <= n)%nat ->
    run_text base letters digits puncts symbols bu bb E (length vars) n s st =
      (map (fun p => Ok [mkR true (snd p)]) vars,
       set_globals st (fold_left (fun g p => store g (name_of (fst p)) (loud (snd p))) vars (globals st)), s').
Proof.
  induction vars as [|[x v] vars IH]; intros st s more ND RB F B TC.
  - exists O, s. split; [exact TC|]. split; [exact B|]. intros n _. cbn. destruct st; reflexivity.
  - inversion F as [|? ? [F1 F2] F3]; subst. cbn [fst snd] in *. cbn [put_lines flat_map fst snd] in TC. rewrite <-app_assoc in TC.
    destruct (line_reads_back st x v s _ ND F1 F2 RB B TC) as (s1 & T1 & B1 & R1).
    destruct (IH (set_globals st (store (globals st) (name_of x) (loud v))) s1 more ND RB F3 B1 T1) as (n0 & s2 & T2 & B2 & R2).
    exists (Nat.max n0 (Datatypes.S (Datatypes.S (esize (tree v))))), s2. split; [exact T2|]. split; [exact B2|]. intros n H.
    cbn [length run_text]. rewrite R1 by lia. rewrite R2 by lia. cbn [map fold_left fst snd]. reflexivity.
Qed.
End Line.

(* The form of tokens. *)
From Coq Require Import String.
From Verif Require Import Value ScanModel ScanSpec ScanProofs ScanLex ScanNext.
Open Scope string_scope.
Open Scope list_scope.
Open Scope Z_scope.

Lemma teq_eq : forall a b, teq a b = true -> a = b.
Proof.
  induction a; intros [|y b]; cbn; try discriminate; auto. intros H. apply andb_true_iff in H. destruct H as [H1 H2]. apply Z.eqb_eq in H1. subst. f_equal. auto.
Qed.
Lemma next_text : forall v k s r s', Inv v k s -> next s = (r, s') -> r <> eof -> tok_text s' = tok_text s ++ [r] /\ Inv v k s'.
Proof.
  intros v k s r s' I E N. destruct (next_spec _ _ _ _ _ I E) as (_ & H). destruct (rest s); [destruct H; contradiction|].
  destruct H as (-> & _ & I1 & _ & _ & T & _). split; [exact T|]. apply inv_le with (S k); [exact I1|lia].
Qed.
Lemma quoted_form : forall v q n k s, Inv v k s -> q <> 92 ->
  match quoted q n s with Emit t s' => t = TString /\ exists b, tok_text s' = tok_text s ++ b ++ [q] /\ quoted_body q b | _ => True end.
Proof.
  intros v q. induction n; intros k s I Q; [exact Logic.I|]. cbn [quoted]. destruct (next s) as [r s1] eqn:E.
  destruct (r =? 92) eqn:E92.
  - destruct (next s1) as [r2 s2] eqn:E2. destruct (negb (r2 =? eof) && negb (r2 =? nl)) eqn:E3; [|exact Logic.I].
    apply Z.eqb_eq in E92. subst r. destruct (next_text _ _ _ _ _ I E ltac:(discriminate)) as [T1 I1].
    apply andb_true_iff in E3. destruct E3 as [N1 N2]. apply negb_true_iff, Z.eqb_neq in N1, N2. destruct (next_text _ _ _ _ _ I1 E2 N1) as [T2 I2].
    specialize (IHn k s2 I2 Q). destruct (quoted q n s2) as [t s'| | | |]; auto. destruct IHn as (-> & b & T & B). split; [reflexivity|].
    exists (92 :: r2 :: b). split; [rewrite T, T2, T1, <-!app_assoc; reflexivity|]. cbn. auto.
  - destruct ((r =? eof) || (r =? nl)) eqn:E3; [exact Logic.I|]. apply orb_false_iff in E3. destruct E3 as [N1 N2]. apply Z.eqb_neq in N1, N2.
    destruct (next_text _ _ _ _ _ I E N1) as [T1 I1]. destruct (r =? q) eqn:Eq.
    + apply Z.eqb_eq in Eq. split; [reflexivity|]. exists []. rewrite T1, Eq. split; [reflexivity|exact Logic.I].
    + apply Z.eqb_neq in Eq. specialize (IHn k s1 I1 Q). destruct (quoted q n s1) as [t s'| | | |]; auto. destruct IHn as (-> & b & T & B). split; [reflexivity|].
      exists (r :: b). split; [rewrite T, T1, <-!app_assoc; reflexivity|]. cbn. rewrite E92. auto.
Qed.
Lemma raw_form : forall v n k s, Inv v k s ->
  match raw_quoted n s with Emit t s' => t = TString /\ exists b, tok_text s' = tok_text s ++ b ++ [96] /\ ~ In 96 b | _ => True end.
Proof.
  intros v. induction n; intros k s I; [exact Logic.I|]. cbn [raw_quoted]. destruct (next s) as [r s1] eqn:E.
  destruct (r =? eof) eqn:N1; [exact Logic.I|]. apply Z.eqb_neq in N1. destruct (next_text _ _ _ _ _ I E N1) as [T1 I1]. destruct (r =? 96) eqn:Eq.
  - apply Z.eqb_eq in Eq. split; [reflexivity|]. exists []. rewrite T1, Eq. split; [reflexivity|auto].
  - apply Z.eqb_neq in Eq. specialize (IHn k s1 I1). destruct (raw_quoted n s1) as [t s'| | | |]; auto. destruct IHn as (-> & b & T & B). split; [reflexivity|].
    exists (r :: b). split; [rewrite T, T1, <-!app_assoc; reflexivity|]. intros [X|X]; auto.
Qed.

Section Ctx.
Variable c : sctx.
Definition form (o : lexed) : Prop := match o with Emit t s => token_form c (mkTok t (tok_text s)) | _ => True end.

Lemma ident_rest_alnum : forall w, ident_rest c w = true -> Forall (fun r => is_alnum c r = true) w.
Proof.
  induction w; intros H; constructor; cbn in H; apply andb_true_iff in H; [|apply IHw, H]. destruct H as [H _]. unfold is_alnum. destruct (digit c a), (a =? 95), (letter c a); auto.
Qed.
Lemma end_form : forall s, tok_text s <> [] -> form (lex_operator_end c s).
Proof.
  intros s N. unfold lex_operator_end. destruct (is_identifier c (tok_text s)) eqn:E; [|exact Logic.I]. cbn. exists (tok_text s), O. split; [symmetry; apply app_nil_r|]. split; [exact N|].
  split; [|congruence]. revert E. unfold is_identifier. destruct (teq _ _); [discriminate|]. destruct (tok_text s) as [|r w]; [contradiction|].
  intros H. apply andb_true_iff in H. destruct H as [H1 H2]. apply andb_true_iff in H1. destruct H1 as [_ H1]. constructor; [|apply ident_rest_alnum, H2].
  unfold is_alnum. rewrite H1. reflexivity.
Qed.
Lemma tok_ne : forall v k s, Inv v (S k) s -> tok_text s <> [].
Proof. intros v k s I H. pose proof (tok_len s (i_pl _ _ _ I) (i_sp _ _ _ I)) as L. rewrite H in L. pose proof (i_k _ _ _ I). cbn in L. lia. Qed.
Lemma operator_form : forall v s, Inv v 1 s -> form (lex_operator c s).
Proof.
  intros v s0 I0. unfold lex_operator. destruct (skip_while_spec v (Z.eqb at_sign) 1 s0 eq_refl I0) as (s & -> & I & _).
  assert (EF : forall s, Inv v 1 s -> form (lex_operator_end c s)) by (intros x X; apply end_form; eapply tok_ne; exact X).
  destruct (_ || _ || _); [|auto].
  destruct (peek s) as [r s1] eqn:E. destruct (peek_mono _ _ _ _ _ I E) as [I1 _].
  destruct ((r =? 47) || (r =? 92)); [apply EF, opt_next_mono, next_mono; assumption|].
  destruct (r =? dot); [|auto]. pose proof (next_mono _ _ _ I1) as I2. set (s2 := snd (next s1)) in *.
  destruct (peek s2) as [r2 s3] eqn:E3. destruct (peek_mono _ _ _ _ _ I2 E3) as [I3 _]. destruct (is_digit r2); [exact Logic.I|].
  destruct (next s3) as [r3 s4] eqn:E4. assert (I4 : Inv v 1 s4) by (pose proof (next_mono _ _ _ I3) as X; rewrite E4 in X; exact X).
  destruct (is_operator_token r3 s4) as [b s5] eqn:E5. destruct (operator_token_mono _ _ _ _ _ _ I4 E5) as [I5 _]. destruct b; [auto|].
  destruct (is_alnum c r3); [|auto]. destruct (next_while_spec v (is_alnum c) (alnum_eof c) (S (room s5)) 1 s5 I5) as (s6 & -> & I6 & _); [pose proof (left_room s5); lia|].
  destruct (at_terminator c s6) as [t s7] eqn:E7. destruct (at_terminator_spec c _ _ _ _ _ I6 E7) as (I7 & _ & _). destruct (negb t); [exact Logic.I|]. destruct (defined c _); [auto|exact Logic.I].
Qed.
(* lex_complex emits numbers and operators, or goes to lex_operator after a sign *)
Lemma accept_number_form : forall v k s, Inv v k s ->
  match accept_number c true s with NumOk _ => True | NumFn l => form l end.
Proof.
  intros v k s I. assert (U : forall b x, match accept_unsigned c b x with NumOk _ => True | NumFn l => form l end).
  { intros b x. unfold accept_unsigned. destruct (scan_number c _ _ _) as [[[] y]|]; try exact Logic.I. destruct (peek y). destruct (negb _); [exact Logic.I|].
    destruct (peek _). destruct (_ && _ && _); [exact Logic.I|]. destruct (scan_number c _ _ _) as [[[] ?]|]; try exact Logic.I. destruct (peek _). destruct (_ =? _); exact Logic.I. }
  unfold accept_number. destruct (accept (zs "+-") s) as [b s1] eqn:E. destruct (accept_mono v k s (zs "+-") b s1 I ltac:(noteof) E) as (I1 & _ & I1').
  destruct b; cbn [andb]; [|apply U]. specialize (I1' eq_refl). destruct (peek s1) as [r s2] eqn:E2. destruct (peek_mono _ _ _ _ _ I1' E2) as [I2 _].
  destruct ((r =? 47) || (r =? 92)); [exact Logic.I|]. destruct (negb (r =? dot) && negb (is_numeral c r)); [|apply U].
  apply (operator_form v). apply inv_le with (S (off s)); [assumption|lia].
Qed.
Lemma complex_form : forall v k s, Inv v k s -> form (lex_complex c s).
Proof.
  intros v k s I. unfold lex_complex. pose proof (accept_number_form v k s I) as A. destruct (accept_number c true s) as [s1|]; [|exact A].
  destruct (accept (zs "j") s1) as [j s2]. destruct (negb j); [exact Logic.I|]. destruct (accept_number c true s2) as [|[]]; exact Logic.I.
Qed.

Lemma span_firstn : forall P l, Forall (fun r => P r = true) (firstn (span P l) l).
Proof. intros P l. apply (span_split P l). Qed.
Lemma span_ats : forall l, firstn (span (Z.eqb at_sign) l) l = ats (span (Z.eqb at_sign) l).
Proof.
  induction l as [|x l IH]; [reflexivity|]. cbn [span]. destruct (at_sign =? x) eqn:E; [|reflexivity]. apply Z.eqb_eq in E. subst x. cbn [firstn]. rewrite IH. reflexivity.
Qed.
Lemma firstn_add : forall (A : Type) (l : list A) a b, firstn (a + b) l = firstn a l ++ firstn b (skipn a l).
Proof. induction l; intros a0 b; [rewrite skipn_nil, !firstn_nil; reflexivity|]. destruct a0; [reflexivity|]. cbn. f_equal. apply IHl. Qed.
Lemma slice_off : forall v k s a b, Inv v k s -> (a <= b)%nat -> (b <= off s)%nat -> slice s (start s + a) (start s + b) = firstn (b - a) (skipn a v).
Proof.
  intros v k s a b I L1 L2. pose proof (i_sp _ _ _ I). pose proof (i_pl _ _ _ I). unfold off in L2. unfold slice. rewrite <-(i_v _ _ _ I). unfold unread.
  rewrite skipn_app, firstn_app, !skipn_length. rewrite skipn_skipn.
  replace (b - a - (length (input s) - start s - a))%nat with 0%nat by lia.
  replace (start s + b - (start s + a))%nat with (b - a)%nat by lia.
  cbn [firstn]. rewrite app_nil_r. reflexivity.
Qed.
Lemma identifier_form : forall v s0 r l, Inv v 0 s0 -> off s0 = 0%nat -> rest s0 = r :: l -> is_alnum c r || (r =? at_sign) = true ->
  form (lex_identifier c s0).
Proof.
  intros v s0 r l I0 O0 R0 A. unfold lex_identifier.
  destruct (skip_while_spec v (Z.eqb at_sign) 0 s0 eq_refl I0) as (s1 & -> & I1 & O1).
  destruct (skip_while_spec v (is_alnum c) 0 s1 (alnum_eof c) I1) as (s2 & -> & I2 & O2).
  destruct (at_terminator c s2) as [t s3] eqn:E3. destruct (at_terminator_spec c _ _ _ _ _ I2 E3) as (I3 & O3 & _).
  assert (L2 : (1 <= off s2)%nat).
  { rewrite O2, O1. destruct (r =? at_sign) eqn:Er.
    - rewrite R0. cbn [span]. rewrite Z.eqb_sym, Er. lia.
    - rewrite orb_false_r in A. assert (S1 : span (Z.eqb at_sign) (rest s0) = 0%nat).
      { rewrite R0. cbn [span]. rewrite Z.eqb_sym, Er. reflexivity. }
      rewrite S1 in O1. assert (R1 : rest s1 = r :: l) by (rewrite <-R0; eapply rest_eq; eauto; lia).
      rewrite R1. cbn [span]. rewrite A. lia. }
  destruct t; cbn [negb]; [|exact Logic.I].
  destruct (skip_while_spec v (Z.eqb at_sign) 0 s3 eq_refl I3) as (s4 & -> & I4 & O4).
  destruct (peek s4) as [r5 s5] eqn:E5. destruct (peek_spec _ _ _ _ _ I4 E5) as (I5 & _ & O5 & T5 & _).
  assert (J5 : Inv v 1 s5) by (apply inv_le with (off s5); [exact (inv_off _ _ _ I5)|lia]).
  set (left := (off s1 - off s0)%nat). set (right := (off s4 - off s3)%nat).
  set (word := slice s4 (start s4 + left) (pos s4 - right)).
  set (L := span (Z.eqb at_sign) (rest s0)) in *. set (M := span (is_alnum c) (rest s1)) in *. set (R := span (Z.eqb at_sign) (rest s3)) in *.
  assert (HW : word = firstn M (skipn L v)).
  { unfold word. pose proof (i_sp _ _ _ I4). replace (pos s4 - right)%nat with (start s4 + (L + M))%nat by (unfold right, off in *; lia).
    replace left with L by (unfold left; lia). rewrite (slice_off _ _ _ _ _ I4) by lia. f_equal. lia. }
  assert (WA : Forall (fun x => is_alnum c x = true) word).
  { rewrite HW. replace (skipn L v) with (rest s1). apply span_firstn. rewrite (rest_off _ _ _ I1). f_equal. lia. }
  assert (TT : tok_text s5 = ats L ++ word ++ ats R).
  { rewrite T5, (tok_off _ _ _ I4). replace (off s4) with (L + (M + R))%nat by lia. rewrite firstn_add, firstn_add, HW. f_equal; [|f_equal].
    - replace v with (rest s0) by (rewrite (rest_off _ _ _ I0), O0; reflexivity). apply span_ats.
    - rewrite skipn_skipn. replace (skipn (L + M) v) with (rest s3). apply span_ats. rewrite (rest_off _ _ _ I3). f_equal. lia. }
  destruct (teq word (zs "op")) eqn:W1; [apply teq_eq in W1; cbn; exists L, R; rewrite TT, W1; reflexivity|].
  destruct (teq word (zs "opdelete")) eqn:W2; [apply teq_eq in W2; cbn; exists L, R; rewrite TT, W2; reflexivity|].
  destruct (teq word (zs "o") && (r5 =? dot)); [eapply operator_form; eassumption|].
  destruct (defined c word); [eapply operator_form; eassumption|].
  destruct (teq word [] || negb (Nat.eqb left 0)) eqn:EW; [exact Logic.I|].
  apply orb_false_iff in EW. destruct EW as [W3 W4]. apply negb_false_iff, Nat.eqb_eq in W4.
  assert (NW : word <> []) by (intros X; rewrite X in W3; discriminate W3). assert (HL : L = 0%nat) by (unfold left in W4; lia). rewrite HL in *. cbn [ats repeat app] in TT.
  destruct (all_digits word (ibase c) false).
  - eapply (complex_form v 0). destruct I5 as [H1 H2 H3 H4 H5 H6 H7]. constructor; unfold set_pos, off, unread in *; cbn [pos start input pending fin width]; auto; lia.
  - destruct (user_unary c word) eqn:U.
    + cbn. exists word, R. auto.
    + unfold form, token_form. cbn [t_type t_text]. exists word, O. split; [|split; [exact NW|split; [exact WA|congruence]]]. cbn [ats repeat]. rewrite app_nil_r.
      pose proof (back_inv v (off s5) s5 right (inv_off _ _ _ I5)) as B. assert (RR : right = R) by (unfold right; lia).
      rewrite (tok_off v (off s5 - right) (set_pos s5 (pos s5 - right))); [|apply B; lia].
      assert (OO : off (set_pos s5 (pos s5 - right)) = M). { unfold off, set_pos. cbn [pos start]. pose proof (i_sp _ _ _ I5). unfold off in *. lia. }
      rewrite OO, HW. reflexivity.
Qed.
Lemma any_form : forall v s, Inv v 0 s -> off s = 0%nat -> form (lex_any c s).
Proof.
  intros v s I O. pose proof (rest_off _ _ _ I) as R. rewrite O in R. cbn [skipn] in R.
  assert (T0 : tok_text s = []) by (rewrite (tok_off _ _ _ I), O; reflexivity).
  unfold lex_any. destruct (next s) as [r s1] eqn:E. destruct (next_spec _ _ _ _ _ I E) as (La & H).
  destruct (next_backup _ _ _ _ _ I E) as (B1 & B2 & B3 & B4). rewrite R in H, B2.
  destruct v as [|x v']; [destruct H as (-> & _); exact Logic.I|].
  destruct H as (-> & Nx & I1 & R1 & O1 & T1 & W1). rewrite T0 in T1. cbn [app] in T1.
  destruct (x =? eof); [exact Logic.I|]. destruct (x =? nl); [exact Logic.I|].
  destruct (x =? 59) eqn:X2. { apply Z.eqb_eq in X2. cbn. rewrite T1, X2. reflexivity. }
  destruct (x =? 35). { destruct (next_while _ _ _); exact Logic.I. }
  destruct (is_space x). { destruct (skip_while _ _); exact Logic.I. }
  destruct ((x =? 39) || (x =? 34)) eqn:X5.
  { destruct (next (backup s1)) as [q s2] eqn:E2. destruct (next_spec _ _ _ _ _ B1 E2) as (_ & H2). rewrite B2 in H2. destruct H2 as (-> & _ & I2 & _ & _ & T2 & _).
    rewrite B4, T0 in T2. cbn [app] in T2. assert (Q : x = 39 \/ x = 34) by lia.
    pose proof (quoted_form _ x (S (room s2)) _ _ I2 ltac:(lia)) as F. destruct (quoted x (S (room s2)) s2) as [t s'| | | |]; try exact Logic.I.
    destruct F as (-> & b & F1 & F2). cbn. exists x, b. rewrite F1, T2. split; [reflexivity|]. right. auto. }
  destruct (x =? 96) eqn:X6.
  { apply Z.eqb_eq in X6. pose proof (raw_form _ (S (room s1)) _ _ I1) as F. destruct (raw_quoted (S (room s1)) s1) as [t s'| | | |]; try exact Logic.I.
    destruct F as (-> & b & F1 & F2). cbn. exists 96, b. rewrite F1, T1, X6. split; [reflexivity|]. left. auto. }
  destruct ((x =? 45) || (x =? 43)) eqn:X7.
  { destruct (start s1) eqn:Es; [eapply complex_form; exact B1|].
    cbv zeta. destruct (_ || _ || _); [eapply operator_form; exact I1|].
    destruct (peek2 s1) as [[r1 r2] s2] eqn:E2. assert (OP : (0 < off s1)%nat) by lia.
    destruct (peek2_spec _ _ _ _ _ _ I1 (or_introl OP) E2) as (I2 & O2 & W2 & L2).
    destruct (_ && _); [eapply operator_form; exact I2|]. eapply (complex_form _ 0). apply backup_inv. exact I2. }
  destruct ((x =? dot) || is_digit x) eqn:X8; [eapply complex_form; exact B1|].
  destruct (x =? 61) eqn:X9.
  { apply Z.eqb_eq in X9. destruct (peek s1) as [r1 s2] eqn:E2. destruct (peek_spec _ _ _ _ _ I1 E2) as (I2 & _ & _ & T2 & _). destruct (negb _).
    - cbn. rewrite T2, T1, X9. reflexivity.
    - eapply operator_form. apply opt_next_mono, next_mono. exact I2. }
  destruct (is_operator_spec (x :: v') 0 x s1 I1 La Nx W1) as (b & s2 & -> & Q1 & Q2).
  destruct b; [eapply operator_form; apply Q1; reflexivity|]. specialize (Q2 eq_refl). destruct Q2 as (Q2 & Q3 & Q4 & Q5). clear Q1.
  destruct (is_alnum c x || (x =? at_sign)) eqn:X10.
  { assert (O3 : off (backup s2) = 0%nat) by lia. eapply identifier_form; [apply inv0 with (k := (off s1 - 1)%nat); exact Q3|exact O3| |exact X10].
    rewrite (rest_off _ _ _ Q3), O3. reflexivity. }
  apply orb_false_iff in X10. destruct X10 as [_ X10]. apply Z.eqb_neq in X10. rewrite (Q5 X10).
  destruct (x =? 91) eqn:Y1; [apply Z.eqb_eq in Y1; cbn; rewrite T1, Y1; reflexivity|].
  destruct (x =? 58) eqn:Y2; [apply Z.eqb_eq in Y2; cbn; rewrite T1, Y2; reflexivity|].
  destruct (x =? 93) eqn:Y3; [apply Z.eqb_eq in Y3; cbn; rewrite T1, Y3; reflexivity|].
  destruct (x =? 40) eqn:Y4; [apply Z.eqb_eq in Y4; cbn; rewrite T1, Y4; reflexivity|].
  destruct (x =? 41) eqn:Y5; [apply Z.eqb_eq in Y5; cbn; rewrite T1, Y5; reflexivity|].
  destruct (between 32 x 126) eqn:Y6; [|exact Logic.I]. cbn. exists x. rewrite T1. split; [reflexivity|]. unfold between in Y6. lia.
Qed.
Hypothesis base_ok : 0 <= ibase c <= 36.
Lemma run_form : forall n v s t s', Inv v 0 s -> off s = 0%nat -> run_states c n s = Some (t, s') -> token_form c t.
Proof.
  induction n; intros v s t s' I O; cbn [run_states]; [discriminate|]. pose proof (lex_any_ok c base_ok v s I O) as A. pose proof (any_form v s I O) as F. unfold any_ok in A.
  destruct (lex_any c s) as [t1 s1|s1|s1|s1|] eqn:EL; try discriminate; try (intros [= <- <-]; first [exact F|exact Logic.I]).
  destruct v as [|r v']; [contradiction|]. destruct (is_space r).
  - destruct A as (gap & _ & _ & _ & G4 & G5). apply (IHn _ _ _ _ G4 G5).
  - destruct (r =? 35); [|destruct (r =? nl); contradiction]. destruct A as (cm & C1 & C2 & C3 & C4).
    destruct n; [discriminate|]. cbn [run_states]. unfold lex_any. destruct (next s1) as [x s2] eqn:E2.
    destruct (next_spec _ _ _ _ _ C2 E2) as (_ & H). destruct C4 as [C4|(l & C4)]; rewrite C4 in H.
    + destruct H as (-> & _). change (eof =? eof) with true. cbv iota. intros [= <- <-]. exact Logic.I.
    + destruct H as (-> & _). change (nl =? eof) with false. change (nl =? nl) with true. cbv iota. intros [= <- <-]. exact Logic.I.
Qed.
Theorem next_form : forall s t s', between_tokens s -> Next c s = Some (t, s') -> token_form c t.
Proof.
  intros s t s' (H & B). unfold Next. set (s0 := mkSc (input s) (pending s) (fin s) (pos s) (start s) eof 0).
  assert (I : Inv (unread s0) 0 s0).
  { apply inv_ok. split; [|reflexivity]. destruct H as (K1 & K2 & K3 & K4). repeat split; cbn; auto; lia. }
  destruct B as [B|B].
  - apply run_form with (unread s0); auto. unfold off, s0. cbn. lia.
  - cbn [run_states]. unfold lex_any. destruct (next s0) as [r s1] eqn:E. destruct (next_spec _ _ _ _ _ I E) as (_ & N).
    change (rest s0) with (to_come s) in N. rewrite B in N. destruct N as (-> & _). change (eof =? eof) with true. cbv iota. intros [= <- <-]. exact Logic.I.
Qed.
End Ctx.

(* Next: what a call delivers and what it leaves. *)
From Coq Require Import String Ascii.
From Verif Require Import Value ScanModel ScanSpec ScanProofs ScanLex.
Open Scope list_scope.
Open Scope Z_scope.

Definition zrange (n : nat) : list Z := map Z.of_nat (seq 0 n).
Lemma in_zrange : forall n x, 0 <= x < Z.of_nat n -> In x (zrange n).
Proof. intros n x H. unfold zrange. apply in_map_iff. exists (Z.to_nat x). split; [lia|]. apply in_seq. lia. Qed.
Lemma digit_table :
  forallb (fun b => forallb (fun x => implb (between 48 x 57 || between 97 x (97 + (b - 10) - 1) || between 65 x (65 + (b - 10) - 1))
    (mem x (digits_for b))) (zrange 128)) (zrange 37) = true.
Proof. vm_compute. reflexivity. Qed.
Lemma digit_mem : forall b x, 0 <= b <= 36 -> between 48 x 57 || between 97 x (97 + (b - 10) - 1) || between 65 x (65 + (b - 10) - 1) = true ->
  mem x (digits_for b) = true.
Proof.
  intros b x B H. pose proof digit_table as T. rewrite forallb_forall in T.
  specialize (T b (in_zrange 37 b ltac:(cbn; lia))). rewrite forallb_forall in T.
  assert (X : 0 <= x < 128). { unfold between in H. lia. }
  specialize (T x (in_zrange 128 x ltac:(cbn; lia))). cbv beta in T. rewrite H in T. exact T.
Qed.

Section Ctx.
Variable c : sctx.
Hypothesis base_ok : 0 <= ibase c <= 36.

Lemma all_digits_hd : forall x w, all_digits (x :: w) (ibase c) false = true -> x = 106 \/ mem x (digits_for (ibase c)) = true.
Proof.
  intros x w. cbn [all_digits]. destruct ((x =? 106) && negb false) eqn:E; [intros _; left; lia|].
  destruct (_ || _ || _) eqn:E2; [intros _; right; apply digit_mem; assumption|discriminate].
Qed.
Lemma teq_eq : forall a b, teq a b = true <-> a = b.
Proof.
  induction a; destruct b; cbn; split; intros H; try discriminate; auto.
  - apply andb_true_iff in H. destruct H as [H1 H2]. apply Z.eqb_eq in H1. apply IHa in H2. congruence.
  - injection H as -> ->. rewrite Z.eqb_refl. apply IHa. reflexivity.
Qed.
(* at the start of a word *)
Lemma lex_identifier_ok : forall v s0 r l, Inv v 0 s0 -> off s0 = 0%nat -> rest s0 = r :: l -> is_alnum c r || (r =? at_sign) = true ->
  lexed_ok v 1 (lex_identifier c s0).
Proof.
  intros v s0 r l I0 O0 R0 A. unfold lex_identifier.
  destruct (skip_while_spec v (Z.eqb at_sign) 0 s0 eq_refl I0) as (s1 & -> & I1 & O1).
  destruct (skip_while_spec v (is_alnum c) 0 s1 (alnum_eof c) I1) as (s2 & -> & I2 & O2).
  destruct (at_terminator c s2) as [t s3] eqn:E3. destruct (at_terminator_spec c _ _ _ _ _ I2 E3) as (I3 & O3 & _).
  assert (L2 : (1 <= off s2)%nat).
  { rewrite O2, O1. destruct (r =? at_sign) eqn:Er.
    - rewrite R0. cbn [span]. rewrite Z.eqb_sym, Er. lia.
    - rewrite orb_false_r in A. assert (S1 : span (Z.eqb at_sign) (rest s0) = 0%nat).
      { rewrite R0. cbn [span]. rewrite Z.eqb_sym, Er. reflexivity. }
      rewrite S1 in O1. assert (R1 : rest s1 = r :: l) by (rewrite <-R0; eapply rest_eq; eauto; lia).
      rewrite R1. cbn [span]. rewrite A. lia. }
  destruct t; cbn [negb]; [|cbn; apply inv_le with (off s3); [exact (inv_off _ _ _ I3)|lia]].
  destruct (skip_while_spec v (Z.eqb at_sign) 0 s3 eq_refl I3) as (s4 & -> & I4 & O4).
  destruct (peek s4) as [r5 s5] eqn:E5. destruct (peek_spec _ _ _ _ _ I4 E5) as (I5 & _ & O5 & T5 & _).
  assert (J5 : Inv v 1 s5) by (apply inv_le with (off s5); [exact (inv_off _ _ _ I5)|lia]).
  set (left := (off s1 - off s0)%nat). set (right := (off s4 - off s3)%nat).
  set (word := slice s4 (start s4 + left) (pos s4 - right)).
  destruct (teq word (zs "op")); [exact J5|]. destruct (teq word (zs "opdelete")); [exact J5|].
  destruct (teq word (zs "o") && (r5 =? dot)); [apply lex_operator_ok; assumption|].
  destruct (defined c word); [apply lex_operator_ok; assumption|].
  destruct (teq word [] || negb (Nat.eqb left 0)) eqn:EW; [exact J5|].
  apply orb_false_iff in EW. destruct EW as [W1 W2]. apply negb_false_iff, Nat.eqb_eq in W2.
  destruct (all_digits word (ibase c) false) eqn:AD.
  - assert (HW : exists x w v', word = x :: w /\ v = x :: v').
    { destruct word as [|x w] eqn:Ew; [discriminate W1|]. exists x, w.
      unfold word, slice in Ew. rewrite W2, Nat.add_0_r in Ew. pose proof (i_v _ _ _ I4) as V. unfold unread in V.
      destruct (skipn (start s4) (input s4)) as [|y z]; [rewrite firstn_nil in Ew; discriminate Ew|].
      destruct (pos s4 - right - start s4)%nat; [discriminate Ew|]. cbn in Ew. injection Ew as -> _. rewrite <-V. eexists. split; reflexivity. }
    destruct HW as (x & w & v' & Hw & Hv). rewrite Hw in AD. apply all_digits_hd in AD.
    assert (I6 : Inv v 0 (set_pos s5 (start s5))).
    { destruct I5 as [H1 H2 H3 H4 H5 H6 H7]. constructor; unfold set_pos, off, unread in *; cbn [pos start input pending fin width]; auto; lia. }
    assert (O6 : off (set_pos s5 (start s5)) = 0%nat) by (unfold off, set_pos; cbn; lia).
    apply (lex_complex_ok c v 0 _ I6). rewrite (rest_off _ _ _ I6), O6, Hv. cbn [skipn hd starts_number].
    destruct AD as [-> | AD]; auto.
  - destruct (user_unary c word); [exact J5|]. cbn [lexed_ok].
    pose proof (back_inv v (off s5) s5 right (inv_off _ _ _ I5)) as B. unfold right in *. eapply inv_le; [apply B; lia|lia].
Qed.
Lemma quoted_ok : forall v q n k s, Inv v k s -> (left s < n)%nat -> lexed_ok v k (quoted q n s).
Proof.
  intros v q. induction n; intros k s I L; [lia|]. cbn [quoted]. destruct (next s) as [r s1] eqn:E.
  assert (I1 : Inv v k s1). { pose proof (next_mono _ _ _ I) as X. rewrite E in X. exact X. }
  destruct (next_spec _ _ _ _ _ I E) as (_ & H).
  assert (L1 : (r <> eof -> S (left s1) = left s)%nat).
  { unfold ScanProofs.left. destruct (rest s); [destruct H as (-> & _); congruence|]. destruct H as (_ & _ & _ & -> & _). reflexivity. }
  destruct (r =? 92) eqn:Er.
  - apply Z.eqb_eq in Er. subst r. specialize (L1 ltac:(discriminate)). destruct (next s1) as [r2 s2] eqn:E2.
    assert (I2 : Inv v k s2). { pose proof (next_mono _ _ _ I1) as X. rewrite E2 in X. exact X. }
    destruct (negb (r2 =? eof) && negb (r2 =? nl)) eqn:E3; [|exact I2]. apply IHn; [assumption|].
    destruct (next_spec _ _ _ _ _ I1 E2) as (_ & H2). unfold ScanProofs.left in *. destruct (rest s1); [destruct H2 as (-> & _); discriminate E3|].
    destruct H2 as (_ & _ & _ & -> & _). cbn in L1. lia.
  - destruct ((r =? eof) || (r =? nl)) eqn:E3; [exact I1|]. destruct (r =? q); [exact I1|].
    apply IHn; [assumption|]. assert (r <> eof) by (intros ->; discriminate E3). specialize (L1 H0). lia.
Qed.
Lemma raw_ok : forall v n k s, Inv v k s -> (left s < n)%nat -> lexed_ok v k (raw_quoted n s).
Proof.
  intros v. induction n; intros k s I L; [lia|]. cbn [raw_quoted]. destruct (next s) as [r s1] eqn:E.
  assert (I1 : Inv v k s1). { pose proof (next_mono _ _ _ I) as X. rewrite E in X. exact X. }
  destruct (next_spec _ _ _ _ _ I E) as (_ & H).
  destruct (r =? eof) eqn:E1; [exact I1|]. destruct (r =? 96); [exact I1|]. apply IHn; [assumption|].
  unfold ScanProofs.left in *. destruct (rest s); [destruct H as (-> & _); discriminate E1|]. destruct H as (_ & _ & _ & -> & _). cbn in L. lia.
Qed.
Lemma span_split : forall P l, l = firstn (span P l) l ++ skipn (span P l) l /\ Forall (fun r => P r = true) (firstn (span P l) l) /\
  match skipn (span P l) l with [] => True | x :: _ => P x = false end.
Proof.
  intros P l. split; [symmetry; apply firstn_skipn|]. induction l as [|x l IH]; [repeat split; constructor|]. cbn [span].
  destruct (P x) eqn:E; cbn [firstn skipn]; [|split; [constructor|assumption]]. destruct IH as [I1 I2]. split; [constructor; assumption|assumption].
Qed.

(* lex_any at the start of a token, by the next rune *)
Definition any_ok (v : text) (o : lexed) : Prop :=
  match v with
  | [] => match o with LEof s => Inv v 0 s /\ off s = 0%nat | _ => False end
  | r :: v' =>
    if is_space r then match o with Again s => exists gap, gap <> [] /\ Forall blank gap /\ v = gap ++ unread s /\ Inv (unread s) 0 s /\ off s = 0%nat | _ => False end
    else if r =? 35 then
      match o with
      | Again s => exists cm, Forall (fun x => x <> nl) cm /\ Inv v 1 s /\ tok_text s = 35 :: cm /\ (rest s = [] \/ exists l, rest s = nl :: l)
      | _ => False end
    else if r =? nl then match o with Emit TNewline s => Inv v 1 s /\ off s = 1%nat | _ => False end
    else match o with Emit t s => t <> TNewline /\ t <> TErr /\ t <> TEof /\ Inv v 1 s | LErr s => Inv v 1 s | _ => False end
  end.
(* the state functions other than lexAny emit no Newline, Error or EOF *)
Definition plain (o : lexed) : Prop :=
  match o with Emit t _ => t <> TNewline /\ t <> TErr /\ t <> TEof | LErr _ | OutOfFuel => True | _ => False end.
Lemma plain_end : forall s, plain (lex_operator_end c s).
Proof. intros. unfold lex_operator_end. destruct (is_identifier _ _); cbn; repeat split; discriminate. Qed.
Lemma plain_operator : forall s, plain (lex_operator c s).
Proof.
  intros s. unfold lex_operator. destruct (skip_while _ s); [|exact Logic.I]. destruct (_ || _ || _); [|apply plain_end].
  destruct (peek s0). destruct (_ || _); [apply plain_end|]. destruct (_ =? _); [|apply plain_end]. destruct (peek _).
  destruct (is_digit _); [cbn; repeat split; discriminate|]. destruct (next s2). destruct (is_operator_token _ _). destruct b; [apply plain_end|].
  destruct (is_alnum _ _); [|apply plain_end]. destruct (next_while _ _ _); [|exact Logic.I]. destruct (at_terminator _ _). destruct (negb _); [exact Logic.I|].
  destruct (defined _ _); [apply plain_end|exact Logic.I].
Qed.
Lemma plain_unsigned : forall s l, accept_unsigned c true s = NumFn l -> plain l.
Proof.
  intros s l. unfold accept_unsigned. destruct (scan_number _ _ _ s) as [[[] s2]|]; [|intros [= <-]; exact Logic.I|intros [= <-]; exact Logic.I].
  destruct (peek s2). destruct (negb _); [discriminate|]. cbv zeta. destruct (peek _). destruct (_ && _ && _); [discriminate|].
  destruct (scan_number _ _ _ s1) as [[[] s6]|]; [|intros [= <-]; exact Logic.I|intros [= <-]; exact Logic.I].
  destruct (peek s6). destruct (_ =? _); [intros [= <-]; exact Logic.I|discriminate].
Qed.
Lemma plain_number : forall s l, accept_number c true s = NumFn l -> plain l.
Proof.
  intros s l. unfold accept_number. destruct (accept _ s). rewrite andb_true_r. destruct b; [|apply plain_unsigned].
  destruct (peek s0). destruct (_ || _); [intros [= <-]; cbn; repeat split; discriminate|].
  destruct (_ && _); [intros [= <-]; apply plain_operator|apply plain_unsigned].
Qed.
Lemma plain_complex : forall s, plain (lex_complex c s).
Proof.
  intros s. unfold lex_complex. destruct (accept_number c true s) eqn:E; [|eapply plain_number; eauto].
  destruct (accept _ s0). destruct (negb _); [cbn; repeat split; discriminate|].
  destruct (accept_number c true s1) as [|[]]; cbn; auto; repeat split; discriminate.
Qed.
Lemma plain_identifier : forall s, plain (lex_identifier c s).
Proof.
  intros s. unfold lex_identifier. destruct (skip_while _ s); [|exact Logic.I]. destruct (skip_while _ s0); [|exact Logic.I].
  destruct (at_terminator _ _). destruct (negb _); [exact Logic.I|]. destruct (skip_while _ s2); [|exact Logic.I]. cbv zeta. destruct (peek s3).
  destruct (teq _ _); [cbn; repeat split; discriminate|]. destruct (teq _ _); [cbn; repeat split; discriminate|].
  destruct (_ && _); [apply plain_operator|]. destruct (defined _ _); [apply plain_operator|]. destruct (_ || _); [exact Logic.I|].
  destruct (all_digits _ _ _); [apply plain_complex|]. destruct (user_unary _ _); cbn; repeat split; discriminate.
Qed.
Lemma plain_quoted : forall q n s, plain (quoted q n s).
Proof.
  intros q. induction n; intros s; [exact Logic.I|]. cbn [quoted]. destruct (next s). destruct (_ =? 92).
  - destruct (next s0). destruct (_ && _); [apply IHn|exact Logic.I].
  - destruct (_ || _); [exact Logic.I|]. destruct (_ =? q); [cbn; repeat split; discriminate|apply IHn].
Qed.
Lemma plain_raw : forall n s, plain (raw_quoted n s).
Proof.
  induction n; intros s; [exact Logic.I|]. cbn [raw_quoted]. destruct (next s). destruct (_ =? eof); [exact Logic.I|].
  destruct (_ =? 96); [cbn; repeat split; discriminate|apply IHn].
Qed.
Lemma plain_ok : forall v o, lexed_ok v 1 o -> plain o ->
  match o with Emit t s => t <> TNewline /\ t <> TErr /\ t <> TEof /\ Inv v 1 s | LErr s => Inv v 1 s | _ => False end.
Proof. intros v [] H P; cbn in *; auto. destruct P as (? & ? & ?). auto. Qed.

Lemma lex_any_ok : forall v s, Inv v 0 s -> off s = 0%nat -> any_ok v (lex_any c s).
Proof.
  intros v s I O. pose proof (rest_off _ _ _ I) as R. rewrite O in R. cbn [skipn] in R.
  unfold lex_any. destruct (next s) as [r s1] eqn:E. destruct (next_spec _ _ _ _ _ I E) as (La & H). 
  destruct (next_backup _ _ _ _ _ I E) as (B1 & B2 & B3 & _). rewrite R in H, B2.
  destruct v as [|x v'].
  { destruct H as (-> & I1 & _ & O1 & _). cbn. split; [assumption|lia]. }
  destruct H as (-> & Nx & I1 & R1 & O1 & T1 & W1).
  assert (PB : forall o, lexed_ok (x :: v') 1 o -> plain o -> is_space x = false -> x <> 35 -> x <> nl -> any_ok (x :: v') o).
  { intros o A B C D F. unfold any_ok. rewrite C. destruct (x =? 35) eqn:G1; [apply Z.eqb_eq in G1; contradiction|].
    destruct (x =? nl) eqn:G2; [apply Z.eqb_eq in G2; contradiction|]. apply plain_ok; assumption. }
  destruct (x =? eof) eqn:X0; [apply Z.eqb_eq in X0; unfold eof in X0; lia|].
  destruct (x =? nl) eqn:X1. { apply Z.eqb_eq in X1. clear La; subst x. cbn. split; [assumption|lia]. }
  apply Z.eqb_neq in X1.
  destruct (x =? 59) eqn:X2. { apply Z.eqb_eq in X2. clear La; subst x. apply PB; try discriminate; auto. cbn. repeat split; discriminate. }
  destruct (x =? 35) eqn:X3.
  { apply Z.eqb_eq in X3. clear La; subst x. set (P := fun x => negb ((x =? eof) || (x =? nl))).
    destruct (next_while_spec (35 :: v') P eq_refl (S (room s1)) 1 s1 I1) as (s2 & -> & I2 & O2); [pose proof (left_room s1); lia|].
    cbn. destruct (span_split P v') as (S1 & S2 & S3). rewrite R1 in O2. exists (firstn (span P v') v'). split; [|split; [assumption|]].
    - eapply Forall_impl; [|exact S2]. intros y Hy. unfold P in Hy. intros ->. discriminate Hy.
    - rewrite (tok_off _ _ _ I2), (rest_off _ _ _ I2), O2, O1, O. cbn [Nat.add firstn skipn]. split; [reflexivity|].
      destruct (skipn (span P v') v') as [|y z]; [auto|]. right. exists z. unfold P in S3. apply negb_false_iff, orb_true_iff in S3.
      destruct S3 as [S3|S3]; apply Z.eqb_eq in S3; [|congruence]. exfalso.
      pose proof (i_nn _ _ _ I) as N. apply Forall_inv_tail in N. rewrite Forall_forall in N.
      specialize (N y). rewrite S1 in N. assert (Q : In y (firstn (span P v') v' ++ y :: z)) by (apply in_or_app; right; left; reflexivity). specialize (N Q). unfold eof in S3. lia. }
  apply Z.eqb_neq in X3.
  destruct (is_space x) eqn:X4.
  { destruct (skip_while_spec (x :: v') is_space 1 s1 eq_refl I1) as (s2 & -> & I2 & O2). cbn [any_ok]. rewrite X4.
    destruct (span_split is_space v') as (S1 & S2 & S3). rewrite R1 in O2.
    exists (x :: firstn (span is_space v') v'). assert (BL : forall y, is_space y = true -> blank y).
    { intros y Hy. unfold is_space in Hy. unfold blank. lia. }
    split; [discriminate|]. split; [constructor; [apply BL; assumption|eapply Forall_impl; [|exact S2]; exact BL]|].
    assert (U : unread (mkSc (input s2) (pending s2) (fin s2) (pos s2) (pos s2) (last s2) (width s2)) = skipn (span is_space v') v').
    { change (unread _) with (rest s2). rewrite (rest_off _ _ _ I2), O2, O1, O. reflexivity. }
    rewrite U. split; [rewrite <-app_comm_cons; f_equal; exact S1|]. split; [|unfold off; cbn; lia].
    destruct I2 as [H1 H2 H3 H4 H5 H6 H7]. constructor; try (exact U); unfold off; cbn [pos start input pending fin width]; auto; try lia.
    apply Forall_inv_tail in H5. rewrite S1 in H5. apply Forall_app in H5. apply H5. }
  destruct ((x =? 39) || (x =? 34)) eqn:X5.
  { destruct (next (backup s1)) as [q s2] eqn:E2. destruct (next_spec _ _ _ _ _ B1 E2) as (_ & H2). rewrite B2 in H2.
    destruct H2 as (_ & _ & I2 & _). apply PB; auto; [|apply plain_quoted]. apply quoted_ok; [assumption|]. pose proof (left_room s2). lia. }
  destruct (x =? 96) eqn:X6.
  { apply PB; auto; [|apply plain_raw]. apply raw_ok; [assumption|]. pose proof (left_room s1). lia. }
  assert (SN : forall k s', Inv (x :: v') k s' -> off s' = 0%nat -> starts_number c (x :: v') -> lexed_ok (x :: v') 1 (lex_complex c s')).
  { intros k s' I' O' ST. apply (lex_complex_ok c (x :: v') 0 s' (inv0 _ _ _ I')). left. rewrite (rest_off _ _ _ I'), O'. exact ST. }
  destruct ((x =? 45) || (x =? 43)) eqn:X7.
  { assert (ST : starts_number c (x :: v')).
    { cbn. right. right. unfold zs, mem. cbn. apply orb_true_iff in X7. destruct X7 as [X7|X7]; apply Z.eqb_eq in X7; clear La; subst x; reflexivity. }
    destruct (start s1) eqn:Es.
    - apply PB; auto; [|apply plain_complex]. eapply SN; eauto. lia.
    - cbv zeta. destruct (_ || _ || _); [apply PB; auto; [apply lex_operator_ok; assumption|apply plain_operator]|].
      destruct (peek2 s1) as [[r1 r2] s2] eqn:E2. assert (OP : (0 < off s1)%nat) by lia.
      destruct (peek2_spec _ _ _ _ _ _ I1 (or_introl OP) E2) as (I2 & O2 & W2 & L2).
      destruct (_ && _); [apply PB; auto; [apply lex_operator_ok; assumption|apply plain_operator]|].
      apply PB; auto; [|apply plain_complex].
      destruct (Z.eq_dec (last s2) eof) as [Le|Le].
      + unfold backup. rewrite Le. change (eof =? eof) with true. cbv iota. exact (proj1 (lex_complex_ok c _ 1 s2 I2)).
      + pose proof (backup_inv _ _ _ I2) as I3. eapply SN; eauto. clear -I2 Le O2 O1 O W2 W1. unfold backup.
        destruct (last s2 =? eof) eqn:Q; [apply Z.eqb_eq in Q; contradiction|]. pose proof (i_sp _ _ _ I2). unfold off in *.
        destruct (Nat.eqb (pos s2) (start s2)) eqn:Q1; [apply Nat.eqb_eq in Q1; lia|].
        destruct (Nat.ltb (start s2) (pos s2)) eqn:Q2; [|apply Nat.ltb_ge in Q2; lia]. cbn [pos start set_pos]. lia. }
  destruct ((x =? dot) || is_digit x) eqn:X8.
  { apply PB; auto; [|apply plain_complex]. eapply SN; eauto; [lia|]. cbn. apply orb_true_iff in X8. destruct X8 as [X8|X8].
    - left. apply Z.eqb_eq in X8. exact X8.
    - right. left. apply digit_mem; [assumption|]. unfold is_digit in X8. rewrite X8. reflexivity. }
  destruct (x =? 61) eqn:X9.
  { destruct (peek s1) as [r1 s2] eqn:E2. destruct (peek_mono _ _ _ _ _ I1 E2) as [I2 _]. destruct (negb _).
    - apply PB; auto. cbn. repeat split; discriminate.
    - apply PB; auto; [|apply plain_operator]. apply lex_operator_ok. apply opt_next_mono, next_mono. assumption. }
  destruct (is_operator_spec (x :: v') 0 x s1 I1 La Nx W1) as (b & s2 & -> & Q1 & Q2).
  destruct b; [apply PB; auto; [apply lex_operator_ok; auto|apply plain_operator]|]. specialize (Q2 eq_refl). destruct Q2 as (Q2 & Q3 & Q4 & Q5). clear Q1.
  destruct (is_alnum c x || (x =? at_sign)) eqn:X10.
  { apply PB; auto; [|apply plain_identifier]. rewrite O1, O in Q3, Q4. cbn in Q3, Q4. eapply lex_identifier_ok; eauto.
    rewrite (rest_off _ _ _ Q3), Q4. reflexivity. }
  apply orb_false_iff in X10. destruct X10 as [_ X10]. apply Z.eqb_neq in X10. specialize (Q5 X10). subst s2.
  assert (EM : forall t, t <> TNewline -> t <> TErr -> t <> TEof -> any_ok (x :: v') (Emit t s1)).
  { intros t T2 T3 T4. apply PB; auto. cbn. auto. }
  repeat match goal with |- context [if ?b then _ else _] => destruct b; [apply EM; discriminate|] end.
  apply PB; auto; exact Logic.I.
Qed.

Lemma delivers_gap : forall g a t b, Forall blank g -> delivers a t b -> delivers (g ++ a) t b.
Proof.
  intros g a t b G (gap & H1 & H2). exists (g ++ gap). split; [apply Forall_app; auto|].
  destruct (t_type t).
  1: destruct H2 as (A & B & cm & C & ->); split; [exact A|]; split; [exact B|]; exists cm; split; [exact C|]; rewrite app_assoc; reflexivity.
  1: destruct H2 as (d & -> & D); exists d; split; [rewrite app_assoc; reflexivity|exact D].
  all: destruct H2 as (-> & D); split; [rewrite app_assoc; reflexivity|exact D].
Qed.
Definition past (s : sc) : sc := mkSc (input s) (pending s) (fin s) (pos s) (pos s) (last s) (width s).
Lemma past_ok : forall v k s, Inv v k s -> scanner_ok (past s) /\ to_come (past s) = rest s /\ between_tokens (past s).
Proof.
  intros v k s I. assert (A : scanner_ok (past s)).
  { pose proof (unread_split s (i_sp _ _ _ I)) as U. rewrite (i_v _ _ _ I) in U. destruct I as [H1 H2 H3 H4 H5 H6 H7].
    unfold scanner_ok, past, unread. cbn [pos start input pending fin width]. repeat split; auto; try lia.
    rewrite U in H5. apply Forall_app in H5. apply H5. }
  split; [assumption|]. split; [reflexivity|]. split; [assumption|]. left. reflexivity.
Qed.
Lemma wipe_ok : forall v k s, Inv v k s -> between_tokens (wipe s).
Proof.
  intros v k s I. assert (U : v = skipn (start s) (input s) ++ to_come (wipe s)).
  { rewrite <-(i_v _ _ _ I). reflexivity. }
  split; [|left; reflexivity]. destruct I as [H1 H2 H3 H4 H5 H6 H7].
  unfold scanner_ok, wipe. cbn [pos start input pending fin width]. repeat split; auto; try (cbn; lia).
  change (Forall (fun r => 0 <= r) (to_come (wipe s))). rewrite U in H5. apply Forall_app in H5. apply H5.
Qed.
(* errors: at least one rune is gone.  The loaded text always reaches past the current
   position when a rune has been read. *)
Lemma wipe_shorter : forall v k s, Inv v k s -> (start s < length (input s))%nat -> exists d, v = d ++ to_come (wipe s) /\ d <> [].
Proof.
  intros v k s I L. exists (skipn (start s) (input s)). split; [rewrite <-(i_v _ _ _ I); reflexivity|].
  intros X. apply (f_equal (@length Z)) in X. rewrite skipn_length in X. cbn in X. lia.
Qed.

Lemma run_ok : forall n v s, Inv v 0 s -> off s = 0%nat -> (S (length v) < n)%nat ->
  exists t s', run_states c n s = Some (t, s') /\ delivers v t (to_come s') /\ between_tokens s'.
Proof.
  induction n; intros v s I O L; [lia|]. cbn [run_states]. pose proof (lex_any_ok v s I O) as A. unfold any_ok in A.
  destruct v as [|r v'].
  { destruct (lex_any c s) as [| |s1| |]; try contradiction. destruct A as [A1 A2]. do 2 eexists. split; [reflexivity|].
    assert (T : to_come s1 = []). { change (rest s1 = []). rewrite (rest_off _ _ _ A1), A2. reflexivity. }
    rewrite T. split.
    - exists []. split; [constructor|]. cbn. repeat split; auto. exists []. split; [left; reflexivity|reflexivity].
    - split; [|right; exact T]. apply inv_ok in A1. apply A1. }
  destruct (is_space r) eqn:Es.
  { destruct (lex_any c s) as [| | |s1|]; try contradiction. destruct A as (gap & G1 & G2 & G3 & G4 & G5).
    destruct (IHn (unread s1) s1 G4 G5) as (t & s' & R1 & R2 & R3).
    { apply (f_equal (@length Z)) in G3. rewrite app_length in G3. destruct gap; [congruence|]. cbn [length] in *. lia. }
    exists t, s'. split; [assumption|]. split; [|assumption]. rewrite G3. apply delivers_gap; assumption. }
  destruct (r =? 35) eqn:E35.
  { destruct (lex_any c s) as [| | |s1|]; try contradiction. destruct A as (cm & C1 & C2 & C3 & C4).
    destruct n; [cbn in L; lia|]. cbn [run_states]. unfold lex_any. destruct (next s1) as [x s2] eqn:E2.
    destruct (next_spec _ _ _ _ _ C2 E2) as (_ & H). destruct C4 as [C4|(l & C4)]; rewrite C4 in H.
    - destruct H as (-> & I2 & R2 & O2 & T2). change (eof =? eof) with true. cbv iota. do 2 eexists. split; [reflexivity|].
      assert (T : to_come s2 = []) by exact R2. rewrite T. split.
      + exists []. split; [constructor|]. cbn [t_type t_text app]. repeat split; auto. exists (35 :: cm). split; [right; eauto|].
        pose proof (unread_split s2 (i_sp _ _ _ I2)) as U. rewrite (i_v _ _ _ I2), R2, T2, C3, app_nil_r in U. exact U.
      + split; [|right; exact T]. apply inv0, inv_ok in I2. apply I2.
    - destruct H as (-> & _ & I2 & R2 & O2 & T2 & _). change (nl =? eof) with false. change (nl =? nl) with true. cbv iota.
      do 2 eexists. split; [reflexivity|]. destruct (past_ok _ _ _ I2) as (P1 & P2 & P3). unfold past in *. split; [|exact P3].
      exists []. split; [constructor|]. cbn [t_type t_text app]. rewrite P2. pose proof (unread_split s2 (i_sp _ _ _ I2)) as U. rewrite (i_v _ _ _ I2) in U.
      split; [exact U|]. exists (35 :: cm). split; [right; eauto|]. rewrite T2, C3. reflexivity. }
  destruct (r =? nl) eqn:En.
  { destruct (lex_any c s) as [[] s1| | | |]; try contradiction. destruct A as (I2 & O2).
    do 2 eexists. split; [reflexivity|]. destruct (past_ok _ _ _ I2) as (P1 & P2 & P3). unfold past in *. split; [|exact P3].
    exists []. split; [constructor|]. cbn [t_type t_text app]. rewrite P2. pose proof (unread_split s1 (i_sp _ _ _ I2)) as U. rewrite (i_v _ _ _ I2) in U.
    split; [exact U|]. exists []. split; [left; reflexivity|]. rewrite (tok_off _ _ _ I2), O2. cbn. apply Z.eqb_eq in En. subst r. reflexivity. }
  destruct (lex_any c s) as [t s1|s1| | |]; try contradiction.
  - destruct A as (A1 & A2 & A3 & I2). do 2 eexists. split; [reflexivity|]. destruct (past_ok _ _ _ I2) as (P1 & P2 & P3). unfold past in *. split; [|exact P3].
    exists []. split; [constructor|]. cbn [t_type t_text app]. rewrite P2. pose proof (unread_split s1 (i_sp _ _ _ I2)) as U. rewrite (i_v _ _ _ I2) in U.
    assert (G : (r :: v' = tok_text s1 ++ rest s1) /\ exists x w, tok_text s1 = x :: w /\ ~ blank x /\ x <> 35 /\ x <> nl).
    { split; [exact U|]. rewrite (tok_off _ _ _ I2). pose proof (off_le _ _ _ I2). destruct (off s1); [lia|]. cbn [firstn]. do 2 eexists.
      split; [reflexivity|]. apply Z.eqb_neq in En, E35. repeat split; auto. unfold is_space in Es. unfold blank. lia. }
    destruct t; try congruence; exact G.
  - do 2 eexists. split; [reflexivity|]. split; [|apply (wipe_ok _ _ _ A)]. pose proof (off_le _ _ _ A) as K. unfold off in K.
    destruct (wipe_shorter _ _ _ A) as (d & D1 & D2); [pose proof (i_pl _ _ _ A); lia|].
    exists []. split; [constructor|]. cbn [t_type app]. exists d. split; assumption.
Qed.
Theorem next_delivers : forall s, between_tokens s ->
  exists t s', Next c s = Some (t, s') /\ delivers (to_come s) t (to_come s') /\ between_tokens s'.
Proof.
  intros s (K & B). unfold Next. set (s0 := mkSc (input s) (pending s) (fin s) (pos s) (start s) eof 0).
  assert (I : Inv (unread s0) 0 s0).
  { apply inv_ok. split; [|reflexivity]. destruct K as (K1 & K2 & K3 & K4). repeat split; cbn; auto; lia. }
  assert (LR : (length (to_come s) <= room s)%nat) by exact (left_room s).
  destruct B as [B|B].
  - assert (U : unread s0 = to_come s). { unfold unread, to_come, s0. cbn [start input pending]. rewrite B. reflexivity. }
    rewrite U in I. apply run_ok; [assumption|unfold off, s0; cbn; lia|lia].
  - cbn [run_states]. unfold lex_any. destruct (next s0) as [r s1] eqn:E. destruct (next_spec _ _ _ _ _ I E) as (_ & H).
    change (rest s0) with (to_come s) in H. rewrite B in H. destruct H as (-> & I1 & R1 & _). change (eof =? eof) with true. cbv iota.
    do 2 eexists. split; [reflexivity|]. assert (T : to_come s1 = []) by exact R1. rewrite T, B. split.
    + exists []. split; [constructor|]. cbn. repeat split; auto. exists []. split; [left; reflexivity|reflexivity].
    + split; [|right; exact T]. apply inv_ok in I1. apply I1.
Qed.
Lemma delivers_shorter : forall v t v', delivers v t v' -> t_type t <> TEof -> (length v' < length v)%nat.
Proof.
  intros v t v' (gap & _ & H) N. 
  assert (G : forall x, x <> [] -> v = gap ++ x ++ v' -> (length v' < length v)%nat).
  { intros x Hx ->. rewrite !app_length. destruct x; [congruence|cbn; lia]. }
  destruct (t_type t); try congruence;
  try (destruct H as (H1 & r & w & H2 & _); apply (G (t_text t)); [rewrite H2; discriminate|exact H1]).
  - destruct H as (d & H1 & H2). apply (G d); assumption.
  - destruct H as (H1 & cm & _ & H2). apply (G (t_text t)); [rewrite H2; destruct cm; discriminate|exact H1].
Qed.
Lemma all_tokens_cover : forall n s, between_tokens s -> (length (to_come s) < n)%nat ->
  exists l, all_tokens c n s = Some l /\ covers l (to_come s).
Proof.
  induction n; intros s B L; [lia|]. cbn [all_tokens]. destruct (next_delivers s B) as (t & s' & -> & D & B').
  assert (G : t_type t <> TEof -> t_type t <> TErr -> exists l, option_map (cons t) (all_tokens c n s') = Some l /\ covers l (to_come s)).
  { intros N1 N2. destruct (IHn s' B') as (l & -> & C); [pose proof (delivers_shorter _ _ _ D N1); lia|].
    exists (t :: l). split; [reflexivity|]. eapply cov_cons; eauto. }
  destruct (t_type t) eqn:Et; try (apply G; discriminate).
  - exists [t]. split; [reflexivity|]. eapply cov_end; eauto.
  - exists [t]. split; [reflexivity|]. eapply cov_end; eauto.
Qed.
Lemma new_between : forall t, Forall (fun r => 0 <= r) t -> between_tokens (new_scanner t) /\ to_come (new_scanner t) = nocr t.
Proof.
  intros t H. split; [|reflexivity]. split; [|left; reflexivity]. unfold scanner_ok, new_scanner, unread. cbn. repeat split; try lia; try discriminate.
  unfold nocr. induction H; cbn; [constructor|]. destruct (negb _); auto.
Qed.
End Ctx.

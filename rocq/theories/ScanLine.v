(* Tokens stay on their line, and an error costs at most the rest of its line. *)
From Coq Require Import String Ascii.
From Verif Require Import Value ScanModel ScanSpec ScanProofs ScanLex ScanNext.
Open Scope list_scope.
Open Scope Z_scope.

(* distance to the first newline *)
Definition eol (v : text) : nat := span (fun r => negb (r =? nl)) v.
Definition llen (s : sc) : nat := (length (input s) - start s)%nat.
Definition K (v : text) (s : sc) : Prop := (off s <= eol v)%nat /\ (llen s <= S (eol v))%nat.

Lemma eol_cons : forall r v, eol (r :: v) = if r =? nl then 0%nat else S (eol v).
Proof. intros. unfold eol. cbn [span]. destruct (r =? nl); reflexivity. Qed.
Lemma eol_step : forall v n r l, skipn n v = r :: l -> (n <= eol v)%nat -> r <> nl -> (S n <= eol v)%nat.
Proof.
  induction v as [|x v IH]; intros n r l H L N; [rewrite skipn_nil in H; discriminate|]. rewrite eol_cons in *.
  destruct n; cbn [skipn] in H.
  - injection H as -> ->. destruct (r =? nl) eqn:E; [apply Z.eqb_eq in E; contradiction|lia].
  - destruct (x =? nl); [lia|]. specialize (IH n r l H ltac:(lia) N). lia.
Qed.
Lemma take_line_len : forall t b r d rest, take_line t = (b, r, d) -> (length b <= S (eol (b ++ rest)))%nat.
Proof.
  induction t as [|c t IH]; intros b r d rest; cbn [take_line].
  - intros [= <- <- <-]. cbn. lia.
  - destruct (c =? nl) eqn:E.
    + intros [= <- <- <-]. cbn. lia.
    + destruct (take_line t) as [[b' r'] d'] eqn:Et. intros [= <- <- <-]. specialize (IH _ _ _ rest eq_refl).
      destruct (c =? 13); [exact IH|]. rewrite <-app_comm_cons, eol_cons, E. cbn [length]. lia.
Qed.
Lemma eol_skip : forall v n, (n <= eol v)%nat -> eol v = (n + eol (skipn n v))%nat.
Proof.
  induction v as [|x v IH]; intros n H; [cbn in H; assert (n = 0)%nat by lia; subst; reflexivity|].
  destruct n; [reflexivity|]. rewrite eol_cons in *. destruct (x =? nl); [lia|]. cbn [skipn]. rewrite (IH n) at 1 by lia. lia.
Qed.
Lemma read_line : forall v k s r w s', Inv v k s -> read_rune s = (r, w, s') -> (off s <= eol v)%nat ->
  (llen s <= S (eol v))%nat -> (llen s' <= S (eol v))%nat.
Proof.
  intros v k s r w s' I. unfold read_rune. set (s1 := if negb (fin s) && Nat.eqb (pos s) (length (input s)) then load_line s else s).
  intros H O L. assert (G : (llen s1 <= S (eol v))%nat).
  { unfold s1. destruct (negb (fin s) && Nat.eqb (pos s) (length (input s))) eqn:E; [|assumption].
    apply andb_true_iff in E. destruct E as [_ E]. apply Nat.eqb_eq in E.
    pose proof (rest_off _ _ _ I) as RO. unfold rest in RO. rewrite E, skipn_all in RO. cbn [app] in RO.
    unfold load_line. destruct (take_line (pending s)) as [[b r0] d] eqn:T. destruct (take_line_spec _ _ _ _ T) as (T1 & _ & _).
    pose proof (take_line_len _ _ _ _ (nocr r0) T) as TL. rewrite <-T1, RO in TL. pose proof (eol_skip _ _ O) as ES.
    pose proof (i_sp _ _ _ I). unfold llen, off in *.
    destruct (Nat.eqb (start s) (pos s)) eqn:E2; cbn [input start]; [|rewrite app_length]; lia. }
  destruct (Nat.eqb (length (input s1)) (pos s1)); injection H as <- <- <-; exact G.
Qed.
Lemma next_line : forall v k s r s', Inv v k s -> next s = (r, s') -> K v s ->
  (llen s' <= S (eol v))%nat /\ (r <> nl -> K v s') /\ K v (backup s').
Proof.
  intros v k s r s' I E [K1 K2]. destruct (next_backup _ _ _ _ _ I E) as (_ & _ & B & _).
  assert (L : (llen s' <= S (eol v))%nat).
  { revert E. unfold next. destruct (read_rune s) as [[r0 w] s1] eqn:Er. intros [= <- <-]. exact (read_line _ _ _ _ _ _ I Er K1 K2). }
  split; [assumption|]. split.
  - intros N. split; [|assumption]. destruct (next_spec _ _ _ _ _ I E) as (_ & H). pose proof (rest_off _ _ _ I) as RO.
    destruct (rest s) as [|c l]; [destruct H as (_ & _ & _ & -> & _); assumption|]. destruct H as (-> & _ & _ & _ & -> & _).
    eapply eol_step; eauto.
  - split; [rewrite B; assumption|]. unfold backup. destruct (last s' =? eof); [assumption|]. destruct (Nat.eqb _ _); [unfold llen, wipe; cbn; lia|].
    destruct (Nat.ltb _ _); assumption.
Qed.
Lemma peek_line : forall v k s r s', Inv v k s -> peek s = (r, s') -> K v s -> K v s'.
Proof.
  intros v k s r s' I E [K1 K2]. destruct (peek_spec _ _ _ _ _ I E) as (_ & _ & O & _). split; [rewrite O; assumption|].
  revert E. unfold peek. destruct (read_rune s) as [[r0 w] s1] eqn:Er. intros [= <- <-]. exact (read_line _ _ _ _ _ _ I Er K1 K2).
Qed.
Lemma next_line' : forall v k s c l, Inv v k s -> K v s -> rest s = c :: l -> c <> nl -> K v (snd (next s)).
Proof.
  intros v k s c l I H R N. destruct (next s) as [r s'] eqn:E. destruct (next_line _ _ _ _ _ I E H) as (_ & A & _). apply A.
  destruct (next_spec _ _ _ _ _ I E) as (_ & X). rewrite R in X. destruct X as (-> & _). assumption.
Qed.
Lemma next_end_line : forall v k s, Inv v k s -> K v s -> rest s = [] -> K v (snd (next s)).
Proof.
  intros v k s I H R. destruct (next s) as [r s'] eqn:E. destruct (next_line _ _ _ _ _ I E H) as (_ & A & _). apply A.
  destruct (next_spec _ _ _ _ _ I E) as (_ & X). rewrite R in X. destruct X as (-> & _). discriminate.
Qed.
Lemma peek2_line : forall v k s r1 r2 s', Inv v k s -> (0 < off s)%nat \/ (pos s < length (input s))%nat -> peek2 s = (r1, r2, s') -> K v s -> K v s'.
Proof.
  intros v k s r1 r2 s' I H E HK. destruct (peek2_spec _ _ _ _ _ _ I H E) as (_ & O & _). split; [rewrite O; apply HK|].
  revert E. unfold peek2. destruct (next s) as [r s1] eqn:E1. destruct (next_line _ _ _ _ _ I E1 HK) as (L1 & A1 & _).
  assert (I1 : Inv v k s1). { pose proof (next_mono _ _ _ I) as X. rewrite E1 in X. exact X. }
  destruct (r =? nl) eqn:En.
  - intros [= <- <- <-]. exact L1.
  - apply Z.eqb_neq in En. destruct (next s1) as [r' s2] eqn:E2. destruct (next_line _ _ _ _ _ I1 E2 (A1 En)) as (L2 & _). intros [= <- <- <-]. exact L2.
Qed.
Lemma accept_line : forall v k s valid b s', Inv v k s -> mem nl valid = false -> accept valid s = (b, s') -> K v s -> K v s'.
Proof.
  intros v k s valid b s' I N. unfold accept. destruct (next s) as [r s1] eqn:E. intros H HK. destruct (next_line _ _ _ _ _ I E HK) as (_ & A & B).
  destruct (mem r valid) eqn:M; injection H as <- <-; [|assumption]. apply A. intros ->. congruence.
Qed.
Lemma next_while_line : forall v P, P nl = false -> P eof = false -> forall n k s s', Inv v k s -> next_while P n s = Some s' -> K v s -> K v s'.
Proof.
  intros v P N NE. induction n; intros k s s' I; cbn [next_while]; [discriminate|]. destruct (next s) as [r s1] eqn:E. intros H HK.
  destruct (next_line _ _ _ _ _ I E HK) as (_ & A & B). destruct (P r) eqn:M; [|injection H as <-; assumption].
  apply (IHn k s1 s'); auto. { pose proof (next_mono _ _ _ I) as X. rewrite E in X. exact X. } apply A. intros ->. congruence.
Qed.
Lemma peek_while_line : forall v P, P nl = false -> P eof = false -> forall n k s s', Inv v k s -> peek_while P n s = Some s' -> K v s -> K v s'.
Proof.
  intros v P N NE. induction n; intros k s s' I; cbn [peek_while]; [discriminate|]. destruct (peek s) as [r s1] eqn:E. intros H HK.
  pose proof (peek_line _ _ _ _ _ I E HK) as K1. destruct (peek_spec _ _ _ _ _ I E) as (I1 & R1 & _ & _ & _ & _ & X).
  destruct (P r) eqn:M; [|injection H as <-; assumption].
  apply (IHn k (snd (next s1)) s'); auto; [apply next_mono; assumption|]. destruct (rest s) as [|c l] eqn:R; [subst r; congruence|].
  destruct X as (-> & _). eapply next_line'; eauto. intros ->. congruence.
Qed.
Lemma opt_next_line : forall v k s c b s', Inv v k s -> c <> nl -> c <> eof -> opt_next c s = (b, s') -> K v s -> K v s'.
Proof.
  intros v k s c b s' I N NE. unfold opt_next. destruct (peek s) as [r s1] eqn:E. intros H HK.
  pose proof (peek_line _ _ _ _ _ I E HK) as K1. destruct (peek_spec _ _ _ _ _ I E) as (I1 & R1 & _ & _ & _ & _ & X).
  destruct (r =? c) eqn:M; injection H as <- <-; [|assumption]. apply Z.eqb_eq in M. subst r.
  destruct (rest s) as [|x l] eqn:R; [congruence|]. destruct X as (-> & _). eapply next_line'; eauto.
Qed.
Lemma opt_next_snd : forall v k s c, Inv v k s -> c <> nl -> c <> eof -> K v s -> K v (snd (opt_next c s)).
Proof. intros v k s c I N NE HK. destruct (opt_next c s) eqn:E. eapply opt_next_line; eauto. Qed.

Section Ctx.
Variable c : sctx.
Hypothesis base_ok : 0 <= ibase c <= 36.

Lemma operator_token_line : forall v k r s b s', Inv v k s -> is_operator_token r s = (b, s') -> K v s -> K v s'.
Proof.
  intros v k r s b s' I. unfold is_operator_token.
  assert (N : forall ch, ch = 37 \/ ch = 60 \/ ch = 61 \/ ch = 62 \/ ch = 42 -> ch <> nl /\ ch <> eof) by (unfold nl, eof; lia).
  assert (O1 : forall ch s, Inv v k s -> ch = 37 \/ ch = 60 \/ ch = 61 \/ ch = 62 \/ ch = 42 -> K v s -> K v (snd (opt_next ch s))).
  { intros ch s0 I0 H HK. destruct (N ch H). eapply opt_next_snd; eauto. }
  assert (O2 : forall ch s b s', Inv v k s -> ch = 37 \/ ch = 60 \/ ch = 61 \/ ch = 62 \/ ch = 42 -> opt_next ch s = (b, s') -> K v s -> K v s' /\ Inv v k s').
  { intros ch s0 b0 s0' I0 H E HK. destruct (N ch H). split; [eapply opt_next_line; eauto|eapply opt_next_mono'; eauto]. }
  destruct (mem r _); [intros [= <- <-]; auto|].
  destruct (r =? 44); [intros [= <- <-] HK; apply O1; auto|].
  destruct ((r =? 33) || (r =? 61)).
  { intros [= <- <-] HK. destruct (opt_next 61 s) as [b0 s1] eqn:E. destruct (O2 61 s b0 s1 I ltac:(lia) E HK). destruct b0; [apply O1; auto|assumption]. }
  destruct (r =? 62).
  { intros [= <- <-] HK. destruct (opt_next 62 s) as [b0 s1] eqn:E. destruct (O2 62 s b0 s1 I ltac:(lia) E HK). destruct b0; [assumption|apply O1; auto]. }
  destruct (r =? 60).
  { intros [= <- <-] HK. destruct (opt_next 60 s) as [b0 s1] eqn:E. destruct (O2 60 s b0 s1 I ltac:(lia) E HK). destruct b0; [assumption|apply O1; auto]. }
  destruct (r =? 42); [intros [= <- <-] HK; apply O1; auto|intros [= <- <-]; auto].
Qed.
Lemma token_char : forall r s s', is_operator_token r s = (true, s') -> r <> nl.
Proof. intros r s s' H ->. vm_compute in H. discriminate H. Qed.
Lemma terminator_line : forall v k s b s', Inv v k s -> at_terminator c s = (b, s') -> K v s -> K v s' /\ (b = false -> hd nl (rest s) <> nl).
Proof.
  intros v k s b s' I. unfold at_terminator. destruct (peek s) as [r s1] eqn:E. intros H HK. pose proof (peek_line _ _ _ _ _ I E HK) as K1.
  destruct (peek_spec _ _ _ _ _ I E) as (I1 & _ & _ & _ & _ & _ & X).
  destruct (_ || _ || _ || _ || _) eqn:T; [injection H as <- <-; split; [assumption|discriminate]|].
  assert (R : hd nl (rest s) <> nl). { destruct (rest s); [subst r; discriminate T|]. destruct X as (-> & _). cbn. intros ->. discriminate T. }
  destruct (Nat.ltb (pos s1) (length (input s1))) eqn:L; [|injection H as <- <-; auto].
  apply Nat.ltb_lt in L. destruct (peek2 s1) as [[r1 r2] s2] eqn:E2. injection H as <- <-. split; [|auto]. eapply peek2_line; eauto.
Qed.
Lemma skip_while_line : forall v k P s s', P nl = false -> P eof = false -> Inv v k s -> skip_while P s = Some s' -> K v s -> K v s'.
Proof. intros. eapply peek_while_line; eauto. Qed.

(* a token on one line, or one that took the newline after a point *)
Definition line_ok (v : text) (o : lexed) : Prop :=
  match o with
  | Emit _ s => (llen s <= S (eol v))%nat /\ ((off s <= eol v)%nat \/ exists w, tok_text s = w ++ [dot; nl])
  | LErr s => (llen s <= S (eol v))%nat
  | _ => True
  end.
Lemma k_line : forall v t s, K v s -> line_ok v (Emit t s).
Proof. intros v t s [H1 H2]. cbn. auto. Qed.
Lemma end_line : forall v s, K v s -> line_ok v (lex_operator_end c s).
Proof. intros v s H. unfold lex_operator_end. destruct (is_identifier _ _); apply k_line; assumption. Qed.
Lemma alnum_nl : is_alnum c nl = false.
Proof. reflexivity. Qed.

Lemma operator_line : forall v k s, Inv v k s -> K v s -> line_ok v (lex_operator c s).
Proof.
  intros v k s0 I0 K0. unfold lex_operator. destruct (skip_while_spec v (Z.eqb at_sign) k s0 eq_refl I0) as (s & E0 & I & _). rewrite E0.
  pose proof (skip_while_line _ _ _ _ _ (eq_refl : Z.eqb at_sign nl = false) (eq_refl : Z.eqb at_sign eof = false) I0 E0 K0) as HK.
  destruct (_ || _ || _); [|apply end_line; assumption].
  destruct (peek s) as [r s1] eqn:E. destruct (peek_spec _ _ _ _ _ I E) as (I1 & R1 & _ & _ & _ & _ & X1). pose proof (peek_line _ _ _ _ _ I E HK) as K1.
  assert (NX : (r =? 47) || (r =? 92) || (r =? dot) = true -> K v (snd (next s1))).
  { intros Q. destruct (rest s) as [|x l] eqn:R; [subst r; discriminate Q|]. destruct X1 as (-> & _). eapply next_line'; eauto. intros ->. discriminate Q. }
  destruct ((r =? 47) || (r =? 92)).
  { apply end_line. eapply opt_next_snd; try discriminate; [apply next_mono; exact I1|apply NX; reflexivity]. }
  destruct (r =? dot) eqn:Ed; [|apply end_line; assumption]. specialize (NX eq_refl).
  destruct (next s1) as [r1 s2] eqn:E2. cbn [snd] in *. destruct (next_spec _ _ _ _ _ I1 E2) as (La2 & H2). rewrite R1 in H2.
  apply Z.eqb_eq in Ed. subst r.
  assert (Q2 : Inv v (S k) s2 /\ tok_text s2 = tok_text s1 ++ [dot] /\ last s2 = dot /\ K v (backup s2)).
  { destruct (rest s) as [|x l]; [discriminate X1|]. destruct X1 as (<- & _). destruct H2 as (-> & _ & H2 & _ & _ & H3 & _).
    split; [assumption|]. split; [assumption|]. split; [assumption|]. destruct (next_line _ _ _ _ _ I1 E2 K1) as (_ & _ & B). exact B. }
  destruct Q2 as (I2 & T2 & L2 & B2).
  destruct (peek s2) as [r2 s3] eqn:E3. destruct (peek_spec _ _ _ _ _ I2 E3) as (I3 & R3 & O3 & T3 & L3 & W3 & _). pose proof (peek_line _ _ _ _ _ I2 E3 NX) as K3.
  destruct (is_digit r2).
  { pose proof K3 as [K3a K3b]. apply k_line. clear -I3 K3 K3a K3b. unfold backup. destruct (last s3 =? eof); [assumption|].
    destruct (Nat.eqb _ _); [split; unfold off, llen, wipe; cbn; lia|]. destruct (Nat.ltb _ _); [|assumption].
    split; [|exact K3b]. unfold off, set_pos in *. cbn [pos start]. lia. }
  destruct (next s3) as [r3 s4] eqn:E4. pose proof (next_mono _ _ _ I3) as I4. rewrite E4 in I4. cbn [snd] in I4.
  destruct (next_line _ _ _ _ _ I3 E4 K3) as (L4 & N4 & _).
  destruct (is_operator_token r3 s4) as [b s5] eqn:E5. destruct (operator_token_mono _ _ _ _ _ _ I4 E5) as (I5 & F5).
  destruct b; [apply end_line; exact (operator_token_line _ _ _ _ _ _ I4 E5 (N4 (token_char _ _ _ E5)))|]. specialize (F5 eq_refl). subst s5.
  destruct (is_alnum c r3) eqn:EA.
  - assert (N3 : r3 <> nl) by (intros ->; discriminate EA). specialize (N4 N3).
    destruct (next_while_spec v (is_alnum c) (alnum_eof c) (S (room s4)) _ s4 I4) as (s6 & E6 & I6 & _); [pose proof (left_room s4); lia|]. rewrite E6.
    pose proof (next_while_line v (is_alnum c) alnum_nl (alnum_eof c) _ _ _ _ I4 E6 N4) as K6.
    destruct (at_terminator c s6) as [t s7] eqn:E7. destruct (terminator_line _ _ _ _ _ I6 E7 K6) as (K7 & _).
    destruct (negb t); [apply K7|]. destruct (defined c _); [apply end_line; assumption|apply K7].
  - destruct (Z.eq_dec r3 nl) as [->|N]; [|apply end_line; auto].
    destruct (next_spec _ _ _ _ _ I3 E4) as (_ & H4). destruct (rest s3); [destruct H4 as (H4 & _); discriminate H4|]. destruct H4 as (<- & _ & _ & _ & _ & T4 & _).
    assert (TT : exists w, tok_text s4 = w ++ [dot; nl]). { exists (tok_text s1). rewrite T4, T3, T2, <-app_assoc. reflexivity. }
    unfold lex_operator_end. destruct (is_identifier _ _); (split; [exact L4|right; exact TT]).
Qed.

Lemma digits_nl : forall b, mem nl (digits_for b) = false.
Proof.
  intros b. unfold digits_for. destruct (_ <=? 10); [reflexivity|]. rewrite !mem_app.
  assert (FN : forall n t, mem nl t = false -> mem nl (firstn n t) = false).
  { induction n; intros t Ht; [reflexivity|]. destruct t; [reflexivity|]. cbn in *. apply orb_false_iff in Ht. destruct Ht as [-> Ht]. apply IHn. exact Ht. }
  rewrite (FN _ (zs "_abcdefghijklmnopqrstuvwxyz")), (FN _ (zs "_ABCDEFGHIJKLMNOPQRSTUVWXYZ")); reflexivity.
Qed.
Lemma accept_run_line : forall v k s valid s', Inv v k s -> ~ In eof valid -> mem nl valid = false -> accept_run valid s = Some s' -> K v s -> K v s' /\ Inv v k s'.
Proof.
  intros v k s valid s' I NE N E HK. split.
  - eapply (next_while_line v (fun r => mem r valid)); eauto. apply mem_eof; assumption.
  - destruct (accept_run_spec v k s valid NE I) as (s2 & E2 & I2 & _). congruence.
Qed.
Lemma accept_both : forall v k s valid b s', Inv v k s -> ~ In eof valid -> mem nl valid = false -> accept valid s = (b, s') -> K v s -> K v s' /\ Inv v k s'.
Proof. intros. split; [eapply accept_line; eauto|]. eapply accept_mono; eauto. Qed.
Lemma scan_number_line : forall v sl j k s b s', Inv v k s -> scan_number c sl j s = Some (b, s') -> K v s -> K v s'.
Proof.
  intros v sl j k s0 b s' I0 H K0. unfold scan_number in H.
  set (pr := if ibase c =? 0 then _ else _) in H. destruct pr as [dg s] eqn:Ep.
  assert (P : Inv v k s /\ K v s /\ ~ In eof dg /\ mem nl dg = false).
  { unfold pr in Ep. clear pr H. destruct (ibase c =? 0); [|injection Ep as <- <-; split; [assumption|split; [assumption|split; [apply digits_eof|apply digits_nl]]]].
    destruct (accept (zs "0") s0) as [z s1] eqn:E1. assert (N0 : ~ In eof (zs "0")) by noteof.
    destruct (accept_both _ _ _ _ _ _ I0 N0 eq_refl E1 K0) as (K1 & I1).
    destruct z; [|injection Ep as <- <-; split; [assumption|split; [assumption|split; [apply digits_eof|apply digits_nl]]]].
    destruct (accept (zs "xX") s1) as [b1 s2] eqn:E2. assert (N1 : ~ In eof (zs "xX")) by noteof.
    destruct (accept_both _ _ _ _ _ _ I1 N1 eq_refl E2 K1) as (K2 & I2).
    destruct b1; [injection Ep as <- <-; split; [assumption|split; [assumption|split; [apply digits_eof|apply digits_nl]]]|].
    destruct (accept (zs "oO") s2) as [b2 s3] eqn:E3. assert (N2 : ~ In eof (zs "oO")) by noteof.
    destruct (accept_both _ _ _ _ _ _ I2 N2 eq_refl E3 K2) as (K3 & I3).
    destruct b2; [injection Ep as <- <-; split; [assumption|split; [assumption|split; [apply digits_eof|apply digits_nl]]]|].
    destruct (accept (zs "bB") s3) as [b3 s4] eqn:E4. assert (N3 : ~ In eof (zs "bB")) by noteof.
    destruct (accept_both _ _ _ _ _ _ I3 N3 eq_refl E4 K3) as (K4 & I4).
    destruct b3; injection Ep as <- <-; (split; [assumption|split; [assumption|split; [apply digits_eof|apply digits_nl]]]). }
  destruct P as (I & HK & NE & ND). clear pr Ep.
  destruct (accept_run dg s) as [s1|] eqn:E1; [|discriminate]. destruct (accept_run_line _ _ _ _ _ I NE ND E1 HK) as (K1 & I1).
  destruct (accept [dot] s1) as [d s2] eqn:E2. assert (N0 : ~ In eof [dot]) by noteof. destruct (accept_both _ _ _ _ _ _ I1 N0 eq_refl E2 K1) as (K2 & I2).
  destruct (if d then accept_run dg s2 else Some s2) as [s3|] eqn:E3; [|discriminate].
  assert (Q3 : K v s3 /\ Inv v k s3). { destruct d; [exact (accept_run_line _ _ _ _ _ I2 NE ND E3 K2)|injection E3 as <-; auto]. } destruct Q3 as (K3 & I3).
  destruct (accept (zs "eEpP") s3) as [e s4] eqn:E4. assert (N1 : ~ In eof (zs "eEpP")) by noteof. destruct (accept_both _ _ _ _ _ _ I3 N1 eq_refl E4 K3) as (K4 & I4).
  destruct (if e then accept_run (zs "0123456789") (snd (accept (zs "+-") s4)) else Some s4) as [s5|] eqn:E5; [|discriminate].
  assert (Q5 : K v s5 /\ Inv v k s5).
  { destruct e; [|injection E5 as <-; auto]. destruct (accept (zs "+-") s4) as [b0 s4'] eqn:E6. assert (N2 : ~ In eof (zs "+-")) by noteof.
    destruct (accept_both _ _ _ _ _ _ I4 N2 eq_refl E6 K4) as (K4' & I4'). assert (N3 : ~ In eof (zs "0123456789")) by noteof.
    exact (accept_run_line _ _ _ _ _ I4' N3 eq_refl E5 K4'). }
  destruct Q5 as (K5 & I5). destruct (peek s5) as [r s6] eqn:E6. destruct (peek_spec _ _ _ _ _ I5 E6) as (I6 & R6 & _ & _ & _ & _ & X6).
  pose proof (peek_line _ _ _ _ _ I5 E6 K5) as K6.
  assert (NX : forall q, K v q -> Inv v k q -> rest q = rest s5 -> hd nl (rest s5) <> nl -> K v (snd (next q))).
  { intros q Kq Iq Rq N. destruct (rest s5) as [|x l] eqn:R5; [cbn in N; congruence|]. eapply next_line'; eauto. }
  destruct (sl && (r =? 47)); [injection H as <- <-; assumption|]. destruct (j && (r =? 106)); [injection H as <- <-; assumption|].
  destruct (negb (r =? 111) && is_alnum c r) eqn:EA.
  { injection H as <- <-. apply NX; auto. destruct (rest s5); [subst r; discriminate EA|]. destruct X6 as (-> & _). cbn. intros ->. discriminate EA. }
  destruct (r =? dot) eqn:Ed.
  { injection H as <- <-. apply NX; auto. apply Z.eqb_eq in Ed. destruct (rest s5); [subst r; discriminate|]. destruct X6 as (-> & _). cbn. rewrite Ed. discriminate. }
  destruct (at_terminator c s6) as [t s7] eqn:E7. destruct (terminator_line _ _ _ _ _ I6 E7 K6) as (K7 & N7).
  destruct (at_terminator_spec c _ _ _ _ _ I6 E7) as (I7 & O7 & _).
  destruct t; injection H as <- <-; [assumption|]. apply NX; auto.
  - rewrite <-R6. eapply rest_eq; eauto.
  - rewrite <-R6. auto.
Qed.
Definition accepted_line (v : text) (a : accepted) : Prop := match a with NumOk s => K v s | NumFn l => line_ok v l end.
Lemma unsigned_line : forall v k s, Inv v k s -> K v s -> accepted_line v (accept_unsigned c true s).
Proof.
  intros v k s I HK. unfold accept_unsigned. destruct (scan_number_spec c v true true k s I) as (b & s2 & E & I2 & _). rewrite E.
  pose proof (scan_number_line _ _ _ _ _ _ _ I E HK) as K2. destruct b; [|apply K2].
  destruct (peek s2) as [r s3] eqn:E3. destruct (peek_mono _ _ _ _ _ I2 E3) as [I3 _]. pose proof (peek_line _ _ _ _ _ I2 E3 K2) as K3.
  destruct (negb (r =? 47)); [exact K3|]. cbv zeta. destruct (accept (zs "/") s3) as [b4 s4] eqn:E4. cbn [snd].
  assert (NS : ~ In eof (zs "/")) by noteof. destruct (accept_both _ _ _ _ _ _ I3 NS eq_refl E4 K3) as (K4 & I4).
  destruct (peek s4) as [r' s5] eqn:E5. destruct (peek_mono _ _ _ _ _ I4 E5) as [I5 _]. pose proof (peek_line _ _ _ _ _ I4 E5 K4) as K5.
  destruct (_ && _ && _).
  - cbn. destruct K5 as [K5a K5b]. split; [|exact K5b]. unfold off, set_pos in *. cbn [pos start]. lia.
  - destruct (scan_number_spec c v false true k s5 I5) as (b6 & s6 & E6 & I6 & _). rewrite E6. pose proof (scan_number_line _ _ _ _ _ _ _ I5 E6 K5) as K6.
    destruct b6; [|apply K6]. destruct (peek s6) as [r'' s7] eqn:E7. pose proof (peek_line _ _ _ _ _ I6 E7 K6) as K7. destruct (r'' =? dot); apply K7.
Qed.
Lemma number_line : forall v k s, Inv v k s -> K v s -> accepted_line v (accept_number c true s).
Proof.
  intros v k s I HK. unfold accept_number. destruct (accept (zs "+-") s) as [sg s1] eqn:E1. assert (NS : ~ In eof (zs "+-")) by noteof.
  destruct (accept_both _ _ _ _ _ _ I NS eq_refl E1 HK) as (K1 & I1). rewrite andb_true_r. destruct sg; [|eapply unsigned_line; eauto].
  destruct (peek s1) as [r s2] eqn:E2. destruct (peek_spec _ _ _ _ _ I1 E2) as (I2 & R2 & _ & _ & _ & _ & X2). pose proof (peek_line _ _ _ _ _ I1 E2 K1) as K2.
  destruct ((r =? 47) || (r =? 92)) eqn:Eq.
  { cbn [accepted_line]. apply k_line. eapply opt_next_snd; try discriminate; [apply next_mono; exact I2|].
    destruct (rest s1) as [|x l] eqn:R; [subst r; discriminate Eq|]. destruct X2 as (-> & _). eapply next_line'; eauto. intros ->. discriminate Eq. }
  destruct (_ && _); [eapply operator_line; eauto|eapply unsigned_line; eauto].
Qed.
Lemma complex_line : forall v k s, Inv v k s -> K v s -> line_ok v (lex_complex c s).
Proof.
  intros v k s I HK. unfold lex_complex. pose proof (number_line v k s I HK) as A. pose proof (proj1 (accept_number_ok c v k s I)) as B.
  destruct (accept_number c true s) as [s1|l]; [|exact A]. cbn in A, B. destruct (accept (zs "j") s1) as [j s2] eqn:E.
  assert (NS : ~ In eof (zs "j")) by noteof. destruct (accept_both _ _ _ _ _ _ B NS eq_refl E A) as (K2 & I2). destruct (negb j); [apply k_line; assumption|].
  pose proof (number_line v k s2 I2 K2) as A2. pose proof (proj1 (accept_number_ok c v k s2 I2)) as B2.
  destruct (accept_number c true s2) as [s3|[]]; cbn in A2, B2; try contradiction; [apply k_line; exact A2|apply A2|exact A2].
Qed.
Lemma identifier_line : forall v k s, Inv v k s -> K v s -> line_ok v (lex_identifier c s).
Proof.
  intros v k s0 I0 K0. unfold lex_identifier.
  destruct (skip_while_spec v (Z.eqb at_sign) k s0 eq_refl I0) as (s1 & E1 & I1 & O1). rewrite E1.
  pose proof (skip_while_line _ _ _ _ _ (eq_refl : Z.eqb at_sign nl = false) (eq_refl : Z.eqb at_sign eof = false) I0 E1 K0) as K1.
  destruct (skip_while_spec v (is_alnum c) k s1 (alnum_eof c) I1) as (s2 & E2 & I2 & O2). rewrite E2.
  pose proof (skip_while_line _ _ _ _ _ alnum_nl (alnum_eof c) I1 E2 K1) as K2.
  destruct (at_terminator c s2) as [t s3] eqn:E3. destruct (at_terminator_spec c _ _ _ _ _ I2 E3) as (I3 & O3 & _).
  destruct (terminator_line _ _ _ _ _ I2 E3 K2) as (K3 & _). destruct t; cbn [negb]; [|apply K3].
  destruct (skip_while_spec v (Z.eqb at_sign) k s3 eq_refl I3) as (s4 & E4 & I4 & O4). rewrite E4.
  pose proof (skip_while_line _ _ _ _ _ (eq_refl : Z.eqb at_sign nl = false) (eq_refl : Z.eqb at_sign eof = false) I3 E4 K3) as K4.
  destruct (peek s4) as [r5 s5] eqn:E5. destruct (peek_spec _ _ _ _ _ I4 E5) as (I5 & _ & O5 & T5 & _). pose proof (peek_line _ _ _ _ _ I4 E5 K4) as K5.
  cbv zeta. destruct (teq _ _); [apply k_line; assumption|]. destruct (teq _ _); [apply k_line; assumption|].
  destruct (_ && _); [eapply operator_line; eauto|]. destruct (defined c _); [eapply operator_line; eauto|].
  destruct (_ || _); [apply K5|]. pose proof K5 as [K5a K5b].
  destruct (all_digits _ _ _).
  - apply (complex_line v 0).
    + destruct I5 as [H1 H2 H3 H4 H5 H6 H7]. constructor; unfold set_pos, off, unread in *; cbn [pos start input pending fin width]; auto; lia.
    + split; [unfold off, set_pos; cbn [pos start]; lia|exact K5b].
  - destruct (user_unary c _); [apply k_line; assumption|]. apply k_line. split; [|exact K5b]. unfold off, set_pos in *. cbn [pos start]. lia.
Qed.
Lemma quoted_line : forall v q n k s, q <> nl -> Inv v k s -> K v s -> line_ok v (quoted q n s).
Proof.
  intros v q. induction n; intros k s Q I HK; [exact Logic.I|]. cbn [quoted]. destruct (next s) as [r s1] eqn:E.
  pose proof (next_mono _ _ _ I) as I1. rewrite E in I1. cbn [snd] in I1. destruct (next_line _ _ _ _ _ I E HK) as (L1 & N1 & _).
  destruct (r =? 92) eqn:Er.
  - apply Z.eqb_eq in Er. assert (N : r <> nl) by (rewrite Er; discriminate). specialize (N1 N).
    destruct (next s1) as [r2 s2] eqn:E2. pose proof (next_mono _ _ _ I1) as I2. rewrite E2 in I2. cbn [snd] in I2.
    destruct (next_line _ _ _ _ _ I1 E2 N1) as (L2 & N2 & _). destruct (negb (r2 =? eof) && negb (r2 =? nl)) eqn:Eb; [|exact L2].
    apply (IHn k s2 Q I2). apply N2. intros ->. cbn in Eb. discriminate Eb.
  - destruct ((r =? eof) || (r =? nl)) eqn:Ee; [exact L1|]. assert (N : r <> nl) by (intros ->; discriminate Ee).
    destruct (r =? q); [apply k_line; auto|]. apply (IHn k s1 Q I1). auto.
Qed.

(* the next rune is not a back quote: everything on the line *)
Lemma any_line : forall v s, Inv v 0 s -> off s = 0%nat -> (llen s <= S (eol v))%nat -> hd eof v <> 96 -> hd eof v <> nl -> line_ok v (lex_any c s).
Proof.
  intros v s I O L NR NN. pose proof (rest_off _ _ _ I) as R. rewrite O in R. cbn [skipn] in R.
  assert (HK : K v s) by (split; [lia|assumption]).
  unfold lex_any. destruct (next s) as [r s1] eqn:E. destruct (next_spec _ _ _ _ _ I E) as (La & H).
  destruct (next_line _ _ _ _ _ I E HK) as (L1 & K1 & KB). destruct (next_backup _ _ _ _ _ I E) as (B1 & B2 & B3 & _). rewrite R in H, B2.
  destruct v as [|x v']; [destruct H as (-> & _); exact Logic.I|]. cbn [hd] in NR, NN. destruct H as (-> & Nx & I1 & R1 & O1 & T1 & W1). specialize (K1 NN).
  destruct (x =? eof) eqn:X0; [exact Logic.I|]. destruct (x =? nl) eqn:X1; [apply Z.eqb_eq in X1; contradiction|].
  destruct (x =? 59); [apply k_line; assumption|].
  destruct (x =? 35). { destruct (next_while _ _ _); exact Logic.I. }
  destruct (is_space x). { destruct (skip_while _ _); exact Logic.I. }
  destruct ((x =? 39) || (x =? 34)) eqn:X5.
  { destruct (next (backup s1)) as [q s2] eqn:E2. destruct (next_spec _ _ _ _ _ B1 E2) as (_ & H2). rewrite B2 in H2. destruct H2 as (-> & _ & I2 & _).
    destruct (next_line _ _ _ _ _ B1 E2 KB) as (_ & K2 & _). eapply quoted_line; eauto. }
  destruct (x =? 96) eqn:X6; [apply Z.eqb_eq in X6; contradiction|].
  destruct ((x =? 45) || (x =? 43)).
  { destruct (start s1); [eapply complex_line; eauto|]. cbv zeta. destruct (_ || _ || _); [eapply operator_line; eauto|].
    destruct (peek2 s1) as [[r1 r2] s2] eqn:E2. assert (OP : (0 < off s1)%nat) by lia.
    destruct (peek2_spec _ _ _ _ _ _ I1 (or_introl OP) E2) as (I2 & O2 & W2 & L2). pose proof (peek2_line _ _ _ _ _ _ I1 (or_introl OP) E2 K1) as K2.
    destruct (_ && _); [eapply operator_line; eauto|]. eapply complex_line; [apply backup_inv; exact I2|].
    clear -K2 I2. pose proof K2 as [Ka Kb]. unfold backup. destruct (last s2 =? eof); [assumption|].
    destruct (Nat.eqb _ _); [split; unfold off, llen, wipe; cbn; lia|]. destruct (Nat.ltb _ _); [|assumption].
    split; [|exact Kb]. unfold off, set_pos in *. cbn [pos start]. lia. }
  destruct ((x =? dot) || is_digit x); [eapply complex_line; eauto|].
  destruct (x =? 61).
  { destruct (peek s1) as [r1 s2] eqn:E2. destruct (peek_spec _ _ _ _ _ I1 E2) as (I2 & R2 & _ & _ & _ & _ & X2). pose proof (peek_line _ _ _ _ _ I1 E2 K1) as K2.
    destruct (negb (r1 =? 61)) eqn:En; [apply k_line; assumption|]. eapply operator_line; [apply opt_next_mono, next_mono; exact I2|].
    eapply opt_next_snd; try discriminate; [apply next_mono; exact I2|]. apply negb_false_iff, Z.eqb_eq in En. subst r1.
    destruct (rest s1) as [|y l] eqn:Ry; [discriminate X2|]. destruct X2 as (<- & _). eapply next_line'; eauto. discriminate. }
  assert (OPL : forall b s2, is_operator x s1 = Some (b, s2) -> (b = true -> K (x :: v') s2 /\ Inv (x :: v') 1 s2) /\ (b = false -> K (x :: v') (backup s2) /\ Inv (x :: v') 0 (backup s2) /\ (x <> at_sign -> s2 = s1))).
  { intros b s2 Eo. destruct (is_operator_spec (x :: v') 0 x s1 I1 La Nx W1) as (b' & s2' & Eo' & Q1 & Q2). rewrite Eo in Eo'. injection Eo' as <- <-.
    assert (LL : forall n r j s s', Inv (x :: v') 1 s -> (llen s <= S (eol (x :: v')))%nat -> (r <> nl -> K (x :: v') s) -> skip_ats n r j s = Some s' ->
      Inv (x :: v') 1 (snd s') /\ (llen (snd s') <= S (eol (x :: v')))%nat /\ (fst (fst s') <> nl -> K (x :: v') (snd s'))).
    { clear. induction n; intros r j s s' I L N; cbn [skip_ats]; [discriminate|]. destruct (r =? at_sign) eqn:Ea; [|intros [= <-]; auto].
      apply Z.eqb_eq in Ea. subst r. specialize (N ltac:(discriminate)). destruct (next s) as [r' s1] eqn:E. destruct (next_line _ _ _ _ _ I E N) as (L1 & N1 & _).
      pose proof (next_mono _ _ _ I) as I1. rewrite E in I1. apply IHn; auto. }
    unfold is_operator in Eo. destruct (skip_ats _ x 0 s1) as [[[r' j] s3]|] eqn:Es; [|discriminate].
    destruct (LL _ _ _ _ _ I1 L1 (fun _ => K1) Es) as (I3 & L3 & N3). cbn [fst snd] in *.
    destruct (is_operator_token r' s3) as [b0 s4] eqn:Et. destruct (operator_token_mono _ _ _ _ _ _ I3 Et) as (I4 & F4). destruct b0.
    - assert (K4 : K (x :: v') s4) by exact (operator_token_line _ _ _ _ _ _ I3 Et (N3 (token_char _ _ _ Et))).
      destruct (skip_while (Z.eqb at_sign) s4) as [s5|] eqn:E5; [|discriminate]. injection Eo as <- <-. split; [|discriminate]. intros _. split; [|auto].
      exact (skip_while_line _ _ _ _ _ (eq_refl : Z.eqb at_sign nl = false) (eq_refl : Z.eqb at_sign eof = false) I4 E5 K4).
    - injection Eo as <- <-. specialize (F4 eq_refl). subst s4. split; [discriminate|]. intros _. destruct (Q2 eq_refl) as (_ & P2 & P3 & P4).
      split; [|split; [apply (inv0 _ _ _ P2)|assumption]]. split; [rewrite P3; lia|].
      assert (LB : forall s, (llen s <= S (eol (x :: v')))%nat -> (llen (backup s) <= S (eol (x :: v')))%nat).
      { clear. intros s Hs. unfold backup. destruct (last s =? eof); [assumption|]. destruct (Nat.eqb _ _); [unfold llen, wipe; cbn; lia|].
        destruct (Nat.ltb _ _); assumption. }
      apply LB. exact L3. }
  destruct (is_operator x s1) as [[b s2]|]; [|exact Logic.I]. destruct (OPL b s2 eq_refl) as (P1 & P2).
  destruct b; [destruct (P1 eq_refl); eapply operator_line; eauto|]. destruct (P2 eq_refl) as (P3 & P4 & P5). clear P1 P2.
  destruct (is_alnum c x || (x =? at_sign)) eqn:X10; [eapply identifier_line; eauto|].
  apply orb_false_iff in X10. destruct X10 as [_ X10]. apply Z.eqb_neq in X10. specialize (P5 X10). subst s2.
  repeat match goal with |- context [if ?b then _ else _] => destruct b; [apply k_line; assumption|] end. apply K1.
Qed.

(* --- the loaded text between tokens --- *)
Lemma nol_skip : forall n t, newline_only_last t -> newline_only_last (skipn n t).
Proof. induction n; intros t H; [exact H|]. destruct t; [exact H|]. cbn. apply IHn. apply H. Qed.
Lemma nol_len : forall t l, newline_only_last t -> (length t <= S (eol (t ++ l)))%nat.
Proof.
  induction t as [|r t IH]; intros l H; [cbn; lia|]. destruct H as [H1 H2]. rewrite <-app_comm_cons, eol_cons. destruct (r =? nl) eqn:E.
  - apply Z.eqb_eq in E. rewrite (H1 E). cbn. lia.
  - cbn [length]. specialize (IH l H2). lia.
Qed.
Lemma len_nol : forall t l, (length t <= S (eol (t ++ l)))%nat -> newline_only_last t.
Proof.
  induction t as [|r t IH]; intros l H; [exact Logic.I|]. rewrite <-app_comm_cons, eol_cons in H. cbn [length] in H. destruct (r =? nl) eqn:E.
  - destruct t; [split; [auto|exact Logic.I]|cbn in H; lia].
  - split; [intros ->; discriminate E|]. apply (IH l). lia.
Qed.
Lemma take_line_nol : forall t b r d, take_line t = (b, r, d) -> newline_only_last b.
Proof. intros t b r d H. apply (len_nol b []). exact (take_line_len _ _ _ _ [] H). Qed.
Lemma read_loaded : forall v k s r w s', Inv v k s -> read_rune s = (r, w, s') -> loaded_line s -> loaded_line s'.
Proof.
  intros v k s r w s' I. unfold read_rune. set (s1 := if negb (fin s) && Nat.eqb (pos s) (length (input s)) then load_line s else s).
  intros H L. assert (G : loaded_line s1).
  { unfold s1. destruct (negb (fin s) && Nat.eqb (pos s) (length (input s))) eqn:E; [|assumption].
    apply andb_true_iff in E. destruct E as [_ E]. apply Nat.eqb_eq in E. unfold load_line.
    destruct (take_line (pending s)) as [[b r0] d] eqn:T. pose proof (take_line_nol _ _ _ _ T) as B.
    destruct (Nat.eqb (start s) (pos s)); unfold loaded_line; cbn [pos input]; [exact B|].
    rewrite skipn_app, E, skipn_all, Nat.sub_diag. exact B. }
  destruct (Nat.eqb (length (input s1)) (pos s1)); injection H as <- <- <-; exact G.
Qed.
Lemma next_loaded : forall v k s r s', Inv v k s -> next s = (r, s') -> loaded_line s -> loaded_line s'.
Proof.
  intros v k s r s' I. unfold next. destruct (read_rune s) as [[r0 w] s1] eqn:E. intros [= <- <-] L.
  pose proof (read_loaded _ _ _ _ _ _ I E L) as L1. unfold loaded_line in *. cbn [pos input].
  replace (skipn (pos s1 + w) (input s1)) with (skipn w (skipn (pos s1) (input s1))) by apply skipn_skipn. apply nol_skip. exact L1.
Qed.
Lemma peek_loaded : forall v k s r s', Inv v k s -> peek s = (r, s') -> loaded_line s -> loaded_line s'.
Proof. intros v k s r s' I. unfold peek. destruct (read_rune s) as [[r0 w] s1] eqn:E. intros [= <- <-] L. eapply read_loaded; eauto. Qed.
Lemma backup_loaded : forall v k s r s', Inv v k s -> next s = (r, s') -> loaded_line s -> loaded_line (backup s').
Proof.
  intros v k s r s' I E L. pose proof (next_loaded _ _ _ _ _ I E L) as L1. revert E. unfold next. destruct (read_rune s) as [[r0 w] s1] eqn:Er. intros [= <- <-].
  pose proof (read_loaded _ _ _ _ _ _ I Er L) as L2. unfold backup. cbn [last]. destruct (r0 =? eof); [exact L1|].
  destruct (Nat.eqb _ _); [exact Logic.I|]. destruct (Nat.ltb _ _); [|exact L1]. unfold loaded_line, set_pos. cbn [pos input width].
  replace (pos s1 + w - w)%nat with (pos s1) by lia. exact L2.
Qed.
Lemma next_while_loaded : forall v P n k s s', Inv v k s -> next_while P n s = Some s' -> loaded_line s -> loaded_line s'.
Proof.
  intros v P. induction n; intros k s s' I; cbn [next_while]; [discriminate|]. destruct (next s) as [r s1] eqn:E. intros H L.
  destruct (P r); [|injection H as <-; eapply backup_loaded; eauto]. eapply (IHn k s1); eauto; [|eapply next_loaded; eauto].
  pose proof (next_mono _ _ _ I) as X. rewrite E in X. exact X.
Qed.
Lemma peek_while_loaded : forall v P n k s s', Inv v k s -> peek_while P n s = Some s' -> loaded_line s -> loaded_line s'.
Proof.
  intros v P. induction n; intros k s s' I; cbn [peek_while]; [discriminate|]. destruct (peek s) as [r s1] eqn:E. intros H L.
  destruct (peek_mono _ _ _ _ _ I E) as [I1 _]. pose proof (peek_loaded _ _ _ _ _ I E L) as L1.
  destruct (P r); [|injection H as <-; assumption]. eapply (IHn k (snd (next s1))); eauto; [apply next_mono; assumption|].
  destruct (next s1) as [r2 s2] eqn:E2. eapply next_loaded; eauto.
Qed.
Lemma raw_loaded : forall v n k s, Inv v k s -> loaded_line s ->
  match raw_quoted n s with Emit t s' => t = TString /\ loaded_line s' | LErr s' => rest s' = [] | _ => True end.
Proof.
  intros v. induction n; intros k s I L; [exact Logic.I|]. cbn [raw_quoted]. destruct (next s) as [r s1] eqn:E.
  pose proof (next_loaded _ _ _ _ _ I E L) as L1. pose proof (next_mono _ _ _ I) as I1. rewrite E in I1. cbn [snd] in I1.
  destruct (r =? eof) eqn:Er.
  - destruct (next_spec _ _ _ _ _ I E) as (_ & H). apply Z.eqb_eq in Er. destruct (rest s); [apply H|]. destruct H as (-> & H & _). unfold eof in Er. lia.
  - destruct (r =? 96); [auto|]. apply (IHn k); assumption.
Qed.
Lemma llen_loaded : forall v k s, Inv v k s -> (llen s <= S (eol v))%nat -> loaded_line s.
Proof.
  intros v k s I L. unfold loaded_line. replace (skipn (pos s) (input s)) with (skipn (off s) (skipn (start s) (input s))).
  - apply nol_skip. apply (len_nol _ (nocr (pending s))). change (skipn (start s) (input s) ++ nocr (pending s)) with (unread s). rewrite (i_v _ _ _ I), skipn_length. exact L.
  - rewrite skipn_skipn. f_equal. pose proof (i_sp _ _ _ I). unfold off. lia.
Qed.
Lemma loaded_llen : forall v s, Inv v 0 s -> off s = 0%nat -> loaded_line s -> (llen s <= S (eol v))%nat.
Proof.
  intros v s I O L. pose proof (i_sp _ _ _ I). unfold off in O. assert (E : start s = pos s) by lia. unfold loaded_line in L. rewrite <-E in L.
  pose proof (nol_len _ (nocr (pending s)) L) as G. change (skipn (start s) (input s) ++ nocr (pending s)) with (unread s) in G. rewrite (i_v _ _ _ I), skipn_length in G. exact G.
Qed.
Lemma firstn_eol : forall v n, (n <= eol v)%nat -> ~ In nl (firstn n v).
Proof.
  induction v as [|r v IH]; intros n H; [rewrite firstn_nil; auto|]. rewrite eol_cons in H. destruct n; [auto|]. cbn [firstn].
  destruct (r =? nl) eqn:E; [lia|]. intros [X|X]; [subst; discriminate E|]. apply (IH n); [lia|exact X].
Qed.

Definition one_line (v : text) (t : token) (s' : sc) : Prop :=
  match t_type t with
  | TErr => loses_one_line v (to_come s')
  | TNewline | TEof => True
  | _ => on_one_line t
  end.
Lemma run_line : forall n v s t s', Inv v 0 s -> off s = 0%nat -> loaded_line s -> run_states c n s = Some (t, s') ->
  loaded_line s' /\ one_line v t s'.
Proof.
  induction n; intros v s t s' I O L; cbn [run_states]; [discriminate|]. pose proof (lex_any_ok c base_ok v s I O) as A. unfold any_ok in A.
  pose proof (loaded_llen _ _ I O L) as LL.
  destruct v as [|r v'].
  { destruct (lex_any c s) as [| |s1| |]; try contradiction. destruct A as [A1 A2]. intros [= <- <-]. split; [|exact Logic.I].
    pose proof (rest_off _ _ _ A1) as R. rewrite skipn_nil in R. unfold rest in R. apply app_eq_nil in R. unfold loaded_line. destruct R as [-> _]. exact Logic.I. }
  destruct (is_space r) eqn:Es.
  { destruct (lex_any c s) as [| | |s1|] eqn:EL; try contradiction. destruct A as (gap & G1 & G2 & G3 & G4 & G5). intros H.
    assert (L1 : loaded_line s1).
    { revert EL. unfold lex_any. destruct (next s) as [x s2] eqn:E2. destruct (next_spec _ _ _ _ _ I E2) as (_ & N). rewrite (rest_off _ _ _ I), O in N. cbn [skipn] in N.
      destruct N as (-> & _ & I2 & _). pose proof (next_loaded _ _ _ _ _ I E2 L) as L2.
      assert (Q : r = 32 \/ r = 9) by (unfold is_space in Es; lia). assert (Q1 : (r =? eof) = false /\ (r =? nl) = false /\ (r =? 59) = false /\ (r =? 35) = false) by (unfold eof, nl; lia).
      destruct Q1 as (-> & -> & -> & ->). rewrite Es. destruct (skip_while is_space s2) as [s3|] eqn:E3; [|discriminate]. intros [= <-].
      exact (peek_while_loaded _ _ _ _ _ _ I2 E3 L2). }
    destruct (IHn (unread s1) s1 t s' G4 G5 L1 H) as (R1 & R2). split; [assumption|]. unfold one_line in *. destruct (t_type t); auto.
    destruct R2 as (g & d & D1 & D2 & D3). exists (gap ++ g), d. split; [apply Forall_app; auto|]. split; [|assumption]. rewrite G3, D2, app_assoc. reflexivity. }
  destruct (r =? 35) eqn:E35.
  { destruct (lex_any c s) as [| | |s1|] eqn:EL; try contradiction. destruct A as (cm & C1 & C2 & C3 & C4).
    assert (L1 : loaded_line s1).
    { revert EL. unfold lex_any. destruct (next s) as [x s2] eqn:E2. destruct (next_spec _ _ _ _ _ I E2) as (_ & N). rewrite (rest_off _ _ _ I), O in N. cbn [skipn] in N.
      destruct N as (-> & _ & I2 & _). pose proof (next_loaded _ _ _ _ _ I E2 L) as L2. apply Z.eqb_eq in E35. subst r.
      change (35 =? eof) with false. change (35 =? nl) with false. change (35 =? 59) with false. change (35 =? 35) with true. cbv iota.
      destruct (next_while _ _ s2) as [s3|] eqn:E3; [|discriminate]. intros [= <-]. exact (next_while_loaded _ _ _ _ _ _ I2 E3 L2). }
    destruct n; [discriminate|]. cbn [run_states]. unfold lex_any. destruct (next s1) as [x s2] eqn:E2. pose proof (next_loaded _ _ _ _ _ C2 E2 L1) as L2.
    destruct (next_spec _ _ _ _ _ C2 E2) as (_ & H). destruct C4 as [C4|(l & C4)]; rewrite C4 in H.
    - destruct H as (-> & _). change (eof =? eof) with true. cbv iota. intros [= <- <-]. split; [assumption|exact Logic.I].
    - destruct H as (-> & _). change (nl =? eof) with false. change (nl =? nl) with true. cbv iota. intros [= <- <-]. split; [exact L2|exact Logic.I]. }
  destruct (r =? nl) eqn:En.
  { destruct (lex_any c s) as [[] s1| | | |] eqn:EL; try contradiction. intros [= <- <-]. split; [|exact Logic.I].
    revert EL. unfold lex_any. destruct (next s) as [x s2] eqn:E2. pose proof (next_loaded _ _ _ _ _ I E2 L) as L2.
    destruct (next_spec _ _ _ _ _ I E2) as (_ & N). rewrite (rest_off _ _ _ I), O in N. cbn [skipn] in N. destruct N as (-> & _).
    apply Z.eqb_eq in En. subst r. change (nl =? eof) with false. change (nl =? nl) with true. cbv iota. intros [= <-]. exact L2. }
  apply Z.eqb_neq in En. destruct (Z.eq_dec r 96) as [E96|N96].
  - assert (RW : exists s2, lex_any c s = raw_quoted (S (room s2)) s2 /\ Inv (r :: v') 1 s2 /\ loaded_line s2).
    { unfold lex_any. destruct (next s) as [x s2] eqn:E2. pose proof (next_loaded _ _ _ _ _ I E2 L) as L2.
      destruct (next_spec _ _ _ _ _ I E2) as (_ & N). rewrite (rest_off _ _ _ I), O in N. cbn [skipn] in N. destruct N as (-> & _ & I2 & _). rewrite E96 in *.
      exists s2. split; [reflexivity|]. auto. }
    destruct RW as (s2 & EQ & I2 & L2). pose proof (raw_loaded _ (S (room s2)) _ _ I2 L2) as RL. rewrite <-EQ in RL.
    destruct (lex_any c s) as [t1 s1|s1| | |]; try contradiction; intros [= <- <-].
    + destruct RL as [-> RL]. destruct A as (_ & _ & _ & IA). split; [exact RL|]. cbn. right. left. rewrite (tok_off _ _ _ IA).
      pose proof (off_le _ _ _ IA). destruct (off s1); [lia|]. exact E96.
    + split; [exact Logic.I|]. exists [], (skipn (start s1) (input s1)). split; [constructor|].
      split; [cbn [app]; rewrite <-(i_v _ _ _ A); reflexivity|]. right.
      assert (P : nocr (pending s1) = []). { unfold rest in RL. apply app_eq_nil in RL. apply RL. }
      split; [|exact P]. pose proof (i_v _ _ _ A) as V. unfold unread in V. rewrite P, app_nil_r in V. rewrite V. exact E96.
  - assert (NN : hd eof (r :: v') <> nl) by exact En. assert (NR : hd eof (r :: v') <> 96) by exact N96.
    pose proof (any_line _ s I O LL NR NN) as B.
    destruct (lex_any c s) as [t1 s1|s1| | |]; try contradiction; intros [= <- <-].
    + destruct A as (A1 & A2 & A3 & IA). destruct B as (B1 & B2). split; [exact (llen_loaded _ _ _ IA B1)|].
      assert (OL : on_one_line (mkTok t1 (tok_text s1))).
      { destruct B2 as [B2|B2]; [left|right; right; exact B2]. cbn [t_text]. rewrite (tok_off _ _ _ IA). apply firstn_eol. exact B2. }
      unfold one_line. cbn [t_type]. destruct t1; auto. elim A2. reflexivity.
    + split; [exact Logic.I|]. exists [], (skipn (start s1) (input s1)). split; [constructor|].
      split; [cbn [app]; rewrite <-(i_v _ _ _ A); reflexivity|]. left. apply (len_nol _ (nocr (pending s1))).
      change (skipn (start s1) (input s1) ++ nocr (pending s1)) with (unread s1). rewrite (i_v _ _ _ A), skipn_length. exact B.
Qed.
Theorem next_line_ok : forall s t s', between_tokens s -> loaded_line s -> Next c s = Some (t, s') ->
  loaded_line s' /\
  match t_type t with
  | TErr => loses_one_line (to_come s) (to_come s')
  | TNewline | TEof => True
  | _ => on_one_line t
  end.
Proof.
  intros s t s' (H & B) L. unfold Next. set (s0 := mkSc (input s) (pending s) (fin s) (pos s) (start s) eof 0).
  assert (I : Inv (unread s0) 0 s0).
  { apply inv_ok. split; [|reflexivity]. destruct H as (K1 & K2 & K3 & K4). repeat split; cbn; auto; lia. }
  destruct B as [B|B].
  - assert (U : unread s0 = to_come s). { unfold unread, to_come, s0. cbn [start input pending]. rewrite B. reflexivity. }
    rewrite U in I. intros E. eapply run_line in E; eauto. unfold off, s0. cbn. lia.
  - cbn [run_states]. unfold lex_any. destruct (next s0) as [r s1] eqn:E. pose proof (next_loaded _ _ _ _ _ I E L) as L1. destruct (next_spec _ _ _ _ _ I E) as (_ & N).
    change (rest s0) with (to_come s) in N. rewrite B in N. destruct N as (-> & _). change (eof =? eof) with true. cbv iota. intros [= <- <-]. split; [exact L1|exact Logic.I].
Qed.
End Ctx.

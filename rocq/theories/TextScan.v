(* Scanning the text of numbers. *)
From Coq Require Import String.
From Verif Require Import Value NumModel NumSpec ScanModel ScanSpec ScanProofs ScanLex ScanNext ScanForm TextModel TextSpec TextProofs.
Open Scope string_scope.
Open Scope list_scope.
Open Scope Z_scope.

Lemma zs_xX : zs "xX" = [120; 88]. Proof. reflexivity. Qed.
Lemma zs_oO : zs "oO" = [111; 79]. Proof. reflexivity. Qed.
Lemma zs_bB : zs "bB" = [98; 66]. Proof. reflexivity. Qed.
Lemma zs_eE : zs "eEpP" = [101; 69; 112; 80]. Proof. reflexivity. Qed.
Lemma zs_pm : zs "+-" = [43; 45]. Proof. reflexivity. Qed.
Lemma zs_j : zs "j" = [106]. Proof. reflexivity. Qed.
Lemma rest_at : forall v k s n, Inv v k s -> off s = n -> rest s = skipn n v.
Proof. intros v k s n I <-. eapply rest_off; eauto. Qed.
Lemma accept_hd : forall v k s valid, Inv v k s -> ~ In eof valid -> exists s',
  accept valid s = (mem (hd eof (rest s)) valid, s') /\ Inv v k s' /\
  off s' = (off s + (if mem (hd eof (rest s)) valid then 1 else 0))%nat /\
  rest s' = if mem (hd eof (rest s)) valid then tl (rest s) else rest s.
Proof.
  intros v k s valid I NE. destruct (accept valid s) as [b s'] eqn:E. destruct (accept_spec _ _ _ _ _ _ I NE E) as (A & B). exists s'.
  pose proof (rest_off _ _ _ I) as R. pose proof (rest_off _ _ _ A) as R'. destruct (rest s) as [|x l] eqn:Rs.
  - cbn [hd]. rewrite mem_eof by assumption. destruct B as [-> B]. split; [reflexivity|]. split; [assumption|]. split; [lia|]. rewrite R', B, <-R. reflexivity.
  - cbn [hd tl]. destruct B as [-> B]. split; [reflexivity|]. split; [assumption|]. destruct (mem x valid); (split; [lia|]); rewrite R', B.
    + replace (S (off s)) with (off s + 1)%nat by lia. rewrite <-skipn_skipn, <-R. reflexivity.
    + rewrite <-R. reflexivity.
Qed.
Lemma peek_hd : forall v k s, Inv v k s -> exists s', peek s = (hd eof (rest s), s') /\ Inv v k s' /\ off s' = off s /\ rest s' = rest s.
Proof.
  intros v k s I. destruct (peek s) as [r s'] eqn:E. destruct (peek_spec _ _ _ _ _ I E) as (A1 & A2 & A3 & _ & _ & _ & A7). exists s'.
  split; [|auto]. destruct (rest s); [subst r; reflexivity|]. destruct A7 as (-> & _). reflexivity.
Qed.
Lemma run_hd : forall v k s valid d l, Inv v k s -> ~ In eof valid -> rest s = d ++ l -> Forall (fun r => mem r valid = true) d -> mem (hd eof l) valid = false ->
  exists s', accept_run valid s = Some s' /\ Inv v k s' /\ off s' = (off s + length d)%nat /\ rest s' = l.
Proof.
  intros v k s valid d l I NE R F N. destruct (accept_run_spec v k s valid NE I) as (s' & A & B & C). exists s'. split; [assumption|]. split; [assumption|].
  assert (SP : span (fun r => mem r valid) (rest s) = length d).
  { rewrite R. clear -F N. induction F; cbn [app span length]; [destruct l; [reflexivity|]; cbn in *; rewrite N; reflexivity|]. rewrite H, IHF. reflexivity. }
  rewrite SP in C. split; [assumption|]. rewrite (rest_at _ _ _ _ B C), <-skipn_skipn, <-(rest_off _ _ _ I), R, skipn_app, skipn_all, Nat.sub_diag. reflexivity.
Qed.
Lemma span_app : forall P d l, Forall (fun r => P r = true) d -> P (hd eof l) = false -> span P (d ++ l) = length d.
Proof.
  intros P d l F N. induction F; cbn [app span length]; [destruct l; [reflexivity|]; cbn in *; rewrite N; reflexivity|]. rewrite H, IHF. reflexivity.
Qed.

Section Ctx.
Variable c : sctx.
Notation ib := (ibase c).
Hypothesis lib : legal_base ib.
Lemma base36 : 0 <= ib <= 36. Proof. destruct lib; lia. Qed.

(* what may stand after the digits *)
Definition stop (r : Z) : Prop := r = eof \/ r = 32 \/ r = 10 \/ r = 41 \/ r = 59 \/ r = 91 \/ r = 93.
Definition after_digits (r : Z) : Prop := stop r \/ r = 47 \/ r = 106.
Lemma digit_in : forall r, base_digit ib r -> mem r (digits_for ib) = true.
Proof. intros r [H|H]; apply digit_mem; try exact base36; unfold between; lia. Qed.
Lemma digit_alnum : forall r, base_digit ib r -> is_alnum c r = true.
Proof.
  intros r H. assert (48 <= r <= 57 \/ 97 <= r <= 122) by (destruct lib as [B|B], H as [H|H]; lia). clear H.
  unfold is_alnum, letter, digit. replace (r <? 128) with true by lia. unfold ascii_letter, is_digit, between.
  destruct H0; [replace ((48 <=? r) && (r <=? 57)) with true by lia|replace ((97 <=? r) && (r <=? 122)) with true by lia]; rewrite ?orb_true_r; reflexivity.
Qed.
Lemma digit_numeral : forall r, base_digit ib r -> is_numeral c r = true.
Proof.
  intros r [H|H]; unfold is_numeral, between; [replace ((48 <=? r) && (r <=? 57)) with true by lia; reflexivity|].
  destruct ((48 <=? r) && (r <=? 57)) eqn:E; [reflexivity|]. replace (ib <? 10) with false by lia.
  replace ((97 <=? r) && (r <=? 97 + (ib - 10))) with true by lia. reflexivity.
Qed.
Lemma digit_range : forall r, base_digit ib r -> 48 <= r <= 57 \/ 97 <= r <= 102.
Proof. intros r [H|H]; destruct lib; lia. Qed.
Lemma not_digit : forall b r, legal_base b -> after_digits r -> mem r (digits_for b) = false.
Proof.
  intros b r L A.
  assert (T : forallb (fun b => forallb (fun r => negb (mem r (digits_for b))) [-1; 32; 10; 41; 59; 91; 93; 47; 106]) [0;2;3;4;5;6;7;8;9;10;11;12;13;14;15;16] = true) by (vm_compute; reflexivity).
  rewrite forallb_forall in T. assert (IB : In b [0;2;3;4;5;6;7;8;9;10;11;12;13;14;15;16]) by (cbn; destruct L; lia). specialize (T b IB).
  rewrite forallb_forall in T. apply negb_true_iff, T. cbn. unfold after_digits, stop, eof in A. lia.
Qed.
Lemma stop_terminates : forall v k s, Inv v k s -> (stop (hd eof (rest s)) \/ hd eof (rest s) = 47 \/ hd eof (rest s) = 45) ->
  exists s', at_terminator c s = (true, s') /\ Inv v k s' /\ off s' = off s /\ rest s' = rest s.
Proof.
  intros v k s I H. unfold at_terminator. destruct (peek_hd v k s I) as (s' & -> & I' & O' & R'). exists s'.
  assert (((hd eof (rest s) =? eof) || is_space (hd eof (rest s)) || is_eol (hd eof (rest s)) || punct c (hd eof (rest s)) || symbol c (hd eof (rest s))) = true) as ->; [|auto].
  unfold stop in H. destruct H as [[ -> |[ -> |[ -> |[ -> |[ -> |[ -> | -> ]]]]]]|[ -> | -> ]]; reflexivity.
Qed.
Lemma not_alnum : forall r, (stop r \/ r = 47 \/ r = 45) -> is_alnum c r = false.
Proof. intros r H. unfold stop in H. destruct H as [[ -> |[ -> |[ -> |[ -> |[ -> |[ -> | -> ]]]]]]|[ -> | -> ]]; reflexivity. Qed.

Lemma scan_digits : forall v k s sl j d l, Inv v k s -> rest s = d ++ l -> base_digits ib d -> after_digits (hd eof l) ->
  (hd eof l = 47 -> sl = true) -> (hd eof l = 106 -> j = true) ->
  exists s', scan_number c sl j s = Some (true, s') /\ Inv v k s' /\ off s' = (off s + length d)%nat /\ rest s' = l.
Proof.
  intros v k s0 sl j d l I0 R0 [Nd D] A SL J. unfold scan_number. set (pr := if ib =? 0 then _ else _).
  assert (P : exists dg s d', pr = (dg, s) /\ dg = digits_for ib /\ Inv v k s /\ rest s = d' ++ l /\ Forall (base_digit ib) d' /\ (off s + length d' = off s0 + length d)%nat).
  { unfold pr. destruct (ib =? 0) eqn:Eb; [|exists (digits_for ib), s0, d; auto 8].
    destruct (accept_hd v k s0 (zs "0") I0 ltac:(noteof)) as (s1 & -> & I1 & O1 & R1). destruct d as [|x d]; [contradiction|]. rewrite R0 in O1, R1 |- *. cbn [app hd tl] in *.
    destruct (mem x (zs "0")) eqn:M0; [|exists (digits_for ib), s1, (x :: d); rewrite R1; cbn [length app] in *; split; [reflexivity|]; split; [reflexivity|]; split; [assumption|]; split; [reflexivity|]; split; [assumption|lia]].
    assert (HX : forall w, (w = zs "xX" \/ w = zs "oO" \/ w = zs "bB") -> mem (hd eof (d ++ l)) w = false).
    { intros w Hw. assert (X : 48 <= hd eof (d ++ l) <= 57 \/ after_digits (hd eof (d ++ l))).
      { destruct d as [|y d]; [right; exact A|]. left. cbn. apply Z.eqb_eq in Eb. inversion D as [|? ? ? D']; subst. inversion D' as [|? ? Hy]; subst. destruct Hy as [Hy|Hy]; [exact Hy|]. lia. }
      unfold after_digits, stop, eof in X. revert X. change (hd eof (d ++ l)) with (hd (-1) (d ++ l)). generalize (hd (-1) (d ++ l)) as y. intros y X.
      destruct Hw as [ -> |[ -> | -> ]]; rewrite ?zs_xX, ?zs_oO, ?zs_bB; unfold mem; cbn [existsb]; lia. }
    destruct (accept_hd v k s1 (zs "xX") I1 ltac:(noteof)) as (s2 & -> & I2 & O2 & R2). rewrite R1, HX in * by auto.
    destruct (accept_hd v k s2 (zs "oO") I2 ltac:(noteof)) as (s3 & -> & I3 & O3 & R3). rewrite R2, HX in * by auto.
    destruct (accept_hd v k s3 (zs "bB") I3 ltac:(noteof)) as (s4 & -> & I4 & O4 & R4). rewrite R3, HX in * by auto.
    exists (digits_for ib), s4, d. inversion D; subst. cbn [length] in *. split; [reflexivity|]. split; [reflexivity|]. split; [assumption|]. split; [assumption|]. split; [assumption|lia]. }
  destruct P as (dg & s & d' & -> & -> & I & R & D' & O').
  assert (D2 : Forall (fun r => mem r (digits_for ib) = true) d') by (eapply Forall_impl; [|exact D']; exact digit_in).
  destruct (run_hd v k s _ d' l I (digits_eof ib) R D2 (not_digit ib _ lib A)) as (s1 & -> & I1 & O1 & R1).
  assert (NM : forall w, w = [dot] \/ w = zs "eEpP" -> mem (hd eof l) w = false).
  { intros w Hw. unfold after_digits, stop, eof in A. revert A. change (hd eof l) with (hd (-1) l). generalize (hd (-1) l) as y. intros y X. destruct Hw as [ -> | -> ]; rewrite ?zs_eE; unfold mem, dot; cbn [existsb]; lia. }
  destruct (accept_hd v k s1 [dot] I1 ltac:(noteof)) as (s2 & -> & I2 & O2 & R2). rewrite R1, NM in * by auto. cbv iota.
  destruct (accept_hd v k s2 (zs "eEpP") I2 ltac:(noteof)) as (s4 & -> & I4 & O4 & R4). rewrite R2, NM in * by auto. cbv iota.
  destruct (peek_hd v k s4 I4) as (s6 & -> & I6 & O6 & R6). rewrite R4 in *.
  assert (OF : off s6 = (off s0 + length d)%nat) by lia.
  destruct (sl && (hd eof l =? 47)) eqn:Q1; [exists s6; auto|]. destruct (j && (hd eof l =? 106)) eqn:Q2; [exists s6; auto|].
  assert (ST : stop (hd eof l)).
  { destruct A as [A|[A|A]]; [exact A| |].
    - rewrite (SL A), A in Q1. discriminate Q1.
    - rewrite (J A), A in Q2. discriminate Q2. }
  rewrite not_alnum, andb_false_r by auto. assert ((hd eof l =? dot) = false) as -> by (unfold stop, eof, dot in *; lia).
  destruct (stop_terminates v k s6 I6) as (s7 & -> & I7 & O7 & R7); [rewrite R6; auto|]. exists s7. split; [reflexivity|]. split; [assumption|]. split; [lia|congruence].
Qed.

(* after the number: the end, or the j of a complex number *)
Definition after_real (r : Z) : Prop := stop r \/ r = 106.
Lemma digits_hd : forall d l, base_digits ib d -> exists x d', d = x :: d' /\ base_digit ib x /\ hd eof (d ++ l) = x.
Proof. intros [|x d] l [N D]; [contradiction|]. inversion D; subst. exists x, d. auto. Qed.
Lemma unsigned_scan : forall v k s u l, Inv v k s -> rest s = u ++ l -> unsigned_text ib u -> after_real (hd eof l) ->
  exists s', accept_unsigned c true s = NumOk s' /\ Inv v k s' /\ off s' = (off s + length u)%nat /\ rest s' = l.
Proof.
  intros v k s u l I R U A. unfold accept_unsigned. destruct U as [U|(a & b & Ua & Ub & ->)].
  - destruct (scan_digits v k s true true u l I R U) as (s1 & -> & I1 & O1 & R1); auto; [unfold after_digits, after_real in *; tauto|].
    destruct (peek_hd v k s1 I1) as (s2 & -> & I2 & O2 & R2). rewrite R1. assert ((hd eof l =? 47) = false) as -> by (unfold after_real, stop, eof in *; lia).
    cbn [negb]. exists s2. split; [reflexivity|]. split; [assumption|]. split; [lia|congruence].
  - rewrite <-app_assoc in R. cbn [app] in R.
    destruct (scan_digits v k s true true a (47 :: b ++ l) I R Ua) as (s1 & -> & I1 & O1 & R1); auto; [right; left; reflexivity|].
    destruct (peek_hd v k s1 I1) as (s2 & -> & I2 & O2 & R2). rewrite R1 in *. cbn [hd]. change (47 =? 47) with true. cbn [negb]. cbv zeta.
    destruct (accept_hd v k s2 (zs "/") I2 ltac:(noteof)) as (s4 & E4 & I4 & O4 & R4). rewrite E4. cbn [snd]. rewrite R2 in O4, R4. cbn [hd tl] in *. change (mem 47 (zs "/")) with true in *. cbv iota in *.
    destruct (peek_hd v k s4 I4) as (s5 & -> & I5 & O5 & R5). rewrite R4 in *. destruct (digits_hd b l Ub) as (x & b' & -> & Dx & Hx). rewrite Hx, digit_numeral by assumption.
    rewrite andb_false_r. destruct (scan_digits v k s5 false true (x :: b') l I5 R5 Ub) as (s6 & -> & I6 & O6 & R6); auto; [unfold after_digits, after_real in *; tauto|unfold after_real, stop, eof in *; lia|].
    destruct (peek_hd v k s6 I6) as (s7 & -> & I7 & O7 & R7). rewrite R6. assert ((hd eof l =? dot) = false) as -> by (unfold after_real, stop, eof, dot in *; lia).
    exists s7. split; [reflexivity|]. split; [assumption|]. rewrite app_length. cbn [app length] in *. split; [lia|congruence].
Qed.
Lemma unsigned_hd : forall u l, unsigned_text ib u -> exists x u', u = x :: u' /\ base_digit ib x /\ hd eof (u ++ l) = x.
Proof.
  intros u l [U|(a & b & Ua & _ & ->)]; [apply digits_hd, U|]. destruct (digits_hd a [] Ua) as (x & a' & -> & D & _). exists x, (a' ++ [47] ++ b). auto.
Qed.
Lemma number_scan : forall v k s t l, Inv v k s -> rest s = t ++ l -> real_text ib t -> after_real (hd eof l) ->
  exists s', accept_number c true s = NumOk s' /\ Inv v k s' /\ off s' = (off s + length t)%nat /\ rest s' = l.
Proof.
  intros v k s t l I R T A. unfold accept_number.
  destruct (accept_hd v k s (zs "+-") I ltac:(noteof)) as (s1 & -> & I1 & O1 & R1). destruct T as [U|(u & U & ->)].
  - destruct (unsigned_hd t l U) as (x & u' & E & D & H). rewrite R, H in *. assert (M : mem x (zs "+-") = false) by (apply digit_range in D; rewrite zs_pm; unfold mem; cbn [existsb]; lia).
    rewrite M in *. cbn [andb]. destruct (unsigned_scan v k s1 t l I1 R1 U A) as (s' & A1 & A2 & A3 & A4). exists s'. split; [assumption|]. split; [assumption|]. split; [lia|assumption].
  - rewrite R in *. cbn [app hd tl] in *. change (mem 45 (zs "+-")) with true in *. cbn [andb]. cbv iota in *.
    destruct (peek_hd v k s1 I1) as (s2 & -> & I2 & O2 & R2). rewrite R1 in *. destruct (unsigned_hd u l U) as (x & u' & E & D & H). rewrite H, digit_numeral by assumption.
    assert (((x =? 47) || (x =? 92)) = false) as -> by (apply digit_range in D; lia). rewrite andb_false_r.
    destruct (unsigned_scan v k s2 u l I2 R2 U A) as (s' & A1 & A2 & A3 & A4). exists s'. split; [assumption|]. split; [assumption|]. cbn [length]. split; [lia|assumption].
Qed.
Lemma complex_scan : forall v k s t l, Inv v k s -> rest s = t ++ l -> number_text ib t -> stop (hd eof l) ->
  exists s', lex_complex c s = Emit TNumber s' /\ Inv v k s' /\ off s' = (off s + length t)%nat.
Proof.
  intros v k s t l I R T A. unfold lex_complex. destruct T as [T|(a & b & Ta & Tb & ->)].
  - destruct (number_scan v k s t l I R T) as (s1 & -> & I1 & O1 & R1); [left; exact A|].
    destruct (accept_hd v k s1 (zs "j") I1 ltac:(noteof)) as (s2 & -> & I2 & O2 & R2). rewrite R1 in *.
    assert (M : mem (hd eof l) (zs "j") = false) by (unfold stop, eof in A; rewrite zs_j; unfold mem; cbn [existsb]; change (hd eof l) with (hd (-1) l); lia).
    rewrite M in *. cbn [negb]. exists s2. split; [reflexivity|]. split; [assumption|lia].
  - rewrite <-app_assoc in R. cbn [app] in R.
    destruct (number_scan v k s a (106 :: b ++ l) I R Ta) as (s1 & -> & I1 & O1 & R1); [right; reflexivity|].
    destruct (accept_hd v k s1 (zs "j") I1 ltac:(noteof)) as (s2 & -> & I2 & O2 & R2). rewrite R1 in *. cbn [hd tl] in *. change (mem 106 (zs "j")) with true in *. cbn [negb]. cbv iota in *.
    destruct (number_scan v k s2 b l I2 R2 Tb) as (s3 & -> & I3 & O3 & R3); [left; exact A|].
    exists s3. split; [reflexivity|]. split; [assumption|]. rewrite !app_length. cbn [app length]. lia.
Qed.

Hypothesis nodig : no_digit_operators c.
Lemma number_hd : forall (t l : text), number_text ib t -> exists x t', t = x :: t' /\ (x = 45 \/ base_digit ib x).
Proof.
  assert (R : forall a, real_text ib a -> exists x t', a = x :: t' /\ (x = 45 \/ base_digit ib x)).
  { intros a [U|(u & U & ->)]; [|exists 45, u; auto]. destruct (unsigned_hd a [] U) as (x & a' & -> & D & _). exists x, a'. auto. }
  intros t _ [T|(a & b & Ta & Tb & ->)]; [apply R, T|]. destruct (R a Ta) as (x & a' & -> & D). exists x, (a' ++ [106] ++ b). auto.
Qed.
Lemma minus_tail : forall t, number_text ib (45 :: t) -> number_text ib t.
Proof.
  assert (R : forall a, real_text ib (45 :: a) -> real_text ib a).
  { intros a [U|(u & U & E)]; [|injection E as ->; left; exact U]. destruct (unsigned_hd _ [] U) as (x & a' & E & D & _). injection E as <- _. destruct D as [D|D]; [lia|lia]. }
  intros t [T|(a & b & Ta & Tb & E)]; [left; apply R, T|]. right. destruct a as [|y a].
  - exfalso. destruct Ta as [U|(u & _ & X)]; [|discriminate X]. destruct (unsigned_hd _ [] U) as (? & ? & X & _). discriminate X.
  - injection E as <- ->. exists a, b. auto.
Qed.
Lemma next_sign : forall v k s r s', Inv v k s -> off s = 0%nat -> sign_ok c s -> next s = (r, s') ->
  sign_ok c s'.
Proof.
  intros v k s r s' I O G. unfold next, read_rune.
  destruct (negb (fin s) && Nat.eqb (pos s) (length (input s))) eqn:E.
  - unfold load_line. destruct (take_line (pending s)) as [[b q] d]. pose proof (i_sp _ _ _ I). unfold off in O.
    assert (start s = pos s) as X by lia. rewrite X, Nat.eqb_refl. cbn [pos start input pending fin].
    destruct (Nat.eqb (length b) 0); intros [= <- <-]; left; reflexivity.
  - destruct (Nat.eqb (length (input s)) (pos s)); intros [= <- <-]; exact G.
Qed.
(* the run of letters and digits a number starts with *)
Lemma base_all_digits : forall d l j, Forall (base_digit ib) d -> all_digits (d ++ l) ib j = all_digits l ib j.
Proof.
  intros d l j D. induction D; [reflexivity|]. cbn [app all_digits]. assert (x <> 106) by (apply digit_range in H; lia).
  destruct (x =? 106) eqn:E; [apply Z.eqb_eq in E; contradiction|]. cbn [andb].
  assert (between 48 x 57 || between 97 x (97 + (ib - 10) - 1) = true) as -> by (unfold between; destruct H as [H|H]; lia). exact IHD.
Qed.
Definition run_ok (w t l : text) : Prop :=
  exists q, t = w ++ q /\ w <> [] /\ Forall (fun r => is_alnum c r = true) w /\ all_digits w ib false = true /\
    (stop (hd eof (q ++ l)) \/ hd eof (q ++ l) = 47 \/ hd eof (q ++ l) = 45) /\ exists x w', w = x :: w' /\ base_digit ib x.
Lemma alnum_j : is_alnum c 106 = true. Proof. reflexivity. Qed.
Lemma digits_alnum : forall d, Forall (base_digit ib) d -> Forall (fun r => is_alnum c r = true) d.
Proof. intros d D. eapply Forall_impl; [|exact D]. exact digit_alnum. Qed.
Lemma run_digits : forall d, base_digits ib d -> d <> [] /\ Forall (fun r => is_alnum c r = true) d /\ all_digits d ib false = true /\ exists x w', d = x :: w' /\ base_digit ib x.
Proof.
  intros d D. destruct (digits_hd d [] D) as (x & d' & E & Dx & _). destruct D as [N D]. split; [exact N|]. split; [apply digits_alnum, D|]. split; [|eauto].
  rewrite <-(app_nil_r d), base_all_digits by exact D. reflexivity.
Qed.
Lemma first_run : forall t l x t', number_text ib t -> t = x :: t' -> x <> 45 -> stop (hd eof l) -> exists w, run_ok w t l.
Proof.
  intros t l x t' T E N S.
  assert (R : forall a, real_text ib a -> hd 0 a <> 45 -> unsigned_text ib a).
  { intros a [U|(u & _ & ->)] H; [exact U|]. exfalso. apply H. reflexivity. }
  destruct T as [T|(a & b & Ta & Tb & Eb)].
  - apply R in T; [|rewrite E; exact N]. destruct T as [D|(a & b & Da & Db & ->)].
    + exists t, []. destruct (run_digits t D) as (A1 & A2 & A3 & A4). rewrite app_nil_r. auto 8.
    + exists a, ([47] ++ b). destruct (run_digits a Da) as (A1 & A2 & A3 & A4). cbn [app hd]. auto 8.
  - apply R in Ta; [|destruct a; [cbn; lia|rewrite Eb in E; injection E as -> _; exact N]]. clear E N. subst t. destruct Ta as [D|(a1 & a2 & Da & Db & ->)].
    2: { exists a1, ([47] ++ a2 ++ [106] ++ b). destruct (run_digits a1 Da) as (A1 & A2 & A3 & A4). rewrite <-!app_assoc. cbn [app hd]. auto 10. }
    destruct (run_digits a D) as (A1 & A2 & A3 & x0 & w' & Ew & A4).
    assert (J : forall w q, Forall (base_digit ib) w -> b = w ++ q -> (stop (hd eof (q ++ l)) \/ hd eof (q ++ l) = 47 \/ hd eof (q ++ l) = 45) -> run_ok (a ++ [106] ++ w) (a ++ [106] ++ b) l).
    { intros w q Dw -> H. exists q. rewrite <-!app_assoc. split; [reflexivity|]. split; [destruct a; discriminate|]. split.
      - apply Forall_app; split; [exact A2|]. constructor; [exact alnum_j|apply digits_alnum, Dw].
      - split; [|split; [exact H|]].
        + destruct D as [_ D]. rewrite base_all_digits by exact D. cbn [app all_digits]. change (106 =? 106) with true. cbn [andb negb].
          rewrite <-(app_nil_r w), base_all_digits by exact Dw. reflexivity.
        + rewrite Ew. exists x0, (w' ++ [106] ++ w). auto. }
    destruct Tb as [[Db|(b1 & b2 & Db1 & Db2 & Eb)]|(u & U & Eb)].
    + exists (a ++ [106] ++ b). apply (J b []); [apply Db|rewrite app_nil_r; reflexivity|left; exact S].
    + exists (a ++ [106] ++ b1). apply (J b1 ([47] ++ b2)); [apply Db1|exact Eb|right; left; reflexivity].
    + exists (a ++ [106] ++ []). apply (J [] (45 :: u)); [constructor|exact Eb|right; right; reflexivity].
Qed.
Lemma teq_no : forall w u, w <> u -> teq w u = false.
Proof. intros w u H. destruct (teq w u) eqn:E; [|reflexivity]. apply teq_eq in E. contradiction. Qed.
Lemma no_at : forall r, is_alnum c r = true -> (at_sign =? r) = false.
Proof. intros r H. destruct (at_sign =? r) eqn:E; [|reflexivity]. apply Z.eqb_eq in E. subst r. discriminate H. Qed.
Lemma stop_no_at : forall r, (stop r \/ r = 47 \/ r = 45) -> (at_sign =? r) = false.
Proof. intros r H. unfold stop, eof, at_sign in *. lia. Qed.
Lemma span_none : forall P l, P (hd eof l) = false -> span P l = 0%nat.
Proof. intros P [|x l] H; [reflexivity|]. cbn in *. rewrite H. reflexivity. Qed.
Lemma identifier_number : forall v k s t l, Inv v k s -> off s = 0%nat -> v = t ++ l -> number_text ib t -> stop (hd eof l) -> hd 0 t <> 45 ->
  exists s', lex_identifier c s = Emit TNumber s' /\ Inv v 0 s' /\ off s' = length t.
Proof.
  intros v k s t l I O V T S N. pose proof (rest_off _ _ _ I) as R. rewrite O in R. cbn [skipn] in R. rewrite V in R.
  destruct (number_hd t l T) as (x & t' & Et & _). destruct (first_run t l x t' T Et ltac:(rewrite Et in N; exact N) S) as (w & q & Q1 & Q2 & Q3 & Q4 & Q5 & x0 & w' & Ew & Dx).
  unfold lex_identifier.
  destruct (skip_while_spec v (Z.eqb at_sign) k s eq_refl I) as (s1 & -> & I1 & O1).
  assert (HA : is_alnum c (hd eof (rest s)) = true). { rewrite R, Q1, Ew. cbn. apply digit_alnum, Dx. }
  rewrite span_none in O1 by (apply no_at, HA). rewrite Nat.add_0_r in O1.
  assert (R1 : rest s1 = w ++ q ++ l). { rewrite (rest_eq _ _ _ _ _ I I1 O1), R, Q1, app_assoc. reflexivity. }
  destruct (skip_while_spec v (is_alnum c) k s1 (alnum_eof c) I1) as (s2 & -> & I2 & O2).
  rewrite R1, span_app in O2 by (auto using not_alnum).
  assert (R2 : rest s2 = q ++ l). { rewrite (rest_at _ _ _ _ I2 O2), O1, O, V, Q1, <-app_assoc. cbn [Nat.add]. rewrite skipn_app, skipn_all, Nat.sub_diag. reflexivity. }
  destruct (stop_terminates v k s2 I2) as (s3 & -> & I3 & O3 & R3); [rewrite R2; exact Q5|]. cbn [negb].
  destruct (skip_while_spec v (Z.eqb at_sign) k s3 eq_refl I3) as (s4 & -> & I4 & O4). rewrite R3, R2, span_none in O4 by (apply stop_no_at, Q5).
  cbv zeta. destruct (peek_hd v k s4 I4) as (s5 & -> & I5 & O5 & R5).
  replace (off s1 - off s)%nat with 0%nat by lia. replace (off s4 - off s3)%nat with 0%nat by lia. rewrite Nat.add_0_r, Nat.sub_0_r.
  change (slice s4 (start s4) (pos s4)) with (tok_text s4).
  assert (W : tok_text s4 = w).
  { rewrite (tok_off _ _ _ I4). replace (off s4) with (length w) by lia. rewrite V, Q1, <-app_assoc, firstn_app, firstn_all, Nat.sub_diag. cbn. apply app_nil_r. }
  rewrite W. 
  assert (H0 : forall u, hd 0 u = 111 -> w <> u). { intros u Hu X. subst u. rewrite Ew in Hu. cbn in Hu. apply digit_range in Dx. lia. }
  rewrite (teq_no w (zs "op")), (teq_no w (zs "opdelete")), (teq_no w (zs "o")) by (apply H0; reflexivity). cbn [andb].
  rewrite nodig; [|exact Q4|intros X; rewrite X in Ew; injection Ew as <- _; apply digit_range in Dx; lia|exact Q2].
  rewrite teq_no by exact Q2. cbn [Nat.eqb negb orb]. rewrite Q4.
  assert (I6 : Inv v 0 (set_pos s5 (start s5))).
  { destruct I5 as [H1 H2 H3 H4 H5 H6 H7]. constructor; unfold off, unread in *; cbn [set_pos pos start input pending fin width]; auto; lia. }
  assert (O6 : off (set_pos s5 (start s5)) = 0%nat) by (unfold off; cbn; lia).
  destruct (complex_scan v 0 _ t l I6) as (s' & A & B & C); [rewrite (rest_at _ _ _ _ I6 O6); exact V|exact T|exact S|].
  exists s'. split; [exact A|]. split; [exact B|]. lia.
Qed.
Lemma any_number : forall v s t l, Inv v 0 s -> off s = 0%nat -> v = t ++ l -> number_text ib t -> stop (hd eof l) -> sign_ok c s ->
  exists s', lex_any c s = Emit TNumber s' /\ Inv v 0 s' /\ off s' = length t.
Proof.
  intros v s t l I O V T S G. pose proof (rest_off _ _ _ I) as R. rewrite O in R. cbn [skipn] in R.
  destruct (number_hd t l T) as (x & t' & Et & Hx).
  unfold lex_any. destruct (next s) as [r s1] eqn:E. destruct (next_spec _ _ _ _ _ I E) as (La & H).
  destruct (next_backup _ _ _ _ _ I E) as (B1 & B2 & B3 & _). pose proof (next_sign _ _ _ _ _ I O G E) as G1.
  rewrite R, V, Et in H. cbn [app] in H. destruct H as (-> & Nx & I1 & R1 & O1 & T1 & W1).
  change (x :: t' ++ l) with ((x :: t') ++ l) in I1. rewrite <-Et, <-V in I1.
  assert (X : x = 45 \/ 48 <= x <= 57 \/ 97 <= x <= 102) by (destruct Hx as [Hx|Hx]; [auto|right; apply digit_range, Hx]).
  assert (CB : forall u, Inv v 0 u -> off u = 0%nat -> exists s', lex_complex c u = Emit TNumber s' /\ Inv v 0 s' /\ off s' = length t).
  { intros u Iu Ou. destruct (complex_scan v 0 u t l Iu) as (s' & A & B & C); [rewrite (rest_at _ _ _ _ Iu Ou); exact V|exact T|exact S|].
    exists s'. split; [exact A|]. split; [exact B|]. lia. }
  assert ((x =? eof) = false /\ (x =? nl) = false /\ (x =? 59) = false /\ (x =? 35) = false /\ is_space x = false /\ ((x =? 39) || (x =? 34)) = false /\ (x =? 96) = false) as (-> & -> & -> & -> & -> & -> & ->)
    by (unfold eof, nl, is_space; lia).
  destruct ((x =? 45) || (x =? 43)) eqn:X7.
  { assert (x = 45) by lia. clear La. subst x. destruct (start s1) as [|b] eqn:Es; [apply CB; [exact B1|lia]|].
    cbv zeta. destruct G1 as [G1|(G1 & G2 & G3)]; [lia|]. rewrite Es in G1, G2, G3. cbn [Nat.sub] in G1, G2, G3. rewrite Nat.sub_0_r in G1, G2, G3. rewrite G1.
    assert ((List.nth b (input s1) 0 =? 41) = false) as -> by (apply Z.eqb_neq; exact G2). assert ((List.nth b (input s1) 0 =? 93) = false) as -> by (apply Z.eqb_neq; exact G3). cbn [orb].
    destruct (peek2 s1) as [[r1 r2] s2] eqn:E2. assert (OP : (0 < off s1)%nat) by lia.
    destruct (peek2_spec _ _ _ _ _ _ I1 (or_introl OP) E2) as (I2 & O2 & W2 & L2).
    assert (T' : number_text ib t') by (apply minus_tail; rewrite <-Et; exact T).
    destruct (number_hd t' l T') as (y & t'' & Et' & Hy). rewrite R1, Et' in L2. cbn [app] in L2. destruct L2 as (-> & Ny & L2 & L3).
    assert ((y =? dot) = false) as -> by (unfold dot; destruct Hy as [Hy|Hy]; [lia|apply digit_range in Hy; lia]). cbn [andb].
    destruct (Z.eq_dec (last s2) eof) as [Le|Le].
    - unfold backup. rewrite Le. change (eof =? eof) with true. cbv iota.
      destruct (complex_scan v 1 s2 t' l I2) as (s' & A & B & C); [rewrite (rest_eq _ _ _ _ _ I1 I2 O2); exact R1|exact T'|exact S|].
      exists s'. split; [exact A|]. split; [apply inv_le with 1%nat; [exact B|lia]|]. rewrite Et. cbn [length]. lia.
    - pose proof (backup_inv _ _ _ I2) as I3. apply CB; [exact I3|]. clear -I2 Le O2 O1 O W2 W1. unfold backup.
      destruct (last s2 =? eof) eqn:Q; [apply Z.eqb_eq in Q; contradiction|]. pose proof (i_sp _ _ _ I2). unfold off in *.
      destruct (Nat.eqb (pos s2) (start s2)) eqn:Q1; [apply Nat.eqb_eq in Q1; lia|].
      destruct (Nat.ltb (start s2) (pos s2)) eqn:Q2; [|apply Nat.ltb_ge in Q2; lia]. cbn [pos start set_pos]. lia. }
  destruct ((x =? dot) || is_digit x) eqn:X8; [apply CB; [exact B1|lia]|].
  assert (XL : 97 <= x <= 102) by (unfold is_digit, between, dot in X8; lia). clear X.
  assert ((x =? 61) = false) as -> by lia.
  destruct (is_operator_spec v 0 x s1 I1 La Nx W1) as (b & s2 & Eo & Q1 & Q2). rewrite Eo.
  assert (b = false).
  { unfold is_operator in Eo. cbn [skip_ats] in Eo. assert ((x =? at_sign) = false) as Z by (unfold at_sign; lia). rewrite Z in Eo. unfold is_operator_token in Eo.
    assert (mem x (zs "?+-/&|^") = false) as M by (change (zs "?+-/&|^") with [63; 43; 45; 47; 38; 124; 94]; unfold mem; cbn [existsb]; lia). rewrite M in Eo.
    assert ((x =? 44) = false /\ ((x =? 33) || (x =? 61)) = false /\ (x =? 62) = false /\ (x =? 60) = false /\ (x =? 42) = false) as (M1 & M2 & M3 & M4 & M5) by lia.
    rewrite M1, M2, M3, M4, M5 in Eo. injection Eo as <- _. reflexivity. }
  subst b. destruct (Q2 eq_refl) as (Q3 & Q4 & Q5 & Q6). assert (s2 = s1) by (apply Q6; unfold at_sign; lia). subst s2.
  rewrite digit_alnum by (destruct Hx as [Hx|Hx]; [lia|exact Hx]). cbn [orb].
  apply identifier_number with 0%nat l; [exact B1|lia|exact V|exact T|exact S|]. rewrite Et. cbn. lia.
Qed.

Lemma blank_space : forall r, blank r -> is_space r = true.
Proof. intros r [ -> | -> ]; reflexivity. Qed.
Lemma last_nth : forall s, (start s < pos s <= length (input s))%nat -> nth (pos s - 1) (input s) 0 = nth (off s - 1) (tok_text s) 0.
Proof.
  intros s H. unfold tok_text, slice, off.
  rewrite <-(firstn_skipn (start s) (input s)) at 1. rewrite app_nth2; rewrite firstn_length, Nat.min_l by lia; [|lia].
  replace (pos s - 1 - start s)%nat with (pos s - start s - 1)%nat by lia.
  rewrite <-(firstn_skipn (pos s - start s) (skipn (start s) (input s))) at 1. rewrite app_nth1; [reflexivity|]. rewrite firstn_length, skipn_length. lia.
Qed.
Lemma any_blank : forall v s gap u, Inv v 0 s -> off s = 0%nat -> v = gap ++ u -> gap <> [] -> Forall blank gap -> is_space (hd eof u) = false ->
  exists s', lex_any c s = Again s' /\ Inv u 0 s' /\ off s' = 0%nat /\ sign_ok c s'.
Proof.
  intros v s gap u I O V N B HU. destruct gap as [|x gap]; [contradiction|]. clear N. cbn [app] in V. subst v. set (v := x :: gap ++ u) in *.
  pose proof (rest_off _ _ _ I) as R. rewrite O in R. cbn [skipn] in R. inversion B as [|? ? Bx Bg]; subst.
  unfold lex_any. destruct (next s) as [r s1] eqn:E. destruct (next_spec _ _ _ _ _ I E) as (La & H). rewrite R in H. unfold v in H at 1.
  destruct H as (-> & Nx & I1 & R1 & O1 & T1 & W1).
  assert ((x =? eof) = false /\ (x =? nl) = false /\ (x =? 59) = false /\ (x =? 35) = false) as (-> & -> & -> & ->) by (unfold eof, nl; destruct Bx; lia).
  rewrite blank_space by exact Bx.
  destruct (skip_while_spec v is_space 1 s1 eq_refl I1) as (s2 & -> & I2 & O2).
  rewrite R1, span_app in O2; [|eapply Forall_impl; [|exact Bg]; exact blank_space|exact HU].
  assert (R2 : rest s2 = u). { assert (OO : off s2 = S (length gap)) by lia. rewrite (rest_at _ _ _ _ I2 OO). unfold v. cbn [skipn]. rewrite skipn_app, skipn_all, Nat.sub_diag. reflexivity. }
  exists (mkSc (input s2) (pending s2) (fin s2) (pos s2) (pos s2) (last s2) (width s2)). split; [reflexivity|].
  assert (TT : nth (pos s2 - 1) (input s2) 0 = nth (length gap) (x :: gap) 0).
  { pose proof (i_sp _ _ _ I2). pose proof (i_pl _ _ _ I2). pose proof (i_k _ _ _ I2) as K. unfold off in K. rewrite last_nth by lia.
    rewrite (tok_off _ _ _ I2), O2, O1, O. cbn [Nat.add Nat.sub]. rewrite Nat.sub_0_r. unfold v. cbn [firstn]. rewrite firstn_app, Nat.sub_diag, firstn_all. cbn [firstn]. rewrite app_nil_r. reflexivity. }
  assert (BL : blank (nth (length gap) (x :: gap) 0)). { rewrite Forall_forall in B. apply B, nth_In. cbn. lia. }
  pose proof (i_nn _ _ _ I2) as NN. unfold v in NN. rewrite app_comm_cons in NN. apply Forall_app in NN.
  destruct I2 as [H1 H2 H3 H4 H5 H6 H7]. split; [|split].
  - constructor; unfold off, unread; cbn [pos start input pending fin width]; auto; [apply NN|lia].
  - unfold off. cbn. lia.
  - right. cbn [start input]. rewrite TT. destruct BL as [ -> | -> ]; (split; [reflexivity|]); lia.
Qed.
Lemma number_end_stop : forall l, number_end l -> stop (hd eof l).
Proof. intros l H. exact H. Qed.
Lemma emit_text : forall v s t l, Inv v 0 s -> v = t ++ l -> off s = length t -> tok_text s = t /\ rest s = l.
Proof.
  intros v s t l I V O. rewrite (tok_off _ _ _ I), (rest_off _ _ _ I), O, V, firstn_app, firstn_all, Nat.sub_diag, skipn_app, skipn_all, Nat.sub_diag. cbn. rewrite app_nil_r. auto.
Qed.
Lemma number_not_blank : forall t l, number_text ib t -> is_space (hd eof (t ++ l)) = false.
Proof.
  intros t l T. destruct (number_hd t l T) as (x & t' & -> & H). cbn. destruct H as [ -> |H]; [reflexivity|]. apply digit_range in H. unfold is_space. lia.
Qed.
Theorem next_number : forall s gap t l, between_tokens s -> Forall blank gap -> to_come s = gap ++ t ++ l -> number_text ib t -> number_end l ->
  (gap = [] -> sign_ok c s) ->
  exists s', Next c s = Some (mkTok TNumber t, s') /\ to_come s' = l /\ between_tokens s'.
Proof.
  intros s gap t l [K B] BG TC T S G. apply number_end_stop in S. unfold Next. set (s0 := mkSc (input s) (pending s) (fin s) (pos s) (start s) eof 0).
  assert (I : Inv (unread s0) 0 s0).
  { apply inv_ok. split; [|reflexivity]. destruct K as (K1 & K2 & K3 & K4). repeat split; cbn; auto; lia. }
  assert (LR : (length (to_come s) <= room s)%nat) by exact (left_room s).
  destruct B as [B|B]; [|rewrite B in TC; destruct (number_hd t l T) as (? & ? & -> & _); destruct gap; discriminate TC].
  assert (U : unread s0 = to_come s). { unfold unread, to_come, s0. cbn [start input pending]. rewrite B. reflexivity. }
  rewrite U in I. assert (O : off s0 = 0%nat) by (unfold off, s0; cbn; lia).
  assert (F : forall n u v, Inv v 0 u -> v = t ++ l -> off u = 0%nat -> sign_ok c u ->
    exists s', run_states c (Datatypes.S n) u = Some (mkTok TNumber t, s') /\ to_come s' = l /\ between_tokens s').
  { intros n u v Iu Vu Ou Gu. destruct (any_number v u t l Iu Ou Vu T S Gu) as (s1 & A1 & A2 & A3). cbn [run_states]. rewrite A1.
    destruct (emit_text v s1 t l A2 Vu A3) as [E1 E2]. rewrite E1. destruct (past_ok _ _ _ A2) as (P1 & P2 & P3).
    eexists. split; [reflexivity|]. split; [exact (eq_trans P2 E2)|exact P3]. }
  destruct gap as [|g gap].
  - cbn [app] in TC. eapply F; eauto.
  - destruct (any_blank (to_come s) s0 (g :: gap) (t ++ l) I O TC ltac:(discriminate) BG (number_not_blank t l T)) as (s1 & A1 & A2 & A3 & A4).
    cbn [run_states]. rewrite A1. eapply F; eauto.
Qed.
Theorem numbers_read : forall ts s l, between_tokens s -> ts <> [] -> Forall (number_text ib) ts -> to_come s = spaced ts ++ l -> number_end l -> sign_ok c s ->
  exists s', reads c s (map (mkTok TNumber) ts) s' /\ to_come s' = l /\ between_tokens s'.
Proof.
  intros ts s l B N F TC E G. destruct ts as [|t ts]; [contradiction|]. clear N. inversion F as [|? ? T Ft]; subst.
  assert (L : forall ts s, between_tokens s -> Forall (number_text ib) ts -> to_come s = flat_map (fun t => [32] ++ t) ts ++ l ->
     exists s', reads c s (map (mkTok TNumber) ts) s' /\ to_come s' = l /\ between_tokens s').
  { clear -E lib nodig. induction ts as [|t ts IH]; intros s B F TC; [exists s; cbn; auto|]. inversion F as [|? ? T Ft]; subst.
    cbn [flat_map] in TC. rewrite <-!app_assoc in TC.
    destruct (next_number s [32] t (flat_map (fun t => [32] ++ t) ts ++ l) B) as (s1 & A1 & A2 & A3); auto.
    - constructor; [left; reflexivity|constructor].
    - destruct ts; [exact E|]. right. left. reflexivity.
    - discriminate.
    - destruct (IH s1 A3 Ft A2) as (s' & C1 & C2 & C3). exists s'. split; [|auto]. cbn [map reads]. exists s1. auto. }
  assert (SP : forall t ts, spaced (t :: ts) = t ++ flat_map (fun t => [32] ++ t) ts).
  { clear. intros t ts. revert t. induction ts as [|u ts IH]; intros t; [cbn; rewrite app_nil_r; reflexivity|]. change (spaced (t :: u :: ts)) with (t ++ [32] ++ spaced (u :: ts)). rewrite IH. reflexivity. }
  rewrite SP, <-app_assoc in TC.
  destruct (next_number s [] t (flat_map (fun t => [32] ++ t) ts ++ l) B) as (s1 & A1 & A2 & A3); auto.
  - destruct ts; [exact E|]. right. left. reflexivity.
  - destruct (L ts s1 A3 Ft A2) as (s' & C1 & C2 & C3). exists s'. split; [|auto]. cbn [map reads]. exists s1. auto.
Qed.
End Ctx.

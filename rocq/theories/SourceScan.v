(* Reading the spellings of operators. *)
From Coq Require Import String ZifyBool.
From Verif Require Import Value NumModel NumSpec Syntax ExecModel ScanModel ScanSpec ScanProofs ScanLex ScanNext ScanForm TextModel TextSpec TextScan StrModel StrSpec StrProofs ReadModel ReadScan SaveModel SourceModel SourceSpec.
Open Scope string_scope.
Open Scope list_scope.
Open Scope Z_scope.

Lemma opt_yes : forall v k s x l, Inv v k s -> rest s = x :: l -> exists s', opt_next x s = (true, s') /\ Inv v k s' /\ off s' = S (off s) /\ rest s' = l.
Proof.
  intros v k s x l I R. unfold opt_next. destruct (peek_hd v k s I) as (s1 & -> & I1 & O1 & R1). rewrite R in *. cbn [hd]. rewrite Z.eqb_refl.
  destruct (next s1) as [r s2] eqn:N. destruct (next_spec _ _ _ _ _ I1 N) as (_ & H). rewrite R1 in H.
  destruct H as (-> & _ & I2 & R2 & O2 & _). exists s2. split; [reflexivity|]. split; [apply inv_le with (S k); [exact I2|lia]|]. split; [lia|exact R2].
Qed.
Lemma opt_no : forall v k s x, Inv v k s -> hd eof (rest s) <> x -> exists s', opt_next x s = (false, s') /\ Inv v k s' /\ off s' = off s /\ rest s' = rest s.
Proof.
  intros v k s x I R. unfold opt_next. destruct (peek_hd v k s I) as (s1 & -> & I1 & O1 & R1). replace (hd eof (rest s) =? x) with false by lia. exists s1. auto.
Qed.
Lemma next_hd : forall v k s x l, Inv v k s -> rest s = x :: l -> exists s', next s = (x, s') /\ Inv v (S k) s' /\ off s' = S (off s) /\ rest s' = l /\ last s' = x /\ width s' = 1%nat.
Proof.
  intros v k s x l I R. destruct (next s) as [r s'] eqn:N. destruct (next_spec _ _ _ _ _ I N) as (L & H). rewrite R in H. destruct H as (-> & _ & I' & R' & O' & _ & W').
  exists s'. split; [reflexivity|]. auto 10.
Qed.

(* ---- symbols ---- *)
(* characters that do not prolong a symbol *)
Definition ends_symbol (r : Z) : Prop := r = 64 \/ r = 47 \/ r = 92 \/ r = 46 \/ r = 32.
Lemma rest_step : forall v k k' s s' a l, Inv v k s -> Inv v k' s' -> rest s = a ++ l -> off s' = (off s + length a)%nat -> rest s' = l.
Proof.
  intros v k k' s s' a l I I' R O. rewrite (rest_at _ _ _ _ I' O). rewrite (rest_off _ _ _ I) in R.
  rewrite <-(skipn_skipn _ v (length a) (off s)), R, skipn_app, skipn_all, Nat.sub_diag. reflexivity.
Qed.
Lemma symbol_token : forall v k s r t l, Inv v k s -> In (r :: t) symbols -> rest s = t ++ l -> ends_symbol (hd eof l) ->
  exists s', is_operator_token r s = (true, s') /\ Inv v k s' /\ off s' = (off s + length t)%nat /\ rest s' = l.
Proof.
  intros v k s r t l I H R E.
  assert (Q : hd eof l <> 37 /\ hd eof l <> 60 /\ hd eof l <> 61 /\ hd eof l <> 62 /\ hd eof l <> 42) by (unfold ends_symbol in E; lia).
  destruct Q as (Q1 & Q2 & Q3 & Q4 & Q5).
  unfold symbols in H. cbn [map In] in H.
  repeat (destruct H as [H|H]; [cbn in H; injection H as <- <-; cbn [app length] in *|]); [..|destruct H];
    try (exists s; split; [reflexivity|]; split; [exact I|split; [lia|exact R]]);
    unfold is_operator_token; cbn -[opt_next].
  - destruct (opt_no v k s 37 I ltac:(rewrite R; assumption)) as (s1 & -> & I1 & O1 & R1). exists s1. rewrite R1, R. split; [reflexivity|]. split; [exact I1|]. split; [lia|reflexivity].
  - destruct (opt_yes v k s 37 l I R) as (s1 & -> & I1 & O1 & R1). exists s1. split; [reflexivity|]. split; [exact I1|]. split; [lia|exact R1].
  - destruct (opt_no v k s 61 I ltac:(rewrite R; assumption)) as (s1 & -> & I1 & O1 & R1). exists s1. rewrite R1, R. split; [reflexivity|]. split; [exact I1|]. split; [lia|reflexivity].
  - destruct (opt_yes v k s 61 l I R) as (s1 & -> & I1 & O1 & R1).
    destruct (opt_no v k s1 61 I1 ltac:(rewrite R1; assumption)) as (s2 & -> & I2 & O2 & R2). exists s2. rewrite R2, R1. split; [reflexivity|]. split; [exact I2|]. split; [lia|reflexivity].
  - destruct (opt_yes v k s 61 (61 :: l) I R) as (s1 & -> & I1 & O1 & R1).
    destruct (opt_yes v k s1 61 l I1 R1) as (s2 & -> & I2 & O2 & R2). exists s2. split; [reflexivity|]. split; [exact I2|]. split; [lia|exact R2].
  - destruct (opt_yes v k s 61 l I R) as (s1 & -> & I1 & O1 & R1).
    destruct (opt_no v k s1 61 I1 ltac:(rewrite R1; assumption)) as (s2 & -> & I2 & O2 & R2). exists s2. rewrite R2, R1. split; [reflexivity|]. split; [exact I2|]. split; [lia|reflexivity].
  - destruct (opt_yes v k s 61 (61 :: l) I R) as (s1 & -> & I1 & O1 & R1).
    destruct (opt_yes v k s1 61 l I1 R1) as (s2 & -> & I2 & O2 & R2). exists s2. split; [reflexivity|]. split; [exact I2|]. split; [lia|exact R2].
  - destruct (opt_no v k s 62 I ltac:(rewrite R; assumption)) as (s1 & -> & I1 & O1 & R1).
    destruct (opt_no v k s1 61 I1 ltac:(rewrite R1, R; assumption)) as (s2 & -> & I2 & O2 & R2). exists s2. rewrite R2, R1, R. split; [reflexivity|]. split; [exact I2|]. split; [lia|reflexivity].
  - destruct (opt_yes v k s 62 l I R) as (s1 & -> & I1 & O1 & R1). exists s1. split; [reflexivity|]. split; [exact I1|]. split; [lia|exact R1].
  - destruct (opt_no v k s 62 I ltac:(rewrite R; discriminate)) as (s1 & -> & I1 & O1 & R1). rewrite R in R1.
    destruct (opt_yes v k s1 61 l I1 R1) as (s2 & -> & I2 & O2 & R2). exists s2. split; [reflexivity|]. split; [exact I2|]. split; [lia|exact R2].
  - destruct (opt_no v k s 60 I ltac:(rewrite R; assumption)) as (s1 & -> & I1 & O1 & R1).
    destruct (opt_no v k s1 61 I1 ltac:(rewrite R1, R; assumption)) as (s2 & -> & I2 & O2 & R2). exists s2. rewrite R2, R1, R. split; [reflexivity|]. split; [exact I2|]. split; [lia|reflexivity].
  - destruct (opt_yes v k s 60 l I R) as (s1 & -> & I1 & O1 & R1). exists s1. split; [reflexivity|]. split; [exact I1|]. split; [lia|exact R1].
  - destruct (opt_no v k s 60 I ltac:(rewrite R; discriminate)) as (s1 & -> & I1 & O1 & R1). rewrite R in R1.
    destruct (opt_yes v k s1 61 l I1 R1) as (s2 & -> & I2 & O2 & R2). exists s2. split; [reflexivity|]. split; [exact I2|]. split; [lia|exact R2].
  - destruct (opt_no v k s 42 I ltac:(rewrite R; assumption)) as (s1 & -> & I1 & O1 & R1). exists s1. rewrite R1, R. split; [reflexivity|]. split; [exact I1|]. split; [lia|reflexivity].
  - destruct (opt_yes v k s 42 l I R) as (s1 & -> & I1 & O1 & R1). exists s1. split; [reflexivity|]. split; [exact I1|]. split; [lia|exact R1].
Qed.

(* ---- @ ---- *)
Lemma ats_span : forall n l, hd eof l <> 64 -> span (Z.eqb at_sign) (ats n ++ l) = n.
Proof. induction n as [|n IH]; intros l H; [apply span_none; change (ats 0 ++ l) with l; unfold at_sign; lia|]. cbn. rewrite IH by exact H. reflexivity. Qed.
Lemma skip_ats_while : forall v k s n l, Inv v k s -> rest s = ats n ++ l -> hd eof l <> 64 ->
  exists s', skip_while (Z.eqb at_sign) s = Some s' /\ Inv v k s' /\ off s' = (off s + n)%nat /\ rest s' = l.
Proof.
  intros v k s n l I R H. destruct (skip_while_spec v (Z.eqb at_sign) k s eq_refl I) as (s' & -> & I' & O'). exists s'. rewrite R, ats_span in O' by exact H.
  split; [reflexivity|]. split; [exact I'|]. split; [exact O'|]. eapply rest_step; [exact I|exact I'|exact R|]. unfold ats. rewrite repeat_length. exact O'.
Qed.
(* is_operator's loop: the first character has been read *)
Lemma skip_ats_hd : forall v n m k j s x l, Inv v k s -> x <> at_sign -> 0 <= x -> (m < n)%nat ->
  rest s = match m with O => l | S m' => ats m' ++ x :: l end ->
  exists s', skip_ats n (match m with O => x | S _ => at_sign end) j s = Some (x, (j + m)%nat, s') /\ Inv v k s' /\ off s' = (off s + m)%nat /\ rest s' = l /\
    (m <> O -> last s' = x /\ width s' = 1%nat /\ Inv v (k + m) s') /\ (m = O -> s' = s).
Proof.
  intros v. induction n as [|n IH]; intros m k j s x l I X P L R; [lia|]. cbn [skip_ats]. destruct m as [|m].
  - replace (x =? at_sign) with false by (unfold at_sign in *; lia). exists s. rewrite Nat.add_0_r. split; [reflexivity|]. split; [exact I|]. split; [lia|]. split; [exact R|]. split; [contradiction|reflexivity].
  - rewrite Z.eqb_refl. destruct m as [|m].
    + cbn [ats repeat app] in R. destruct (next_hd v k s x l I R) as (s1 & -> & I1 & O1 & R1 & L1 & W1).
      destruct n as [|n]; [lia|]. cbn [skip_ats]. replace (x =? at_sign) with false by (unfold at_sign in *; lia). exists s1. split; [f_equal; f_equal; f_equal; lia|]. split; [apply inv_le with (S k); [exact I1|lia]|].
      split; [lia|]. split; [exact R1|]. split; [intros _; split; [exact L1|split; [exact W1|replace (k + 1)%nat with (S k) by lia; exact I1]]|discriminate].
    + cbn [ats repeat app] in R. destruct (next_hd v k s 64 _ I R) as (s1 & -> & I1 & O1 & R1 & L1 & W1). change 64 with at_sign.
      destruct (IH (S m) (S k) (S j) s1 x l I1 X P ltac:(lia) R1) as (s' & A1 & A2 & A3 & A4 & A5 & A6). cbn iota in A1. rewrite A1.
      exists s'. split; [f_equal; f_equal; f_equal; lia|]. split; [apply inv_le with (S k); [exact A2|lia]|]. split; [lia|]. split; [exact A4|].
      split; [intros _; destruct (A5 ltac:(discriminate)) as (B1 & B2 & B3); split; [exact B1|split; [exact B2|replace (k + S (S m))%nat with (S k + S m)%nat by lia; exact B3]]|discriminate].
Qed.
Lemma trim_core : forall m s n, hd 0 s <> 64 -> List.last s 0 <> 64 -> s <> [] -> trim (ats m ++ s ++ ats n) = s.
Proof.
  assert (T : forall m l, hd 0 l <> 64 -> trim_ats (ats m ++ l) = l).
  { induction m as [|m IH]; intros l H; [|cbn; apply IH, H]. destruct l as [|x l]; [reflexivity|]. cbn in *. replace (x =? at_sign) with false by (unfold at_sign; lia). reflexivity. }
  intros m s n H1 H2 NE. unfold trim. rewrite T; [|destruct s; [contradiction|exact H1]]. rewrite rev_app_distr.
  assert (rev (ats n) = ats n) as ->. { unfold ats. induction n as [|n IH]; [reflexivity|]. cbn. rewrite IH. clear. induction n; [reflexivity|]. cbn. f_equal. exact IHn. }
  rewrite T; [apply rev_involutive|]. destruct (exists_last NE) as (s' & x & ->). rewrite rev_app_distr. rewrite last_last in H2. exact H2.
Qed.

(* ---- the start of a token stays ---- *)
Lemma peek_start : forall v k s r s', Inv v k s -> (0 < off s)%nat -> peek s = (r, s') -> start s' = start s /\ pos s' = pos s.
Proof.
  intros v k s r s' I O. unfold peek. destruct (read_rune s) as [[r0 w] s1] eqn:E. intros [= <- <-]. destruct (read_start _ _ _ _ _ _ I (or_introl O) E) as (A & B & _). auto.
Qed.
Lemma while_start : forall v P n k s s', P eof = false -> Inv v k s -> (0 < off s)%nat -> next_while P n s = Some s' -> start s' = start s.
Proof.
  intros v P. induction n as [|n IH]; intros k s s' PE I O; [discriminate|]. cbn [next_while]. destruct (next s) as [r s1] eqn:E.
  pose proof (next_start _ _ _ _ _ I (or_introl O) E) as ST. destruct (next_spec _ _ _ _ _ I E) as (L1 & H).
  assert (I1 : Inv v k s1) by (pose proof (next_mono _ _ _ I) as X; rewrite E in X; exact X).
  assert (O1 : (0 < off s1)%nat) by (destruct (rest s); [destruct H as (_ & _ & _ & H & _)|destruct H as (_ & _ & _ & _ & H & _)]; lia).
  destruct (P r).
  - intros W. rewrite (IH k s1 s' PE I1 O1 W). apply ST.
  - intros [= <-]. unfold backup. destruct (last s1 =? eof); [apply ST|]. replace (Nat.eqb (pos s1) (start s1)) with false by (unfold off in O1; symmetry; apply Nat.eqb_neq; lia).
    destruct (Nat.ltb _ _); cbn [set_pos start]; apply ST.
Qed.
(* ---- the end of an operator ---- *)
Section Op.
Variable c : sctx.
Lemma tok_is : forall v k s t l, Inv v k s -> v = t ++ l -> off s = length t -> tok_text s = t.
Proof. intros v k s t l I V O. rewrite (tok_off _ _ _ I), O, V, firstn_app, firstn_all, Nat.sub_diag. cbn. apply app_nil_r. Qed.
Definition kind (w : text) : ttype := if is_identifier c w then TIdent else TOperator.
Definition ends_with (v : text) (w : text) (r : lexed) : Prop := exists s1, r = Emit (kind w) s1 /\ Inv v 0 s1 /\ off s1 = length w.
Lemma operator_end : forall v s w l, Inv v 0 s -> v = w ++ l -> off s = length w -> ends_with v w (lex_operator_end c s).
Proof. intros v s w l I V O. exists s. unfold lex_operator_end, kind. rewrite (tok_is _ _ _ _ _ I V O). destruct (is_identifier c w); auto. Qed.
Lemma symbol_first : forall s, In s symbols -> exists r t, s = r :: t /\ is_digit r = false /\ is_alnum c r = false /\ r <> 64 /\ 0 <= r /\ is_space r = false /\ List.last s 0 <> 64 /\ letter c r = false /\ r <> 95.
Proof.
  intros s H. unfold symbols in H. cbn [map In] in H.
  repeat (destruct H as [H|H]; [cbn in H; subst s; eexists; eexists; split; [reflexivity|]; split; [reflexivity|]; split; [reflexivity|]; split; [lia|]; split; [lia|]; split; [reflexivity|]; split; [cbn; lia|]; split; [reflexivity|lia]|]).
  destruct H.
Qed.
Lemma spelled_word : forall w, spelled c w -> word c w. Proof. intros w (A & B & C & _). split; [exact A|split; [exact B|exact C]]. Qed.
Lemma word_first : forall w, spelled c w -> exists r t, w = r :: t /\ is_digit r = false /\ is_alnum c r = true /\ r <> 64 /\ 0 <= r /\ is_space r = false /\ List.last w 0 <> 64 /\ Forall (fun r => is_alnum c r = true) t /\ r <> 46.
Proof.
  intros w (NE & F & D & _). destruct w as [|r t]; [contradiction|]. exists r, t. inversion F as [|? ? A B]; subst. pose proof (alnum_spec c r A). cbn [hd] in D.
  assert (LA : forall l, l <> [] -> Forall (fun r => is_alnum c r = true) l -> List.last l 0 <> 64).
  { intros l N G. destruct (exists_last N) as (l' & x & ->). rewrite last_last. apply Forall_app in G. destruct G as [_ G]. apply Forall_inv in G. pose proof (alnum_spec c x G). lia. }
  split; [reflexivity|]. split; [exact D|]. split; [exact A|]. split; [lia|]. split; [lia|]. split; [unfold is_space; lia|]. split; [apply LA; assumption|]. split; [exact B|lia].
Qed.
(* lexOperator with the name read, but perhaps not all @ after it *)
Lemma lex_operator_text : forall v s0 m core i j x l, Inv v 0 s0 -> v = (ats m ++ core ++ ats (i + j) ++ x) ++ 32 :: l -> off s0 = (m + length core + i)%nat ->
  trim (ats m ++ core ++ ats (i + j)) = core -> suffix c x -> (x <> [] -> binary_name c core \/ (core = zs "o" /\ m = O /\ (i + j = 0)%nat)) ->
  ends_with v (ats m ++ core ++ ats (i + j) ++ x) (lex_operator c s0).
Proof.
  intros v s0 m core i j x l I V O T SX BN.
  assert (ATS : ats (i + j) = ats i ++ ats j) by (unfold ats; apply repeat_app).
  assert (LA : forall n, length (ats n) = n) by (intros; apply repeat_length).
  assert (R0 : rest s0 = ats j ++ x ++ 32 :: l).
  { rewrite (rest_off _ _ _ I), O, V. replace (m + length core + i)%nat with (length (ats m ++ core ++ ats i)) by (rewrite !app_length, !LA; lia).
    replace ((ats m ++ core ++ ats (i + j) ++ x) ++ 32 :: l) with ((ats m ++ core ++ ats i) ++ ats j ++ x ++ 32 :: l) by (rewrite ATS, <-!app_assoc; reflexivity).
    rewrite skipn_app, skipn_all, Nat.sub_diag. reflexivity. }
  unfold lex_operator.
  destruct (skip_ats_while v 0 s0 j (x ++ 32 :: l) I R0) as (s & -> & I1 & O1 & R1).
  { destruct SX as [ -> |[H|(y & -> & _)]]; [discriminate| |discriminate]. cbn in H. repeat (destruct H as [<-|H]; [discriminate|]). destruct H. }
  cbv zeta. assert (TW : tok_text s = ats m ++ core ++ ats (i + j)).
  { apply (tok_is v 0 s _ (x ++ 32 :: l) I1); [rewrite V, <-!app_assoc; reflexivity|]. rewrite !app_length, !LA. lia. }
  rewrite TW, T.
  assert (DEC : x = [] \/ x <> []) by (destruct x; [left; reflexivity|right; discriminate]). destruct DEC as [X|X].
  { subst x. cbn [app] in *. rewrite app_nil_r in *.
    assert (E : ends_with v (ats m ++ core ++ ats (i + j)) (lex_operator_end c s)) by (apply (operator_end v s _ _ I1 V); rewrite !app_length, !LA; lia).
    destruct (_ || _ || _); [|exact E]. destruct (peek_hd v 0 s I1) as (s1 & -> & I2 & O2 & R2). rewrite R1. cbn [hd Z.eqb Pos.eqb orb].
    change (32 =? dot) with false. cbv iota. apply (operator_end v s1 _ _ I2 V). rewrite !app_length, !LA. lia. }
  assert (TAKE : (teq (ats m ++ core ++ ats (i + j)) (zs "o") || binary_op c core || user_binary c core) = true).
  { destruct (BN X) as [[B|B]|(-> & -> & E)]; [rewrite B; apply orb_true_iff; left; apply orb_true_r|rewrite B; apply orb_true_r|rewrite E; reflexivity]. }
  rewrite TAKE. destruct (peek_hd v 0 s I1) as (s1 & -> & I2 & O2 & R2). rewrite R1 in R2 |- *.
  destruct SX as [SX|[SX|(y & Y & SX)]]; [contradiction| |].
  - (* / \ *)
    assert (K : exists z p, x = z :: p /\ (z = 47 \/ z = 92) /\ (p = [] \/ p = [37])).
    { unfold reducing in SX. cbn in SX. destruct SX as [<-|[<-|[<-|[<-|[]]]]]; eexists; eexists; (split; [reflexivity|]); (split; [first [left; reflexivity|right; reflexivity]|]); first [left; reflexivity|right; reflexivity]. }
    destruct K as (z & p & -> & Z1 & P1). cbn [app hd] in *. replace ((z =? 47) || (z =? 92)) with true by lia.
    destruct (next_hd v 0 s1 z _ I2 R2) as (s2 & -> & I3 & O3 & R3 & _). cbn [snd].
    assert (I3' : Inv v 0 s2) by (apply inv_le with 1%nat; [exact I3|lia]).
    destruct P1 as [-> | ->]; cbn [app] in R3.
    + destruct (opt_no v 0 s2 37 I3' ltac:(rewrite R3; discriminate)) as (s3 & -> & I4 & O4 & R4). cbn [snd]. apply (operator_end v s3 _ _ I4 V). rewrite !app_length, !LA. cbn [length]. lia.
    + destruct (opt_yes v 0 s2 37 _ I3' R3) as (s3 & -> & I4 & O4 & R4). cbn [snd]. apply (operator_end v s3 _ _ I4 V). rewrite !app_length, !LA. cbn [length]. lia.
  - (* . *)
    subst x. cbn [app hd] in *. replace ((46 =? 47) || (46 =? 92)) with false by lia. change (46 =? dot) with true. cbv iota.
    destruct (next_hd v 0 s1 46 _ I2 R2) as (s2 & -> & I3 & O3 & R3 & _). cbn [snd].
    assert (I3' : Inv v 0 s2) by (apply inv_le with 1%nat; [exact I3|lia]).
    destruct (peek_hd v 0 s2 I3') as (s3 & -> & I4 & O4 & R4). rewrite R3 in R4 |- *.
    destruct SX as [SX|[SX D]].
    + destruct (symbol_first y SX) as (r & t & E & DG & AL & N64 & P & _). subst y. cbn [app hd] in *. rewrite DG.
      destruct (next_hd v 0 s3 r _ I4 R4) as (s4 & -> & I5 & O5 & R5 & _).
      assert (I5' : Inv v 0 s4) by (apply inv_le with 1%nat; [exact I5|lia]).
      destruct (symbol_token v 0 s4 r t _ I5' SX R5) as (s5 & -> & I6 & O6 & R6); [cbn; unfold ends_symbol; tauto|].
      apply (operator_end v s5 _ _ I6 V). rewrite !app_length, !LA. cbn [length]. lia.
    + destruct (word_first y SX) as (r & t & E & DG & AL & N64 & P & SP & _ & FT & _). subst y. cbn [app hd] in *. rewrite DG.
      destruct (next_hd v 0 s3 r _ I4 R4) as (s4 & N4 & I5 & O5 & R5 & _). rewrite N4.
      assert (I5' : Inv v 0 s4) by (apply inv_le with 1%nat; [exact I5|lia]).
      assert (is_operator_token r s4 = (false, s4)) as ->.
      { pose proof (alnum_spec c r AL). unfold is_operator_token. change (zs "?+-/&|^") with [63; 43; 45; 47; 38; 124; 94]. unfold mem. cbn [existsb].
        replace ((r =? 63) || _) with false by lia. replace (r =? 44) with false by lia. replace ((r =? 33) || (r =? 61)) with false by lia. replace (r =? 62) with false by lia.
        replace (r =? 60) with false by lia. replace (r =? 42) with false by lia. reflexivity. }
      rewrite AL.
      destruct (next_while_spec v (is_alnum c) (alnum_eof c) (Datatypes.S (room s4)) 0 s4 I5' ltac:(pose proof (left_room s4); lia)) as (s6 & W6 & I6 & O6). rewrite W6.
      rewrite R5, span_app in O6; [|exact FT|reflexivity].
      assert (R6 : rest s6 = 32 :: l) by (eapply rest_step; [exact I5'|exact I6|exact R5|exact O6]).
      unfold at_terminator. destruct (peek_hd v 0 s6 I6) as (s7 & P7 & I7 & O7 & R7). rewrite P7, R6. cbn [hd]. change ((32 =? eof) || is_space 32 || is_eol 32 || punct c 32 || symbol c 32) with true. cbv iota. cbn [negb].
      assert (SL : slice s7 (pos s3) (pos s7) = r :: t).
      { assert (PO : forall q, Inv v 0 q -> pos q = (start q + off q)%nat) by (intros q Iq; pose proof (i_sp _ _ _ Iq); unfold off; lia).
        assert (S34 : start s4 = start s3) by (apply (next_start v 0 s3 r s4 I4); [left; lia|exact N4]).
        assert (S46 : start s6 = start s4) by (eapply while_start; [exact (alnum_eof c)|exact I5'|lia|exact W6]).
        assert (S67 : start s7 = start s6) by (apply (peek_start v 0 s6 (hd eof (rest s6)) s7 I6); [lia|exact P7]).
        rewrite (PO s3 I4), (PO s7 I7), <-S34, <-S46, <-S67. rewrite (slice_off v 0 s7 _ _ I7) by lia.
        rewrite V. replace (off s3) with (length (ats m ++ core ++ ats (i + j) ++ [46])) by (rewrite !app_length, !LA; cbn [length]; lia).
        replace ((ats m ++ core ++ ats (i + j) ++ 46 :: r :: t) ++ 32 :: l) with ((ats m ++ core ++ ats (i + j) ++ [46]) ++ (r :: t) ++ 32 :: l) by (rewrite <-!app_assoc; reflexivity).
        rewrite skipn_app, skipn_all, Nat.sub_diag. cbn [skipn app]. replace (off s7 - _)%nat with (length (r :: t)) by (rewrite !app_length, !LA; cbn [length] in *; lia).
        change (r :: t ++ 32 :: l) with ((r :: t) ++ 32 :: l). rewrite firstn_app, firstn_all, Nat.sub_diag. cbn [firstn]. apply app_nil_r. }
      rewrite SL, D. apply (operator_end v s7 _ _ I7 V). rewrite !app_length, !LA. cbn [length] in *. lia.
Qed.

(* ---- lexAny ---- *)
Lemma in_ascii_op : forall s, In s symbols -> hd 0 s <> 43 -> hd 0 s <> 45 -> hd 0 s <> 61 -> exists r t, s = r :: t /\
  (r =? eof) = false /\ (r =? nl) = false /\ (r =? 59) = false /\ (r =? 35) = false /\ is_space r = false /\ ((r =? 39) || (r =? 34)) = false /\
  (r =? 96) = false /\ ((r =? 45) || (r =? 43)) = false /\ ((r =? dot) || is_digit r) = false /\ (r =? 61) = false.
Proof.
  intros s H N1 N2 N3. unfold symbols in H. cbn [map In] in H.
  repeat (destruct H as [H|H]; [cbn in H; subst s; cbn [hd] in *; first [exfalso; apply N1; reflexivity|exfalso; apply N2; reflexivity|exfalso; apply N3; reflexivity|eexists; eexists; split; [reflexivity|]; repeat (split; [reflexivity|]); reflexivity]|]).
  destruct H.
Qed.
(* an operator spelled with a symbol, after the first character: by is_operator *)
Lemma symbol_operator : forall v m s n x l r t u1, In s symbols -> suffix c x -> (x <> [] -> binary_name c s) ->
  v = (ats m ++ s ++ ats n ++ x) ++ 32 :: l -> ats m ++ s = r :: t -> Inv v 1 u1 -> off u1 = 1%nat -> last u1 = r ->
  exists u2, is_operator r u1 = Some (true, u2) /\ ends_with v (ats m ++ s ++ ats n ++ x) (lex_operator c u2).
Proof.
  intros v m s n x l r t u1 HS SX BN V E I O L. destruct (symbol_first s HS) as (r0 & t0 & -> & DG & AL & N64 & P0 & SP & LS & _).
  assert (LA : forall n, length (ats n) = n) by (intros; apply repeat_length).
  assert (RU : rest u1 = t ++ ats n ++ x ++ 32 :: l).
  { rewrite (rest_off _ _ _ I), O, V, <-!app_assoc. rewrite (app_assoc (ats m)), E. reflexivity. }
  assert (HX : ends_symbol (hd eof (ats n ++ x ++ 32 :: l))).
  { destruct n as [|n]; [|left; reflexivity]. cbn [ats repeat app]. destruct SX as [ -> |[H|(y & -> & _)]]; [cbn; unfold ends_symbol; tauto| |cbn; unfold ends_symbol; tauto].
    cbn in H. unfold ends_symbol. repeat (destruct H as [<-|H]; [cbn; tauto|]). destruct H. }
  assert (HX2 : hd eof (x ++ 32 :: l) <> 64).
  { destruct SX as [ -> |[H|(y & -> & _)]]; [discriminate| |discriminate]. cbn in H. repeat (destruct H as [<-|H]; [discriminate|]). destruct H. }
  assert (MM : r = match m with O => r0 | _ => at_sign end /\ rest u1 = match m with O => t0 ++ ats n ++ x ++ 32 :: l | S m' => ats m' ++ r0 :: t0 ++ ats n ++ x ++ 32 :: l end).
  { destruct m as [|m]; cbn [ats repeat app] in E; injection E as <- <-; (split; [reflexivity|]); [exact RU|]. rewrite RU, <-!app_assoc. reflexivity. }
  destruct MM as [-> RM]. unfold is_operator.
  destruct (skip_ats_hd v (S (S (room u1))) m 1 0 u1 r0 (t0 ++ ats n ++ x ++ 32 :: l) I N64 P0) as (s' & A1 & A2 & A3 & A4 & A5 & A6); [|exact RM|].
  { pose proof (left_room u1) as LR. unfold left in LR. rewrite RM in LR. destruct m as [|m]; [lia|]. rewrite !app_length, !LA in LR. cbn [length] in LR. lia. }
  rewrite A1.
  destruct (symbol_token v 1 s' r0 t0 _ A2 HS A4 HX) as (s2 & -> & I2 & O2 & R2).
  destruct (skip_ats_while v 1 s2 n _ I2 R2 HX2) as (s3 & -> & I3 & O3 & R3). exists s3. split; [reflexivity|].
  pose proof (lex_operator_text v s3 m (r0 :: t0) n 0 x l ltac:(apply inv_le with 1%nat; [exact I3|lia])) as LO. rewrite Nat.add_0_r in LO.
  apply LO; [exact V|cbn [length]; lia|apply trim_core; [exact N64|exact LS|discriminate]|exact SX|intros X; left; apply BN, X].
Qed.
(* a sign *)
Lemma sign_operator : forall v r y l u, (r = 43 \/ r = 45) -> v = r :: y :: l -> l <> [] -> ends_symbol y -> Inv v 0 u -> off u = 0%nat ->
  (y = 46 -> (0 < start u)%nat /\ (pos u < length (input u))%nat /\ is_numeral c (hd eof l) = false) ->
  exists s1, Inv v 0 s1 /\ off s1 = 1%nat /\
    (lex_any c u = lex_operator c s1 \/ (y = 47 \/ y = 92) /\ exists s2, next s1 = (y, s2) /\ Inv v 0 s2 /\ off s2 = 2%nat /\ lex_any c u = Emit TOperator (snd (opt_next 37 s2))).
Proof.
  intros v r y l u HR V NL HY I O G.
  assert (R : rest u = r :: y :: l) by (rewrite (rest_off _ _ _ I), O; exact V).
  unfold lex_any. destruct (next u) as [r0 u1] eqn:N. destruct (next_spec _ _ _ _ _ I N) as (LA & H). rewrite R in H. destruct H as (-> & P & I1 & R1 & O1 & _ & W1).
  destruct (next_backup _ _ _ _ _ I N) as (B1 & B2 & B3 & _).
  assert (I1' : Inv v 0 u1) by (apply inv_le with 1%nat; [exact I1|lia]).
  assert ((r =? eof) = false /\ (r =? nl) = false /\ (r =? 59) = false /\ (r =? 35) = false /\ is_space r = false /\ ((r =? 39) || (r =? 34)) = false /\ (r =? 96) = false /\ ((r =? 45) || (r =? 43)) = true) as (-> & -> & -> & -> & -> & -> & -> & ->) by (unfold eof, nl, is_space; lia).
  (* lex_complex, when what follows is no point *)
  assert (CX : forall q, Inv v 0 q -> off q = 0%nat -> (y = 46 -> False) -> exists s1, Inv v 0 s1 /\ off s1 = 1%nat /\
    (lex_complex c q = lex_operator c s1 \/ (y = 47 \/ y = 92) /\ exists s2, next s1 = (y, s2) /\ Inv v 0 s2 /\ off s2 = 2%nat /\ lex_complex c q = Emit TOperator (snd (opt_next 37 s2)))).
  { intros q Iq Oq NY. assert (Rq : rest q = r :: y :: l) by (rewrite (rest_off _ _ _ Iq), Oq; exact V).
    unfold lex_complex, accept_number.
    destruct (accept_hd v 0 q (zs "+-") Iq ltac:(cbn; unfold eof; intuition discriminate)) as (q1 & -> & J1 & P1 & Q1). rewrite Rq in *. cbn [hd tl] in *.
    assert (mem r (zs "+-") = true) as M by (destruct HR as [-> | ->]; reflexivity). rewrite M in *. cbn [andb].
    destruct (peek_hd v 0 q1 J1) as (q2 & -> & J2 & P2 & Q2). rewrite Q1 in *. cbn [hd].
    destruct ((y =? 47) || (y =? 92)) eqn:Y.
    - exists q2. split; [exact J2|]. split; [lia|]. right. split; [lia|]. destruct (next_hd v 0 q2 y l J2 ltac:(rewrite Q2; reflexivity)) as (q3 & -> & J3 & P3 & _). exists q3. split; [reflexivity|]. split; [apply inv_le with 1%nat; [exact J3|lia]|]. split; [lia|reflexivity].
    - assert (negb (y =? dot) && negb (is_numeral c y) = true) as ->.
      { unfold ends_symbol in HY. assert (YY : y = 64 \/ y = 32) by (unfold dot in *; lia). unfold is_numeral, between, dot. destruct YY as [-> | ->]; cbn; destruct (ibase c <? 10) eqn:B; lia. }
      exists q2. split; [exact J2|]. split; [lia|]. left. reflexivity. }
  destruct (start u1) as [|b] eqn:ST.
  - destruct (Z.eq_dec y 46) as [Y|Y]; [|apply CX; [exact B1|lia|exact Y]].
    exfalso. destruct (G Y) as (G1 & G2 & _). pose proof (proj1 (next_start v 0 u r u1 I (or_intror G2) N)). lia.
  - destruct (_ || _ || _); [exists u1; split; [exact I1'|split; [lia|left; reflexivity]]|].
    destruct (peek2 u1) as [[r1 r2] u2] eqn:P2. destruct (peek2_spec v 0 u1 r1 r2 u2 I1' ltac:(lia) P2) as (J1 & J2 & J3 & J4). rewrite R1 in J4. destruct J4 as (-> & _ & J4 & _).
    destruct (J4 ltac:(unfold ends_symbol, nl in *; lia)) as [-> J5]. clear J4.
    destruct (Z.eq_dec y 46) as [Y|Y].
    + destruct (G Y) as (_ & _ & G3). rewrite G3. subst y. cbn [Z.eqb Pos.eqb negb andb dot]. exists u2. split; [exact J1|]. split; [lia|left; reflexivity].
    + replace (y =? dot) with false by (unfold dot; lia). cbn [andb].
      assert (OB : Inv v 0 (backup u2) /\ off (backup u2) = 0%nat).
      { assert (PL : 0 <= hd eof l) by (pose proof (i_nn _ _ _ I) as NN; rewrite V in NN; apply Forall_inv_tail, Forall_inv_tail in NN; destruct l; [contradiction|exact (Forall_inv NN)]).
        assert (J1' : Inv v 1 u2) by (pose proof (inv_off _ _ _ J1) as X; rewrite J2, O1, O in X; exact X).
        split; [apply backup_inv, J1'|]. unfold backup. rewrite J5. replace (hd eof l =? eof) with false by (unfold eof in *; lia).
        pose proof (i_sp _ _ _ J1). unfold off in J2, O1, O. replace (Nat.eqb (pos u2) (start u2)) with false by (symmetry; apply Nat.eqb_neq; unfold off in *; lia).
        replace (Nat.ltb (start u2) (pos u2)) with true by (symmetry; apply Nat.ltb_lt; unfold off in *; lia). unfold off. cbn [set_pos pos start]. rewrite J3, W1. unfold off in *. lia. }
      apply CX; [apply OB|apply OB|exact Y].
Qed.

(* ---- words ---- *)
Lemma sfx_hd : forall x n l, suffix c x -> ends_symbol (hd eof (ats n ++ x ++ 32 :: l)) /\ hd eof (x ++ 32 :: l) <> 64.
Proof.
  intros x n l SX. split.
  - destruct n as [|n]; [|left; reflexivity]. cbn [ats repeat app]. destruct SX as [ -> |[H|(y & -> & _)]]; [cbn; unfold ends_symbol; tauto| |cbn; unfold ends_symbol; tauto].
    cbn in H. unfold ends_symbol. repeat (destruct H as [<-|H]; [cbn; tauto|]). destruct H.
  - destruct SX as [ -> |[H|(y & -> & _)]]; [discriminate| |discriminate]. cbn in H. repeat (destruct H as [<-|H]; [discriminate|]). destruct H.
Qed.
Lemma word_any : forall v m s l u, spelled c s -> v = ats m ++ s ++ l -> Inv v 0 u -> off u = 0%nat ->
  exists u0, lex_any c u = lex_identifier c u0 /\ Inv v 0 u0 /\ off u0 = 0%nat.
Proof.
  intros v m s l u SP V I O. destruct m as [|m]; [apply (any_word c s l u v (spelled_word s SP) I O V)|].
  destruct (word_first s SP) as (r & t & -> & DG & AL & N64 & P & SPC & _). cbn [ats repeat app] in V.
  assert (R : rest u = 64 :: ats m ++ (r :: t) ++ l) by (rewrite (rest_off _ _ _ I), O; exact V).
  unfold lex_any. destruct (next_hd v 0 u 64 _ I R) as (u1 & -> & I1 & O1 & R1 & L1 & W1). cbn -[is_operator lex_identifier is_alnum].
  unfold is_operator. destruct (skip_ats_hd v (S (S (room u1))) (S m) 1 0 u1 r (t ++ l) I1 N64 P) as (s' & A1 & A2 & A3 & A4 & A5 & A6); [|exact R1|].
  { pose proof (left_room u1) as LR. unfold left in LR. rewrite R1 in LR. unfold ats in LR. rewrite !app_length, repeat_length in LR. cbn [length] in LR. lia. }
  change (skip_ats (S (S (room u1))) 64 0 u1) with (skip_ats (S (S (room u1))) at_sign 0 u1). rewrite A1. destruct (A5 ltac:(discriminate)) as (L2 & W2 & I2).
  assert (is_operator_token r s' = (false, s')) as ->.
  { pose proof (alnum_spec c r AL). unfold is_operator_token. change (zs "?+-/&|^") with [63; 43; 45; 47; 38; 124; 94]. unfold mem. cbn [existsb].
    replace ((r =? 63) || _) with false by lia. replace (r =? 44) with false by lia. replace ((r =? 33) || (r =? 61)) with false by lia. replace (r =? 62) with false by lia.
    replace (r =? 60) with false by lia. replace (r =? 42) with false by lia. reflexivity. }
  cbn [Nat.add].
  pose proof (back_inv v (1 + S m) s' (S m) I2 ltac:(lia)) as I3. replace (1 + S m - S m)%nat with 1%nat in I3 by lia.
  set (s2 := set_pos s' (pos s' - S m)) in *. exists (backup s2). split; [reflexivity|]. split; [apply backup_inv, I3|].
  unfold backup, s2. cbn [set_pos last pos start width]. rewrite L2. replace (r =? eof) with false by (unfold eof; lia).
  pose proof (i_sp _ _ _ I2) as SS. unfold off in A3. pose proof O1 as O1'. rewrite O in O1'. unfold off in O1'.
  assert (PP : (pos s' - start s' = 1 + S m)%nat) by lia.
  replace (Nat.eqb (pos s' - S m) (start s')) with false by (symmetry; apply Nat.eqb_neq; lia).
  replace (Nat.ltb (start s') (pos s' - S m)) with true by (symmetry; apply Nat.ltb_lt; lia).
  unfold off. cbn [set_pos pos start]. rewrite W2. lia.
Qed.
Lemma word_operator : forall v m s n x l s0, spelled c s -> suffix c x -> v = (ats m ++ s ++ ats n ++ x) ++ 32 :: l -> Inv v 0 s0 -> off s0 = 0%nat ->
  exists s5, Inv v 0 s5 /\ off s5 = (m + length s + n)%nat /\ lex_identifier c s0 =
    if teq s (zs "o") && (hd eof (x ++ 32 :: l) =? dot) then lex_operator c s5
    else if defined c s then lex_operator c s5
    else if negb (Nat.eqb m 0) then LErr s5
    else if all_digits s (ibase c) false then lex_complex c (set_pos s5 (start s5))
    else if user_unary c s then Emit TIdent s5
    else Emit TIdent (set_pos s5 (pos s5 - n)).
Proof.
  intros v m s n x l s0 SP SX V I O. destruct (sfx_hd x n l SX) as [HX HX2]. pose proof SP as (NE & F & D & N1 & N2).
  assert (LA : forall n, length (ats n) = n) by (intros; apply repeat_length).
  assert (R : rest s0 = ats m ++ s ++ ats n ++ x ++ 32 :: l) by (rewrite (rest_off _ _ _ I), O, V, <-!app_assoc; reflexivity).
  destruct (word_first s SP) as (r & t & E & DG & AL & N64 & P & SPC & _).
  unfold lex_identifier.
  destruct (skip_ats_while v 0 s0 m _ I R) as (s1 & -> & I1 & O1 & R1); [rewrite E; exact N64|]. cbv zeta.
  destruct (skip_while_spec v (is_alnum c) 0 s1 (alnum_eof c) I1) as (s2 & -> & I2 & O2).
  assert (NA : is_alnum c (hd eof (ats n ++ x ++ 32 :: l)) = false) by (unfold ends_symbol in HX; destruct HX as [-> |[-> |[-> |[-> | ->]]]]; reflexivity).
  rewrite R1, span_app in O2 by (exact F || exact NA).
  assert (R2 : rest s2 = ats n ++ x ++ 32 :: l) by (eapply rest_step; [exact I1|exact I2|exact R1|exact O2]).
  assert (TERM : exists s3, at_terminator c s2 = (true, s3) /\ Inv v 0 s3 /\ off s3 = off s2 /\ rest s3 = rest s2).
  { unfold at_terminator. destruct (peek_hd v 0 s2 I2) as (s3 & -> & I3 & O3 & R3). exists s3. rewrite R2.
    assert (((hd eof (ats n ++ x ++ 32 :: l) =? eof) || is_space (hd eof (ats n ++ x ++ 32 :: l)) || is_eol (hd eof (ats n ++ x ++ 32 :: l)) || punct c (hd eof (ats n ++ x ++ 32 :: l)) || symbol c (hd eof (ats n ++ x ++ 32 :: l))) = true) as ->.
    { unfold ends_symbol in HX. destruct HX as [-> |[-> |[-> |[-> | ->]]]]; reflexivity. }
    rewrite R2 in R3. auto. }
  destruct TERM as (s3 & -> & I3 & O3 & R3). cbn [negb]. rewrite R2 in R3.
  destruct (skip_ats_while v 0 s3 n _ I3 R3 HX2) as (s4 & -> & I4 & O4 & R4).
  destruct (peek_hd v 0 s4 I4) as (s5 & P5 & I5 & O5 & R5). rewrite P5, R4.
  replace (off s1 - off s0)%nat with m by lia. replace (off s4 - off s3)%nat with n by lia.
  assert (SL : slice s4 (start s4 + m) (pos s4 - n) = s).
  { pose proof (i_sp _ _ _ I4). unfold off in O4, O3, O2, O1, O. replace (pos s4 - n)%nat with (start s4 + (m + length s))%nat by (unfold off in *; lia).
    rewrite (slice_off v 0 s4 _ _ I4) by (unfold off in *; lia). rewrite V, <-!app_assoc.
    replace (m + length s - m)%nat with (length s) by lia. rewrite <-(LA m) at 1. rewrite skipn_app, skipn_all, Nat.sub_diag. cbn [skipn app].
    rewrite firstn_app, firstn_all, Nat.sub_diag. cbn [firstn]. apply app_nil_r. }
  rewrite SL. exists s5. split; [exact I5|]. split; [lia|].
  rewrite (teq_no s (zs "op")), (teq_no s (zs "opdelete")), (teq_no s []) by assumption. reflexivity.
Qed.
Lemma not_identifier : forall w, (exists a r b, w = a ++ r :: b /\ is_alnum c r = false) -> is_identifier c w = false.
Proof.
  assert (IR : forall a r b, is_alnum c r = false -> ident_rest c (a ++ r :: b) = false).
  { induction a as [|x a IH]; intros r b H; cbn [app ident_rest].
    - unfold is_alnum in H. assert ((digit c r || (r =? 95) || letter c r) = false) as -> by lia. reflexivity.
    - rewrite IH by exact H. apply andb_false_r. }
  intros w (a & r & b & -> & H). unfold is_identifier. destruct (teq (a ++ r :: b) [95]); [reflexivity|]. destruct a as [|x a]; cbn [app].
  - unfold is_alnum in H. assert (((r =? 95) || letter c r) = false) as -> by lia. rewrite andb_false_r. reflexivity.
  - rewrite IR by exact H. apply andb_false_r.
Qed.
Theorem operator_read : forall w ty l v u, operator_text c w ty -> Inv v 0 u -> off u = 0%nat -> v = w ++ 32 :: l -> l <> [] ->
  (sign_dot w -> (0 < start u)%nat /\ (pos u < length (input u))%nat /\ is_numeral c (nth 2 w 0) = false) ->
  exists s1, lex_any c u = Emit ty s1 /\ Inv v 0 s1 /\ off s1 = length w.
Proof.
  intros w ty l v u OT I O V NL G.
  assert (LA : forall n, length (ats n) = n) by (intros; apply repeat_length).
  destruct OT as [m s n x HS SX BN|m s n x SP D SX BN|x IN|s n SP D AD UU].
  - (* symbols *)
    destruct (symbol_first s HS) as (r0 & t0 & E & DG & AL & N64 & P0 & SPC & LS & _).
    assert (KD : kind (ats m ++ s ++ ats n ++ x) = TOperator).
    { unfold kind. rewrite not_identifier; [reflexivity|]. destruct m as [|m]; [exists [], r0, (t0 ++ ats n ++ x); subst s; split; [reflexivity|exact AL]|]. exists [], 64, (ats m ++ s ++ ats n ++ x). split; reflexivity. }
    assert (DONE : ends_with v (ats m ++ s ++ ats n ++ x) (lex_any c u) -> exists s1, lex_any c u = Emit TOperator s1 /\ Inv v 0 s1 /\ off s1 = length (ats m ++ s ++ ats n ++ x)).
    { intros (s1 & A & B & C). rewrite KD in A. eauto. }
    apply DONE. clear DONE.
    assert (SIGN : m = 0%nat -> (r0 = 43 \/ r0 = 45) -> ends_with v (ats m ++ s ++ ats n ++ x) (lex_any c u)).
    { intros -> SG. assert (t0 = []) as ->.
      { clear -HS E SG. rewrite E in HS. unfold symbols in HS. cbn in HS. repeat (destruct HS as [HS|HS]; [injection HS as <- <-; first [reflexivity|exfalso; destruct SG; discriminate]|]). destruct HS. }
      subst s. cbn [ats repeat app] in *.
      destruct (sfx_hd x n l SX) as [HX HX2]. destruct (ats n ++ x ++ 32 :: l) as [|y l'] eqn:EY; [destruct n; [destruct x|]; discriminate|]. cbn [hd] in HX.
      assert (V' : v = r0 :: y :: l') by (rewrite V, <-EY, <-app_assoc; reflexivity).
      assert (NL' : l' <> []).
      { intros ->. destruct n as [|n]; cbn in EY; [|injection EY as _ EY; destruct n; [destruct x|]; discriminate]. destruct x; cbn in EY; injection EY as _ EY; [contradiction|]. destruct x; discriminate. }
      destruct (sign_operator v r0 y l' u SG V' NL' HX I O) as (s1 & I1 & O1 & [E1|(Y & s2 & N2 & I2 & O2 & E2)]).
      { intros Y. subst y. destruct n as [|n]; [|discriminate EY]. cbn [ats repeat app] in EY. destruct x as [|z x]; [discriminate EY|]. cbn in EY. injection EY as -> EY.
        destruct G as (G1 & G2 & G3); [split; [exact SG|reflexivity]|]. split; [exact G1|]. split; [exact G2|]. cbn [nth ats repeat app] in G3. rewrite <-EY. destruct SX as [SX|[SX|(y & Y & SX)]]; [discriminate| |].
        - exfalso. unfold reducing in SX. cbn in SX. destruct SX as [SX|[SX|[SX|[SX|[]]]]]; discriminate SX.
        - injection Y as ->. destruct SX as [SX|[SX _]]; [destruct (symbol_first y SX) as (a & b & -> & _)|destruct (word_first y SX) as (a & b & -> & _)]; exact G3. }
      - rewrite E1. apply (lex_operator_text v s1 0 [r0] 0 n x l I1 V); [cbn; lia| |exact SX|intros X; left; apply BN, X].
        cbn [Nat.add]. change (ats 0 ++ [r0] ++ ats n) with (ats 0 ++ [r0] ++ ats n). apply trim_core; [exact N64|exact LS|discriminate].
      - rewrite E2. unfold ends_with. change (ats 0 ++ [r0] ++ ats n ++ x) with (r0 :: ats n ++ x). rewrite KD.
        destruct n as [|n]; [|exfalso; cbn in EY; injection EY as <- _; unfold at_sign in Y; lia]. cbn [ats repeat app] in *.
        assert (K : exists p, x = y :: p /\ (p = [] \/ p = [37])).
        { destruct SX as [->|[SX|(q & -> & _)]]; cbn in EY; [exfalso; injection EY as <- _; lia| |exfalso; injection EY as <- _; lia].
          unfold reducing in SX. cbn in SX. destruct SX as [<-|[<-|[<-|[<-|[]]]]]; cbn in EY; injection EY as <- _; eexists; (split; [reflexivity|]); first [left; reflexivity|right; reflexivity]. }
        destruct K as (p & -> & PP). cbn [app] in EY. injection EY as EY.
        assert (R2 : rest s2 = p ++ 32 :: l). { rewrite (rest_at _ _ _ _ I2 O2), V'. cbn [skipn]. symmetry. exact EY. }
        destruct PP as [-> | ->]; cbn [app] in R2.
        + destruct (opt_no v 0 s2 37 I2 ltac:(rewrite R2; discriminate)) as (s3 & -> & I4 & O4 & R4). cbn [snd]. exists s3. split; [reflexivity|]. split; [exact I4|]. cbn [length]. lia.
        + destruct (opt_yes v 0 s2 37 _ I2 R2) as (s3 & -> & I4 & O4 & R4). cbn [snd]. exists s3. split; [reflexivity|]. split; [exact I4|]. cbn [length]. lia. }
    assert (EQ : m = 0%nat -> r0 = 61 -> ends_with v (ats m ++ s ++ ats n ++ x) (lex_any c u)).
    { intros -> ->. assert (TT : t0 = [61] \/ t0 = [61; 61]).
      { clear -HS E. rewrite E in HS. unfold symbols in HS. cbn in HS. repeat (destruct HS as [HS|HS]; [first [discriminate HS|injection HS as <-; auto]|]). destruct HS. }
      subst s. cbn [ats repeat app] in *.
      destruct (sfx_hd x n l SX) as [HX HX2].
      assert (R : rest u = 61 :: t0 ++ ats n ++ x ++ 32 :: l) by (rewrite (rest_off _ _ _ I), O, V, <-!app_assoc; reflexivity).
      unfold lex_any. destruct (next_hd v 0 u 61 _ I R) as (u1 & -> & I1 & O1 & R1 & L1 & W1). cbn -[peek lex_operator opt_next next].
      assert (I1' : Inv v 0 u1) by (apply inv_le with 1%nat; [exact I1|lia]).
      destruct (peek_hd v 0 u1 I1') as (u2 & -> & I2 & O2 & R2). rewrite R1 in *.
      assert (LO : forall s3, Inv v 0 s3 -> off s3 = S (length t0) -> ends_with v (61 :: t0 ++ ats n ++ x) (lex_operator c s3)).
      { intros s3 I3 O3. apply (lex_operator_text v s3 0 (61 :: t0) 0 n x l I3 V); [cbn [length]; lia| |exact SX|intros X; left; apply BN, X].
        apply trim_core; [discriminate|exact LS|discriminate]. }
      destruct TT as [-> | ->]; cbn [app hd] in *; cbn [Z.eqb Pos.eqb negb].
      - destruct (next_hd v 0 u2 61 _ I2 R2) as (u3 & -> & I3 & O3 & R3 & _). cbn [snd].
        destruct (opt_no v 0 u3 61 ltac:(apply inv_le with 1%nat; [exact I3|lia]) ltac:(rewrite R3; unfold ends_symbol in HX; lia)) as (u4 & -> & I4 & O4 & R4). cbn [snd]. apply LO; [exact I4|cbn; lia].
      - destruct (next_hd v 0 u2 61 _ I2 R2) as (u3 & -> & I3 & O3 & R3 & _). cbn [snd].
        destruct (opt_yes v 0 u3 61 _ ltac:(apply inv_le with 1%nat; [exact I3|lia]) R3) as (u4 & -> & I4 & O4 & R4). cbn [snd]. apply LO; [exact I4|cbn; lia]. }
    assert (REST : (m <> 0%nat \/ (r0 <> 43 /\ r0 <> 45 /\ r0 <> 61)) -> ends_with v (ats m ++ s ++ ats n ++ x) (lex_any c u)).
    { intros C. destruct (ats m ++ s) as [|r t] eqn:EM; [subst s; destruct m; discriminate|].
      assert (R : rest u = r :: t ++ ats n ++ x ++ 32 :: l). { rewrite (rest_off _ _ _ I), O, V, <-!app_assoc, (app_assoc (ats m)), EM. reflexivity. }
      unfold lex_any. destruct (next_hd v 0 u r _ I R) as (u1 & -> & I1 & O1 & R1 & L1 & W1).
      assert (T10 : (r =? eof) = false /\ (r =? nl) = false /\ (r =? 59) = false /\ (r =? 35) = false /\ is_space r = false /\ ((r =? 39) || (r =? 34)) = false /\
         (r =? 96) = false /\ ((r =? 45) || (r =? 43)) = false /\ ((r =? dot) || is_digit r) = false /\ (r =? 61) = false).
      { destruct m as [|m]; [|cbn in EM; injection EM as <- _; repeat split; reflexivity]. cbn in EM. destruct C as [C|(C1 & C2 & C3)]; [contradiction|].
        subst s. destruct (in_ascii_op _ HS C1 C2 C3) as (r' & t' & E' & K). rewrite EM in E'. injection E' as <- <-. injection EM as -> ->. exact K. }
      destruct T10 as (-> & -> & -> & -> & -> & -> & -> & -> & -> & ->).
      destruct (symbol_operator v m s n x l r t u1 HS SX BN V EM I1 ltac:(lia) L1) as (u2 & -> & EW). exact EW. }
    destruct m as [|m]; [|apply REST; left; discriminate].
    destruct (Z.eq_dec r0 43) as [Q|Q1]; [apply SIGN; auto|]. destruct (Z.eq_dec r0 45) as [Q|Q2]; [apply SIGN; auto|]. destruct (Z.eq_dec r0 61) as [Q|Q3]; [apply EQ; auto|]. apply REST. right. auto.
  - (* words *)
    destruct (word_any v m s (ats n ++ x ++ 32 :: l) u SP ltac:(rewrite V, <-!app_assoc; reflexivity) I O) as (u0 & -> & I0 & O0).
    destruct (word_operator v m s n x l u0 SP SX V I0 O0) as (s5 & I5 & O5 & ->). rewrite D.
    destruct (word_first s SP) as (r & t & E & DG & AL & N64 & P & SPC & LS & _).
    assert (EW : ends_with v (ats m ++ s ++ ats n ++ x) (lex_operator c s5)).
    { pose proof (lex_operator_text v s5 m s n 0 x l I5) as LO. rewrite Nat.add_0_r in LO. apply LO; [exact V|exact O5|apply trim_core; [subst s; exact N64|exact LS|subst s; discriminate]|exact SX|intros X; left; apply BN, X]. }
    destruct (_ && _); exact EW.
  - (* o. *)
    assert (SX : suffix c x) by (right; right; exact IN).
    assert (SP : spelled c (zs "o")) by (split; [discriminate|split; [constructor; [reflexivity|constructor]|split; [reflexivity|split; discriminate]]]).
    change (zs "o" ++ x) with (ats 0 ++ zs "o" ++ ats 0 ++ x) in *.
    destruct (word_any v 0 (zs "o") (ats 0 ++ x ++ 32 :: l) u SP ltac:(rewrite V, <-!app_assoc; reflexivity) I O) as (u0 & -> & I0 & O0).
    destruct (word_operator v 0 (zs "o") 0 x l u0 SP SX V I0 O0) as (s5 & I5 & O5 & ->).
    assert (hd eof (x ++ 32 :: l) = 46) as -> by (destruct IN as (y & -> & _); reflexivity).
    change (teq (zs "o") (zs "o") && (46 =? dot)) with true. cbv iota.
    destruct (lex_operator_text v s5 0 (zs "o") 0 0 x l I5 V O5 eq_refl SX) as (s1 & A & B & C); [intros _; right; auto|]. exists s1. split; [|auto].
    unfold kind in A. rewrite not_identifier in A; [exact A|]. destruct IN as (y & -> & _). exists (zs "o"), 46, y. split; reflexivity.
  - (* a unary operator of the user *)
    assert (V' : v = (ats 0 ++ s ++ ats n ++ []) ++ 32 :: l) by (rewrite V, app_nil_r; reflexivity).
    destruct (word_any v 0 s (ats n ++ [] ++ 32 :: l) u SP ltac:(rewrite V', <-!app_assoc; reflexivity) I O) as (u0 & -> & I0 & O0).
    destruct (word_operator v 0 s n [] l u0 SP ltac:(left; reflexivity) V' I0 O0) as (s5 & I5 & O5 & ->). rewrite D, AD. cbn [Nat.eqb negb app hd].
    change (32 =? dot) with false. rewrite andb_false_r. exists s5. split; [|split; [exact I5|rewrite app_length, LA; lia]].
    destruct n as [|n]; [|rewrite UU by discriminate; reflexivity]. rewrite Nat.sub_0_r. replace (set_pos s5 (pos s5)) with s5 by (destruct s5; reflexivity). destruct (user_unary c s); reflexivity.
Qed.

(* ---- blanks before it ---- *)
Lemma peek_loaded : forall s r s1, peek s = (r, s1) -> r <> eof -> length (input s1) <> pos s1.
Proof.
  intros s r s1. unfold peek, read_rune. destruct (Nat.eqb_spec (length (input (if negb (fin s) && Nat.eqb (pos s) (length (input s)) then load_line s else s))) (pos (if negb (fin s) && Nat.eqb (pos s) (length (input s)) then load_line s else s))) as [H|H]; intros [= <- <-] N; [contradiction|exact H].
Qed.
Lemma rest_nonneg : forall v k s, Inv v k s -> Forall (fun r => 0 <= r) (rest s).
Proof. intros v k s I. rewrite (rest_off _ _ _ I). pose proof (i_nn _ _ _ I) as NN. rewrite <-(firstn_skipn (off s) v) in NN. apply Forall_app in NN. apply NN. Qed.
Lemma peek_while_loaded : forall v P n k s s', Inv v k s -> peek_while P n s = Some s' -> rest s' <> [] -> (pos s' < length (input s'))%nat.
Proof.
  intros v P. induction n as [|n IH]; intros k s s' I W N; [discriminate|]. cbn [peek_while] in W. destruct (peek_hd v k s I) as (s1 & E & I1 & O1 & R1). rewrite E in W.
  destruct (P (hd eof (rest s))) eqn:Q.
  - apply (IH k (snd (next s1)) s'); [|exact W|exact N]. apply next_mono, I1.
  - injection W as <-. pose proof (peek_loaded _ _ _ E) as X. pose proof (i_pl _ _ _ I1). rewrite <-R1 in X. pose proof (rest_nonneg _ _ _ I1) as NN.
    destruct (rest s1) as [|y u]; [contradiction|]. apply Forall_inv in NN. cbn [hd] in X. assert (length (input s1) <> pos s1) by (apply X; unfold eof; lia). lia.
Qed.
Lemma blank_loaded : forall v s gap u s', Inv v 0 s -> off s = 0%nat -> v = gap ++ u -> gap <> [] -> Forall blank gap -> is_space (hd eof u) = false -> u <> [] ->
  lex_any c s = Again s' -> (0 < start s')%nat /\ (pos s' < length (input s'))%nat.
Proof.
  intros v s gap u s' I O V N B HU NU A. destruct gap as [|x gap]; [contradiction|]. clear N. cbn [app] in V.
  inversion B as [|? ? Bx Bg]; subst x0 l. assert (R : rest s = x :: gap ++ u) by (rewrite (rest_off _ _ _ I), O; exact V).
  unfold lex_any in A. destruct (next_hd v 0 s x _ I R) as (s1 & N1 & I1 & O1 & R1 & L1 & W1). rewrite N1 in A.
  assert ((x =? eof) = false /\ (x =? nl) = false /\ (x =? 59) = false /\ (x =? 35) = false) as (E1 & E2 & E3 & E4) by (unfold eof, nl; destruct Bx; lia).
  rewrite E1, E2, E3, E4 in A. rewrite blank_space in A by exact Bx.
  destruct (skip_while_spec v is_space 1 s1 eq_refl I1) as (s2 & S2 & I2 & O2). rewrite S2 in A. injection A as <-. cbn [start pos input].
  rewrite R1, span_app in O2; [|eapply Forall_impl; [|exact Bg]; exact blank_space|exact HU].
  pose proof (i_sp _ _ _ I2) as SP. pose proof (i_pl _ _ _ I2) as PL. split; [unfold off in *; lia|].
  assert (R2 : rest s2 = u) by (eapply rest_step; [exact I1|exact I2|exact R1|exact O2]).
  apply (peek_while_loaded v is_space (S (room s1)) 1 s1 s2 I1 S2). rewrite R2. exact NU.
Qed.
End Op.

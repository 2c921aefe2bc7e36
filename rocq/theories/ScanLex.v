(* Every state function of the scanner keeps the undelivered text and moves forward. *)
From Coq Require Import String Ascii.
From Verif Require Import Value ScanModel ScanSpec ScanProofs.
Open Scope list_scope.
Open Scope Z_scope.

Lemma inv_off : forall v k s, Inv v k s -> Inv v (off s) s.
Proof. intros v k s []. constructor; auto. Qed.
Lemma rest_off : forall v k s, Inv v k s -> rest s = skipn (off s) v.
Proof.
  intros v k s []. subst v. rewrite unread_split, skipn_app by assumption. rewrite <-tok_len at 1 by assumption.
  rewrite skipn_all. rewrite <-tok_len by assumption. rewrite Nat.sub_diag. reflexivity.
Qed.
Lemma tok_off : forall v k s, Inv v k s -> tok_text s = firstn (off s) v.
Proof.
  intros v k s []. subst v. rewrite unread_split, firstn_app by assumption. rewrite <-tok_len by assumption.
  rewrite firstn_all, Nat.sub_diag. cbn. rewrite app_nil_r. reflexivity.
Qed.
Lemma rest_eq : forall v k k' s s', Inv v k s -> Inv v k' s' -> off s' = off s -> rest s' = rest s.
Proof. intros. erewrite (rest_off v k' s'), (rest_off v k s); eauto. congruence. Qed.
Lemma off_le : forall v k s, Inv v k s -> (k <= off s)%nat.
Proof. intros v k s []. assumption. Qed.

Lemma read_start : forall v k s r w s', Inv v k s -> (0 < off s)%nat \/ (pos s < length (input s))%nat ->
  read_rune s = (r, w, s') -> start s' = start s /\ pos s' = pos s /\ (length (input s) <= length (input s'))%nat.
Proof.
  intros v k s r w s' I H. unfold read_rune.
  set (s1 := if negb (fin s) && Nat.eqb (pos s) (length (input s)) then load_line s else s).
  assert (A : start s1 = start s /\ pos s1 = pos s /\ (length (input s) <= length (input s1))%nat).
  { unfold s1. destruct (negb (fin s) && Nat.eqb (pos s) (length (input s))) eqn:E; [|auto].
    apply andb_true_iff in E. destruct E as [_ E]. apply Nat.eqb_eq in E. unfold load_line.
    destruct (take_line (pending s)) as [[b r0] d]. destruct (Nat.eqb (start s) (pos s)) eqn:E2.
    - apply Nat.eqb_eq in E2. unfold off in H. lia.
    - cbn. rewrite app_length. lia. }
  destruct (Nat.eqb (length (input s1)) (pos s1)); intros [= <- <- <-]; exact A.
Qed.
Lemma next_start : forall v k s r s', Inv v k s -> (0 < off s)%nat \/ (pos s < length (input s))%nat ->
  next s = (r, s') -> start s' = start s /\ (pos s <= pos s')%nat /\ (length (input s) <= length (input s'))%nat.
Proof.
  intros v k s r s' I H. unfold next. destruct (read_rune s) as [[r0 w] s1] eqn:E.
  destruct (read_start _ _ _ _ _ _ I H E) as (A1 & A2 & A3). intros [= <- <-]. cbn. lia.
Qed.
Lemma peek2_spec : forall v k s r1 r2 s', Inv v k s -> (0 < off s)%nat \/ (pos s < length (input s))%nat ->
  peek2 s = (r1, r2, s') -> Inv v k s' /\ off s' = off s /\ width s' = width s /\ 
  match rest s with
  | [] => r1 = eof /\ r2 = eof /\ last s' = eof
  | c :: l => r1 = c /\ 0 <= c /\ (c <> nl -> r2 = hd eof l /\ last s' = hd eof l) /\ (c = nl -> r2 = nl /\ last s' = nl)
  end.
Proof.
  intros v k s r1 r2 s' I H. unfold peek2. destruct (next s) as [r s1] eqn:E1.
  destruct (next_spec _ _ _ _ _ I E1) as (L1 & N1). destruct (next_start _ _ _ _ _ I H E1) as (S1 & S2 & S3).
  assert (I1 : Inv v k s1 /\ (r <> eof -> (0 < off s1)%nat)).
  { destruct (rest s); [destruct N1 as (-> & ? & ?); split; [assumption|congruence]|].
    destruct N1 as (-> & ? & N2 & ? & N3 & ?). split; [apply inv_le with (S k); auto|]. lia. }
  destruct I1 as [I1 P1].
  assert (H1 : (0 < off s1)%nat \/ (pos s1 < length (input s1))%nat \/ r = eof).
  { destruct (Z.eq_dec r eof); [auto|]. left. auto. }
  set (p := if r =? nl then (r, s1) else next s1). destruct p as [r2' s2] eqn:Ep. unfold p in Ep. clear p.
  intros [= <- <- <-].
  assert (G : Inv v k s2 /\ start s2 = start s /\ (length (input s) <= length (input s2))%nat).
  { destruct (r =? nl); [injection Ep as <- <-; auto|].
    destruct (next_spec _ _ _ _ _ I1 Ep) as (L2 & N2).
    assert (I2 : Inv v k s2). { destruct (rest s1); [apply N2|]. apply inv_le with (S k); [apply N2|lia]. }
    split; [assumption|].
    assert (H2 : (0 < off s1)%nat \/ (pos s1 < length (input s1))%nat).
    { destruct H1 as [H1|[H1|H1]]; auto. subst r. destruct (rest s) as [|c l] eqn:R.
      - destruct N1 as (_ & _ & _ & N1 & _). destruct H as [H|H]; [left; lia|]. pose proof (rest_cons s H). congruence.
      - destruct N1 as (N1 & N1' & _). unfold eof in *. lia. }
    destruct (next_start _ _ _ _ _ I1 H2 Ep) as (T1 & T2 & T3). lia. }
  destruct G as (G1 & G2 & G3).
  split; [|split; [|split]].
  - destruct G1 as [B1 B2 B3 B4 B5 B6 B7]. destruct I as [C1 C2 C3 C4 C5 C6 C7].
    unfold off in *. constructor; unfold off, unread in *; cbn [pos start input pending fin width]; auto; lia.
  - unfold off. cbn [pos start]. rewrite G2. reflexivity.
  - reflexivity.
  - cbn [last]. destruct (rest s) as [|c l] eqn:R.
    + destruct N1 as (-> & _ & R1 & _). split; [reflexivity|]. change (eof =? nl) with false in Ep.
      destruct (next_spec _ _ _ _ _ I1 Ep) as (L2 & N2). rewrite R1 in N2. destruct N2 as (-> & _). auto.
    + destruct N1 as (-> & Hc & _ & R1 & _). split; [reflexivity|]. split; [assumption|]. split; intros Hn.
      * destruct (c =? nl) eqn:En; [apply Z.eqb_eq in En; contradiction|].
        destruct (next_spec _ _ _ _ _ I1 Ep) as (L2 & N2). rewrite R1 in N2. rewrite L2.
        destruct l; [destruct N2 as (-> & _); auto|destruct N2 as (-> & _); auto].
      * rewrite Hn in Ep, L1. change (nl =? nl) with true in Ep. cbv iota in Ep. injection Ep as <- <-. auto.
Qed.

(* --- moving forward --- *)
Lemma next_mono : forall v k s, Inv v k s -> Inv v k (snd (next s)).
Proof.
  intros v k s I. destruct (next s) as [r s'] eqn:E. destruct (next_spec _ _ _ _ _ I E) as (_ & H).
  destruct (rest s); cbn; [apply H|]. apply inv_le with (S k); [apply H|lia].
Qed.
Lemma peek_mono : forall v k s r s', Inv v k s -> peek s = (r, s') -> Inv v k s' /\ off s' = off s.
Proof. intros v k s r s' I E. destruct (peek_spec _ _ _ _ _ I E) as (A & B & C & _). auto. Qed.
Lemma accept_spec : forall v k s valid b s', Inv v k s -> ~ In eof valid -> accept valid s = (b, s') ->
  Inv v k s' /\
  match rest s with
  | [] => b = false /\ off s' = off s
  | c :: l => b = mem c valid /\ off s' = (if mem c valid then S (off s) else off s)
  end.
Proof.
  intros v k s valid b s' I NE. unfold accept. destruct (next s) as [r s1] eqn:E.
  destruct (next_spec _ _ _ _ _ I E) as (_ & H). destruct (next_backup _ _ _ _ _ I E) as (B1 & B2 & B3 & B4).
  assert (M : mem eof valid = false).
  { unfold mem. clear -NE. induction valid as [|x l IH]; [reflexivity|]. cbn [existsb].
    destruct (eof =? x) eqn:X; [apply Z.eqb_eq in X; exfalso; apply NE; left; auto|]. apply IH. intros Q. apply NE. right. exact Q. }
  destruct (rest s) as [|c l].
  - destruct H as (-> & _). rewrite M. intros [= <- <-]. auto.
  - destruct H as (-> & _ & H1 & _ & H2 & _). destruct (mem c valid); intros [= <- <-]; [|auto].
    split; [apply inv_le with (S k); auto|auto].
Qed.
Lemma accept_mono : forall v k s valid b s', Inv v k s -> ~ In eof valid -> accept valid s = (b, s') ->
  Inv v k s' /\ (off s <= off s')%nat /\ (b = true -> Inv v (S (off s)) s').
Proof.
  intros v k s valid b s' I NE E. destruct (accept_spec _ _ _ _ _ _ I NE E) as (A & B).
  split; [assumption|]. destruct (rest s).
  - destruct B as (-> & ->). split; [lia|congruence].
  - destruct B as (-> & B). destruct (mem _ _).
    + split; [lia|]. intros _. rewrite <-B. eapply inv_off; eauto.
    + split; [lia|congruence].
Qed.
(* how far a run of P goes *)
Fixpoint span (P : Z -> bool) (l : text) : nat := match l with c :: l' => if P c then S (span P l') else 0%nat | [] => 0%nat end.
Lemma next_while_spec : forall v P, P eof = false -> forall n k s, Inv v k s -> (left s < n)%nat ->
  exists s', next_while P n s = Some s' /\ Inv v k s' /\ off s' = (off s + span P (rest s))%nat.
Proof.
  intros v P PE. induction n; intros k s I L; [lia|]. cbn [next_while]. destruct (next s) as [r s1] eqn:E.
  destruct (next_spec _ _ _ _ _ I E) as (_ & H). destruct (next_backup _ _ _ _ _ I E) as (B1 & B2 & B3 & B4).
  unfold left in *. destruct (rest s) as [|c l] eqn:R.
  - destruct H as (-> & _). rewrite PE. eexists. split; [reflexivity|]. split; [assumption|]. cbn. lia.
  - destruct H as (-> & _ & H1 & H2 & H3 & _). cbn [span length] in *. destruct (P c).
    + destruct (IHn k s1) as (s' & A1 & A2 & A3); [apply inv_le with (S k); auto|rewrite H2; lia|].
      exists s'. rewrite H2 in A3. split; [assumption|]. split; [assumption|lia].
    + eexists. split; [reflexivity|]. split; [assumption|lia].
Qed.
Lemma peek_while_spec : forall v P, P eof = false -> forall n k s, Inv v k s -> (left s < n)%nat ->
  exists s', peek_while P n s = Some s' /\ Inv v k s' /\ off s' = (off s + span P (rest s))%nat.
Proof.
  intros v P PE. induction n; intros k s I L; [lia|]. cbn [peek_while]. destruct (peek s) as [r s1] eqn:E.
  destruct (peek_spec _ _ _ _ _ I E) as (A1 & A2 & A3 & _ & _ & _ & H). unfold left in *.
  destruct (rest s) as [|c l] eqn:R.
  - subst r. rewrite PE. exists s1. cbn. split; [reflexivity|]. split; [assumption|lia].
  - destruct H as (-> & _ & _). cbn [span length] in *. destruct (P c).
    + destruct (next s1) as [r s2] eqn:E2. destruct (next_spec _ _ _ _ _ A1 E2) as (_ & H). rewrite A2 in H.
      destruct H as (_ & _ & H1 & H2 & H3 & _). cbn [snd].
      destruct (IHn k s2) as (s' & B1 & B2 & B3); [apply inv_le with (S k); auto|rewrite H2; lia|].
      exists s'. rewrite H2 in B3. split; [assumption|]. split; [assumption|lia].
    + exists s1. split; [reflexivity|]. split; [assumption|lia].
Qed.
Lemma skip_while_spec : forall v P k s, P eof = false -> Inv v k s ->
  exists s', skip_while P s = Some s' /\ Inv v k s' /\ off s' = (off s + span P (rest s))%nat.
Proof. intros v P k s PE I. apply peek_while_spec; auto. pose proof (left_room s). lia. Qed.
Lemma mem_eof : forall valid, ~ In eof valid -> mem eof valid = false.
Proof.
  intros valid NE. unfold mem. induction valid as [|x l IH]; [reflexivity|]. cbn [existsb].
  destruct (eof =? x) eqn:X; [apply Z.eqb_eq in X; exfalso; apply NE; left; auto|]. apply IH. intros Q. apply NE. right. exact Q.
Qed.
Lemma accept_run_spec : forall v k s valid, ~ In eof valid -> Inv v k s ->
  exists s', accept_run valid s = Some s' /\ Inv v k s' /\ off s' = (off s + span (fun r => mem r valid) (rest s))%nat.
Proof. intros v k s valid NE I. apply next_while_spec; auto; [apply mem_eof; assumption|]. pose proof (left_room s). lia. Qed.
Lemma opt_next_mono : forall v k s c, Inv v k s -> Inv v k (snd (opt_next c s)) .
Proof.
  intros v k s c I. unfold opt_next. destruct (peek s) as [r s1] eqn:E. destruct (peek_mono _ _ _ _ _ I E) as [A B].
  destruct (r =? c); cbn [snd]; [apply next_mono|]; assumption.
Qed.
Lemma opt_next_mono' : forall v k s c b s', Inv v k s -> opt_next c s = (b, s') -> Inv v k s'.
Proof. intros v k s c b s' I E. pose proof (opt_next_mono v k s c I) as H. rewrite E in H. exact H. Qed.

Ltac noteof := let H := fresh in intros H; cbn in H; unfold eof in H; repeat (destruct H as [H|H]; [discriminate H|]); contradiction.

Section Ctx.
Variable c : sctx.

Lemma operator_token_mono : forall v k r s b s', Inv v k s -> is_operator_token r s = (b, s') ->
  Inv v k s' /\ (b = false -> s' = s).
Proof.
  intros v k r s b s' I. unfold is_operator_token.
  destruct (mem r _); [intros [= <- <-]; split; [assumption|discriminate]|].
  destruct (r =? 44); [intros [= <- <-]; split; [apply opt_next_mono; assumption|discriminate]|].
  destruct ((r =? 33) || (r =? 61)).
  { intros [= <- <-]. split; [|discriminate]. destruct (opt_next 61 s) as [b s1] eqn:E. pose proof (opt_next_mono' _ _ _ _ _ _ I E).
    destruct b; [apply opt_next_mono|]; assumption. }
  destruct (r =? 62).
  { intros [= <- <-]. split; [|discriminate]. destruct (opt_next 62 s) as [b s1] eqn:E. pose proof (opt_next_mono' _ _ _ _ _ _ I E).
    destruct b; [|apply opt_next_mono]; assumption. }
  destruct (r =? 60).
  { intros [= <- <-]. split; [|discriminate]. destruct (opt_next 60 s) as [b s1] eqn:E. pose proof (opt_next_mono' _ _ _ _ _ _ I E).
    destruct b; [|apply opt_next_mono]; assumption. }
  destruct (r =? 42); [intros [= <- <-]; split; [apply opt_next_mono; assumption|discriminate]|].
  intros [= <- <-]. auto.
Qed.
Lemma operator_token_false : forall v k r s, Inv v k s -> r = eof -> is_operator_token r s = (false, s).
Proof. intros v k r s I ->. reflexivity. Qed.

(* the @'s before an operator: afterwards either at the end, or one rune past the run *)
Lemma skip_ats_spec : forall v n k r j s, Inv v k s -> (S (left s) < n)%nat -> last s = r -> (r = eof -> j <> 0%nat) ->
  exists r' j' s', skip_ats n r j s = Some (r', j', s') /\ Inv v k s' /\ last s' = r' /\ (width s' = 1%nat \/ r' = eof \/ s' = s) /\
    (j <= j')%nat /\ r' <> at_sign /\
    ((r' <> eof /\ off s' = (off s + (j' - j))%nat) \/ (r' = eof /\ r = eof /\ s' = s /\ j' = j) \/ (r' = eof /\ (j < j')%nat /\ off s' = (off s + (j' - j) - 1)%nat)).
Proof.
  intros v. induction n; intros k r j s I L La Re; [lia|]. cbn [skip_ats].
  destruct (r =? at_sign) eqn:Ea.
  - apply Z.eqb_eq in Ea. destruct (next s) as [r1 s1] eqn:E. destruct (next_spec _ _ _ _ _ I E) as (La1 & H).
    assert (I1 : Inv v k s1). { pose proof (next_mono _ _ _ I) as X. rewrite E in X. exact X. }
    unfold left in *. destruct (rest s) as [|x l] eqn:R.
    + destruct H as (-> & _ & R1 & O1 & _). destruct n; [cbn in L; lia|]. cbn [skip_ats]. change (eof =? at_sign) with false. cbn iota.
      exists eof, (S j), s1. split; [reflexivity|]. split; [assumption|]. split; [assumption|]. split; [auto|]. split; [lia|]. split; [discriminate|].
      right. right. repeat split; lia.
    + destruct H as (-> & Hx & _ & R1 & O1 & _ & W1). cbn [length] in L.
      destruct (IHn k x (S j) s1) as (r' & j' & s' & A1 & A2 & A3 & A4 & A5 & A6 & A7); auto; [rewrite R1; lia|].
      exists r', j', s'. split; [assumption|]. split; [assumption|]. split; [assumption|]. split; [|split; [lia|split; [assumption|]]].
      * destruct A4 as [A4|[A4|A4]]; auto. subst s'. auto.
      * destruct A7 as [[? ?]|[(B1 & B2 & B3 & B4)|(? & ? & ?)]]; [left|exfalso|right; right].
        -- split; [assumption|lia].
        -- unfold eof in B2. lia.
        -- repeat split; auto; lia.
  - apply Z.eqb_neq in Ea. exists r, j, s. split; [reflexivity|]. split; [assumption|]. split; [assumption|]. split; [auto|]. split; [lia|]. split; [assumption|].
    destruct (Z.eq_dec r eof); [right; left; auto|left; split; [assumption|lia]].
Qed.
(* is_operator: true moves on; false leaves the scanner so that backing up gives the place
   before r *)
Lemma is_operator_spec : forall v k r s, Inv v (S k) s -> last s = r -> 0 <= r -> width s = 1%nat ->
  exists b s', is_operator r s = Some (b, s') /\
    (b = true -> Inv v (S k) s') /\
    (b = false -> Inv v k s' /\ Inv v (off s - 1) (backup s') /\ off (backup s') = (off s - 1)%nat /\ (r <> at_sign -> s' = s)).
Proof.
  intros v k r s I La Rn W. unfold is_operator.
  destruct (skip_ats_spec v (S (S (room s))) (S k) r 0 s I) as (r' & j & s1 & A1 & A2 & A3 & A4 & A5 & A6 & A7);
    [pose proof (left_room s); lia|assumption|unfold eof; lia|].
  rewrite A1. destruct (is_operator_token r' s1) as [b s2] eqn:E.
  destruct (operator_token_mono _ _ _ _ _ _ A2 E) as (B1 & B2). destruct b.
  - destruct (skip_while_spec v (Z.eqb at_sign) (S k) s2 eq_refl B1) as (s3 & C1 & C2 & _).
    rewrite C1. exists true, s3. split; [reflexivity|]. split; [auto|discriminate].
  - specialize (B2 eq_refl). subst s2. exists false, (set_pos s1 (pos s1 - j)). split; [reflexivity|]. split; [discriminate|]. intros _.
    pose proof (off_le _ _ _ I) as K.
    assert (O1 : (j <= off s1)%nat /\ (k <= off s1 - j)%nat /\
                 ((r' = eof /\ (off s1 - j = off s - 1)%nat) \/ (r' <> eof /\ (off s1 - j = off s)%nat /\ width s1 = 1%nat))).
    { destruct A7 as [[? ?]|[(? & ? & ? & ?)|(? & ? & ?)]].
      - split; [lia|]. split; [lia|]. right. split; [assumption|]. split; [lia|]. destruct A4 as [A4|[A4|A4]]; [auto|contradiction|subst; auto].
      - unfold eof in *. lia.
      - split; [lia|]. split; [lia|]. left. split; [assumption|lia]. }
    destruct O1 as (O1 & O2 & O3).
    pose proof (back_inv v (off s1) s1 j (inv_off _ _ _ A2) O1) as BI.
    assert (OS : off (set_pos s1 (pos s1 - j)) = (off s1 - j)%nat). { unfold off, set_pos. cbn [pos start]. lia. }
    split; [apply inv_le with (off s1 - j)%nat; [assumption|lia]|].
    assert (BK : off (backup (set_pos s1 (pos s1 - j))) = (off s - 1)%nat /\ Inv v (off s - 1) (backup (set_pos s1 (pos s1 - j)))).
    { destruct O3 as [(O3 & O4)|(O3 & O4 & O5)].
      - unfold backup. change (last (set_pos s1 (pos s1 - j))) with (last s1). rewrite A3, O3. change (eof =? eof) with true. cbv iota. split; [rewrite OS; lia|]. rewrite <-O4. assumption.
      - split; [|apply backup_inv; apply inv_le with (off s1 - j)%nat; [assumption|lia]].
        unfold backup. cbn [last set_pos]. rewrite A3. destruct (r' =? eof) eqn:Q; [apply Z.eqb_eq in Q; contradiction|].
        assert (S1 : (start s1 <= pos s1)%nat) by apply A2. unfold off in *. cbn [pos start set_pos] in *.
        destruct (Nat.eqb (pos s1 - j) (start s1)) eqn:Q1; [apply Nat.eqb_eq in Q1; lia|].
        destruct (Nat.ltb (start s1) (pos s1 - j)) eqn:Q2; [|apply Nat.ltb_ge in Q2; lia].
        cbn [pos start set_pos width]. rewrite O5. lia. }
    split; [apply BK|]. split; [apply BK|]. intros Hr. cbn [skip_ats] in A1. destruct (r =? at_sign) eqn:Ea; [apply Z.eqb_eq in Ea; contradiction|].
    injection A1 as <- <- <-. unfold set_pos. rewrite Nat.sub_0_r. destruct s; reflexivity.
Qed.
Lemma at_terminator_spec : forall v k s b s', Inv v k s -> at_terminator c s = (b, s') -> Inv v k s' /\ off s' = off s /\ (b = false -> rest s <> []).
Proof.
  intros v k s b s' I. unfold at_terminator. destruct (peek s) as [r s1] eqn:E.
  destruct (peek_spec _ _ _ _ _ I E) as (A1 & A2 & A3 & A4 & A5 & A6 & A7).
  destruct (_ || _ || _ || _ || _) eqn:T; [intros [= <- <-]; repeat split; auto; try apply A1; discriminate|].
  assert (RN : rest s <> []).
  { intros X. rewrite X in A7. subst r. cbn in T. discriminate T. }
  destruct (Nat.ltb (pos s1) (length (input s1))) eqn:L.
  - apply Nat.ltb_lt in L. destruct (peek2 s1) as [[r1 r2] s2] eqn:E2.
    destruct (peek2_spec _ _ _ _ _ _ A1 (or_intror L) E2) as (B1 & B2 & _). intros [= <- <-].
    split; [assumption|]. split; [congruence|auto].
  - intros [= <- <-]. auto.
Qed.

(* what a state function may return *)
Definition lexed_ok (v : text) (k : nat) (l : lexed) : Prop :=
  match l with
  | Emit _ s => Inv v k s
  | LErr s => Inv v k s
  | LEof s => False
  | Again s => False
  | OutOfFuel => False
  end.
Lemma inv0 : forall v k s, Inv v k s -> Inv v 0 s.
Proof. intros. eapply inv_le; eauto. lia. Qed.
Lemma operator_end_ok : forall v k s, Inv v k s -> lexed_ok v k (lex_operator_end c s).
Proof. intros v k s I. unfold lex_operator_end. destruct (is_identifier c _); exact I. Qed.
Lemma alnum_eof : is_alnum c eof = false.
Proof. reflexivity. Qed.
Lemma lex_operator_ok : forall v k s, Inv v k s -> lexed_ok v k (lex_operator c s).
Proof.
  intros v k s0 I0. unfold lex_operator. destruct (skip_while_spec v (Z.eqb at_sign) k s0 eq_refl I0) as (s & -> & I & _).
  destruct (_ || _ || _); [|apply operator_end_ok; assumption].
  destruct (peek s) as [r s1] eqn:E. destruct (peek_mono _ _ _ _ _ I E) as [I1 _].
  destruct ((r =? 47) || (r =? 92)); [apply operator_end_ok, opt_next_mono, next_mono; assumption|].
  destruct (r =? dot) eqn:Ed; [|apply operator_end_ok; assumption].
  destruct (next s1) as [r1 s2] eqn:E2. cbn [snd].
  assert (I2 : Inv v (S k) s2).
  { destruct (next_spec _ _ _ _ _ I1 E2) as (_ & H). destruct (peek_spec _ _ _ _ _ I E) as (_ & A2 & _ & _ & _ & _ & A7).
    rewrite A2 in H. apply Z.eqb_eq in Ed. subst r. destruct (rest s); [discriminate A7|]. apply H. }
  destruct (peek s2) as [r2 s3] eqn:E3. destruct (peek_mono _ _ _ _ _ I2 E3) as [I3 _].
  destruct (is_digit r2); [cbn; apply backup_inv; assumption|].
  destruct (next s3) as [r3 s4] eqn:E4. assert (I4 : Inv v (S k) s4). { pose proof (next_mono _ _ _ I3) as X. rewrite E4 in X. exact X. }
  destruct (is_operator_token r3 s4) as [b s5] eqn:E5. destruct (operator_token_mono _ _ _ _ _ _ I4 E5) as (I5 & _).
  apply inv_le with (k' := k) in I5; [|lia].
  destruct b; [apply operator_end_ok; assumption|].
  destruct (is_alnum c r3); [|apply operator_end_ok; assumption].
  destruct (next_while_spec v (is_alnum c) alnum_eof (S (room s5)) k s5 I5) as (s6 & -> & I6 & _); [pose proof (left_room s5); lia|].
  destruct (at_terminator c s6) as [t s7] eqn:E7. destruct (at_terminator_spec _ _ _ _ _ I6 E7) as (I7 & _ & _).
  destruct t; cbn [negb]; [|exact I7]. destruct (defined c _); [apply operator_end_ok; assumption|exact I7].
Qed.
Lemma digits_eof : forall b, ~ In eof (digits_for b).
Proof.
  intros b. unfold digits_for. assert (N : forall n l, ~ In eof l -> ~ In eof (firstn n l)).
  { intros n l H X. apply H. rewrite <-(firstn_skipn n l). apply in_or_app. left. exact X. }
  destruct (_ <=? 10); [noteof|]. intros H. apply in_app_or in H. destruct H as [H|H]; [revert H; noteof|].
  apply in_app_or in H. destruct H as [H|H]; revert H; apply N; noteof.
Qed.
Lemma mem_app : forall x a b, mem x (a ++ b) = mem x a || mem x b.
Proof. intros. apply existsb_app. Qed.
(* scan_number never goes back; it moves if the next rune is a digit or a point *)
Lemma scan_number_spec : forall v sl j k s, Inv v k s ->
  exists b s', scan_number c sl j s = Some (b, s') /\ Inv v k s' /\
    (match rest s with x :: _ => x = dot \/ mem x (digits_for (ibase c)) = true -> Inv v (S k) s' | [] => True end).
Proof.
  intros v sl j k s0 I0. unfold scan_number.
  set (pr := if ibase c =? 0 then _ else _). destruct pr as [dg s] eqn:Ep.
  assert (P : Inv v k s /\ ~ In eof dg /\ (off s = off s0 /\ dg = digits_for (ibase c) \/ Inv v (S k) s)).
  { unfold pr in Ep. clear pr. destruct (ibase c =? 0); [|injection Ep as <- <-; split; [assumption|split; [apply digits_eof|left; auto]]].
    destruct (accept (zs "0") s0) as [z s1] eqn:E1. assert (N0 : ~ In eof (zs "0")) by noteof.
    destruct (accept_mono _ _ _ _ _ _ I0 N0 E1) as (I1 & O1 & Q1).
    destruct z.
    - specialize (Q1 eq_refl). assert (Q1' : Inv v (S k) s1) by (apply inv_le with (S (off s0)); [assumption|pose proof (off_le _ _ _ I0); lia]).
      destruct (accept (zs "xX") s1) as [b1 s2] eqn:E2. assert (N1 : ~ In eof (zs "xX")) by noteof.
      destruct (accept_mono _ _ _ _ _ _ Q1' N1 E2) as (I2 & _ & _).
      destruct b1; [injection Ep as <- <-; split; [apply inv_le with (S k); auto|split; [apply digits_eof|auto]]|].
      destruct (accept (zs "oO") s2) as [b2 s3] eqn:E3. assert (N2 : ~ In eof (zs "oO")) by noteof.
      destruct (accept_mono _ _ _ _ _ _ I2 N2 E3) as (I3 & _ & _).
      destruct b2; [injection Ep as <- <-; split; [apply inv_le with (S k); auto|split; [apply digits_eof|auto]]|].
      destruct (accept (zs "bB") s3) as [b3 s4] eqn:E4. assert (N3 : ~ In eof (zs "bB")) by noteof.
      destruct (accept_mono _ _ _ _ _ _ I3 N3 E4) as (I4 & _ & _).
      destruct b3; injection Ep as <- <-; (split; [apply inv_le with (S k); auto|split; [apply digits_eof|auto]]).
    - injection Ep as <- <-. split; [assumption|]. split; [apply digits_eof|].
      destruct (accept_spec _ _ _ _ _ _ I0 N0 E1) as (_ & X). left. split; [|reflexivity].
      destruct (rest s0); [apply X|]. destruct X as (X1 & X2). rewrite <-X1 in X2. exact X2. }
  destruct P as (I & ND & P).
  destruct (accept_run_spec v k s dg ND I) as (s1 & -> & I1 & O1).
  destruct (accept [dot] s1) as [d s2] eqn:E2. assert (N0 : ~ In eof [dot]) by noteof.
  destruct (accept_spec _ _ _ _ _ _ I1 N0 E2) as (I2 & X2).
  assert (O2 : (off s <= off s2)%nat /\ (match rest s0 with x :: _ => x = dot \/ mem x (digits_for (ibase c)) = true -> (k < off s2)%nat | [] => True end)).
  { assert (M2 : (off s1 <= off s2)%nat). { destruct (rest s1); [lia|]. destruct X2 as (_ & X2). destruct (mem _ _); lia. }
    split; [lia|]. destruct (rest s0) as [|x l] eqn:R0; [exact Logic.I|]. intros [->|M].
    - destruct P as [(P1 & P2)|P]; [|pose proof (off_le _ _ _ P); lia].
      assert (R : rest s = dot :: l). { rewrite <-R0. eapply rest_eq; eauto. }
      assert (SP : span (fun r => mem r dg) (rest s) = 0%nat). { rewrite R. cbn [span]. subst dg. 
        assert (MD : mem dot (digits_for (ibase c)) = false).
        { clear. unfold digits_for. destruct (_ <=? 10); [reflexivity|]. rewrite !mem_app.
          assert (FN : forall n t, mem dot t = false -> mem dot (firstn n t) = false).
          { induction n; intros t Ht; [reflexivity|]. destruct t; [reflexivity|]. cbn in *. apply orb_false_iff in Ht. destruct Ht as [-> Ht]. apply IHn. exact Ht. }
          rewrite (FN _ (zs "_abcdefghijklmnopqrstuvwxyz")), (FN _ (zs "_ABCDEFGHIJKLMNOPQRSTUVWXYZ")); reflexivity. }
        rewrite MD. reflexivity. }
      assert (R1 : rest s1 = dot :: l). { rewrite <-R. eapply rest_eq; eauto. lia. }
      rewrite R1 in X2. change (mem dot [dot]) with true in X2. pose proof (off_le _ _ _ I0). destruct X2 as (_ & X2). rewrite O1, SP in X2. lia.
    - destruct P as [(P1 & P2)|P]; [|pose proof (off_le _ _ _ P); lia].
      assert (R : rest s = x :: l). { rewrite <-R0. eapply rest_eq; eauto. }
      rewrite R in O1. cbn [span] in O1. subst dg. rewrite M in O1. pose proof (off_le _ _ _ I0). lia. }
  assert (G : forall (b : bool) s', Inv v k s' -> (off s2 <= off s')%nat -> exists (b0 : bool) (s'0 : sc), Some (b, s') = Some (b0, s'0) /\ Inv v k s'0 /\
     match rest s0 with x :: _ => x = dot \/ mem x (digits_for (ibase c)) = true -> Inv v (S k) s'0 | [] => True end).
  { intros b s' I' O'. exists b, s'. split; [reflexivity|]. split; [assumption|]. destruct (rest s0); [exact Logic.I|]. intros H.
    destruct O2 as [_ O2]. specialize (O2 H). apply inv_le with (off s'); [eapply inv_off; eauto|lia]. }
  clear O2.
  assert (A3 : exists s3, (if d then accept_run dg s2 else Some s2) = Some s3 /\ Inv v k s3 /\ (off s2 <= off s3)%nat).
  { destruct d; [|exists s2; auto]. destruct (accept_run_spec v k s2 dg ND I2) as (s3 & A & B & C). exists s3. split; [assumption|split; [assumption|lia]]. }
  destruct A3 as (s3 & -> & I3 & O3).
  destruct (accept (zs "eEpP") s3) as [e s4] eqn:E4. assert (NE : ~ In eof (zs "eEpP")) by noteof.
  destruct (accept_mono _ _ _ _ _ _ I3 NE E4) as (I4 & O4 & _).
  assert (A5 : exists s5, (if e then accept_run (zs "0123456789") (snd (accept (zs "+-") s4)) else Some s4) = Some s5 /\ Inv v k s5 /\ (off s4 <= off s5)%nat).
  { destruct e; [|exists s4; auto]. destruct (accept (zs "+-") s4) as [b s4'] eqn:E5. assert (NS : ~ In eof (zs "+-")) by noteof.
    destruct (accept_mono _ _ _ _ _ _ I4 NS E5) as (I5 & O5 & _). assert (NN : ~ In eof (zs "0123456789")) by noteof. cbn [snd].
    destruct (accept_run_spec v k s4' (zs "0123456789") NN I5) as (s5 & A & B & C). exists s5. split; [assumption|split; [assumption|lia]]. }
  destruct A5 as (s5 & -> & I5 & O5).
  destruct (peek s5) as [r s6] eqn:E6. destruct (peek_mono _ _ _ _ _ I5 E6) as [I6 O6].
  assert (NX : forall q, Inv v k q -> (off s2 <= off q)%nat -> Inv v k (snd (next q)) /\ (off s2 <= off (snd (next q)))%nat).
  { intros q Iq Oq. split; [apply next_mono; assumption|]. pose proof (next_mono _ _ _ (inv_off _ _ _ Iq)) as X. apply off_le in X. lia. }
  destruct (sl && (r =? 47)); [apply G; [assumption|lia]|].
  destruct (j && (r =? 106)); [apply G; [assumption|lia]|].
  destruct (negb (r =? 111) && is_alnum c r); [apply G; apply NX; auto; lia|].
  destruct (r =? dot); [apply G; apply NX; auto; lia|].
  destruct (at_terminator c s6) as [t s7] eqn:E7. destruct (at_terminator_spec _ _ _ _ _ I6 E7) as (I7 & O7 & _).
  destruct t; [apply G; [assumption|lia]|apply G; apply NX; auto; lia].
Qed.

Definition accepted_ok (v : text) (k : nat) (a : accepted) : Prop :=
  match a with NumOk s => Inv v k s | NumFn l => lexed_ok v k l end.
Definition starts_number (l : text) : Prop :=
  match l with x :: _ => x = dot \/ mem x (digits_for (ibase c)) = true \/ mem x (zs "+-") = true | [] => False end.
Lemma lexed_le : forall v k k' l, lexed_ok v k l -> (k' <= k)%nat -> lexed_ok v k' l.
Proof. intros v k k' [] H L; cbn in *; auto; eapply inv_le; eauto. Qed.
Lemma accept_unsigned_ok : forall v k s, Inv v k s -> accepted_ok v k (accept_unsigned c true s) /\
  (match rest s with x :: _ => x = dot \/ mem x (digits_for (ibase c)) = true -> accepted_ok v (S k) (accept_unsigned c true s) | [] => True end).
Proof.
  intros v k s I. unfold accept_unsigned. destruct (scan_number_spec v true true k s I) as (b & s2 & E & I2 & P). rewrite E. clear E.
  assert (G : forall k, Inv v k s2 -> accepted_ok v k (let '(r, s3) := peek s2 in
      if negb (r =? 47) then NumOk s3
      else
        let s4 := snd (accept (zs "/") s3) in
        let '(r', s5) := peek s4 in
        if true && negb (r' =? dot) && negb (is_numeral c r') then NumOk (set_pos s5 (pos s5 - 1))
        else match scan_number c false true s5 with
             | None => NumFn OutOfFuel
             | Some (false, s6) => NumFn (LErr s6)
             | Some (true, s6) => let '(r'', s7) := peek s6 in if r'' =? dot then NumFn (LErr s7) else NumOk s7
             end)).
  { clear. intros k I. destruct (peek s2) as [r s3] eqn:E3.
    destruct (peek_spec _ _ _ _ _ I E3) as (I3 & R3 & O3 & _ & _ & _ & P3).
    destruct (r =? 47) eqn:Er; cbn [negb]; [|exact I3]. apply Z.eqb_eq in Er. subst r. cbn zeta.
    destruct (accept (zs "/") s3) as [b4 s4] eqn:E4. assert (NS : ~ In eof (zs "/")) by noteof.
    destruct (accept_spec _ _ _ _ _ _ I3 NS E4) as (I4 & P4). cbn [snd].
    assert (Q4 : Inv v (S k) s4).
    { rewrite R3 in P4. destruct (rest s2); [discriminate P3|]. destruct P3 as (<- & _). change (mem 47 (zs "/")) with true in P4.
      destruct P4 as (_ & P4). apply inv_le with (off s4); [eapply inv_off; eauto|]. pose proof (off_le _ _ _ I3). rewrite P4. lia. }
    destruct (peek s4) as [r' s5] eqn:E5. destruct (peek_mono _ _ _ _ _ Q4 E5) as [I5 O5].
    cbn [andb]. destruct (negb (r' =? dot) && negb (is_numeral c r')).
    - cbn [accepted_ok]. replace k with (S k - 1)%nat at 1 by lia. apply back_inv; [assumption|lia].
    - apply inv_le with (k' := k) in I5; [|lia]. destruct (scan_number_spec v false true k s5 I5) as (b & s6 & E & I6 & _). rewrite E.
      destruct b; [|exact I6]. destruct (peek s6) as [r'' s7] eqn:E7. destruct (peek_mono _ _ _ _ _ I6 E7) as [I7 _].
      destruct (r'' =? dot); [exact I7|exact I7]. }
  split; [destruct b; [apply (G k I2)|exact I2]|]. destruct (rest s); [exact Logic.I|]. intros H. specialize (P H).
  destruct b; [apply (G (S k) P)|exact P].
Qed.
Lemma accept_number_ok : forall v k s, Inv v k s ->
  accepted_ok v k (accept_number c true s) /\ (starts_number (rest s) -> accepted_ok v (S k) (accept_number c true s)).
Proof.
  intros v k s0 I0. unfold accept_number. destruct (accept (zs "+-") s0) as [sg s1] eqn:E1.
  assert (NS : ~ In eof (zs "+-")) by noteof. destruct (accept_spec _ _ _ _ _ _ I0 NS E1) as (I1 & X1).
  rewrite andb_true_r. destruct sg.
  - assert (I1' : Inv v (S k) s1).
    { apply inv_le with (off s1); [eapply inv_off; eauto|]. pose proof (off_le _ _ _ I0). destruct (rest s0); [destruct X1; discriminate|].
      destruct X1 as (X1 & X2). rewrite <-X1 in X2. lia. }
    destruct (peek s1) as [r s2] eqn:E2. destruct (peek_mono _ _ _ _ _ I1' E2) as [I2 _].
    assert (A : forall a, accepted_ok v (S k) a -> accepted_ok v k a /\ (starts_number (rest s0) -> accepted_ok v (S k) a)).
    { intros a H. split; [|auto]. destruct a; cbn in *; [eapply inv_le; eauto|eapply lexed_le; eauto]. }
    destruct ((r =? 47) || (r =? 92)); [apply A; cbn; apply opt_next_mono, next_mono; assumption|].
    destruct (negb (r =? dot) && negb (is_numeral c r)); [apply A; cbn; apply lex_operator_ok; assumption|].
    apply A. apply accept_unsigned_ok. assumption.
  - destruct (accept_unsigned_ok v k s1 I1) as (G1 & G2). split; [exact G1|]. intros H.
    assert (O1 : off s1 = off s0). { destruct (rest s0); [apply X1|]. destruct X1 as (X1 & X2). rewrite <-X1 in X2. exact X2. }
    rewrite (rest_eq v k k s0 s1 I0 I1 O1) in G2. unfold starts_number in H. destruct (rest s0); [contradiction|].
    apply G2. destruct H as [H|[H|H]]; auto. destruct X1 as (X1 & _). congruence.
Qed.
Lemma accept_no : forall v k s valid x l, Inv v k s -> ~ In eof valid -> rest s = x :: l -> mem x valid = false ->
  exists s', accept valid s = (false, s') /\ Inv v k s' /\ off s' = off s /\ rest s' = x :: l.
Proof.
  intros v k s valid x l I NE R M. destruct (accept valid s) as [b s'] eqn:E. destruct (accept_spec _ _ _ _ _ _ I NE E) as (A & B).
  rewrite R, M in B. destruct B as (-> & B). exists s'. split; [reflexivity|]. split; [assumption|]. split; [assumption|].
  rewrite <-R. eapply rest_eq; eauto.
Qed.
Lemma scan_number_j : forall v k s l, Inv v k s -> rest s = 106 :: l -> mem 106 (digits_for (ibase c)) = false ->
  exists s', scan_number c true true s = Some (true, s') /\ Inv v k s' /\ rest s' = 106 :: l.
Proof.
  intros v k s0 l I0 R0 M. unfold scan_number.
  assert (P : exists s, (if ibase c =? 0 then let '(z, s1) := accept (zs "0") s0 in
      if z then
        let '(b1, s2) := accept (zs "xX") s1 in if b1 then (digits_for 16, s2) else
        let '(b2, s3) := accept (zs "oO") s2 in if b2 then (digits_for 8, s3) else
        let '(b3, s4) := accept (zs "bB") s3 in if b3 then (digits_for 2, s4) else (digits_for (ibase c), s4)
      else (digits_for (ibase c), s1)
    else (digits_for (ibase c), s0)) = (digits_for (ibase c), s) /\ Inv v k s /\ rest s = 106 :: l).
  { destruct (ibase c =? 0); [|exists s0; auto]. assert (N0 : ~ In eof (zs "0")) by noteof.
    destruct (accept_no v k s0 (zs "0") 106 l I0 N0 R0 eq_refl) as (s & -> & A & _ & B). exists s. auto. }
  destruct P as (s & -> & I & R).
  destruct (accept_run_spec v k s (digits_for (ibase c)) (digits_eof _) I) as (s1 & -> & I1 & O1).
  rewrite R in O1. cbn [span] in O1. rewrite M in O1.
  assert (R1 : rest s1 = 106 :: l) by (rewrite <-R; eapply rest_eq; eauto; lia).
  assert (N1 : ~ In eof [dot]) by noteof. destruct (accept_no v k s1 [dot] 106 l I1 N1 R1 eq_refl) as (s2 & -> & I2 & _ & R2).
  assert (N2 : ~ In eof (zs "eEpP")) by noteof. destruct (accept_no v k s2 (zs "eEpP") 106 l I2 N2 R2 eq_refl) as (s3 & -> & I3 & _ & R3).
  destruct (peek s3) as [r s6] eqn:E6. destruct (peek_spec _ _ _ _ _ I3 E6) as (I6 & R6 & _ & _ & _ & _ & P6). rewrite R3 in *.
  destruct P6 as (-> & _). change (true && (106 =? 47)) with false. change (true && (106 =? 106)) with true. cbv iota. exists s6. auto.
Qed.
Lemma accept_number_j : forall v k s0 l, Inv v k s0 -> rest s0 = 106 :: l -> mem 106 (digits_for (ibase c)) = false ->
  exists s', accept_number c true s0 = NumOk s' /\ Inv v k s' /\ rest s' = 106 :: l.
Proof.
  intros v k s0 l I0 R0 M. unfold accept_number, accept_unsigned. assert (NS : ~ In eof (zs "+-")) by noteof.
  destruct (accept_no v k s0 (zs "+-") 106 l I0 NS R0 eq_refl) as (s1 & -> & I1 & _ & R1). cbn [andb].
  destruct (scan_number_j v k s1 l I1 R1 M) as (s2 & -> & I2 & R2).
  destruct (peek s2) as [r s3] eqn:E3. destruct (peek_spec _ _ _ _ _ I2 E3) as (I3 & R3 & _ & _ & _ & _ & P3). rewrite R2 in *.
  destruct P3 as (-> & _). change (negb (106 =? 47)) with true. cbv iota. exists s3. auto.
Qed.
Lemma lex_complex_ok : forall v k s, Inv v k s ->
  lexed_ok v k (lex_complex c s) /\ (starts_number (rest s) \/ hd eof (rest s) = 106 -> lexed_ok v (S k) (lex_complex c s)).
Proof.
  intros v k s0 I0. unfold lex_complex. destruct (accept_number_ok v k s0 I0) as (A & B).
  assert (G : forall k s, Inv v k s -> lexed_ok v k (let '(j, s2) := accept (zs "j") s in
    if negb j then Emit TNumber s2
    else match accept_number c true s2 with
         | NumOk s3 => Emit TNumber s3
         | NumFn OutOfFuel => OutOfFuel
         | NumFn (Emit _ s3) | NumFn (LErr s3) | NumFn (LEof s3) | NumFn (Again s3) => LErr s3
         end)).
  { clear. intros k s I. destruct (accept (zs "j") s) as [j s2] eqn:E. assert (NS : ~ In eof (zs "j")) by noteof.
    destruct (accept_mono _ _ _ _ _ _ I NS E) as (I2 & _ & _). destruct j; cbn [negb]; [|exact I2].
    destruct (accept_number_ok v k s2 I2) as (A & _). destruct (accept_number c true s2) as [?|[]]; cbn in *; auto; try contradiction; eauto using inv_le. }
  split.
  - destruct (accept_number c true s0) as [s1|l]; [apply G; exact A|exact A].
  - intros H. assert (S : starts_number (rest s0) \/ (exists l, rest s0 = 106 :: l) /\ mem 106 (digits_for (ibase c)) = false).
    { destruct H as [H|H]; [auto|]. destruct (rest s0) as [|x l]; [discriminate H|]. cbn in H. subst x.
      destruct (mem 106 (digits_for (ibase c))) eqn:M; [left; cbn; auto|right; split; [eauto|reflexivity]]. }
    clear H. destruct S as [S|((l & R0) & M)].
    + specialize (B S). destruct (accept_number c true s0) as [s1|l]; [apply G; exact B|exact B].
    + destruct (accept_number_j v k s0 l I0 R0 M) as (s3 & -> & I3 & R3).
      assert (NJ : ~ In eof (zs "j")) by noteof. destruct (accept (zs "j") s3) as [j s4] eqn:E4.
      destruct (accept_spec _ _ _ _ _ _ I3 NJ E4) as (I4 & P4). rewrite R3 in P4. change (mem 106 (zs "j")) with true in P4.
      destruct P4 as (-> & O4). cbn [negb]. assert (I4' : Inv v (S k) s4).
      { apply inv_le with (off s4); [eapply inv_off; eauto|]. pose proof (off_le _ _ _ I3). lia. }
      destruct (accept_number_ok v (S k) s4 I4') as (A4 & _). destruct (accept_number c true s4) as [?|[]]; cbn in *; auto; try contradiction; eauto using inv_le.
Qed.
End Ctx.

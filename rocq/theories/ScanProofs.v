(* The scanner's basic operations keep the undelivered text. *)
From Coq Require Import String Ascii.
From Verif Require Import Value ScanModel ScanSpec.
Open Scope list_scope.
Open Scope Z_scope.

Definition rest (s : sc) : text := skipn (pos s) (input s) ++ nocr (pending s).
Definition left (s : sc) : nat := length (rest s).

Record Inv (v : text) (k : nat) (s : sc) : Prop := mkInv {
  i_sp : (start s <= pos s)%nat; i_pl : (pos s <= length (input s))%nat;
  i_fin : fin s = true -> pending s = []; i_w : (width s <= 1)%nat;
  i_nn : Forall (fun r => 0 <= r) v;
  i_v : unread s = v; i_k : (k <= off s)%nat }.
Lemma inv_le : forall v k k' s, Inv v k s -> (k' <= k)%nat -> Inv v k' s.
Proof. intros v k k' s [] L. constructor; auto. lia. Qed.
Lemma inv_ok : forall v s, Inv v 0 s <-> (scanner_ok s /\ unread s = v).
Proof.
  intros v s. split.
  - intros []. split; [|assumption]. subst v. repeat split; auto; lia.
  - intros ((H1 & H2 & H3 & H4) & <-). constructor; auto; lia.
Qed.
Lemma skipn_skipn : forall (A : Type) (l : list A) a b, skipn a (skipn b l) = skipn (b + a) l.
Proof. induction l; intros a0 b; [rewrite !skipn_nil; reflexivity|]. destruct b; cbn; [reflexivity|apply IHl]. Qed.
Lemma unread_split : forall s, (start s <= pos s)%nat -> unread s = tok_text s ++ rest s.
Proof.
  intros s H. unfold unread, tok_text, rest, slice. rewrite app_assoc. f_equal.
  rewrite <-(firstn_skipn (pos s - start s) (skipn (start s) (input s))) at 1. f_equal.
  rewrite skipn_skipn. f_equal. lia.
Qed.
Lemma tok_len : forall s, (pos s <= length (input s))%nat -> (start s <= pos s)%nat -> length (tok_text s) = off s.
Proof. intros s H H0. unfold tok_text, slice, off. rewrite firstn_length, skipn_length. lia. Qed.
Lemma nocr_len : forall t, (length (nocr t) <= length t)%nat.
Proof. unfold nocr. induction t; cbn [filter length]; [lia|]. destruct (negb _); cbn [length]; lia. Qed.
Lemma left_room : forall s, (left s <= room s)%nat.
Proof. intros s. unfold left, rest, room. rewrite app_length, skipn_length. pose proof (nocr_len (pending s)). lia. Qed.

Lemma take_line_spec : forall t b r d, take_line t = (b, r, d) -> nocr t = b ++ nocr r /\ (d = true -> r = []) /\ (b = [] -> d = true) .
Proof.
  induction t as [|c t IH]; intros b r d; cbn [take_line].
  - intros [= <- <- <-]. cbn. auto.
  - destruct (c =? nl) eqn:E.
    + intros [= <- <- <-]. cbn. apply Z.eqb_eq in E. subst c. cbn. repeat split; congruence.
    + destruct (take_line t) as [[b' r'] d'] eqn:Et. destruct (IH _ _ _ eq_refl) as (I1 & I2 & I3).
      intros [= <- <- <-]. unfold nocr in *. cbn [filter]. destruct (c =? 13) eqn:E3; cbn [negb]; rewrite I1; repeat split; auto.
      intros X. discriminate X.
Qed.
(* After reading there is a rune unless the text is at its end. *)
Lemma load_inv : forall v k s, Inv v k s -> fin s = false -> pos s = length (input s) ->
  Inv v k (load_line s) /\ rest (load_line s) = rest s /\ off (load_line s) = off s /\
  tok_text (load_line s) = tok_text s /\
  (pos (load_line s) = length (input (load_line s)) -> rest s = []) /\ last (load_line s) = last s /\ width (load_line s) = width s.
Proof.
  intros v k s [H1 H2 H3 H4 H5 H6 H7] F P. unfold load_line. destruct (take_line (pending s)) as [[b r] d] eqn:E.
  destruct (take_line_spec _ _ _ _ E) as (T1 & T2 & T3).
  assert (R : rest s = b ++ nocr r). { unfold rest. rewrite P, skipn_all, T1. reflexivity. }
  destruct (Nat.eqb (start s) (pos s)) eqn:Es.
  - apply Nat.eqb_eq in Es.
    assert (U : unread s = rest s). { unfold unread, rest. rewrite Es. reflexivity. }
    assert (TK : tok_text s = []). { unfold tok_text, slice. rewrite Es, Nat.sub_diag. reflexivity. }
    rewrite TK.
    assert (R' : skipn 0 b ++ nocr r = rest s) by (rewrite R; reflexivity).
    split; [|split; [exact R'|split; [unfold off; cbn [pos start]; lia|split; [reflexivity|split; [|auto]]]]].
    + unfold off in H7. constructor; unfold unread, off; cbn [pos start input pending fin last width]; try lia; auto.
      * rewrite F. cbn. exact T2.
      * rewrite R', <-U. exact H6.
    + intros X. destruct b; [|cbn in X; lia]. rewrite R. rewrite (T2 (T3 eq_refl)). reflexivity.
  - apply Nat.eqb_neq in Es.
    assert (R' : skipn (pos s) (input s ++ b) ++ nocr r = rest s).
    { rewrite skipn_app, P, skipn_all, Nat.sub_diag. rewrite R. reflexivity. }
    assert (S' : skipn (start s) (input s ++ b) ++ nocr r = unread s).
    { rewrite skipn_app. replace (start s - length (input s))%nat with 0%nat by lia. unfold unread.
      rewrite <-app_assoc. rewrite T1. reflexivity. }
    split; [|split; [exact R'|split; [reflexivity|split; [unfold tok_text, slice; cbn [pos start input]|split; [cbn [pos input]|auto]]]]].
    + constructor; unfold unread, off; cbn [pos start input pending fin last width]; auto.
      * rewrite app_length. lia.
      * rewrite F. exact T2.
      * rewrite S'. exact H6.
    + rewrite skipn_app, firstn_app, skipn_length. replace (pos s - start s - (length (input s) - start s))%nat with 0%nat by lia.
      rewrite firstn_O, app_nil_r. reflexivity.
    + intros X. rewrite app_length in X. destruct b; [|cbn in X; lia]. rewrite R, (T2 (T3 eq_refl)). reflexivity.
Qed.

Lemma rest_cons : forall s, (pos s < length (input s))%nat ->
  rest s = List.nth (pos s) (input s) 0 :: skipn (S (pos s)) (input s) ++ nocr (pending s).
Proof.
  intros s H. unfold rest. revert H. generalize (pos s) (input s). clear.
  intros n l. revert n. induction l; intros n H; cbn in *; [lia|]. destruct n; [reflexivity|]. cbn. apply IHl. lia.
Qed.
(* read_rune: the first of the rest, whatever had to be loaded. *)
Lemma read_spec : forall v k s r w s', Inv v k s -> read_rune s = (r, w, s') ->
  Inv v k s' /\ rest s' = rest s /\ off s' = off s /\ tok_text s' = tok_text s /\ last s' = last s /\ width s' = width s /\
  match rest s with
  | [] => r = eof /\ w = 0%nat
  | c :: _ => r = c /\ w = 1%nat /\ 0 <= c /\ (pos s' < length (input s'))%nat
  end.
Proof.
  intros v k s r w s' I. unfold read_rune.
  set (s1 := if negb (fin s) && Nat.eqb (pos s) (length (input s)) then load_line s else s).
  assert (A : Inv v k s1 /\ rest s1 = rest s /\ off s1 = off s /\ tok_text s1 = tok_text s /\ last s1 = last s /\ width s1 = width s /\
    (pos s1 = length (input s1) -> rest s = [])).
  { unfold s1. destruct (fin s) eqn:F; cbn [negb andb].
    - repeat split; auto; try apply I. intros P. unfold rest. rewrite P, skipn_all, (i_fin _ _ _ I F). reflexivity.
    - destruct (Nat.eqb (pos s) (length (input s))) eqn:E.
      + apply Nat.eqb_eq in E. destruct (load_inv _ _ _ I F E) as (L1 & L2 & L3 & L4 & L5 & L6 & L7). repeat split; auto; try apply L1.
      + apply Nat.eqb_neq in E. repeat split; auto; try apply I. intros X. contradiction. }
  destruct A as (A1 & A2 & A3 & A4 & A5 & A6 & A7).
  destruct (Nat.eqb (length (input s1)) (pos s1)) eqn:E; intros [= <- <- <-].
  - apply Nat.eqb_eq in E. rewrite (A7 (eq_sym E)). repeat split; auto; try apply A1.
    rewrite <-(A7 (eq_sym E)). assumption.
  - apply Nat.eqb_neq in E. assert (L : (pos s1 < length (input s1))%nat) by (pose proof (i_pl _ _ _ A1); lia).
    pose proof (rest_cons s1 L) as R. rewrite A2 in R. rewrite R at 2. split; [assumption|]. split; [assumption|].
    repeat split; auto.
    pose proof (i_nn _ _ _ A1) as N. rewrite <-(i_v _ _ _ A1), unread_split, A2, R in N by apply A1.
    apply Forall_app in N. destruct N as [_ N]. apply Forall_inv in N. exact N.
Qed.
Lemma slice_snoc : forall (l : text) a b, (a <= b < length l)%nat ->
  firstn (b + 1 - a) (skipn a l) = firstn (b - a) (skipn a l) ++ [List.nth b l 0].
Proof.
  intros l a. revert l. induction a; intros l b H.
  - cbn [skipn]. rewrite !Nat.sub_0_r. revert b H. induction l; intros b H; cbn in H; [lia|].
    destruct b; [reflexivity|]. cbn. f_equal. apply IHl. lia.
  - destruct l; [cbn in H; lia|]. destruct b; [lia|]. cbn [skipn List.nth]. replace (S b + 1 - S a)%nat with (b + 1 - a)%nat by lia.
    replace (S b - S a)%nat with (b - a)%nat by lia. apply IHa. cbn in H. lia.
Qed.
(* next *)
Lemma next_spec : forall v k s r s', Inv v k s -> next s = (r, s') ->
  last s' = r /\
  match rest s with
  | [] => r = eof /\ Inv v k s' /\ rest s' = [] /\ off s' = off s /\ tok_text s' = tok_text s
  | c :: l => r = c /\ 0 <= c /\ Inv v (S k) s' /\ rest s' = l /\ off s' = S (off s) /\ tok_text s' = tok_text s ++ [c] /\ width s' = 1%nat
  end.
Proof.
  intros v k s r s' I. unfold next. destruct (read_rune s) as [[r0 w] s1] eqn:E.
  destruct (read_spec _ _ _ _ _ _ I E) as (A1 & A2 & A3 & A4 & A5 & A6 & A7).
  intros [= <- <-]. cbn [last]. split; [reflexivity|].
  destruct (rest s) as [|c l] eqn:R.
  - destruct A7 as (-> & ->). unfold rest, off, tok_text, slice in *. cbn [pos start input pending] in *. rewrite Nat.add_0_r in *.
    split; [reflexivity|]. split; [|repeat split; auto].
    destruct A1 as [H1 H2 H3 H4 H5 H6 H7]. constructor; unfold off, unread in *; cbn [pos start input pending fin width]; auto; lia.
  - destruct A7 as (-> & -> & A8 & A9). split; [reflexivity|]. split; [assumption|].
    pose proof (rest_cons s1 A9) as R1. rewrite A2 in R1. injection R1 as R1 R2.
    destruct A1 as [H1 H2 H3 H4 H5 H6 H7].
    split; [|split; [|split; [|split; [|reflexivity]]]].
    + constructor; unfold off, unread in *; cbn [pos start input pending fin width]; auto; lia.
    + unfold rest. cbn [pos input pending]. rewrite R2. f_equal. rewrite Nat.add_1_r. reflexivity.
    + unfold off in *. cbn [pos start]. lia.
    + rewrite <-A4. unfold tok_text, slice. cbn [pos start input]. rewrite slice_snoc by lia. f_equal. f_equal. symmetry. exact R1.
Qed.
Lemma peek_spec : forall v k s r s', Inv v k s -> peek s = (r, s') ->
  Inv v k s' /\ rest s' = rest s /\ off s' = off s /\ tok_text s' = tok_text s /\ last s' = last s /\ width s' = width s /\
  match rest s with [] => r = eof | c :: _ => r = c /\ 0 <= c /\ (pos s' < length (input s'))%nat end.
Proof.
  intros v k s r s' I. unfold peek. destruct (read_rune s) as [[r0 w] s1] eqn:E.
  destruct (read_spec _ _ _ _ _ _ I E) as (A1 & A2 & A3 & A4 & A5 & A6 & A7). intros [= <- <-].
  split; [assumption|]. repeat split; auto. destruct (rest s); [apply A7|]. destruct A7 as (? & ? & ? & ?). auto.
Qed.
(* stepping back within the token *)
Lemma back_inv : forall v k s n, Inv v k s -> (n <= k)%nat -> Inv v (k - n) (set_pos s (pos s - n)) .
Proof.
  intros v k s n [H1 H2 H3 H4 H5 H6 H7] L. unfold off in *. constructor; unfold set_pos, off, unread in *; cbn [pos start input pending fin width]; auto; lia.
Qed.
Lemma backup_inv : forall v k s, Inv v (S k) s -> Inv v k (backup s).
Proof.
  intros v k s I. unfold backup. destruct (last s =? eof); [apply inv_le with (S k); auto|].
  pose proof (i_k _ _ _ I) as K. unfold off in K. pose proof (i_w _ _ _ I).
  destruct (Nat.eqb (pos s) (start s)) eqn:E; [apply Nat.eqb_eq in E; lia|].
  destruct (Nat.ltb (start s) (pos s)) eqn:E2; [|apply Nat.ltb_ge in E2; apply Nat.eqb_neq in E; lia].
  apply inv_le with (S k - width s)%nat; [|lia]. apply back_inv; [assumption|lia].
Qed.
(* next followed by backup: nothing has moved *)
Lemma next_backup : forall v k s r s', Inv v k s -> next s = (r, s') ->
  Inv v k (backup s') /\ rest (backup s') = rest s /\ off (backup s') = off s /\ tok_text (backup s') = tok_text s.
Proof.
  intros v k s r s' I N. destruct (next_spec _ _ _ _ _ I N) as (L & H). destruct (rest s) as [|c l] eqn:R.
  - destruct H as (-> & A1 & A2 & A3 & A4). unfold backup. rewrite L. cbn. auto.
  - destruct H as (-> & A0 & A1 & A2 & A3 & A4 & A5). split; [apply backup_inv; assumption|].
    unfold backup. rewrite L. destruct (c =? eof) eqn:Ec; [apply Z.eqb_eq in Ec; unfold eof in Ec; lia|].
    pose proof (i_k _ _ _ A1) as K. unfold off in K, A3. pose proof (i_pl _ _ _ A1) as PL.
    destruct (Nat.eqb (pos s') (start s')) eqn:E; [apply Nat.eqb_eq in E; lia|].
    destruct (Nat.ltb (start s') (pos s')) eqn:E2; [|apply Nat.ltb_ge in E2; apply Nat.eqb_neq in E; lia].
    rewrite A5. pose proof (unread_split s (i_sp _ _ _ I)) as U. rewrite R in U.
    assert (TT : tok_text (set_pos s' (pos s' - 1)) = tok_text s).
    { unfold tok_text in A4 |- *. unfold slice, set_pos in *. cbn [pos start input].
      assert (X : firstn (pos s' - 1 - start s') (skipn (start s') (input s')) = removelast (firstn (pos s' - start s') (skipn (start s') (input s')))).
      { replace (pos s' - start s')%nat with (pos s' - 1 + 1 - start s')%nat by lia. rewrite slice_snoc by lia. rewrite removelast_last. reflexivity. }
      rewrite X, A4. apply removelast_last. }
    split; [|split; [|exact TT]].
    + assert (SP : (start (set_pos s' (pos s' - 1)) <= pos (set_pos s' (pos s' - 1)))%nat) by (cbn; lia).
      pose proof (unread_split _ SP) as U2. rewrite TT in U2. change (unread (set_pos s' (pos s' - 1))) with (unread s') in U2.
      rewrite (i_v _ _ _ A1) in U2. rewrite (i_v _ _ _ I) in U. rewrite U in U2. apply app_inv_head in U2. symmetry. exact U2.
    + unfold off, set_pos. cbn [pos start]. unfold off. lia.
Qed.

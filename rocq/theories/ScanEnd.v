(* Scanning a text with and without a final newline. *)
From Coq Require Import String.
From Verif Require Import Value ScanModel ScanSpec ScanProofs ScanLex.
Open Scope string_scope.
Open Scope list_scope.
Open Scope Z_scope.

(* A scans the text, B the text with a newline at the end. *)
Record sim (A B : sc) : Prop := mkSim {
  s_pos : pos B = pos A; s_start : start B = start A; s_sp : (start A <= pos A)%nat; s_le : (pos A <= length (input A))%nat;
  s_nn : Forall (fun r => 0 <= r) (input A ++ nocr (pending A));
  s_good : calm_end (input A ++ nocr (pending A));
  s_case : (input B = input A /\ fin A = false /\ fin B = false /\ pending B = pending A ++ [nl]) \/
           (input B = input A ++ [nl] /\ pending A = [] /\ pending B = [] /\ fin A = true) }.

Lemma good_suffix : forall a b, calm_end (a ++ b) -> calm_end b.
Proof. intros a b G x r l E. apply (G (a ++ x) r l). rewrite E, <-app_assoc. reflexivity. Qed.
Lemma take_line_nl : forall p b r d, take_line p = (b, r, d) ->
  (d = false /\ take_line (p ++ [nl]) = (b, r ++ [nl], false)) \/ (d = true /\ r = [] /\ take_line (p ++ [nl]) = (b ++ [nl], [], false)).
Proof.
  induction p as [|c p IH]; intros b r d; cbn [take_line app].
  - intros [= <- <- <-]. right. auto.
  - destruct (c =? nl); [intros [= <- <- <-]; left; auto|]. destruct (take_line p) as [[b0 r0] d0]. intros [= <- <- <-].
    destruct (IH _ _ _ eq_refl) as [(-> & ->)|(-> & -> & ->)]; [left|right]; destruct (c =? 13); auto.
Qed.
Lemma load_sim : forall A B, sim A B -> fin A = false -> pos A = length (input A) -> sim (load_line A) (load_line B) /\
  last (load_line A) = last A /\ width (load_line A) = width A /\ last (load_line B) = last B /\ width (load_line B) = width B /\
  to_come (load_line A) = to_come A.
Proof.
  intros A B [P S SP LE NN G C] F E. destruct C as [(C1 & C2 & C3 & C4)|(_ & _ & _ & C)]; [|congruence].
  unfold load_line. rewrite C4, P, S, C1. destruct (take_line (pending A)) as [[b r] d] eqn:T. destruct (take_line_spec _ _ _ _ T) as (T1 & T2 & _).
  assert (TC : forall p0 st x y, pos A = p0 -> to_come (mkSc (input A ++ b) r x p0 st y (width A)) = to_come A /\ to_come (mkSc b r x 0 st y (width A)) = to_come A).
  { intros p0 st x y <-. unfold to_come. cbn [pos input pending]. rewrite T1, E, skipn_app, skipn_all, Nat.sub_diag. cbn [skipn app]. auto. }
  destruct (take_line_nl _ _ _ _ T) as [(-> & ->)|(-> & -> & ->)]; destruct (Nat.eqb (start A) (pos A)) eqn:Q; rewrite ?C2, ?C3;
    (split; [|split; [reflexivity|split; [reflexivity|split; [reflexivity|split; [reflexivity|first [exact (proj2 (TC (pos A) _ _ _ eq_refl))|exact (proj1 (TC (pos A) _ _ _ eq_refl))]]]]]]);
    constructor; cbn [input pending fin pos start orb]; rewrite ?app_length; try lia; rewrite ?app_nil_r, <-?app_assoc, <-?T1; auto; rewrite ?T1 in *;
    try (apply Forall_app in NN; apply NN); try (apply good_suffix in G; exact G); cbn [nocr filter] in *; rewrite ?app_nil_r in *;
    try (apply Forall_app in NN; apply NN); try (apply good_suffix in G; exact G); auto; try (rewrite <-?app_assoc; right; auto).
Qed.

Lemma in_tail : forall (l : text) n, (n < length l)%nat -> skipn n l = nth n l 0 :: skipn (S n) l.
Proof. induction l; intros n H; cbn [length] in H; [lia|]. destruct n; [reflexivity|]. cbn [nth]. rewrite <-IHl by lia. reflexivity. Qed.

(* reading one rune *)
Definition same_lw (A B A' B' : sc) : Prop := last A' = last A /\ width A' = width A /\ last B' = last B /\ width B' = width B.
Lemma read_sim : forall A B, sim A B -> exists ra wa A' rb wb B', read_rune A = (ra, wa, A') /\ read_rune B = (rb, wb, B') /\ sim A' B' /\ same_lw A B A' B' /\
  to_come A' = to_come A /\
  ((ra = rb /\ wa = 1%nat /\ wb = 1%nat /\ 0 <= ra /\ (pos A' < length (input A'))%nat /\ ra = nth (pos A') (input A') 0 /\ to_come A = ra :: tl (to_come A)) \/
   (ra = eof /\ rb = nl /\ wa = 0%nat /\ wb = 1%nat /\ to_come A = [] /\ pos A' = length (input A') /\ input B' = input A' ++ [nl] /\ pending B' = [] /\ pending A' = [])).
Proof.
  intros A B S. set (A1 := if negb (fin A) && Nat.eqb (pos A) (length (input A)) then load_line A else A).
  set (B1 := if negb (fin B) && Nat.eqb (pos B) (length (input B)) then load_line B else B).
  assert (H : sim A1 B1 /\ same_lw A B A1 B1 /\ to_come A1 = to_come A /\ (input B1 = input A1 -> (pos A1 < length (input A1))%nat)).
  { pose proof S as [P St SP LE NN G C]. unfold A1, B1. destruct C as [(C1 & C2 & C3 & C4)|(C1 & C2 & C3 & C4)].
    - rewrite C2, C3, P, C1. cbn [negb andb]. destruct (Nat.eqb (pos A) (length (input A))) eqn:Q.
      + apply Nat.eqb_eq in Q. destruct (load_sim A B S C2 Q) as (L1 & L2 & L3 & L4 & L5 & L6). split; [exact L1|]. split; [repeat split; assumption|]. split; [exact L6|].
        intros E. destruct L1 as [_ _ _ LE' _ _ [(X1 & X2 & X3 & X4)|(X1 & _)]].
        * clear - X2 Q P C1 LE. unfold load_line in *. destruct (take_line (pending A)) as [[b r] d] eqn:T. destruct (take_line_spec _ _ _ _ T) as (_ & _ & T3).
          assert (b <> []). { intros ->. destruct (Nat.eqb (start A) (pos A)); cbn in X2; rewrite (T3 eq_refl), orb_true_r in X2; discriminate. }
          destruct b; [contradiction|]. destruct (Nat.eqb (start A) (pos A)); cbn [input pos]; rewrite ?app_length; cbn [length]; lia.
        * exfalso. rewrite X1 in E. apply (f_equal (@length Z)) in E. rewrite app_length in E. cbn in E. lia.
      + split; [exact S|]. split; [repeat split|]. split; [reflexivity|]. intros _. apply Nat.eqb_neq in Q. lia.
    - rewrite C4. cbn [negb andb]. assert (Nat.eqb (pos B) (length (input B)) = false) as ->. { apply Nat.eqb_neq. rewrite P, C1, app_length. cbn. lia. }
      rewrite andb_false_r. split; [exact S|]. split; [repeat split|]. split; [reflexivity|]. intros E. rewrite C1 in E. apply (f_equal (@length Z)) in E. rewrite app_length in E. cbn in E. lia. }
  destruct H as (S1 & LW & TC & NE). unfold read_rune. fold A1 B1. pose proof S1 as [P St SP LE NN G C].
  destruct (Nat.eqb (length (input A1)) (pos A1)) eqn:Q.
  - apply Nat.eqb_eq in Q. destruct C as [(C1 & _)|(C1 & C2 & C3 & C4)]; [specialize (NE C1); lia|].
    assert (Nat.eqb (length (input B1)) (pos B1) = false) as ->. { apply Nat.eqb_neq. rewrite P, C1, app_length. cbn. lia. }
    exists eof, 0%nat, A1, nl, 1%nat, B1. split; [reflexivity|]. split; [|split; [exact S1|split; [exact LW|split; [exact TC|]]]].
    + rewrite P, C1, app_nth2 by lia. rewrite <-Q, Nat.sub_diag. reflexivity.
    + right. rewrite <-TC. unfold to_come. rewrite C2, <-Q, skipn_all. repeat split; auto.
  - apply Nat.eqb_neq in Q. assert (L : (pos A1 < length (input A1))%nat) by lia.
    assert (Nat.eqb (length (input B1)) (pos B1) = false) as ->. { apply Nat.eqb_neq. rewrite P. destruct C as [(-> & _)|(-> & _)]; [lia|]. rewrite app_length. lia. }
    assert (nth (pos B1) (input B1) 0 = nth (pos A1) (input A1) 0) as ->. { rewrite P. destruct C as [(-> & _)|(-> & _)]; [reflexivity|]. apply app_nth1, L. }
    exists (nth (pos A1) (input A1) 0), 1%nat, A1, (nth (pos A1) (input A1) 0), 1%nat, B1. split; [reflexivity|]. split; [reflexivity|]. split; [exact S1|]. split; [exact LW|]. split; [exact TC|].
    left. repeat split; auto.
    + apply Forall_app in NN. destruct NN as [NN _]. rewrite Forall_forall in NN. apply NN, nth_In, L.
    + rewrite <-TC. unfold to_come. rewrite (in_tail (input A1) (pos A1) L). reflexivity.
Qed.

(* moving within the text read so far *)
Lemma move_sim' : forall A B p q q' x y, sim A B -> (start A <= p <= length (input A))%nat ->
  sim (mkSc (input A) (pending A) (fin A) p (start A) x q) (mkSc (input B) (pending B) (fin B) p (start A) y q').
Proof. intros A B p q q' x y [P S SP LE NN G C] H. constructor; cbn; auto; lia. Qed.
Lemma set_sim : forall A B p, sim A B -> (start A <= p <= length (input A))%nat -> sim (set_pos A p) (set_pos B p).
Proof. intros A B p S H. unfold set_pos. rewrite (s_start _ _ S). apply move_sim'; assumption. Qed.

(* [ahead r l]: what the shape of the text says of the text l after r *)
Definition ahead (r : Z) (l : text) : Prop := (r = 46 -> l <> []) /\ (r = 43 \/ r = 45 -> (2 <= length l)%nat).
(* next: the same rune, or the end of the one text and the newline of the other *)
Definition same_next (ra rb : Z) (A A' B' : sc) : Prop :=
  ra = rb /\ 0 <= ra /\ sim A' B' /\ last A' = ra /\ last B' = ra /\ width A' = 1%nat /\ width B' = 1%nat /\ (start A' < pos A')%nat /\ ahead ra (to_come A') /\
  to_come A = ra :: to_come A'.
Definition end_next (ra rb : Z) (A A' B' : sc) : Prop :=
  ra = eof /\ rb = nl /\ to_come A = [] /\ last A' = eof /\ last B' = nl /\ width B' = 1%nat /\ pos A' = length (input A') /\ pos B' = S (pos A') /\ start B' = start A' /\
  input B' = input A' ++ [nl] /\ pending B' = [] /\ (start A' <= pos A')%nat /\ sim A' (set_pos B' (pos A')).
Lemma next_sim : forall A B, sim A B -> exists ra A' rb B', next A = (ra, A') /\ next B = (rb, B') /\ sim (backup A') (backup B') /\
  (same_next ra rb A A' B' \/ end_next ra rb A A' B').
Proof.
  intros A B S. destruct (read_sim A B S) as (ra & wa & A1 & rb & wb & B1 & EA & EB & S1 & LW & TC & H).
  unfold next. rewrite EA, EB. exists ra. eexists. exists rb. eexists. split; [reflexivity|]. split; [reflexivity|].
  pose proof S1 as [P St SP LE NN G C].
  destruct H as [(-> & -> & -> & N & L & R & T)|(-> & -> & -> & -> & T & L & X1 & X2 & X3)].
  - split.
    + unfold backup. cbn [last pos start width]. replace (rb =? eof) with false by (unfold eof; lia). rewrite P, St.
      assert (Nat.eqb (pos A1 + 1) (start A1) = false) as -> by (apply Nat.eqb_neq; lia). assert (Nat.ltb (start A1) (pos A1 + 1) = true) as -> by (apply Nat.ltb_lt; lia).
      unfold set_pos. cbn [input pending fin pos start last width]. rewrite ?P. replace (pos A1 + 1 - 1)%nat with (pos A1) by lia. apply move_sim'; [exact S1|lia].
    + left. assert (TA : to_come A = rb :: to_come (mkSc (input A1) (pending A1) (fin A1) (pos A1 + 1) (start A1) rb 1)).
      { rewrite <-TC. unfold to_come. cbn [pos input pending]. rewrite (in_tail _ _ L), <-R. replace (pos A1 + 1)%nat with (Datatypes.S (pos A1)) by lia. reflexivity. }
      unfold same_next. cbn [last width start pos]. rewrite P. rewrite St.
      repeat (split; [first [reflexivity|exact N|lia|apply move_sim'; [exact S1|lia]]|]). split; [split|exact TA].
      * intros E. rewrite <-TC in TA. destruct (G (firstn (pos A1) (input A1)) rb (to_come (mkSc (input A1) (pending A1) (fin A1) (pos A1 + 1) (start A1) rb 1))) as [G1 _]; [|exact (G1 E)].
        rewrite <-TA. unfold to_come. rewrite app_assoc, firstn_skipn. reflexivity.
      * intros E. rewrite <-TC in TA. destruct (G (firstn (pos A1) (input A1)) rb (to_come (mkSc (input A1) (pending A1) (fin A1) (pos A1 + 1) (start A1) rb 1))) as [_ G1]; [|exact (G1 E)].
        rewrite <-TA. unfold to_come. rewrite app_assoc, firstn_skipn. reflexivity.
  - assert (SB : forall x q, sim (mkSc (input A1) (pending A1) (fin A1) (pos A1 + 0) (start A1) eof 0) (mkSc (input B1) (pending B1) (fin B1) (pos A1) (start A1) x q)).
    { intros x q. rewrite Nat.add_0_r. apply move_sim'; [exact S1|lia]. }
    split.
    + unfold backup. cbn [last pos start width]. rewrite Z.eqb_refl. change (nl =? eof) with false. rewrite P, St.
      assert (Nat.eqb (pos A1 + 1) (start A1) = false) as -> by (apply Nat.eqb_neq; lia). assert (Nat.ltb (start A1) (pos A1 + 1) = true) as -> by (apply Nat.ltb_lt; lia).
      unfold set_pos. cbn [input pending fin pos start last width]. rewrite ?P. replace (pos A1 + 1 - 1)%nat with (pos A1) by lia. apply SB.
    + right. unfold end_next. cbn [last width start pos input pending]. rewrite P, St, Nat.add_0_r. repeat (split; [first [reflexivity|assumption|lia]|]). unfold set_pos. cbn [input pending fin pos start last width]. specialize (SB nl 1%nat). rewrite Nat.add_0_r in SB. exact SB.
Qed.
Lemma peek_sim : forall A B, sim A B -> exists ra A' rb B', peek A = (ra, A') /\ peek B = (rb, B') /\ sim A' B' /\ same_lw A B A' B' /\ to_come A' = to_come A /\
  ((ra = rb /\ 0 <= ra /\ to_come A = ra :: tl (to_come A)) \/ (ra = eof /\ rb = nl /\ to_come A = [])).
Proof.
  intros A B S. destruct (read_sim A B S) as (ra & wa & A1 & rb & wb & B1 & EA & EB & S1 & LW & TC & H).
  unfold peek. rewrite EA, EB. exists ra, A1, rb, B1. repeat (split; [first [reflexivity|assumption]|]).
  destruct H as [(-> & _ & _ & N & _ & _ & T)|(-> & -> & _ & _ & T & _)]; [left|right]; auto.
Qed.

(* start and position when nothing has to be loaded, or the token has begun *)
Lemma read_keep : forall s r w s', read_rune s = (r, w, s') -> (start s < pos s)%nat \/ (pos s < length (input s))%nat ->
  start s' = start s /\ pos s' = pos s /\ last s' = last s /\ width s' = width s /\ (length (input s) <= length (input s'))%nat.
Proof.
  intros s r w s' E H. unfold read_rune in E.
  assert (K : forall s1, (if negb (fin s) && Nat.eqb (pos s) (length (input s)) then load_line s else s) = s1 ->
    start s1 = start s /\ pos s1 = pos s /\ last s1 = last s /\ width s1 = width s /\ (length (input s) <= length (input s1))%nat).
  { intros s1 <-. destruct (negb (fin s) && Nat.eqb (pos s) (length (input s))) eqn:Q; [|repeat split; lia].
    apply andb_prop in Q. destruct Q as [_ Q]. apply Nat.eqb_eq in Q. unfold load_line. destruct (take_line (pending s)) as [[b x] d].
    assert (Nat.eqb (start s) (pos s) = false) as -> by (apply Nat.eqb_neq; lia). cbn. rewrite app_length. repeat split; lia. }
  specialize (K _ eq_refl). cbv zeta in E. destruct (Nat.eqb _ _) in E; injection E as _ _ <-; exact K.
Qed.
Lemma next_keep : forall s r s', next s = (r, s') -> (start s < pos s)%nat \/ (pos s < length (input s))%nat ->
  start s' = start s /\ pos s' = (pos s + width s')%nat /\ (length (input s) <= length (input s'))%nat.
Proof.
  intros s r s'. unfold next. destruct (read_rune s) as [[r0 w] s1] eqn:E. intros [= <- <-] H. destruct (read_keep _ _ _ _ E H) as (K1 & K2 & _ & _ & K3). cbn. rewrite K2. auto.
Qed.
Lemma peek_keep : forall s r s', peek s = (r, s') -> (start s < pos s)%nat \/ (pos s < length (input s))%nat ->
  start s' = start s /\ pos s' = pos s /\ (length (input s) <= length (input s'))%nat.
Proof.
  intros s r s'. unfold peek. destruct (read_rune s) as [[r0 w] s1] eqn:E. intros [= <- <-] H. destruct (read_keep _ _ _ _ E H) as (K1 & K2 & _ & _ & K3). auto.
Qed.
Lemma peek_in : forall s r s', peek s = (r, s') -> 0 <= r -> (pos s' < length (input s'))%nat \/ (length (input s') < pos s')%nat.
Proof.
  intros s r s'. unfold peek, read_rune. cbv zeta. destruct (Nat.eqb _ _) eqn:Q; intros [= <- <-] N; [unfold eof in N; lia|]. apply Nat.eqb_neq in Q. lia.
Qed.

Lemma room_sim : forall A B, sim A B -> room B = S (room A).
Proof.
  intros A B [P St SP LE NN G C]. unfold room. rewrite P. destruct C as [(-> & _ & _ & ->)|(-> & -> & -> & _)]; rewrite ?app_length; cbn; lia.
Qed.
Lemma slice_sim : forall A B a b, sim A B -> (b <= pos A)%nat -> slice B a b = slice A a b.
Proof.
  intros A B a b S H. pose proof (s_le _ _ S). unfold slice. destruct (s_case _ _ S) as [(-> & _)|(-> & _)]; [reflexivity|]. rewrite skipn_app, firstn_app, skipn_length.
  replace (b - a - (length (input A) - a))%nat with 0%nat by lia. cbn [firstn]. apply app_nil_r.
Qed.
Lemma tok_sim : forall A B, sim A B -> tok_text B = tok_text A.
Proof. intros A B S. unfold tok_text. rewrite (s_start _ _ S), (s_pos _ _ S). apply slice_sim; [exact S|lia]. Qed.
Lemma off_sim : forall A B, sim A B -> off B = off A.
Proof. intros A B S. unfold off. rewrite (s_start _ _ S), (s_pos _ _ S). reflexivity. Qed.
Lemma backup_sim : forall A B, sim A B -> last B = last A -> width A = 1%nat -> width B = 1%nat -> 0 <= last A -> (start A < pos A)%nat -> sim (backup A) (backup B).
Proof.
  intros A B S L W1 W2 N H. unfold backup. rewrite L, (s_pos _ _ S), (s_start _ _ S), W1, W2. replace (last A =? eof) with false by (unfold eof; lia).
  assert (Nat.eqb (pos A) (start A) = false) as -> by (apply Nat.eqb_neq; lia). assert (Nat.ltb (start A) (pos A) = true) as -> by (apply Nat.ltb_lt; lia).
  apply set_sim; [exact S|]. pose proof (s_le _ _ S). lia.
Qed.

Definition no_end (valid : text) : Prop := mem eof valid = false /\ mem nl valid = false.
Lemma accept_sim : forall valid A B, no_end valid -> sim A B -> exists b A' B', accept valid A = (b, A') /\ accept valid B = (b, B') /\ sim A' B' /\
  (b = true -> exists r, mem r valid = true /\ to_come A = r :: to_come A' /\ ahead r (to_come A') /\ (start A' < pos A')%nat).
Proof.
  intros valid A B [N1 N2] S. destruct (next_sim A B S) as (ra & A' & rb & B' & EA & EB & SB & [H|H]); unfold accept; rewrite EA, EB.
  - destruct H as (<- & H). destruct (mem ra valid) eqn:M.
    + exists true, A', B'. split; [reflexivity|]. split; [reflexivity|]. split; [apply H|]. intros _. exists ra. split; [exact M|]. split; [apply H|]. split; apply H.
    + exists false, (backup A'), (backup B'). repeat (split; [first [reflexivity|assumption]|]). discriminate.
  - destruct H as (-> & -> & H). rewrite N1, N2. exists false, (backup A'), (backup B'). repeat (split; [first [reflexivity|assumption]|]). discriminate.
Qed.
Lemma next_while_sim : forall P, P eof = false -> P nl = false -> forall n A B A', sim A B -> next_while P n A = Some A' ->
  exists B', next_while P (S n) B = Some B' /\ sim A' B'.
Proof.
  intros P N1 N2. induction n as [|n IH]; intros A B A' S E; [discriminate|]. cbn [next_while] in E.
  destruct (next_sim A B S) as (ra & A1 & rb & B1 & EA & EB & SB & H). rewrite EA in E.
  change (next_while P (Datatypes.S (Datatypes.S n)) B) with (let '(r, s1) := next B in if P r then next_while P (Datatypes.S n) s1 else Some (backup s1)). rewrite EB.
  destruct H as [H|H].
  - destruct H as (<- & _ & H & _). destruct (P ra); [apply (IH A1); assumption|]. injection E as <-. eauto.
  - destruct H as (-> & -> & _). rewrite N1 in E. rewrite N2. injection E as <-. eauto.
Qed.
Lemma peek_while_sim : forall P, P eof = false -> P nl = false -> forall n A B A', sim A B -> peek_while P n A = Some A' ->
  exists B', peek_while P (S n) B = Some B' /\ sim A' B'.
Proof.
  intros P N1 N2. induction n as [|n IH]; intros A B A' S E; [discriminate|]. cbn [peek_while] in E.
  destruct (peek_sim A B S) as (ra & A1 & rb & B1 & EA & EB & S1 & LW & TC & H). rewrite EA in E.
  change (peek_while P (Datatypes.S (Datatypes.S n)) B) with (let '(r, s1) := peek B in if P r then peek_while P (Datatypes.S n) (snd (next s1)) else Some s1). rewrite EB.
  destruct H as [(<- & N & T)|(-> & -> & T)].
  - destruct (P ra); [|injection E as <-; eauto].
    destruct (next_sim A1 B1 S1) as (ra2 & A2 & rb2 & B2 & EA2 & EB2 & _ & H). rewrite EA2 in E. rewrite EB2. cbn [snd] in *.
    destruct H as [H|H]; [apply (IH A2); [apply H|exact E]|]. destruct H as (_ & _ & H & _). rewrite TC, T in H. discriminate.
  - rewrite N1 in E. rewrite N2. injection E as <-. eauto.
Qed.
Lemma accept_run_sim : forall valid A B A', no_end valid -> sim A B -> accept_run valid A = Some A' -> exists B', accept_run valid B = Some B' /\ sim A' B'.
Proof. intros valid A B A' [N1 N2] S E. unfold accept_run in *. rewrite (room_sim A B S). eapply next_while_sim; eauto. Qed.
Lemma skip_while_sim : forall P A B A', P eof = false -> P nl = false -> sim A B -> skip_while P A = Some A' -> exists B', skip_while P B = Some B' /\ sim A' B'.
Proof. intros P A B A' N1 N2 S E. unfold skip_while in *. rewrite (room_sim A B S). eapply peek_while_sim; eauto. Qed.

(* after peek has seen a rune, next reads it *)
Lemma next_seen : forall A B, sim A B -> to_come A <> [] -> exists r A' B', next A = (r, A') /\ next B = (r, B') /\ same_next r r A A' B'.
Proof.
  intros A B S T. destruct (next_sim A B S) as (ra & A' & rb & B' & EA & EB & SB & [H|H]).
  - pose proof H as (<- & _). eauto 8.
  - destruct H as (_ & _ & H & _). contradiction.
Qed.
Lemma opt_next_sim : forall r A B, r <> eof -> r <> nl -> sim A B -> exists b A' B', opt_next r A = (b, A') /\ opt_next r B = (b, B') /\ sim A' B'.
Proof.
  intros r A B N1 N2 S. destruct (peek_sim A B S) as (ra & A1 & rb & B1 & EA & EB & S1 & LW & TC & H). unfold opt_next. rewrite EA, EB.
  destruct H as [(<- & N & T)|(-> & -> & T)].
  - destruct (ra =? r); [|eauto 8]. destruct (next_seen A1 B1 S1) as (r2 & A2 & B2 & EA2 & EB2 & H); [rewrite TC, T; discriminate|]. rewrite EA2, EB2.
    exists true, A2, B2. cbn [snd]. repeat (split; [reflexivity|]). apply H.
  - replace (eof =? r) with false by lia. replace (nl =? r) with false by lia. eauto 8.
Qed.
Lemma opt_snd : forall r A B, r <> eof -> r <> nl -> sim A B -> sim (snd (opt_next r A)) (snd (opt_next r B)).
Proof. intros r A B N1 N2 S. destruct (opt_next_sim r A B N1 N2 S) as (b & A' & B' & -> & -> & H). exact H. Qed.
Ltac ne := unfold eof, nl; lia.
Lemma operator_token_sim : forall r A B, sim A B -> exists b A' B', is_operator_token r A = (b, A') /\ is_operator_token r B = (b, B') /\ sim A' B'.
Proof.
  intros r A B S. unfold is_operator_token. destruct (mem r (zs "?+-/&|^")); [eauto 8|].
  destruct (r =? 44); [exists true; eexists; eexists; repeat (split; [reflexivity|]); apply opt_snd; [ne|ne|exact S]|].
  destruct ((r =? 33) || (r =? 61)).
  { destruct (opt_next_sim 61 A B ltac:(ne) ltac:(ne) S) as (b & A' & B' & -> & -> & H). exists true. eexists. eexists. split; [reflexivity|]. split; [reflexivity|].
    destruct b; [apply opt_snd; [ne|ne|exact H]|exact H]. }
  destruct (r =? 62).
  { destruct (opt_next_sim 62 A B ltac:(ne) ltac:(ne) S) as (b & A' & B' & -> & -> & H). exists true. eexists. eexists. split; [reflexivity|]. split; [reflexivity|].
    destruct b; [exact H|apply opt_snd; [ne|ne|exact H]]. }
  destruct (r =? 60).
  { destruct (opt_next_sim 60 A B ltac:(ne) ltac:(ne) S) as (b & A' & B' & -> & -> & H). exists true. eexists. eexists. split; [reflexivity|]. split; [reflexivity|].
    destruct b; [exact H|apply opt_snd; [ne|ne|exact H]]. }
  destruct (r =? 42); [exists true; eexists; eexists; repeat (split; [reflexivity|]); apply opt_snd; [ne|ne|exact S]|]. eauto 8.
Qed.
Lemma operator_token_no : forall r s s', is_operator_token r s = (false, s') -> s' = s.
Proof.
  intros r s s'. unfold is_operator_token. repeat match goal with |- context [if ?b then _ else _] => destruct b end; intros [= <-]; reflexivity.
Qed.
Lemma operator_token_blind : forall r s s' b s1, is_operator_token r s = (b, s1) -> fst (is_operator_token r s') = b.
Proof.
  intros r s s' b s1. unfold is_operator_token. destruct (mem r _); [intros [= <- _]; reflexivity|]. destruct (r =? 44); [intros [= <- _]; reflexivity|].
  destruct ((r =? 33) || (r =? 61)); [intros [= <- _]; reflexivity|]. destruct (r =? 62); [intros [= <- _]; reflexivity|]. destruct (r =? 60); [intros [= <- _]; reflexivity|].
  destruct (r =? 42); intros [= <- _]; reflexivity.
Qed.

(* skipping @'s *)
Definition ats_same (r' rb : Z) (k' : nat) (A' B' : sc) : Prop :=
  rb = r' /\ sim A' B' /\ last A' = r' /\ last B' = r' /\ 0 <= r' /\ width A' = 1%nat /\ width B' = 1%nat /\ (start A' + k' < pos A')%nat.
Definition ats_end (r' rb : Z) (k' : nat) (A' B' : sc) : Prop :=
  r' = eof /\ rb = nl /\ last A' = eof /\ last B' = nl /\ width B' = 1%nat /\ pos B' = S (pos A') /\ (start A' + k' <= pos A')%nat /\
  sim A' (set_pos B' (pos A')).
Lemma skip_ats_sim : forall n r k A B r' k' A', sim A B -> last A = r -> last B = r -> 0 <= r -> width A = 1%nat -> width B = 1%nat -> (start A + k < pos A)%nat ->
  skip_ats n r k A = Some (r', k', A') ->
  exists rb B', skip_ats (S n) r k B = Some (rb, k', B') /\ (ats_same r' rb k' A' B' \/ ats_end r' rb k' A' B').
Proof.
  induction n as [|n IH]; intros r k A B r' k' A' S L1 L2 N W1 W2 H E; [discriminate|]. cbn [skip_ats] in E.
  change (skip_ats (Datatypes.S (Datatypes.S n)) r k B) with (if r =? at_sign then let '(r', s1) := next B in skip_ats (Datatypes.S n) r' (Datatypes.S k) s1 else Some (r, k, B)).
  destruct (r =? at_sign) eqn:Q.
  - destruct (next_sim A B S) as (ra & A1 & rb & B1 & EA & EB & SB & HN). rewrite EA in E. rewrite EB.
    destruct (next_keep A ra A1 EA) as (K1 & K2 & K3); [lia|].
    destruct HN as [HN|HN].
    + destruct HN as (<- & X1 & X2 & X3 & X4 & X5 & X6 & X7 & _). apply (IH ra (Datatypes.S k) A1); auto. lia.
    + destruct HN as (-> & -> & T & X1 & X2 & X3 & X4 & X5 & X6 & X7 & X8 & X9 & X10).
      destruct n as [|n]; [discriminate|]. cbn [skip_ats] in E. change (eof =? at_sign) with false in E. injection E as <- <- <-.
      cbn [skip_ats]. change (nl =? at_sign) with false. exists nl, B1. split; [reflexivity|]. right. unfold ats_end. repeat (split; [first [reflexivity|assumption|lia]|]). exact X10.
  - injection E as <- <- <-. exists r, B. split; [reflexivity|]. left. unfold ats_same. repeat (split; [first [reflexivity|assumption]|]). exact H.
Qed.
(* When no operator is there, what follows is the text after the backup. *)
Lemma is_operator_sim : forall r A B b A', sim A B -> last A = r -> last B = r -> 0 <= r -> width A = 1%nat -> width B = 1%nat -> (start A < pos A)%nat ->
  is_operator r A = Some (b, A') -> exists B', is_operator r B = Some (b, B') /\
  (b = true -> sim A' B') /\ (b = false -> sim (backup A') (backup B')) /\ (b = false -> r <> at_sign -> sim A' B').
Proof.
  intros r A B b A' S L1 L2 N W1 W2 H E. unfold is_operator in *. rewrite (room_sim A B S).
  destruct (skip_ats (Datatypes.S (Datatypes.S (room A))) r 0 A) as [[[r1 k1] A1]|] eqn:E1; [|discriminate].
  destruct (skip_ats_sim _ r 0 A B r1 k1 A1 S L1 L2 N W1 W2 ltac:(lia) E1) as (rb & B1 & -> & HH).
  assert (RK : r <> at_sign -> r1 = r /\ k1 = 0%nat /\ A1 = A).
  { intros NR. cbn [skip_ats] in E1. replace (r =? at_sign) with false in E1 by lia. injection E1 as <- <- <-. auto. }
  destruct HH as [HH|HH].
  - destruct HH as (-> & X1 & X2 & X3 & X4 & X5 & X6 & X7). destruct (operator_token_sim r1 A1 B1 X1) as (b1 & A2 & B2 & F1 & F2 & S2). rewrite F1 in E. rewrite F2.
    destruct b1.
    + destruct (skip_while (Z.eqb at_sign) A2) as [A3|] eqn:E3; [|discriminate]. injection E as <- <-.
      destruct (skip_while_sim (Z.eqb at_sign) A2 B2 A3 eq_refl eq_refl S2 E3) as (B3 & -> & S3). exists B3. split; [reflexivity|]. split; [auto|]. split; discriminate.
    + injection E as <- <-. apply operator_token_no in F1, F2. subst A2 B2. eexists. split; [reflexivity|]. split; [discriminate|].
      assert (SS : sim (set_pos A1 (pos A1 - k1)) (set_pos B1 (pos B1 - k1))). { rewrite (s_pos _ _ X1). apply set_sim; [exact X1|]. pose proof (s_le _ _ X1). lia. }
      split; [|auto]. intros _. apply backup_sim; [exact SS| | | | |]; cbn [set_pos last width start pos]; try lia; assumption || congruence.
  - destruct HH as (-> & -> & X1 & X2 & X3 & X4 & X5 & X6).
    change (is_operator_token eof A1) with (false, A1) in E. change (is_operator_token nl B1) with (false, B1). injection E as <- <-.
    eexists. split; [reflexivity|]. split; [discriminate|]. split.
    + intros _. unfold backup. cbn [set_pos last pos start width]. rewrite X1, X2, X3, Z.eqb_refl. change (nl =? eof) with false. cbv iota.
      pose proof (s_start _ _ X6) as Q1. cbn [set_pos start] in Q1. rewrite X4, Q1.
      assert (Nat.eqb (Datatypes.S (pos A1) - k1) (start A1) = false) as -> by (apply Nat.eqb_neq; lia). assert (Nat.ltb (start A1) (Datatypes.S (pos A1) - k1) = true) as -> by (apply Nat.ltb_lt; lia).
      replace (Datatypes.S (pos A1) - k1 - 1)%nat with (pos A1 - k1)%nat by lia. 
      pose proof (set_sim A1 (set_pos B1 (pos A1)) (pos A1 - k1) X6) as R. apply R. pose proof (s_le _ _ X6). lia.
    + intros _ NR. destruct (RK NR) as (<- & _ & ->). unfold eof in N. lia.
Qed.
Lemma peek2_sim : forall A B, sim A B -> (start A < pos A)%nat \/ (pos A < length (input A))%nat -> to_come A <> [] ->
  exists r1 ra A' rb B', peek2 A = (r1, ra, A') /\ peek2 B = (r1, rb, B') /\ sim A' B' /\ pos A' = pos A /\ start A' = start A /\ width A' = width A /\ width B' = width B /\
  ((ra = rb /\ last A' = last B' /\ 0 <= last A') \/ (ra = eof /\ rb = nl /\ length (to_come A) = 1%nat)).
Proof.
  intros A B S H T. destruct (next_seen A B S T) as (r1 & A1 & B1 & EA & EB & HN). unfold peek2. rewrite EA, EB. exists r1.
  destruct HN as (_ & N & S1 & L1 & L2 & W1 & W2 & P1 & _ & TC). destruct (next_keep A r1 A1 EA H) as (K1 & K2 & K3).
  assert (HB : (start B < pos B)%nat \/ (pos B < length (input B))%nat).
  { rewrite (s_pos _ _ S), (s_start _ _ S). destruct H as [H|H]; [left; exact H|right]. destruct (s_case _ _ S) as [(-> & _)|(-> & _)]; [exact H|]. rewrite app_length. lia. }
  destruct (next_keep B r1 B1 EB HB) as (KB1 & KB2 & KB3). pose proof (s_sp _ _ S) as SP0. pose proof (s_le _ _ S) as LE0.
  destruct (r1 =? nl) eqn:Q.
  - exists r1. eexists. exists r1. eexists. split; [reflexivity|]. split; [reflexivity|].
    split; [rewrite (s_pos _ _ S), (s_start _ _ S1); apply move_sim'; [exact S1|lia]|]. cbn. repeat (split; [first [reflexivity|assumption]|]). left. split; [reflexivity|]. split; [congruence|lia].
  - destruct (next_sim A1 B1 S1) as (ra & A2 & rb & B2 & EA2 & EB2 & SB & HN). rewrite EA2, EB2.
    destruct (next_keep A1 ra A2 EA2 (or_introl P1)) as (J1 & J2 & J3). exists ra. eexists. exists rb. eexists. split; [reflexivity|]. split; [reflexivity|]. cbn [pos start width last].
    destruct HN as [HN|HN].
    + destruct HN as (<- & X0 & X1 & X2 & X3 & _). split; [rewrite (s_pos _ _ S), (s_start _ _ X1); apply move_sim'; [exact X1|lia]|]. repeat (split; [first [reflexivity|lia]|]). left. split; [reflexivity|]. split; [congruence|lia].
    + destruct HN as (-> & -> & X0 & X1 & X2 & X3 & X4 & X5 & X6 & X7 & X8 & X9 & X10).
      split; [rewrite (s_pos _ _ S), X6; pose proof (move_sim' A2 (set_pos B2 (pos A2)) (pos A) (width A) (width B) (last A2) (last B2) X10) as R; cbn [set_pos input pending fin] in R; apply R; lia|].
      repeat (split; [first [reflexivity|lia]|]). right. rewrite TC, X0. auto.
Qed.

Section Ctx.
Variable c : sctx.
Lemma alnum_eof' : is_alnum c eof = false. Proof. reflexivity. Qed.
Lemma alnum_nl : is_alnum c nl = false. Proof. reflexivity. Qed.
Lemma numeral_eof : is_numeral c eof = false.
Proof. unfold is_numeral. destruct (ibase c <? 10); reflexivity. Qed.
Lemma numeral_nl : is_numeral c nl = false.
Proof. unfold is_numeral. destruct (ibase c <? 10); reflexivity. Qed.
Lemma mem_prefix : forall r n l, mem r l = false -> mem r (firstn n l) = false.
Proof. intros r n. induction n as [|n IH]; intros [|x l] H; try reflexivity. cbn in *. apply orb_false_iff in H. destruct H as [-> H]. apply IH, H. Qed.
Lemma digits_no_end : forall b, no_end (digits_for b).
Proof.
  intros b. unfold digits_for, no_end. destruct ((if b =? 0 then 10 else b) <=? 10); [split; reflexivity|].
  split; rewrite !mem_app, !mem_prefix by reflexivity; reflexivity.
Qed.

(* how the results of the state functions correspond *)
Definition lrel (x y : lexed) : Prop :=
  match x with
  | OutOfFuel => True
  | Emit t A => exists B, y = Emit t B /\ sim A B /\ t <> TEof /\ t <> TErr
  | LErr _ => exists B, y = LErr B
  | Again A => exists B, y = Again B /\ sim A B
  | LEof A => exists B, y = Emit TNewline B /\ tok_text B = tok_text A ++ [nl] /\ pos B = length (input B) /\ pending B = []
  end.
Lemma emit_rel : forall t A B, sim A B -> match t with TEof | TErr => false | _ => true end = true -> lrel (Emit t A) (Emit t B).
Proof. intros t A B S H. exists B. split; [reflexivity|]. split; [exact S|]. split; intros ->; discriminate. Qed.
Lemma err_rel : forall A B, lrel (LErr A) (LErr B).
Proof. intros A B. exists B. auto. Qed.

Lemma at_terminator_sim : forall A B, sim A B -> exists b A' B', at_terminator c A = (b, A') /\ at_terminator c B = (b, B') /\ sim A' B'.
Proof.
  intros A B S. unfold at_terminator. destruct (peek_sim A B S) as (ra & A1 & rb & B1 & EA & EB & S1 & LW & TC & H). rewrite EA, EB.
  destruct H as [(<- & N & T)|(-> & -> & T)].
  - destruct ((ra =? eof) || is_space ra || is_eol ra || punct c ra || symbol c ra); [eauto 8|].
    pose proof (s_le _ _ S1). destruct (peek_in _ _ _ EA N) as [I|I]; [|lia].
    assert (Nat.ltb (pos A1) (length (input A1)) = true) as -> by (apply Nat.ltb_lt; exact I).
    assert (Nat.ltb (pos B1) (length (input B1)) = true) as ->. { apply Nat.ltb_lt. rewrite (s_pos _ _ S1). destruct (s_case _ _ S1) as [(-> & _)|(-> & _)]; [exact I|]. rewrite app_length. lia. }
    destruct (peek2_sim A1 B1 S1 (or_intror I)) as (r1 & r2 & A2 & r2' & B2 & -> & -> & S2 & _ & _ & _ & _ & H2); [rewrite TC, T; discriminate|].
    exists ((r1 =? 111) && (r2 =? dot)), A2, B2. split; [reflexivity|]. split; [|exact S2]. destruct H2 as [(<- & _)|(-> & -> & _)]; [reflexivity|].
    change (nl =? dot) with false. change (eof =? dot) with false. reflexivity.
  - change ((eof =? eof) || is_space eof || is_eol eof || punct c eof || symbol c eof) with true.
    replace ((nl =? eof) || is_space nl || is_eol nl || punct c nl || symbol c nl) with true by reflexivity. eauto 8.
Qed.
Lemma operator_end_sim : forall A B, sim A B -> lrel (lex_operator_end c A) (lex_operator_end c B).
Proof. intros A B S. unfold lex_operator_end. rewrite (tok_sim A B S). destruct (is_identifier c (tok_text A)); (apply emit_rel; [exact S|reflexivity]). Qed.
Lemma lex_operator_sim : forall A B, sim A B -> lrel (lex_operator c A) (lex_operator c B).
Proof.
  intros A0 B0 S0. unfold lex_operator. destruct (skip_while (Z.eqb at_sign) A0) as [A|] eqn:E0; [|exact Logic.I].
  destruct (skip_while_sim (Z.eqb at_sign) A0 B0 A eq_refl eq_refl S0 E0) as (B & -> & S). cbv zeta. rewrite (tok_sim A B S).
  destruct (teq (tok_text A) (zs "o") || binary_op c (trim (tok_text A)) || user_binary c (trim (tok_text A))); [|apply operator_end_sim, S].
  destruct (peek_sim A B S) as (ra & A1 & rb & B1 & EA & EB & S1 & LW & TC & H). rewrite EA, EB.
  destruct H as [(<- & N & T)|(-> & -> & T)].
  2:{ change ((eof =? 47) || (eof =? 92)) with false. change ((nl =? 47) || (nl =? 92)) with false. change (eof =? dot) with false. change (nl =? dot) with false. apply operator_end_sim, S1. }
  assert (NE1 : to_come A1 <> []) by (rewrite TC, T; discriminate). destruct (next_seen A1 B1 S1 NE1) as (r' & A2 & B2 & EA2 & EB2 & HN). rewrite EA2, EB2. cbn [snd].
  destruct HN as (_ & N' & S2 & L1 & L2 & W1 & W2 & P2 & AH & TC2).
  destruct ((ra =? 47) || (ra =? 92)); [apply operator_end_sim, opt_snd; [ne|ne|exact S2]|].
  destruct (ra =? dot) eqn:Q; [|apply operator_end_sim, S1].
  apply Z.eqb_eq in Q. rewrite TC, T in TC2. injection TC2 as TC2 TC3. subst r' ra.
  assert (NE2 : to_come A2 <> []) by (apply AH; exact Q).
  destruct (peek_sim A2 B2 S2) as (r2 & A3 & r2' & B3 & EA3 & EB3 & S3 & LW3 & TC3' & H3). rewrite EA3, EB3.
  destruct H3 as [(<- & N3 & T3)|(_ & _ & T3)]; [|contradiction].
  destruct (peek_keep A2 r2 A3 EA3 (or_introl P2)) as (K1 & K2 & K3). destruct LW3 as (M1 & M2 & M3 & M4).
  destruct (is_digit r2).
  { apply emit_rel; [|reflexivity]. apply backup_sim; try congruence; try lia. }
  cbv zeta. destruct (next_seen A3 B3 S3) as (r3 & A4 & B4 & EA4 & EB4 & HN4); [rewrite TC3', T3; discriminate|]. rewrite EA4, EB4. pose proof HN4 as (_ & _ & S4 & _).
  destruct (operator_token_sim r3 A4 B4 S4) as (b & A5 & B5 & -> & -> & S5). destruct b; [apply operator_end_sim, S5|].
  destruct (is_alnum c r3); [|apply operator_end_sim, S5].
  destruct (next_while (is_alnum c) (Datatypes.S (room A5)) A5) as [A6|] eqn:E6; [|exact Logic.I].
  destruct (next_while_sim (is_alnum c) alnum_eof' alnum_nl _ A5 B5 A6 S5 E6) as (B6 & F6 & S6). rewrite (room_sim A5 B5 S5), F6.
  destruct (at_terminator_sim A6 B6 S6) as (t & A7 & B7 & -> & -> & S7). destruct t; [|apply err_rel]. cbn [negb].
  rewrite (s_pos _ _ S3), (s_pos _ _ S7), (slice_sim A7 B7 _ _ S7 (le_n _)). destruct (defined c (slice A7 (pos A3) (pos A7))); [apply operator_end_sim, S7|apply err_rel].
Qed.

(* numbers *)
Definition orel (x y : option (bool * sc)) : Prop :=
  match x with None => True | Some (true, A) => exists B, y = Some (true, B) /\ sim A B | Some (false, _) => exists B, y = Some (false, B) end.
Lemma scan_number_sim : forall sl j A B, sim A B -> orel (scan_number c sl j A) (scan_number c sl j B).
Proof.
  intros sl j A0 B0 S0. unfold scan_number. cbv zeta.
  set (pick := fun s0 => if ibase c =? 0 then
      let '(z, s1) := accept (zs "0") s0 in
      if z then
        let '(b1, s2) := accept (zs "xX") s1 in if b1 then (digits_for 16, s2) else
        let '(b2, s3) := accept (zs "oO") s2 in if b2 then (digits_for 8, s3) else
        let '(b3, s4) := accept (zs "bB") s3 in if b3 then (digits_for 2, s4) else (digits_for (ibase c), s4)
      else (digits_for (ibase c), s1)
    else (digits_for (ibase c), s0)).
  assert (PK : exists b A B, pick A0 = (digits_for b, A) /\ pick B0 = (digits_for b, B) /\ sim A B).
  { unfold pick. destruct (ibase c =? 0); [|eauto 8].
    destruct (accept_sim (zs "0") A0 B0 (conj eq_refl eq_refl) S0) as (b0 & A1 & B1 & -> & -> & S1 & _). destruct b0; [|eauto 8].
    destruct (accept_sim (zs "xX") A1 B1 (conj eq_refl eq_refl) S1) as (b1 & A2 & B2 & -> & -> & S2 & _). destruct b1; [eauto 8|].
    destruct (accept_sim (zs "oO") A2 B2 (conj eq_refl eq_refl) S2) as (b2 & A3 & B3 & -> & -> & S3 & _). destruct b2; [eauto 8|].
    destruct (accept_sim (zs "bB") A3 B3 (conj eq_refl eq_refl) S3) as (b3 & A4 & B4 & -> & -> & S4 & _). destruct b3; eauto 8. }
  change (orel (let '(digits, s) := pick A0 in match accept_run digits s with
    | None => None | Some s1 => let '(d, s2) := accept [dot] s1 in match (if d then accept_run digits s2 else Some s2) with
    | None => None | Some s3 => let '(e, s4) := accept (zs "eEpP") s3 in match (if e then accept_run (zs "0123456789") (snd (accept (zs "+-") s4)) else Some s4) with
    | None => None | Some s5 => let '(r, s6) := peek s5 in
        if sl && (r =? 47) then Some (true, s6) else if j && (r =? 106) then Some (true, s6) else if negb (r =? 111) && is_alnum c r then Some (false, snd (next s6))
        else if r =? dot then Some (false, snd (next s6)) else let '(t, s7) := at_terminator c s6 in if t then Some (true, s7) else Some (false, snd (next s7)) end end end)
    (let '(digits, s) := pick B0 in match accept_run digits s with
    | None => None | Some s1 => let '(d, s2) := accept [dot] s1 in match (if d then accept_run digits s2 else Some s2) with
    | None => None | Some s3 => let '(e, s4) := accept (zs "eEpP") s3 in match (if e then accept_run (zs "0123456789") (snd (accept (zs "+-") s4)) else Some s4) with
    | None => None | Some s5 => let '(r, s6) := peek s5 in
        if sl && (r =? 47) then Some (true, s6) else if j && (r =? 106) then Some (true, s6) else if negb (r =? 111) && is_alnum c r then Some (false, snd (next s6))
        else if r =? dot then Some (false, snd (next s6)) else let '(t, s7) := at_terminator c s6 in if t then Some (true, s7) else Some (false, snd (next s7)) end end end)).
  destruct PK as (b & A & B & -> & -> & S). clear pick. pose proof (digits_no_end b) as ND.
  destruct (accept_run (digits_for b) A) as [A1|] eqn:E1; [|exact Logic.I]. destruct (accept_run_sim _ A B A1 ND S E1) as (B1 & -> & S1).
  destruct (accept_sim [dot] A1 B1 (conj eq_refl eq_refl) S1) as (d & A2 & B2 & -> & -> & S2 & _).
  assert (D : match (if d then accept_run (digits_for b) A2 else Some A2) with None => True | Some A3 => exists B3, (if d then accept_run (digits_for b) B2 else Some B2) = Some B3 /\ sim A3 B3 end).
  { destruct d; [|eauto]. destruct (accept_run (digits_for b) A2) as [A3|] eqn:E; [|exact Logic.I]. apply (accept_run_sim _ A2 B2 A3 ND S2 E). }
  destruct (if d then accept_run (digits_for b) A2 else Some A2) as [A3|]; [|exact Logic.I]. destruct D as (B3 & -> & S3).
  destruct (accept_sim (zs "eEpP") A3 B3 (conj eq_refl eq_refl) S3) as (e & A4 & B4 & -> & -> & S4 & _).
  assert (X : match (if e then accept_run (zs "0123456789") (snd (accept (zs "+-") A4)) else Some A4) with None => True
    | Some A5 => exists B5, (if e then accept_run (zs "0123456789") (snd (accept (zs "+-") B4)) else Some B4) = Some B5 /\ sim A5 B5 end).
  { destruct e; [|eauto]. destruct (accept_sim (zs "+-") A4 B4 (conj eq_refl eq_refl) S4) as (q & A5 & B5 & -> & -> & S5 & _). cbn [snd].
    destruct (accept_run (zs "0123456789") A5) as [A6|] eqn:E; [|exact Logic.I]. apply (accept_run_sim (zs "0123456789") A5 B5 A6 (conj eq_refl eq_refl) S5 E). }
  destruct (if e then accept_run (zs "0123456789") (snd (accept (zs "+-") A4)) else Some A4) as [A5|]; [|exact Logic.I]. destruct X as (B5 & -> & S5).
  destruct (peek_sim A5 B5 S5) as (ra & A6 & rb & B6 & EA & EB & S6 & _ & _ & H). rewrite EA, EB.
  destruct (at_terminator_sim A6 B6 S6) as (t & A7 & B7 & F1 & F2 & S7).
  destruct H as [(<- & N & T)|(-> & -> & T)].
  - destruct (sl && (ra =? 47)); [exists B6; auto|]. destruct (j && (ra =? 106)); [exists B6; auto|].
    destruct (negb (ra =? 111) && is_alnum c ra); [eexists; reflexivity|]. destruct (ra =? dot); [eexists; reflexivity|].
    rewrite F1, F2. destruct t; [exists B7; auto|eexists; reflexivity].
  - change (eof =? 47) with false. change (nl =? 47) with false. change (eof =? 106) with false. change (nl =? 106) with false. rewrite !andb_false_r.
    change (eof =? dot) with false. change (nl =? dot) with false. rewrite F1, F2. destruct t; [exists B7; auto|eexists; reflexivity].
Qed.
Definition arel (x y : accepted) : Prop :=
  match x with NumOk A => exists B, y = NumOk B /\ sim A B | NumFn l => exists l', y = NumFn l' /\ lrel l l' \/ l = OutOfFuel end.
Lemma arel_fn : forall l l', lrel l l' -> arel (NumFn l) (NumFn l').
Proof. intros l l' H. exists l'. auto. Qed.
Lemma accept_unsigned_sim : forall rp A B, sim A B -> arel (accept_unsigned c rp A) (accept_unsigned c rp B).
Proof.
  intros rp A B S. unfold accept_unsigned. pose proof (scan_number_sim true rp A B S) as O.
  destruct (scan_number c true rp A) as [[[|] A2]|]; [|destruct O as (B2 & ->); apply arel_fn, err_rel|exists OutOfFuel; auto].
  destruct O as (B2 & -> & S2). destruct (peek_sim A2 B2 S2) as (ra & A3 & rb & B3 & EA & EB & S3 & LW & TC & H). rewrite EA, EB.
  destruct H as [(<- & N & T)|(-> & -> & T)]; [|exists B3; auto].
  destruct (ra =? 47) eqn:Q; [|exists B3; auto]. cbn [negb].
  destruct (accept_sim (zs "/") A3 B3 (conj eq_refl eq_refl) S3) as (b & A4 & B4 & F1 & F2 & S4 & G4).
  assert (b = true) as ->.
  { clear -F1 Q S3 TC T. destruct (next_seen A3 B3 S3) as (r & A' & B' & EA & _ & HN); [rewrite TC, T; discriminate|]. unfold accept in F1. rewrite EA in F1.
    destruct HN as (_ & _ & _ & _ & _ & _ & _ & _ & _ & TT). rewrite TC, T in TT. injection TT as TT _. apply Z.eqb_eq in Q. assert (mem r (zs "/") = true) as M by (replace r with 47 by congruence; reflexivity). rewrite M in F1. congruence. }
  cbv zeta. rewrite F1, F2. cbn [snd]. destruct (G4 eq_refl) as (_ & _ & _ & _ & P4).
  destruct (peek_sim A4 B4 S4) as (r' & A5 & rb' & B5 & EA5 & EB5 & S5 & _ & _ & H5). rewrite EA5, EB5.
  destruct (peek_keep A4 r' A5 EA5 (or_introl P4)) as (K1 & K2 & K3).
  assert (rp && negb (rb' =? dot) && negb (is_numeral c rb') = rp && negb (r' =? dot) && negb (is_numeral c r')) as ->.
  { destruct H5 as [(<- & _)|(-> & -> & _)]; [reflexivity|]. rewrite numeral_eof, numeral_nl. reflexivity. }
  destruct (rp && negb (r' =? dot) && negb (is_numeral c r')).
  { eexists. split; [reflexivity|]. rewrite (s_pos _ _ S5). apply set_sim; [exact S5|]. pose proof (s_le _ _ S5). lia. }
  pose proof (scan_number_sim false rp A5 B5 S5) as O. destruct (scan_number c false rp A5) as [[[|] A6]|]; [|destruct O as (B6 & ->); apply arel_fn, err_rel|exists OutOfFuel; auto].
  destruct O as (B6 & -> & S6). destruct (peek_sim A6 B6 S6) as (ra7 & A7 & rb7 & B7 & EA7 & EB7 & S7 & _ & _ & H7). rewrite EA7, EB7.
  assert ((rb7 =? dot) = (ra7 =? dot)) as -> by (destruct H7 as [(<- & _)|(-> & -> & _)]; reflexivity). destruct (ra7 =? dot); [apply arel_fn, err_rel|]. exists B7. auto.
Qed.
Lemma accept_number_sim : forall rp A B, sim A B -> arel (accept_number c rp A) (accept_number c rp B).
Proof.
  intros rp A B S. unfold accept_number. destruct (accept_sim (zs "+-") A B (conj eq_refl eq_refl) S) as (sg & A1 & B1 & -> & -> & S1 & _).
  destruct (sg && rp); [|apply accept_unsigned_sim, S1].
  destruct (peek_sim A1 B1 S1) as (ra & A2 & rb & B2 & EA & EB & S2 & LW & TC & H). rewrite EA, EB.
  assert (((rb =? 47) || (rb =? 92)) = ((ra =? 47) || (ra =? 92)) /\ (negb (rb =? dot) && negb (is_numeral c rb)) = (negb (ra =? dot) && negb (is_numeral c ra))) as [-> ->].
  { destruct H as [(<- & _)|(-> & -> & _)]; [auto|]. rewrite numeral_eof, numeral_nl. auto. }
  destruct ((ra =? 47) || (ra =? 92)) eqn:Q.
  - apply arel_fn. destruct H as [(<- & N & T)|(-> & -> & T)]; [|discriminate].
    destruct (next_seen A2 B2 S2) as (r3 & A3 & B3 & EA3 & EB3 & HN); [rewrite TC, T; discriminate|]. rewrite EA3, EB3. cbn [snd]. apply emit_rel; [|reflexivity]. apply opt_snd; [ne|ne|apply HN].
  - destruct (negb (ra =? dot) && negb (is_numeral c ra)); [apply arel_fn, lex_operator_sim, S2|apply accept_unsigned_sim, S2].
Qed.
Lemma lex_complex_sim : forall A B, sim A B -> lrel (lex_complex c A) (lex_complex c B).
Proof.
  intros A B S. unfold lex_complex. pose proof (accept_number_sim true A B S) as R. destruct (accept_number c true A) as [A1|l].
  - destruct R as (B1 & -> & S1). destruct (accept_sim (zs "j") A1 B1 (conj eq_refl eq_refl) S1) as (j & A2 & B2 & -> & -> & S2 & _). destruct j; [|apply emit_rel; [exact S2|reflexivity]]. cbn [negb].
    pose proof (accept_number_sim true A2 B2 S2) as R2. destruct (accept_number c true A2) as [A3|l].
    + destruct R2 as (B3 & -> & S3). apply emit_rel; [exact S3|reflexivity].
    + destruct R2 as (l' & [(-> & R2)| ->]); [|exact Logic.I]. destruct l; cbn [lrel] in R2; try exact Logic.I; destruct R2 as (B3 & R2); try (destruct R2 as (-> & _)); try rewrite R2; apply err_rel.
  - destruct R as (l' & [(-> & R)| ->]); [exact R|exact Logic.I].
Qed.

(* words *)
Lemma peek_off : forall s r s', peek s = (r, s') -> (start s <= pos s)%nat -> off s' = off s.
Proof.
  intros s r s'. unfold peek, read_rune. cbv zeta. intros E H.
  assert (K : off (if negb (fin s) && Nat.eqb (pos s) (length (input s)) then load_line s else s) = off s).
  { destruct (negb (fin s) && _); [|reflexivity]. unfold load_line. destruct (take_line (pending s)) as [[b x] d].
    destruct (Nat.eqb (start s) (pos s)) eqn:Q; [apply Nat.eqb_eq in Q|]; unfold off; cbn; lia. }
  destruct (Nat.eqb _ _) in E; injection E as _ <-; exact K.
Qed.
Lemma lex_identifier_sim : forall A B, sim A B -> lrel (lex_identifier c A) (lex_identifier c B).
Proof.
  intros A0 B0 S0. unfold lex_identifier. destruct (skip_while (Z.eqb at_sign) A0) as [A1|] eqn:E1; [|exact Logic.I].
  destruct (skip_while_sim (Z.eqb at_sign) A0 B0 A1 eq_refl eq_refl S0 E1) as (B1 & -> & S1). cbv zeta.
  destruct (skip_while (is_alnum c) A1) as [A2|] eqn:E2; [|exact Logic.I]. destruct (skip_while_sim (is_alnum c) A1 B1 A2 alnum_eof' alnum_nl S1 E2) as (B2 & -> & S2).
  destruct (at_terminator_sim A2 B2 S2) as (t & A3 & B3 & -> & -> & S3). destruct t; [|apply err_rel]. cbn [negb].
  destruct (skip_while (Z.eqb at_sign) A3) as [A4|] eqn:E4; [|exact Logic.I]. destruct (skip_while_sim (Z.eqb at_sign) A3 B3 A4 eq_refl eq_refl S3 E4) as (B4 & -> & S4).
  rewrite (off_sim _ _ S0), (off_sim _ _ S1), (off_sim _ _ S3), (off_sim _ _ S4), (s_start _ _ S4), (s_pos _ _ S4), (slice_sim A4 B4 _ _ S4 (Nat.le_sub_l _ _)).
  set (w := slice A4 _ _). set (left := (off A1 - off A0)%nat). set (right := (off A4 - off A3)%nat).
  destruct (peek_sim A4 B4 S4) as (ra & A5 & rb & B5 & EA & EB & S5 & _ & _ & H). pose proof (peek_off A4 ra A5 EA (s_sp _ _ S4)) as O5. rewrite EA, EB.
  assert ((rb =? dot) = (ra =? dot)) as -> by (destruct H as [(<- & _)|(-> & -> & _)]; reflexivity).
  destruct (teq w (zs "op")); [apply emit_rel; [exact S5|reflexivity]|]. destruct (teq w (zs "opdelete")); [apply emit_rel; [exact S5|reflexivity]|].
  destruct (teq w (zs "o") && (ra =? dot)); [apply lex_operator_sim, S5|]. destruct (defined c w); [apply lex_operator_sim, S5|].
  destruct (teq w [] || negb (Nat.eqb left 0)); [apply err_rel|].
  pose proof (s_sp _ _ S5) as SP5. pose proof (s_le _ _ S5) as LE5.
  destruct (all_digits w (ibase c) false). { apply lex_complex_sim. rewrite (s_start _ _ S5). apply set_sim; [exact S5|lia]. }
  destruct (user_unary c w); (apply emit_rel; [|reflexivity]); [exact S5|]. rewrite (s_pos _ _ S5). apply set_sim; [exact S5|].
  unfold right. unfold off in *. lia.
Qed.

(* strings *)
Lemma quoted_sim : forall q n A B, sim A B -> lrel (quoted q n A) (quoted q (S n) B).
Proof.
  intros q. induction n as [|n IH]; intros A B S; [exact Logic.I|].
  change (quoted q (Datatypes.S (Datatypes.S n)) B) with (let '(r, s1) := next B in
    if r =? 92 then let '(r2, s2) := next s1 in if negb (r2 =? eof) && negb (r2 =? nl) then quoted q (Datatypes.S n) s2 else LErr s2
    else if (r =? eof) || (r =? nl) then LErr s1 else if r =? q then Emit TString s1 else quoted q (Datatypes.S n) s1).
  cbn [quoted]. destruct (next_sim A B S) as (ra & A1 & rb & B1 & EA & EB & SB & [H|H]); rewrite EA, EB.
  - destruct H as (<- & N & S1 & _). destruct (ra =? 92).
    + destruct (next_sim A1 B1 S1) as (r2 & A2 & rb2 & B2 & EA2 & EB2 & _ & [H|H]); rewrite EA2, EB2.
      * destruct H as (<- & _ & S2 & _). destruct (negb (r2 =? eof) && negb (r2 =? nl)); [apply IH, S2|apply err_rel].
      * destruct H as (-> & -> & _). apply err_rel.
    + destruct ((ra =? eof) || (ra =? nl)); [apply err_rel|]. destruct (ra =? q); [apply emit_rel; [exact S1|reflexivity]|apply IH, S1].
  - destruct H as (-> & -> & _). apply err_rel.
Qed.
(* nothing left to read *)
Lemma done_next : forall s, pos s = length (input s) -> pending s = [] -> exists s', next s = (eof, s') /\ pos s' = length (input s') /\ pending s' = [].
Proof.
  intros s P E. unfold next, read_rune, load_line. rewrite E. cbn [take_line]. rewrite <-P, Nat.eqb_refl, andb_true_r.
  destruct (fin s); cbn [negb].
  - rewrite <-P, Nat.eqb_refl. eexists. split; [reflexivity|]. cbn. split; [lia|exact E].
  - destruct (Nat.eqb (start s) (pos s)); cbn [input pos length].
    + eexists. split; [reflexivity|]. cbn. auto.
    + rewrite app_nil_r, <-P, Nat.eqb_refl. eexists. split; [reflexivity|]. cbn. rewrite ?app_nil_r. split; [lia|reflexivity].
Qed.
Lemma raw_sim : forall n A B, sim A B -> lrel (raw_quoted n A) (raw_quoted (S n) B).
Proof.
  induction n as [|n IH]; intros A B S; [exact Logic.I|].
  change (raw_quoted (Datatypes.S (Datatypes.S n)) B) with (let '(r, s1) := next B in
    if r =? eof then LErr s1 else if r =? 96 then Emit TString s1 else raw_quoted (Datatypes.S n) s1).
  cbn [raw_quoted]. destruct (next_sim A B S) as (ra & A1 & rb & B1 & EA & EB & SB & [H|H]); rewrite EA, EB.
  - destruct H as (<- & N & S1 & _). destruct (ra =? eof); [apply err_rel|]. destruct (ra =? 96); [apply emit_rel; [exact S1|reflexivity]|apply IH, S1].
  - destruct H as (-> & -> & _ & _ & _ & _ & P1 & P2 & _ & X & Y & _). rewrite Z.eqb_refl. change (nl =? eof) with false. change (nl =? 96) with false. cbv iota.
    destruct (done_next B1) as (s' & -> & _); [rewrite P2, X, app_length; cbn; lia|exact Y|]. apply err_rel.
Qed.
Lemma next_back : forall A B r A', sim A B -> next A = (r, A') -> 0 <= r -> to_come (backup A') = to_come A.
Proof.
  intros A B r A' S E N. destruct (read_sim A B S) as (ra & wa & A1 & rb & wb & B1 & EA & EB & S1 & LW & TC & H).
  unfold next in E. rewrite EA in E. injection E as <- <-. destruct H as [(_ & -> & _)|(-> & _)]; [|unfold eof in N; lia].
  unfold backup. cbn [last pos start width]. replace (ra =? eof) with false by (unfold eof; lia). pose proof (s_sp _ _ S1).
  assert (Nat.eqb (pos A1 + 1) (start A1) = false) as -> by (apply Nat.eqb_neq; lia). assert (Nat.ltb (start A1) (pos A1 + 1) = true) as -> by (apply Nat.ltb_lt; lia).
  rewrite <-TC. unfold to_come, set_pos. cbn [pos input pending]. replace (pos A1 + 1 - 1)%nat with (pos A1) by lia. reflexivity.
Qed.
Lemma lex_any_sim : forall A B, sim A B -> lrel (lex_any c A) (lex_any c B).
Proof.
  intros A B S. unfold lex_any. destruct (next_sim A B S) as (ra & A1 & rb & B1 & EA & EB & SB & [H|H]); rewrite EA, EB.
  2:{ destruct H as (-> & -> & T & L1 & L2 & W & P1 & P2 & P3 & X & Y & SP & _). rewrite Z.eqb_refl. change (nl =? eof) with false. rewrite Z.eqb_refl.
    exists B1. split; [reflexivity|]. split; [|split; [rewrite P2, X, app_length, P1; cbn; lia|exact Y]].
    unfold tok_text, slice. rewrite P3, P2, X, P1. rewrite skipn_app. replace (start A1 - length (input A1))%nat with 0%nat by lia. cbn [skipn].
    rewrite firstn_app, skipn_length. replace (Datatypes.S (length (input A1)) - start A1 - (length (input A1) - start A1))%nat with 1%nat by lia. cbn [firstn]. f_equal.
    rewrite !firstn_all2; [reflexivity|rewrite skipn_length; lia|rewrite skipn_length; lia]. }
  pose proof H as (<- & N & S1 & L1 & L2 & W1 & W2 & P1 & AH & TC). pose proof (next_back A B ra A1 S EA N) as BC.
  replace (ra =? eof) with false by (unfold eof; lia).
  destruct (ra =? nl); [apply emit_rel; [exact S1|reflexivity]|]. destruct (ra =? 59); [apply emit_rel; [exact S1|reflexivity]|].
  destruct (ra =? 35).
  { destruct (next_while _ (Datatypes.S (room A1)) A1) as [A2|] eqn:E2; [|exact Logic.I]. rewrite (room_sim A1 B1 S1).
    destruct (next_while_sim (fun x => negb ((x =? eof) || (x =? nl))) eq_refl eq_refl _ A1 B1 A2 S1 E2) as (B2 & -> & S2). exists B2. auto. }
  destruct (is_space ra).
  { destruct (skip_while is_space A1) as [A2|] eqn:E2; [|exact Logic.I]. destruct (skip_while_sim is_space A1 B1 A2 eq_refl eq_refl S1 E2) as (B2 & -> & S2).
    eexists. split; [reflexivity|]. destruct S2 as [Q1 Q2 Q3 Q4 Q5 Q6 Q7]. constructor; cbn; auto; lia. }
  destruct ((ra =? 39) || (ra =? 34)).
  { destruct (next_seen (backup A1) (backup B1) SB) as (q & A2 & B2 & -> & -> & HN); [rewrite BC, TC; discriminate|]. pose proof HN as (_ & _ & S2 & _).
    rewrite (room_sim A2 B2 S2). apply quoted_sim, S2. }
  destruct (ra =? 96). { rewrite (room_sim A1 B1 S1). apply raw_sim, S1. }
  destruct ((ra =? 45) || (ra =? 43)) eqn:Q.
  { rewrite (s_start _ _ S1). pose proof (s_sp _ _ S1) as SP. pose proof (s_le _ _ S1) as LE. destruct (start A1) as [|b] eqn:ST; [apply lex_complex_sim, SB|]. cbv zeta.
    assert (nth b (input B1) 0 = nth b (input A1) 0) as ->. { destruct (s_case _ _ S1) as [(-> & _)|(-> & _)]; [reflexivity|]. apply app_nth1. lia. }
    destruct (is_alnum c (nth b (input A1) 0) || (nth b (input A1) 0 =? 41) || (nth b (input A1) 0 =? 93)); [apply lex_operator_sim, S1|].
    destruct AH as [_ AH]. specialize (AH ltac:(lia)).
    destruct (peek2_sim A1 B1 S1 ltac:(lia)) as (r1 & r2 & A2 & r2' & B2 & -> & -> & S2 & P2 & ST2 & W3 & W4 & H2); [intros X; rewrite X in AH; cbn in AH; lia|].
    destruct H2 as [(<- & L3 & L4)|(_ & _ & H2)]; [|lia].
    destruct ((r1 =? dot) && negb (is_numeral c r2)); [apply lex_operator_sim, S2|]. apply lex_complex_sim. apply backup_sim; try congruence; lia. }
  destruct ((ra =? dot) || is_digit ra); [apply lex_complex_sim, SB|].
  destruct (ra =? 61).
  { destruct (peek_sim A1 B1 S1) as (r2 & A2 & rb2 & B2 & EA2 & EB2 & S2 & _ & TC2 & H2). rewrite EA2, EB2.
    destruct H2 as [(<- & N2 & T2)|(-> & -> & T2)]; [|apply emit_rel; [exact S2|reflexivity]].
    destruct (r2 =? 61); [|apply emit_rel; [exact S2|reflexivity]]. cbn [negb].
    destruct (next_seen A2 B2 S2) as (r3 & A3 & B3 & -> & -> & HN); [rewrite TC2, T2; discriminate|]. apply lex_operator_sim, opt_snd; [ne|ne|]. apply HN. }
  destruct (is_operator ra A1) as [[b A2]|] eqn:EO; [|exact Logic.I].
  destruct (is_operator_sim ra A1 B1 b A2 S1 L1 L2 N W1 W2 P1 EO) as (B2 & -> & O1 & O2 & O3).
  destruct b; [apply lex_operator_sim, O1; reflexivity|].
  destruct (ra =? at_sign) eqn:QA.
  { rewrite orb_true_r. apply lex_identifier_sim, O2. reflexivity. }
  assert (S2 : sim A2 B2) by (apply O3; [reflexivity|lia]).
  destruct (is_alnum c ra); [apply lex_identifier_sim, O2; reflexivity|]. cbn [orb].
  repeat match goal with |- context [if ?b then _ else _] => destruct b end; try (apply emit_rel; [exact S2|reflexivity]). apply err_rel.
Qed.

(* one token *)
Definition over (s : sc) : Prop := pos s = length (input s) /\ pending s = [].
Lemma run_sim : forall n A B k A', sim A B -> run_states c n A = Some (k, A') -> exists kb B', run_states c (S n) B = Some (kb, B') /\
  ((kb = k /\ sim A' B' /\ t_type k <> TEof /\ t_type k <> TErr) \/ (k = mkTok TErr [] /\ kb = k) \/ (k = mkTok TEof [] /\ t_type kb = TNewline /\ over B')).
Proof.
  induction n as [|n IH]; intros A B k A' S E; [discriminate|]. cbn [run_states] in E.
  change (run_states c (Datatypes.S (Datatypes.S n)) B) with (match lex_any c B with
    | Emit t s1 => Some (mkTok t (tok_text s1), mkSc (input s1) (pending s1) (fin s1) (pos s1) (pos s1) (last s1) (width s1))
    | LErr s1 => Some (mkTok TErr [], wipe s1) | LEof s1 => Some (mkTok TEof [], s1) | Again s1 => run_states c (Datatypes.S n) s1 | OutOfFuel => None end).
  pose proof (lex_any_sim A B S) as R. destruct (lex_any c A) as [t A1|A1|A1|A1|]; [| | | |discriminate].
  - destruct R as (B1 & -> & S1 & T1 & T2). injection E as <- <-. eexists. eexists. split; [reflexivity|]. left. rewrite (tok_sim _ _ S1). split; [reflexivity|]. split; [|auto].
    destruct S1 as [Q1 Q2 Q3 Q4 Q5 Q6 Q7]. constructor; cbn; auto.
  - destruct R as (B1 & ->). injection E as <- <-. eexists. eexists. split; [reflexivity|]. right. left. auto.
  - destruct R as (B1 & -> & T1 & T2 & T3). injection E as <- <-. eexists. eexists. split; [reflexivity|]. right. right. split; [reflexivity|]. split; [reflexivity|]. split; assumption.
  - destruct R as (B1 & -> & S1). apply (IH A1 B1 k A' S1 E).
Qed.
Lemma over_next : forall s, over s -> exists s', Next c s = Some (mkTok TEof [], s').
Proof.
  intros s [P E]. unfold Next. cbn [run_states]. unfold lex_any. destruct (done_next (mkSc (input s) (pending s) (fin s) (pos s) (start s) eof 0) P E) as (s' & -> & _). rewrite Z.eqb_refl. eauto.
Qed.
Lemma all_tokens_sim : forall n A B l, sim A B -> all_tokens c n A = Some l ->
  (exists l', l = l' ++ [mkTok TErr []] /\ all_tokens c (S n) B = Some l) \/
  (exists l' k, l = l' ++ [mkTok TEof []] /\ t_type k = TNewline /\ all_tokens c (S n) B = Some (l' ++ [k; mkTok TEof []])).
Proof.
  induction n as [|n IH]; intros A B l S E; [discriminate|]. cbn [all_tokens] in E.
  change (all_tokens c (Datatypes.S (Datatypes.S n)) B) with (match Next c B with None => None | Some (t, s1) =>
    match t_type t with TEof | TErr => Some [t] | _ => option_map (cons t) (all_tokens c (Datatypes.S n) s1) end end).
  destruct (Next c A) as [[k A1]|] eqn:E1; [|discriminate]. unfold Next in E1 at 1.
  assert (S0 : sim (mkSc (input A) (pending A) (fin A) (pos A) (start A) eof 0) (mkSc (input B) (pending B) (fin B) (pos B) (start B) eof 0)).
  { rewrite (s_pos _ _ S), (s_start _ _ S). apply move_sim'; [exact S|]. split; [apply (s_sp _ _ S)|apply (s_le _ _ S)]. }
  destruct (run_sim _ _ _ k A1 S0 E1) as (kb & B1 & F & H). assert (NB : Next c B = Some (kb, B1)) by (unfold Next; rewrite (room_sim _ _ S); exact F). rewrite NB.
  destruct H as [(-> & S1 & T1 & T2)|[(-> & ->)|(-> & T & O)]].
  - assert (exists l', l = k :: l' /\ all_tokens c n A1 = Some l') as (l' & -> & E').
    { destruct (t_type k); try contradiction; destruct (all_tokens c n A1) as [l'|]; try discriminate; injection E as <-; eauto. }
    destruct (IH A1 B1 l' S1 E') as [(l1 & -> & R)|(l1 & kk & -> & T3 & R)]; rewrite R.
    + left. exists (k :: l1). split; [reflexivity|]. destruct (t_type k); try contradiction; reflexivity.
    + right. exists (k :: l1), kk. split; [reflexivity|]. split; [exact T3|]. destruct (t_type k); try contradiction; reflexivity.
  - injection E as <-. left. exists []. auto.
  - injection E as <-. right. exists [], kb. split; [reflexivity|]. split; [exact T|]. rewrite T.
    cbn [all_tokens]. destruct (over_next B1 O) as (s' & ->). reflexivity.
Qed.
End Ctx.
Lemma sim_new : forall t, Forall (fun r => 0 <= r) t -> calm_end (nocr t) -> sim (new_scanner t) (new_scanner (t ++ [nl])).
Proof.
  intros t N G. constructor; cbn [new_scanner pos start input pending fin app length]; auto; try lia.
  - unfold nocr. clear G. induction N; cbn; [constructor|]. destruct (negb (x =? 13)); [constructor|]; assumption.
Qed.

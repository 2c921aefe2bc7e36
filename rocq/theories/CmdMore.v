(* A session whose text goes on: the lines that were whole stay as they are; and at the start of a line the scanner is
   as good as new. *)
From Coq Require Import String Lia ZifyBool.
From Verif Require Import Value Syntax ExecModel ScanModel ScanSpec ScanNext ScanMore TextModel TextSpec ReadModel SaveModel SourceModel CmdModel CmdSpec CmdProofs CmdRun.
From Verif Require ParseModel ParseSpec.
Open Scope string_scope.
Open Scope list_scope.
Open Scope Z_scope.

Section Reads.
Variable c : sctx.
Hypothesis base_ok : 0 <= ibase c <= 36.
Lemma read_tokens_total : forall n acc q, between_tokens q -> (length (to_come q) < n)%nat ->
  exists r b q1, read_tokens c n acc q = Some (r, b, q1) /\ between_tokens q1 /\ (length (to_come q1) <= length (to_come q))%nat /\
    ((r = None \/ b = true) -> acc = [] -> (length (to_come q1) < length (to_come q))%nat).
Proof using base_ok.
  induction n as [|n IH]; intros acc q B L; [lia|]. cbn [read_tokens]. destruct (next_delivers c base_ok q B) as (t & q1 & -> & D & B1).
  assert (SH : t_type t <> TEof -> (length (to_come q1) < length (to_come q))%nat) by (apply delivers_shorter; exact D).
  assert (G : t_type t <> TEof -> exists r b q2, read_tokens c n (t :: acc) q1 = Some (r, b, q2) /\ between_tokens q2 /\ (length (to_come q2) <= length (to_come q))%nat /\ ((r = None \/ b = true) -> acc = [] -> (length (to_come q2) < length (to_come q))%nat)).
  { intros N. specialize (SH N). destruct (IH (t :: acc) q1 B1 ltac:(lia)) as (r & b & q2 & E & B2 & L2 & _). exists r, b, q2. split; [exact E|]. split; [exact B2|]. split; [lia|]. intros; lia. }
  destruct (t_type t) eqn:T; try (apply G; discriminate).
  - do 3 eexists. split; [reflexivity|]. split; [exact B1|]. destruct D as (gap & _ & D). rewrite T in D. destruct D as (D & _). rewrite D. cbn [length]. split; [lia|]. intros [H|H] ->; discriminate.
  - do 3 eexists. split; [reflexivity|]. split; [exact B1|]. specialize (SH ltac:(discriminate)). split; [lia|intros; lia].
  - do 3 eexists. split; [reflexivity|]. split; [exact B1|]. specialize (SH ltac:(discriminate)). split; [lia|intros; lia].
Qed.
Lemma read_tokens_fuel : forall n n' acc q x, (n <= n')%nat -> read_tokens c n acc q = Some x -> read_tokens c n' acc q = Some x.
Proof using Type.
  induction n as [|n IH]; intros n' acc q x L; cbn [read_tokens]; [discriminate|]. destruct n' as [|n']; [lia|]. cbn [read_tokens].
  destruct (Next c q) as [[t q1]|]; [|discriminate]. destruct (t_type t); try exact (fun H => H); apply IH; lia.
Qed.
Lemma body_total : forall n acc q, between_tokens q -> (length (to_come q) < n)%nat ->
  exists r q1, read_in_body c n acc q = Some (r, q1) /\ between_tokens q1 /\ (length (to_come q1) <= length (to_come q))%nat /\
    (forall t ts, r = Some (t :: ts) -> acc = [] -> (length (to_come q1) < length (to_come q))%nat).
Proof using base_ok.
  induction n as [|n IH]; intros acc q B L; [lia|]. cbn [read_in_body]. destruct (next_delivers c base_ok q B) as (t & q1 & -> & D & B1).
  assert (SH : t_type t <> TEof -> (length (to_come q1) < length (to_come q))%nat) by (apply delivers_shorter; exact D).
  assert (G : forall acc', t_type t <> TEof -> exists r q2, read_in_body c n acc' q1 = Some (r, q2) /\ between_tokens q2 /\ (length (to_come q2) <= length (to_come q))%nat /\ (forall k ks, r = Some (k :: ks) -> acc = [] -> (length (to_come q2) < length (to_come q))%nat)).
  { intros acc' N. specialize (SH N). destruct (IH acc' q1 B1 ltac:(lia)) as (r & q2 & E & B2 & L2 & _). exists r, q2. split; [exact E|]. split; [exact B2|]. split; [lia|]. intros; lia. }
  destruct (t_type t) eqn:T; try (apply G; discriminate).
  - do 2 eexists. split; [reflexivity|]. split; [exact B1|]. destruct D as (gap & _ & D). rewrite T in D. destruct D as (D & _). rewrite D. cbn [length]. split; [lia|]. intros k ks H ->. discriminate.
  - do 2 eexists. split; [reflexivity|]. split; [exact B1|]. specialize (SH ltac:(discriminate)). split; [lia|intros; lia].
  - destruct acc as [|a acc].
    + destruct (Nat.leb (length (t_text t)) 1); [|apply G; discriminate]. do 2 eexists. split; [reflexivity|]. split; [exact B1|]. specialize (SH ltac:(discriminate)). split; [lia|intros; lia].
    + do 2 eexists. split; [reflexivity|]. split; [exact B1|]. specialize (SH ltac:(discriminate)). split; [lia|intros; lia].
Qed.
Variable m : text.
Lemma body_more : forall n n' acc q r q1, (n <= n')%nat -> read_in_body c n acc q = Some (r, q1) -> fin q1 = false -> fin q = false /\ read_in_body c n' acc (more m q) = Some (r, more m q1).
Proof using Type.
  induction n as [|n IH]; intros n' acc q r q1 L; cbn [read_in_body]; [discriminate|]. destruct n' as [|n']; [lia|]. cbn [read_in_body].
  destruct (Next c q) as [[t q2]|] eqn:E; [|discriminate]. pose proof (Next_more m c _ _ _ E) as A.
  assert (G : forall acc', read_in_body c n acc' q2 = Some (r, q1) -> fin q1 = false -> fin q2 = false /\ read_in_body c n' acc' (more m q2) = Some (r, more m q1)) by (intros acc'; apply IH; lia).
  destruct (t_type t) eqn:T;
  try (intros H F; destruct (G _ H F) as [F2 X]; destruct (A F2) as [F1 Y]; split; [exact F1|]; rewrite Y, T; exact X);
  try (intros [= <- <-] F; destruct (A F) as [F1 Y]; split; [exact F1|]; rewrite Y, T; reflexivity).
  destruct acc as [|a acc]; [destruct (Nat.leb (length (t_text t)) 1) eqn:LE|];
  try (intros [= <- <-] F; destruct (A F) as [F1 Y]; split; [exact F1|]; rewrite Y, T, ?LE; reflexivity).
  intros H F; destruct (G _ H F) as [F2 X]; destruct (A F2) as [F1 Y]; split; [exact F1|]; rewrite Y, T, LE; exact X.
Qed.
Lemma size_more : forall q, (S (length (input q) + length (pending q)) <= S (length (input (more m q)) + length (pending (more m q))))%nat.
Proof using Type. intros q. cbn [more input pending]. rewrite app_length. lia. Qed.
Lemma fits_size : forall q, (length (to_come q) < S (length (input q) + length (pending q)))%nat.
Proof using Type. intros q. pose proof (to_come_length q). lia. Qed.
Lemma read_body_more : forall b d k k' q ls q1, between_tokens q -> (length (to_come q) < k)%nat -> (k <= k')%nat -> read_body b c d k q = (ls, q1) ->
  between_tokens q1 /\ (length (to_come q1) <= length (to_come q))%nat /\ (fin q1 = false -> fin q = false /\ read_body b c d k' (more m q) = (ls, more m q1)).
Proof using base_ok.
  intros b d. induction k as [|k IH]; intros k' q ls q1 B L K; [lia|]. destruct k' as [|k']; [lia|]. cbn [read_body].
  destruct (body_total (S (length (input q) + length (pending q))) [] q B (fits_size q)) as (r & q2 & E & B2 & L2 & S2). rewrite E.
  pose proof (body_more _ _ _ _ _ _ (size_more q) E) as M.
  destruct r as [[|t ts]|].
  - intros [= <- <-]. split; [exact B2|]. split; [exact L2|]. intros F. destruct (M F) as [F1 X]. split; [exact F1|]. rewrite X. reflexivity.
  - cbv zeta. destruct (ParseModel.expression_list d _ _) as [a0 a1|a0|] eqn:PE.
    + destruct (read_body b c d k q2) as [ls2 q3] eqn:R. intros [= <- <-]. specialize (S2 _ _ eq_refl eq_refl).
      destruct (IH k' q2 ls2 q3 B2 ltac:(lia) ltac:(lia) R) as (B3 & L3 & M3). split; [exact B3|]. split; [lia|]. intros F. destruct (M3 F) as [F2 X2]. destruct (M F2) as [F1 X].
      split; [exact F1|]. rewrite X, PE, X2. reflexivity.
    + intros [= <- <-]. split; [exact B2|]. split; [exact L2|]. intros F. destruct (M F) as [F1 X]. split; [exact F1|]. rewrite X, PE. reflexivity.
    + intros [= <- <-]. split; [exact B2|]. split; [exact L2|]. intros F. destruct (M F) as [F1 X]. split; [exact F1|]. rewrite X, PE. reflexivity.
  - intros [= <- <-]. split; [exact B2|]. split; [exact L2|]. intros F. destruct (M F) as [F1 X]. split; [exact F1|]. rewrite X. reflexivity.
Qed.
(* at the start of a line *)
Definition line_start (q : sc) : Prop := fin q = false /\ start q = pos q /\ pos q = length (input q).
Lemma Next_line_start : forall q, line_start q -> Next c q = Next c (new_scanner (pending q)).
Proof using Type.
  intros q (F & S & P). unfold Next. assert (R : room q = room (new_scanner (pending q))) by (unfold room, new_scanner; cbn [input pos pending length]; rewrite P; lia). rewrite R.
  cbn [run_states]. assert (X : lex_any c (mkSc (input q) (pending q) (fin q) (pos q) (start q) eof 0) = lex_any c (mkSc [] (pending q) false 0 0 eof 0)); [|rewrite X; reflexivity].
  assert (N : next (mkSc (input q) (pending q) (fin q) (pos q) (start q) eof 0) = next (mkSc [] (pending q) false 0 0 eof 0)).
  { unfold next, read_rune, load_line. cbn [input pending fin pos start last width length]. rewrite F, S, P, !Nat.eqb_refl. reflexivity. }
  unfold lex_any. rewrite N. reflexivity.
Qed.
Lemma read_tokens_line_start : forall n acc q, line_start q -> read_tokens c n acc q = read_tokens c n acc (new_scanner (pending q)).
Proof using Type. intros [|n] acc q H; [reflexivity|]. cbn [read_tokens]. rewrite (Next_line_start q H). reflexivity. Qed.
End Reads.

Section Session.
Variable u_print : Z -> bool.
Variables letters digits puncts symbols : Z -> bool.
Variables bu bb : string -> bool.
Variable E : settings -> env.
Variables const_e const_pi : Z -> value.
Notation nline := (next_line letters digits puncts symbols bu bb).
Notation snext := (session_next u_print letters digits puncts symbols bu bb E const_e const_pi).
Notation stext := (session_text u_print letters digits puncts symbols bu bb E const_e const_pi).
Notation defn := (read_defn letters digits puncts symbols bu bb).
Variable m : text.

Lemma legal_ibase : forall s, legal_settings (ses_set s) -> 0 <= in_base (ses_set s) <= 36.
Proof using Type. intros s (L & _). unfold legal_base in L. lia. Qed.
Lemma line_ok : forall s q rl q1, legal_settings (ses_set s) -> between_tokens q -> nline s q = (rl, q1) ->
  (rl <> RNone -> between_tokens q1 /\ (length (to_come q1) < length (to_come q))%nat) /\
  (fin q1 = false -> fin q = false /\ (rl <> RNone -> nline s (more m q) = (rl, more m q1))).
Proof using Type.
  intros s q rl q1 LG B. unfold next_line. set (c := scan_ctx _ _ _ _ _ _ _ _). pose proof (legal_ibase s LG : 0 <= ibase c <= 36) as BO.
  destruct (read_tokens_total c BO _ [] q B (fits_size q)) as (r & b & q2 & RT & B2 & L2 & S2). rewrite RT. cbv zeta.
  pose proof (read_tokens_more m c _ _ [] q r b q2 (size_more m q) RT) as M.
  destruct r as [ts|].
  - destruct b.
    + specialize (S2 (or_intror eq_refl) eq_refl).
      intros H. assert (Q : q1 = q2) by (destruct ts as [|t ts]; [|destruct (t_type t)]; injection H as <- <-; reflexivity). subst q1.
      split; [intros _; split; [exact B2|exact S2]|]. intros F. destruct (M F) as [F1 X]. split; [exact F1|]. intros _. rewrite X.
      destruct ts as [|t ts]; [|destruct (t_type t)]; injection H as <-; reflexivity.
    + intros [= <- <-]. split; [congruence|]. intros F. split; [exact (proj1 (M F))|congruence].
  - specialize (S2 (or_introl eq_refl) eq_refl). intros [= <- <-]. split; [intros _; split; [exact B2|exact S2]|]. intros F. destruct (M F) as [F1 X]. split; [exact F1|]. intros _. rewrite X. reflexivity.
Qed.
Lemma line_at_start : forall s q, legal_settings (ses_set s) -> line_start q -> between_tokens q -> nline s q = nline s (new_scanner (pending q)) \/ fst (nline s q) = RNone /\ fst (nline s (new_scanner (pending q))) = RNone.
Proof using Type.
  intros s q LG LS B. left. unfold next_line. set (c := scan_ctx _ _ _ _ _ _ _ _). pose proof (legal_ibase s LG : 0 <= ibase c <= 36) as BO.
  destruct LS as (F & S & P). assert (NB : between_tokens (new_scanner (pending q)) /\ to_come (new_scanner (pending q)) = to_come q).
  { unfold to_come. cbn [new_scanner pos input skipn pending app]. rewrite P, skipn_all. split; [|reflexivity]. split; [|left; reflexivity].
    destruct B as [(B1 & B2 & B3 & B4) _]. unfold scanner_ok, unread in *. cbn [new_scanner start pos input fin pending width length skipn]. repeat split; try lia; try discriminate.
    cbn [app]. rewrite S, P, skipn_all in B4. exact B4. }
  destruct NB as [NB TC]. destruct (read_tokens_total c BO _ [] _ NB (fits_size _)) as (r & b & q2 & RT & _). rewrite RT.
  rewrite (read_tokens_line_start c _ [] q (conj F (conj S P))).
  rewrite (read_tokens_fuel c (Datatypes.S (length (input (new_scanner (pending q))) + length (pending (new_scanner (pending q))))) (Datatypes.S (length (input q) + length (pending q))) _ _ _ ltac:(cbn; lia) RT). reflexivity.
Qed.
Lemma defn_more : forall s ts q l q1, legal_settings (ses_set s) -> between_tokens q -> defn s ts q = (l, q1) ->
  between_tokens q1 /\ (length (to_come q1) <= length (to_come q))%nat /\ (fin q1 = false -> fin q = false /\ defn s ts (more m q) = (l, more m q1)).
Proof using Type.
  intros s ts q l q1 LG B. unfold read_defn. cbv zeta.
  assert (G : forall x, (x, q) = (l, q1) -> between_tokens q1 /\ (length (to_come q1) <= length (to_come q))%nat /\ (fin q1 = false -> fin q = false /\ (x, more m q) = (l, more m q1))).
  { intros x [= <- <-]. split; [exact B|]. split; [lia|]. intros F. split; [exact F|reflexivity]. }
  destruct (rev ts) as [|k r]; [apply G|]. destruct k; try apply G.
  destruct (ParseModel.parse_tokens _ _ _ _ (rev r) []) as [x|fn0 fn b|x|]; try apply G. destruct b; try apply G. destruct (f_body fn); try apply G.
  destruct (define fn0 (ses_ctx s)) as [st1 [x| | |]]; try apply G.
  match goal with |- context[read_body ?b ?c ?d ?k q] => destruct (read_body b c d k q) as [ls q2] eqn:R;
    destruct (read_body_more c (legal_ibase s LG) m b d k (S (length (input (more m q)) + length (pending (more m q)))) q ls q2 B (fits_size q) (size_more m q) R) as (B2 & L2 & M2) end.
  intros [= <- <-]. split; [exact B2|]. split; [exact L2|]. intros F. destruct (M2 F) as [F1 X]. split; [exact F1|]. rewrite X. reflexivity.
Qed.
Lemma session_more : forall n s q r s1 q1, legal_settings (ses_set s) -> between_tokens q -> snext n s q = Some (r, s1, q1) ->
  between_tokens q1 /\ (length (to_come q1) < length (to_come q))%nat /\ (fin q1 = false -> fin q = false /\ snext n s (more m q) = Some (r, s1, more m q1)).
Proof using Type.
  intros n s q r s1 q1 LG B. unfold session_next. destruct (nline s q) as [rl q2] eqn:NL. destruct (line_ok s q rl q2 LG B NL) as [P M].
  destruct rl as [| | |args|ts|ts]; [discriminate| | | | |]; intros X.
  - injection X as <- <- <-. destruct (P ltac:(discriminate)) as [P1 P2]. split; [exact P1|]. split; [exact P2|]. intros F. destruct (M F) as [F1 Y]. split; [exact F1|]. rewrite Y by discriminate. reflexivity.
  - injection X as <- <- <-. destruct (P ltac:(discriminate)) as [P1 P2]. split; [exact P1|]. split; [exact P2|]. intros F. destruct (M F) as [F1 Y]. split; [exact F1|]. rewrite Y by discriminate. reflexivity.
  - assert (Q2 : q1 = q2) by (destruct (command _ _ _ _ _) as [s2 [u| | |]] in X; injection X as <- <- <-; reflexivity). subst q2.
    destruct (P ltac:(discriminate)) as [P1 P2]. split; [exact P1|]. split; [exact P2|]. intros F. destruct (M F) as [F1 Y]. split; [exact F1|]. rewrite Y by discriminate.
    destruct (command _ _ _ _ _) as [s2 [u| | |]] in X |- *; injection X as <- <- ; reflexivity.
  - destruct (defn s ts q2) as [l q3] eqn:D. destruct (P ltac:(discriminate)) as [P1 P2]. destruct (defn_more s ts q2 l q3 LG P1 D) as (D1 & D2 & D3).
    destruct (eval_line _ l (ses_ctx s)) as [st1 r1] eqn:EL. injection X as <- <- <-. split; [exact D1|]. split; [lia|]. intros F. destruct (D3 F) as [F2 Y]. destruct (M F2) as [F1 Z]. split; [exact F1|].
    rewrite Z by discriminate. rewrite Y, EL. reflexivity.
  - assert (Q2 : q1 = q2) by (destruct (eval_line _ _ _) as [st1 [vs| | |]] in X; [destruct (existsb _ vs) in X|..]; injection X as <- <- <-; reflexivity). subst q2.
    destruct (P ltac:(discriminate)) as [P1 P2]. split; [exact P1|]. split; [exact P2|]. intros F. destruct (M F) as [F1 Y]. split; [exact F1|]. rewrite Y by discriminate.
    destruct (eval_line _ _ _) as [st1 [vs| | |]] in X |- *; [destruct (existsb _ vs) in X |- *|..]; injection X as <- <-; reflexivity.
Qed.
Lemma session_at_start : forall n s q, legal_settings (ses_set s) -> line_start q -> between_tokens q -> snext n s q = snext n s (new_scanner (pending q)).
Proof using Type.
  intros n s q LG LS B. unfold session_next. destruct (line_at_start s q LG LS B) as [X|[X Y]]; [rewrite X; reflexivity|].
  destruct (nline s q) as [rl ?], (nline s (new_scanner (pending q))) as [rl2 ?]. cbn [fst] in *. subst. reflexivity.
Qed.
End Session.

(* Reading words, parentheses and whole lines with the scanner. *)
From Coq Require Import String.
From Verif Require Import Value ScanModel ScanSpec ScanProofs ScanLex ScanNext ScanForm TextModel TextSpec TextScan StrModel StrSpec StrProofs.
Open Scope string_scope.
Open Scope list_scope.
Open Scope Z_scope.

(* one token, read by lex_any from the beginning of the text *)
Definition emits (c : sctx) (ty : ttype) (t l : text) (sign : bool) : Prop :=
  forall v u, Inv v 0 u -> off u = 0%nat -> v = t ++ l -> (sign = true -> sign_ok c u) ->
  exists s1, lex_any c u = Emit ty s1 /\ Inv v 0 s1 /\ off s1 = length t.
Definition open_end (c : sctx) (t : text) : Prop := let r := List.last t 0 in is_alnum c r = false /\ r <> 41 /\ r <> 93.
Lemma next_emits : forall c ty t l sign s gap, emits c ty t l sign -> t <> [] -> is_space (hd 0 t) = false ->
  between_tokens s -> Forall blank gap -> to_come s = gap ++ t ++ l -> (gap = [] -> sign = true -> sign_ok c s) ->
  exists s', Next c s = Some (mkTok ty t, s') /\ to_come s' = l /\ between_tokens s' /\ (open_end c t -> sign_ok c s').
Proof.
  intros c ty t l sign s gap EM NE SP [K B] BG TC G. unfold Next. set (s0 := mkSc (input s) (pending s) (fin s) (pos s) (start s) eof 0).
  assert (I : Inv (unread s0) 0 s0).
  { apply inv_ok. split; [|reflexivity]. destruct K as (K1 & K2 & K3 & K4). repeat split; cbn; auto; lia. }
  destruct B as [B|B]; [|rewrite B in TC; destruct gap, t; (discriminate TC || contradiction)].
  assert (U : unread s0 = to_come s). { unfold unread, to_come, s0. cbn [start input pending]. rewrite B. reflexivity. }
  rewrite U in I. assert (O : off s0 = 0%nat) by (unfold off, s0; cbn; lia).
  assert (F : forall n u v, Inv v 0 u -> v = t ++ l -> off u = 0%nat -> (sign = true -> sign_ok c u) ->
    exists s', run_states c (S n) u = Some (mkTok ty t, s') /\ to_come s' = l /\ between_tokens s' /\ (open_end c t -> sign_ok c s')).
  { intros n u v Iu Vu Ou Gu. destruct (EM v u Iu Ou Vu Gu) as (s1 & A1 & A2 & A3). cbn [run_states]. rewrite A1.
    destruct (emit_text v s1 t l A2 Vu A3) as [E1 E2]. rewrite E1. destruct (past_ok _ _ _ A2) as (P1 & P2 & P3).
    eexists. split; [reflexivity|]. split; [exact (eq_trans P2 E2)|]. split; [exact P3|].
    intros OE. right. cbn [start input]. assert (LT : (0 < length t)%nat) by (destruct t; [contradiction|cbn; lia]).
    assert (nth (pos s1 - 1) (input s1) 0 = List.last t 0) as ->; [|exact OE].
    pose proof (i_sp _ _ _ A2). pose proof (i_pl _ _ _ A2). rewrite last_nth by (unfold off in A3; lia). rewrite E1, A3.
    destruct (exists_last NE) as (t' & x & ->). rewrite last_last, app_length. cbn [length]. rewrite app_nth2 by lia. replace (length t' + 1 - 1 - length t')%nat with 0%nat by lia. reflexivity. }
  destruct gap as [|g gap].
  - cbn [app] in TC. eapply F; eauto.
  - destruct (any_blank c (to_come s) s0 (g :: gap) (t ++ l) I O TC ltac:(discriminate) BG) as (s1 & A1 & A2 & A3 & A4).
    { destruct t; [contradiction|exact SP]. }
    cbn [run_states]. rewrite A1. eapply F; eauto.
Qed.

(* the characters that are tokens by themselves *)
Lemma emits_char : forall c ty r l, (r = 10 /\ ty = TNewline) \/ (r = 40 /\ ty = TLParen) \/ (r = 41 /\ ty = TRParen) \/ (r = 59 /\ ty = TSemi) \/ (r = 58 /\ ty = TColon) \/ (r = 91 /\ ty = TLBrack) \/ (r = 93 /\ ty = TRBrack) -> emits c ty [r] l false.
Proof.
  intros c ty r l H v u I O V _. pose proof (rest_off _ _ _ I) as R. rewrite O in R. cbn [skipn] in R. unfold lex_any.
  destruct (next u) as [r0 s1] eqn:E. destruct (next_spec _ _ _ _ _ I E) as (La & N). pattern v at 1 in R. rewrite V in R. cbn [app] in R. rewrite R in N. destruct N as (-> & Nx & I1 & R1 & O1 & T1 & W1).
  assert (I1' : Inv v 0 s1) by (apply inv_le with 1%nat; [exact I1|lia]).
  assert (O1' : off s1 = length [r]) by (cbn [length]; lia).
  destruct H as [[-> ->]|[[-> ->]|[[-> ->]|[[-> ->]|[[-> ->]|[[-> ->]|[-> ->]]]]]]]; try (exists s1; split; [reflexivity|split; assumption]).
  all: cbn -[is_operator is_alnum]; match goal with |- context [is_operator ?r ?q] => assert (is_operator r q = Some (false, set_pos q (pos q - 0))) as -> by reflexivity;
    rewrite Nat.sub_0_r; exists (set_pos q (pos q)); cbn; split; [reflexivity|]; replace (set_pos q (pos q)) with q by (destruct q; reflexivity); split; assumption end.
Qed.
Lemma emits_assign : forall c l, hd eof l <> 61 -> emits c TAssign [61] l false.
Proof.
  intros c l H v u I O V _. pose proof (rest_off _ _ _ I) as R. rewrite O in R. cbn [skipn] in R. unfold lex_any.
  destruct (next u) as [r0 s1] eqn:E. destruct (next_spec _ _ _ _ _ I E) as (La & N). pattern v at 1 in R. rewrite V in R. cbn [app] in R. rewrite R in N. destruct N as (-> & Nx & I1 & R1 & O1 & T1 & W1).
  assert (I1' : Inv v 0 s1) by (apply inv_le with 1%nat; [exact I1|lia]).
  cbn -[peek lex_operator opt_next next]. destruct (peek_hd v 0 s1 I1') as (s2 & -> & I2 & O2 & R2). rewrite R1.
  destruct (hd eof l =? 61) eqn:Q; [apply Z.eqb_eq in Q; contradiction|]. cbn [negb]. exists s2. split; [reflexivity|]. split; [exact I2|]. cbn [length]. lia.
Qed.
Lemma emits_number : forall c t l, legal_base (ibase c) -> no_digit_operators c -> number_text (ibase c) t -> number_end l -> emits c TNumber t l true.
Proof. intros c t l B ND T E v u I O V G. apply (any_number c B ND v u t l I O V T); auto. Qed.
Lemma emits_string : forall c q b l, quoted_body q b -> quote q -> emits c TString (q :: b ++ [q]) l false.
Proof. intros c q b l B Q v u I O V _. apply (any_string c v u q b l I O V B Q). Qed.

(* words *)
Definition word (c : sctx) (w : text) : Prop :=
  w <> [] /\ Forall (fun r => is_alnum c r = true) w /\ is_digit (hd 0 w) = false.
Lemma alnum_pos : forall c r, is_alnum c r = true -> 48 <= r \/ 128 <= r.
Proof. intros c r. unfold is_alnum, letter, digit. destruct (r <? 128) eqn:E; unfold ascii_letter, is_digit, between; lia. Qed.
Lemma alnum_spec : forall c r, is_alnum c r = true -> r = 95 \/ 48 <= r <= 57 \/ 65 <= r <= 90 \/ 97 <= r <= 122 \/ 128 <= r.
Proof. intros c r. unfold is_alnum, letter, digit. destruct (r <? 128) eqn:E; unfold ascii_letter, is_digit, between; lia. Qed.
Lemma mem_no : forall r l, Forall (fun x => x <> r) l -> mem r l = false.
Proof. intros r l F. unfold mem. induction F; [reflexivity|]. cbn. rewrite IHF. replace (r =? x) with false by lia. reflexivity. Qed.
Lemma any_word : forall c w l u v, word c w -> Inv v 0 u -> off u = 0%nat -> v = w ++ l ->
  exists s, lex_any c u = lex_identifier c s /\ Inv v 0 s /\ off s = 0%nat.
Proof.
  intros c w l u v (NE & F & D) I O V. pose proof (rest_off _ _ _ I) as R. rewrite O in R. cbn [skipn] in R. unfold lex_any.
  destruct w as [|x w]; [contradiction|]. pose proof (Forall_inv F) as A. cbn [hd] in D.
  destruct (next u) as [r0 s1] eqn:E. destruct (next_spec _ _ _ _ _ I E) as (La & N). destruct (next_backup _ _ _ _ _ I E) as (B1 & B2 & B3 & _).
  pattern v at 1 in R. rewrite V in R. cbn [app] in R. rewrite R in N. destruct N as (-> & Nx & I1 & R1 & O1 & T1 & W1).
  pose proof (alnum_spec c x A) as S.
  assert ((x =? eof) = false /\ (x =? nl) = false /\ (x =? 59) = false /\ (x =? 35) = false /\ is_space x = false /\ ((x =? 39) || (x =? 34)) = false /\
    (x =? 96) = false /\ ((x =? 45) || (x =? 43)) = false /\ ((x =? dot) || is_digit x) = false /\ (x =? 61) = false) as (-> & -> & -> & -> & -> & -> & -> & -> & -> & ->).
  { unfold eof, nl, is_space, dot. rewrite D. lia. }
  assert (is_operator x s1 = Some (false, set_pos s1 (pos s1 - 0))) as ->.
  { unfold is_operator. cbn [skip_ats]. assert ((x =? at_sign) = false) as -> by (unfold at_sign; lia).
    assert (is_operator_token x s1 = (false, s1)) as ->; [|reflexivity]. unfold is_operator_token.
    assert (mem x (zs "?+-/&|^") = false) as ->. { change (zs "?+-/&|^") with [63; 43; 45; 47; 38; 124; 94]. unfold mem. cbn [existsb]. lia. }
    assert ((x =? 44) = false /\ ((x =? 33) || (x =? 61)) = false /\ (x =? 62) = false /\ (x =? 60) = false /\ (x =? 42) = false) as (-> & -> & -> & -> & ->) by lia. reflexivity. }
  rewrite Nat.sub_0_r. replace (set_pos s1 (pos s1)) with s1 by (destruct s1; reflexivity). rewrite A. cbn [orb].
  exists (backup s1). split; [reflexivity|]. split; [exact B1|]. lia.
Qed.
(* up to the choice of the kind of word *)
Lemma word_read : forall c w l s v, word c w -> Inv v 0 s -> off s = 0%nat -> v = w ++ l -> stop (hd eof l) ->
  exists s5, Inv v 0 s5 /\ off s5 = length w /\ rest s5 = l /\ tok_text s5 = w /\
    lex_identifier c s =
      if teq w (zs "op") then Emit TOp s5
      else if teq w (zs "opdelete") then Emit TOpDelete s5
      else if teq w (zs "o") && (hd eof l =? dot) then lex_operator c s5
      else if defined c w then lex_operator c s5
      else if teq w [] || negb (Nat.eqb 0 0) then LErr s5
      else if all_digits w (ibase c) false then lex_complex c (set_pos s5 (start s5))
      else if user_unary c w then Emit TIdent s5
      else Emit TIdent (set_pos s5 (pos s5 - 0)).
Proof.
  intros c w l s v (NE & F & D) I O V S. pose proof (rest_off _ _ _ I) as R. rewrite O in R. cbn [skipn] in R. rewrite V in R.
  unfold lex_identifier.
  destruct (skip_while_spec v (Z.eqb at_sign) 0 s eq_refl I) as (s1 & -> & I1 & O1).
  assert (HA : is_alnum c (hd eof (rest s)) = true). { rewrite R. destruct w; [contradiction|]. exact (Forall_inv F). }
  rewrite span_none in O1 by (apply (no_at c), HA). rewrite Nat.add_0_r in O1.
  assert (R1 : rest s1 = w ++ l). { rewrite (rest_eq _ _ _ _ _ I I1 O1). exact R. }
  destruct (skip_while_spec v (is_alnum c) 0 s1 (alnum_eof c) I1) as (s2 & -> & I2 & O2).
  rewrite R1, span_app in O2 by (auto using not_alnum).
  assert (R2 : rest s2 = l). { rewrite (rest_at _ _ _ _ I2 O2), O1, O, V. cbn [Nat.add]. rewrite skipn_app, skipn_all, Nat.sub_diag. reflexivity. }
  destruct (stop_terminates c v 0 s2 I2) as (s3 & -> & I3 & O3 & R3); [rewrite R2; left; exact S|]. cbn [negb].
  destruct (skip_while_spec v (Z.eqb at_sign) 0 s3 eq_refl I3) as (s4 & -> & I4 & O4). rewrite R3, R2, span_none in O4 by (apply stop_no_at; left; exact S).
  cbv zeta. destruct (peek_hd v 0 s4 I4) as (s5 & P5 & I5 & O5 & R5). rewrite P5.
  replace (off s1 - off s)%nat with 0%nat by lia. replace (off s4 - off s3)%nat with 0%nat by lia. rewrite Nat.add_0_r, Nat.sub_0_r.
  change (slice s4 (start s4) (pos s4)) with (tok_text s4).
  assert (W : forall q, Inv v 0 q -> off q = length w -> tok_text q = w).
  { intros q Iq Oq. rewrite (tok_off _ _ _ Iq), Oq, V, firstn_app, firstn_all, Nat.sub_diag. cbn. apply app_nil_r. }
  assert (R4 : rest s4 = l). { rewrite (rest_eq _ _ _ _ _ I3 I4 ltac:(lia)), R3. exact R2. }
  exists s5. split; [exact I5|]. split; [lia|]. split; [rewrite R5; exact R4|]. split; [apply W; [exact I5|lia]|].
  rewrite (W s4 I4) by lia. rewrite R4. replace (pos s5 - 0)%nat with (pos s5) by lia. reflexivity.
Qed.
(* a name that is no operator and no number *)
Definition variable_word (c : sctx) (w : text) : Prop :=
  word c w /\ w <> zs "op" /\ w <> zs "opdelete" /\ defined c w = false /\ all_digits w (ibase c) false = false.
Lemma emits_variable : forall c w l, variable_word c w -> stop (hd eof l) -> emits c TIdent w l false.
Proof.
  intros c w l (W & N1 & N2 & D & A) S v u I O V _.
  destruct (any_word c w l u v W I O V) as (s & -> & I' & O'). destruct (word_read c w l s v W I' O' V S) as (s5 & I5 & O5 & R5 & T5 & ->).
  rewrite (teq_no w (zs "op")), (teq_no w (zs "opdelete")) by assumption.
  assert ((hd eof l =? dot) = false) as -> by (unfold stop, eof, dot in *; lia). rewrite andb_false_r, D, (teq_no w []) by apply W. cbn [Nat.eqb negb orb]. rewrite A.
  rewrite Nat.sub_0_r. replace (set_pos s5 (pos s5)) with s5 by (destruct s5; reflexivity). exists s5. destruct (user_unary c w); auto.
Qed.
(* the name of a built-in or user-defined binary operator that is spelled with letters *)
Definition operator_word (c : sctx) (w : text) : Prop :=
  word c w /\ w <> zs "op" /\ w <> zs "opdelete" /\ defined c w = true /\ is_identifier c w = true.
Lemma trim_word : forall c w, word c w -> trim w = w.
Proof.
  intros c w (NE & F & _). assert (T : forall w, Forall (fun r => is_alnum c r = true) w -> trim_ats w = w).
  { intros w' F'. destruct F' as [|x w' A F']; [reflexivity|]. cbn. pose proof (alnum_spec _ _ A). replace (x =? at_sign) with false by (unfold at_sign; lia). reflexivity. }
  unfold trim. rewrite (T w F), T by (apply Forall_rev, F). apply rev_involutive.
Qed.
Lemma emits_operator : forall c w l, operator_word c w -> stop (hd eof l) -> emits c TIdent w l false.
Proof.
  intros c w l (W & N1 & N2 & D & ID) S v u I O V _.
  destruct (any_word c w l u v W I O V) as (s & -> & I' & O'). destruct (word_read c w l s v W I' O' V S) as (s5 & I5 & O5 & R5 & T5 & ->).
  rewrite (teq_no w (zs "op")), (teq_no w (zs "opdelete")) by assumption.
  assert ((hd eof l =? dot) = false) as -> by (unfold stop, eof, dot in *; lia). rewrite andb_false_r, D.
  unfold lex_operator. destruct (skip_while_spec v (Z.eqb at_sign) 0 s5 eq_refl I5) as (s6 & -> & I6 & O6). rewrite R5, span_none in O6 by (apply stop_no_at; left; exact S).
  rewrite Nat.add_0_r in O6.
  assert (TT : forall q, Inv v 0 q -> off q = length w -> tok_text q = w).
  { intros q Iq Oq. rewrite (tok_off _ _ _ Iq), Oq, V, firstn_app, firstn_all, Nat.sub_diag. cbn. apply app_nil_r. }
  assert (EndOk : forall q, Inv v 0 q -> off q = length w -> exists s1, lex_operator_end c q = Emit TIdent s1 /\ Inv v 0 s1 /\ off s1 = length w).
  { intros q Iq Oq. exists q. unfold lex_operator_end. rewrite (TT q Iq Oq), ID. auto. }
  destruct (teq _ _ || _ || _); [|apply EndOk; [exact I6|lia]].
  destruct (peek_hd v 0 s6 I6) as (s7 & -> & I7 & O7 & R7). assert (R6 : rest s6 = l) by (rewrite (rest_eq _ _ _ _ _ I5 I6 O6); exact R5). rewrite R6.
  assert (((hd eof l =? 47) || (hd eof l =? 92)) = false /\ (hd eof l =? dot) = false) as [-> ->] by (unfold stop, eof, dot in *; lia).
  apply EndOk; [exact I7|lia].
Qed.

(* More text after a text: what the scanner does is the same until it meets the end. *)
From Coq Require Import String Lia ZifyBool.
From Verif Require Import Value ScanModel.
Open Scope string_scope.
Open Scope list_scope.
Open Scope Z_scope.

Section More.
Variable m : text.
Definition more (s : sc) : sc := mkSc (input s) (pending s ++ m) (fin s) (pos s) (start s) (last s) (width s).

Lemma take_line_more : forall p b r, take_line p = (b, r, false) -> take_line (p ++ m) = (b, r ++ m, false).
Proof using Type.
  induction p as [|c p IH]; intros b r; cbn [take_line app]; [discriminate|]. destruct (c =? nl); [intros [= <- <-]; reflexivity|].
  destruct (take_line p) as [[b' r'] d'] eqn:E. intros [= <- <- ->]. rewrite (IH _ _ eq_refl). reflexivity.
Qed.
Lemma load_more : forall s, fin (load_line s) = false -> fin s = false /\ load_line (more s) = more (load_line s).
Proof using Type.
  intros s. unfold load_line. cbn [more pending start pos fin input last width]. destruct (take_line (pending s)) as [[b r] d] eqn:E. intros F.
  assert (fin s = false /\ d = false) as [-> ->]. { destruct (Nat.eqb (start s) (pos s)) in F; cbn [fin] in F; apply orb_false_iff in F; exact F. }
  split; [reflexivity|]. rewrite (take_line_more _ _ _ E). destruct (Nat.eqb (start s) (pos s)); reflexivity.
Qed.
Lemma read_more : forall s r w s1, read_rune s = (r, w, s1) -> fin s1 = false -> fin s = false /\ read_rune (more s) = (r, w, more s1).
Proof using Type.
  intros s r w s1. unfold read_rune. cbn [more fin pos input]. destruct (negb (fin s) && Nat.eqb (pos s) (length (input s))) eqn:B; intros E F.
  - assert (X : fin (load_line s) = false) by (destruct (Nat.eqb _ _) in E; injection E as <- <- <-; exact F).
    destruct (load_more s X) as [A Y]. split; [exact A|]. fold (more s). rewrite Y. cbn [more fin pos input]. clear B.
    destruct (Nat.eqb (length (input (load_line s))) (pos (load_line s))); injection E as <- <- <-; reflexivity.
  - clear B. split; [destruct (Nat.eqb _ _) in E; injection E as <- <- <-; exact F|]. cbn [more fin pos input].
    destruct (Nat.eqb (length (input s)) (pos s)); injection E as <- <- <-; reflexivity.
Qed.
Lemma next_more : forall s r s1, next s = (r, s1) -> fin s1 = false -> fin s = false /\ next (more s) = (r, more s1).
Proof using Type.
  intros s r s1. unfold next. destruct (read_rune s) as [[r' w] s2] eqn:E. intros [= <- <-]. cbn [fin]. intros F.
  destruct (read_more _ _ _ _ E F) as [A B]. split; [exact A|]. rewrite B. reflexivity.
Qed.
Lemma peek_more : forall s r s1, peek s = (r, s1) -> fin s1 = false -> fin s = false /\ peek (more s) = (r, more s1).
Proof using Type.
  intros s r s1. unfold peek. destruct (read_rune s) as [[r' w] s2] eqn:E. intros [= <- <-]. intros F.
  destruct (read_more _ _ _ _ E F) as [A B]. split; [exact A|]. rewrite B. reflexivity.
Qed.
Lemma fin_wipe : forall s, fin (wipe s) = fin s. Proof using Type. reflexivity. Qed.
Lemma fin_set_pos : forall s p, fin (set_pos s p) = fin s. Proof using Type. reflexivity. Qed.
Lemma fin_backup : forall s, fin (backup s) = fin s.
Proof using Type. intros s. unfold backup. repeat match goal with |- context[if ?b then _ else _] => destruct b end; reflexivity. Qed.
Lemma backup_more : forall s, backup (more s) = more (backup s).
Proof using Type. intros s. unfold backup. cbn [more last pos start width]. repeat match goal with |- context[if ?b then _ else _] => destruct b end; reflexivity. Qed.
Lemma wipe_more : forall s, wipe (more s) = more (wipe s). Proof using Type. reflexivity. Qed.
Lemma set_pos_more : forall s p, set_pos (more s) p = more (set_pos s p). Proof using Type. reflexivity. Qed.
Lemma pos_more : forall s, pos (more s) = pos s. Proof using Type. reflexivity. Qed.
Lemma start_more : forall s, start (more s) = start s. Proof using Type. reflexivity. Qed.
Lemma input_more : forall s, input (more s) = input s. Proof using Type. reflexivity. Qed.
Lemma off_more : forall s, off (more s) = off s. Proof using Type. reflexivity. Qed.
Lemma tok_more : forall s, tok_text (more s) = tok_text s. Proof using Type. reflexivity. Qed.
Lemma slice_more : forall s a b, slice (more s) a b = slice s a b. Proof using Type. reflexivity. Qed.
Lemma room_more : forall s, (room s <= room (more s))%nat.
Proof using Type. intros s. unfold room. cbn [more input pos pending]. rewrite app_length. lia. Qed.

Hint Rewrite fin_wipe fin_set_pos fin_backup : fins.
Hint Rewrite backup_more wipe_more set_pos_more pos_more start_more input_more off_more tok_more slice_more : mores.
Lemma peek2_more : forall s r1 r2 s1, peek2 s = (r1, r2, s1) -> fin s1 = false -> fin s = false /\ peek2 (more s) = (r1, r2, more s1).
Proof using Type.
  intros s r1 r2 s1. unfold peek2. destruct (next s) as [x sx] eqn:E. destruct (x =? nl) eqn:N.
  - intros [= <- <- <-]. cbn [fin]. intros F. destruct (next_more _ _ _ E F) as [A B]. split; [exact A|]. rewrite B, N. reflexivity.
  - destruct (next sx) as [y sy] eqn:E2. intros [= <- <- <-]. cbn [fin]. intros F. destruct (next_more _ _ _ E2 F) as [A B]. destruct (next_more _ _ _ E A) as [A2 B2]. split; [exact A2|]. rewrite B2, N, B. reflexivity.
Qed.
Lemma accept_more : forall v s b s1, accept v s = (b, s1) -> fin s1 = false -> fin s = false /\ accept v (more s) = (b, more s1).
Proof using Type.
  intros v s b s1. unfold accept. destruct (next s) as [x sx] eqn:E. destruct (mem x v) eqn:M; intros [= <- <-]; intros F; autorewrite with fins in F;
  destruct (next_more _ _ _ E F) as [A B]; (split; [exact A|]); rewrite B, M; autorewrite with mores; reflexivity.
Qed.
Lemma next_while_more : forall P n n' s s1, (n <= n')%nat -> next_while P n s = Some s1 -> fin s1 = false -> fin s = false /\ next_while P n' (more s) = Some (more s1).
Proof using Type.
  intros P. induction n as [|n IH]; intros n' s s1 L; cbn [next_while]; [discriminate|]. destruct n' as [|n']; [lia|]. destruct (next s) as [x sx] eqn:E. destruct (P x) eqn:B.
  - intros H F. destruct (IH n' _ _ ltac:(lia) H F) as [A C]. destruct (next_more _ _ _ E A) as [A2 C2]. split; [exact A2|]. cbn [next_while]. rewrite C2, B. exact C.
  - intros [= <-] F. autorewrite with fins in F. destruct (next_more _ _ _ E F) as [A2 C2]. split; [exact A2|]. cbn [next_while]. rewrite C2, B. autorewrite with mores. reflexivity.
Qed.
Lemma peek_while_more : forall P n n' s s1, (n <= n')%nat -> peek_while P n s = Some s1 -> fin s1 = false -> fin s = false /\ peek_while P n' (more s) = Some (more s1).
Proof using Type.
  intros P. induction n as [|n IH]; intros n' s s1 L; cbn [peek_while]; [discriminate|]. destruct n' as [|n']; [lia|]. destruct (peek s) as [x sx] eqn:E. destruct (P x) eqn:B.
  - intros H F. destruct (next sx) as [y sy] eqn:E2. cbn [snd] in H. destruct (IH n' _ _ ltac:(lia) H F) as [A C]. destruct (next_more _ _ _ E2 A) as [A3 C3]. destruct (peek_more _ _ _ E A3) as [A2 C2].
    split; [exact A2|]. cbn [peek_while]. rewrite C2, B, C3. exact C.
  - intros [= <-] F. destruct (peek_more _ _ _ E F) as [A2 C2]. split; [exact A2|]. cbn [peek_while]. rewrite C2, B. reflexivity.
Qed.
Lemma accept_run_more : forall v s s1, accept_run v s = Some s1 -> fin s1 = false -> fin s = false /\ accept_run v (more s) = Some (more s1).
Proof using Type. intros v s s1. apply next_while_more. pose proof (room_more s). lia. Qed.
Lemma skip_while_more : forall P s s1, skip_while P s = Some s1 -> fin s1 = false -> fin s = false /\ skip_while P (more s) = Some (more s1).
Proof using Type. intros P s s1. apply peek_while_more. pose proof (room_more s). lia. Qed.
Lemma opt_next_more : forall r s b s1, opt_next r s = (b, s1) -> fin s1 = false -> fin s = false /\ opt_next r (more s) = (b, more s1).
Proof using Type.
  intros r s b s1. unfold opt_next. destruct (peek s) as [x sx] eqn:E. destruct (x =? r) eqn:B.
  - destruct (next sx) as [y sy] eqn:E2. intros [= <- <-] F. destruct (next_more _ _ _ E2 F) as [A3 C3]. destruct (peek_more _ _ _ E A3) as [A2 C2]. split; [exact A2|]. rewrite C2, B, C3. reflexivity.
  - intros [= <- <-] F. destruct (peek_more _ _ _ E F) as [A2 C2]. split; [exact A2|]. rewrite C2, B. reflexivity.
Qed.

(* The pattern of the rest: take what happens apart, go back from the last state, and do it again with more text. *)
Ltac apart H :=
  repeat match type of H with
  | context[match peek2 ?s with _ => _ end] => let E := fresh "E" in destruct (peek2 s) as [[? ?] ?] eqn:E
  | context[match skip_ats ?n ?r ?k ?s with _ => _ end] => let E := fresh "E" in destruct (skip_ats n r k s) as [[[? ?] ?]|] eqn:E
  | context[match ?f with pair _ _ => _ end] => let E := fresh "E" in destruct f as [? ?] eqn:E; try (injection E; clear E; intros; subst)
  | context[snd ?f] => let E := fresh "E" in destruct f as [? ?] eqn:E; cbn [snd] in H |- *
  | context[if ?b then _ else _] => let E := fresh "E" in destruct b eqn:E
  | context[match ?f with Some _ => _ | None => _ end] => let E := fresh "E" in destruct f as [?|] eqn:E
  end.
Lemma next_snd : forall s, fin (snd (next s)) = false -> fin s = false /\ next (more s) = (fst (next s), more (snd (next s))).
Proof using Type. intros s H. apply next_more; [destruct (next s); reflexivity|exact H]. Qed.
Lemma opt_next_snd : forall r s, fin (snd (opt_next r s)) = false -> fin s = false /\ opt_next r (more s) = (fst (opt_next r s), more (snd (opt_next r s))).
Proof using Type. intros r s H. apply opt_next_more; [destruct (opt_next r s); reflexivity|exact H]. Qed.
Lemma accept_snd : forall r s, fin (snd (accept r s)) = false -> fin s = false /\ accept r (more s) = (fst (accept r s), more (snd (accept r s))).
Proof using Type. intros r s H. apply accept_more; [destruct (accept r s); reflexivity|exact H]. Qed.
Ltac back1 := match goal with
  | F : fin (snd (next ?s)) = false |- _ => let X := fresh "X" in pose proof (next_snd _ F) as [? X]; clear F
  | F : fin (snd (opt_next ?r ?s)) = false |- _ => let X := fresh "X" in pose proof (opt_next_snd _ _ F) as [? X]; clear F
  | F : fin (snd (accept ?r ?s)) = false |- _ => let X := fresh "X" in pose proof (accept_snd _ _ F) as [? X]; clear F
  | H : fin (backup _) = false |- _ => rewrite fin_backup in H
  | H : fin (set_pos _ _) = false |- _ => rewrite fin_set_pos in H
  | E : next ?s = (_, ?s1), F : fin ?s1 = false |- _ => let X := fresh "X" in pose proof (next_more _ _ _ E F) as [? X]; clear E
  | E : peek ?s = (_, ?s1), F : fin ?s1 = false |- _ => let X := fresh "X" in pose proof (peek_more _ _ _ E F) as [? X]; clear E
  | E : peek2 ?s = (_, _, ?s1), F : fin ?s1 = false |- _ => let X := fresh "X" in pose proof (peek2_more _ _ _ _ E F) as [? X]; clear E
  | E : accept ?v ?s = (_, ?s1), F : fin ?s1 = false |- _ => let X := fresh "X" in pose proof (accept_more _ _ _ _ E F) as [? X]; clear E
  | E : opt_next ?v ?s = (_, ?s1), F : fin ?s1 = false |- _ => let X := fresh "X" in pose proof (opt_next_more _ _ _ _ E F) as [? X]; clear E
  | E : accept_run ?v ?s = Some ?s1, F : fin ?s1 = false |- _ => let X := fresh "X" in pose proof (accept_run_more _ _ _ E F) as [? X]; clear E
  | E : skip_while ?v ?s = Some ?s1, F : fin ?s1 = false |- _ => let X := fresh "X" in pose proof (skip_while_more _ _ _ E F) as [? X]; clear E
  end.
Ltac forth1 := match goal with X : ?a = ?b |- context[?a] => rewrite X end.
Ltac forth := repeat match goal with F : fin _ = false |- _ => clear F end; repeat (autorewrite with mores; first [forth1; cbv beta iota zeta; cbn [snd] | progress (cbv beta iota zeta; cbn [snd])]).

Lemma operator_token_more : forall r s b s1, is_operator_token r s = (b, s1) -> fin s1 = false -> fin s = false /\ is_operator_token r (more s) = (b, more s1).
Proof using Type.
  intros r s b s1 H F. unfold is_operator_token in *.
  apart H; injection H; intros; subst; repeat back1; (split; [assumption|]); forth; reflexivity.
Qed.
Lemma skip_ats_more : forall n n' r k s r' k' s1, (n <= n')%nat -> skip_ats n r k s = Some (r', k', s1) -> fin s1 = false -> fin s = false /\ skip_ats n' r k (more s) = Some (r', k', more s1).
Proof using Type.
  induction n as [|n IH]; intros n' r k s r' k' s1 L; cbn [skip_ats]; [discriminate|]. destruct n' as [|n']; [lia|]. destruct (r =? at_sign) eqn:B.
  - destruct (next s) as [x sx] eqn:E. intros H F. destruct (IH n' _ _ _ _ _ _ ltac:(lia) H F) as [A C]. destruct (next_more _ _ _ E A) as [A2 C2]. split; [exact A2|]. cbn [skip_ats]. rewrite B, C2. exact C.
  - intros [= <- <- <-] F. split; [exact F|]. cbn [skip_ats]. rewrite B. reflexivity.
Qed.
Lemma is_operator_more : forall r s b s1, is_operator r s = Some (b, s1) -> fin s1 = false -> fin s = false /\ is_operator r (more s) = Some (b, more s1).
Proof using Type.
  intros r s b s1 H F. unfold is_operator in *. destruct (skip_ats (S (S (room s))) r 0 s) as [[[r' k] s2]|] eqn:E; [|discriminate].
  destruct (is_operator_token r' s2) as [b2 s3] eqn:E2.
  assert (F3 : fin s3 = false). { destruct b2; [destruct (skip_while _ s3) eqn:E3; [injection H as <- <-; repeat back1; assumption|discriminate]|injection H as <- <-; exact F]. }
  destruct (operator_token_more _ _ _ _ E2 F3) as [A B]. pose proof (room_more s). destruct (skip_ats_more (S (S (room s))) (S (S (room (more s)))) _ _ _ _ _ _ ltac:(lia) E A) as [A2 B2].
  split; [exact A2|]. rewrite B2, B. destruct b2.
  - destruct (skip_while _ s3) eqn:E3; [|discriminate]. injection H as <- <-. repeat back1. forth. reflexivity.
  - injection H as <- <-. reflexivity.
Qed.

Variable c : sctx.
Lemma at_terminator_more : forall s b s1, at_terminator c s = (b, s1) -> fin s1 = false -> fin s = false /\ at_terminator c (more s) = (b, more s1).
Proof using Type.
  intros s b s1 H F. unfold at_terminator in *.
  apart H; injection H; intros; subst; repeat back1; (split; [assumption|]); forth; reflexivity.
Qed.
Definition fin_of (l : lexed) : bool := match l with Emit _ s | LErr s | LEof s | Again s => fin s | OutOfFuel => true end.
Definition more_of (l : lexed) : lexed := match l with Emit t s => Emit t (more s) | LErr s => LErr (more s) | LEof s => LEof (more s) | Again s => Again (more s) | OutOfFuel => OutOfFuel end.
Definition goes_on (f : sc -> lexed) : Prop := forall s, fin_of (f s) = false -> fin s = false /\ f (more s) = more_of (f s).
Lemma operator_end_more : goes_on (lex_operator_end c).
Proof using Type. intros s. unfold lex_operator_end. autorewrite with mores. destruct (is_identifier c (tok_text s)); cbn [fin_of more_of]; auto. Qed.
Ltac back2 := match goal with
  | E : is_operator_token ?v ?s = (_, ?s1), F : fin ?s1 = false |- _ => let X := fresh "X" in pose proof (operator_token_more _ _ _ _ E F) as [? X]; clear E
  | E : at_terminator c ?s = (_, ?s1), F : fin ?s1 = false |- _ => let X := fresh "X" in pose proof (at_terminator_more _ _ _ E F) as [? X]; clear E
  | E : next_while ?P (S (room ?s)) ?s = Some ?s1, F : fin ?s1 = false |- _ => let X := fresh "X" in
      pose proof (next_while_more _ _ (S (room (more s))) _ _ (le_n_S _ _ (room_more s)) E F) as [? X]; clear E
  | F : fin_of (lex_operator_end c ?s) = false |- _ => let X := fresh "X" in pose proof (operator_end_more s F) as [? X]; clear F
  | F : fin_of (Emit _ _) = false |- _ => cbn [fin_of] in F
  | F : fin_of (LErr _) = false |- _ => cbn [fin_of] in F
  | F : fin_of (LEof _) = false |- _ => cbn [fin_of] in F
  | F : fin_of (Again _) = false |- _ => cbn [fin_of] in F
  | F : fin_of OutOfFuel = false |- _ => discriminate F
  | _ => back1
  end.
Lemma lex_operator_more : goes_on (lex_operator c).
Proof using Type.
  intros s H. unfold lex_operator in *. apart H; repeat back2; (split; [assumption|]); forth; reflexivity.
Qed.
Definition number_prefix (s0 : sc) : text * sc :=
    if ibase c =? 0 then
      let '(z, s1) := accept (zs "0") s0 in
      if z then
        let '(b1, s2) := accept (zs "xX") s1 in if b1 then (digits_for 16, s2) else
        let '(b2, s3) := accept (zs "oO") s2 in if b2 then (digits_for 8, s3) else
        let '(b3, s4) := accept (zs "bB") s3 in if b3 then (digits_for 2, s4) else (digits_for (ibase c), s4)
      else (digits_for (ibase c), s1)
    else (digits_for (ibase c), s0).
Lemma prefix_more : forall s d s1, number_prefix s = (d, s1) -> fin s1 = false -> fin s = false /\ number_prefix (more s) = (d, more s1).
Proof using Type.
  intros s d s1 H F. unfold number_prefix in *. apart H; injection H; intros; subst; repeat back2; (split; [assumption|]); forth; reflexivity.
Qed.
Lemma scan_number_more : forall a b s x s1, scan_number c a b s = Some (x, s1) -> fin s1 = false -> fin s = false /\ scan_number c a b (more s) = Some (x, more s1).
Proof using Type.
  intros a b s x s1 H F. unfold scan_number in *. fold (number_prefix s) in H. fold (number_prefix (more s)). destruct (number_prefix s) as [d s2] eqn:P.
  assert (G : fin s2 = false).
  2: { destruct (prefix_more _ _ _ P G) as [A B]. split; [exact A|]. rewrite B. clear P B A.
    destruct (accept_run d s2) as [s3|] eqn:E1; [|discriminate]. destruct (accept [dot] s3) as [b1 s4] eqn:E2.
    destruct (if b1 then accept_run d s4 else Some s4) as [s5|] eqn:E3; [|discriminate].
    destruct (accept (zs "eEpP") s5) as [b2 s6] eqn:E4.
    destruct (if b2 then accept_run (zs "0123456789") (snd (accept (zs "+-") s6)) else Some s6) as [s7|] eqn:E5; [|discriminate].
    assert (F7 : fin s7 = false) by (clear E1 E2 E3 E4 E5; apart H; injection H; intros; subst; repeat back2; assumption).
    assert (X5 : fin s6 = false /\ (if b2 then accept_run (zs "0123456789") (snd (accept (zs "+-") (more s6))) else Some (more s6)) = Some (more s7)).
    { destruct b2; [|injection E5 as <-; auto]. repeat back2. split; [assumption|]. forth. reflexivity. }
    destruct X5 as [F6 X5]. destruct (accept_more _ _ _ _ E4 F6) as [F5 X4].
    assert (X3 : fin s4 = false /\ (if b1 then accept_run d (more s4) else Some (more s4)) = Some (more s5)).
    { destruct b1; [|injection E3 as <-; auto]. repeat back2. split; [assumption|]. forth. reflexivity. }
    destruct X3 as [F4 X3]. destruct (accept_more _ _ _ _ E2 F4) as [F3 X2]. destruct (accept_run_more _ _ _ E1 F3) as [_ X1].
    rewrite X1, X2, X3, X4, X5. clear - H F. apart H; injection H; intros; subst; repeat back2; forth; reflexivity. }
    destruct (accept_run d s2) as [s3|] eqn:E1; [|discriminate]. destruct (accept [dot] s3) as [b1 s4] eqn:E2.
    destruct (if b1 then accept_run d s4 else Some s4) as [s5|] eqn:E3; [|discriminate].
    destruct (accept (zs "eEpP") s5) as [b2 s6] eqn:E4.
    destruct (if b2 then accept_run (zs "0123456789") (snd (accept (zs "+-") s6)) else Some s6) as [s7|] eqn:E5; [|discriminate].
    assert (F7 : fin s7 = false) by (clear E1 E2 E3 E4 E5; apart H; injection H; intros; subst; repeat back2; assumption).
    assert (F6 : fin s6 = false) by (destruct b2; [|injection E5 as <-; auto]; repeat back2; assumption).
    destruct (accept_more _ _ _ _ E4 F6) as [F5 X4].
    assert (F4 : fin s4 = false) by (destruct b1; [|injection E3 as <-; auto]; repeat back2; assumption).
    repeat back2. assumption.
Qed.

Definition fin_acc (a : accepted) : bool := match a with NumOk s => fin s | NumFn l => fin_of l end.
Definition more_acc (a : accepted) : accepted := match a with NumOk s => NumOk (more s) | NumFn l => NumFn (more_of l) end.
Ltac back3 := match goal with
  | E : scan_number c _ _ ?s = Some (_, ?s1), F : fin ?s1 = false |- _ => let X := fresh "X" in pose proof (scan_number_more _ _ _ _ _ E F) as [? X]; clear E
  | F : fin_of (lex_operator c ?s) = false |- _ => let X := fresh "X" in pose proof (lex_operator_more s F) as [? X]; clear F
  | F : fin_acc (NumOk _) = false |- _ => cbn [fin_acc] in F
  | F : fin_acc (NumFn _) = false |- _ => cbn [fin_acc] in F
  | _ => back2
  end.
Lemma accept_unsigned_more : forall a s, fin_acc (accept_unsigned c a s) = false -> fin s = false /\ accept_unsigned c a (more s) = more_acc (accept_unsigned c a s).
Proof using Type.
  intros a s H. unfold accept_unsigned in *. destruct (scan_number c true a s) as [[b s2]|] eqn:E; [|discriminate].
  destruct b; [|repeat back3; split; [assumption|]; forth; reflexivity].
  destruct (peek s2) as [r s3] eqn:E2. destruct (negb (r =? 47)) eqn:E3; [repeat back3; split; [assumption|]; forth; reflexivity|].
  destruct (peek (snd (accept (zs "/") s3))) as [r' s5] eqn:E4. destruct (a && negb (r' =? dot) && negb (is_numeral c r')) eqn:E5; [repeat back3; split; [assumption|]; forth; reflexivity|].
  destruct (scan_number c false a s5) as [[b s6]|] eqn:E6; [|discriminate]. destruct b; [|repeat back3; split; [assumption|]; forth; reflexivity].
  destruct (peek s6) as [r'' s7] eqn:E7. destruct (r'' =? dot) eqn:E8; repeat back3; (split; [assumption|]); forth; reflexivity.
Qed.
Lemma accept_number_more : forall a s, fin_acc (accept_number c a s) = false -> fin s = false /\ accept_number c a (more s) = more_acc (accept_number c a s).
Proof using Type.
  intros a s H. unfold accept_number in *. destruct (accept (zs "+-") s) as [b s1] eqn:E. destruct (b && a) eqn:E1.
  - destruct (peek s1) as [r s2] eqn:E2. destruct ((r =? 47) || (r =? 92)) eqn:E3; [repeat back3; split; [assumption|]; forth; reflexivity|].
    destruct (negb (r =? dot) && negb (is_numeral c r)) eqn:E4; [repeat back3; split; [assumption|]; forth; reflexivity|].
    destruct (accept_unsigned_more _ _ H) as [A B]. repeat back3. split; [assumption|]. forth. reflexivity.
  - destruct (accept_unsigned_more _ _ H) as [A B]. repeat back3. split; [assumption|]. forth. reflexivity.
Qed.
Lemma lex_complex_more : goes_on (lex_complex c).
Proof using Type.
  intros s H. unfold lex_complex in *. pose proof (accept_number_more true s) as N. destruct (accept_number c true s) as [s1|l]; cbn [fin_acc more_acc] in N.
  - destruct (accept (zs "j") s1) as [j s2] eqn:E. destruct j; cbn [negb] in *.
    + pose proof (accept_number_more true s2) as N2. destruct (accept_number c true s2) as [s3|l]; cbn [fin_acc more_acc] in N2.
      * destruct (N2 H) as [A B]. repeat back3. destruct (N ltac:(assumption)) as [A1 B1]. split; [exact A1|]. forth. reflexivity.
      * destruct l as [t s3|s3|s3|s3|]; try discriminate H; destruct (N2 H) as [A B]; repeat back3; destruct (N ltac:(assumption)) as [A1 B1]; (split; [exact A1|]); forth; reflexivity.
    + repeat back3. destruct (N ltac:(assumption)) as [A1 B1]. split; [exact A1|]. forth. reflexivity.
  - destruct (N H) as [A B]. split; [exact A|]. rewrite B. reflexivity.
Qed.
Lemma lex_identifier_more : goes_on (lex_identifier c).
Proof using Type.
  intros s H. unfold lex_identifier in *. cbv zeta in *. destruct (skip_while (Z.eqb at_sign) s) as [s1|] eqn:E1; [|discriminate]. destruct (skip_while (is_alnum c) s1) as [s2|] eqn:E2; [|discriminate].
  destruct (at_terminator c s2) as [t s3] eqn:E3. destruct (negb t) eqn:E4; [repeat back3; split; [assumption|]; forth; reflexivity|].
  destruct (skip_while (Z.eqb at_sign) s3) as [s4|] eqn:E5; [|discriminate]. destruct (peek s4) as [r s5] eqn:E6.
  match type of H with fin_of ?l = false => assert (X : fin s5 = false /\ forall l', l' = more_of l -> l' = more_of l) end.
  { split; [|auto]. repeat match type of H with context[if ?b then _ else _] => destruct b end; try exact H; [exact (proj1 (lex_operator_more _ H))|exact (proj1 (lex_operator_more _ H))|exact (proj1 (lex_complex_more _ H))]. }
  destruct X as [X _]. repeat back3. split; [assumption|]. forth.
  repeat match goal with |- (if ?b then _ else _) = more_of (if ?b then _ else _) => destruct b end; try reflexivity.
  - exact (proj2 (lex_operator_more _ H)).
  - exact (proj2 (lex_operator_more _ H)).
  - exact (proj2 (lex_complex_more _ H)).
Qed.
Lemma quoted_more : forall q n n' s, (n <= n')%nat -> fin_of (quoted q n s) = false -> fin s = false /\ quoted q n' (more s) = more_of (quoted q n s).
Proof using Type.
  intros q. induction n as [|n IH]; intros n' s L H; [discriminate|]. destruct n' as [|n']; [lia|]. cbn [quoted] in *. destruct (next s) as [r s1] eqn:E. destruct (r =? 92) eqn:E1.
  - destruct (next s1) as [r2 s2] eqn:E2. destruct (negb (r2 =? eof) && negb (r2 =? nl)) eqn:E3.
    + destruct (IH n' _ ltac:(lia) H) as [A B]. repeat back3. split; [assumption|]. forth. reflexivity.
    + repeat back3. split; [assumption|]. forth. reflexivity.
  - destruct ((r =? eof) || (r =? nl)) eqn:E2; [repeat back3; split; [assumption|]; forth; reflexivity|]. destruct (r =? q) eqn:E3; [repeat back3; split; [assumption|]; forth; reflexivity|].
    destruct (IH n' _ ltac:(lia) H) as [A B]. repeat back3. split; [assumption|]. forth. reflexivity.
Qed.
Lemma raw_more : forall n n' s, (n <= n')%nat -> fin_of (raw_quoted n s) = false -> fin s = false /\ raw_quoted n' (more s) = more_of (raw_quoted n s).
Proof using Type.
  induction n as [|n IH]; intros n' s L H; [discriminate|]. destruct n' as [|n']; [lia|]. cbn [raw_quoted] in *. destruct (next s) as [r s1] eqn:E.
  destruct (r =? eof) eqn:E2; [repeat back3; split; [assumption|]; forth; reflexivity|]. destruct (r =? 96) eqn:E3; [repeat back3; split; [assumption|]; forth; reflexivity|].
  destruct (IH n' _ ltac:(lia) H) as [A B]. repeat back3. split; [assumption|]. forth. reflexivity.
Qed.
Ltac back4 := match goal with
  | F : fin_of (lex_complex c ?s) = false |- _ => let X := fresh "X" in pose proof (lex_complex_more s F) as [? X]; clear F
  | F : fin_of (lex_identifier c ?s) = false |- _ => let X := fresh "X" in pose proof (lex_identifier_more s F) as [? X]; clear F
  | F : fin_of (quoted ?q (S (room ?s)) ?s) = false |- _ => let X := fresh "X" in
      pose proof (quoted_more q _ (S (room (more s))) _ (le_n_S _ _ (room_more s)) F) as [? X]; clear F
  | F : fin_of (raw_quoted (S (room ?s)) ?s) = false |- _ => let X := fresh "X" in
      pose proof (raw_more _ (S (room (more s))) _ (le_n_S _ _ (room_more s)) F) as [? X]; clear F
  | E : is_operator ?v ?s = Some (_, ?s1), F : fin ?s1 = false |- _ => let X := fresh "X" in pose proof (is_operator_more _ _ _ _ E F) as [? X]; clear E
  | F : fin (mkSc _ _ _ _ _ _ _) = false |- _ => cbn [fin] in F
  | _ => back3
  end.
Lemma lex_any_more : goes_on (lex_any c).
Proof using Type.
  intros s H. unfold lex_any in *. destruct (next s) as [r s1] eqn:E.
  destruct (r =? eof) eqn:E1; [repeat back4; split; [assumption|]; forth; reflexivity|].
  destruct (r =? nl) eqn:E2; [repeat back4; split; [assumption|]; forth; reflexivity|].
  destruct (r =? 59) eqn:E3; [repeat back4; split; [assumption|]; forth; reflexivity|].
  destruct (r =? 35) eqn:E4; [destruct (next_while _ (S (room s1)) s1) as [s2|] eqn:W; [|discriminate]; repeat back4; split; [assumption|]; forth; reflexivity|].
  destruct (is_space r) eqn:E5; [destruct (skip_while is_space s1) as [s2|] eqn:W; [|discriminate]; repeat back4; split; [assumption|]; forth; reflexivity|].
  destruct ((r =? 39) || (r =? 34)) eqn:E6; [destruct (next (backup s1)) as [q s2] eqn:W; repeat back4; split; [assumption|]; forth; reflexivity|].
  destruct (r =? 96) eqn:E7; [repeat back4; split; [assumption|]; forth; reflexivity|].
  destruct ((r =? 45) || (r =? 43)) eqn:E8.
  { destruct (start s1) as [|b] eqn:ES; [repeat back4; split; [assumption|]; forth; reflexivity|]. cbv zeta in *.
    destruct (is_alnum c (List.nth b (input s1) 0) || (List.nth b (input s1) 0 =? 41) || (List.nth b (input s1) 0 =? 93)) eqn:E9; [repeat back4; split; [assumption|]; forth; reflexivity|].
    destruct (peek2 s1) as [[r1 r2] s2] eqn:EP. destruct ((r1 =? dot) && negb (is_numeral c r2)) eqn:EQ; repeat back4; (split; [assumption|]); forth; reflexivity. }
  destruct ((r =? dot) || is_digit r) eqn:E9; [repeat back4; split; [assumption|]; forth; reflexivity|].
  destruct (r =? 61) eqn:E10.
  { destruct (peek s1) as [r1 s2] eqn:EP. destruct (negb (r1 =? 61)) eqn:EQ; repeat back4; (split; [assumption|]); forth; reflexivity. }
  destruct (is_operator r s1) as [[b s2]|] eqn:EO; [|discriminate]. destruct b; [repeat back4; split; [assumption|]; forth; reflexivity|].
  repeat match type of H with context[if ?b then _ else _] => let X := fresh "B" in destruct b eqn:X end; repeat back4; (split; [assumption|]); forth; reflexivity.
Qed.
Lemma run_states_more : forall n n' s t s1, (n <= n')%nat -> run_states c n s = Some (t, s1) -> fin s1 = false -> fin s = false /\ run_states c n' (more s) = Some (t, more s1).
Proof using Type.
  induction n as [|n IH]; intros n' s t s1 L; cbn [run_states]; [discriminate|]. destruct n' as [|n']; [lia|]. cbn [run_states]. pose proof (lex_any_more s) as A. destruct (lex_any c s) as [k s2|s2|s2|s2|] eqn:E; cbn [fin_of more_of] in A.
  - intros [= <- <-]. cbn [fin]. intros F. destruct (A F) as [B C]. split; [exact B|]. rewrite C. reflexivity.
  - intros [= <- <-]. rewrite fin_wipe. intros F. destruct (A F) as [B C]. split; [exact B|]. rewrite C. reflexivity.
  - intros [= <- <-] F. destruct (A F) as [B C]. split; [exact B|]. rewrite C. reflexivity.
  - intros H F. destruct (IH n' _ _ _ ltac:(lia) H F) as [B C]. destruct (A B) as [B2 C2]. split; [exact B2|]. rewrite C2. exact C.
  - discriminate.
Qed.
Lemma Next_more : forall s t s1, Next c s = Some (t, s1) -> fin s1 = false -> fin s = false /\ Next c (more s) = Some (t, more s1).
Proof using Type.
  intros s t s1 H F. unfold Next in *. pose proof (room_more s).
  destruct (run_states_more _ (S (S (room (more s)))) _ _ _ ltac:(apply le_n_S, le_n_S; eassumption) H F) as [A B]. split; [exact A|exact B].
Qed.
Lemma read_tokens_more : forall n n' acc s r b s1, (n <= n')%nat -> read_tokens c n acc s = Some (r, b, s1) -> fin s1 = false -> fin s = false /\ read_tokens c n' acc (more s) = Some (r, b, more s1).
Proof using Type.
  induction n as [|n IH]; intros n' acc s r b s1 L; cbn [read_tokens]; [discriminate|]. destruct n' as [|n']; [lia|]. cbn [read_tokens].
  destruct (Next c s) as [[t s2]|] eqn:E; [|discriminate]. pose proof (Next_more _ _ _ E) as A.
  destruct (t_type t) eqn:T; try (intros [= <- <- <-] F; destruct (A F) as [B C]; split; [exact B|]; rewrite C, T; reflexivity);
  intros H F; (assert (X : fin s2 = false) by (eapply (IH n'); [lia|exact H|exact F])); destruct (A X) as [B C]; (split; [exact B|]); rewrite C, T; apply (IH n' _ _ _ _ _ ltac:(lia) H F).
Qed.
End More.

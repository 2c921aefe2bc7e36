(* Names in every base, alone and after a sign. *)
From Coq Require Import String.
From Verif Require Import Value ScanModel ScanSpec ScanProofs ScanLex ScanNext ScanForm TextModel TextSpec TextScan StrModel StrSpec StrProofs ReadScan.
Open Scope string_scope.
Open Scope list_scope.
Open Scope Z_scope.

Lemma beyond_all_digits : forall b w j, Exists (beyond b) w -> all_digits w b j = false.
Proof.
  intros b w j E. revert j. induction E as [r w H|r w E IH]; intros j; cbn [all_digits].
  - destruct H as (H1 & H2 & H3 & H4). replace (r =? 106) with false by lia. cbn [andb].
    replace (between 48 r 57 || between 97 r (97 + (b - 10) - 1) || between 65 r (65 + (b - 10) - 1)) with false by (unfold between; lia). reflexivity.
  - destruct ((r =? 106) && negb j); [apply IH|]. destruct (between 48 r 57 || _ || _); [apply IH|reflexivity].
Qed.
Lemma two_js_all_digits : forall b x y z, b <= 19 -> all_digits (x ++ 106 :: y ++ 106 :: z) b false = false.
Proof.
  intros b x y z L. assert (T : forall t, all_digits (t ++ 106 :: z) b true = false).
  { induction t as [|r t IH]; cbn [app all_digits].
    - cbn [negb]. rewrite andb_false_r. replace (between 48 106 57 || _ || _) with false by (unfold between; lia). reflexivity.
    - rewrite andb_false_r. destruct (between 48 r 57 || _ || _); [exact IH|reflexivity]. }
  induction x as [|r x IH]; cbn [app all_digits].
  - rewrite Z.eqb_refl. cbn [andb negb]. apply T.
  - destruct ((r =? 106) && negb false).
    + clear IH. change (x ++ 106 :: y ++ 106 :: z) with (x ++ (106 :: y) ++ 106 :: z). rewrite app_assoc. apply T.
    + destruct (between 48 r 57 || _ || _); [exact IH|reflexivity].
Qed.
Lemma named_variable : forall c w, name_text c w -> variable_word c w.
Proof.
  intros c w (NE & F & D & N1 & N2 & DF & E). split; [|split; [exact N1|split; [exact N2|split; [exact DF|]]]].
  - split; [exact NE|]. split; [exact F|]. destruct w as [|x w]; [contradiction|]. cbn [hd] in *. unfold is_digit, between. lia.
  - apply beyond_all_digits, E.
Qed.

(* a sign followed by a character that begins no number, and by one more *)
Lemma emits_sign : forall c sg r x l, sg = 43 \/ sg = 45 -> is_alnum c r = true -> is_numeral c r = false ->
  emits c TOperator [sg] (r :: x :: l) false.
Proof.
  intros c sg r x l SG A NN v u I O V _. pose proof (rest_off _ _ _ I) as R. rewrite O in R. cbn [skipn] in R.
  pattern v at 1 in R. rewrite V in R. cbn [app] in R.
  assert (NAt : (at_sign =? r) = false) by (apply (no_at c), A). pose proof (alnum_spec c r A) as AS.
  assert (OPR : forall s, Inv v 0 s -> off s = 1%nat -> exists s1, lex_operator c s = Emit TOperator s1 /\ Inv v 0 s1 /\ off s1 = 1%nat).
  { intros s Is Os. assert (Rs : rest s = r :: x :: l) by (rewrite (rest_at _ _ _ _ Is Os); pattern v at 1; rewrite V; reflexivity).
    unfold lex_operator. destruct (skip_while_spec v (Z.eqb at_sign) 0 s eq_refl Is) as (s1 & -> & I1 & O1).
    rewrite Rs, span_none in O1 by exact NAt. rewrite Nat.add_0_r in O1.
    assert (T : forall q, Inv v 0 q -> off q = 1%nat -> exists s1, lex_operator_end c q = Emit TOperator s1 /\ Inv v 0 s1 /\ off s1 = 1%nat).
    { intros q Iq Oq. exists q. split; [|split; assumption]. unfold lex_operator_end.
      assert (tok_text q = [sg]) as -> by (rewrite (tok_off _ _ _ Iq), Oq; pattern v at 1; rewrite V; reflexivity). destruct SG as [-> | ->]; reflexivity. }
    cbv zeta. destruct (teq (tok_text s1) (zs "o") || binary_op c (trim (tok_text s1)) || user_binary c (trim (tok_text s1))); [|apply T; [exact I1|lia]].
    destruct (peek_hd v 0 s1 I1) as (s2 & -> & I2 & O2 & R2).
    assert (R1 : rest s1 = r :: x :: l) by (rewrite (rest_eq _ _ _ _ _ Is I1 O1); exact Rs). rewrite R1. cbn [hd].
    assert ((r =? 47) = false /\ (r =? 92) = false /\ (r =? dot) = false) as (-> & -> & ->) by (unfold dot; lia). cbn [orb]. apply T; [exact I2|lia]. }
  assert (CX : forall s, Inv v 0 s -> off s = 0%nat -> exists s1, lex_complex c s = Emit TOperator s1 /\ Inv v 0 s1 /\ off s1 = 1%nat).
  { intros s Is Os. assert (Rs : rest s = sg :: r :: x :: l) by (rewrite (rest_at _ _ _ _ Is Os); pattern v at 1; rewrite V; reflexivity).
    unfold lex_complex, accept_number. destruct (accept_hd v 0 s (zs "+-") Is) as (s1 & -> & I1 & O1 & R1); [rewrite zs_pm; unfold eof; cbn; lia|].
    rewrite Rs in *. cbn [hd tl] in *. assert (M : mem sg (zs "+-") = true) by (destruct SG as [-> | ->]; reflexivity). rewrite M in *. cbn [andb].
    destruct (peek_hd v 0 s1 I1) as (s2 & -> & I2 & O2 & R2). rewrite R1. cbn [hd].
    assert ((r =? 47) = false /\ (r =? 92) = false /\ (r =? dot) = false) as (-> & -> & ->) by (unfold dot; lia). rewrite NN. cbn [orb negb andb].
    destruct (OPR s2 I2 ltac:(lia)) as (s3 & -> & ?). exists s3. auto. }
  cbn [length]. unfold lex_any. destruct (next u) as [r0 s1] eqn:E. destruct (next_spec _ _ _ _ _ I E) as (La & N). destruct (next_backup _ _ _ _ _ I E) as (B1 & B2 & B3 & _).
  rewrite R in N. destruct N as (-> & Nx & I1 & R1 & O1 & T1 & W1).
  assert ((sg =? eof) = false /\ (sg =? nl) = false /\ (sg =? 59) = false /\ (sg =? 35) = false /\ is_space sg = false /\ ((sg =? 39) || (sg =? 34)) = false /\ (sg =? 96) = false /\ ((sg =? 45) || (sg =? 43)) = true) as (-> & -> & -> & -> & -> & -> & -> & ->)
    by (unfold eof, nl, is_space; lia).
  assert (I1' : Inv v 0 s1) by (apply inv_le with 1%nat; [exact I1|lia]).
  destruct (start s1) as [|b]; [apply CX; [exact B1|lia]|]. cbv zeta.
  destruct (is_alnum c (List.nth b (input s1) 0) || _ || _); [apply OPR; [exact I1'|lia]|].
  destruct (peek2 s1) as [[r1 r2] s2] eqn:E2. assert (OP : (0 < off s1)%nat) by lia.
  destruct (peek2_spec _ _ _ _ _ _ I1 (or_introl OP) E2) as (I2 & O2 & W2 & L2). rewrite R1 in L2. destruct L2 as (-> & Nr & L2 & _).
  destruct (L2 ltac:(unfold nl; lia)) as (-> & L3). assert ((r =? dot) = false) as -> by (unfold dot; lia). cbn [andb hd] in *.
  assert (Nxx : 0 <= x). { pose proof (i_nn _ _ _ I1) as F. rewrite V in F. cbn [app] in F. exact (Forall_inv (Forall_inv_tail (Forall_inv_tail F))). }
  pose proof (backup_inv _ _ _ I2) as I3. apply CX; [exact I3|]. unfold backup. rewrite L3.
  replace (x =? eof) with false by (unfold eof; lia). pose proof (i_sp _ _ _ I2). unfold off in *.
  destruct (Nat.eqb (pos s2) (start s2)) eqn:Q1; [apply Nat.eqb_eq in Q1; lia|].
  destruct (Nat.ltb (start s2) (pos s2)) eqn:Q2; [|apply Nat.ltb_ge in Q2; lia]. cbn [pos start set_pos]. lia.
Qed.

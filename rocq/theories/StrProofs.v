(* Strings in source form are scanned as one token and read back. *)
From Coq Require Import String.
From Verif Require Import Value NumModel ScanModel ScanSpec ScanProofs ScanLex ScanNext ScanForm StrModel StrSpec TextScan.
Open Scope string_scope.
Open Scope list_scope.
Open Scope Z_scope.

Lemma valid_point : forall r, code_point r -> valid_rune r = true.
Proof. intros r [H1 H2]. unfold valid_rune, between. lia. Qed.
Lemma unhex_char : forall d, 0 <= d < 16 -> unhex (hex_char d) = Some d.
Proof.
  intros d H. unfold hex_char, unhex, between. destruct (d <? 10) eqn:E.
  - replace ((48 <=? 48 + d) && (48 + d <=? 57)) with true by lia. f_equal. lia.
  - replace ((48 <=? 87 + d) && (87 + d <=? 57)) with false by lia. replace ((97 <=? 87 + d) && (87 + d <=? 102)) with true by lia. f_equal. lia.
Qed.
Lemma read_hex_gen : forall m z v k acc, 0 <= z < 16 ^ Z.of_nat m -> read_hex (m + k) v (hex m z acc) = read_hex k (v * 16 ^ Z.of_nat m + z) acc.
Proof.
  induction m as [|m IH]; intros z v k acc H.
  - cbn [hex Nat.add]. change (16 ^ Z.of_nat 0) with 1 in *. f_equal. lia.
  - rewrite Nat2Z.inj_succ, Z.pow_succ_r in H by lia. cbn [hex]. replace (S m + k)%nat with (m + S k)%nat by lia.
    pose proof (Z.div_mod z 16 ltac:(lia)) as D. pose proof (Z.mod_pos_bound z 16 ltac:(lia)) as B.
    rewrite IH by (split; [apply Z.div_pos; lia|apply Z.div_lt_upper_bound; lia]).
    cbn [read_hex]. rewrite unhex_char by exact B. f_equal. rewrite Nat2Z.inj_succ, Z.pow_succ_r by lia. lia.
Qed.
Lemma hex_app : forall m z acc s, hex m z acc ++ s = hex m z (acc ++ s).
Proof. induction m; intros z acc s; [reflexivity|]. cbn [hex]. rewrite IHm. reflexivity. Qed.
Lemma read_hex_hex : forall m z s, 0 <= z < 16 ^ Z.of_nat m -> read_hex m 0 (hex m z [] ++ s) = Some (z, s).
Proof.
  intros m z s H. rewrite hex_app. cbn [app]. pose proof (read_hex_gen m z 0 0 s H) as G. rewrite Nat.add_0_r in G. rewrite G. cbn [read_hex]. do 2 f_equal. 
Qed.
Definition hexdigit (r : Z) : Prop := 48 <= r <= 57 \/ 97 <= r <= 102.
Lemma hex_digits : forall m z acc, Forall hexdigit acc -> Forall hexdigit (hex m z acc).
Proof.
  induction m; intros z acc F; [exact F|]. cbn [hex]. apply IHm. constructor; [|exact F]. pose proof (Z.mod_pos_bound z 16 ltac:(lia)). unfold hex_char, hexdigit. destruct (z mod 16 <? 10) eqn:E; lia.
Qed.

(* the text of one character *)
Definition quote (q : Z) : Prop := q = 34 \/ q = 39.
Definition piece (q : Z) (p : text) (r : Z) : Prop :=
  (forall b, quoted_body q b -> quoted_body q (p ++ b)) /\
  (forall s, unquote_char q (p ++ s) = Some (Rune r, s) \/ unquote_char q (p ++ s) = Some (Byte r, s) /\ r < 128) /\
  (p = [r] /\ r <> 92 /\ r <> q \/ hd 0 p = 92) /\ Forall (fun x => 0 <= x /\ x <> 13 /\ x <> 10) p.
Lemma body_digits : forall q d b, quote q -> Forall hexdigit d -> quoted_body q b -> quoted_body q (d ++ b).
Proof.
  intros q d b Q D B. induction D as [|x d X D IH]; [exact B|]. cbn [app quoted_body]. unfold hexdigit, quote, nl in *.
  destruct (x =? 92) eqn:E; [lia|]. split; [lia|]. split; [lia|exact IH].
Qed.
Lemma piece_hex : forall q c m r, quote q -> code_point r -> 0 <= r < 16 ^ Z.of_nat m ->
  (c = 120 /\ m = 2%nat /\ r < 128) \/ (c = 117 /\ m = 4%nat) \/ (c = 85 /\ m = 8%nat) -> piece q (92 :: c :: hex m r []) r.
Proof.
  intros q c m r Q C R K. assert (CN : c <> nl) by (unfold nl; lia). pose proof (hex_digits m r [] (Forall_nil _)) as D. split; [|split; [|split]].
  - intros b B. cbn [app quoted_body]. change (92 =? 92) with true. cbv iota. split; [exact CN|]. apply body_digits; assumption.
  - intros s. assert (Q92 : (92 =? q) = false) by (unfold quote in Q; lia).
    destruct K as [(-> & -> & K)|[(-> & ->)|(-> & ->)]]; unfold unquote_char; cbn [app]; rewrite Q92; cbn [negb Z.eqb Pos.eqb orb]; rewrite read_hex_hex by exact R.
    + right. auto.
    + rewrite valid_point by exact C. auto.
    + rewrite valid_point by exact C. auto.
  - right. reflexivity.
  - constructor; [lia|]. constructor; [unfold nl in CN; lia|]. eapply Forall_impl; [|exact D]. unfold hexdigit. intros. cbn. lia.
Qed.
Lemma piece_letter : forall q r e, quote q -> letter_escape r = Some e -> piece q [92; e] r.
Proof.
  intros q r e Q L. assert (Q92 : (92 =? q) = false) by (unfold quote in Q; lia).
  assert (LE : (r = 7 /\ e = 97) \/ (r = 8 /\ e = 98) \/ (r = 12 /\ e = 102) \/ (r = 10 /\ e = 110) \/ (r = 13 /\ e = 114) \/ (r = 9 /\ e = 116) \/ (r = 11 /\ e = 118)).
  { unfold letter_escape in L. repeat match type of L with context [if ?b then _ else _] => destruct b eqn:?; [injection L as <-; lia|] end. discriminate L. }
  split; [|split; [|split]].
  - intros b B. cbn [app quoted_body]. change (92 =? 92) with true. cbv iota. split; [unfold nl; lia|exact B].
  - intros s. left. unfold unquote_char. cbn [app]. rewrite Q92. destruct LE as [[-> ->]|[[-> ->]|[[-> ->]|[[-> ->]|[[-> ->]|[[-> ->]|[-> ->]]]]]]]; reflexivity.
  - right. reflexivity.
  - constructor; [lia|]. constructor; [lia|constructor].
Qed.
Lemma piece_self : forall q r, quote q -> r = q \/ r = 92 -> piece q [92; r] r.
Proof.
  intros q r Q R. assert (Q92 : (92 =? q) = false) by (unfold quote in Q; lia).
  split; [|split; [|split]].
  - intros b B. cbn [app quoted_body]. change (92 =? 92) with true. cbv iota. split; [unfold nl, quote in *; lia|exact B].
  - intros s. left. unfold unquote_char. cbn [app]. rewrite Q92. destruct R as [-> | ->]; [|reflexivity]. destruct Q as [-> | ->]; reflexivity.
  - right. reflexivity.
  - unfold quote in Q. constructor; [lia|]. constructor; [lia|constructor].
Qed.
Lemma piece_raw : forall q r, quote q -> 0 <= r -> r <> q -> r <> 92 -> r <> 10 -> r <> 13 -> piece q [r] r.
Proof.
  intros q r Q R N1 N2 N3 N4. assert ((r =? q) = false /\ (r =? 92) = false) as [E1 E2] by lia. split; [|split; [|split]].
  - intros b B. cbn [app quoted_body]. rewrite E2. auto.
  - intros s. left. unfold unquote_char. cbn [app]. rewrite E1, E2. reflexivity.
  - left. auto.
  - constructor; [lia|constructor].
Qed.
Section Print.
Variable u_print : Z -> bool.
Lemma prog_piece : forall r, code_point r -> piece 39 (prog_char u_print r) r.
Proof.
  intros r C. unfold prog_char. destruct ((r =? 92) || (r =? 39)) eqn:E; [apply piece_self; [right; reflexivity|lia]|].
  destruct (letter_escape r) as [e|] eqn:L; [apply piece_letter; [right; reflexivity|exact L]|].
  assert (r <> 10 /\ r <> 13) as [N1 N2] by (split; intros ->; discriminate L).
  destruct (is_print u_print r); [apply piece_raw; auto; [right; reflexivity|apply C|lia|lia]|]. destruct C as [C1 C2].
  destruct (r <=? 65535) eqn:B; apply piece_hex; try (right; reflexivity); try (split; assumption); try (change (16 ^ Z.of_nat 4) with 65536; lia); try (change (16 ^ Z.of_nat 8) with 4294967296; lia); auto.
Qed.
Lemma escaped_piece : forall q r, quote q -> code_point r -> piece q (escaped u_print q r) r.
Proof.
  intros q r Q C. unfold escaped. destruct ((r =? q) || (r =? 92)) eqn:E; [apply piece_self; [exact Q|lia]|].
  destruct (is_print u_print r) eqn:IP.
  - unfold is_print, between in IP. destruct (r <? 128) eqn:R; apply piece_raw; auto; try lia; apply C.
  - destruct (letter_escape r) as [e|] eqn:L; [apply piece_letter; assumption|].
    rewrite valid_point by exact C. cbv zeta.
    assert (H2 : 0 <= r < 16 ^ Z.of_nat 8) by (destruct C; change (16 ^ Z.of_nat 8) with 4294967296; lia).
    destruct ((r <? 32) || (r =? 127)) eqn:B2; [apply piece_hex; auto; [change (16 ^ Z.of_nat 2) with 256; lia|left; repeat split; lia]|].
    destruct (r <? 65536) eqn:B; [apply piece_hex; auto; change (16 ^ Z.of_nat 4) with 65536; lia|]. apply piece_hex; auto.
Qed.
End Print.

(* a whole string *)
Section Pieces.
Variables (q : Z) (f : Z -> text).
Hypothesis Q : quote q.
Hypothesis pc : forall r, code_point r -> piece q (f r) r.
Lemma pieces_body : forall l, Forall code_point l -> quoted_body q (flat_map f l).
Proof. intros l F. induction F as [|r l C F IH]; [exact Logic.I|]. cbn [flat_map]. apply (pc r C), IH. Qed.
Lemma pieces_chars : forall l, Forall code_point l -> Forall (fun x => 0 <= x /\ x <> 13 /\ x <> 10) (flat_map f l).
Proof. intros l F. induction F as [|r l C F IH]; [constructor|]. cbn [flat_map]. apply Forall_app; split; [apply (pc r C)|exact IH]. Qed.
Lemma pieces_loop : forall l n, Forall code_point l -> (length (flat_map f l) <= n)%nat -> unquote_loop n q (flat_map f l) = Ok l.
Proof.
  intros l n F. revert n. induction F as [|r l C F IH]; intros n L; [destruct n; reflexivity|]. cbn [flat_map] in *.
  destruct (pc r C) as (_ & P2 & P3 & _). specialize (P2 (flat_map f l)). rewrite app_length in L.
  assert (NE : f r <> []) by (destruct P3 as [(-> & _)|P3]; [discriminate|intros X; rewrite X in P3; discriminate P3]).
  assert (LN : (1 <= length (f r))%nat) by (destruct (f r); [contradiction|cbn; lia]).
  destruct n as [|n]; [lia|]. cbn [unquote_loop]. destruct (f r ++ flat_map f l) as [|y z] eqn:E; [destruct (f r); [contradiction|discriminate E]|]. rewrite <-E in *.
  destruct P2 as [-> |[-> P2]]; [|replace (r <? 128) with true by lia]; rewrite IH by lia; reflexivity.
Qed.
Lemma pieces_trivial : forall l, Forall code_point l -> mem 92 (flat_map f l) = false -> flat_map f l = l.
Proof.
  intros l F. induction F as [|r l C F IH]; intros M; [reflexivity|]. cbn [flat_map] in *. unfold mem in M. rewrite existsb_app in M. apply orb_false_iff in M. destruct M as [M1 M2].
  rewrite IH by exact M2. destruct (pc r C) as (_ & _ & [(P3 & _)|P3] & _); [rewrite P3; reflexivity|]. destruct (f r) as [|y z]; [discriminate P3|]. cbn in P3, M1. subst y. discriminate M1.
Qed.
Lemma pieces_parse : forall l, Forall code_point l -> parse_string (q :: flat_map f l ++ [q]) = Ok l.
Proof.
  intros l F. unfold parse_string. set (b := flat_map f l) in *. cbn [tl hd]. assert (Nat.ltb (length (q :: b ++ [q])) 2 = false) as -> by (apply Nat.ltb_ge; cbn [length]; rewrite app_length; cbn [length]; lia).
  rewrite removelast_last. assert (HL : List.last (q :: b ++ [q]) 0 = q) by (rewrite app_comm_cons, last_last; reflexivity). rewrite HL, Z.eqb_refl. cbn [negb].
  replace (q =? 96) with false by (unfold quote in Q; lia). replace ((q =? 34) || (q =? 39)) with true by (unfold quote in Q; lia). cbn [negb].
  assert (M10 : mem 10 b = false). { apply TextProofs.mem_no. eapply Forall_impl; [|apply pieces_chars, F]. cbn. tauto. }
  rewrite M10. destruct (mem 92 b) eqn:M92; cbn [negb andb]; [apply pieces_loop; [exact F|fold b; lia]|].
  pose proof (pieces_trivial l F M92) as T. destruct (mem q b); cbn [negb]; [apply pieces_loop; [exact F|fold b; lia]|]. unfold b. rewrite T. reflexivity.
Qed.
End Pieces.

(* scanning a string *)
Lemma quoted_scan : forall v q m b n k s l, (length b <= m)%nat -> Inv v k s -> (length b < n)%nat -> rest s = b ++ q :: l -> quoted_body q b -> quote q -> Forall (fun x => 0 <= x) b ->
  exists s', quoted q n s = Emit TString s' /\ Inv v k s' /\ off s' = (off s + length b + 1)%nat.
Proof.
  intros v q. induction m as [|m IH]; intros b n k s l Lm I Ln R B Q P.
  - destruct b; [|cbn in Lm; lia]. destruct n as [|n]; [cbn in Ln; lia|]. cbn [quoted]. destruct (next s) as [r s1] eqn:E. destruct (next_spec _ _ _ _ _ I E) as (_ & H). rewrite R in H. cbn [app] in H.
    destruct H as (-> & Nr & I1 & R1 & O1 & _). assert ((q =? 92) = false /\ ((q =? eof) || (q =? nl)) = false) as [-> ->] by (unfold quote, eof, nl in *; lia). rewrite Z.eqb_refl.
    exists s1. split; [reflexivity|]. split; [apply inv_le with (S k); [exact I1|lia]|cbn; lia].
  - destruct b as [|x b]; [apply (IH [] n k s l); auto; cbn; lia|]. destruct n as [|n]; [cbn in Ln; lia|]. cbn [quoted]. destruct (next s) as [r s1] eqn:E. destruct (next_spec _ _ _ _ _ I E) as (_ & H). rewrite R in H. cbn [app] in H.
    destruct H as (-> & Nr & I1 & R1 & O1 & _). cbn [quoted_body] in B. cbn [length] in *. inversion P as [|? ? P1 P2]; subst. destruct (x =? 92) eqn:X.
    + destruct b as [|y b]; [contradiction|]. destruct B as [B1 B2]. destruct (next s1) as [r2 s2] eqn:E2. destruct (next_spec _ _ _ _ _ I1 E2) as (_ & H). rewrite R1 in H. cbn [app] in H.
      destruct H as (-> & Ny & I2 & R2 & O2 & _). assert ((y =? eof) = false) as -> by (unfold eof; lia). assert ((y =? nl) = false) as -> by lia. cbn [negb andb].
      inversion P2; subst. destruct (IH b n (S (S k)) s2 l) as (s' & A1 & A2 & A3); auto; try (cbn [length] in *; lia).
      exists s'. split; [exact A1|]. split; [apply inv_le with (S (S k)); [exact A2|lia]|]. cbn [length] in *. lia.
    + destruct B as (B1 & B2 & B3). assert ((x =? eof) = false) as -> by (unfold eof; lia). assert ((x =? nl) = false) as -> by lia. cbn [orb]. assert ((x =? q) = false) as -> by lia.
      destruct (IH b n (S k) s1 l) as (s' & A1 & A2 & A3); auto; try lia. exists s'. split; [exact A1|]. split; [apply inv_le with (S k); [exact A2|lia]|]. lia.
Qed.
Lemma any_string : forall c v s q b l, Inv v 0 s -> off s = 0%nat -> v = (q :: b ++ [q]) ++ l -> quoted_body q b -> quote q ->
  exists s', lex_any c s = Emit TString s' /\ Inv v 0 s' /\ off s' = length (q :: b ++ [q]).
Proof.
  intros c v s q b l I O V B Q. pose proof (rest_off _ _ _ I) as R. rewrite O in R. cbn [skipn] in R.
  assert (V' : v = q :: b ++ q :: l) by (rewrite V; cbn [app]; rewrite <-app_assoc; reflexivity).
  assert (P : Forall (fun x => 0 <= x) b). { pose proof (i_nn _ _ _ I) as N. rewrite V' in N. apply Forall_inv_tail in N. apply Forall_app in N. apply N. }
  unfold lex_any. destruct (next s) as [r s1] eqn:E. destruct (next_spec _ _ _ _ _ I E) as (La & H).
  destruct (next_backup _ _ _ _ _ I E) as (B1 & B2 & B3 & _). rewrite R in B2. pattern v at 1 in R. rewrite V' in R.
  destruct (rest s) as [|x l0] eqn:Rs; [discriminate R|]. injection R as -> ->. destruct H as (-> & Nx & I1 & R1 & O1 & T1 & W1).
  assert ((q =? eof) = false /\ (q =? nl) = false /\ (q =? 59) = false /\ (q =? 35) = false /\ is_space q = false /\ ((q =? 39) || (q =? 34)) = true) as (-> & -> & -> & -> & -> & ->)
    by (unfold quote, eof, nl, is_space in *; lia).
  destruct (next (backup s1)) as [q' s2] eqn:E2. destruct (next_spec _ _ _ _ _ B1 E2) as (_ & H2). rewrite B2 in H2. pattern v at 1 in B2. rewrite V' in B2. 
  destruct (rest (backup s1)) as [|x l0] eqn:Rb; [discriminate B2|]. injection B2 as -> ->.
  pattern v at 1 in H2. rewrite V' in H2. cbv beta in H2. destruct H2 as (-> & _ & I2 & R2 & O2 & _).
  destruct (quoted_scan v q (length b) b (S (room s2)) 1 s2 l) as (s' & A1 & A2 & A3); auto.
  - pose proof (left_room s2). unfold left in *. assert (length (rest s2) = length (b ++ q :: l)) by (f_equal; exact R2). rewrite app_length in *. cbn [length] in *. lia.
  - exists s'. split; [exact A1|]. split; [apply inv_le with 1%nat; [exact A2|lia]|]. cbn [length]. rewrite app_length. cbn [length]. lia.
Qed.
Theorem next_string : forall c s gap q b l, 0 <= ibase c <= 36 -> between_tokens s -> Forall blank gap -> to_come s = gap ++ (q :: b ++ [q]) ++ l -> quoted_body q b -> quote q ->
  exists s', Next c s = Some (mkTok TString (q :: b ++ [q]), s') /\ to_come s' = l /\ between_tokens s'.
Proof.
  intros c s gap q b l BC [K B] BG TC QB Q. unfold Next. set (s0 := mkSc (input s) (pending s) (fin s) (pos s) (start s) eof 0). set (t := q :: b ++ [q]) in *.
  assert (I : Inv (unread s0) 0 s0).
  { apply inv_ok. split; [|reflexivity]. destruct K as (K1 & K2 & K3 & K4). repeat split; cbn; auto; lia. }
  destruct B as [B|B]; [|rewrite B in TC; destruct gap; discriminate TC].
  assert (U : unread s0 = to_come s). { unfold unread, to_come, s0. cbn [start input pending]. rewrite B. reflexivity. }
  rewrite U in I. assert (O : off s0 = 0%nat) by (unfold off, s0; cbn; lia).
  assert (F : forall n u v, Inv v 0 u -> v = t ++ l -> off u = 0%nat ->
    exists s', run_states c (S n) u = Some (mkTok TString t, s') /\ to_come s' = l /\ between_tokens s').
  { intros n u v Iu Vu Ou. destruct (any_string c v u q b l Iu Ou Vu QB Q) as (s1 & A1 & A2 & A3). cbn [run_states]. rewrite A1.
    destruct (emit_text v s1 t l A2 Vu A3) as [E1 E2]. rewrite E1. destruct (past_ok _ _ _ A2) as (P1 & P2 & P3).
    eexists. split; [reflexivity|]. split; [exact (eq_trans P2 E2)|exact P3]. }
  destruct gap as [|g gap].
  - cbn [app] in TC. eapply F; eauto.
  - destruct (any_blank c (to_come s) s0 (g :: gap) (t ++ l) I O TC ltac:(discriminate) BG) as (s1 & A1 & A2 & A3 & A4).
    { unfold t. cbn. unfold quote, is_space in *. lia. }
    cbn [run_states]. rewrite A1. eapply F; eauto.
Qed.

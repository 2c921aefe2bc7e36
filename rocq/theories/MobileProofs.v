(* Proofs for C114. *)
From Coq Require Import String Lia ZifyBool.
From Verif Require Import Value Syntax ExecModel ScanModel ScanSpec ScanNext ScanMore TextModel TextSpec CmdModel CmdSpec CmdProofs CmdMore MobileModel MobileSpec.
From Verif Require DemoModel.
Open Scope string_scope.
Open Scope list_scope.
Open Scope Z_scope.

(* ---- escaping ---- *)
Lemma escape_one_cases : forall r, (r = 32 /\ escape_one r = [160]) \/ (r = 9 /\ escape_one r = [32; 32; 32; 32]) \/ (r = 92 /\ escape_one r = zs "&#92;") \/ (r <> 32 /\ r <> 9 /\ r <> 92 /\ escape_one r = [r]).
Proof.
  intros r. unfold escape_one. destruct (Z.eqb_spec r 32); [left; auto|]. destruct (Z.eqb_spec r 9); [right; left; auto|]. destruct (Z.eqb_spec r 92); [right; right; left; auto|]. right. right. right. auto.
Qed.
Lemma escape_app : forall a b, escape (a ++ b) = escape a ++ escape b.
Proof. intros. unfold escape. apply flat_map_app. Qed.
Lemma escape_clean : forall t, ~ In 9 (escape t) /\ ~ In 92 (escape t).
Proof.
  induction t as [|r t [A B]]; [cbn; tauto|]. cbn [escape flat_map]. fold (escape t). rewrite !in_app_iff.
  destruct (escape_one_cases r) as [(-> & ->)|[(-> & ->)|[(-> & ->)|(N1 & N2 & N3 & ->)]]]; cbn; intuition lia.
Qed.
Lemma escape_inj : forall a b, unambiguous a -> unambiguous b -> escape a = escape b -> a = b.
Proof.
  induction a as [|x a IH]; intros b (A1 & A2) (B1 & B2).
  - destruct b as [|y b]; [reflexivity|]. cbn [escape flat_map]. intros H. exfalso. destruct (escape_one_cases y) as [(-> & X)|[(-> & X)|[(-> & X)|(_ & _ & _ & X)]]]; rewrite X in H; discriminate.
  - destruct b as [|y b]; [intros H; exfalso; cbn [escape flat_map] in H; destruct (escape_one_cases x) as [(-> & X)|[(-> & X)|[(-> & X)|(_ & _ & _ & X)]]]; rewrite X in H; discriminate|].
    cbn [In] in A1, A2, B1, B2. assert (IH' : escape a = escape b -> a = b) by (apply IH; split; tauto).
    cbn [escape flat_map]. fold (escape a) (escape b).
    destruct (escape_one_cases x) as [(-> & X)|[(-> & X)|[(-> & X)|(N1 & N2 & N3 & X)]]], (escape_one_cases y) as [(-> & Y)|[(-> & Y)|[(-> & Y)|(M1 & M2 & M3 & Y)]]];
    rewrite X, ?Y; cbn [app zs]; intros H; try (f_equal; apply IH'; congruence); try discriminate H; try (injection H as -> H; f_equal; apply IH'; exact H); exfalso.
    all: try (injection H as H; subst; tauto).
    all: try (injection H as H _; cbn in H; subst; cbn in *; tauto).
Qed.

(* ---- texts in pieces ---- *)
Section S.
Variable u_print : Z -> bool.
Variables letters digits puncts symbols : Z -> bool.
Variables bu bb : string -> bool.
Variable E : settings -> env.
Variables const_e const_pi : Z -> value.
Notation snext := (session_next u_print letters digits puncts symbols bu bb E const_e const_pi).
Notation stext := (session_text u_print letters digits puncts symbols bu bb E const_e const_pi).
Notation run := (ivy u_print letters digits puncts symbols bu bb E const_e const_pi).

Lemma text_prefix : forall K n s q rs s1 q1, stext K n s q = (rs, s1, q1) -> stext (length rs) n s q = (rs, s1, q1) /\ (length rs <= K)%nat.
Proof using Type.
  induction K as [|K IH]; intros n s q rs s1 q1; cbn [session_text]; [intros [= <- <- <-]; split; [reflexivity|cbn; lia]|].
  destruct (snext n s q) as [[[r s2] q2]|] eqn:N; [|intros [= <- <- <-]; split; [reflexivity|cbn; lia]].
  destruct (stext K n s2 q2) as [[rs2 s3] q3] eqn:T. intros [= <- <- <-]. destruct (IH _ _ _ _ _ _ T) as [A B]. cbn [length session_text]. rewrite N, A. split; [reflexivity|lia].
Qed.
Lemma text_enough : forall K K' n s q rs s1 q1, stext K n s q = (rs, s1, q1) -> (length rs < K)%nat -> (length rs < K')%nat -> stext K' n s q = (rs, s1, q1).
Proof using Type.
  induction K as [|K IH]; intros K' n s q rs s1 q1 T L L'; [lia|]. destruct K' as [|K']; [lia|]. cbn [session_text] in *.
  destruct (snext n s q) as [[[r s2] q2]|] eqn:N; [|exact T].
  destruct (stext K n s2 q2) as [[rs2 s3] q3] eqn:T2. injection T as <- <- <-. cbn [length] in *. rewrite (IH K' _ _ _ _ _ _ T2) by lia. reflexivity.
Qed.
Lemma text_short : forall K n s q rs s1 q1, legal_settings (ses_set s) -> between_tokens q -> stext K n s q = (rs, s1, q1) ->
  between_tokens q1 /\ (length rs + length (to_come q1) <= length (to_come q))%nat.
Proof using Type.
  induction K as [|K IH]; intros n s q rs s1 q1 LG B; cbn [session_text]; [intros [= <- <- <-]; split; [exact B|cbn; lia]|].
  destruct (snext n s q) as [[[r s2] q2]|] eqn:N; [|intros [= <- <- <-]; split; [exact B|cbn; lia]].
  destruct (stext K n s2 q2) as [[rs2 s3] q3] eqn:T. intros [= <- <- <-]. destruct (session_more _ _ _ _ _ _ _ _ _ _ [] _ _ _ _ _ _ LG B N) as (B2 & L2 & _).
  destruct (IH _ _ _ _ _ _ (next_legal _ _ _ _ _ _ _ _ _ _ _ _ _ _ _ _ LG N) B2 T) as [A1 A2]. split; [exact A1|]. cbn [length]. lia.
Qed.
Lemma text_more : forall m rs n s q s1 q1, legal_settings (ses_set s) -> between_tokens q -> stext (length rs) n s q = (rs, s1, q1) -> fin q1 = false ->
  fin q = false /\ stext (length rs) n s (more m q) = (rs, s1, more m q1).
Proof using Type.
  intros m. induction rs as [|r rs IH]; intros n s q s1 q1 LG B; cbn [length session_text]; [intros [= <- <-] F; split; [exact F|reflexivity]|].
  destruct (snext n s q) as [[[r' s2] q2]|] eqn:N; [|discriminate].
  destruct (stext (length rs) n s2 q2) as [[rs2 s3] q3] eqn:T. intros [= -> -> <- <-] F. destruct (session_more _ _ _ _ _ _ _ _ _ _ m _ _ _ _ _ _ LG B N) as (B2 & L2 & M).
  destruct (IH _ _ _ _ _ (next_legal _ _ _ _ _ _ _ _ _ _ _ _ _ _ _ _ LG N) B2 T F) as [F2 X]. destruct (M F2) as [F1 Y]. split; [exact F1|]. rewrite Y, X. reflexivity.
Qed.
Lemma text_app : forall rs j n s q s1 q1 rs2 s2 q2, stext (length rs) n s q = (rs, s1, q1) -> stext j n s1 q1 = (rs2, s2, q2) -> stext (length rs + j) n s q = (rs ++ rs2, s2, q2).
Proof using Type.
  induction rs as [|r rs IH]; intros j n s q s1 q1 rs2 s2 q2; cbn [length session_text Nat.add]; [intros [= <- <-] H; exact H|].
  destruct (snext n s q) as [[[r' s3] q3]|] eqn:N; [|discriminate]. destruct (stext (length rs) n s3 q3) as [[rs3 s4] q4] eqn:T. intros [= -> -> <- <-] H.
  rewrite (IH _ _ _ _ _ _ _ _ _ T H). reflexivity.
Qed.
Lemma in_pieces : forall n s a b rs1 s1 q1 rs2 s2 q2, legal_settings (ses_set s) -> Forall (fun r => 0 <= r) (a ++ b) ->
  run n s a = (rs1, s1, q1) -> used_up q1 -> run n s1 b = (rs2, s2, q2) ->
  exists q, run n s (a ++ b) = (rs1 ++ rs2, s2, q) /\ (used_up q2 -> used_up q).
Proof using Type.
  intros n s a b rs1 s1 q1 rs2 s2 q2 LG CP R1 (U1 & U2 & U3 & U4) R2. unfold ivy in *. apply Forall_app in CP. destruct CP as [CA CB].
  destruct (new_between a CA) as [BA TA]. destruct (new_between b CB) as [BB TB].
  assert (LN : forall t, (length (nocr t) <= length t)%nat). { induction t as [|x t IHt]; [cbn; lia|]. unfold nocr in *. cbn [filter]. destruct (negb (x =? 13)); cbn [length]; lia. }
  pose proof (text_short _ _ _ _ _ _ _ LG BA R1) as [B1 L1]. rewrite TA in L1. pose proof (LN a).
  destruct (text_prefix _ _ _ _ _ _ _ R1) as [P1 _]. destruct (text_more b _ _ _ _ _ _ LG BA P1 U1) as [_ M1].
  change (more b (new_scanner a)) with (new_scanner (a ++ b)) in M1.
  assert (LG1 : legal_settings (ses_set s1)) by (exact (text_legal _ _ _ _ _ _ _ _ _ _ _ _ _ _ _ _ _ LG R1)).
  pose proof (text_short _ _ _ _ _ _ _ LG1 BB R2) as [B2 L2]. rewrite TB in L2. pose proof (LN b).
  assert (LS : line_start (more b q1)) by (split; [exact U1|split; [exact U3|exact U4]]).
  assert (BM : between_tokens (more b q1)).
  { destruct B1 as [(K1 & K2 & K3 & K4) _]. split; [|left; exact U3]. unfold scanner_ok, unread in *. cbn [more start pos input fin pending width]. repeat split; try lia; [congruence|].
    rewrite U2 in *. cbn [app]. rewrite Forall_app in K4 |- *. split; [apply K4|]. destruct BB as [(_ & _ & _ & K) _]. exact K. }
  assert (PD : pending (more b q1) = b) by (cbn [more pending]; rewrite U2; reflexivity).
  assert (ST : exists q, stext (S (length b)) n s1 (more b q1) = (rs2, s2, q) /\ (used_up q2 -> used_up q)).
  { cbn [session_text] in R2 |- *. rewrite (session_at_start _ _ _ _ _ _ _ _ _ _ n s1 (more b q1) LG1 LS BM), PD.
    destruct (snext n s1 (new_scanner b)) as [[[r s3] q3]|]; [exists q2; split; [exact R2|auto]|]. injection R2 as <- <- <-. eexists. split; [reflexivity|].
    intros (_ & V & _). cbn [new_scanner pending] in V. subst b. split; [exact U1|]. split; [exact PD|]. split; [exact U3|exact U4]. }
  destruct ST as (q & ST & UQ). exists q. split; [|exact UQ]. apply (text_enough (length rs1 + S (length b))); [exact (text_app _ _ _ _ _ _ _ _ _ _ M1 ST)| |]; rewrite !app_length; lia.
Qed.
Lemma ended_line : forall l, ~ In nl l -> ended l = l ++ [nl].
Proof using Type.
  intros l N. unfold ended. destruct (rev l) as [|r k] eqn:R; [apply (f_equal (@rev Z)) in R; rewrite rev_involutive in R; subst; reflexivity|].
  destruct (Z.eqb_spec r nl) as [-> |]; [|reflexivity]. exfalso. apply N. rewrite in_rev, R. left. reflexivity.
Qed.
Lemma by_line : forall lines n s rss s1, legal_settings (ses_set s) -> Forall (fun l => ~ In nl l /\ Forall (fun r => 0 <= r) l) lines ->
  whole_lines u_print letters digits puncts symbols bu bb E const_e const_pi n s lines -> next_each u_print letters digits puncts symbols bu bb E const_e const_pi n s lines = (rss, s1) ->
  exists q, run n s (concat (map (fun l => l ++ [nl]) lines)) = (concat rss, s1, q) /\ used_up q.
Proof using Type.
  induction lines as [|l lines IH]; intros n s rss s1 LG F W H.
  - cbn [next_each] in H. injection H as <- <-. cbn [map concat]. unfold ivy. cbn [length session_text].
    assert (X : snext n s (new_scanner []) = None) by reflexivity. rewrite X. exists (new_scanner []). split; [reflexivity|]. repeat split.
  - inversion F as [|? ? [N P] F']; subst. cbn [whole_lines next_each] in *. unfold eval in H. rewrite ended_line in H by exact N. cbn [map concat].
    destruct (run n s (l ++ [nl])) as [[rs s2] q] eqn:R. destruct W as [U W]. destruct (next_each _ _ _ _ _ _ _ _ _ _ n s2 lines) as [rs' s3] eqn:H2. injection H as <- <-.
    assert (LG2 : legal_settings (ses_set s2)) by (exact (text_legal _ _ _ _ _ _ _ _ _ _ _ _ _ _ _ _ _ LG R)).
    destruct (IH n s2 rs' s3 LG2 F' W H2) as (q2 & R2 & U2).
    destruct (in_pieces n s (l ++ [nl]) (concat (map (fun l0 => l0 ++ [nl]) lines)) rs s2 q (concat rs') s3 q2 LG) as (q3 & R3 & U3); [|exact R|exact U|exact R2|].
    + rewrite !Forall_app. split; [split; [exact P|constructor; [unfold nl; lia|constructor]]|]. clear - F'. induction F' as [|l0 ls [_ P] _ IHF]; [constructor|]. cbn [map concat]. rewrite !Forall_app. split; [split; [exact P|constructor; [unfold nl; lia|constructor]]|exact IHF].
    + exists q3. split; [exact R3|exact (U3 U2)].
Qed.
End S.

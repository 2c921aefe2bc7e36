(* The decimal digits of a float. *)
From Coq Require Import QArith Qabs Qpower Lqa Lia ZifyBool.
From Verif Require Import Value ScanModel TextModel TextSpec TextProofs TextNum FloatModel FloatProofs FloatMono FloatSign TimeModel FmtModel FmtSpec FmtProofs FmtText FTextModel FTextSpec FTextProofs.
Open Scope list_scope.
Open Scope Z_scope.

Lemma shift_spec f : forall q, (0 < q)%Q -> (q < 1)%Q -> (1 <= q * inject_Z 10 ^ Z.of_nat f)%Q ->
  (q * inject_Z 10 ^ shift f q < 1)%Q /\ (1 <= q * inject_Z 10 ^ (shift f q + 1))%Q /\ 0 <= shift f q.
Proof.
  induction f as [|f IH]; intros q H0 H1 H; cbn [shift].
  - change (inject_Z 10 ^ Z.of_nat 0)%Q with 1%Q in H. lra.
  - destruct (Qle_bool 1 (q * 10)) eqn:E.
    + apply Qle_bool_iff in E. change (inject_Z 10 ^ 0)%Q with 1%Q. change (inject_Z 10 ^ (0 + 1))%Q with 10%Q. split; [lra|]. split; [lra|lia].
    + assert (q * 10 < 1)%Q as L. { destruct (Qlt_le_dec (q * 10) 1) as [A|A]; [exact A|]. apply Qle_bool_iff in A. congruence. }
      pose proof (Qred_correct (q * 10)) as R. destruct (IH (Qred (q * 10))) as (A & B & C).
      * rewrite R. lra.
      * rewrite R. exact L.
      * rewrite R. rewrite Nat2Z.inj_succ, <- Z.add_1_r, T_add in H. change (inject_Z 10 ^ 1)%Q with 10%Q in H. lra.
      * set (s := shift f (Qred (q * 10))) in *. rewrite R in A, B. rewrite T_add in B.
        rewrite (T_add (1 + s) 1), (T_add 1 s). change (inject_Z 10 ^ 1)%Q with 10%Q in *. split; [lra|]. split; [lra|lia].
Qed.
Lemma q_floor q : (inject_Z (Qnum q / Zpos (Qden q)) <= q)%Q /\ (q < inject_Z (Qnum q / Zpos (Qden q) + 1))%Q.
Proof.
  destruct q as [n d]. cbn [Qnum Qden]. pose proof (Z.div_mod n (Zpos d) ltac:(lia)). pose proof (Z.mod_pos_bound n (Zpos d) ltac:(lia)).
  unfold Qle, Qlt, inject_Z. cbn [Qnum Qden]. nia.
Qed.
Lemma len_range k : 0 < k -> 10 ^ (Z.of_nat (length (format_nat 10 k)) - 1) <= k < 10 ^ Z.of_nat (length (format_nat 10 k)) /\ 0 < Z.of_nat (length (format_nat 10 k)).
Proof.
  intros H. destruct (format_nat_digits k ltac:(lia)) as [D NE]. pose proof (head_not_zero k H) as Hd. pose proof (format_nat_whole k ltac:(lia)) as W.
  destruct (format_nat 10 k) as [|c r]; [contradiction|]. cbn [hd] in Hd. pose proof (whole_lower c r D Hd) as L. pose proof (whole_upper _ D) as U. rewrite W in *.
  cbn [length] in *. replace (Z.of_nat (S (length r)) - 1) with (Z.of_nat (length r)) by lia. lia.
Qed.
Lemma exp10_spec q : (0 < q)%Q -> (inject_Z 10 ^ (exp10 q - 1) <= q)%Q /\ (q < inject_Z 10 ^ exp10 q)%Q.
Proof.
  intros H. unfold exp10. destruct (Qle_bool 1 q) eqn:E.
  - apply Qle_bool_iff in E. destruct (q_floor q) as [A B]. set (k := Qnum q / Zpos (Qden q)) in *.
    assert (0 < k) as K. { assert (1 < k + 1) by (rewrite Zlt_Qlt; change (inject_Z 1) with 1%Q; lra). lia. }
    destruct (len_range k K) as [[L U] P]. set (n := Z.of_nat (length (format_nat 10 k))) in *.
    rewrite !T_Z by lia. split.
    + eapply Qle_trans; [|exact A]. rewrite <- Zle_Qle. exact L.
    + eapply Qlt_le_trans; [exact B|]. rewrite <- Zle_Qle. lia.
  - assert (q < 1)%Q as L. { destruct (Qlt_le_dec q 1) as [A|A]; [exact A|]. apply Qle_bool_iff in A. congruence. }
    set (f := S (Z.to_nat (Z.log2 (Zpos (Qden q))))).
    assert (1 <= q * inject_Z 10 ^ Z.of_nat f)%Q as F.
    { rewrite T_Z by lia. assert (Zpos (Qden q) <= 10 ^ Z.of_nat f) as D.
      { unfold f. pose proof (Z.log2_nonneg (Zpos (Qden q))). rewrite Nat2Z.inj_succ, Z2Nat.id by lia. pose proof (Z.log2_spec (Zpos (Qden q)) ltac:(lia)).
        pose proof (Z.pow_le_mono_l 2 10 (Z.succ (Z.log2 (Z.pos (Qden q)))) ltac:(lia)). lia. }
      destruct q as [n d]. cbn [Qnum Qden] in *. unfold Qlt in H. cbn in H. unfold Qle, Qmult, inject_Z. cbn [Qnum Qden]. rewrite Pos.mul_1_r. nia. }
    destruct (shift_spec f q H L F) as (A & B & C). set (s := shift f q) in *.
    pose proof (T_pos s) as Ps. pose proof (T_inv s) as Is. pose proof (T_inv (s + 1)) as Is1. pose proof (T_pos (s + 1)) as Ps1.
    pose proof (T_pos (- s)) as Ns. pose proof (T_pos (- (s + 1))) as Ns1.
    split; [replace (- s - 1) with (- (s + 1)) by lia|]; nra.
Qed.
Lemma trim0_head c t : c <> 48 -> exists u, trim0 (c :: t) = c :: u.
Proof. intros H. cbn [trim0]. destruct (trim0 t); [destruct (Z.eqb_spec c 48); [contradiction|]|]; eauto. Qed.

Lemma round_dec_spec n q : 1 <= n -> (0 < q)%Q -> let d := round_dec n q in
  good d /\ Z.of_nat (length (dmant d)) <= n /\ exp10 q <= dexp d <= exp10 q + 1 /\ (dval d == inject_Z (rne (q * qpow 10 (n - exp10 q))) * inject_Z 10 ^ (exp10 q - n))%Q.
Proof.
  intros N H. unfold round_dec. destruct (Z.eqb_spec (Qnum q) 0) as [Z0|_]; [destruct q as [a b]; unfold Qlt in H; cbn in *; lia|].
  destruct (exp10_spec q H) as [L U]. set (e := exp10 q) in *. set (m := rne (q * qpow 10 (n - e))).
  assert (q * qpow 10 (n - e) == q * inject_Z 10 ^ (n - e))%Q as EX by (rewrite qpow_power by lia; reflexivity).
  pose proof (T_pos (n - e)) as P.
  assert (10 ^ (n - 1) <= m <= 10 ^ n) as M.
  { rewrite <- (rne_Z (inject_Z 10 ^ (n - 1)) (10 ^ (n - 1))) at 1 by (apply T_Z; lia). rewrite <- (rne_Z (inject_Z 10 ^ n) (10 ^ n)) by (apply T_Z; lia).
    unfold m. rewrite (rne_compat _ _ EX). split; apply rne_mono.
    - replace (n - 1) with ((e - 1) + (n - e)) by lia. rewrite T_add. nra.
    - replace n with (e + (n - e)) at 2 by lia. rewrite T_add. nra. }
  destruct (Z.eqb_spec m (10 ^ n)) as [EM|NM]; cbn zeta.
  - split; [exists 49, []; split; [reflexivity|]; split; [discriminate|constructor; [lia|constructor]]|]. cbn [dmant dexp length]. split; [lia|]. split; [lia|].
    unfold dval. cbn [dmant dexp length whole]. rewrite EM, <- (T_Z n) by lia. rewrite <- T_add. replace (n + (e - n)) with e by lia. replace (e + 1 - Z.of_nat 1) with e by lia. change (inject_Z (10 * 0 + (49 - 48))) with 1%Q. ring.
  - assert (0 < m) as M0 by (pose proof (Z.pow_pos_nonneg 10 (n - 1) ltac:(lia) ltac:(lia)); lia).
    destruct (len_range m M0) as [[A B] C]. set (t := format_nat 10 m) in *.
    assert (Z.of_nat (length t) = n) as Lt.
    { assert (Z.of_nat (length t) - 1 < n) by (apply (Z.pow_lt_mono_r_iff 10); lia). assert (n - 1 < Z.of_nat (length t)) by (apply (Z.pow_lt_mono_r_iff 10); lia). lia. }
    destruct (format_nat_digits m ltac:(lia)) as [D NE]. fold t in D, NE. pose proof (head_not_zero m M0) as Hd. fold t in Hd. pose proof (format_nat_whole m ltac:(lia)) as W. fold t in W.
    destruct (trim0_zeros t) as [j Ej].
    assert (Z.of_nat (length t) = Z.of_nat (length (trim0 t)) + Z.of_nat j) as Lj by (rewrite Ej at 1; rewrite app_length, repeat_length; lia).
    split; [|split; [|split]].
    + destruct t as [|c r]; [contradiction|]. cbn [hd] in Hd. destruct (trim0_head c r Hd) as [u Eu]. exists c, u. cbn [dmant]. split; [exact Eu|]. split; [exact Hd|].
      rewrite Ej in D. apply Forall_app in D as [D _]. exact D.
    + cbn [dmant]. lia.
    + cbn [dexp]. lia.
    + unfold dval. cbn [dmant dexp]. rewrite <- W. rewrite Ej at 3. pose proof (whole_zeros_r (trim0 t) (Z.of_nat j)) as Z. unfold zeros in Z. rewrite Nat2Z.id in Z. rewrite Z.
      replace (Z.max 0 (Z.of_nat j)) with (Z.of_nat j) by lia. rewrite inject_Z_mult, <- T_Z by lia. replace (e - Z.of_nat (length (trim0 t))) with (Z.of_nat j + (e - n)) by lia. rewrite T_add. ring.
Qed.
Lemma qabs_scale (s : bool) x y : (Qabs (sgq s * x - sgq s * y) == Qabs (x - y))%Q.
Proof. destruct s; unfold sgq; [|setoid_replace (1 * x - 1 * y)%Q with (x - y)%Q by ring; reflexivity]. setoid_replace (-1 * x - -1 * y)%Q with (- (x - y))%Q by ring. apply Qabs_opp. Qed.
Lemma Qabs_sg q : (sgq (Qnum q <? 0) * Qabs q == q)%Q.
Proof. destruct q as [n d]. unfold sgq, Qabs. cbn [Qnum]. destruct (Z.ltb_spec n 0); unfold Qeq, Qmult; cbn [Qnum Qden]; lia. Qed.
Lemma round_nearest n q : 1 <= n -> ~ (q == 0)%Q -> forall y, (y == sgq (Qnum q <? 0) * dval (round_dec n (Qabs q)))%Q -> nearest_decimal n q y.
Proof.
  intros N Q0 y Y. assert (0 < Qabs q)%Q as P. { destruct (Qlt_le_dec 0 (Qabs q)) as [A|A]; [exact A|]. pose proof (Qabs_nonneg q). exfalso. apply Q0. rewrite <- (Qabs_sg q). assert (Qabs q == 0)%Q as -> by lra. ring. }
  destruct (round_dec_spec n (Qabs q) N P) as (_ & _ & _ & V). destruct (exp10_spec _ P) as [L U]. set (e := exp10 (Qabs q)) in *. set (m := rne (Qabs q * qpow 10 (n - e))) in *.
  assert (Qabs (y - q) == Qabs (dval (round_dec n (Qabs q)) - Qabs q))%Q as D. { rewrite <- (qabs_scale (Qnum q <? 0) (dval (round_dec n (Qabs q))) (Qabs q)). apply Qabs_wd. pose proof (Qabs_sg q) as G. unfold Qminus. apply Qplus_comp; [exact Y|]. apply Qopp_comp. symmetry. exact G. }
  pose proof (T_pos (e - n)) as T0. pose proof (T_inv (e - n)) as Ti. replace (- (e - n)) with (n - e) in Ti by lia.
  assert (Qabs (y - q) == Qabs (inject_Z m - Qabs q * qpow 10 (n - e)) * inject_Z 10 ^ (e - n))%Q as D2.
  { rewrite D, V. rewrite qpow_power by lia. rewrite <- (Qabs_pos (inject_Z 10 ^ (e - n))) at 2 by lra. rewrite <- Qabs_Qmult. apply Qabs_wd.
    transitivity (inject_Z m * inject_Z 10 ^ (e - n) - Qabs q * (inject_Z 10 ^ (e - n) * inject_Z 10 ^ (n - e)))%Q; [rewrite Ti|]; ring. }
  exists e, ((if Qnum q <? 0 then -1 else 1) * m). split; [split; assumption|]. split; [|split].
  - rewrite Y, V, inject_Z_mult. destruct (Qnum q <? 0); unfold sgq; [change (inject_Z (-1)) with (-1)%Q|change (inject_Z 1) with 1%Q]; ring.
  - rewrite D2. pose proof (rne_half (Qabs q * qpow 10 (n - e))) as R. fold m in R. nra.
  - intros T. rewrite D2 in T. assert (Z.even m = true) as EV.
    { apply rne_tie. fold m. apply (Qmult_inj_r _ _ (inject_Z 10 ^ (e - n))); [lra|exact T]. }
    rewrite Z.even_mul, EV. apply orb_true_r.
Qed.
(* a number of n digits is its own nearest *)
Lemma nearest_exact n q y k j : 1 <= n -> nearest_decimal n q y -> (q == inject_Z k * inject_Z 10 ^ j)%Q -> Z.abs k < 10 ^ n -> (y == q)%Q.
Proof.
  intros N (e & k' & [L _] & Y & D & _) Q K.
  assert (e - n <= j) as J.
  { assert (e - 1 < n + j); [|lia]. apply T_lt_inv. eapply Qle_lt_trans; [exact L|]. rewrite Q, Qabs_Qmult. rewrite (Qabs_pos (inject_Z 10 ^ j)) by (pose proof (T_pos j); lra).
    rewrite T_add, (T_Z n) by lia. pose proof (T_pos j). assert (Qabs (inject_Z k) < inject_Z (10 ^ n))%Q; [|nra]. rewrite Zlt_Qlt in K. exact K. }
  assert (y - q == inject_Z (k' - k * 10 ^ (j - (e - n))) * inject_Z 10 ^ (e - n))%Q as E.
  { rewrite Y, Q. replace j with ((j - (e - n)) + (e - n)) at 1 by lia. rewrite T_add, (T_Z (j - (e - n))) by lia. replace (k' - k * 10 ^ (j - (e - n))) with (k' + - (k * 10 ^ (j - (e - n)))) by lia. rewrite inject_Z_plus, inject_Z_opp, inject_Z_mult. ring. }
  rewrite E, Qabs_Qmult in D. pose proof (T_pos (e - n)) as P. rewrite (Qabs_pos (inject_Z 10 ^ (e - n))) in D by lra.
  set (w := k' - k * 10 ^ (j - (e - n))) in *. assert (w = 0) as W0.
  { assert (Qabs (inject_Z w) <= 1 # 2)%Q as W by nra. unfold Qabs, inject_Z, Qle in W. cbn [Qnum Qden] in W. lia. }
  rewrite W0 in E. change (inject_Z 0) with 0%Q in E. lra.
Qed.

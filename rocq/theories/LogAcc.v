From Coq Require Import List ZArith Lia QArith Qabs Qpower Lqa.
From Verif Require Import Value FloatModel FloatProofs FloatSqrt FloatMono FloatSign FloatReduce RandSpec MixProofs ArcModel ArcSpec ArcRound ArcProofs SqrtConv LogConv HypProofs PowProofs ExpProofs SeriesSpec SeriesAcc ExpAcc AltAcc AltInst LogSpec.
Open Scope Z_scope.

Lemma big_power3 p : 20 <= p -> 50000 * p <= 2 ^ p.
Proof.
  intros Hp. pattern p. apply Zlt_lower_bound_ind with (z := 20); [|exact Hp]. intros x IH L. destruct (Z.eq_dec x 20) as [->|N]; [vm_compute; discriminate|]. specialize (IH (x - 1) ltac:(lia)). replace x with (x - 1 + 1) by lia. rewrite Z.pow_add_r by lia. change (2 ^ 1) with 2. lia.
Qed.
Lemma npow_compat a b n : (a == b)%Q -> (npow a n == npow b n)%Q. Proof. intros H. induction n as [|n IH]; [reflexivity|]. cbn [npow]. rewrite IH, H. reflexivity. Qed.
Lemma log_sum_compat a b n : (a == b)%Q -> (log_sum a n == log_sum b n)%Q.
Proof. intros H. unfold log_sum. induction n as [|n IH]; cbn [sum_to]; [|rewrite IH]; rewrite (npow_compat a b _ H); reflexivity. Qed.
Definition lt_ (y : Q) (i : nat) : Q := (- (npow y (S i) / inject_Z (Z.of_nat (S i))))%Q.
Lemma lt_S y i : (lt_ y (S i) == lt_ y i * (y * inject_Z (Z.of_nat (S i)) / inject_Z (Z.of_nat (S (S i)))))%Q.
Proof. unfold lt_. change (npow y (S (S i))) with (npow y (S i) * y)%Q. field. pose proof (nat_pos i). pose proof (nat_pos (S i)). split; lra. Qed.
Lemma lt_half y i : (0 <= y)%Q -> (y <= 1 # 2)%Q -> (Qabs (lt_ y (S i)) <= (1 # 2) * Qabs (lt_ y i))%Q.
Proof.
  intros Y0 Y1. apply (scale_half _ _ _ (lt_S y i)). pose proof (nat_pos i) as A. pose proof (nat_pos (S i)) as B. assert (C : (inject_Z (Z.of_nat (S i)) <= inject_Z (Z.of_nat (S (S i))))%Q) by (rewrite <-Zle_Qle; lia). apply Qabs_Qle_condition. split; [apply Qle_shift_div_l; [exact B|nra]|apply Qle_shift_div_r; [exact B|nra]].
Qed.

Section Log.
Variables (p : Z). Hypotheses (Hp : 20 <= p <= 1000000).
Notation u := (pow2 (- p)).
Notation r := (1 - pow2 (- p))%Q.
Let Hp' : 16 <= p <= 1000000 := ltac:(lia).
Definition lg_st (y : Q) (i : nat) (s : at_st) : Prop := exists z yN, s = (z, yN) /\ fk r (Z.of_nat i) yN (npow y (S i)).
Lemma lg_step y i s : lg_st y i s -> exists q s', log_body (rnd p) (Z.of_nat i) s = Ok s' /\ fst s' = rnd p (fst s + rnd p q) /\ fk r (1 * Z.of_nat i + 1) q (lt_ y i) /\
  lg_st y (S i) (atan_next (rnd p) y (Z.of_nat i + 1) s') /\ fst (atan_next (rnd p) y (Z.of_nat i + 1) s') = fst s'.
Proof.
  intros (z & yN & -> & F). destruct (rr p ltac:(lia)) as [R0 R1]. pose proof (int_nz (Z.of_nat i + 1) ltac:(lia)) as N. pose proof (fk_fint p Hp' (Z.of_nat i + 1)) as G. pose proof (fk_nz p Hp' _ _ _ N G) as N'.
  exists (- (yN / fint (rnd p) (Z.of_nat i + 1)))%Q. eexists. unfold log_body. rewrite fquo_ok by exact N'. split; [reflexivity|]. split; [rewrite FloatOdd.rnd_opp; reflexivity|]. split; [|split; [|reflexivity]].
  - pose proof (fk_opp r _ _ _ (fk_div r R0 _ _ _ _ _ _ N F G)) as D. replace (1 * Z.of_nat i + 1) with (Z.of_nat i + 1) by lia. unfold lt_. replace (Z.of_nat (S i)) with (Z.of_nat i + 1) by lia. exact D.
  - cbn [atan_next]. eexists _, _. split; [reflexivity|]. unfold fmul. replace (Z.of_nat (S i)) with (1 + (Z.of_nat i + 0)) by lia. apply (fk_trans r R0 1 (Z.of_nat i + 0) _ _ _ (fk_rnd p Hp' _)). apply (fk_mul r R0 (Z.of_nat i) 0); [exact F|apply fk_refl; reflexivity].
Qed.
Theorem log_series_near fuel y z : (0 <= y)%Q -> (y <= 1 # 2)%Q -> log_series (rnd p) p fuel y = Some (Ok z) -> within_limit (inject_Z (520 * p + 154) * u) z (log_sum y) /\ (Qabs z <= 4)%Q.
Proof.
  intros Y0 Y1 EZ. pose proof (big_power3 p ltac:(lia)) as BP.
  assert (SM : forall i, (later (log_sum y) (S i) == later (log_sum y) i + lt_ y i)%Q). { intros [|i]; [cbn [later]; unfold log_sum; cbn [sum_to]; unfold lt_; ring|reflexivity]. }
  assert (T0 : (Qabs (lt_ y 0) <= 1)%Q). { assert (lt_ y 0 == - y)%Q as -> by (unfold lt_; cbn; change (inject_Z 1) with 1%Q; field). rewrite Qabs_opp, Qabs_pos by exact Y0. lra. }
  assert (S0 : (Qabs (later (log_sum y) 0) <= 1)%Q) by (vm_compute; discriminate). assert (BG : 12 * (E 1 1 * M p 40) <= 2 ^ p) by (unfold E, M; lia).
  assert (P0 : lg_st y 0 (0%Q, y)) by (exists 0%Q, y; split; [reflexivity|apply fk_refl; cbn; ring]).
  destruct (loop_near p Hp' at_st fst (log_body (rnd p)) (atan_next (rnd p) y) 40 1 1 (lt_ y) (later (log_sum y)) (lg_st y) ltac:(lia) ltac:(lia) ltac:(lia) SM (fun i => lt_half y i Y0 Y1) T0 S0 (lg_step y) BG (0%Q, y) P0 (rep_zero p ltac:(lia)) (Qeq_refl _) fuel z EZ) as (n0 & N).
  replace (520 * p + 154) with (E 1 1 * M p 40 + 24) by (unfold E, M; lia). split; [exists n0; intros n L; exact (N (S n) ltac:(lia))|].
  specialize (N (S n0) ltac:(lia)). pose proof (s3 p (lt_ y) (later (log_sum y)) SM (fun i => lt_half y i Y0 Y1) T0 S0 (S n0)) as B. pose proof (small_u p Hp' (E 1 1 * M p 40 + 24) 1 ltac:(lia) ltac:(unfold E, M in *; lia)) as SU. change (inject_Z 1) with 1%Q in SU. pose proof (Qabs_triangle (later (log_sum y) (S n0)) (z - later (log_sum y) (S n0))) as Q. setoid_replace (later (log_sum y) (S n0) + (z - later (log_sum y) (S n0)))%Q with z in Q by ring. lra.
Qed.
Lemma one_minus m : (1 # 2 <= m)%Q -> (m < 1)%Q -> representable p m -> (fsub (rnd p) (fint (rnd p) 1) m == 1 - m)%Q.
Proof.
  intros M0 M1 RM. pose proof (fint1 p ltac:(lia)) as F. unfold fsub. rewrite (rnd_compat p (fint (rnd p) 1 - m) (1 - m) ltac:(lia) ltac:(rewrite F; reflexivity)). apply rnd_exact; [lia|].
  destruct (grid p m (-1) ltac:(lia) RM) as (n & N); [change (pow2 (-1)) with (1 # 2)%Q; exact M0|]. replace (-1 - p + 1) with (- p) in N by lia. exists (2 ^ p - n), (- p). pose proof (pow2_pos (- p)) as U0. assert (W := unit_2p p Hp').
  assert (L : 0 <= n). { destruct (Z_lt_le_dec n 0) as [C|C]; [|exact C]. exfalso. assert (inject_Z n <= 0)%Q by (change 0%Q with (inject_Z 0); rewrite <-Zle_Qle; lia). nra. }
  assert (L2 : n <= 2 ^ p). { destruct (Z_lt_le_dec (2 ^ p) n) as [C|C]; [|exact C]. exfalso. assert (inject_Z (2 ^ p) <= inject_Z n)%Q as Q by (rewrite <-Zle_Qle; lia). pose proof (mul_l_le _ _ _ U0 Q). lra. }
  split; [lia|]. unfold Z.sub. rewrite inject_Z_plus, inject_Z_opp, N. lra.
Qed.
(* what follows the inversion *)
Lemma log_core fuel log2 x m e w : (0 < x)%Q -> (x < 1)%Q -> representable p x -> (0 <= log2)%Q -> (log2 <= 1)%Q -> mant_exp x = (m, e) ->
  log_series (rnd p) p fuel (fsub (rnd p) (fint (rnd p) 1) m) = Some (Ok w) ->
  (x == m * pow2 e)%Q /\ (1 # 2 <= m)%Q /\ (m < 1)%Q /\
  exists n0, forall n, (n0 <= n)%nat -> (Qabs (rnd p (w + fmul (rnd p) (fint (rnd p) e) log2) - (log_sum (1 - m) n + inject_Z e * log2)) <= inject_Z (520 * p + 160 + 6 * Z.abs e) * u)%Q.
Proof.
  intros X0 X1 RX L0 L1 ME W. destruct (pow2_small p ltac:(lia)) as [U0 U1]. pose proof (mant_facts p x X0 X1 RX) as MF. rewrite ME in MF. destruct MF as (M0 & M1 & RM & E0).
  assert (XM : (x == m * pow2 e)%Q). { unfold mant_exp in ME. assert (NZ : Qnum x =? 0 = false) by (destruct x; unfold Qlt in X0; cbn in *; lia). rewrite NZ in ME. pose proof (f_equal fst ME) as MQ. pose proof (f_equal snd ME) as EQ. cbn [fst snd] in MQ, EQ. assert (MM : (m == x * pow2 (- e))%Q) by (rewrite <-MQ, <-EQ; apply Qred_correct). pose proof (pow2_opp e) as PO. rewrite MM, <-Qmult_assoc, <-pow2_add. replace (- e + e) with 0 by lia. change (pow2 0) with 1%Q. ring. }
  split; [exact XM|]. split; [exact M0|]. split; [exact M1|]. pose proof (one_minus m M0 M1 RM) as Y. set (y := fsub (rnd p) (fint (rnd p) 1) m) in *. destruct (log_series_near fuel y w ltac:(lra) ltac:(lra) W) as [(n0 & N) WB]. exists n0. intros n Hn. specialize (N n Hn). rewrite (log_sum_compat y (1 - m) n Y) in N.
  set (s := log_sum (1 - m) n) in *. destruct (fk_fint p Hp' e) as (g & G & G1 & G2). change (r ^ 1)%Q with r in G1, G2. unfold fmul. set (ex := rnd p (fint (rnd p) e * log2)). destruct (rel p (fint (rnd p) e * log2)) as (d & D & D1 & D2). fold ex in D. rewrite G in D.
  set (a := (inject_Z e * log2)%Q) in *. assert (A : (Qabs a <= inject_Z (Z.abs e))%Q). { unfold a. rewrite Qabs_Qmult, (Qabs_pos log2) by exact L0. assert (Qabs (inject_Z e) == inject_Z (Z.abs e))%Q as -> by (unfold Qabs, inject_Z; reflexivity). assert (0 <= inject_Z (Z.abs e))%Q by (apply (le_inject 0); lia). nra. }
  assert (GD : (Qabs (g * (1 + d) - 1) <= 3 * u)%Q). { assert (g <= 1 + (11 # 10) * u)%Q by nra. apply Qabs_Qle_condition. split; nra. }
  assert (EX : (Qabs (ex - a) <= inject_Z (Z.abs e) * (3 * u))%Q). { setoid_replace (ex - a)%Q with (a * (g * (1 + d) - 1))%Q by (unfold a; rewrite D; ring). eapply Qle_trans; [apply (abs_mul_le _ _ _ GD)|]. apply mul_l_le; [lra|exact A]. }
  assert (ABS : (0 <= inject_Z (Z.abs e))%Q) by (apply (le_inject 0); lia). assert (EB : (Qabs ex <= (11 # 10) * inject_Z (Z.abs e))%Q). { pose proof (Qabs_triangle a (ex - a)) as Q. setoid_replace (a + (ex - a))%Q with ex in Q by ring. assert (inject_Z (Z.abs e) * (3 * u) <= inject_Z (Z.abs e) * (1 # 10))%Q by (apply mul_r_le; [exact ABS|lra]). lra. }
  pose proof (rnd_error p (w + ex)) as RE. pose proof (Qabs_triangle w ex) as TW. assert (RB : (Qabs (w + ex) * u <= (4 + (11 # 10) * inject_Z (Z.abs e)) * u)%Q) by (apply mul_l_le; [exact U0|lra]).
  setoid_replace (rnd p (w + ex) - (s + a))%Q with (rnd p (w + ex) - (w + ex) + ((w - s) + (ex - a)))%Q by ring. pose proof (Qabs_triangle (rnd p (w + ex) - (w + ex)) (w - s + (ex - a))). pose proof (Qabs_triangle (w - s) (ex - a)).
  replace (520 * p + 160 + 6 * Z.abs e) with (520 * p + 154 + (6 + 6 * Z.abs e)) by lia. rewrite (inject_Z_plus (520 * p + 154)), (inject_Z_plus 6), inject_Z_mult. change (inject_Z 6) with 6%Q. assert (0 <= inject_Z (Z.abs e) * u)%Q by (apply Qmult_le_0_compat; lra). lra.
Qed.
End Log.

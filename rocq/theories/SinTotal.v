(* The sine series comes out however small its argument is. *)
From Coq Require Import List ZArith Lia QArith Qabs Qpower Lqa.
From Verif Require Import Value FloatModel FloatProofs FloatSqrt FloatMono FloatSign FloatReduce RandSpec MixProofs ArcModel ArcSpec ArcRound ArcProofs SqrtConv LogConv HypProofs PowProofs ExpProofs SeriesSpec SeriesAcc ExpAcc AltAcc AltInst.
Open Scope Z_scope.
Section Sin.
Variables (p : Z) (x : Q). Hypotheses (Hp : 16 <= p <= 1000000) (RX : representable p x) (X : (Qabs x <= 1)%Q).
Notation u := (pow2 (- p)).
Notation r := (1 - pow2 (- p))%Q.
Lemma sct0 : (sct x 3 0 == - (x * x * x / 6))%Q.
Proof. unfold sct, alt. cbn. change (inject_Z 1) with 1%Q. change (inject_Z 2) with 2%Q. change (inject_Z 3) with 3%Q. field. Qed.
Lemma sct_rel i : (Qabs (sct x 3 i) <= (1 # 6) * (pow2 (- Z.of_nat i) * Qabs x))%Q.
Proof.
  induction i as [|i IH].
  - change (pow2 (- Z.of_nat 0)) with 1%Q. rewrite sct0, Qabs_opp. setoid_replace (x * x * x / 6)%Q with ((1 # 6) * (x * x * x))%Q by field. rewrite !Qabs_Qmult. change (Qabs (1 # 6)) with (1 # 6)%Q. pose proof (Qabs_nonneg x) as N. assert (Qabs x * Qabs x <= 1 * 1)%Q by (apply prod_le; assumption). nra.
  - pose proof (sct_half p Hp x 3 i X) as H. replace (- Z.of_nat i) with (- Z.of_nat (S i) + 1) in IH by lia. rewrite pow2_S in IH. lra.
Qed.
Definition dev (i : Z) : Q := ((5 # 12) * (1 - pow2 (- i)) + 4 * (inject_Z i * u))%Q.
Definition inv3 (i : Z) (prev : Q) (s : sc) : Prop := exists n, i = Z.of_nat n /\ sc_st p x 3 n s /\ representable p (sc_z s) /\ (Qabs (sc_z s - x) <= Qabs x * dev i)%Q /\ ((0 < n)%nat -> prev = sc_z s).
Lemma dev_le i : 0 <= i <= p + 6 -> (dev i <= 1 # 2)%Q.
Proof.
  intros H. unfold dev. pose proof (pow2_pos (- i)). pose proof (big_power2 p ltac:(lia)) as BP. pose proof (small_u p Hp (p + 6) 48 ltac:(lia) ltac:(lia)) as S. change (inject_Z 48) with 48%Q in S. assert (inject_Z i <= inject_Z (p + 6))%Q as L by (rewrite <-Zle_Qle; lia). pose proof (mul_l_le _ _ _ (pow2_pos (- p)) L). lra.
Qed.
Lemma sin_step i prev s : 0 <= i <= p + 5 -> inv3 i prev s -> exists s', sc_body (rnd p) i s = Ok s' /\
  ((3 <= i /\ (Qabs (rnd p (prev - sc_z s')) <= eps p (sc_z s'))%Q) \/ (i < p + 5 /\ inv3 (i + 1) (sc_z s') (sc_next (rnd p) (fmul (rnd p) x x) (i + 1) s'))).
Proof.
  intros Hi (n & -> & HP & HR & HD & VP). destruct (pow2_small p ltac:(lia)) as [U0 U1]. destruct (rr p ltac:(lia)) as [R0 R1]. destruct (sc_step p Hp x 3 n s HP) as (q & s' & B & Z & F & P' & Z'). exists s'. split; [exact B|].
  set (z := sc_z s) in *. set (t := rnd p q) in *. set (k := 1 + (6 * Z.of_nat n + 4)). pose proof (big_power2 p ltac:(lia)) as BP.
  pose proof (small_u p Hp k 5 ltac:(lia) ltac:(unfold k; lia)) as KU. change (inject_Z 5) with 5%Q in KU. pose proof (nonneg p k ltac:(unfold k; lia)) as KN.
  pose proof (fk_err p Hp k t (sct x 3 n) ltac:(unfold k; lia) ltac:(lra) (fk_trans r R0 1 _ _ _ _ (fk_rnd p Hp q) F)) as TE. pose proof (Qabs_nonneg (sct x 3 n)) as TN. pose proof (Qabs_nonneg x) as XN.
  assert (T1 : (Qabs t <= (5 # 4) * Qabs (sct x 3 n))%Q). { pose proof (Qabs_triangle (sct x 3 n) (t - sct x 3 n)) as Q. setoid_replace (sct x 3 n + (t - sct x 3 n))%Q with t in Q by ring. nra. }
  pose proof (sct_rel n) as TR. assert (TS : (Qabs t <= (5 # 24) * (pow2 (- Z.of_nat n) * Qabs x))%Q) by lra.
  assert (PN : (pow2 (- Z.of_nat n) <= 1)%Q). { pose proof (pow2_le (- Z.of_nat n) 0 ltac:(lia)) as Q. change (pow2 0) with 1%Q in Q. exact Q. }
  assert (DN := dev_le (Z.of_nat n) ltac:(lia)). assert (HZ : (Qabs (z - x) <= Qabs x * (1 # 2))%Q). { pose proof (mul_r_le (Qabs x) _ _ XN DN). lra. }
  assert (ZT : (Qabs (z + t) <= 2 * Qabs x)%Q). { setoid_replace (z + t)%Q with (x + (z - x) + t)%Q by ring. pose proof (Qabs_triangle (x + (z - x)) t). pose proof (Qabs_triangle x (z - x)). pose proof (mul_l_le _ 1 (Qabs x + 1) ltac:(lra) PN). assert (pow2 (- Z.of_nat n) * Qabs x <= 1 * Qabs x)%Q by nra. lra. }
  assert (ZR : (Qabs (sc_z s' - (z + t)) <= 2 * Qabs x * u)%Q). { rewrite Z. pose proof (rnd_error p (z + t)) as Q. pose proof (mul_l_le _ _ _ U0 ZT). lra. }
  assert (DV : (Qabs (sc_z s' - x) <= Qabs x * dev (Z.of_nat n + 1))%Q).
  { setoid_replace (sc_z s' - x)%Q with (sc_z s' - (z + t) + ((z - x) + t))%Q by ring. pose proof (Qabs_triangle (sc_z s' - (z + t)) (z - x + t)). pose proof (Qabs_triangle (z - x) t).
    unfold dev in *. rewrite inject_Z_plus. change (inject_Z 1) with 1%Q. replace (- Z.of_nat n) with (- (Z.of_nat n + 1) + 1) in * by lia. rewrite pow2_S in *. assert (0 <= Qabs x * u)%Q by (apply Qmult_le_0_compat; lra). lra. }
  destruct (Z.eq_dec (Z.of_nat n) (p + 5)) as [EN|EN]; [left|right].
  - split; [lia|]. rewrite VP by lia. fold z. destruct (rnd_nearest p (z + t) ltac:(lia)) as [_ NR]. specialize (NR z HR). rewrite <-Z in NR. rewrite Qabs_Qminus in NR. setoid_replace (z - (z + t))%Q with (- t)%Q in NR by ring. rewrite Qabs_opp in NR.
    assert (TU : (Qabs t <= (5 # 768) * (Qabs x * u))%Q). { rewrite EN in TS. replace (- (p + 5)) with (- p + -5) in TS by lia. rewrite pow2_add in TS. change (pow2 (-5)) with (1 # 32)%Q in TS. lra. }
    assert (DZ : (Qabs (z - sc_z s') <= (5 # 384) * (Qabs x * u))%Q). { setoid_replace (z - sc_z s')%Q with (- t + (z + t - sc_z s'))%Q by ring. pose proof (Qabs_triangle (- t) (z + t - sc_z s')) as Q. rewrite Qabs_opp in Q. lra. }
    destruct (rel p (z - sc_z s')) as (d & Ed & Da & Db). rewrite Ed, Qabs_Qmult, (Qabs_pos (1 + d)) by lra. pose proof (Qabs_nonneg (z - sc_z s')) as NZ.
    assert (ZL : (Qabs x <= 2 * Qabs (sc_z s'))%Q). { pose proof (Qabs_triangle (sc_z s') (x - sc_z s')) as Q. setoid_replace (sc_z s' + (x - sc_z s'))%Q with x in Q by ring. rewrite Qabs_Qminus in DV. pose proof (mul_r_le (Qabs x) _ _ XN (dev_le (Z.of_nat n + 1) ltac:(lia))). lra. }
    assert (EP : (Qabs (sc_z s') * u <= eps p (sc_z s'))%Q).
    { unfold eps, mant_exp. destruct (Z.eqb_spec (Qnum (sc_z s')) 0) as [C|C].
      - assert (sc_z s' == 0)%Q as E0 by (destruct (sc_z s'); unfold Qeq; cbn in *; lia). rewrite E0. cbn [snd]. pose proof (pow2_pos (0 - p)). change (Qabs 0) with 0%Q. lra.
      - cbn [snd]. replace (ilog2 (sc_z s') + 1 - p) with (ilog2 (sc_z s') + 1 + - p) by lia. rewrite pow2_add. assert (N : ~ (sc_z s' == 0)%Q) by (destruct (sc_z s'); unfold Qeq; cbn in *; lia). destruct (ilog2_spec _ N) as [_ Y]. apply mul_l_le; [exact U0|lra]. }
    pose proof (mul_l_le _ _ _ U0 ZL). assert (Qabs (z - sc_z s') * (1 + d) <= 2 * Qabs (z - sc_z s'))%Q by nra. lra.
  - split; [lia|]. exists (S n). split; [lia|]. split; [exact P'|]. rewrite Z'. split; [rewrite Z; apply rep_rnd; lia|]. split; [exact DV|reflexivity].
Qed.
Theorem sin_comes_out fuel : p + 6 < Z.of_nat fuel -> exists z, sincos (rnd p) p fuel 3 x x 3 (fint (rnd p) 6) = Some (Ok z).
Proof.
  intros Hf. destruct (rr p ltac:(lia)) as [R0 R1]. unfold sincos. destruct (series_total2 (rnd p) p sc sc_z (sc_body (rnd p)) (sc_next (rnd p) (fmul (rnd p) x x)) inv3 (p + 5) sin_step fuel (new_loop 4 p) (x, fpow (rnd p) 3 (fint (rnd p) 1) x, fint (rnd p) 6, 3)) as (s' & Es).
  - cbn. lia.
  - rewrite (max_is p Hp 4) by lia. unfold M. lia.
  - exists O. split; [reflexivity|]. split; [|split; [exact RX|split; [|lia]]].
    + eexists _, _, _. split; [reflexivity|]. assert (N6 : ~ (inject_Z 6 == 0)%Q) by (vm_compute; discriminate). split; [exact (fk_nz p Hp _ _ _ N6 (fk_fint p Hp 6))|]. pose proof (fk_div r R0 3 1 _ _ _ _ (opp_nz _ N6) (start_fk3 p Hp x) (fk_opp r 1 _ _ (fk_fint p Hp 6))) as D. apply (fk_eq r 4 _ _ _ _ (Qeq_refl _)) with (2 := D). rewrite sct0. change (inject_Z 6) with 6%Q. field.
    + cbn [sc_z fst l_i new_loop]. setoid_replace (x - x)%Q with 0%Q by ring. change (Qabs 0) with 0%Q. unfold dev. change (pow2 (- 0)) with 1%Q. change (inject_Z 0) with 0%Q. pose proof (Qabs_nonneg x). lra.
  - cbn. lia.
  - rewrite Es. eexists. reflexivity.
Qed.
End Sin.

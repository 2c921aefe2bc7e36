(* Powers of floats. *)
From Coq Require Import QArith Qabs Qround Qpower Setoid Lqa Lia.
From Verif Require Import Value FloatModel FloatProofs FloatSqrt FloatMono FloatSign FloatReduce RandSpec MixProofs ArcModel ArcSpec ArcRound ArcProofs SqrtConv LogConv HypProofs ExpModel ExpProofs PowModel.
Open Scope Z_scope.

(* powers of positive rationals *)
Lemma qp_pos a n : (0 < a)%Q -> (0 < a ^ n)%Q. Proof. intros H. apply Qpower_0_lt, H. Qed.
Lemma qp_S a n : (0 < a)%Q -> (a ^ (n + 1) == a * a ^ n)%Q.
Proof. intros H. rewrite Qpower_plus by lra. change (a ^ 1)%Q with a. ring. Qed.
Lemma qp_mono a b n : 0 <= n -> (0 < a)%Q -> (a <= b)%Q -> (a ^ n <= b ^ n)%Q.
Proof.
  intros N A B. pattern n. apply natlike_ind; [apply Qle_refl| |exact N]. intros k K IH. unfold Z.succ. rewrite !qp_S by lra. apply mul_le; try lra. pose proof (qp_pos a k A). lra.
Qed.
Lemma qp_up a m n : (1 <= a)%Q -> m <= n -> (a ^ m <= a ^ n)%Q.
Proof.
  intros A L. replace n with (m + (n - m)) by lia. rewrite Qpower_plus by lra. pose proof (qp_pos a m ltac:(lra)). assert (1 <= a ^ (n - m))%Q. { pose proof (qp_mono 1 a (n - m) ltac:(lia) ltac:(lra) A) as M. rewrite Qpower_1 in M. exact M. } nra.
Qed.
Lemma qp_down a m n : (0 < a)%Q -> (a <= 1)%Q -> m <= n -> (a ^ n <= a ^ m)%Q.
Proof.
  intros A B L. replace n with (m + (n - m)) by lia. rewrite Qpower_plus by lra. pose proof (qp_pos a m A). assert (a ^ (n - m) <= 1)%Q. { pose proof (qp_mono a 1 (n - m) ltac:(lia) A B) as M. rewrite Qpower_1 in M. exact M. } nra.
Qed.
Lemma rnd_in p q : (0 < q)%Q -> ((1 - pow2 (- p)) * q <= rnd p q)%Q /\ (rnd p q <= (1 + pow2 (- p)) * q)%Q.
Proof. intros H. pose proof (rnd_error p q) as E. rewrite (Qabs_pos q) in E by lra. apply abs_bd in E. split; lra. Qed.
Lemma pow_total p fuel : forall z y e, e < 2 ^ Z.of_nat fuel -> exists r, int_power (rnd p) fuel z y e = Some r.
Proof.
  induction fuel as [|f IH]; intros z y e L; cbn [int_power]; destruct (Z.leb_spec e 0) as [E|E]; eauto; [cbn in L; lia|]. apply IH. rewrite Nat2Z.inj_succ, Z.pow_succ_r in L by lia. apply Z.div_lt_upper_bound; lia.
Qed.
Lemma pow_bounds p fuel : 8 <= p -> forall z y e r, 0 <= e -> (0 < z)%Q -> (0 < y)%Q -> int_power (rnd p) fuel z y e = Some r ->
  ((1 - pow2 (- p)) ^ (2 * e) * (z * y ^ e) <= r)%Q /\ (r <= (1 + pow2 (- p)) ^ (2 * e) * (z * y ^ e))%Q.
Proof.
  intros Hp. pose proof (pow2_small p Hp) as [U0 U1]. set (u := pow2 (- p)) in *. induction fuel as [|f IH]; intros z y e r E Z0 Y0 H; cbn [int_power] in H; destruct (Z.leb_spec e 0) as [L|L]; try discriminate; try (injection H as <-; assert (e = 0) as -> by lia; cbn; split; lra).
  unfold fmul in H. set (h := e / 2) in *. assert (HE : e = 2 * h + (if Z.odd e then 1 else 0)). { pose proof (Z.div_mod e 2 ltac:(lia)) as D. rewrite Zmod_odd in D. exact D. } assert (H0 : 0 <= h) by (apply Z.div_pos; lia).
  assert (YY : (0 < y * y)%Q) by nra. destruct (rnd_in p (y * y) YY) as [Y1 Y2]. fold u in Y1, Y2. set (y' := rnd p (y * y)) in *. assert (Y'0 : (0 < y')%Q) by nra.
  set (o := if Z.odd e then 1 else 0) in *. set (z' := if Z.odd e then rnd p (z * y) else z) in *.
  assert (ZB : (0 < z')%Q /\ ((1 - u) ^ o * (z * y ^ o) <= z')%Q /\ (z' <= (1 + u) ^ o * (z * y ^ o))%Q).
  { unfold z', o. destruct (Z.odd e).
    - assert (ZY : (0 < z * y)%Q) by nra. destruct (rnd_in p (z * y) ZY) as [A B]. fold u in A, B. change ((1 - u) ^ 1)%Q with (1 - u)%Q. change ((1 + u) ^ 1)%Q with (1 + u)%Q. change (y ^ 1)%Q with y. split; [nra|]. split; assumption.
    - cbn. split; [exact Z0|]. split; lra. }
  destruct ZB as (Z'0 & ZB1 & ZB2). destruct (IH z' y' h r H0 Z'0 Y'0 H) as [R1 R2].
  assert (P1 : (0 < 1 - u)%Q) by lra. assert (P2 : (0 < 1 + u)%Q) by lra. pose proof (qp_pos y e Y0) as YE.
  assert (YH : (y ^ e == y ^ o * (y * y) ^ h)%Q). { assert (EQ : e = o + 2 * h) by lia. rewrite EQ, Qpower_plus by lra. rewrite Qpower_mult. change (y ^ 2)%Q with (y * y)%Q. reflexivity. }
  assert (B1 : ((1 - u) ^ h * (y * y) ^ h <= y' ^ h)%Q). { rewrite <-Qmult_power. apply qp_mono; [exact H0|nra|exact Y1]. }
  assert (B2 : (y' ^ h <= (1 + u) ^ h * (y * y) ^ h)%Q). { rewrite <-Qmult_power. apply qp_mono; [exact H0|exact Y'0|exact Y2]. }
  pose proof (qp_pos (1 - u) o P1). pose proof (qp_pos (1 - u) h P1). pose proof (qp_pos (1 - u) (2 * h) P1). pose proof (qp_pos (1 + u) o P2). pose proof (qp_pos (1 + u) h P2). pose proof (qp_pos (1 + u) (2 * h) P2). pose proof (qp_pos y o Y0). pose proof (qp_pos (y * y) h YY). pose proof (qp_pos y' h Y'0).
  assert (ZO : (0 < z * y ^ o)%Q) by nra. split.
  - eapply Qle_trans; [|exact R1]. assert (C : ((1 - u) ^ o * (z * y ^ o) * ((1 - u) ^ h * (y * y) ^ h) <= z' * y' ^ h)%Q) by (apply mul_le; try assumption; nra).
    assert (D : ((1 - u) ^ (2 * h) * ((1 - u) ^ o * (z * y ^ o) * ((1 - u) ^ h * (y * y) ^ h)) <= (1 - u) ^ (2 * h) * (z' * y' ^ h))%Q) by (apply mul_r_le; [lra|exact C]). eapply Qle_trans; [|exact D].
    assert (EQ : ((1 - u) ^ (2 * h) * ((1 - u) ^ o * (z * y ^ o) * ((1 - u) ^ h * (y * y) ^ h)) == (1 - u) ^ (2 * h + o + h) * (z * y ^ e))%Q). { rewrite YH, !Qpower_plus by lra. ring. } rewrite EQ.
    apply mul_l_le; [nra|]. apply qp_down; [exact P1|lra|]. unfold o in *. destruct (Z.odd e); lia.
  - eapply Qle_trans; [exact R2|]. assert (C : (z' * y' ^ h <= (1 + u) ^ o * (z * y ^ o) * ((1 + u) ^ h * (y * y) ^ h))%Q) by (apply mul_le; try assumption; lra).
    assert (D : ((1 + u) ^ (2 * h) * (z' * y' ^ h) <= (1 + u) ^ (2 * h) * ((1 + u) ^ o * (z * y ^ o) * ((1 + u) ^ h * (y * y) ^ h)))%Q) by (apply mul_r_le; [lra|exact C]). eapply Qle_trans; [exact D|].
    assert (EQ : ((1 + u) ^ (2 * h) * ((1 + u) ^ o * (z * y ^ o) * ((1 + u) ^ h * (y * y) ^ h)) == (1 + u) ^ (2 * h + o + h) * (z * y ^ e))%Q). { rewrite YH, !Qpower_plus by lra. ring. } rewrite EQ.
    apply mul_l_le; [nra|]. apply qp_up; [lra|]. unfold o in *. destruct (Z.odd e); lia.
Qed.
Lemma pow_above p fuel : 8 <= p -> forall z y e r, (1 <= z)%Q -> (1 <= y)%Q -> int_power (rnd p) fuel z y e = Some r -> (1 <= r)%Q.
Proof.
  intros Hp. induction fuel as [|f IH]; intros z y e r Z1 Y1 H; cbn [int_power] in H; destruct (Z.leb_spec e 0) as [L|L]; try discriminate; try (injection H as <-; exact Z1).
  apply (IH _ _ _ _) in H; [exact H| |]; unfold fmul; [destruct (Z.odd e); [|exact Z1]|]; apply above_one; try lia; nra.
Qed.

(* the logarithm is not too large *)
Section LogLow.
Variables (p : Z) (y : Q).
Hypothesis Hp : 8 <= p.
Hypothesis Y0 : (0 < y)%Q.
Hypothesis Y1 : (y <= 1 # 2)%Q.
Hypothesis RY : representable p y.
Definition low (i : Z) : Q := (2 * ((101 # 100) * y) * (1 - pow2 (- i)) + 2 * inject_Z i * pow2 (- p))%Q.
Definition lgl (i : Z) (prev : Q) (s : at_st) : Prop := lgp p y i prev s /\ (- fst s <= low i)%Q.
Lemma p_small : 8 <= p -> (inject_Z p * pow2 (- p) <= 1 # 16)%Q.
Proof.
  clear. intros Hp. pose proof (small_power p Hp) as S. apply le_inject in S. rewrite inject_Z_mult, <-pow2_Z in S by lia. change (inject_Z 16) with 16%Q in S. pose proof (pow2_opp p) as O. pose proof (pow2_pos (- p)) as U. assert (16 * inject_Z p * pow2 (- p) <= pow2 p * pow2 (- p))%Q by (apply mul_l_le; assumption). lra.
Qed.
Lemma low_step i prev s : 0 <= i <= p -> lgl i prev s -> exists s', log_body (rnd p) i s = Ok s' /\ ((fst s' <= - y)%Q /\ (-2 <= fst s')%Q) /\
  (i < p -> lgl (i + 1) (fst s') (atan_next (rnd p) y (i + 1) s')) /\ (i = p -> (Qabs (rnd p (prev - fst s')) <= eps p (fst s'))%Q).
Proof using Hp Y0 Y1 RY.
  intros Hi [L B]. destruct (log_step p y Hp Y0 Y1 RY i prev s Hi L) as (s' & E & G & N & S). exists s'. split; [exact E|].
  destruct s as [z yN]. destruct L as (N0 & RN & NB & RZ & C). cbn [fst] in *. unfold log_body in E. destruct (fint_lo p (i + 1) Hp ltac:(lia)) as [F1 F2]. pose proof (fint_pos p (i + 1) Hp ltac:(lia)) as F0. rewrite fquo_ok in E by lra. cbn [bind] in E. injection E as E. subst s'. cbn [fst atan_next] in *. unfold fsub in *. set (f := fint (rnd p) (i + 1)) in *.
  assert (F3 : (1 <= f)%Q) by (apply above_one; [exact Hp|apply (le_inject 1); lia]).
  set (v := (yN / f)%Q) in *. assert (V : (v * f == yN)%Q) by (unfold v; field; lra). assert (V0 : (0 < v)%Q) by nra. assert (VY : (v <= yN)%Q) by nra. pose proof (rnd_pos p v Hp V0) as [T1 T2]. set (t := rnd p v) in *. pose proof (p_small Hp) as PS. pose proof (pow2_pos (- p)) as U0. pose proof (pow2_pos (- i)) as U1.
  assert (II : (inject_Z i * pow2 (- p) <= inject_Z p * pow2 (- p))%Q) by (apply mul_l_le; [exact U0|apply le_inject; lia]). unfold low in *.
  assert (YI : (y * pow2 (- i) <= (1 # 2) * pow2 (- i))%Q) by (apply mul_l_le; assumption).
  assert (PE : (pow2 (- i) == 2 * pow2 (- (i + 1)))%Q) by (rewrite <-pow2_S; replace (- (i + 1) + 1) with (- i) by lia; reflexivity).
  assert (Z2 : (0 <= - z)%Q) by (destruct C as [(_ & -> & _)|(_ & _ & C)]; lra). assert (P1 : (pow2 (- i) <= 1)%Q) by (rewrite <-pow2_0; apply pow2_le; lia).
  assert (YP : (0 < y * pow2 (- i))%Q) by nra.
  assert (Q2 : (t - z <= 2)%Q) by lra. assert (Q0 : (0 < t - z)%Q) by lra.
  assert (EZ : (rnd p (z - t) == - rnd p (t - z))%Q) by (rewrite <-FloatSign.rnd_opp; apply rnd_compat; [lia|ring]). destruct (rnd_in p (t - z) Q0) as [_ RU]. assert (RB : (- rnd p (z - t) <= t - z + 2 * pow2 (- p))%Q). { assert ((t - z) * pow2 (- p) <= 2 * pow2 (- p))%Q by (apply mul_l_le; assumption). lra. }
  split; [split; [exact G|]|].
  { pose proof (rnd_mono_any p (t - z) 2 ltac:(lia) Q2) as M. rewrite (rnd_exact p 2) in M; [lra|lia|]. exists 1, 1. split; [pose proof (Z.pow_pos_nonneg 2 p ltac:(lia) ltac:(lia)); lia|reflexivity]. }
  split; [|exact S]. intros LI. split; [apply N; exact LI|]. cbn [fst]. unfold low. rewrite inject_Z_plus. change (inject_Z 1) with 1%Q. rewrite PE in *. set (w := pow2 (- (i + 1))) in *. lra.
Qed.
End LogLow.
Lemma log_series_low p y fuel : 8 <= p <= 1000000 -> (0 < y)%Q -> (y <= 1 # 2)%Q -> representable p y -> p < Z.of_nat fuel -> exists z, log_series (rnd p) p fuel y = Some (Ok z) /\ (-2 <= z)%Q.
Proof.
  intros Hp Y0 Y1 RY Hf. unfold log_series. pose proof (new_loop_max 40 p ltac:(lia) ltac:(lia) ltac:(lia)) as M.
  destruct (series_total (rnd p) p at_st fst (log_body (rnd p)) (atan_next (rnd p) y) (lgl p y) (fun s => (fst s <= - y)%Q /\ (-2 <= fst s)%Q) p ltac:(lia) (low_step p y ltac:(lia) Y0 Y1 RY) fuel (new_loop 40 p) (0%Q, y)) as (s & E & G & G2); [cbn; lia|rewrite M; lia| |cbn; lia|].
  - cbn [new_loop l_i l_prev]. split; [|unfold low; cbn [fst]; change (pow2 (- 0)) with 1%Q; change (inject_Z 0) with 0%Q; lra]. split; [exact Y0|]. split; [exact RY|]. split; [change (pow2 (- 0)) with 1%Q; lra|]. split; [apply rep_zero; lia|]. left. auto.
  - rewrite E. cbn [result]. eexists. split; [reflexivity|exact G2].
Qed.
Lemma log_small p fuel log2 x z : 8 <= p <= 1000000 -> (0 <= log2)%Q -> (log2 <= 3 # 4)%Q -> p < Z.of_nat fuel -> (1 <= x)%Q -> (x <= pow2 (4 * p))%Q -> representable p x ->
  float_log (rnd p) p fuel log2 x = Some (Ok z) -> (z <= inject_Z (4 * p))%Q.
Proof.
  intros Hp L0 L1 Hf X1 X2 R E. assert (P8 : (8 <= inject_Z p)%Q) by (apply (le_inject 8); lia). rewrite inject_Z_mult. change (inject_Z 4) with 4%Q. unfold float_log in E. destruct (Qnum x <=? 0); [discriminate|]. destruct (Qeq_bool x 1) eqn:E1; [injection E as <-; lra|]. apply Qeq_bool_neq in E1.
  assert (Qle_bool x 1 = false) as LE. { destruct (Qle_bool x 1) eqn:Y; [apply Qle_bool_iff in Y; exfalso; apply E1; lra|reflexivity]. } rewrite LE in E. cbn [negb] in E. rewrite fquo_ok in E by lra.
  destruct (inverse_below p x ltac:(lia) ltac:(destruct (Qlt_le_dec 1 x) as [G|G]; [exact G|exfalso; apply E1; lra]) R) as [I0 I1]. pose proof (fint1 p ltac:(lia)) as F1. set (x' := rnd p (fint (rnd p) 1 / x)) in *.
  assert (XL : (pow2 (- (4 * p)) <= x')%Q).
  { set (v := (fint (rnd p) 1 / x)%Q) in *. assert (V : (v * x == 1)%Q) by (unfold v; rewrite F1; field; lra). pose proof (pow2_opp (4 * p)) as O. pose proof (pow2_pos (4 * p)). pose proof (pow2_pos (- (4 * p))) as QP. assert (pow2 (- (4 * p)) * x <= pow2 (- (4 * p)) * pow2 (4 * p))%Q by (apply mul_r_le; lra).
    assert (VL : (pow2 (- (4 * p)) <= v)%Q) by (apply (Qmult_le_r _ _ x); lra). pose proof (rnd_mono_any p _ _ ltac:(lia) VL) as M. rewrite (rnd_exact p (pow2 _)) in M; [exact M|lia|]. exists 1, (- (4 * p)). split; [pose proof (Z.pow_pos_nonneg 2 p ltac:(lia) ltac:(lia)); lia|ring]. }
  pose proof (mant_facts p x' I0 I1 ltac:(apply rep_rnd; lia)) as MF. assert (EL : - (4 * p) + 1 <= snd (mant_exp x')). { unfold mant_exp. assert (NZ : Qnum x' =? 0 = false) by (apply num_pos, I0). rewrite NZ. cbn [snd]. pose proof (ilog2_ge x' (- (4 * p)) I0 XL). lia. }
  destruct (mant_exp x') as [m e]. cbn [snd] in EL. destruct MF as (M0 & M1 & RM & E0).
  assert (YE : (fsub (rnd p) (fint (rnd p) 1) m == rnd p (1 - m))%Q) by (unfold fsub; apply rnd_compat; [lia|rewrite F1; reflexivity]).
  set (y := fsub (rnd p) (fint (rnd p) 1) m) in *. pose proof (rnd_pos p (1 - m) ltac:(lia) ltac:(lra)) as [P1 _]. pose proof (rnd_mono p (1 - m) (1 # 2) ltac:(lia) ltac:(lra) ltac:(lra)) as P2.
  rewrite (rnd_exact p (1 # 2)) in P2; [|lia|apply (rep_compat p ((1 # 2) * 1)); [reflexivity|apply rep_half, rep_one; lia]].
  destruct (log_series_low p y fuel Hp ltac:(lra) ltac:(lra) ltac:(apply rep_rnd; lia) Hf) as (s & SE & S2). rewrite SE in E. cbn [neg_res] in E. injection E as <-. unfold fadd, fmul.
  pose proof (small_power p ltac:(lia)) as SP. assert (FE : (fint (rnd p) e == inject_Z e)%Q). { unfold fint. apply (rnd_int p e); [lia|lia|reflexivity]. } set (g := fint (rnd p) e) in *.
  assert (EB : (- inject_Z (4 * p) <= inject_Z e)%Q) by (rewrite <-inject_Z_opp; apply le_inject; lia). rewrite inject_Z_mult in EB. change (inject_Z 4) with 4%Q in EB. assert (EU : (inject_Z e <= 0)%Q) by (apply (le_inject e 0); lia).
  assert (G : (- (g * log2) <= 3 * inject_Z p)%Q). { rewrite FE. assert ((- inject_Z e) * log2 <= (- inject_Z e) * (3 # 4))%Q by (apply mul_r_le; lra). lra. } assert (G0 : (0 <= - (g * log2))%Q) by (rewrite FE; nra).
  pose proof (rnd_up p (- (g * log2)) ltac:(lia) G0) as RU. rewrite FloatSign.rnd_opp in RU. set (ex := rnd p (g * log2)) in *.
  assert (0 <= - ex)%Q. { pose proof (rnd_nonneg p (- (g * log2)) ltac:(lia) G0) as N. rewrite FloatSign.rnd_opp in N. exact N. }
  destruct (Qlt_le_dec (- s + - ex) 0) as [N|N]; [pose proof (rnd_neg p _ ltac:(lia) N); lra|]. pose proof (rnd_up p _ ltac:(lia) N). lra.
Qed.
Lemma to_int64_facts a : (0 < a)%Q -> (a < inject_Z (2 ^ 63))%Q -> exists e b, to_int64 a = (e, b) /\ 0 <= e < 2 ^ 63 /\ (inject_Z e <= a)%Q /\ (a < inject_Z e + 1)%Q.
Proof.
  intros A B. unfold to_int64. assert (Qle_bool (inject_Z (2 ^ 63)) a = false) as ->. { destruct (Qle_bool _ a) eqn:E; [apply Qle_bool_iff in E; lra|reflexivity]. } do 2 eexists. split; [reflexivity|]. pose proof (Qfloor_le a) as F1. pose proof (Qlt_floor a) as F2. rewrite inject_Z_plus in F2. change (inject_Z 1) with 1%Q in F2.
  split; [|split; assumption]. split.
  - assert (inject_Z (- (1)) < inject_Z (Qfloor a))%Q as G by (change (inject_Z (- (1))) with (-(1))%Q; lra). rewrite <-Zlt_Qlt in G. lia.
  - assert (inject_Z (Qfloor a) < inject_Z (2 ^ 63))%Q as G by lra. rewrite <-Zlt_Qlt in G. exact G.
Qed.

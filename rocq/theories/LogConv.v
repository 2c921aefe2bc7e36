(* The series of value/log.go always settles, and the sign of a logarithm. *)
From Coq Require Import QArith Qabs Setoid Lqa Lia.
From Verif Require FloatOdd.
From Verif Require Import Value FloatModel FloatProofs FloatSqrt FloatMono FloatSign FloatReduce RandSpec MixProofs ArcModel ArcSpec ArcRound ArcProofs SqrtConv.
Open Scope Z_scope.

Lemma rep_half p z : representable p z -> representable p ((1 # 2) * z).
Proof. intros (m & e & M & E). exists m, (e - 1). split; [exact M|]. rewrite E. replace e with (e - 1 + 1) at 1 by lia. rewrite pow2_S. ring. Qed.
Lemma rep_rnd p q : 1 <= p -> representable p (rnd p q). Proof. intros H. apply rnd_nearest, H. Qed.
Lemma rep_one p : 0 <= p -> representable p 1.
Proof. intros H. exists 1, 0. split; [pose proof (Z.pow_pos_nonneg 2 p ltac:(lia) H); lia|reflexivity]. Qed.
Lemma settle_neg p z t : 1 <= p -> (z <= 0)%Q -> (0 <= t)%Q -> (0 < t - z)%Q -> (t <= pow2 (ilog2 (t - z) - p))%Q -> (Qabs (rnd p (z - rnd p (z - t))) <= eps p (rnd p (z - t)))%Q.
Proof.
  intros P Z0 T0 Q0 T. set (q := (t - z)%Q) in *. set (z' := rnd p (z - t)). assert (E : (- z' == rnd p q)%Q). { unfold z', q. rewrite <-FloatSign.rnd_opp. apply rnd_compat; [exact P|ring]. }
  pose proof (rnd_half p q Q0) as H. destruct (rnd_binade p q P Q0) as [B _]. pose proof (pow2_pos (ilog2 q)) as PP. assert (N0 : (0 < - z')%Q) by lra.
  rewrite <-(FloatOdd.eps_opp p z'). apply settle; [exact P|exact N0|]. pose proof (ilog2_ge (- z')%Q (ilog2 q) N0 ltac:(lra)) as L. eapply Qle_trans; [|apply (pow2_le (ilog2 q - p + 1)); lia]. rewrite pow2_S.
  apply abs_bd in H. apply Qabs_Qle_condition. unfold q in *. split; lra.
Qed.
Section Log.
Variables (p : Z) (y : Q).
Hypothesis Hp : 8 <= p.
Hypothesis Y0 : (0 < y)%Q.
Hypothesis Y1 : (y <= 1 # 2)%Q.
Hypothesis RY : representable p y.
Definition lgp (i : Z) (prev : Q) (s : at_st) : Prop :=
  let '(z, yN) := s in (0 < yN)%Q /\ representable p yN /\ (yN <= y * pow2 (- i))%Q /\ representable p z /\ ((i = 0 /\ z = 0%Q /\ yN = y) \/ (1 <= i /\ prev = z /\ (z <= - y)%Q)).
Lemma log_step i prev s : 0 <= i <= p -> lgp i prev s -> exists s', log_body (rnd p) i s = Ok s' /\ (fst s' <= - y)%Q /\
  (i < p -> lgp (i + 1) (fst s') (atan_next (rnd p) y (i + 1) s')) /\ (i = p -> (Qabs (rnd p (prev - fst s')) <= eps p (fst s'))%Q).
Proof using Hp Y0 Y1 RY.
  intros Hi. destruct s as [z yN]. intros (N0 & RN & NB & RZ & C). unfold log_body. destruct (fint_lo p (i + 1) Hp ltac:(lia)) as [F1 F2]. pose proof (fint_pos p (i + 1) Hp ltac:(lia)) as F0. rewrite fquo_ok by lra. cbn [bind]. set (f := fint (rnd p) (i + 1)) in *.
  set (v := (yN / f)%Q). assert (V : (v * f == yN)%Q) by (unfold v; field; lra). assert (V0 : (0 < v)%Q) by nra. pose proof (rnd_pos p v Hp V0) as [T1 T2]. set (t := rnd p v) in *. assert (T0 : (0 < t)%Q) by lra. unfold fsub. set (z' := rnd p (z - t)).
  exists (z', yN). split; [reflexivity|]. cbn [fst atan_next].
  assert (ZB : (z' <= - y)%Q).
  { assert (E : (z' == - rnd p (t - z))%Q) by (unfold z'; rewrite <-FloatSign.rnd_opp; apply rnd_compat; [lia|ring]). destruct C as [(-> & -> & ->)|(I1 & -> & B)].
    - assert (FE : (f == 1)%Q) by (apply fint1; lia). assert (TE : (t == y)%Q). { unfold t. rewrite (rnd_compat p v y) by (lia || (unfold v; rewrite FE; field)). apply rnd_exact; [lia|exact RY]. }
      rewrite E. rewrite (rnd_compat p (t - 0) y) by (lia || lra). rewrite (rnd_exact p y ltac:(lia) RY). lra.
    - pose proof (rnd_mono p (- z) (t - z) ltac:(lia) ltac:(lra) ltac:(lra)) as M. rewrite (rnd_exact p (- z) ltac:(lia) (rep_opp p z RZ)) in M. lra. }
  split; [exact ZB|]. split.
  - intros _. unfold fmul. assert (YY : (0 < yN * y)%Q) by nra. pose proof (rnd_pos p _ Hp YY) as [M1 _]. pose proof (rnd_mono p (yN * y) ((1 # 2) * yN) ltac:(lia) ltac:(lra) ltac:(nra)) as M. rewrite (rnd_exact p _ ltac:(lia) (rep_half p yN RN)) in M.
    split; [lra|]. split; [apply rep_rnd; lia|]. split; [|split; [apply rep_rnd; lia|right; split; [lia|]; split; [reflexivity|exact ZB]]].
    assert (PE : (pow2 (- i) == 2 * pow2 (- (i + 1)))%Q) by (rewrite <-pow2_S; replace (- (i + 1) + 1) with (- i) by lia; reflexivity). rewrite PE in NB. lra.
  - intros ->. destruct C as [(C & _)|(I1 & -> & B)]; [lia|]. apply settle_neg; [lia|lra|lra|lra|].
    assert (Q0 : (0 < t - z)%Q) by lra. destruct (ilog2_pos (t - z) Q0) as [_ L]. rewrite pow2_S in L. unfold Z.sub. rewrite pow2_add. set (k := pow2 (ilog2 (t - z))) in *. pose proof (pow2_pos (- p)) as U.
    assert (KY : ((1 # 2) * y <= k)%Q) by lra. assert ((1 # 2) * y * pow2 (- p) <= k * pow2 (- p))%Q by (apply mul_l_le; assumption). assert (9 <= inject_Z (p + 1))%Q as I9 by (change 9%Q with (inject_Z 9); rewrite <-Zle_Qle; lia).
    assert (FV : (v * 4 <= v * f)%Q) by (apply mul_r_le; lra). lra.
Qed.
End Log.
Lemma log_series_value p y fuel : 8 <= p <= 1000000 -> (0 < y)%Q -> (y <= 1 # 2)%Q -> representable p y -> p < Z.of_nat fuel -> exists z, log_series (rnd p) p fuel y = Some (Ok z) /\ (z <= - y)%Q.
Proof.
  intros Hp Y0 Y1 RY Hf. unfold log_series. pose proof (new_loop_max 40 p ltac:(lia) ltac:(lia) ltac:(lia)) as M.
  destruct (series_total (rnd p) p at_st fst (log_body (rnd p)) (atan_next (rnd p) y) (lgp p y) (fun s => (fst s <= - y)%Q) p ltac:(lia) (log_step p y ltac:(lia) Y0 Y1 RY) fuel (new_loop 40 p) (0%Q, y)) as (s & E & G); [cbn; lia|rewrite M; lia| |cbn; lia|].
  - cbn [new_loop l_i l_prev lgp]. split; [exact Y0|]. split; [exact RY|]. split; [change (pow2 (- 0)) with 1%Q; lra|]. split; [apply rep_zero; lia|]. left. auto.
  - rewrite E. cbn [result]. eexists. split; [reflexivity|exact G].
Qed.
Lemma mant_facts p x : (0 < x)%Q -> (x < 1)%Q -> representable p x -> let '(m, e) := mant_exp x in (1 # 2 <= m)%Q /\ (m < 1)%Q /\ representable p m /\ e <= 0.
Proof.
  intros X0 X1 (M & E & ML & XE). unfold mant_exp. assert (NZ : Qnum x =? 0 = false). { apply Z.eqb_neq. intros C0. destruct x as [a b]. cbn in C0. subst. unfold Qlt in X0. cbn in X0. lia. } rewrite NZ.
  destruct (ilog2_pos x X0) as [A B]. set (k := ilog2 x) in *. rewrite pow2_S in B. set (m := Qred _). assert (MM : (m == x * pow2 (- (k + 1)))%Q) by apply Qred_correct. pose proof (pow2_opp (k + 1)) as EO. rewrite pow2_S in EO. pose proof (pow2_pos (- (k + 1))). pose proof (pow2_pos k).
  split; [rewrite MM; nra|]. split; [rewrite MM; nra|]. split; [exists M, (E + - (k + 1)); split; [exact ML|]; rewrite MM, XE, pow2_add; ring|].
  assert (pow2 k < pow2 0)%Q as L by (rewrite pow2_0; lra). apply pow2_lt_inv in L. lia.
Qed.
(* the part of floatLog after the inversion *)
Lemma log_below p fuel log2 x : 8 <= p <= 1000000 -> (0 <= log2)%Q -> p < Z.of_nat fuel -> (0 < x)%Q -> (x < 1)%Q -> representable p x ->
  let '(m, e) := mant_exp x in exists z, log_series (rnd p) p fuel (fsub (rnd p) (fint (rnd p) 1) m) = Some (Ok z) /\ (z < 0)%Q /\ (fmul (rnd p) (fint (rnd p) e) log2 <= 0)%Q.
Proof.
  intros Hp L0 Hf X0 X1 R. pose proof (mant_facts p x X0 X1 R) as MF. destruct (mant_exp x) as [m e]. destruct MF as (M0 & M1 & RM & E0).
  pose proof (fint1 p ltac:(lia)) as F. assert (YE : (fsub (rnd p) (fint (rnd p) 1) m == rnd p (1 - m))%Q) by (unfold fsub; apply rnd_compat; [lia|rewrite F; reflexivity]).
  set (y := fsub (rnd p) (fint (rnd p) 1) m) in *. pose proof (rnd_pos p (1 - m) ltac:(lia) ltac:(lra)) as [P1 _]. pose proof (rnd_mono p (1 - m) (1 # 2) ltac:(lia) ltac:(lra) ltac:(lra)) as P2.
  rewrite (rnd_exact p (1 # 2)) in P2; [|lia|apply (rep_compat p ((1 # 2) * 1)); [reflexivity|apply rep_half, rep_one; lia]].
  destruct (log_series_value p y fuel Hp ltac:(lra) ltac:(lra) ltac:(apply rep_rnd; lia) Hf) as (z & E & Z0). exists z. split; [exact E|]. split; [lra|].
  unfold fmul. apply rnd_nonpos; [lia|]. assert (fint (rnd p) e <= 0)%Q. { unfold fint. apply rnd_nonpos; [lia|]. change 0%Q with (inject_Z 0). rewrite <-Zle_Qle. exact E0. } nra.
Qed.
Lemma rnd_neg p q : 8 <= p -> (q < 0)%Q -> (rnd p q < 0)%Q.
Proof. intros Hp H. pose proof (rnd_pos p (- q) Hp ltac:(lra)) as [A _]. assert (E : (rnd p q == - rnd p (- q))%Q) by (rewrite FloatSign.rnd_opp; ring). lra. Qed.
Lemma inverse_below p x : 8 <= p -> (1 < x)%Q -> representable p x -> (0 < rnd p (fint (rnd p) 1 / x) /\ rnd p (fint (rnd p) 1 / x) < 1)%Q.
Proof.
  intros Hp X1 R. pose proof (fint1 p ltac:(lia)) as F. set (v := (fint (rnd p) 1 / x)%Q). assert (V : (v * x == 1)%Q) by (unfold v; rewrite F; field; lra). assert (V0 : (0 < v)%Q) by nra. pose proof (rnd_pos p v Hp V0) as [A _]. split; [lra|].
  destruct (grid p x 0 ltac:(lia) R) as (n & N); [rewrite pow2_0; lra|]. pose proof (pow2_small p Hp) as [U0 U1]. replace (0 - p + 1) with (- p + 1) in N by lia. rewrite pow2_S in N. set (u := pow2 (- p)) in *.
  assert (XB : (1 + 2 * u <= x)%Q).
  { assert (ONE : (1 == inject_Z (2 ^ (p - 1)) * (2 * u))%Q). { rewrite <-pow2_Z by lia. unfold u. rewrite <-pow2_S, <-pow2_add. replace (p - 1 + (- p + 1)) with 0 by lia. reflexivity. }
    assert (L : 2 ^ (p - 1) < n). { destruct (Z_lt_le_dec (2 ^ (p - 1)) n) as [L|L]; [exact L|]. exfalso. rewrite Zle_Qle in L. assert (inject_Z n * (2 * u) <= inject_Z (2 ^ (p - 1)) * (2 * u))%Q by (apply mul_l_le; lra). lra. }
    apply inject_lt in L. assert ((inject_Z (2 ^ (p - 1)) + 1) * (2 * u) <= inject_Z n * (2 * u))%Q by (apply mul_l_le; lra). lra. }
  assert (C : representable p (1 - u)). { exists (2 ^ p - 1), (- p). split; [pose proof (Z.pow_pos_nonneg 2 p ltac:(lia) ltac:(lia)); lia|]. unfold Z.sub. rewrite inject_Z_plus, <-pow2_Z by lia. change (inject_Z (- (1))) with (-(1))%Q. pose proof (pow2_opp p) as PO. fold u in PO |- *. lra. }
  assert (VB : (v <= 1 - u)%Q). { assert (v * (1 + 2 * u) <= v * x)%Q by (apply mul_r_le; lra). assert (1 <= (1 - u) * (1 + 2 * u))%Q by nra. nra. }
  pose proof (rnd_mono p v (1 - u) ltac:(lia) ltac:(lra) VB) as M. rewrite (rnd_exact p _ ltac:(lia) C) in M. lra.
Qed.
Theorem log_total p fuel log2 x : 8 <= p <= 1000000 -> (0 <= log2)%Q -> p < Z.of_nat fuel -> (0 < x)%Q -> representable p x ->
  exists z, float_log (rnd p) p fuel log2 x = Some (Ok z) /\ ((x < 1)%Q -> (z < 0)%Q) /\ ((x == 1)%Q -> (z == 0)%Q) /\ ((1 < x)%Q -> (0 < z)%Q).
Proof.
  intros Hp L0 Hf X0 R. unfold float_log. assert (NP : Qnum x <=? 0 = false). { destruct x as [a b]. unfold Qlt in X0. cbn in *. lia. } rewrite NP.
  destruct (Qeq_bool x 1) eqn:E1; [apply Qeq_bool_eq in E1; exists 0%Q; split; [reflexivity|]; split; [|split]; intros; lra|]. apply Qeq_bool_neq in E1.
  destruct (Qle_bool x 1) eqn:L; cbn [negb].
  - apply Qle_bool_iff in L. assert (X1 : (x < 1)%Q). { destruct (Qlt_le_dec x 1) as [H|H]; [exact H|]. exfalso. apply E1. lra. }
    pose proof (log_below p fuel log2 x Hp L0 Hf X0 X1 R) as LB. destruct (mant_exp x) as [m e]. destruct LB as (z & E & Z0 & Z1). rewrite E. cbn [neg_res]. eexists. split; [reflexivity|]. unfold fadd. pose proof (rnd_neg p (z + fmul (rnd p) (fint (rnd p) e) log2) ltac:(lia) ltac:(lra)). split; [|split]; intros; lra.
  - assert (X1 : (1 < x)%Q). { destruct (Qlt_le_dec 1 x) as [H|H]; [exact H|]. apply Qle_bool_iff in H. congruence. } rewrite fquo_ok by lra. destruct (inverse_below p x ltac:(lia) X1 R) as [I0 I1].
    pose proof (log_below p fuel log2 _ Hp L0 Hf I0 I1 ltac:(apply rep_rnd; lia)) as LB. destruct (mant_exp (rnd p (fint (rnd p) 1 / x))) as [m e]. destruct LB as (z & E & Z0 & Z1). rewrite E. cbn [neg_res]. eexists. split; [reflexivity|]. unfold fadd.
    pose proof (rnd_pos p (- z + - fmul (rnd p) (fint (rnd p) e) log2) ltac:(lia) ltac:(lra)) as [P _]. split; [|split]; intros; lra.
Qed.

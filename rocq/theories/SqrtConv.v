(* Newton's method of value/sqrt.go always settles within its limit of 10 + p rounds. *)
From Coq Require Import QArith Qabs Setoid Lqa Lia.
From Verif Require FloatOdd.
From Verif Require Import Value FloatModel FloatProofs FloatSqrt FloatMono FloatSign FloatReduce RandSpec MixProofs ArcModel ArcSpec ArcRound ArcProofs.
Open Scope Z_scope.

Section Total2.
Variables (R : Q -> Q) (p : Z) (S : Type) (zof : S -> Q) (body : Z -> S -> res S) (next : Z -> S -> S).
Variables (P : Z -> Q -> S -> Prop) (N : Z).
Hypothesis step : forall i prev s, 0 <= i <= N -> P i prev s -> exists s', body i s = Ok s' /\
  ((3 <= i /\ (Qabs (R (prev - zof s')) <= eps p (zof s'))%Q) \/ (i < N /\ P (i + 1) (zof s') (next (i + 1) s'))).
Lemma series_total2 : forall fuel l s, 0 <= l_i l <= N -> N < l_max l < 2 ^ 64 -> P (l_i l) (l_prev l) s -> N - l_i l < Z.of_nat fuel ->
  exists s', series R p S zof body next fuel l s = Some (Ok s').
Proof using step.
  induction fuel as [|f IH]; intros l s Hi Hm HP Hf; [lia|]. cbn [series]. destruct (step _ _ _ Hi HP) as (s' & B & H). rewrite B. unfold done.
  destruct (_ && _); [eauto|]. destruct (Qle_bool _ _ && _) eqn:E; [eauto|]. rewrite Z.mod_small by lia.
  destruct H as [(I3 & X)|(L & H1)]. { apply Qle_bool_iff in X. rewrite X in E. cbn in E. lia. }
  destruct (Z.eqb_spec (l_i l + 1) (l_max l)); [lia|]. apply IH; cbn [l_i l_max l_prev]; [lia|lia|exact H1|lia].
Qed.
End Total2.

Lemma rel p q : exists d, (rnd p q == q * (1 + d))%Q /\ (- pow2 (- p) <= d)%Q /\ (d <= pow2 (- p))%Q.
Proof.
  pose proof (pow2_pos (- p)) as U. destruct (Qeq_dec q 0) as [E|E].
  - exists 0%Q. rewrite rnd_zero by exact E. rewrite E. split; [ring|]. split; lra.
  - exists ((rnd p q - q) / q)%Q. split; [field; exact E|]. pose proof (rnd_error p q) as H. apply Qabs_Qle_condition.
    assert (A : (0 < Qabs q)%Q). { destruct (Qlt_le_dec 0 (Qabs q)) as [L|L]; [exact L|]. pose proof (Qabs_nonneg q). exfalso. apply E. destruct (abs_ge q). lra. }
    assert (V : (Qabs ((rnd p q - q) / q) * Qabs q == Qabs (rnd p q - q))%Q). { rewrite <-Qabs_Qmult. apply Qabs_wd. field. exact E. }
    set (v := Qabs ((rnd p q - q) / q)) in *. nra.
Qed.
Lemma rep_two p z : representable p z -> representable p (2 * z).
Proof. intros (m & e & M & E). exists m, (e + 1). split; [exact M|]. rewrite pow2_S, E. ring. Qed.
Lemma newton_step p x z i : 8 <= p -> (0 < z)%Q -> representable p z -> exists t e h, newton (rnd p) x i z = Ok (rnd p (z - t)) /\
  (2 * (z * t) == z * z - x + e + h)%Q /\ (Qabs h <= (201 # 100) * pow2 (- p) * (Qabs (z * z - x) + Qabs e))%Q /\ (Qabs e <= z * z * pow2 (- p))%Q /\ (Qabs e <= pow2 (ilog2 (z * z) - p))%Q.
Proof.
  intros Hp Z0 R. pose proof (pow2_small p Hp) as [U0 U1]. set (u := pow2 (- p)) in *. unfold newton, fmul, fsub.
  assert (F2 : (fint (rnd p) 2 == 2)%Q). { apply (rnd_int p 2); [lia| |reflexivity]. pose proof (Z.pow_le_mono_r 2 1 p ltac:(lia) ltac:(lia)). lia. }
  assert (DE : (rnd p (fint (rnd p) 2 * z) == 2 * z)%Q). { rewrite (rnd_compat p _ (2 * z)) by (lia || (rewrite F2; reflexivity)). apply rnd_exact; [lia|apply rep_two, R]. }
  set (den := rnd p (fint (rnd p) 2 * z)) in *. assert (ZZ : (0 < z * z)%Q) by nra.
  pose proof (rnd_half p (z * z) ZZ) as EH. pose proof (rnd_error p (z * z)) as EE. rewrite (Qabs_pos (z * z)) in EE by lra. fold u in EE. set (zz := rnd p (z * z)) in *.
  destruct (rel p (zz - x)) as (d2 & D2 & D21 & D22). destruct (rel p (rnd p (zz - x) / den)) as (d4 & D4 & D41 & D42). fold u in D21, D22, D41, D42.
  rewrite fquo_ok by lra. cbn [bind]. set (num := rnd p (zz - x)) in *. set (t := rnd p (num / den)) in *. exists t, (zz - z * z)%Q, ((d2 + d4 + d2 * d4) * (zz - x))%Q. split; [reflexivity|].
  split. { rewrite D4, DE, D2. field. lra. }
  split; [|split; assumption]. rewrite Qabs_Qmult. assert (A : (Qabs (d2 + d4 + d2 * d4) <= (201 # 100) * u)%Q).
  { assert (X : (Qabs (d2 * d4) <= u * u)%Q). { rewrite Qabs_Qmult. apply mul_le; try apply Qabs_nonneg; apply Qabs_Qle_condition; split; assumption. } apply abs_bd in X. assert (u * u <= u * (1 # 256))%Q by (apply mul_r_le; lra). apply Qabs_Qle_condition. split; lra. }
  assert (B : (Qabs (zz - x) <= Qabs (z * z - x) + Qabs (zz - z * z))%Q). { setoid_replace (zz - x)%Q with (z * z - x + (zz - z * z))%Q by ring. apply Qabs_triangle. }
  apply mul_le; [apply Qabs_nonneg|exact A|apply Qabs_nonneg|exact B].
Qed.
(* the square after a step, before the last rounding *)
Lemma square_after p x z t e h c : 8 <= p -> (0 < z)%Q -> (2 * (z * t) == z * z - x + e + h)%Q -> (Qabs h <= (201 # 100) * pow2 (- p) * (Qabs (z * z - x) + Qabs e))%Q ->
  (0 <= c)%Q -> ((504 # 1000) * (Qabs (z * z - x) + Qabs e) <= c * (z * z))%Q ->
  (Qabs (z * t) <= (504 # 1000) * (Qabs (z * z - x) + Qabs e))%Q /\ (Qabs t <= c * z)%Q /\
  exists q, ((z - t) * (z - t) - x == q - e - h)%Q /\ (0 <= q)%Q /\ (q <= c * Qabs (z * t))%Q.
Proof.
  intros Hp Z0 E H C0 HC. pose proof (pow2_small p Hp) as [U0 U1]. set (u := pow2 (- p)) in *. set (g := Qabs (z * z - x)) in *. pose proof (Qabs_nonneg (z * z - x)) as G0. fold g in G0. pose proof (Qabs_nonneg e) as E0.
  assert (H1 : (Qabs h <= (201 # 100) * (1 # 256) * (g + Qabs e))%Q). { eapply Qle_trans; [exact H|]. assert (0 <= ((1 # 256) - u) * (g + Qabs e))%Q by (apply Qmult_le_0_compat; lra). lra. }
  assert (T : (Qabs (z * t) <= (504 # 1000) * (g + Qabs e))%Q).
  { destruct (abs_ge (z * z - x)), (abs_ge e), (abs_ge h). fold g in H0, H2. apply Qabs_Qle_condition. split; lra. }
  split; [exact T|]. assert (TC : (Qabs (z * t) <= c * (z * z))%Q) by lra. assert (TZ : (Qabs (z * t) == z * Qabs t)%Q) by (rewrite Qabs_Qmult, (Qabs_pos z) by lra; reflexivity).
  assert (TB : (Qabs t <= c * z)%Q). { assert (z * Qabs t <= z * (c * z))%Q as X by lra. destruct (Qlt_le_dec (c * z) (Qabs t)) as [L|L]; [|exact L]. assert (z * (c * z) < z * Qabs t)%Q by (apply Qmult_lt_l; assumption). lra. }
  split; [exact TB|]. exists (t * t)%Q. split; [lra|]. assert (SQ : (t * t == Qabs t * Qabs t)%Q) by (rewrite <-Qabs_Qmult; symmetry; apply Qabs_pos; nra). pose proof (Qabs_nonneg t) as T0. split; [nra|].
  rewrite SQ, TZ. assert (Qabs t * Qabs t <= c * z * Qabs t)%Q by (apply mul_le; lra). lra.
Qed.
Lemma sq0 a : (0 <= a * a)%Q.
Proof. unfold Qle. cbn. nia. Qed.
Lemma sq_round p a : 8 <= p -> (Qabs (rnd p a * rnd p a - a * a) <= (201 # 100) * (pow2 (- p) * (a * a)))%Q.
Proof.
  intros Hp. pose proof (pow2_small p Hp) as [U0 U1]. destruct (rel p a) as (d & E & D1 & D2). set (u := pow2 (- p)) in *.
  setoid_replace (rnd p a * rnd p a - a * a)%Q with (a * a * (d * (2 + d)))%Q by (rewrite E; ring). assert (A0 : (0 <= a * a)%Q) by nra.
  rewrite Qabs_Qmult, (Qabs_pos (a * a)) by exact A0. assert (X : (Qabs (d * (2 + d)) <= (201 # 100) * u)%Q).
  { rewrite Qabs_Qmult. assert (Y1 : (Qabs d <= u)%Q) by (apply Qabs_Qle_condition; split; lra). assert (Y2 : (Qabs (2 + d) <= 201 # 100)%Q) by (apply Qabs_Qle_condition; split; lra). pose proof (mul_le _ _ _ _ (Qabs_nonneg d) Y1 (Qabs_nonneg (2 + d)) Y2). lra. }
  pose proof (mul_r_le _ _ _ A0 X). lra.
Qed.
Lemma step_gen p x z i c : 8 <= p -> (0 < x)%Q -> (0 < z)%Q -> representable p z -> (0 <= c)%Q ->
  ((504 # 1000) * (Qabs (z * z - x) + z * z * pow2 (- p)) <= c * (z * z))%Q ->
  exists z' b, newton (rnd p) x i z = Ok z' /\ (0 < z')%Q /\ representable p z' /\ (0 <= b)%Q /\ (Qabs (z' * z' - b) <= (201 # 100) * (pow2 (- p) * b))%Q /\
    let m := (Qabs (z * z - x) + z * z * pow2 (- p))%Q in
    (x - z * z * pow2 (- p) - (201 # 100) * (pow2 (- p) * m) <= b)%Q /\ (b <= x + z * z * pow2 (- p) + (201 # 100) * (pow2 (- p) * m) + c * ((504 # 1000) * m))%Q.
Proof.
  intros Hp X0 Z0 R C0 HC. destruct (newton_step p x z i Hp Z0 R) as (t & e & h & N & E & H & E1 & E2). destruct (newton_ok p x z Hp X0 Z0) as (z1 & N1 & N2).
  change (newton (rnd p) x 0 z) with (newton (rnd p) x i z) in N1. assert (z1 = rnd p (z - t)) as -> by congruence.
  pose proof (pow2_small p Hp) as [U0 U1]. set (u := pow2 (- p)) in *. pose proof (Qabs_nonneg (z * z - x)) as G0. pose proof (Qabs_nonneg e) as E0.
  destruct (square_after p x z t e h c Hp Z0 E H C0 ltac:(lra)) as (T1 & T2 & q & QE & Q0 & Q1). exists (rnd p (z - t)), ((z - t) * (z - t))%Q. split; [exact N|]. split; [exact N2|]. split; [apply rnd_nearest; lia|]. split; [apply sq0|]. split; [apply sq_round, Hp|]. cbv zeta.
  set (g := Qabs (z * z - x)) in *. set (uy := (z * z * u)%Q) in *. destruct (abs_ge e), (abs_ge h). fold u in H.
  assert (HB : (Qabs h <= (201 # 100) * (u * (g + uy)))%Q). { assert (0 <= u * (uy - Qabs e))%Q by (apply Qmult_le_0_compat; lra). lra. }
  assert (QB : (q <= c * ((504 # 1000) * (g + uy)))%Q). { eapply Qle_trans; [exact Q1|]. apply mul_r_le; [exact C0|]. lra. }
  split; lra.
Qed.
Lemma u_le u v : (0 < u)%Q -> (u <= 1 # 256)%Q -> (0 <= v)%Q -> (0 <= u * v /\ u * v <= (1 # 256) * v)%Q.
Proof. intros. split; [apply Qmult_le_0_compat; lra|]. assert (0 <= ((1 # 256) - u) * v)%Q by (apply Qmult_le_0_compat; lra). lra. Qed.
Section Phases.
Variables (p : Z) (x : Q).
Hypothesis Hp : 8 <= p.
Hypothesis X0 : (0 < x)%Q.
Let u := pow2 (- p).
(* from the start to between .97 and 1.63 *)
Lemma phase0 z i : (0 < z)%Q -> representable p z -> (x <= 4 * (z * z))%Q -> (z * z <= 2 * x)%Q ->
  exists z', newton (rnd p) x i z = Ok z' /\ (0 < z')%Q /\ representable p z' /\ ((97 # 100) * x <= z' * z')%Q /\ (z' * z' <= (163 # 100) * x)%Q.
Proof.
  intros Z0 R L1 L2. pose proof (pow2_small p Hp) as [U0 U1]. fold u in U0, U1. assert (Y0 : (0 < z * z)%Q) by nra. destruct (Qlt_le_dec x (z * z)) as [S|S].
  - destruct (step_gen p x z i (26 # 100) Hp X0 Z0 R ltac:(lra)) as (z' & b & N & P & RR & B0 & B1 & B2 & B3); [rewrite Qabs_pos by lra; fold u; pose proof (u_le u (z * z) U0 U1 ltac:(lra)); lra|].
    rewrite Qabs_pos in B2, B3 by lra. fold u in B1, B2, B3. pose proof (u_le u (z * z) U0 U1 ltac:(lra)) as V1. pose proof (u_le u (z * z - x + z * z * u) U0 U1 ltac:(lra)) as V2. pose proof (u_le u b U0 U1 B0) as V3. apply abs_bd in B1.
    exists z'. split; [exact N|]. split; [exact P|]. split; [exact RR|]. split; lra.
  - destruct (step_gen p x z i (152 # 100) Hp X0 Z0 R ltac:(lra)) as (z' & b & N & P & RR & B0 & B1 & B2 & B3); [rewrite Qabs_neg by lra; fold u; pose proof (u_le u (z * z) U0 U1 ltac:(lra)); lra|].
    rewrite Qabs_neg in B2, B3 by lra. fold u in B1, B2, B3. pose proof (u_le u (z * z) U0 U1 ltac:(lra)) as V1. pose proof (u_le u (- (z * z - x) + z * z * u) U0 U1 ltac:(lra)) as V2. pose proof (u_le u b U0 U1 B0) as V3. apply abs_bd in B1.
    exists z'. split; [exact N|]. split; [exact P|]. split; [exact RR|]. split; lra.
Qed.
Lemma phase1 z i : (0 < z)%Q -> representable p z -> ((97 # 100) * x <= z * z)%Q -> (z * z <= (163 # 100) * x)%Q ->
  exists z', newton (rnd p) x i z = Ok z' /\ (0 < z')%Q /\ representable p z' /\ (Qabs (z' * z' - x) <= (9 # 100) * x)%Q.
Proof.
  intros Z0 R L1 L2. pose proof (pow2_small p Hp) as [U0 U1]. fold u in U0, U1. assert (Y0 : (0 < z * z)%Q) by nra.
  assert (G : (Qabs (z * z - x) <= (63 # 163) * (z * z))%Q) by (apply Qabs_Qle_condition; split; lra). assert (G2 : (Qabs (z * z - x) <= (63 # 100) * x)%Q) by (apply Qabs_Qle_condition; split; lra). pose proof (Qabs_nonneg (z * z - x)) as G0.
  destruct (step_gen p x z i (197 # 1000) Hp X0 Z0 R ltac:(lra)) as (z' & b & N & P & RR & B0 & B1 & B2 & B3); [fold u; pose proof (u_le u (z * z) U0 U1 ltac:(lra)); lra|].
  fold u in B1, B2, B3. pose proof (u_le u (z * z) U0 U1 ltac:(lra)) as V1. pose proof (u_le u (Qabs (z * z - x) + z * z * u) U0 U1 ltac:(lra)) as V2. pose proof (u_le u b U0 U1 B0) as V3. apply abs_bd in B1.
  exists z'. split; [exact N|]. split; [exact P|]. split; [exact RR|]. apply Qabs_Qle_condition. split; lra.
Qed.
Lemma phase2 z i : (0 < z)%Q -> representable p z -> (Qabs (z * z - x) <= (9 # 100) * x)%Q ->
  exists z', newton (rnd p) x i z = Ok z' /\ (0 < z')%Q /\ representable p z' /\ (Qabs (z' * z' - x) <= (9 # 100) * x)%Q /\ (Qabs (z' * z' - x) <= (1 # 32) * Qabs (z * z - x) + (34 # 10) * (u * x))%Q.
Proof.
  intros Z0 R G. pose proof (pow2_small p Hp) as [U0 U1]. fold u in U0, U1. assert (Y0 : (0 < z * z)%Q) by nra. pose proof (abs_bd _ _ G) as [L1 L2]. pose proof (Qabs_nonneg (z * z - x)) as G0. set (g := Qabs (z * z - x)) in *.
  destruct (step_gen p x z i (52 # 1000) Hp X0 Z0 R ltac:(lra)) as (z' & b & N & P & RR & B0 & B1 & B2 & B3); [fold u g; pose proof (u_le u (z * z) U0 U1 ltac:(lra)); lra|].
  fold u g in B1, B2, B3. pose proof (u_le u (z * z) U0 U1 ltac:(lra)) as V1. assert (UX : (0 <= u * x)%Q) by (apply Qmult_le_0_compat; lra).
  assert (W1 : (u * (z * z) <= u * ((109 # 100) * x))%Q) by (apply mul_r_le; lra). pose proof (u_le u (u * (z * z)) U0 U1 ltac:(lra)) as V4. assert (W2 : (u * g <= u * ((9 # 100) * x))%Q) by (apply mul_r_le; lra). assert (W3 : (0 <= u * g)%Q) by (apply Qmult_le_0_compat; lra).
  apply abs_bd in B1. cbv zeta in B2, B3. pose proof (u_le u x U0 U1 ltac:(lra)) as V5.
  assert (BX : (b <= (101 # 100) * x)%Q) by lra. assert (W5 : (u * b <= u * ((101 # 100) * x))%Q) by (apply mul_r_le; lra).
  assert (FIN : (Qabs (z' * z' - x) <= (1 # 32) * g + (34 # 10) * (u * x))%Q) by (apply Qabs_Qle_condition; split; lra).
  exists z'. split; [exact N|]. split; [exact P|]. split; [exact RR|]. split; [lra|exact FIN].
Qed.
End Phases.
Lemma settle p z d : 1 <= p -> (0 < z)%Q -> (Qabs d <= pow2 (ilog2 z + 1 - p))%Q -> (Qabs (rnd p d) <= eps p z)%Q.
Proof.
  intros P P0 D. unfold eps, mant_exp. assert (NZ : Qnum z =? 0 = false). { apply Z.eqb_neq. intros C0. destruct z as [a b]. cbn in C0. subst. unfold Qlt in P0. cbn in P0. lia. } rewrite NZ. cbn [snd].
  set (k := ilog2 z + 1 - p) in *. assert (RE : (rnd p (pow2 k) == pow2 k)%Q). { apply rnd_exact; [exact P|]. exists 1, k. split; [pose proof (Z.pow_pos_nonneg 2 p ltac:(lia) ltac:(lia)); lia|ring]. }
  destruct (Qlt_le_dec d 0) as [N|N].
  - assert (X : (rnd p d == - rnd p (- d))%Q). { rewrite FloatSign.rnd_opp. ring. } rewrite X, Qabs_opp. rewrite Qabs_neg in D by lra.
    rewrite Qabs_pos by (apply rnd_nonneg'; [exact P|lra]). rewrite <-RE. apply rnd_mono; [exact P|lra|lra].
  - rewrite Qabs_pos in D by lra. rewrite Qabs_pos by (apply rnd_nonneg'; [exact P|lra]). rewrite <-RE. apply rnd_mono; [exact P|lra|lra].
Qed.
Definition good (p : Z) (x z : Q) : Prop := (Qabs (z * z - x) <= (22 # 10) * (z * pow2 (ilog2 z - p + 1)))%Q.
Lemma fin p x z i : 8 <= p -> (0 < x)%Q -> (0 < z)%Q -> representable p z -> (Qabs (z * z - x) <= 4 * (pow2 (- p) * x))%Q ->
  exists z', newton (rnd p) x i z = Ok z' /\ (0 < z')%Q /\ representable p z' /\ ((98 # 100) * z <= z')%Q /\ good p x z' /\
    (good p x z -> (pow2 (ilog2 z) <= z')%Q -> (Qabs (rnd p (z - z')) <= eps p z')%Q).
Proof.
  intros Hp X0 Z0 R G. destruct (newton_step p x z i Hp Z0 R) as (t & e & h & N & E & H & E1 & E2). destruct (newton_ok p x z Hp X0 Z0) as (z1 & N1 & N2).
  change (newton (rnd p) x 0 z) with (newton (rnd p) x i z) in N1. assert (z1 = rnd p (z - t)) as -> by congruence.
  pose proof (pow2_small p Hp) as [U0 U1]. destruct (ilog2_pos z Z0) as [K1 K2]. set (k := ilog2 z) in *. set (w := pow2 (k - p + 1)). assert (W0 : (0 < w)%Q) by apply pow2_pos.
  assert (WE : (w == 2 * pow2 k * pow2 (- p))%Q). { unfold w. replace (k - p + 1) with (k + 1 + - p) by lia. rewrite pow2_add, pow2_S. reflexivity. }
  rewrite pow2_S in K2. pose proof (pow2_pos k) as KP. set (u := pow2 (- p)) in *. set (kk := pow2 k) in *.
  assert (Y0 : (0 < z * z)%Q) by nra. pose proof (Qabs_nonneg (z * z - x)) as G0. pose proof (Qabs_nonneg e) as E0.
  assert (UZW : (u * z <= w)%Q). { assert (u * z <= u * (2 * kk))%Q by (apply mul_r_le; lra). lra. }
  assert (WUZ : (w <= 2 * (u * z))%Q). { assert (u * kk <= u * z)%Q by (apply mul_r_le; lra). lra. }
  set (W := (z * w)%Q). assert (UYW : (z * z * u <= W)%Q). { assert (z * (u * z) <= z * w)%Q by (apply mul_r_le; lra). unfold W. lra. }
  assert (WUY : (W <= 2 * (z * z * u))%Q). { assert (z * w <= z * (2 * (u * z)))%Q by (apply mul_r_le; lra). unfold W. lra. }
  (* the distance in terms of z *)
  destruct (u_le u x U0 U1 ltac:(lra)) as [UX0 UX]. destruct (abs_bd _ _ G) as [G1 G2].
  assert (XY : (u * x <= (1016 # 1000) * (z * z * u))%Q). { assert (u * x <= u * ((1016 # 1000) * (z * z)))%Q by (apply mul_r_le; lra). lra. }
  set (g := Qabs (z * z - x)) in *. set (U := (z * z * u)%Q) in *. assert (UY : (0 <= U /\ U <= (1 # 256) * (z * z))%Q). { pose proof (u_le u (z * z) U0 U1 ltac:(lra)). unfold U. lra. }
  assert (GU : (g <= (407 # 100) * U)%Q) by lra.
  destruct (square_after p x z t e h (1 # 99) Hp Z0 E H ltac:(lra)) as (T1 & T2 & q & QE & Q0 & Q1); [fold g; lra|]. fold g u in H, T1.
  assert (HB : (Qabs h <= (4 # 100) * W)%Q). { assert (u * (g + Qabs e) <= (1 # 256) * (g + Qabs e))%Q by (apply (u_le u); lra). lra. }
  assert (QB : (q <= (26 # 1000) * W)%Q) by lra. destruct (abs_ge e) as [e1 e2], (abs_ge h) as [h1 h2], (abs_ge t) as [t1 t2].
  set (a := (z - t)%Q) in *. assert (AZ : ((98 # 99) * z <= a /\ a <= (100 # 99) * z)%Q) by (unfold a; lra). assert (A0 : (0 < a)%Q) by lra.
  (* the rounding of the square *)
  assert (EB : (Qabs e <= (7072 # 10000) * W)%Q /\ ((z * z < 2 * (kk * kk))%Q -> (Qabs e <= (1 # 2) * W)%Q)).
  { set (j := ilog2 (z * z)) in *. destruct (ilog2_pos (z * z) Y0) as [J1 J2]. fold j in J1, J2. assert (P2k : (pow2 (2 * k) == kk * kk)%Q) by (unfold kk; replace (2 * k) with (k + k) by lia; apply pow2_add).
    assert (KW : (pow2 (2 * k - p) == (1 # 2) * (kk * w))%Q). { rewrite WE. unfold kk, u. unfold Z.sub. rewrite pow2_add, P2k. unfold kk. ring. }
    assert (kw : (kk * w <= W)%Q) by (unfold W; apply mul_l_le; lra). destruct (Z_le_gt_dec j (2 * k)) as [L|L].
    - assert (pow2 (j - p) <= pow2 (2 * k - p))%Q by (apply pow2_le; lia). split; intros; lra.
    - assert (BIG : (2 * (kk * kk) <= z * z)%Q). { rewrite <-P2k, <-pow2_S. eapply Qle_trans; [|exact J1]. apply pow2_le. lia. }
      split; [|intros; lra]. assert (JL : j <= 2 * k + 1). { assert (z * z < pow2 (2 * k + 1 + 1))%Q. { rewrite !pow2_S, P2k. nra. } assert (pow2 j < pow2 (2 * k + 1 + 1))%Q as PJ by lra. apply pow2_lt_inv in PJ. lia. }
      assert (pow2 (j - p) <= pow2 (2 * k - p + 1))%Q as PJ by (apply pow2_le; lia). rewrite pow2_S, KW in PJ. assert (KZ : (kk <= (7072 # 10000) * z)%Q).
      { destruct (Qlt_le_dec ((7072 # 10000) * z) kk) as [C|C]; [|exact C]. exfalso. assert ((7072 # 10000) * z * ((7072 # 10000) * z) <= kk * kk)%Q by (apply mul_le; lra). lra. }
      assert (kk * w <= (7072 # 10000) * z * w)%Q by (apply mul_l_le; lra). unfold W. lra. }
  destruct EB as [EB1 EB2].
  (* the rounding of the result *)
  pose proof (rnd_half p a A0) as RH. destruct (ilog2_pos a A0) as [I1 I2]. pose proof (rnd_binade p a ltac:(lia) A0) as [RB _]. set (z' := rnd p a) in *. assert (RZ' : representable p z') by (apply rnd_nearest; lia).
  pose proof (pow2_S (k - p)) as HW. replace (k - p + 1) with (k - p + 1) in HW by lia. fold w in HW.
  assert (SQD : forall r, (0 <= r)%Q -> (Qabs (z' - a) <= r)%Q -> (Qabs (z' * z' - a * a) <= 2 * (a * r) + r * r)%Q).
  { intros r R0 RR. setoid_replace (z' * z' - a * a)%Q with ((z' - a) * (2 * a + (z' - a)))%Q by ring. rewrite Qabs_Qmult. destruct (abs_bd _ _ RR) as [r1 r2]. assert (RX : (Qabs (2 * a + (z' - a)) <= 2 * a + r)%Q) by (apply Qabs_Qle_condition; split; lra).
    pose proof (mul_le _ _ _ _ (Qabs_nonneg _) RR (Qabs_nonneg _) RX). lra. }
  assert (aw : (a * w <= (100 # 99) * W)%Q). { assert (a * w <= (100 # 99) * z * w)%Q by (apply mul_l_le; lra). unfold W. lra. }
  assert (uz : (u * z <= (1 # 256) * z)%Q) by (apply (u_le u z); lra). assert (wz : (w <= (1 # 128) * z)%Q) by lra. assert (ww : (w * w <= (1 # 128) * W)%Q). { assert (w * w <= (1 # 128) * z * w)%Q by (apply mul_l_le; lra). unfold W. lra. }
  assert (WP : (0 < W)%Q) by (unfold W; nra).
  assert (CASES : ((a < kk)%Q /\ ilog2 a = k - 1) \/ ((kk <= a)%Q /\ (a < 2 * kk)%Q /\ ilog2 a = k) \/ ((2 * kk <= a)%Q /\ ilog2 a = k + 1)).
  { destruct (Qlt_le_dec a kk) as [C|C]; [left|right; destruct (Qlt_le_dec a (2 * kk)) as [C2|C2]; [left|right]].
    - split; [exact C|]. assert (pow2 (ilog2 a) < pow2 k)%Q as L by (fold kk; lra). apply pow2_lt_inv in L. assert (L2 : k - 1 <= ilog2 a). { apply ilog2_ge; [exact A0|]. pose proof (pow2_S (k - 1)) as PS. replace (k - 1 + 1) with k in PS by lia. fold kk in PS. lra. } lia.
    - split; [exact C|]. split; [exact C2|]. pose proof (ilog2_ge a k A0 C). assert (pow2 (ilog2 a) < pow2 (k + 1))%Q as L by (rewrite pow2_S; fold kk; lra). apply pow2_lt_inv in L. lia.
    - split; [exact C2|]. assert (k + 1 <= ilog2 a) by (apply ilog2_ge; [exact A0|rewrite pow2_S; exact C2]). assert (pow2 (ilog2 a) < pow2 (k + 1 + 1))%Q as L by (rewrite !pow2_S; fold kk; lra). apply pow2_lt_inv in L. lia. }
  assert (Zg : forall c, ilog2 a = c -> (pow2 (c - p + 1) <= pow2 (ilog2 z' - p + 1))%Q). { intros c C. apply pow2_le. pose proof (ilog2_ge z' (ilog2 a) N2 RB). lia. }
  set (w' := pow2 (ilog2 z' - p + 1)) in *.
  assert (ROUND : exists r, (0 <= r)%Q /\ (r <= w)%Q /\ (Qabs (z' - a) <= r)%Q). { exists w. split; [lra|]. split; [lra|]. eapply Qle_trans; [exact RH|]. destruct CASES as [(_ & ->)|[(_ & _ & ->)|(_ & ->)]]; [eapply Qle_trans; [apply (pow2_le _ (k - p)); lia|lra]|lra|]. replace (k + 1 - p) with (k - p + 1) by lia. fold w. lra. }
  destruct ROUND as (r0 & r00 & r01 & r02). apply abs_bd in r02. assert (ZZ' : ((98 # 100) * z <= z')%Q) by lra. clear r0 r00 r01 r02.
  assert (zw : ((98 # 100) * W <= z' * w)%Q). { assert ((98 # 100) * z * w <= z' * w)%Q by (apply mul_l_le; lra). unfold W. lra. }
  exists z'. split; [exact N|]. split; [exact N2|]. split; [exact RZ'|]. split; [exact ZZ'|]. split.
  - unfold good. fold w'. setoid_replace (z' * z' - x)%Q with (z' * z' - a * a + (a * a - x))%Q by ring. eapply Qle_trans; [apply Qabs_triangle|].
    assert (AX : (Qabs (a * a - x) <= Qabs e + (66 # 1000) * W)%Q) by (apply Qabs_Qle_condition; split; lra).
    destruct CASES as [(C & I)|[(C & C2 & I)|(C & I)]]; rewrite I in RH; specialize (Zg _ I).
    + assert (SM : (z * z < 2 * (kk * kk))%Q). { assert (z <= (99 # 98) * kk)%Q as zk by lra. assert (z * z <= (99 # 98) * kk * ((99 # 98) * kk))%Q by (apply mul_le; lra). nra. } specialize (EB2 SM).
      pose proof (pow2_S (k - 1 - p)) as P3. replace (k - 1 - p + 1) with (k - p) in P3 by lia. replace (k - 1 - p + 1) with (k - p) in Zg by lia.
      assert (zw' : (z' * ((1 # 2) * w) <= z' * w')%Q) by (apply mul_r_le; lra). pose proof (SQD ((1 # 4) * w)%Q ltac:(lra) ltac:(lra)) as S. assert (aw2 : (a * w <= W)%Q) by (unfold W; apply mul_l_le; lra). lra.
    + fold w in Zg. assert (zw' : (z' * w <= z' * w')%Q) by (apply mul_r_le; lra). pose proof (SQD ((1 # 2) * w)%Q ltac:(lra) ltac:(lra)) as S. lra.
    + replace (k + 1 - p) with (k - p + 1) in * by lia. rewrite pow2_S in Zg. fold w in Zg, RH. assert (zw' : (z' * (2 * w) <= z' * w')%Q) by (apply mul_r_le; lra). pose proof (SQD w ltac:(lra) RH) as S. lra.
  - intros GD KZ. unfold good in GD. fold w W g in GD. fold k in GD. fold w W in GD.
    assert (TW : (z * Qabs t <= z * ((147 # 100) * w))%Q). { rewrite Qabs_Qmult, (Qabs_pos z) in T1 by lra. unfold W in *. lra. }
    assert (TB : (Qabs t <= (147 # 100) * w)%Q). { destruct (Qlt_le_dec ((147 # 100) * w) (Qabs t)) as [C|C]; [|exact C]. assert (z * ((147 # 100) * w) < z * Qabs t)%Q by (apply Qmult_lt_l; assumption). lra. }
    destruct (grid p z k ltac:(lia) R K1) as (n & NE). destruct (grid p z' k ltac:(lia) RZ' KZ) as (n' & NE'). fold w in NE, NE'.
    apply settle; [lia|exact N2|]. replace (ilog2 z' + 1 - p) with (ilog2 z' - p + 1) by lia. fold w'. pose proof (ilog2_ge z' k N2 KZ) as KI. assert (w <= w')%Q as ww' by (unfold w, w'; apply pow2_le; lia).
    apply abs_bd in RH. assert (AE : (a == z - t)%Q) by reflexivity.
    assert (NEAR : ((Qabs (z - z') < 2 * w)%Q \/ ((Qabs (z - z') < 3 * w)%Q /\ (2 * w <= w')%Q))).
    { destruct CASES as [(C & I)|[(C & C2 & I)|(C & I)]]; rewrite I in RH.
      - left. pose proof (pow2_le (k - 1 - p) (k - p) ltac:(lia)). apply Qabs_Qlt_condition. split; lra.
      - left. apply Qabs_Qlt_condition. split; lra.
      - right. specialize (Zg _ I). replace (k + 1 - p) with (k - p + 1) in * by lia. rewrite pow2_S in Zg. fold w in Zg, RH. split; [apply Qabs_Qlt_condition; split; lra|exact Zg]. }
    assert (NW : (z - z' == inject_Z (n - n') * w)%Q). { rewrite NE, NE'. unfold Z.sub. rewrite inject_Z_plus, inject_Z_opp. ring. } rewrite NW in NEAR |- *.
    rewrite Qabs_Qmult, (Qabs_pos w) in * by lra. change (Qabs (inject_Z (n - n'))) with (inject_Z (Z.abs (n - n'))) in *. set (m := Z.abs (n - n')) in *.
    destruct NEAR as [NR|[NR WW]].
    + assert (m <= 1). { destruct (Z_le_gt_dec m 1) as [L|L]; [exact L|]. exfalso. assert (2 <= m) as L2 by lia. rewrite Zle_Qle in L2. change (inject_Z 2) with 2%Q in L2. assert (2 * w <= inject_Z m * w)%Q by (apply mul_l_le; assumption). lra. }
      rewrite Zle_Qle in H0. change (inject_Z 1) with 1%Q in H0. assert (inject_Z m * w <= 1 * w)%Q by (apply mul_l_le; assumption). lra.
    + assert (m <= 2). { destruct (Z_le_gt_dec m 2) as [L|L]; [exact L|]. exfalso. assert (3 <= m) as L2 by lia. rewrite Zle_Qle in L2. change (inject_Z 3) with 3%Q in L2. assert (3 * w <= inject_Z m * w)%Q by (apply mul_l_le; assumption). lra. }
      rewrite Zle_Qle in H0. change (inject_Z 2) with 2%Q in H0. assert (inject_Z m * w <= 2 * w)%Q by (apply mul_l_le; assumption). lra.
Qed.
Lemma start_facts p x : (0 < x)%Q -> representable p x -> (0 < sqrt_start x)%Q /\ representable p (sqrt_start x) /\ (x <= 4 * (sqrt_start x * sqrt_start x))%Q /\ (sqrt_start x * sqrt_start x <= 2 * x)%Q.
Proof.
  intros X0 (M & E & ML & XE). unfold sqrt_start, mant_exp. assert (NZ : Qnum x =? 0 = false). { apply Z.eqb_neq. intros C0. destruct x as [a b]. cbn in C0. subst. unfold Qlt in X0. cbn in X0. lia. } rewrite NZ.
  destruct (ilog2_pos x X0) as [A B]. set (k := ilog2 x) in *. set (e := k + 1). set (j := Z.quot e 2). set (m := Qred (x * pow2 (- e))). assert (MM : (m == x * pow2 (- e))%Q) by apply Qred_correct.
  set (z := Qred (m * pow2 j)). assert (ZE : (z == m * pow2 j)%Q) by apply Qred_correct. assert (EO : (pow2 (- e) * pow2 e == 1)%Q) by apply pow2_opp. pose proof (pow2_pos (- e)) as PE. pose proof (pow2_pos j) as PJ.
  assert (XM : (x == m * pow2 e)%Q) by (rewrite MM, <-Qmult_assoc, EO; ring). assert (PK : (pow2 e == 2 * pow2 k)%Q) by apply pow2_S. pose proof (pow2_pos k) as P0. rewrite pow2_S in B.
  assert (M1 : (1 # 2 <= m /\ m < 1)%Q). { rewrite MM. split; nra. } assert (Z0 : (0 < z)%Q) by (rewrite ZE; nra). split; [exact Z0|]. split.
  { exists M, (E - e + j). split; [exact ML|]. rewrite ZE, MM, XE. unfold Z.sub. rewrite !pow2_add. ring. }
  pose proof (Z.quot_rem' e 2) as QR. fold j in QR. assert (RB : Z.rem e 2 = -1 \/ Z.rem e 2 = 0 \/ Z.rem e 2 = 1). { pose proof (Z.rem_bound_abs e 2 ltac:(lia)) as X. lia. }
  assert (SQ : (z * z == m * m * (pow2 j * pow2 j))%Q) by (rewrite ZE; ring). assert (JJ : (pow2 j * pow2 j == pow2 (2 * j))%Q) by (rewrite <-pow2_add; replace (2 * j) with (j + j) by lia; reflexivity).
  pose proof (pow2_pos (2 * j)) as PJ2. set (J := pow2 (2 * j)) in *. rewrite JJ in SQ.
  assert (mm : ((1 # 2) * m <= m * m /\ m * m <= m)%Q) by (split; nra). set (n := (m * m)%Q) in *.
  assert (nJ : ((1 # 2) * m * J <= n * J /\ n * J <= m * J)%Q) by (split; apply mul_l_le; lra).
  destruct RB as [RB|[RB|RB]]; rewrite RB in QR.
  - assert (PX : (J == 2 * pow2 e)%Q). { unfold J. replace (2 * j) with (e + 1) by lia. apply pow2_S. } assert (mJ : (m * J == 2 * x)%Q) by (rewrite PX, XM; ring). split; lra.
  - assert (PX : (J == pow2 e)%Q). { unfold J. replace (2 * j) with e by lia. reflexivity. } assert (mJ : (m * J == x)%Q) by (rewrite PX, XM; ring). split; lra.
  - assert (PX : (pow2 e == 2 * J)%Q). { unfold J. replace e with (2 * j + 1) by lia. apply pow2_S. } assert (mJ : (x == 2 * (m * J))%Q) by (rewrite XM, PX; ring). split; lra.
Qed.
Section Run.
Variables (p : Z) (x : Q).
Hypothesis Hp : 8 <= p.
Hypothesis X0 : (0 < x)%Q.
Definition sq_p (i : Z) (prev z : Q) : Prop :=
  (0 < z)%Q /\ representable p z /\
  ((i = 0 /\ (x <= 4 * (z * z))%Q /\ (z * z <= 2 * x)%Q) \/
   (i = 1 /\ ((97 # 100) * x <= z * z)%Q /\ (z * z <= (163 # 100) * x)%Q) \/
   (2 <= i <= p + 2 /\ (Qabs (z * z - x) <= (9 # 100) * x)%Q /\ (Qabs (z * z - x) <= pow2 (2 - i) * ((9 # 100) * x) + (36 # 10) * (pow2 (- p) * x))%Q) \/
   (i = p + 3 /\ prev = z /\ (Qabs (z * z - x) <= (9 # 100) * x)%Q /\ (Qabs (z * z - x) <= 4 * (pow2 (- p) * x))%Q /\ good p x z) \/
   (i = p + 4 /\ prev = z /\ (Qabs (z * z - x) <= 4 * (pow2 (- p) * x))%Q /\ good p x z /\ ((3 # 2) * pow2 (ilog2 z) <= z)%Q)).
Lemma sq_step i prev z : 0 <= i <= p + 4 -> sq_p i prev z -> exists z', newton (rnd p) x i z = Ok z' /\
  ((3 <= i /\ (Qabs (rnd p (prev - z')) <= eps p z')%Q) \/ (i < p + 4 /\ sq_p (i + 1) z' z')).
Proof using Hp X0.
  intros Hi (Z0 & R & C). pose proof (pow2_small p Hp) as [U0 U1]. set (u := pow2 (- p)) in *. assert (UX : (0 < u * x)%Q) by nra.
  destruct C as [(-> & A & B)|[(-> & A & B)|[(I & A & B)|[(-> & -> & A & B & G)|(-> & -> & B & G & D)]]]].
  - destruct (phase0 p x Hp X0 z 0 Z0 R A B) as (z' & N & P & RR & L1 & L2). exists z'. split; [exact N|]. right. split; [lia|]. split; [exact P|]. split; [exact RR|]. right. left. split; [reflexivity|]. split; assumption.
  - destruct (phase1 p x Hp X0 z 1 Z0 R A B) as (z' & N & P & RR & L). exists z'. split; [exact N|]. right. split; [lia|]. split; [exact P|]. split; [exact RR|]. right. right. left. split; [lia|]. split; [exact L|]. change (pow2 (2 - (1 + 1))) with 1%Q. fold u. lra.
  - destruct (Z.eq_dec i (p + 2)) as [->|NI].
    + replace (2 - (p + 2)) with (- p) in B by lia. fold u in B. assert (B4 : (Qabs (z * z - x) <= 4 * (u * x))%Q) by lra.
      destruct (fin p x z (p + 2) Hp X0 Z0 R B4) as (z' & N & P & RR & L & G & _). destruct (phase2 p x Hp X0 z (p + 2) Z0 R A) as (z2 & N2 & _ & _ & L1 & L2). assert (z2 = z') as -> by congruence. fold u in L2.
      exists z'. split; [exact N|]. right. split; [lia|]. split; [exact P|]. split; [exact RR|]. right. right. right. left. split; [lia|]. split; [reflexivity|]. split; [exact L1|]. split; [fold u; lra|exact G].
    + destruct (phase2 p x Hp X0 z i Z0 R A) as (z' & N & P & RR & L1 & L2). fold u in L2. exists z'. split; [exact N|]. right. split; [lia|]. split; [exact P|]. split; [exact RR|]. right. right. left. split; [lia|]. split; [exact L1|]. fold u.
      assert (PE : (pow2 (2 - i) == 2 * pow2 (2 - (i + 1)))%Q) by (rewrite <-pow2_S; replace (2 - (i + 1) + 1) with (2 - i) by lia; reflexivity). rewrite PE in B. pose proof (pow2_pos (2 - (i + 1))). assert (0 <= pow2 (2 - (i + 1)) * x)%Q by nra. lra.
  - destruct (fin p x z (p + 3) Hp X0 Z0 R B) as (z' & N & P & RR & L & G2 & ST). destruct (phase2 p x Hp X0 z (p + 3) Z0 R A) as (z2 & N2 & _ & _ & L1 & L2). assert (z2 = z') as -> by congruence. fold u in L2.
    exists z'. split; [exact N|]. destruct (Qlt_le_dec z' (pow2 (ilog2 z))) as [C|C]; [right|left; split; [lia|apply ST; assumption]]. split; [lia|]. split; [exact P|]. split; [exact RR|]. right. right. right. right. split; [lia|]. split; [reflexivity|]. split; [fold u; lra|]. split; [exact G2|].
    destruct (ilog2_pos z Z0) as [K1 _]. destruct (ilog2_pos z' P) as [K3 _]. assert (LT : (pow2 (ilog2 z') < pow2 (ilog2 z))%Q) by lra. apply pow2_lt_inv in LT. assert (LE : (pow2 (ilog2 z' + 1) <= pow2 (ilog2 z))%Q) by (apply pow2_le; lia). rewrite pow2_S in LE. lra.
  - destruct (fin p x z (p + 4) Hp X0 Z0 R B) as (z' & N & P & RR & L & G2 & ST). exists z'. split; [exact N|]. left. split; [lia|]. apply ST; [exact G|]. pose proof (pow2_pos (ilog2 z)). lra.
Qed.
End Run.
(* every square root of a positive number comes out *)
Theorem sqrt_converges p x fuel : 8 <= p <= 1000000 -> (0 < x)%Q -> representable p x -> p + 4 < Z.of_nat fuel -> converges p fuel x.
Proof.
  intros Hp X0 R Hf. unfold converges, float_sqrt. assert (N0 : 0 < Qnum x). { destruct x as [a b]. unfold Qlt in X0. cbn in *. lia. } replace (Qnum x <? 0) with false by lia. replace (Qnum x =? 0) with false by lia.
  destruct (start_facts p x X0 R) as (S0 & SR & S1 & S2). pose proof (new_loop_max 1 p ltac:(lia) ltac:(lia) ltac:(lia)) as M.
  apply (series_total2 (rnd p) p Q (fun z => z) (newton (rnd p) x) (fun _ z => z) (sq_p p x) (p + 4) (sq_step p x ltac:(lia) X0)); [cbn; lia|rewrite M; lia| |cbn; lia].
  cbn [new_loop l_i l_prev]. split; [exact S0|]. split; [exact SR|]. left. auto.
Qed.

(* The square root of the square of a number of p bits is that number. *)
From Coq Require Import QArith Qabs Setoid Lqa Lia.
From Verif Require Import Value FloatModel FloatProofs FloatSqrt FloatMono FloatSign FloatReduce RandSpec MixProofs ArcModel ArcSpec ArcRound ArcProofs SqrtConv LogConv HypProofs.
Open Scope Z_scope.

Lemma sq_nonneg a : (0 <= a * a)%Q. Proof. nra. Qed.
Definition rep_inv (p : Z) (l : looper) (z : Q) : Prop := (0 < z)%Q /\ representable p z /\ 0 <= l_i l /\ (0 < l_i l -> l_prev l = z).
Lemma last_step p x fuel z : 8 <= p -> (0 < x)%Q -> representable p x -> float_sqrt (rnd p) p fuel x = Some (Ok z) ->
  exists y, (0 < y)%Q /\ representable p y /\ newton (rnd p) x 0 y = Ok z /\ (0 < z)%Q /\ (Qabs (rnd p (y - z)) <= 2 * (z * pow2 (- p)))%Q.
Proof.
  intros Hp Hx Hr. unfold float_sqrt.
  assert (0 < Qnum x) as Nx. { destruct x as [n d]. unfold Qlt in Hx. cbn in *. lia. }
  destruct (Z.ltb_spec (Qnum x) 0); [lia|]. destruct (Z.eqb_spec (Qnum x) 0); [lia|]. intros H1.
  assert (rep_inv p (new_loop 1 p) (sqrt_start x)) as I0.
  { destruct (start_facts p x Hx Hr) as (A & B & _). split; [exact A|]. split; [exact B|]. cbn; lia. }
  eapply series_inv with (I := rep_inv p) in H1; [|clear - Hp Hx|exact I0].
  - destruct H1 as (l & y & (Hy & Ry & Hi & Hprev) & B & D). clear fuel I0.
    assert (newton (rnd p) x 0 y = Ok z) as B' by exact B.
    destruct (newton_ok p x y Hp Hx Hy) as (z' & Ez & Hz). rewrite B' in Ez. injection Ez as <-. exists y. split; [exact Hy|]. split; [exact Ry|]. split; [exact B'|]. split; [exact Hz|].
    unfold done in D. assert (3 <= l_i l /\ (Qabs (rnd p (l_prev l - z)) <= 2 * (z * pow2 (- p)))%Q) as [L3 Dl].
    { pose proof (eps_le p z ltac:(lra)) as E. rewrite (Qabs_pos z) in E by lra. destruct (pow2_small p Hp) as [U1 U2].
      destruct (Qeq_bool _ 0 && (3 <=? l_i l)) eqn:E1.
      - apply Bool.andb_true_iff in E1. destruct E1 as [E1 E2]. apply Qeq_bool_iff in E1. apply Z.leb_le in E2. split; [exact E2|].
        rewrite E1. change (Qabs 0) with 0%Q. nra.
      - destruct (Qle_bool _ _ && (3 <=? l_i l)) eqn:E2; [|destruct (_ =? _); discriminate].
        apply Bool.andb_true_iff in E2. destruct E2 as [E2 E3]. apply Qle_bool_iff in E2. apply Z.leb_le in E3. split; [exact E3|]. lra. }
    rewrite Hprev in Dl by lia. exact Dl.
  - intros l y z1 l' (Hy & Ry & Hi & Hp1) B D. destruct (newton_ok p x y Hp Hx Hy) as (z' & Ez & Hz).
    assert (newton (rnd p) x 0 y = Ok z1) as B' by exact B. rewrite B' in Ez. injection Ez as <-.
    unfold done in D. destruct (_ && _); [discriminate|]. destruct (_ && _); [discriminate|].
    destruct (_ =? _); [discriminate|]. injection D as <-. split; [exact Hz|]. split.
    + revert B'. unfold newton. destruct (fquo _ _ _); try discriminate. cbn [bind]. intros [= <-]. unfold fsub. apply rep_rnd. lia.
    + cbn [l_i l_prev]. split; [|reflexivity]. apply Z.mod_pos_bound. reflexivity.
Qed.

Lemma abs_le a b : (- b <= a)%Q -> (a <= b)%Q -> (Qabs a <= b)%Q. Proof. intros. apply Qabs_Qle_condition. split; assumption. Qed.
(* the last argument of newton is within 19 units of the root *)
Lemma near_root u s y z d : (0 < u)%Q -> (u <= 1 # 65536)%Q -> (0 < s)%Q -> (0 < z)%Q -> (Qabs (z * z - s * s) <= 16 * (s * s * u))%Q ->
  (- u <= d)%Q -> (d <= u)%Q -> (Qabs ((y - z) * (1 + d)) <= 2 * (z * u))%Q ->
  (- (16 * (s * u)) <= z - s /\ z - s <= 16 * (s * u) /\ - (19 * (s * u)) <= y - s /\ y - s <= 19 * (s * u))%Q.
Proof.
  intros U U1 S Z A D1 D2 B. apply abs_bd in A, B. destruct A as [A1 A2]. destruct B as [B1 B2].
  assert (P : (0 < s * u)%Q) by (apply Qmult_lt_0_compat; assumption). set (w := (s * u)%Q) in *. assert (W : (s * s * u == s * w)%Q) by (unfold w; ring). rewrite W in A1, A2. clear W.
  assert (W1 : (w <= s * (1 # 65536))%Q) by (unfold w; nra).
  assert (C1 : (z - s <= 16 * w)%Q). { destruct (Qlt_le_dec (16 * w) (z - s)) as [H|H]; [|exact H]. exfalso. assert (E : (z * z - s * s == (z - s) * (z + s))%Q) by ring. assert (F : (16 * w * (z + s) < (z - s) * (z + s))%Q) by (apply Qmult_lt_compat_r; lra). assert (0 < w * z)%Q by (apply Qmult_lt_0_compat; assumption). lra. }
  assert (C2 : (- (16 * w) <= z - s)%Q). { destruct (Qlt_le_dec (z - s) (- (16 * w))) as [H|H]; [|exact H]. exfalso. assert (E : (z * z - s * s == (z - s) * (z + s))%Q) by ring. assert (F : ((z - s) * (z + s) < - (16 * w) * (z + s))%Q) by (apply Qmult_lt_compat_r; lra). assert (0 < w * z)%Q by (apply Qmult_lt_0_compat; assumption). lra. }
  assert (ZW : (z * u <= (101 # 100) * w)%Q). { assert (z <= (101 # 100) * s)%Q by lra. assert (z * u <= (101 # 100) * s * u)%Q by (apply mul_l_le; assumption). assert ((101 # 100) * s * u == (101 # 100) * w)%Q by (unfold w; ring). lra. }
  assert (C3 : (y - z <= 3 * w)%Q). { destruct (Qlt_le_dec (3 * w) (y - z)) as [H|H]; [|exact H]. exfalso. assert (F : (3 * w * (1 + d) < (y - z) * (1 + d))%Q) by (apply Qmult_lt_compat_r; lra). assert (w * (- (1 # 65536)) <= w * d)%Q by (apply mul_r_le; lra). lra. }
  assert (C4 : (- (3 * w) <= y - z)%Q). { destruct (Qlt_le_dec (y - z) (- (3 * w))) as [H|H]; [|exact H]. exfalso. assert (F : ((y - z) * (1 + d) < - (3 * w) * (1 + d))%Q) by (apply Qmult_lt_compat_r; lra). assert (w * (- (1 # 65536)) <= w * d)%Q by (apply mul_r_le; lra). lra. }
  repeat split; lra.
Qed.
(* one step of newton from there, before the last rounding: v = y - t *)
Lemma step_error u s y w1 d t : (0 < u)%Q -> (u <= 1 # 65536)%Q -> (0 < s)%Q -> (- (19 * (s * u)) <= y - s)%Q -> (y - s <= 19 * (s * u))%Q ->
  (Qabs w1 <= u * (y * y))%Q -> (- (3 * u) <= d)%Q -> (d <= 3 * u)%Q -> (2 * y * t == (y * y + w1 - s * s) * (1 + d))%Q ->
  (Qabs (2 * y * (y - t - s) + w1) <= 500 * (s * u) * (s * u))%Q.
Proof.
  intros U U1 S Y1 Y2 W D1 D2 T. apply abs_bd in W. destruct W as [WA WB].
  assert (E : (2 * y * (y - t - s) + w1 == (y - s) * (y - s) - d * ((y - s) * (2 * s + (y - s)) + w1))%Q). { assert (X : (2 * y * (y - t - s) + w1 == 2 * y * y - 2 * y * s + w1 - 2 * y * t)%Q) by ring. rewrite X, T. ring. }
  set (e := (y - s)%Q) in *. set (w := (s * u)%Q) in *. assert (P : (0 < w)%Q) by (apply Qmult_lt_0_compat; assumption). assert (W1 : (w <= s * (1 # 65536))%Q) by (unfold w; nra).
  assert (YE : (y == s + e)%Q) by (unfold e; ring).
  assert (E1 : (e * e <= 361 * w * w)%Q) by nra. assert (E2 : (0 <= e * e)%Q) by nra.
  assert (YS : (0 <= y /\ y <= (101 # 100) * s)%Q) by lra. assert (YY : (u * (y * y) <= (103 # 100) * (w * s))%Q). { assert (y * y <= ((101 # 100) * s) * ((101 # 100) * s))%Q by (apply mul_le; lra). assert (u * (y * y) <= u * (((101 # 100) * s) * ((101 # 100) * s)))%Q by (apply mul_r_le; lra). assert (u * (((101 # 100) * s) * ((101 # 100) * s)) == (10201 # 10000) * (w * s))%Q by (unfold w; ring). assert (0 < w * s)%Q by (apply Qmult_lt_0_compat; assumption). lra. }
  assert (M : (- (40 * (w * s)) <= e * (2 * s + e) + w1 /\ e * (2 * s + e) + w1 <= 40 * (w * s))%Q).
  { assert (e * (2 * s + e) == 2 * (e * s) + e * e)%Q by ring. assert (- (19 * w) * s <= e * s)%Q by (apply mul_l_le; assumption). assert (e * s <= 19 * w * s)%Q by (apply mul_l_le; assumption). assert (w * w <= w * (s * (1 # 65536)))%Q by (apply mul_r_le; lra). assert (0 < w * s)%Q by (apply Qmult_lt_0_compat; assumption). split; lra. }
  set (g := (e * (2 * s + e) + w1)%Q) in *. assert (G : (40 * (w * s) * (3 * u) == 120 * w * w)%Q) by (unfold w; ring). assert (WS : (0 < w * s)%Q) by (apply Qmult_lt_0_compat; assumption). set (k := (40 * (w * s))%Q) in *.
  assert (DG : (- (k * (3 * u)) <= d * g /\ d * g <= k * (3 * u))%Q). { assert (0 <= k)%Q by (unfold k; lra). split; nra. }
  apply abs_le; rewrite E; lra.
Qed.

Lemma grid_eq a b h : (0 < h)%Q -> (exists n, a == inject_Z n * h)%Q -> (exists n, b == inject_Z n * h)%Q -> (Qabs (a - b) < h)%Q -> (a == b)%Q.
Proof.
  intros H (n & N) (m & M) A. assert (E : (a - b == inject_Z (n - m) * h)%Q). { rewrite N, M. unfold Z.sub. rewrite inject_Z_plus, inject_Z_opp. ring. } rewrite E in A. rewrite Qabs_Qmult, (Qabs_pos h) in A by lra.
  assert (B : (Qabs (inject_Z (n - m)) < 1)%Q). { destruct (Qlt_le_dec (Qabs (inject_Z (n - m))) 1) as [L|L]; [exact L|]. exfalso. assert (1 * h <= Qabs (inject_Z (n - m)) * h)%Q by (apply mul_l_le; assumption). lra. }
  assert (n = m). { unfold Qlt in B. cbn in B. lia. } subst. rewrite N, M. reflexivity.
Qed.
Lemma half_at p q e : (0 < q)%Q -> (q < pow2 (e + 1))%Q -> (Qabs (rnd p q - q) <= pow2 (e - p))%Q.
Proof. intros H L. eapply Qle_trans; [apply rnd_half; exact H|]. apply pow2_le. destruct (ilog2_pos q H) as [A _]. assert (pow2 (ilog2 q) < pow2 (e + 1))%Q as X by lra. apply pow2_lt_inv in X. lia. Qed.

Lemma near_exact p v s : 1 <= p -> (0 < v)%Q -> representable p s -> (Qabs (rnd p v - s) <= 2 * Qabs (v - s))%Q.
Proof.
  intros P V R. pose proof (rnd_nearest_pos p v s P V R) as N. rewrite (Qabs_Qminus s v) in N. assert (E : (rnd p v - s == (rnd p v - v) + (v - s))%Q) by ring. rewrite E. eapply Qle_trans; [apply Qabs_triangle|]. lra.
Qed.

Section Exact.
Variables (p n j : Z) (s : Q).
Hypotheses (Hp : 16 <= p) (Hn : 1 <= n) (Hnn : n * n <= 2 ^ p) (Hs : (s == inject_Z n * pow2 j)%Q).

Lemma s_pos : (0 < s)%Q. Proof. rewrite Hs. apply Qmult_lt_0_compat; [unfold Qlt; cbn; lia|apply pow2_pos]. Qed.
Lemma s_rep : representable p s. Proof. exists n, j. split; [nia|exact Hs]. Qed.
Lemma u_small : (0 < pow2 (- p) /\ pow2 (- p) <= 1 # 65536)%Q. Proof. split; [apply pow2_pos|]. change (1 # 65536) with (pow2 (-16)). apply pow2_le. lia. Qed.
(* 19 units are less than the distance to a power of two *)
Lemma room : (19 * (s * pow2 (- p)) < pow2 j)%Q.
Proof.
  assert (A : 19 * n < 2 ^ p). { assert (2 ^ 16 <= 2 ^ p) by (apply Z.pow_le_mono_r; lia). change (2 ^ 16) with 65536 in *. destruct (Z_lt_le_dec n 20); nia. }
  pose proof (pow2_opp p) as O. rewrite (pow2_Z p) in O by lia. destruct u_small as [U _]. pose proof (pow2_pos j) as J. rewrite Hs. set (u := pow2 (- p)) in *.
  assert (B : (inject_Z (19 * n) < inject_Z (2 ^ p))%Q) by (rewrite <-Zlt_Qlt; exact A). rewrite inject_Z_mult in B. change (inject_Z 19) with 19%Q in B. assert (C : (19 * inject_Z n * u < inject_Z (2 ^ p) * u)%Q) by (apply Qmult_lt_compat_r; assumption).
  assert (D : (19 * inject_Z n * u < 1)%Q) by lra. assert (E : (19 * inject_Z n * u * pow2 j < 1 * pow2 j)%Q) by (apply Qmult_lt_compat_r; assumption). assert (19 * (inject_Z n * pow2 j * u) == 19 * inject_Z n * u * pow2 j)%Q by ring. lra.
Qed.
Lemma gap e : (pow2 e < s)%Q -> (s < pow2 (e + 1))%Q -> (pow2 e + pow2 j <= s /\ s + pow2 j <= pow2 (e + 1))%Q.
Proof.
  intros A B. assert (J : j <= e). { destruct (Z_lt_le_dec e j) as [L|L]; [|exact L]. exfalso. assert (pow2 (e + 1) <= pow2 j)%Q by (apply pow2_le; lia). assert (1 <= inject_Z n)%Q by (change 1%Q with (inject_Z 1); rewrite <-Zle_Qle; lia). pose proof (pow2_pos j). rewrite Hs in B. assert (1 * pow2 j <= inject_Z n * pow2 j)%Q by (apply mul_l_le; assumption). lra. }
  pose proof (pow2_pos j) as PJ. assert (E1 : (pow2 e == inject_Z (2 ^ (e - j)) * pow2 j)%Q) by (rewrite <-pow2_Z by lia; rewrite <-pow2_add; replace (e - j + j) with e by lia; reflexivity).
  assert (E2 : (pow2 (e + 1) == inject_Z (2 ^ (e - j + 1)) * pow2 j)%Q) by (rewrite <-pow2_Z by lia; rewrite <-pow2_add; replace (e - j + 1 + j) with (e + 1) by lia; reflexivity).
  rewrite Hs, E1 in A. rewrite Hs, E2 in B. apply Qmult_lt_r in A, B; try exact PJ. rewrite <-Zlt_Qlt in A, B. rewrite E1, E2, Hs.
  assert (A' : (inject_Z (2 ^ (e - j) + 1) <= inject_Z n)%Q) by (rewrite <-Zle_Qle; lia). assert (B' : (inject_Z (n + 1) <= inject_Z (2 ^ (e - j + 1)))%Q) by (rewrite <-Zle_Qle; lia). rewrite inject_Z_plus in A', B'. change (inject_Z 1) with 1%Q in *.
  apply (mul_l_le _ _ (pow2 j) PJ) in A', B'. split; lra.
Qed.

Lemma sqrt_exact_n x fuel z : (x == s * s)%Q -> float_sqrt (rnd p) p fuel x = Some (Ok z) -> (z == s)%Q.
Proof.
  intros X F. pose proof s_pos as S0. pose proof s_rep as SR. destruct u_small as [U0 U1]. assert (X0 : (0 < x)%Q) by (rewrite X; apply Qmult_lt_0_compat; exact S0).
  assert (XR : representable p x). { exists (n * n), (j + j). split; [nia|]. rewrite X, Hs, inject_Z_mult, pow2_add. ring. }
  destruct (sqrt_accurate p x fuel z ltac:(lia) X0 F) as [Z0 ZA]. destruct (last_step p x fuel z ltac:(lia) X0 XR F) as (y & Y0 & YR & NT & _ & D). rewrite X in ZA.
  destruct (rel p (y - z)) as (d0 & D0 & D1 & D2). rewrite D0 in D.
  set (u := pow2 (- p)) in *. destruct (near_root u s y z d0 U0 U1 S0 Z0 ltac:(lra) D1 D2 D) as (ZA1 & ZA2 & YA1 & YA2). clear d0 D0 D1 D2 D.
  unfold newton, fmul, fsub in NT.
  assert (DE : (rnd p (fint (rnd p) 2 * y) == 2 * y)%Q). { assert (T : (fint (rnd p) 2 == 2)%Q). { unfold fint. apply rnd_exact; [lia|]. exists 1, 1. split; [pose proof (Z.pow_pos_nonneg 2 p ltac:(lia) ltac:(lia)); lia|reflexivity]. } rewrite (rnd_compat p _ (2 * y)) by (lia || (rewrite T; reflexivity)). apply rnd_exact; [lia|]. destruct YR as (m & e & M & E). exists m, (e + 1). split; [exact M|]. rewrite E, pow2_S. ring. }
  rewrite fquo_ok in NT by lra. cbn [bind] in NT. injection NT as NT. set (t := rnd p (rnd p (rnd p (y * y) - x) / rnd p (fint (rnd p) 2 * y))) in NT.
  destruct (rel p (rnd p (rnd p (y * y) - x) / rnd p (fint (rnd p) 2 * y))) as (d2 & T2 & D21 & D22). fold t in T2. destruct (rel p (rnd p (y * y) - x)) as (d1 & T1 & D11 & D12). fold u in D21, D22, D11, D12.
  set (w1 := (rnd p (y * y) - y * y)%Q). assert (YY : (0 < y * y)%Q) by (apply Qmult_lt_0_compat; exact Y0).
  assert (T : (2 * y * t == (y * y + w1 - s * s) * (1 + (d1 + d2 + d1 * d2)))%Q). { rewrite T2, T1, DE, X. unfold w1. field. lra. }
  assert (W : (Qabs w1 <= u * (y * y))%Q). { pose proof (rnd_error p (y * y)) as E. rewrite (Qabs_pos (y * y)) in E by lra. fold w1 u in E. lra. }
  assert (DD : (- (3 * u) <= d1 + d2 + d1 * d2 /\ d1 + d2 + d1 * d2 <= 3 * u)%Q). { split; nra. } destruct DD as [DD1 DD2].
  pose proof (step_error u s y w1 _ t U0 U1 S0 YA1 YA2 W DD1 DD2 T) as SE. set (v := (y - t)%Q) in *. apply abs_bd in SE. destruct SE as [SE1 SE2].
  destruct (ilog2_pos s S0) as [EL EU]. set (e := ilog2 s) in *. pose proof (pow2_pos e) as PE. rewrite pow2_S in EU. set (E := pow2 e) in *.
  assert (H0 : (0 < u * E)%Q) by (apply Qmult_lt_0_compat; assumption).
  assert (HE : (pow2 (e - p) == u * E)%Q) by (unfold u, E; rewrite <-pow2_add; replace (- p + e) with (e - p) by lia; reflexivity).
  assert (H2 : (pow2 (e - p + 1) == 2 * (u * E))%Q) by (rewrite pow2_S, HE; reflexivity).
  assert (SU : (s * u <= 2 * (u * E))%Q) by nra. assert (SU0 : (0 < s * u)%Q) by (apply Qmult_lt_0_compat; assumption). assert (UE : (u * E <= (1 # 65536) * E)%Q) by (apply mul_l_le; assumption).
  assert (TOP : (500 * (s * u) * (s * u) <= (1 # 32) * (E * (u * E)))%Q). { assert ((s * u) * (s * u) <= (2 * (u * E)) * (2 * (u * E)))%Q by (apply mul_le; lra). assert ((u * E) * (u * E) <= (1 # 65536) * E * (u * E))%Q by (apply mul_l_le; assumption). assert (0 < E * (u * E))%Q by (apply Qmult_lt_0_compat; assumption). lra. }
  assert (VB : (Qabs (v - s) <= u * E)%Q -> (0 < v)%Q) by (intros H; apply abs_bd in H; lra).
  destruct (Qlt_le_dec E s) as [NE|NE].
  - (* between two powers of two *)
    destruct (gap e NE) as [G1 G2]; [rewrite pow2_S; exact EU|]. rewrite pow2_S in G2. fold E in G1, G2. pose proof room as RM. fold u in RM.
    assert (Y1 : (E < y)%Q) by lra. assert (Y2 : (y < 2 * E)%Q) by lra. assert (Z1 : (E <= z)%Q) by lra.
    assert (VS : (Qabs (v - s) < u * E)%Q).
    { assert (WB : (Qabs w1 <= (19 # 10) * (y * (u * E)))%Q).
      { destruct (Qlt_le_dec (y * y) (2 * (E * E))) as [L|L].
        - pose proof (half_at p (y * y) (e + e) YY) as HH. rewrite pow2_S, pow2_add in HH. fold E w1 in HH. specialize (HH L). assert (HX : (pow2 (e + e - p) == E * (u * E))%Q). { replace (e + e - p) with (e + (e - p)) by lia. rewrite pow2_add, HE. reflexivity. } rewrite HX in HH. assert (E * (u * E) <= y * (u * E))%Q by (apply mul_l_le; lra). lra.
        - pose proof (half_at p (y * y) (e + e + 1) YY) as HH. rewrite !pow2_S, pow2_add in HH. fold E w1 in HH. assert (L2 : (y * y < 2 * (2 * (E * E)))%Q) by nra. specialize (HH L2). assert (HX : (pow2 (e + e + 1 - p) == 2 * (E * (u * E)))%Q). { replace (e + e + 1 - p) with (e + (e - p) + 1) by lia. rewrite pow2_S, pow2_add, HE. reflexivity. } rewrite HX in HH.
          assert (Y3 : ((14 # 10) * E <= y)%Q) by nra. assert ((14 # 10) * E * (u * E) <= y * (u * E))%Q by (apply mul_l_le; assumption). assert (0 < E * (u * E))%Q by (apply Qmult_lt_0_compat; assumption). lra. }
      apply abs_bd in WB. destruct WB as [WB1 WB2]. assert (YE : (E * (u * E) <= y * (u * E))%Q) by (apply mul_l_le; lra). assert (YP : (0 < E * (u * E))%Q) by (apply Qmult_lt_0_compat; assumption).
      assert (V1 : (2 * y * (v - s) < 2 * y * (u * E))%Q) by lra. assert (V2 : (2 * y * - (u * E) < 2 * y * (v - s))%Q) by lra.
      apply Qmult_lt_l in V1, V2; try lra. apply Qabs_case; intros; lra. }
    assert (V0 : (0 < v)%Q) by (apply VB; lra). pose proof (near_exact p v s ltac:(lia) V0 SR) as NR. rewrite NT in NR.
    apply (grid_eq z s (pow2 (e - p + 1))); [apply pow2_pos| | |rewrite H2; lra].
    + apply grid; [lia| |exact Z1]. rewrite <-NT. apply rep_rnd. lia.
    + apply grid; [lia|exact SR|exact EL].
  - (* a power of two *)
    assert (SE : (s == E)%Q) by lra. rewrite SE in YA1, YA2, ZA1, ZA2, SE1, SE2. assert (EU2 : (E * u == u * E)%Q) by ring. rewrite EU2 in YA1, YA2, ZA1, ZA2, SE1, SE2.
    assert (EH : (E == 2 * pow2 (e - 1))%Q). { unfold E. rewrite <-pow2_S. replace (e - 1 + 1) with e by lia. reflexivity. }
    assert (Y1 : (pow2 (e - 1) <= y)%Q) by lra. assert (Z1 : (pow2 (e - 1) <= z)%Q) by lra.
    destruct (grid p y (e - 1) ltac:(lia) YR Y1) as (k & K). replace (e - 1 - p + 1) with (e - p) in K by lia.
    assert (EK : (E == inject_Z (2 ^ p) * pow2 (e - p))%Q). { rewrite <-pow2_Z by lia. rewrite <-pow2_add. replace (p + (e - p)) with e by lia. reflexivity. }
    assert (EK2 : inject_Z (2 ^ p) = inject_Z (2 * 2 ^ (p - 1))). { f_equal. replace p with (Z.succ (p - 1)) at 1 by lia. apply Z.pow_succ_r. lia. }
    assert (KB : 0 <= k - 2 ^ (p - 1) <= 2 ^ p).
    { assert (A1 : (inject_Z (2 ^ p - 19) * pow2 (e - p) <= inject_Z k * pow2 (e - p))%Q). { unfold Z.sub. rewrite inject_Z_plus, inject_Z_opp. change (inject_Z 19) with 19%Q. rewrite <-K. rewrite HE in *. lra. }
      assert (A2 : (inject_Z k * pow2 (e - p) <= inject_Z (2 ^ p + 19) * pow2 (e - p))%Q). { rewrite inject_Z_plus. change (inject_Z 19) with 19%Q. rewrite <-K. rewrite HE in *. lra. }
      apply Qmult_le_r in A1; [|apply pow2_pos]. apply Qmult_le_r in A2; [|apply pow2_pos]. rewrite <-Zle_Qle in A1, A2. assert (2 ^ 15 <= 2 ^ (p - 1)) by (apply Z.pow_le_mono_r; lia). change (2 ^ 15) with 32768 in *. replace p with (Z.succ (p - 1)) in * by lia. rewrite Z.pow_succ_r in * by lia. replace (Z.succ (p - 1) - 1) with (p - 1) in * by lia. lia. }
    set (r := (E * (2 * y - E))%Q). assert (RR : representable p r).
    { exists (k - 2 ^ (p - 1)), (e - p + e + 1). split; [lia|]. unfold r. rewrite pow2_S, pow2_add. fold E. rewrite K. rewrite EK at 2. rewrite EK2, inject_Z_mult. assert (IK : (inject_Z (k - 2 ^ (p - 1)) == inject_Z k - inject_Z (2 ^ (p - 1)))%Q) by (unfold Z.sub at 1; rewrite inject_Z_plus, inject_Z_opp; reflexivity). rewrite IK. change (inject_Z 2) with 2%Q. ring. }
    assert (W2 : (Qabs w1 <= (y - E) * (y - E))%Q). { eapply Qle_trans; [apply (rnd_nearest_pos p (y * y) r ltac:(lia) YY RR)|]. assert (EQ : (r - y * y == - ((y - E) * (y - E)))%Q) by (unfold r; ring). pose proof (sq_nonneg (y - E)) as SQ. pose proof (Qabs_opp ((y - E) * (y - E))). apply abs_le; lra. }
    assert (Q2 : ((y - E) * (y - E) <= 361 * ((u * E) * (u * E)))%Q) by nra. assert (Q3 : ((u * E) * (u * E) <= (1 # 65536) * E * (u * E))%Q) by (apply mul_l_le; assumption). assert (YP : (0 < E * (u * E))%Q) by (apply Qmult_lt_0_compat; assumption). apply abs_bd in W2. destruct W2 as [WA WB].
    assert (VS : (Qabs (v - s) < (1 # 2) * (u * E))%Q).
    { assert (YE : ((1 # 2) * E * (u * E) <= y * (u * E))%Q) by (apply mul_l_le; lra). rewrite SE.
      assert (V1 : (2 * y * (v - E) < 2 * y * ((1 # 2) * (u * E)))%Q) by lra. assert (V2 : (2 * y * - ((1 # 2) * (u * E)) < 2 * y * (v - E))%Q) by lra.
      apply Qmult_lt_l in V1, V2; try lra. apply Qabs_case; intros; lra. }
    assert (V0 : (0 < v)%Q) by (apply VB; lra). pose proof (near_exact p v s ltac:(lia) V0 SR) as NR. rewrite NT in NR.
    apply (grid_eq z s (pow2 (e - p))); [apply pow2_pos| | |rewrite HE; lra].
    + destruct (grid p z (e - 1) ltac:(lia) ltac:(rewrite <-NT; apply rep_rnd; lia) Z1) as (m & M). exists m. replace (e - p) with (e - 1 - p + 1) by lia. exact M.
    + exists (2 ^ p). rewrite SE. exact EK.
Qed.
End Exact.

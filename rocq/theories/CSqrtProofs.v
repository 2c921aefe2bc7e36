From Coq Require Import QArith Qabs Setoid Lqa Lia.
From Verif Require Import Value FloatModel FloatProofs FloatSqrt FloatMono FloatSign FloatReduce RandSpec MixProofs ArcModel ArcSpec ArcRound ArcProofs SqrtConv LogConv HypProofs CSqrtModel SqrtExact.
Open Scope Z_scope.

Lemma num0 x : Qnum x =? 0 = true <-> (x == 0)%Q. Proof. destruct x as [a b]. unfold Qeq. cbn. lia. Qed.
Lemma numneg x : Qnum x <? 0 = true <-> (x < 0)%Q. Proof. destruct x as [a b]. unfold Qlt. cbn. lia. Qed.
Lemma numneg_f x : (0 <= x)%Q -> Qnum x <? 0 = false. Proof. intros H. destruct (Qnum x <? 0) eqn:E; [apply numneg in E; lra|reflexivity]. Qed.
(* the square root of any number that is not negative *)
Lemma root_any p x fuel z : 8 <= p -> float_sqrt (rnd p) p fuel x = Some (Ok z) -> (0 <= x)%Q /\ (0 <= z)%Q /\ (Qabs (z * z - x) <= 16 * (x * pow2 (- p)))%Q.
Proof.
  intros Hp F. destruct (Qlt_le_dec 0 x) as [X|X]; [destruct (sqrt_accurate p x fuel z Hp X F); repeat split; auto; lra|]. unfold float_sqrt in F. destruct (Qnum x <? 0) eqn:E; [discriminate|].
  assert (X0 : (x == 0)%Q). { destruct (Qlt_le_dec x 0) as [L|L]; [apply numneg in L; congruence|lra]. } assert (Qnum x =? 0 = true) as E0 by (apply num0; exact X0). rewrite E0 in F. injection F as <-. split; [lra|]. split; [lra|]. assert (X1 : (0 * 0 - x == 0)%Q) by (rewrite X0; ring). rewrite X1, X0. vm_compute. discriminate.
Qed.
Lemma root_total p x fuel : 8 <= p <= 1000000 -> p + 4 < Z.of_nat fuel -> (0 <= x)%Q -> representable p x -> exists z, float_sqrt (rnd p) p fuel x = Some (Ok z) /\ (0 <= z)%Q /\ ((0 < x)%Q -> (0 < z)%Q) /\ ((x == 0)%Q -> (z == 0)%Q) /\ (Qabs (z * z - x) <= 16 * (x * pow2 (- p)))%Q.
Proof.
  intros Hp Hf X R. destruct (Qlt_le_dec 0 x) as [P|P].
  - destruct (sqrt_value p x fuel Hp P R Hf) as (z & F & Z & A). exists z. repeat split; auto; lra.
  - assert (X0 : (x == 0)%Q) by lra. exists 0%Q. unfold float_sqrt. rewrite (numneg_f x X). apply num0 in X0. rewrite X0. apply num0 in X0. split; [reflexivity|]. repeat split; try lra. assert (X1 : (0 * 0 - x == 0)%Q) by (rewrite X0; ring). rewrite X1, X0. vm_compute. discriminate.
Qed.
(* of a rounded number *)
Lemma round_root u q x z d : (0 < u)%Q -> (u <= 1 # 256)%Q -> (0 <= q)%Q -> (x == q * (1 + d))%Q -> (- u <= d)%Q -> (d <= u)%Q -> (Qabs (z * z - x) <= 16 * (x * u))%Q -> (Qabs (z * z - q) <= 18 * (q * u))%Q.
Proof.
  intros U U1 Q0 X D1 D2 A. apply abs_bd in A. destruct A as [A1 A2]. rewrite X in A1, A2. assert (B1 : (q * d <= q * u)%Q) by nra. assert (B2 : (- (q * u) <= q * d)%Q) by nra. set (w := (q * u)%Q) in *. assert (W : (0 <= w)%Q) by (unfold w; nra).
  assert (C : (q * (1 + d) * u == w + w * d)%Q) by (unfold w; ring). assert (D : (w * d <= w * (1 # 256))%Q) by nra. apply abs_le; lra.
Qed.
(* the parts of a complex root *)
Lemma part_root u h x z d : (0 < u)%Q -> (u <= 1 # 256)%Q -> (0 <= h)%Q -> (x == h * (1 + d))%Q -> (- (3 * u) <= d)%Q -> (d <= 3 * u)%Q -> (Qabs (z * z - x) <= 16 * (x * u))%Q -> (Qabs (z * z - h) <= 20 * (h * u))%Q.
Proof.
  intros U U1 Q0 X D1 D2 A. apply abs_bd in A. destruct A as [A1 A2]. rewrite X in A1, A2. assert (B1 : (h * d <= h * (3 * u))%Q) by nra. assert (B2 : (- (h * (3 * u)) <= h * d)%Q) by nra. set (w := (h * u)%Q) in *. assert (W : (0 <= w)%Q) by (unfold w; nra).
  assert (C : (h * (1 + d) * u == w + w * d)%Q) by (unfold w; ring). assert (D : (w * d <= w * (3 # 256))%Q) by nra. assert (E : (h * (3 * u) == 3 * w)%Q) by (unfold w; ring). apply abs_le; lra.
Qed.
Lemma two_rel u d1 d2 : (0 < u)%Q -> (u <= 1 # 256)%Q -> (- u <= d1)%Q -> (d1 <= u)%Q -> (- u <= d2)%Q -> (d2 <= u)%Q -> (- (3 * u) <= d1 + d2 + d1 * d2 /\ d1 + d2 + d1 * d2 <= 3 * u)%Q.
Proof. intros. split; nra. Qed.
Lemma sum_rel p a b : 8 <= p -> exists d, (fadd (rnd p) (fmul (rnd p) a a) (fmul (rnd p) b b) == (a * a + b * b) * (1 + d))%Q /\ (- (3 * pow2 (- p)) <= d)%Q /\ (d <= 3 * pow2 (- p))%Q.
Proof.
  intros Hp. destruct (pow2_small p Hp) as [U U1]. unfold fadd, fmul. pose proof (sq_nonneg a) as A. pose proof (sq_nonneg b) as B. set (x := (a * a)%Q) in *. set (y := (b * b)%Q) in *.
  destruct (rel p x) as (d1 & E1 & L1 & H1). destruct (rel p y) as (d2 & E2 & L2 & H2). destruct (rel p (rnd p x + rnd p y)) as (d3 & E3 & L3 & H3). set (u := pow2 (- p)) in *.
  destruct (Qlt_le_dec 0 (x + y)) as [P|P].
  - set (d0 := ((x * d1 + y * d2) / (x + y))%Q). assert (D : ((x + y) * d0 == x * d1 + y * d2)%Q) by (unfold d0; field; lra). assert (x * d1 <= x * u)%Q by nra. assert (- (x * u) <= x * d1)%Q by nra. assert (y * d2 <= y * u)%Q by nra. assert (- (y * u) <= y * d2)%Q by nra.
    assert (DU : (d0 <= u)%Q). { apply (Qmult_le_l _ _ (x + y)); [exact P|]. lra. } assert (DL : (- u <= d0)%Q). { apply (Qmult_le_l _ _ (x + y)); [exact P|]. lra. }
    exists (d0 + d3 + d0 * d3)%Q. destruct (two_rel u d0 d3) as [T1 T2]; auto. split; [|split; assumption]. rewrite E3, E1, E2. assert (Z : (x * (1 + d1) + y * (1 + d2) == (x + y) * (1 + d0))%Q) by lra. rewrite Z. ring.
  - exists 0%Q. assert (X0 : (x == 0)%Q) by lra. assert (Y0 : (y == 0)%Q) by lra. split; [|split; lra]. rewrite E3, E1, E2, X0, Y0. ring.
Qed.
Lemma half_rel p q : 8 <= p -> exists d, (rnd p (rnd p q / 2) == q / 2 * (1 + d))%Q /\ (- (3 * pow2 (- p)) <= d)%Q /\ (d <= 3 * pow2 (- p))%Q.
Proof.
  intros Hp. destruct (pow2_small p Hp) as [U U1]. destruct (rel p q) as (d1 & E1 & L1 & H1). destruct (rel p (rnd p q / 2)) as (d2 & E2 & L2 & H2). exists (d1 + d2 + d1 * d2)%Q. destruct (two_rel (pow2 (- p)) d1 d2) as [T1 T2]; auto. split; [|split; assumption]. rewrite E2, E1. field.
Qed.
(* the magnitude *)
Lemma mag_bounds u n s m d : (0 < u)%Q -> (u <= 1 # 256)%Q -> (0 <= n)%Q -> (s == n * (1 + d))%Q -> (- (3 * u) <= d)%Q -> (d <= 3 * u)%Q -> (Qabs (m * m - s) <= 16 * (s * u))%Q -> (Qabs (m * m - n) <= 20 * (n * u))%Q.
Proof. apply part_root. Qed.

Section Parts.
Variables (u a b m r i : Q).
Hypotheses (U : (0 < u)%Q) (U1 : (u <= 1 # 256)%Q) (M0 : (0 <= m)%Q) (M : (Qabs (m * m - (a * a + b * b)) <= 20 * ((a * a + b * b) * u))%Q).
Hypotheses (P1 : (0 <= m + a)%Q) (P2 : (0 <= m - a)%Q).
Hypotheses (R1 : (Qabs (r * r - (m + a) / 2) <= 20 * ((m + a) / 2 * u))%Q) (I1 : (Qabs (i * i - (m - a) / 2) <= 20 * ((m - a) / 2 * u))%Q).
Lemma half_eq x : (x / 2 == (1 # 2) * x)%Q. Proof. field. Qed.
Lemma parts : (Qabs (r * r + i * i - m) <= 20 * (m * u) /\ Qabs (r * r - i * i - a) <= 20 * (m * u))%Q.
Proof.
  apply abs_bd in R1, I1. rewrite !half_eq in R1, I1. destruct R1 as [RA RB]. destruct I1 as [IA IB]. assert (E1 : ((1 # 2) * (m + a) * u == (1 # 2) * (m * u) + (1 # 2) * (a * u))%Q) by ring. assert (E2 : ((1 # 2) * (m - a) * u == (1 # 2) * (m * u) - (1 # 2) * (a * u))%Q) by ring. rewrite E1 in RA, RB. rewrite E2 in IA, IB.
  assert (A1 : (a * u <= m * u)%Q) by nra. assert (A2 : (- (m * u) <= a * u)%Q) by nra.
  split; apply abs_le; lra.
Qed.
Lemma product : (Qabs (4 * (r * r) * (i * i) - b * b) <= 120 * ((a * a + b * b) * u))%Q.
Proof.
  destruct parts as [S D]. set (k := (20 * (m * u))%Q) in *. assert (K0 : (0 <= k)%Q) by (unfold k; nra). apply abs_bd in S, D, M. destruct S as [S1 S2]. destruct D as [D1 D2]. destruct M as [M1 M2].
  set (al := (r * r + i * i - m)%Q) in *. set (be := (r * r - i * i - a)%Q) in *.
  assert (E : (4 * (r * r) * (i * i) - b * b == m * m - (a * a + b * b) + 2 * (m * al) + al * al - 2 * (a * be) - be * be)%Q) by (unfold al, be; ring).
  pose proof (sq_nonneg a) as A. pose proof (sq_nonneg b) as B. set (nn := (a * a + b * b)%Q) in *. assert (N0 : (0 <= nn)%Q) by (unfold nn; lra). set (w := (nn * u)%Q) in *. assert (W0 : (0 <= w)%Q) by (unfold w; nra). assert (W1 : (w <= (1 # 256) * nn)%Q) by (unfold w; nra).
  assert (MM : (m * m <= (11 # 10) * nn)%Q) by lra. assert (MU : (m * m * u <= (11 # 10) * w)%Q) by (unfold w; nra). assert (MK : (m * k == 20 * (m * m * u))%Q) by (unfold k; ring). assert (KK : (k * k <= (2 # 1) * w)%Q). { assert (X : (k * k == 400 * (u * (m * m * u)))%Q) by (unfold k; ring). assert (u * (m * m * u) <= (1 # 256) * (m * m * u))%Q. { pose proof (sq_nonneg m) as SM. set (mm := (m * m)%Q) in *. assert (0 <= mm * u)%Q by nra. nra. } lra. }
  assert (X1 : (m * al <= m * k)%Q) by nra. assert (X2 : (- (m * k) <= m * al)%Q) by nra. assert (X3 : (al * al <= k * k)%Q) by nra. assert (X4 : (be * be <= k * k)%Q) by nra. pose proof (sq_nonneg al). pose proof (sq_nonneg be).
  assert (X5 : (a * be <= m * k)%Q). { assert (- m <= a)%Q by lra. assert (a <= m)%Q by lra. nra. } assert (X6 : (- (m * k) <= a * be)%Q). { assert (- m <= a)%Q by lra. assert (a <= m)%Q by lra. nra. }
  apply abs_le; rewrite E; lra.
Qed.
End Parts.
Lemma sq_lt a m : (0 < m)%Q -> (a * a < m * m)%Q -> (0 < m + a)%Q.
Proof. intros M H. destruct (Qlt_le_dec 0 (m + a)) as [L|L]; [exact L|]. exfalso. assert (m * m <= (- a) * (- a))%Q by (apply mul_le; lra). lra. Qed.

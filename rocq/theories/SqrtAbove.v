(* The square root of a number that is at least the rounded square of a is at least a. *)
From Coq Require Import QArith Qabs Setoid Lqa Lia.
From Verif Require FloatOdd.
From Verif Require Import Value FloatModel FloatProofs FloatSqrt FloatMono FloatSign FloatReduce RandSpec MixProofs ArcModel ArcSpec ArcRound ArcProofs SqrtConv LogConv HypProofs SqrtExact.
Open Scope Z_scope.

(* one step of newton, written out *)
Definition nstep (p : Z) (x y : Q) : Q := rnd p (y - rnd p (rnd p (rnd p (y * y) - x) / (2 * y))).
Lemma newton_is p x y z : 8 <= p -> (0 < y)%Q -> representable p y -> newton (rnd p) x 0 y = Ok z -> (z == nstep p x y)%Q.
Proof.
  intros Hp Y R. unfold newton, fmul, fsub.
  assert (DE : (rnd p (fint (rnd p) 2 * y) == 2 * y)%Q). { assert (T : (fint (rnd p) 2 == 2)%Q). { unfold fint. apply rnd_exact; [lia|]. exists 1, 1. split; [pose proof (Z.pow_pos_nonneg 2 p ltac:(lia) ltac:(lia)); lia|reflexivity]. } rewrite (rnd_compat p _ (2 * y)) by (lia || (rewrite T; reflexivity)). apply rnd_exact; [lia|]. destruct R as (m & e & M & E). exists m, (e + 1). split; [exact M|]. rewrite E, pow2_S. ring. }
  rewrite fquo_ok by lra. cbn [bind]. intros [= <-]. unfold nstep. apply rnd_compat; [lia|].
  assert (T : (rnd p (rnd p (rnd p (y * y) - x) / rnd p (fint (rnd p) 2 * y)) == rnd p (rnd p (rnd p (y * y) - x) / (2 * y)))%Q) by (apply rnd_compat; [lia|]; rewrite DE; reflexivity). rewrite T. reflexivity.
Qed.
Lemma div_mono a b c : (0 < c)%Q -> (a <= b)%Q -> (a / c <= b / c)%Q.
Proof. intros C H. unfold Qdiv. apply Qmult_le_compat_r; [exact H|]. apply Qlt_le_weak, Qinv_lt_0_compat, C. Qed.
Lemma nstep_mono p x1 x2 y : 1 <= p -> (0 < y)%Q -> (x1 <= x2)%Q -> (nstep p x1 y <= nstep p x2 y)%Q.
Proof.
  intros Hp Y X. unfold nstep. apply rnd_mono_any; [lia|]. assert (rnd p (rnd p (rnd p (y * y) - x2) / (2 * y)) <= rnd p (rnd p (rnd p (y * y) - x1) / (2 * y)))%Q; [|lra].
  apply rnd_mono_any; [lia|]. apply div_mono; [lra|]. apply rnd_mono_any; [lia|]. lra.
Qed.
(* the error of a step from any y > 0, before the last rounding *)
Lemma nstep_error p x y : 8 <= p -> (0 < y)%Q -> exists t d, (nstep p x y = rnd p (y - t))%Q /\ (2 * y * t == (rnd p (y * y) - x) * (1 + d))%Q /\ (- (3 * pow2 (- p)) <= d)%Q /\ (d <= 3 * pow2 (- p))%Q.
Proof.
  intros Hp Y. destruct (pow2_small p Hp) as [U U1]. destruct (rel p (rnd p (y * y) - x)) as (d1 & E1 & L1 & H1). destruct (rel p (rnd p (rnd p (y * y) - x) / (2 * y))) as (d2 & E2 & L2 & H2). exists (rnd p (rnd p (rnd p (y * y) - x) / (2 * y))), (d1 + d2 + d1 * d2)%Q.
  split; [reflexivity|]. split; [rewrite E2, E1; field; lra|]. set (u := pow2 (- p)) in *. split; nra.
Qed.

(* from y far from a, the step lands above a *)
Lemma far_step u a y wy wa d t : (0 < u)%Q -> (u <= 1 # 65536)%Q -> (0 < a)%Q -> (0 < y)%Q -> (Qabs wy <= u * (y * y))%Q -> (Qabs wa <= u * (a * a))%Q -> (- (3 * u) <= d)%Q -> (d <= 3 * u)%Q ->
  (2 * y * t == (y * y + wy - (a * a + wa)) * (1 + d))%Q -> (a <= 50 * Qabs (y - a))%Q -> (a <= y - t)%Q.
Proof.
  intros U U1 A Y WY WA D1 D2 T F. apply abs_bd in WY, WA. destruct WY as [Y1 Y2]. destruct WA as [A1 A2].
  assert (E : (2 * y * (y - t - a) == (y - a) * (y - a) - (wy - wa) * (1 + d) - d * ((y - a) * (2 * a + (y - a))))%Q). { assert (X : (2 * y * (y - t - a) == 2 * y * y - 2 * y * a - 2 * y * t)%Q) by ring. rewrite X, T. ring. }
  set (D := (y - a)%Q) in *. assert (YE : (y == a + D)%Q) by (unfold D; ring). set (m := Qabs D) in *. assert (M0 : (0 <= m)%Q) by apply Qabs_nonneg.
  assert (DM : (- m <= D /\ D <= m)%Q) by (apply abs_bd, Qle_refl). destruct DM as [DM1 DM2]. assert (DD : (D * D == m * m)%Q) by (unfold m; apply Qabs_case; intros; ring).
  assert (MP : (0 < m * m)%Q) by (apply Qmult_lt_0_compat; lra). set (q := (m * m)%Q) in *.
  assert (AA : (a * a <= 2500 * q)%Q). { assert (a * a <= 50 * m * (50 * m))%Q by (apply mul_le; lra). assert (50 * m * (50 * m) == 2500 * q)%Q by (unfold q; ring). lra. }
  assert (YY : (y * y <= 2601 * q)%Q). { assert (y * y <= 51 * m * (51 * m))%Q by (apply mul_le; lra). assert (51 * m * (51 * m) == 2601 * q)%Q by (unfold q; ring). lra. }
  assert (UQ : (0 < u * q)%Q) by (apply Qmult_lt_0_compat; assumption). assert (UA : (u * (a * a) <= 2500 * (u * q))%Q) by nra. assert (UY : (u * (y * y) <= 2601 * (u * q))%Q) by nra.
  assert (UQ1 : (u * q <= (1 # 65536) * q)%Q) by (apply mul_l_le; assumption).
  set (k := (wy - wa)%Q) in *. assert (K : (k <= 5101 * (u * q))%Q) by (unfold k; lra). assert (K' : (- (5101 * (u * q)) <= k)%Q) by (unfold k; lra).
  assert (KD : (k * (1 + d) <= 5101 * (u * q) * (11 # 10))%Q) by nra.
  set (g := (D * (2 * a + D))%Q) in *. assert (G : (g <= 101 * q)%Q). { assert (g == 2 * (a * D) + D * D)%Q by (unfold g; ring). assert (a * D <= 50 * m * m)%Q by nra. assert (50 * m * m == 50 * q)%Q by (unfold q; ring). lra. }
  assert (G' : (- (101 * q) <= g)%Q). { assert (g == 2 * (a * D) + D * D)%Q by (unfold g; ring). assert (- (50 * m * m) <= a * D)%Q by nra. assert (50 * m * m == 50 * q)%Q by (unfold q; ring). lra. }
  assert (DG : (d * g <= 303 * (u * q))%Q). { assert (X : (303 * (u * q) == 3 * u * (101 * q))%Q) by ring. rewrite X. set (r := (101 * q)%Q) in *. assert (0 <= r)%Q by (unfold r; lra). nra. }
  assert (P : (0 <= 2 * y * (y - t - a))%Q) by (rewrite E, DD; fold q; lra).
  destruct (Qlt_le_dec (y - t - a) 0) as [L|L]; [|lra]. exfalso. assert (2 * y * (y - t - a) < 0)%Q by nra. lra.
Qed.
(* from y near a, it lands less than 2 h below, if the rounding errors of the squares are less than c together *)
Lemma near_step u a y wy wa d t h c : (0 < u)%Q -> (u <= 1 # 65536)%Q -> (0 < a)%Q -> (0 < y)%Q -> (wy - wa <= c)%Q -> (0 <= c)%Q -> (- (3 * u) <= d)%Q -> (d <= 3 * u)%Q ->
  (2 * y * t == (y * y + wy - (a * a + wa)) * (1 + d))%Q -> (50 * Qabs (y - a) <= a)%Q -> (c * (101 # 100) + 10 * (u * a) * (u * a) <= 2 * y * h)%Q -> (a - h <= y - t)%Q.
Proof.
  intros U U1 A Y WC C D1 D2 T F B.
  assert (E : (2 * y * (y - t - a) == (y - a) * (y - a) - (wy - wa) * (1 + d) - d * ((y - a) * (2 * a + (y - a))))%Q). { assert (X : (2 * y * (y - t - a) == 2 * y * y - 2 * y * a - 2 * y * t)%Q) by ring. rewrite X, T. ring. }
  set (D := (y - a)%Q) in *. set (m := Qabs D) in *. assert (M0 : (0 <= m)%Q) by apply Qabs_nonneg. assert (DM : (- m <= D /\ D <= m)%Q) by (apply abs_bd, Qle_refl). destruct DM as [DM1 DM2]. assert (DD : (D * D == m * m)%Q) by (unfold m; apply Qabs_case; intros; ring).
  assert (KD : ((wy - wa) * (1 + d) <= c * (101 # 100))%Q). { assert ((wy - wa) * (1 + d) <= c * (1 + d))%Q by (apply mul_l_le; lra). assert (c * (1 + d) <= c * (101 # 100))%Q by nra. lra. }
  assert (AB : (Qabs (d * (D * (2 * a + D))) <= 3 * u * (m * ((202 # 100) * a)))%Q). { rewrite !Qabs_Qmult. fold m. apply mul_le; [apply Qabs_nonneg|apply abs_le; lra|apply Qmult_le_0_compat; [exact M0|apply Qabs_nonneg]|]. assert (Qabs (2 * a + D) <= (202 # 100) * a)%Q by (apply abs_le; lra). nra. }
  apply abs_bd in AB. destruct AB as [_ AB]. set (w := (u * a)%Q) in *. assert (AW : (3 * u * (m * ((202 # 100) * a)) == (606 # 100) * (m * w))%Q) by (unfold w; ring). rewrite AW in AB.
  assert (SQ : (0 <= (m - (303 # 100) * w) * (m - (303 # 100) * w))%Q) by apply sq_nonneg. assert (S2 : ((m - (303 # 100) * w) * (m - (303 # 100) * w) == m * m - (606 # 100) * (m * w) + (91809 # 10000) * (w * w))%Q) by ring. assert (0 <= w * w)%Q by apply sq_nonneg.
  assert (P : (- (2 * y * h) <= 2 * y * (y - t - a))%Q) by (rewrite E, DD; lra).
  assert (P' : (2 * y * (- h) <= 2 * y * (y - t - a))%Q) by lra. apply Qmult_le_l in P'; [|lra]. lra.
Qed.

Lemma grid_gap a b h k : (0 < h)%Q -> (exists n, a == inject_Z n * h)%Q -> (exists n, b == inject_Z n * h)%Q -> (inject_Z k * h < b - a)%Q -> (inject_Z (k + 1) * h <= b - a)%Q.
Proof.
  intros H (n & N) (m & M) L. assert (E : (b - a == inject_Z (m - n) * h)%Q) by (rewrite N, M; unfold Z.sub; rewrite inject_Z_plus, inject_Z_opp; ring). rewrite E in *. apply Qmult_lt_r in L; [|exact H]. rewrite <-Zlt_Qlt in L. apply Qmult_le_compat_r; [|lra]. rewrite <-Zle_Qle. lia.
Qed.

Section Above.
Variables (p e : Z) (a : Q).
Hypotheses (Hp : 16 <= p) (Ra : representable p a) (La : (pow2 e <= a)%Q) (Ha : (a < pow2 (e + 1))%Q).
Let u := pow2 (- p).
Let E := pow2 e.
Let h := (u * E)%Q.
Let X := rnd p (a * a).

Lemma ab_facts : (0 < u /\ u <= 1 # 65536 /\ 0 < E /\ 0 < h /\ h <= (1 # 65536) * E /\ E <= a /\ a < 2 * E /\ pow2 (e - p) == h)%Q.
Proof.
  assert (U0 : (0 < u)%Q) by apply pow2_pos. assert (U1 : (u <= 1 # 65536)%Q) by (change (1 # 65536) with (pow2 (-16)); apply pow2_le; lia). assert (E0 : (0 < E)%Q) by apply pow2_pos. assert (H0 : (0 < h)%Q) by (apply Qmult_lt_0_compat; assumption). pose proof Ha as H. rewrite pow2_S in H. fold E in H.
  repeat split; auto; [unfold h; apply mul_l_le; assumption|]. unfold h, u, E. rewrite <-pow2_add. replace (- p + e) with (e - p) by lia. reflexivity.
Qed.
Lemma on_grid s : representable p s -> (E <= s)%Q -> exists n, (s == inject_Z n * (2 * h))%Q.
Proof. intros R L. destruct (grid p s e ltac:(lia) R L) as (n & N). exists n. rewrite N, pow2_S. destruct ab_facts as (_ & _ & _ & _ & _ & _ & _ & ->). reflexivity. Qed.
Lemma E_grid : exists n, (E == inject_Z n * (2 * h))%Q.
Proof. apply on_grid; [|lra]. exists 1, e. split; [pose proof (Z.pow_pos_nonneg 2 p ltac:(lia) ltac:(lia)); lia|]. unfold E. ring. Qed.
Lemma under_rep : representable p (a - 2 * h).
Proof.
  destruct ab_facts as (U0 & U1 & E0 & H0 & HE & A1 & A2 & PH). destruct (on_grid a Ra A1) as (n & N). exists (n - 1), (e - p + 1). split.
  - assert (L : (inject_Z n * (2 * h) < inject_Z (2 ^ p) * (2 * h))%Q). { rewrite <-N. assert (X0 : (inject_Z (2 ^ p) * (2 * h) == 2 * E)%Q). { rewrite <-pow2_Z by lia. unfold h, u. pose proof (pow2_opp p) as O. assert (Y : (pow2 p * (2 * (pow2 (- p) * E)) == 2 * E * (pow2 (- p) * pow2 p))%Q) by ring. rewrite Y, O. ring. } lra. }
    apply Qmult_lt_r in L; [|lra]. rewrite <-Zlt_Qlt in L. assert (0 < n). { assert (0 * (2 * h) < inject_Z n * (2 * h))%Q as G by lra. apply Qmult_lt_r in G; [|lra]. unfold Qlt in G. cbn in G. lia. } lia.
  - rewrite N, pow2_S, PH. unfold Z.sub at 1. rewrite inject_Z_plus, inject_Z_opp. change (inject_Z 1) with 1%Q. ring.
Qed.
Lemma level k : (pow2 (e + e + k - p) == pow2 k * (E * h))%Q.
Proof. destruct ab_facts as (_ & _ & _ & _ & _ & _ & _ & PH). replace (e + e + k - p) with (k + (e + (e - p))) by lia. rewrite !pow2_add, PH. reflexivity. Qed.
Lemma level' k : (pow2 (e + e + k + 1) == 2 * (pow2 k * (E * E)))%Q.
Proof. rewrite pow2_S. replace (e + e + k) with (k + (e + e)) by lia. rewrite !pow2_add. reflexivity. Qed.
(* the rounding error of a square by its binade *)
Lemma sq_err y k c : (0 < y)%Q -> pow2 k = c -> (y * y < 2 * (c * (E * E)))%Q -> (Qabs (rnd p (y * y) - y * y) <= c * (E * h))%Q.
Proof. intros Y C L. pose proof (half_at p (y * y) (e + e + k)) as H. rewrite level', level, C in H. apply H; [apply Qmult_lt_0_compat; exact Y|exact L]. Qed.

Lemma lands y : (0 < y)%Q -> (a - 2 * h <= nstep p X y)%Q.
Proof.
  intros Y. destruct ab_facts as (U0 & U1 & E0 & H0 & HE & A1 & A2 & PH). destruct (nstep_error p X y ltac:(lia) Y) as (t & d & N & T & D1 & D2). rewrite N. fold u in D1, D2.
  set (wy := (rnd p (y * y) - y * y)%Q). set (wa := (X - a * a)%Q). assert (T' : (2 * y * t == (y * y + wy - (a * a + wa)) * (1 + d))%Q) by (rewrite T; unfold wy, wa; ring).
  assert (YY : (0 < y * y)%Q) by (apply Qmult_lt_0_compat; exact Y). assert (AA : (0 < a * a)%Q) by (apply Qmult_lt_0_compat; lra).
  assert (WY : (Qabs wy <= u * (y * y))%Q). { pose proof (rnd_error p (y * y)) as Q. rewrite (Qabs_pos (y * y)) in Q by lra. fold wy u in Q. lra. }
  assert (WA : (Qabs wa <= u * (a * a))%Q). { pose proof (rnd_error p (a * a)) as Q. rewrite (Qabs_pos (a * a)) in Q by lra. fold X wa u in Q. lra. }
  destruct (Qlt_le_dec (50 * Qabs (y - a)) a) as [F|F].
  - assert (V : (a - 2 * h <= y - t)%Q).
    { assert (F' : (50 * Qabs (y - a) <= a)%Q) by lra. assert (FB : (- ((1 # 50) * a) <= y - a /\ y - a <= (1 # 50) * a)%Q) by (apply abs_bd; lra). destruct FB as [F1 F2].
      assert (UA : (u * a <= 2 * h)%Q) by (unfold h; nra). assert (UA0 : (0 < u * a)%Q) by (apply Qmult_lt_0_compat; lra). assert (EH : (0 < E * h)%Q) by (apply Qmult_lt_0_compat; assumption).
      assert (SM : (10 * (u * a) * (u * a) <= (1 # 100) * (E * h))%Q). { assert ((u * a) * (u * a) <= 2 * h * (2 * h))%Q by (apply mul_le; lra). assert (h * h <= (1 # 65536) * E * h)%Q by (apply mul_l_le; assumption). lra. }
      destruct (Qlt_le_dec ((3 # 2) * E) a) as [C|C].
      - pose proof (sq_err a 1 2 ltac:(lra) eq_refl) as WA2. assert (AE : (a * a < 2 * (2 * (E * E)))%Q) by nra. specialize (WA2 AE). fold X wa in WA2. apply abs_bd in WA2. destruct WA2 as [WA2 _].
        destruct (Qlt_le_dec y (2 * E)) as [YL|YL].
        + pose proof (sq_err y 1 2 Y eq_refl) as WY2. assert (YE : (y * y < 2 * (2 * (E * E)))%Q) by nra. specialize (WY2 YE). fold wy in WY2. apply abs_bd in WY2. destruct WY2 as [_ WY2].
          apply (near_step u a y wy wa d t (2 * h) (4 * (E * h))); auto; try lra. assert ((147 # 100) * E * h <= y * h)%Q by (apply mul_l_le; lra). lra.
        + pose proof (sq_err y 2 4 Y eq_refl) as WY2. assert (YE : (y * y < 2 * (4 * (E * E)))%Q). { assert (y * y <= (204 # 100) * E * ((204 # 100) * E))%Q by (apply mul_le; lra). assert (0 < E * E)%Q by (apply Qmult_lt_0_compat; assumption). lra. } specialize (WY2 YE). fold wy in WY2. apply abs_bd in WY2. destruct WY2 as [_ WY2].
          apply (near_step u a y wy wa d t (2 * h) (6 * (E * h))); auto; try lra. assert (2 * E * h <= y * h)%Q by (apply mul_l_le; lra). lra.
      - apply abs_bd in WY, WA. destruct WY as [_ WY]. destruct WA as [WA _].
        assert (YU : (u * (y * y) <= (105 # 100) * (u * (a * a)))%Q). { assert (y * y <= (102 # 100) * a * ((102 # 100) * a))%Q by (apply mul_le; lra). nra. }
        assert (AU : (u * (a * a) <= (3 # 2) * (a * h))%Q). { assert (Z1 : (u * (a * a) == a * (u * a))%Q) by ring. assert (Z2 : (u * a <= (3 # 2) * h)%Q) by (unfold h; nra). rewrite Z1. assert (a * (u * a) <= a * ((3 # 2) * h))%Q by (apply mul_r_le; lra). lra. }
        apply (near_step u a y wy wa d t (2 * h) ((205 # 100) * (u * (a * a)))); auto; try lra.
        { assert (0 < u * (a * a))%Q by (apply Qmult_lt_0_compat; assumption). lra. }
        assert (Y1 : ((98 # 100) * a * h <= y * h)%Q) by (apply mul_l_le; lra). assert (Y2 : (E * h <= a * h)%Q) by (apply mul_l_le; assumption). lra. }
    eapply Qle_trans; [|apply rnd_mono_any; [lia|exact V]]. rewrite (rnd_exact p _ ltac:(lia) under_rep). lra.
  - pose proof (far_step u a y wy wa d t U0 U1 ltac:(lra) Y WY WA D1 D2 T' F) as V. assert (a <= rnd p (y - t))%Q; [|lra]. eapply Qle_trans; [|apply rnd_mono_any; [lia|exact V]]. rewrite (rnd_exact p _ ltac:(lia) Ra). lra.
Qed.
(* from the float below a, when a is not a power of two, the step goes up *)
Lemma goes_up y : (E < a)%Q -> (y == a - 2 * h)%Q -> (y < nstep p X y)%Q.
Proof.
  intros NE YE. destruct ab_facts as (U0 & U1 & E0 & H0 & HE & A1 & A2 & PH). destruct E_grid as (ne & GE).
  assert (G1 : (2 * h <= a - E)%Q). { pose proof (grid_gap E a (2 * h) 0 ltac:(lra) E_grid (on_grid a Ra A1)) as G. change (inject_Z 0) with 0%Q in G. change (inject_Z (0 + 1)) with 1%Q in G. lra. }
  assert (G2 : (2 * h <= 2 * E - a)%Q). { assert (GE2 : exists n, (2 * E == inject_Z n * (2 * h))%Q) by (exists (2 * ne); rewrite inject_Z_mult; change (inject_Z 2) with 2%Q; lra). pose proof (grid_gap a (2 * E) (2 * h) 0 ltac:(lra) (on_grid a Ra A1) GE2) as G. change (inject_Z 0) with 0%Q in G. change (inject_Z (0 + 1)) with 1%Q in G. lra. }
  assert (Y1 : (E <= y)%Q) by lra. assert (Y2 : (y <= 2 * E - 4 * h)%Q) by lra. assert (Y0 : (0 < y)%Q) by lra. assert (EH : (0 < E * h)%Q) by (apply Qmult_lt_0_compat; assumption).
  set (W := rnd p (y * y)). assert (DIF : (a * a - y * y == 4 * (a * h) - 4 * (h * h))%Q) by (rewrite YE; ring).
  assert (HH : (h * h <= (1 # 65536) * (E * h))%Q). { assert (h * h <= (1 # 65536) * E * h)%Q by (apply mul_l_le; assumption). lra. }
  assert (SQ : forall s, (E <= s)%Q -> (E * E <= rnd p (s * s))%Q). { intros s S. assert (R : representable p (E * E)). { exists 1, (e + e). split; [pose proof (Z.pow_pos_nonneg 2 p ltac:(lia) ltac:(lia)); lia|]. rewrite pow2_add. unfold E. ring. } rewrite <-(rnd_exact p (E * E) ltac:(lia) R). apply rnd_mono_any; [lia|]. apply mul_le; lra. }
  assert (GR : forall k s, representable p s -> (pow2 k * (E * E) <= s)%Q -> exists n, (s == inject_Z n * (2 * (pow2 k * (E * h))))%Q).
  { intros k s R S. destruct (grid p s (e + e + k) ltac:(lia) R) as (n & N). { replace (e + e + k) with (k + (e + e)) by lia. rewrite !pow2_add. fold E. exact S. } exists n. rewrite N. replace (e + e + k - p + 1) with (e + e + k - p + 1) by lia. rewrite pow2_S, level. reflexivity. }
  assert (WX : (W <= X - 4 * (E * h))%Q).
  { destruct (Qlt_le_dec (y * y) (2 * (E * E))) as [L|L].
    - pose proof (sq_err y 0 1 Y0 eq_refl) as WY. specialize (WY ltac:(lra)). fold W in WY. apply abs_bd in WY. destruct WY as [_ WY].
      assert (GW : exists n, (W == inject_Z n * (2 * (E * h)))%Q). { destruct (GR 0 W ltac:(apply rep_rnd; lia)) as (n & N). { rewrite pow2_0. pose proof (SQ y Y1). fold W in H. lra. } exists n. rewrite N, pow2_0. ring. }
      assert (GX : exists n, (X == inject_Z n * (2 * (E * h)))%Q). { destruct (GR 0 X ltac:(apply rep_rnd; lia)) as (n & N). { rewrite pow2_0. pose proof (SQ a A1). fold X in H. lra. } exists n. rewrite N, pow2_0. ring. }
      pose proof (grid_gap W X (2 * (E * h)) 1 ltac:(lra) GW GX) as G. change (inject_Z 1) with 1%Q in G. change (inject_Z (1 + 1)) with 2%Q in G.
      assert (1 * (2 * (E * h)) < X - W)%Q; [|specialize (G H); lra].
      destruct (Qlt_le_dec (a * a) (2 * (E * E))) as [LA|LA].
      + pose proof (sq_err a 0 1 ltac:(lra) eq_refl) as WA. specialize (WA ltac:(lra)). fold X in WA. apply abs_bd in WA. destruct WA as [WA _]. assert ((E + 2 * h) * h <= a * h)%Q by (apply mul_l_le; lra). assert (0 < h * h)%Q by (apply Qmult_lt_0_compat; assumption). lra.
      + pose proof (sq_err a 1 2 ltac:(lra) eq_refl) as WA. assert (AE : (a * a < 2 * (2 * (E * E)))%Q) by nra. specialize (WA AE). fold X in WA. apply abs_bd in WA. destruct WA as [WA _].
        assert (AB : ((14 # 10) * E <= a)%Q). { destruct (Qlt_le_dec a ((14 # 10) * E)) as [Q|Q]; [|exact Q]. exfalso. assert (a * a <= (14 # 10) * E * ((14 # 10) * E))%Q by (apply mul_le; lra). assert (0 < E * E)%Q by (apply Qmult_lt_0_compat; assumption). lra. }
        assert ((14 # 10) * E * h <= a * h)%Q by (apply mul_l_le; assumption). lra.
    - assert (YB : ((14 # 10) * E <= y)%Q). { destruct (Qlt_le_dec y ((14 # 10) * E)) as [Q|Q]; [|exact Q]. exfalso. assert (y * y <= (14 # 10) * E * ((14 # 10) * E))%Q by (apply mul_le; lra). assert (0 < E * E)%Q by (apply Qmult_lt_0_compat; assumption). lra. }
      pose proof (sq_err y 1 2 Y0 eq_refl) as WY. assert (YE2 : (y * y < 2 * (2 * (E * E)))%Q) by nra. specialize (WY YE2). fold W in WY. apply abs_bd in WY. destruct WY as [_ WY].
      pose proof (sq_err a 1 2 ltac:(lra) eq_refl) as WA. assert (AE : (a * a < 2 * (2 * (E * E)))%Q) by nra. specialize (WA AE). fold X in WA. apply abs_bd in WA. destruct WA as [WA _].
      assert (R2 : representable p (2 * (E * E))). { exists 1, (e + e + 1). split; [pose proof (Z.pow_pos_nonneg 2 p ltac:(lia) ltac:(lia)); lia|]. rewrite pow2_S, pow2_add. unfold E. ring. }
      assert (W2 : (2 * (E * E) <= W)%Q) by (rewrite <-(rnd_exact p _ ltac:(lia) R2); apply rnd_mono_any; [lia|exact L]).
      assert (X2 : (2 * (E * E) <= X)%Q). { rewrite <-(rnd_exact p _ ltac:(lia) R2). apply rnd_mono_any; [lia|]. assert (y * y <= a * a)%Q by (apply mul_le; lra). lra. }
      assert (GW : exists n, (W == inject_Z n * (4 * (E * h)))%Q). { destruct (GR 1 W ltac:(apply rep_rnd; lia)) as (n & N); [change (pow2 1) with 2%Q; exact W2|]. exists n. rewrite N. change (pow2 1) with 2%Q. ring. }
      assert (GX : exists n, (X == inject_Z n * (4 * (E * h)))%Q). { destruct (GR 1 X ltac:(apply rep_rnd; lia)) as (n & N); [change (pow2 1) with 2%Q; exact X2|]. exists n. rewrite N. change (pow2 1) with 2%Q. ring. }
      pose proof (grid_gap W X (4 * (E * h)) 0 ltac:(lra) GW GX) as G. change (inject_Z 0) with 0%Q in G. change (inject_Z (0 + 1)) with 1%Q in G.
      assert (0 * (4 * (E * h)) < X - W)%Q; [|specialize (G H); lra]. assert ((14 # 10) * E * h <= a * h)%Q by (apply mul_l_le; lra). lra. }
  (* so the correction is more than half a unit *)
  unfold nstep. fold W. set (c := (h * (1 + 2 * u))%Q). assert (UH : (0 < u * h)%Q) by (apply Qmult_lt_0_compat; assumption).
  assert (RC : representable p (- c)). { apply rep_opp. exists (2 ^ (p - 1) + 1), (e - p - p + 1). split; [replace p with (Z.succ (p - 1)) at 2 by lia; rewrite Z.pow_succ_r by lia; pose proof (Z.pow_pos_nonneg 2 (p - 1) ltac:(lia) ltac:(lia)); lia|]. rewrite inject_Z_plus, <-pow2_Z by lia. change (inject_Z 1) with 1%Q. unfold c. rewrite <-PH. rewrite Qmult_plus_distr_l, <-pow2_add. replace (p - 1 + (e - p - p + 1)) with (e - p) by lia. replace (e - p - p + 1) with (e - p + - p + 1) by lia. rewrite pow2_S, pow2_add. fold u. ring. }
  assert (RG : representable p (- (4 * (E * h)))). { apply rep_opp. exists 1, (e + e + 2 - p). split; [pose proof (Z.pow_pos_nonneg 2 p ltac:(lia) ltac:(lia)); lia|]. rewrite level. change (pow2 2) with 4%Q. ring. }
  assert (T1 : (rnd p (W - X) <= - (4 * (E * h)))%Q). { rewrite <-(rnd_exact p _ ltac:(lia) RG). apply rnd_mono_any; [lia|]. lra. }
  assert (T2 : (rnd p (rnd p (W - X) / (2 * y)) <= - c)%Q).
  { rewrite <-(rnd_exact p _ ltac:(lia) RC). apply rnd_mono_any; [lia|]. apply (Qle_trans _ (- (4 * (E * h)) / (2 * y))); [apply div_mono; lra|]. apply Qle_shift_div_r; [lra|].
    assert (CY : (c * y <= 2 * (E * h))%Q). { assert (c * y <= c * (2 * E - 4 * h))%Q by (apply mul_r_le; [unfold c; lra|exact Y2]). assert (c * (2 * E - 4 * h) == 2 * (E * h) - 8 * (u * h) * h + (4 * (u * E) * h - 4 * h * h))%Q by (unfold c; ring). assert (4 * (u * E) * h == 4 * h * h)%Q by (unfold h; ring). assert (0 < u * h * h)%Q by (apply Qmult_lt_0_compat; assumption). lra. }
    lra. }
  set (t := rnd p (rnd p (W - X) / (2 * y))) in *. assert (V : (rnd p (y + c) <= rnd p (y - t))%Q) by (apply rnd_mono_any; [lia|lra]).
  eapply Qlt_le_trans; [|exact V]. destruct (Qlt_le_dec y (rnd p (y + c))) as [Q|Q]; [exact Q|]. exfalso.
  pose proof (rnd_nearest_pos p (y + c) a ltac:(lia) ltac:(unfold c; lra) Ra) as NR. assert (B : (Qabs (a - (y + c)) <= h - 2 * (u * h))%Q) by (apply abs_le; unfold c; nra).
  assert (D : (h + 2 * (u * h) <= Qabs (rnd p (y + c) - (y + c)))%Q). { apply Qabs_case; intros; unfold c in *; lra. } lra.
Qed.

(* from below a power of two, by less than 3 units, the step comes back to it *)
Lemma comes_back y : (a == E)%Q -> representable p y -> (E - 2 * h <= y)%Q -> (y < E)%Q -> (E <= nstep p X y)%Q.
Proof.
  intros AE Ry Y1 Y2. destruct ab_facts as (U0 & U1 & E0 & H0 & HE & A1 & A2 & PH). assert (Y0 : (0 < y)%Q) by lra. assert (YY : (0 < y * y)%Q) by (apply Qmult_lt_0_compat; exact Y0).
  assert (EH : (E == 2 * pow2 (e - 1))%Q). { unfold E. rewrite <-pow2_S. replace (e - 1 + 1) with e by lia. reflexivity. }
  destruct (grid p y (e - 1) ltac:(lia) Ry ltac:(lra)) as (k & K). replace (e - 1 - p + 1) with (e - p) in K by lia.
  assert (EK : (E == inject_Z (2 ^ p) * pow2 (e - p))%Q). { rewrite <-pow2_Z by lia. rewrite <-pow2_add. replace (p + (e - p)) with e by lia. reflexivity. }
  assert (P2 : 2 ^ p = 2 * 2 ^ (p - 1)). { replace p with (Z.succ (p - 1)) at 1 by lia. apply Z.pow_succ_r. lia. }
  assert (PB : 32768 <= 2 ^ (p - 1)) by (change 32768 with (2 ^ 15); apply Z.pow_le_mono_r; lia).
  assert (KB : 0 <= k - 2 ^ (p - 1) <= 2 ^ p).
  { assert (L1 : (inject_Z (2 ^ p - 2) * pow2 (e - p) <= inject_Z k * pow2 (e - p))%Q). { unfold Z.sub at 1. rewrite inject_Z_plus, inject_Z_opp. change (inject_Z 2) with 2%Q. rewrite <-K. rewrite PH in *. lra. }
    assert (L2 : (inject_Z k * pow2 (e - p) <= inject_Z (2 ^ p) * pow2 (e - p))%Q) by (rewrite <-K, <-EK; lra).
    apply Qmult_le_r in L1; [|apply pow2_pos]. apply Qmult_le_r in L2; [|apply pow2_pos]. rewrite <-Zle_Qle in L1, L2. lia. }
  set (r := (E * (2 * y - E))%Q). assert (RR : representable p r).
  { exists (k - 2 ^ (p - 1)), (e - p + e + 1). split; [lia|]. unfold r. rewrite pow2_S, pow2_add. fold E. rewrite K. rewrite EK at 2. rewrite P2, inject_Z_mult. assert (IK : (inject_Z (k - 2 ^ (p - 1)) == inject_Z k - inject_Z (2 ^ (p - 1)))%Q) by (unfold Z.sub at 1; rewrite inject_Z_plus, inject_Z_opp; reflexivity). rewrite IK. change (inject_Z 2) with 2%Q. ring. }
  assert (W2 : (Qabs (rnd p (y * y) - y * y) <= (y - E) * (y - E))%Q). { eapply Qle_trans; [apply (rnd_nearest_pos p (y * y) r ltac:(lia) YY RR)|]. assert (EQ : (r - y * y == - ((y - E) * (y - E)))%Q) by (unfold r; ring). rewrite EQ. pose proof (sq_nonneg (y - E)) as SQ. apply abs_le; lra. }
  assert (XE : (X == E * E)%Q). { unfold X. rewrite (rnd_compat p _ (E * E)) by (lia || (rewrite AE; reflexivity)). apply rnd_exact; [lia|]. exists 1, (e + e). split; [lia|]. rewrite pow2_add. unfold E. ring. }
  destruct (nstep_error p X y ltac:(lia) Y0) as (t & d & N & T & D1 & D2). rewrite N. fold u in D1, D2. rewrite XE in T. apply abs_bd in W2. destruct W2 as [_ W2].
  assert (TL : (2 * y * t <= 2 * y * ((y - E) * (1 - 3 * u)))%Q).
  { rewrite T. assert (B : (rnd p (y * y) - E * E <= 2 * y * (y - E))%Q) by lra. apply (Qle_trans _ (2 * y * (y - E) * (1 + d))); [apply mul_l_le; lra|].
    assert (NG : (2 * y * (y - E) <= 0)%Q) by nra. assert (2 * y * (y - E) * (1 + d) <= 2 * y * (y - E) * (1 - 3 * u))%Q; [nra|]. lra. }
  apply Qmult_le_l in TL; [|lra]. assert (V : (E - 6 * (u * h) <= y - t)%Q) by nra.
  assert (UH : (0 < u * h)%Q) by (apply Qmult_lt_0_compat; assumption). assert (UH2 : (u * h <= (1 # 65536) * h)%Q) by (apply mul_l_le; assumption).
  assert (RE : representable p E). { exists 1, e. split; [lia|]. unfold E. ring. }
  apply (Qle_trans _ (rnd p (E - 6 * (u * h)))); [|apply rnd_mono_any; [lia|exact V]]. set (v := (E - 6 * (u * h))%Q) in *.
  pose proof (near_exact p v E ltac:(lia) ltac:(unfold v; lra) RE) as NE. assert (VE : (Qabs (v - E) <= 6 * (u * h))%Q) by (apply abs_le; unfold v; lra).
  assert (Q : (rnd p v == E)%Q); [|lra]. assert (LB : (pow2 (e - 1) <= rnd p v)%Q). { assert (Qabs (rnd p v - E) <= 12 * (u * h))%Q as Z by lra. apply abs_bd in Z. lra. }
  apply (grid_eq _ _ (pow2 (e - p))); [apply pow2_pos| | |rewrite PH; lra].
  - destruct (grid p (rnd p v) (e - 1) ltac:(lia) ltac:(apply rep_rnd; lia) LB) as (m & M). exists m. replace (e - p) with (e - 1 - p + 1) by lia. exact M.
  - exists (2 ^ p). exact EK.
Qed.
(* from a itself the step stays *)
Lemma stays y : (y == a)%Q -> (nstep p X y == a)%Q.
Proof.
  intros Y. destruct ab_facts as (U0 & U1 & E0 & H0 & HE & A1 & A2 & PH). unfold nstep. assert (Z1 : (rnd p (y * y) - X == 0)%Q). { unfold X. rewrite (rnd_compat p (y * y) (a * a)) by (lia || (rewrite Y; reflexivity)). ring. }
  rewrite (rnd_zero p (rnd p (y * y) - X) Z1). rewrite (rnd_zero p (0 / (2 * y))) by (field; lra). rewrite (rnd_compat p _ a) by (lia || (rewrite Y; ring)). apply rnd_exact; [lia|exact Ra].
Qed.

(* the last step: y is within the bounds of the iterates, z is the result of the step, close to y *)
Lemma last_above x y z : (X <= x)%Q -> (0 < y)%Q -> representable p y -> representable p z -> (0 < z)%Q -> (a - 2 * h <= y)%Q -> (z == nstep p x y)%Q -> (Qabs (rnd p (y - z)) <= 2 * (z * u))%Q -> (a <= z)%Q.
Proof.
  intros XX Y0 Ry Rz Z0 YL ZE D. destruct ab_facts as (U0 & U1 & E0 & H0 & HE & A1 & A2 & PH). destruct (Qlt_le_dec z a) as [L|L]; [|exact L]. exfalso.
  pose proof (nstep_mono p X x y ltac:(lia) Y0 XX) as NM. pose proof (lands y Y0) as LN.
  assert (ST : forall n, (inject_Z n * h <= y - z)%Q -> 0 <= n <= 8 -> (inject_Z n * h <= 2 * (z * u))%Q).
  { intros n NL NB. assert (R : representable p (inject_Z n * h)). { exists n, (e - p). split; [assert (65536 <= 2 ^ p) by (change 65536 with (2 ^ 16); apply Z.pow_le_mono_r; lia); lia|]. rewrite PH. reflexivity. } pose proof (rnd_mono_any p _ _ ltac:(lia) NL) as M. rewrite (rnd_exact p _ ltac:(lia) R) in M. apply abs_bd in D. lra. }
  destruct (Qlt_le_dec E a) as [NE|NE].
  - assert (G0 : (2 * h <= a - E)%Q). { pose proof (grid_gap E a (2 * h) 0 ltac:(lra) E_grid (on_grid a Ra A1)) as G. change (inject_Z 0) with 0%Q in G. change (inject_Z (0 + 1)) with 1%Q in G. lra. }
    pose proof (on_grid a Ra A1) as GA. pose proof (on_grid y Ry ltac:(lra)) as GY. pose proof (on_grid z Rz ltac:(lra)) as GZ.
    assert (ZA : (2 * h <= a - z)%Q). { pose proof (grid_gap z a (2 * h) 0 ltac:(lra) GZ GA) as G. change (inject_Z 0) with 0%Q in G. change (inject_Z (0 + 1)) with 1%Q in G. lra. }
    assert (ZU : (2 * (z * u) < 4 * h)%Q) by (unfold h; nra).
    destruct (Qlt_le_dec a y) as [AY|AY].
    + assert (YA : (2 * h <= y - a)%Q). { pose proof (grid_gap a y (2 * h) 0 ltac:(lra) GA GY) as G. change (inject_Z 0) with 0%Q in G. change (inject_Z (0 + 1)) with 1%Q in G. lra. } pose proof (ST 4) as S4. change (inject_Z 4) with 4%Q in S4. specialize (S4 ltac:(lra) ltac:(lia)). lra.
    + destruct (Qlt_le_dec y a) as [AZ|AZ]; [|pose proof (stays y ltac:(lra)); lra].
      assert (YE : (y == a - 2 * h)%Q). { pose proof (grid_gap y a (2 * h) 0 ltac:(lra) GY GA) as G. change (inject_Z 0) with 0%Q in G. change (inject_Z (0 + 1)) with 1%Q in G. lra. }
      pose proof (goes_up y NE YE) as GU. assert (ZY : (2 * h <= z - y)%Q). { pose proof (grid_gap y z (2 * h) 0 ltac:(lra) GY GZ) as G. change (inject_Z 0) with 0%Q in G. change (inject_Z (0 + 1)) with 1%Q in G. lra. } lra.
  - assert (AE : (a == E)%Q) by lra. assert (ZU : (2 * (z * u) < 2 * h)%Q) by (unfold h; nra).
    destruct (Qlt_le_dec E y) as [AY|AY].
    + assert (YA : (2 * h <= y - E)%Q). { pose proof (grid_gap E y (2 * h) 0 ltac:(lra) E_grid (on_grid y Ry ltac:(lra))) as G. change (inject_Z 0) with 0%Q in G. change (inject_Z (0 + 1)) with 1%Q in G. lra. } pose proof (ST 2) as S2. change (inject_Z 2) with 2%Q in S2. specialize (S2 ltac:(lra) ltac:(lia)). lra.
    + destruct (Qlt_le_dec y E) as [AZ|AZ]; [|pose proof (stays y ltac:(lra)); lra]. pose proof (comes_back y AE Ry ltac:(lra) AZ). lra.
Qed.
End Above.

Definition above_inv (p : Z) (b : Q) (l : looper) (z : Q) : Prop := (0 < z)%Q /\ representable p z /\ 0 <= l_i l /\ (0 < l_i l -> l_prev l = z /\ (b <= z)%Q).
Theorem root_above p a x fuel z : 16 <= p -> (0 < a)%Q -> representable p a -> representable p x -> (rnd p (a * a) <= x)%Q -> float_sqrt (rnd p) p fuel x = Some (Ok z) -> (a <= z)%Q.
Proof.
  intros Hp A Ra Rx XX. assert (Hp8 : 8 <= p) by lia. destruct (ilog2_pos a A) as [La Ha]. set (e := ilog2 a) in *. set (b := (a - 2 * (pow2 (- p) * pow2 e))%Q).
  assert (AA : (0 < a * a)%Q) by (apply Qmult_lt_0_compat; exact A). assert (Hx : (0 < x)%Q) by (pose proof (rnd_pos p _ Hp8 AA); lra). unfold float_sqrt.
  assert (0 < Qnum x) as Nx. { destruct x as [n d]. unfold Qlt in Hx. cbn in *. lia. }
  destruct (Z.ltb_spec (Qnum x) 0); [lia|]. destruct (Z.eqb_spec (Qnum x) 0); [lia|]. intros H1.
  assert (above_inv p b (new_loop 1 p) (sqrt_start x)) as I0.
  { destruct (start_facts p x Hx Rx) as (S1 & S2 & _). split; [exact S1|]. split; [exact S2|]. cbn; lia. }
  eapply series_inv with (I := above_inv p b) in H1; [| |exact I0].
  - destruct H1 as (l & y & (Hy & Ry & Hi & Hprev) & B & D).
    assert (newton (rnd p) x 0 y = Ok z) as B' by exact B.
    destruct (newton_ok p x y Hp8 Hx Hy) as (z' & Ez & Hz). rewrite B' in Ez. injection Ez as <-.
    assert (Rz : representable p z). { revert B'. unfold newton. destruct (fquo _ _ _); try discriminate. cbn [bind]. intros [= <-]. unfold fsub. apply rep_rnd. lia. }
    unfold done in D. assert (3 <= l_i l /\ (Qabs (rnd p (l_prev l - z)) <= 2 * (z * pow2 (- p)))%Q) as [L3 Dl].
    { pose proof (eps_le p z ltac:(lra)) as E. rewrite (Qabs_pos z) in E by lra. destruct (pow2_small p Hp8) as [U1 U2].
      destruct (Qeq_bool _ 0 && (3 <=? l_i l)) eqn:E1.
      - apply Bool.andb_true_iff in E1. destruct E1 as [E1 E2]. apply Qeq_bool_iff in E1. apply Z.leb_le in E2. split; [exact E2|].
        rewrite E1. change (Qabs 0) with 0%Q. nra.
      - destruct (Qle_bool _ _ && (3 <=? l_i l)) eqn:E2; [|destruct (_ =? _); discriminate].
        apply Bool.andb_true_iff in E2. destruct E2 as [E2 E3]. apply Qle_bool_iff in E2. apply Z.leb_le in E3. split; [exact E3|]. lra. }
    destruct (Hprev ltac:(lia)) as [HP HB]. rewrite HP in Dl.
    apply (last_above p e a Hp Ra La Ha x y z XX Hy Ry Rz Hz HB (newton_is p x y z Hp8 Hy Ry B') Dl).
  - intros l y z1 l' (Hy & Ry & Hi & Hp1) B D. destruct (newton_ok p x y Hp8 Hx Hy) as (z' & Ez & Hz).
    assert (newton (rnd p) x 0 y = Ok z1) as B' by exact B. rewrite B' in Ez. injection Ez as <-.
    unfold done in D. destruct (_ && _); [discriminate|]. destruct (_ && _); [discriminate|].
    destruct (_ =? _); [discriminate|]. injection D as <-. split; [exact Hz|]. split.
    + revert B'. unfold newton. destruct (fquo _ _ _); try discriminate. cbn [bind]. intros [= <-]. unfold fsub. apply rep_rnd. lia.
    + cbn [l_i l_prev]. split; [apply Z.mod_pos_bound; reflexivity|]. intros _. split; [reflexivity|]. pose proof (newton_is p x y z1 Hp8 Hy Ry B') as ZE. pose proof (nstep_mono p _ x y ltac:(lia) Hy XX). pose proof (lands p e a Hp Ra La Ha y Hy). unfold b. lra.
Qed.

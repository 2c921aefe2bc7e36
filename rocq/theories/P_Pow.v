(* C119: powers of floats. *)
From Coq Require Import QArith Qabs Qround Qpower Setoid Lqa Lia.
From Verif Require Import Value FloatModel FloatProofs FloatSqrt FloatMono FloatSign FloatReduce RandSpec MixProofs ArcModel ArcSpec ArcRound ArcProofs SqrtConv LogConv HypProofs ExpModel ExpProofs PowModel PowProofs.
Open Scope Z_scope.

Lemma num_sign y : (Qnum y =? 0 = true <-> (y == 0)%Q) /\ (Qnum y <? 0 = true <-> (y < 0)%Q).
Proof. destruct y as [a b]. unfold Qeq, Qlt. cbn. lia. Qed.
Lemma num_not0 y : ~ (y == 0)%Q -> Qnum y =? 0 = false. Proof. intros H. destruct (Qnum y =? 0) eqn:E; [apply num_sign in E; contradiction|reflexivity]. Qed.
Lemma num_notneg y : (0 <= y)%Q -> Qnum y <? 0 = false. Proof. intros H. destruct (Qnum y <? 0) eqn:E; [apply num_sign in E; lra|reflexivity]. Qed.
Lemma num_neg y : (y < 0)%Q -> Qnum y <? 0 = true. Proof. apply num_sign. Qed.
Lemma not_one x : ~ (x == 1)%Q -> Qeq_bool x 1 = false. Proof. intros H. destruct (Qeq_bool x 1) eqn:E; [apply Qeq_bool_eq in E; contradiction|reflexivity]. Qed.
Lemma qabs_opp y : Qabs (- y) = Qabs y. Proof. destruct y as [a b]. cbn. rewrite Z.abs_opp. reflexivity. Qed.
(* The edges: x**0 is 1, 1**y is 1, 0**y is 0 for y > 0 and an error for y < 0; a negative base is left to the complex function. *)
Theorem power_edges : forall p log2 fuel x y, 8 <= p ->
  ((y == 0)%Q -> exists z, float_power (rnd p) p log2 fuel x y = Some (Ok z) /\ (z == 1)%Q) /\
  ((x == 1)%Q -> exists z, float_power (rnd p) p log2 fuel x y = Some (Ok z) /\ (z == 1)%Q) /\
  ((x == 0)%Q -> (0 < y)%Q -> exists z, float_power (rnd p) p log2 fuel x y = Some (Ok z) /\ (z == 0)%Q) /\
  ((x == 0)%Q -> (y < 0)%Q -> float_power (rnd p) p log2 fuel x y = Some Err) /\
  (power (rnd p) p log2 fuel x y = Complex <-> (x < 0)%Q).
Proof.
  intros p log2 fuel x y Hp. pose proof (fint1 p ltac:(lia)) as F1. split; [|split; [|split; [|split]]].
  - intros Y. apply num_sign in Y. unfold float_power. rewrite Y. eexists. split; [reflexivity|exact F1].
  - intros X. unfold float_power. destruct (Qnum y =? 0); [eexists; split; [reflexivity|exact F1]|]. assert (Qnum x =? 0 = false) as -> by (apply num_not0; lra). rewrite Bool.andb_false_r. rewrite (Qeq_eq_bool _ _ X). cbn [orb]. eexists. split; [reflexivity|exact X].
  - intros X Y. unfold float_power. rewrite (num_not0 y) by lra. rewrite (num_notneg y) by lra. cbn [andb]. assert (X' : (x == 0)%Q) by exact X. apply num_sign in X. rewrite X. rewrite Bool.orb_true_r. eexists. split; [reflexivity|exact X'].
  - intros X Y. unfold float_power. rewrite (num_not0 y) by lra. rewrite (num_neg y Y). apply num_sign in X. rewrite X. reflexivity.
  - unfold power. destruct (Qnum x <? 0) eqn:E; split; intros H; try discriminate; try reflexivity; [apply num_sign in E; exact E|apply num_sign in H; congruence].
Qed.
Print Assumptions power_edges.
(* x ** -y is the reciprocal of x ** y, rounded once. *)
Theorem power_reciprocal : forall p log2 fuel x y z, 8 <= p -> (0 < x)%Q -> (0 < y)%Q -> ~ (x == 1)%Q -> ~ (z == 0)%Q ->
  float_power (rnd p) p log2 fuel x y = Some (Ok z) -> float_power (rnd p) p log2 fuel x (- y) = Some (Ok (rnd p (1 / z))).
Proof.
  intros p log2 fuel x y z Hp X Y X1 Z0 E. unfold float_power in *. rewrite (num_not0 y) in E by lra. rewrite (num_notneg y) in E by lra. rewrite (num_not0 (- y)) by lra. rewrite (num_neg (- y)) by lra. rewrite (num_not0 x) in * by lra. rewrite (not_one x X1) in *. cbn [andb orb] in *. rewrite qabs_opp.
  destruct (Qeq_bool (Qabs y) (1 # 2)).
  - destruct (float_sqrt (rnd p) p fuel x) as [[s| | |]|]; try discriminate. cbn [then_] in *. unfold invert_if in *. cbn match in *. injection E as ->. rewrite fquo_ok by exact Z0. reflexivity.
  - destruct (to_int64 (Qabs y)) as [e b]. destruct (integer_power (rnd p) fuel x e) as [i|]; [|discriminate]. set (w := if b then _ else _) in *. destruct w as [[s| | |]|]; try discriminate. cbn [then_] in *. unfold invert_if in *. cbn match in *. injection E as ->. rewrite fquo_ok by exact Z0. reflexivity.
Qed.
Print Assumptions power_reciprocal.
(* x ** 1/2 is the square root. *)
Theorem power_half : forall p log2 fuel x, 8 <= p <= 1000000 -> p + 4 < Z.of_nat fuel -> (0 < x)%Q -> representable p x ->
  exists z, float_power (rnd p) p log2 fuel x (1 # 2) = Some (Ok z) /\ (0 < z)%Q /\ (Qabs (z * z - x) <= 16 * (x * pow2 (- p)))%Q.
Proof.
  intros p log2 fuel x Hp Hf X R. unfold float_power. cbn [Qnum Z.ltb Z.compare Z.eqb andb]. destruct (Qeq_bool x 1) eqn:E.
  - cbn [orb]. apply Qeq_bool_eq in E. exists x. split; [reflexivity|]. split; [exact X|]. pose proof (pow2_pos (- p)). assert (ZE : (x * x - x == 0)%Q) by (rewrite E; ring). rewrite ZE. change (Qabs 0) with 0%Q. nra.
  - rewrite (num_not0 x) by lra. cbn [orb]. change (Qeq_bool (Qabs (1 # 2)) (1 # 2)) with true. cbn match. destruct (sqrt_value p x fuel Hp X R Hf) as (z & S & H). rewrite S. exists z. split; [reflexivity|exact H].
Qed.
Print Assumptions power_half.
(* x ** n for an integer n from 1 below 2^63: the exact power but for 2n factors between 1 - 2^-p and 1 + 2^-p. *)
Theorem power_integer : forall p log2 fuel x n, 8 <= p -> (63 <= fuel)%nat -> (0 < x)%Q -> 1 <= n < 2 ^ 63 ->
  exists z, float_power (rnd p) p log2 fuel x (inject_Z n) = Some (Ok z) /\
  ((1 - pow2 (- p)) ^ (2 * n) * x ^ n <= z)%Q /\ (z <= (1 + pow2 (- p)) ^ (2 * n) * x ^ n)%Q.
Proof.
  intros p log2 fuel x n Hp Hf X Hn. pose proof (pow2_small p Hp) as [U0 U1]. unfold float_power. change (Qnum (inject_Z n)) with n. assert (n =? 0 = false) as -> by lia. assert (n <? 0 = false) as -> by lia. cbn [andb]. destruct (Qeq_bool x 1) eqn:E.
  - cbn [orb]. apply Qeq_bool_eq in E. exists x. split; [reflexivity|]. assert (XN : (x ^ n == 1)%Q) by (rewrite E; apply Qpower_1). rewrite XN. pose proof (qp_down (1 - pow2 (- p)) 0 (2 * n) ltac:(lra) ltac:(lra) ltac:(lia)) as A. pose proof (qp_up (1 + pow2 (- p)) 0 (2 * n) ltac:(lra) ltac:(lia)) as B. cbn [Qpower] in A, B. split; lra.
  - rewrite (num_not0 x) by lra. cbn [orb]. assert (Qeq_bool (Qabs (inject_Z n)) (1 # 2) = false) as ->. { destruct (Qeq_bool (Qabs (inject_Z n)) (1 # 2)) eqn:H; [|reflexivity]. apply Qeq_bool_eq in H. unfold Qeq in H. cbn in H. lia. }
    assert (AE : Qabs (inject_Z n) = inject_Z n) by (unfold Qabs, inject_Z; rewrite Z.abs_eq by lia; reflexivity). rewrite AE. unfold to_int64. assert (Qle_bool (inject_Z (2 ^ 63)) (inject_Z n) = false) as ->. { destruct (Qle_bool _ _) eqn:H; [|reflexivity]. apply Qle_bool_iff in H. rewrite <-Zle_Qle in H. lia. }
    rewrite Qfloor_Z. assert (Qeq_bool (inject_Z n) (inject_Z n) = true) as -> by (apply Qeq_eq_bool; reflexivity). unfold integer_power. destruct (pow_total p fuel (fint (rnd p) 1) x n) as (r & PR). { assert (2 ^ 63 <= 2 ^ Z.of_nat fuel) by (apply Z.pow_le_mono_r; lia). lia. }
    rewrite PR. cbn [then_ invert_if]. exists r. split; [reflexivity|]. pose proof (fint1 p ltac:(lia)) as F1. destruct (pow_bounds p fuel Hp (fint (rnd p) 1) x n r ltac:(lia) ltac:(lra) X PR) as [A B]. rewrite F1, Qmult_1_l in A, B. split; assumption.
Qed.
Print Assumptions power_integer.
(* x ** y for x from 1 to 2^(4p) and every y below 2^63 in absolute value comes out and is positive. *)
Theorem power_total_partial : forall p log2 fuel x y, 8 <= p <= 1000000 -> (0 <= log2)%Q -> (log2 <= 3 # 4)%Q -> 10 * p + 3 < Z.of_nat fuel -> representable p x -> representable p y ->
  (1 <= x)%Q -> (x <= pow2 (4 * p))%Q -> (Qabs y < inject_Z (2 ^ 63))%Q ->
  exists z, float_power (rnd p) p log2 fuel x y = Some (Ok z) /\ (0 < z)%Q.
Proof.
  intros p log2 fuel x y Hp L0 L1 Hf RX RY X1 X2 YB. pose proof (fint1 p ltac:(lia)) as F1. unfold float_power.
  assert (INV : forall b s, (0 < s)%Q -> exists z, invert_if (rnd p) b s = Some (Ok z) /\ (0 < z)%Q).
  { intros b s S. unfold invert_if. destruct b; [|eauto]. rewrite fquo_ok by lra. unfold of_res. eexists. split; [reflexivity|]. set (v := (1 / s)%Q). assert (V : (v * s == 1)%Q) by (unfold v; field; lra). assert (V0 : (0 < v)%Q) by nra. pose proof (rnd_pos p v ltac:(lia) V0) as [A _]. lra. }
  destruct (Qnum y =? 0) eqn:Y0; [eexists; split; [reflexivity|lra]|]. rewrite (num_not0 x) by lra. rewrite Bool.andb_false_r, Bool.orb_false_r. destruct (Qeq_bool x 1) eqn:E; [eexists; split; [reflexivity|lra]|].
  assert (A0 : (0 < Qabs y)%Q). { pose proof (Qabs_nonneg y) as N. destruct (Qlt_le_dec 0 (Qabs y)) as [G|G]; [exact G|]. exfalso. assert (YZ : (y == 0)%Q). { apply Qabs_Qle_condition in G. lra. } apply num_sign in YZ. congruence. }
  set (a := Qabs y) in *. destruct (Qeq_bool a (1 # 2)).
  - destruct (sqrt_value p x fuel Hp ltac:(lra) RX ltac:(lia)) as (s & S & S0 & _). rewrite S. cbn [then_]. apply INV, S0.
  - destruct (to_int64_facts a A0 YB) as (e & b & T & E1 & E2 & E3). rewrite T. unfold integer_power. destruct (pow_total p fuel (fint (rnd p) 1) x e) as (r & PR). { assert (2 ^ 63 <= 2 ^ Z.of_nat fuel) by (apply Z.pow_le_mono_r; lia). lia. }
    rewrite PR. pose proof (pow_above p fuel ltac:(lia) (fint (rnd p) 1) x e r ltac:(lra) X1 PR) as R1. destruct b; [cbn [then_]; apply INV; lra|].
    destruct (log_total p fuel log2 x Hp L0 ltac:(lia) ltac:(lra) RX) as (l & LE & _ & LZ & LP). rewrite LE. cbn [then_]. pose proof (log_small p fuel log2 x l Hp L0 L1 ltac:(lia) X1 X2 RX LE) as LS. assert (LN : (0 <= l)%Q). { destruct (Qlt_le_dec 1 x) as [G|G]; [specialize (LP G); lra|specialize (LZ ltac:(lra)); lra]. }
    unfold fmul, fsub. pose proof (rnd_mono_any p (inject_Z e) a ltac:(lia) E2) as RE. assert (RA : representable p a). { unfold a. destruct (Qlt_le_dec y 0) as [N|N]; [apply (rep_compat p (- y)); [symmetry; apply Qabs_neg; lra|apply rep_opp, RY]|apply (rep_compat p y); [symmetry; apply Qabs_pos, N|exact RY]]. } rewrite (rnd_exact p a ltac:(lia) RA) in RE. fold (fint (rnd p) e) in RE. set (g := fint (rnd p) e) in *.
    assert (FB : (rnd p (a - g) <= 1)%Q).
    { assert (GE : (a - 1 <= g)%Q). { destruct (Z_lt_le_dec e (2 ^ p)) as [H|H]; [assert (GG : (g == inject_Z e)%Q) by (apply (rnd_int p e); [lia|lia|reflexivity]); lra|].
        assert (AI : (a == inject_Z e)%Q). { destruct RA as (m & k & M & AE). assert (K : 0 <= k). { destruct (Z_lt_le_dec k 0) as [KN|KN]; [|exact KN]. exfalso. assert (a < inject_Z (2 ^ p))%Q as AL; [|apply le_inject in H; lra]. rewrite AE. assert (inject_Z m <= inject_Z (2 ^ p))%Q as MI by (apply le_inject; lia). assert (pow2 k <= pow2 (-1))%Q as PK by (apply pow2_le; lia). change (pow2 (-1)) with (1 # 2)%Q in PK. pose proof (pow2_pos k) as P0. assert (inject_Z m * pow2 k <= inject_Z (2 ^ p) * pow2 k)%Q by (apply mul_l_le; assumption). assert (0 < inject_Z (2 ^ p))%Q as PP by (rewrite <-inject_0, <-Zlt_Qlt; apply Z.pow_pos_nonneg; lia). assert (inject_Z (2 ^ p) * pow2 k <= inject_Z (2 ^ p) * (1 # 2))%Q by (apply mul_r_le; lra). lra. }
            rewrite (pow2_Z k K), <-inject_Z_mult in AE. rewrite AE in E2, E3 |- *. rewrite <-Zle_Qle in E2. assert (inject_Z (m * 2 ^ k) < inject_Z (e + 1))%Q as E4 by (rewrite inject_Z_plus; exact E3). rewrite <-Zlt_Qlt in E4. replace (m * 2 ^ k) with e by lia. reflexivity. }
        assert (GG : (g == a)%Q). { unfold g, fint. rewrite (rnd_compat p (inject_Z e) a) by (lia || (symmetry; exact AI)). apply rnd_exact; [lia|exact RA]. } lra. }
      pose proof (rnd_mono_any p (a - g) 1 ltac:(lia) ltac:(lra)) as M. rewrite (rnd_exact p 1 ltac:(lia) (rep_one p ltac:(lia))) in M. exact M. }
    pose proof (rnd_nonneg p (a - g) ltac:(lia) ltac:(lra)) as FN. set (fr := rnd p (a - g)) in *. assert (FL : (0 <= fr * l)%Q) by nra. assert (FL2 : (fr * l <= inject_Z (4 * p))%Q) by nra. pose proof (small_power p ltac:(lia)) as SP. pose proof (rnd_nonneg p (fr * l) ltac:(lia) FL) as W0.
    pose proof (bounded p (4 * p) (fr * l) ltac:(lia) ltac:(lia) ltac:(rewrite Qabs_pos by exact FL; exact FL2)) as W1. rewrite Qabs_pos in W1 by exact W0. destruct (exp_all p fuel _ Hp Hf W0 W1) as (w & W & WB). rewrite W. cbn [then_].
    pose proof (rnd_nonneg p (rnd p (fr * l)) ltac:(lia) W0) as W2. pose proof (above_one p (1 + rnd p (rnd p (fr * l))) ltac:(lia) ltac:(lra)) as W3. apply INV. pose proof (above_one p (r * w) ltac:(lia) ltac:(nra)). lra.
Qed.
Print Assumptions power_total_partial.

Definition log16 := Eval vm_compute in rnd 16 (693147180559945 # 1000000000000000).
Definition fuel16 := Eval vm_compute in Z.to_nat 400.
(* For x below 1 the power can be a negative number, and thousands instead of a billionth: 2^-40 ** 3/4 at 16 bits. *)
Theorem power_small_refuted : exists p log2 fuel x y z, 8 <= p <= 1000000 /\ (0 <= log2)%Q /\ (log2 <= 3 # 4)%Q /\ 10 * p + 3 < Z.of_nat fuel /\ (0 < x)%Q /\ (x < 1)%Q /\ (0 < y)%Q /\ (y < 1)%Q /\
  float_power (rnd p) p log2 fuel x y = Some (Ok z) /\ (z < -2000)%Q.
Proof. exists 16, log16, fuel16, (pow2 (-40)), (3 # 4)%Q. eexists. split; [lia|]. split; [vm_compute; discriminate|]. split; [vm_compute; discriminate|]. split; [vm_compute; reflexivity|]. split; [vm_compute; reflexivity|]. split; [vm_compute; reflexivity|]. split; [reflexivity|]. split; [reflexivity|]. split; [vm_compute; reflexivity|]. vm_compute. reflexivity. Qed.
Print Assumptions power_small_refuted.

Example power_values :
  (exists z, float_power (rnd 16) 16 log16 fuel16 (3 # 2) (-7 # 2) = Some (Ok z) /\ (241 # 1000 < z)%Q /\ (z < 242 # 1000)%Q) /\
  float_power (rnd 16) 16 log16 fuel16 (3 # 2) 5 = Some (Ok (243 # 32)) /\
  (exists z, float_power (rnd 16) 16 log16 fuel16 2 (1 # 2) = Some (Ok z) /\ (14142 # 10000 < z)%Q /\ (z < 14143 # 10000)%Q) /\
  power (rnd 16) 16 log16 fuel16 (-2) (1 # 2) = Complex /\
  (representable 16 (3 # 2) /\ representable 16 (-7 # 2)).
Proof.
  repeat match goal with |- _ /\ _ => split | |- exists _, (_ = _) /\ _ => eexists | |- _ = _ => vm_compute; reflexivity end; try (vm_compute; reflexivity); [exists 3, (-1)|exists (-7), (-1)]; (split; [vm_compute; discriminate|vm_compute; reflexivity]).
Qed.
(* The exponents taken for integers are exactly the integers below 2^63, at their own value. *)
Theorem integer_exponents : forall q, (0 <= q)%Q -> (snd (to_int64 q) = true <-> exists n, 0 <= n < 2 ^ 63 /\ (q == inject_Z n)%Q /\ fst (to_int64 q) = n).
Proof.
  intros q Q0. unfold to_int64. destruct (Qle_bool (inject_Z (2 ^ 63)) q) eqn:E.
  - apply Qle_bool_iff in E. split; [discriminate|]. intros (n & N & NE & _). rewrite NE in E. rewrite <-Zle_Qle in E. lia.
  - assert (L : (q < inject_Z (2 ^ 63))%Q). { destruct (Qlt_le_dec q (inject_Z (2 ^ 63))) as [H|H]; [exact H|]. apply Qle_bool_iff in H. congruence. } cbn [fst snd]. split.
    + intros H. apply Qeq_bool_iff in H. exists (Qfloor q). split; [|split; [exact H|reflexivity]]. rewrite H in Q0, L. rewrite <-Zlt_Qlt in L. change 0%Q with (inject_Z 0) in Q0. rewrite <-Zle_Qle in Q0. lia.
    + intros (n & N & NE & F). apply Qeq_bool_iff. rewrite F. exact NE.
Qed.
Print Assumptions integer_exponents.

(* The inverse hyperbolic functions of value/asinh.go come out wherever their sum or quotient does not vanish. *)
From Coq Require Import QArith Qabs Setoid Lqa Lia.
From Verif Require Import Value FloatModel FloatProofs FloatSqrt FloatMono FloatSign FloatReduce RandSpec MixProofs LogProofs ArcModel ArcSpec ArcRound ArcProofs SqrtConv LogConv.
Open Scope Z_scope.

Lemma sqrt_value p x fuel : 8 <= p <= 1000000 -> (0 < x)%Q -> representable p x -> p + 4 < Z.of_nat fuel ->
  exists z, float_sqrt (rnd p) p fuel x = Some (Ok z) /\ (0 < z)%Q /\ (Qabs (z * z - x) <= 16 * (x * pow2 (- p)))%Q.
Proof. intros Hp X R F. destruct (sqrt_converges p x fuel Hp X R F) as (z & E). exists z. split; [exact E|]. apply (sqrt_accurate p x fuel z); [lia|exact X|exact E]. Qed.
Lemma num_pos x : (0 < x)%Q -> Qnum x <? 0 = false /\ Qnum x =? 0 = false.
Proof. destruct x as [a b]. unfold Qlt. cbn. lia. Qed.
Lemma below_spec x y : below x y = true <-> (x < y)%Q.
Proof. unfold below. rewrite Bool.negb_true_iff. destruct (Qlt_le_dec x y) as [H|H]; split; intros G; try lra; try exact H.
  - destruct (Qle_bool y x) eqn:E; [apply Qle_bool_iff in E; lra|reflexivity].
  - apply Qle_bool_iff in H. congruence. Qed.
Lemma below_false x y : (y <= x)%Q -> below x y = false.
Proof. intros H. destruct (below x y) eqn:E; [apply below_spec in E; lra|reflexivity]. Qed.
Lemma above_one p q : 8 <= p -> (1 <= q)%Q -> (1 <= rnd p q)%Q.
Proof. intros Hp H. pose proof (rnd_mono_any p 1 q ltac:(lia) H) as M. rewrite (rnd_exact p 1 ltac:(lia) (rep_one p ltac:(lia))) in M. exact M. Qed.
Lemma acosh_all p log2 fuel x : 8 <= p <= 1000000 -> (0 <= log2)%Q -> p + 4 < Z.of_nat fuel -> representable p x -> (1 <= x)%Q ->
  exists z, float_acosh (rnd p) p log2 fuel x = Some (Ok z) /\ (0 <= z)%Q /\ ((x == 1)%Q -> (z == 0)%Q) /\ ((1 < x)%Q -> (0 < z)%Q).
Proof.
  intros Hp L0 Hf R X1. unfold float_acosh. rewrite below_false by exact X1. unfold fsub, fmul, fadd. set (s := rnd p (x * x)). assert (S1 : (1 <= s)%Q) by (apply above_one; [lia|nra]).
  assert (SQ : exists w, float_sqrt (rnd p) p fuel (rnd p (s - 1)) = Some (Ok w) /\ (0 <= w)%Q /\ ((x == 1)%Q -> (w == 0)%Q)).
  { assert (ZC : (s == 1)%Q -> float_sqrt (rnd p) p fuel (rnd p (s - 1)) = Some (Ok 0%Q)). { intros E. rewrite rnd_zero by lra. reflexivity. }
    destruct (Qlt_le_dec 1 s) as [L|L].
    - pose proof (rnd_pos p (s - 1) ltac:(lia) ltac:(lra)) as [P _]. destruct (sqrt_value p (rnd p (s - 1)) fuel Hp ltac:(lra) ltac:(apply rep_rnd; lia) Hf) as (w & W & W0 & _). exists w. split; [exact W|]. split; [lra|].
      intros E. exfalso. assert (s == 1)%Q; [|lra]. unfold s. rewrite (rnd_compat p (x * x) 1) by (lia || (rewrite E; ring)). apply rnd_exact; [lia|apply rep_one; lia].
    - exists 0%Q. split; [apply ZC; lra|]. split; [lra|intros; reflexivity]. }
  destruct SQ as (w & -> & W0 & WE). cbn [then_]. pose proof (rnd_mono_any p x (w + x) ltac:(lia) ltac:(lra)) as M. rewrite (rnd_exact p x ltac:(lia) R) in M.
  destruct (log_total p fuel log2 (rnd p (w + x)) Hp L0 ltac:(lia) ltac:(lra) ltac:(apply rep_rnd; lia)) as (z & E & _ & Z1 & Z2). exists z. split; [exact E|].
  destruct (Qlt_le_dec 1 (rnd p (w + x))) as [G|G]; [specialize (Z2 G)|specialize (Z1 ltac:(lra))].
  - split; [lra|]. split; [|intros; lra]. intros EX. exfalso. specialize (WE EX). assert (rnd p (w + x) == 1)%Q; [|lra]. rewrite (rnd_compat p (w + x) 1) by (lia || lra). apply rnd_exact; [lia|apply rep_one; lia].
  - split; [lra|]. split; [intros; exact Z1|intros; lra].
Qed.
Lemma asinh_all p log2 fuel x : 8 <= p <= 1000000 -> (0 <= log2)%Q -> p + 4 < Z.of_nat fuel -> representable p x -> (0 <= x)%Q ->
  exists z, float_asinh (rnd p) p log2 fuel x = Some (Ok z) /\ ((1 # 8 <= x)%Q -> (0 < z)%Q).
Proof.
  intros Hp L0 Hf R X0. unfold float_asinh, fadd, fmul. pose proof (rnd_nonneg p (x * x) ltac:(lia) ltac:(nra)) as S0. set (s := rnd p (x * x)) in *. pose proof (above_one p (s + 1) ltac:(lia) ltac:(lra)) as A. set (a := rnd p (s + 1)) in *.
  destruct (sqrt_value p a fuel Hp ltac:(lra) ltac:(apply rep_rnd; lia) Hf) as (w & W & W0 & WB). rewrite W. cbn [then_]. pose proof (rnd_pos p (w + x) ltac:(lia) ltac:(lra)) as [P _].
  destruct (log_total p fuel log2 (rnd p (w + x)) Hp L0 ltac:(lia) ltac:(lra) ltac:(apply rep_rnd; lia)) as (z & E & _ & _ & Z2). exists z. split; [exact E|]. intros X8. apply Z2.
  pose proof (pow2_small p ltac:(lia)) as [U0 U1]. apply abs_bd in WB. destruct WB as [WB _]. assert (a * pow2 (- p) <= a * (1 # 256))%Q by (apply mul_r_le; lra). assert (15 # 16 <= w * w)%Q by lra. assert (15 # 16 <= w)%Q by nra. lra.
Qed.
Lemma atanh_all p log2 fuel x : 8 <= p <= 1000000 -> (0 <= log2)%Q -> p + 4 < Z.of_nat fuel -> (-1 < x)%Q -> (x < 1)%Q ->
  exists z, float_atanh (rnd p) p log2 fuel x = Some (Ok z) /\ ((0 <= x)%Q -> (0 <= z)%Q) /\ ((x <= 0)%Q -> (z <= 0)%Q).
Proof.
  intros Hp L0 Hf X1 X2. unfold float_atanh. assert (Qle_bool x (-1) = false) as ->. { destruct (Qle_bool x (-1)) eqn:E; [apply Qle_bool_iff in E; lra|reflexivity]. } assert (Qle_bool 1 x = false) as ->. { destruct (Qle_bool 1 x) eqn:E; [apply Qle_bool_iff in E; lra|reflexivity]. } cbn [orb].
  unfold fadd, fsub. pose proof (rnd_pos p (1 + x) ltac:(lia) ltac:(lra)) as [A0 _]. pose proof (rnd_pos p (1 - x) ltac:(lia) ltac:(lra)) as [B0 _]. pose proof (fun H => rnd_mono_any p (1 + x) (1 - x) ltac:(lia) H) as ML. pose proof (fun H => rnd_mono_any p (1 - x) (1 + x) ltac:(lia) H) as MG.
  set (a := rnd p (1 + x)) in *. set (b := rnd p (1 - x)) in *. rewrite fquo_ok by lra. unfold of_res at 1. cbn [then_]. set (v := (a / b)%Q). assert (V : (v * b == a)%Q) by (unfold v; field; lra). assert (V0 : (0 < v)%Q) by nra. pose proof (rnd_pos p v ltac:(lia) V0) as [P _].
  destruct (log_total p fuel log2 (rnd p v) Hp L0 ltac:(lia) ltac:(lra) ltac:(apply rep_rnd; lia)) as (z & E & Z0 & Z1 & Z2). rewrite E. cbn [then_]. rewrite fquo_ok by discriminate. unfold of_res. eexists. split; [reflexivity|]. assert (HZ : (z / 2 == (1 # 2) * z)%Q) by field. split; intros X.
  - specialize (MG ltac:(lra)). assert (1 <= v)%Q by nra. pose proof (above_one p v ltac:(lia) H). apply rnd_nonneg; [lia|]. destruct (Qlt_le_dec 1 (rnd p v)) as [G|G]; [specialize (Z2 G)|specialize (Z1 ltac:(lra))]; lra.
  - specialize (ML ltac:(lra)). assert (v <= 1)%Q by nra. pose proof (rnd_mono_any p v 1 ltac:(lia) H) as M. rewrite (rnd_exact p 1 ltac:(lia) (rep_one p ltac:(lia))) in M. apply rnd_nonpos; [lia|]. destruct (Qlt_le_dec (rnd p v) 1) as [G|G]; [specialize (Z0 G)|specialize (Z1 ltac:(lra))]; lra.
Qed.
Lemma unit_range p q : 8 <= p -> (-1 <= q)%Q -> (q <= 1)%Q -> (-1 <= rnd p q)%Q /\ (rnd p q <= 1)%Q.
Proof.
  intros Hp A B. pose proof (rnd_mono_any p (-1) q ltac:(lia) A) as M1. pose proof (rnd_mono_any p q 1 ltac:(lia) B) as M2. rewrite (rnd_exact p 1 ltac:(lia) (rep_one p ltac:(lia))) in M2. rewrite (rnd_exact p (-1) ltac:(lia)) in M1; [split; assumption|]. apply (rep_compat p (-(1))); [reflexivity|apply rep_opp, rep_one; lia].
Qed.
Lemma open_range p q : 8 <= p -> (- (1 - pow2 (- p)) <= q)%Q -> (q <= 1 - pow2 (- p))%Q -> (-1 < rnd p q)%Q /\ (rnd p q < 1)%Q.
Proof.
  intros Hp A B. pose proof (pow2_small p Hp) as [U0 U1]. set (u := pow2 (- p)) in *.
  assert (C : representable p (1 - u)). { exists (2 ^ p - 1), (- p). split; [pose proof (Z.pow_pos_nonneg 2 p ltac:(lia) ltac:(lia)); lia|]. unfold Z.sub. rewrite inject_Z_plus, <-pow2_Z by lia. change (inject_Z (- (1))) with (-(1))%Q. pose proof (pow2_opp p) as PO. fold u in PO |- *. lra. }
  pose proof (rnd_mono_any p _ _ ltac:(lia) A) as M1. pose proof (rnd_mono_any p _ _ ltac:(lia) B) as M2. rewrite (rnd_exact p _ ltac:(lia) C) in M2. rewrite (rnd_exact p _ ltac:(lia) (rep_opp p _ C)) in M1. split; lra.
Qed.
Lemma rnd_sign p q : 8 <= p -> ((0 < q)%Q -> (0 < rnd p q)%Q) /\ ((q < 0)%Q -> (rnd p q < 0)%Q) /\ ((q == 0)%Q -> (rnd p q == 0)%Q).
Proof. intros Hp. split; [intros H; pose proof (rnd_pos p q Hp H) as [A _]; lra|]. split; [apply rnd_neg, Hp|]. intros H. rewrite rnd_zero by exact H. reflexivity. Qed.
Lemma signed_rnd p q z : 8 <= p -> signed (rnd p q) z -> signed q z.
Proof. intros Hp (A & B & C). destruct (rnd_sign p q Hp) as (D & E & F). split; [|split]; auto. Qed.

(* C122: how accurate e**x, sinh, cosh and tanh are. *)
From Coq Require Import List ZArith Lia QArith Qabs Qpower Lqa.
From Verif Require Import Value FloatModel FloatProofs FloatSqrt FloatMono FloatSign FloatReduce RandSpec MixProofs ArcModel ArcSpec ArcRound ArcProofs SqrtConv LogConv HypProofs PowProofs ExpModel ExpProofs SeriesSpec SeriesAcc ExpAcc.
Open Scope Z_scope.

(* e**q comes out, for q from 0 to p/2 - 1, and is the sum of the exponential series at the float q to a relative error
   of (42 p + 52) units in the last place. *)
Theorem exp_accurate : forall p fuel q, 16 <= p <= 1000000 -> 10 * p + 3 < Z.of_nat fuel -> (0 <= q)%Q -> (2 * q <= inject_Z (p - 2))%Q ->
  exists z, exp_op (rnd p) p fuel q = Some (Ok z) /\ near_limit (inject_Z (42 * p + 52) * pow2 (- p)) z (exp_sum (rnd p q)).
Proof.
  intros p fuel q Hp Hf Q0 Q1. pose proof (small_power p ltac:(lia)) as SP. pose proof (rnd_nonneg p q ltac:(lia) Q0) as R0.
  assert (R1 : (2 * rnd p q <= inject_Z (p - 2))%Q).
  { assert (V : representable p ((1 # 2) * inject_Z (p - 2))) by (exists (p - 2), (-1); split; [lia|change (pow2 (-1)) with (1 # 2)%Q; ring]). pose proof (rnd_mono_any p q ((1 # 2) * inject_Z (p - 2))%Q ltac:(lia) ltac:(lra)) as M. rewrite (rnd_exact p _ ltac:(lia) V) in M. lra. }
  assert (R2 : (rnd p q <= inject_Z (4 * p))%Q). { assert (p - 2 <= 4 * p) as L by lia. rewrite Zle_Qle in L. lra. }
  destruct (exp_all p fuel (rnd p q) ltac:(lia) Hf R0 R2) as (z & E & _). exists z. split; [exact E|]. exact (exp_near p Hp fuel _ z R0 R1 E).
Qed.
Print Assumptions exp_accurate.
Lemma in_range p q : 16 <= p -> (Qabs q <= inject_Z p)%Q -> (Qabs (rnd p q) <= inject_Z p)%Q /\ (Qabs (rnd p q) <= inject_Z (12 * p))%Q.
Proof.
  intros Hp H. pose proof (small_power p ltac:(lia)) as SP. pose proof (bounded p p q ltac:(lia) ltac:(lia) H) as B. split; [exact B|]. assert (p <= 12 * p) as L by lia. rewrite Zle_Qle in L. lra.
Qed.
(* So are sinh q and cosh q, for q from -p to p, to a relative error of (84 p + 98) units. *)
Theorem sinh_accurate : forall p fuel q, 16 <= p <= 1000000 -> 10 * p + 3 < Z.of_nat fuel -> (Qabs q <= inject_Z p)%Q ->
  exists z, sinh_op (rnd p) p fuel q = Some (Ok z) /\ near_limit (inject_Z (84 * p + 98) * pow2 (- p)) z (sinh_sum (rnd p q)).
Proof.
  intros p fuel q Hp Hf H. destruct (in_range p q ltac:(lia) H) as [A B]. destruct (sinh_all p fuel (rnd p q) ltac:(lia) Hf B) as (z & E & _). exists z. split; [exact E|]. exact (sinh_near p fuel _ z Hp A E).
Qed.
Print Assumptions sinh_accurate.
Theorem cosh_accurate : forall p fuel q, 16 <= p <= 1000000 -> 10 * p + 3 < Z.of_nat fuel -> (Qabs q <= inject_Z p)%Q ->
  exists z, cosh_op (rnd p) p fuel q = Some (Ok z) /\ near_limit (inject_Z (84 * p + 98) * pow2 (- p)) z (cosh_sum (rnd p q)).
Proof.
  intros p fuel q Hp Hf H. destruct (in_range p q ltac:(lia) H) as [A B]. destruct (cosh_pos p fuel (rnd p q) ltac:(lia) Hf B) as (z & E & _). exists z. split; [exact E|]. exact (cosh_near p Hp fuel _ z A E).
Qed.
Print Assumptions cosh_accurate.

Lemma cosh_sum_ge x n : (1 <= cosh_sum x n)%Q.
Proof. unfold cosh_sum. induction n as [|n IH]; cbn [sum_to]; [cbn; lra|]. pose proof (pterm_even x (S n)). lra. Qed.
Lemma near_rel d z s : (0 <= d)%Q -> (Qabs (z - s) <= d * Qabs s)%Q -> exists e, (z == s * (1 + e))%Q /\ (Qabs e <= d)%Q.
Proof.
  intros D H. destruct (Qeq_dec s 0) as [E|E].
  - exists 0%Q. rewrite E in H |- *. change (Qabs 0) with 0%Q in *. apply abs_bd in H. split; lra.
  - exists ((z - s) / s)%Q. split; [field; exact E|]. set (e := ((z - s) / s)%Q). assert (V : (z - s == e * s)%Q) by (unfold e; field; exact E). rewrite V, Qabs_Qmult in H. pose proof (Qabs_nonneg s). apply (Qmult_le_r _ _ (Qabs s)); [|exact H]. destruct (Qlt_le_dec 0 (Qabs s)) as [L|L]; [exact L|]. exfalso. apply E. assert (Qabs s <= 0)%Q as K by lra. apply Qabs_Qle_condition in K. lra.
Qed.
Lemma quot_err d a b e : (0 <= d)%Q -> (d <= 1 # 8)%Q -> (Qabs a <= d)%Q -> (Qabs b <= d)%Q -> (Qabs e <= d)%Q -> (Qabs ((1 + a) / (1 + b) * (1 + e) - 1) <= 4 * d)%Q.
Proof.
  intros D0 D1 A B E. apply abs_bd in A. apply abs_bd in B. apply abs_bd in E. apply Qabs_Qle_condition. assert (P : (0 < 1 + b)%Q) by lra. set (w := ((1 + a) / (1 + b))%Q). assert (W : (w * (1 + b) == 1 + a)%Q) by (unfold w; field; lra).
  assert (W1 : (w <= 1 + (16 # 7) * d)%Q) by (unfold w; apply Qle_shift_div_r; [exact P|nra]). assert (W2 : (1 - (16 # 7) * d <= w)%Q) by (unfold w; apply Qle_shift_div_l; [exact P|nra]). split; nra.
Qed.
(* tanh q is the quotient of the two sums, to a relative error of 4 (84 p + 98) units. *)
Theorem tanh_accurate : forall p fuel q, 16 <= p <= 1000000 -> 10 * p + 3 < Z.of_nat fuel -> (Qabs q <= inject_Z p)%Q ->
  exists z, tanh_op (rnd p) p fuel q = Some (Ok z) /\ near_limit (inject_Z (4 * (84 * p + 98)) * pow2 (- p)) z (fun n => sinh_sum (rnd p q) n / cosh_sum (rnd p q) n)%Q.
Proof.
  intros p fuel q Hp Hf H. destruct (in_range p q ltac:(lia) H) as [A B]. set (x := rnd p q) in *. destruct (cosh_pos p fuel x ltac:(lia) Hf B) as (c & C & C1). destruct (sinh_all p fuel x ltac:(lia) Hf B) as (s & S & _).
  destruct (sinh_near p fuel x s Hp A S) as (n1 & N1). destruct (cosh_near p Hp fuel x c A C) as (n2 & N2). unfold tanh_op. fold x. unfold float_tanh. rewrite C. cbn [then_]. destruct (Qeq_bool c 0) eqn:E; [apply Qeq_bool_eq in E; lra|]. rewrite S. cbn [then_]. rewrite fquo_ok by lra. unfold of_res. eexists. split; [reflexivity|].
  exists (Nat.max n1 n2). intros n Hn. specialize (N1 n ltac:(lia)). specialize (N2 n ltac:(lia)). pose proof (cosh_sum_ge x n) as G. destruct (pow2_small p ltac:(lia)) as [U0 U1].
  rewrite (inject_Z_mult 4). change (inject_Z 4) with 4%Q. assert (L1 : (1 <= inject_Z (84 * p + 98))%Q) by (apply (le_inject 1); lia). assert (D1 : (inject_Z (84 * p + 98) * pow2 (- p) <= 1 # 8)%Q).
  { pose proof (big_power p ltac:(lia)) as BP. assert (W : (inject_Z (2 ^ p) * pow2 (- p) == 1)%Q) by (rewrite <-pow2_Z by lia; rewrite <-pow2_add; replace (p + - p) with 0 by lia; reflexivity). assert (8 * (84 * p + 98) <= 2 ^ p) as V.
    { destruct (Z.eq_dec p 16) as [->|]; [vm_compute; discriminate|]. destruct (Z.eq_dec p 17) as [->|]; [vm_compute; discriminate|]. replace p with (2 + (p - 2)) at 2 by lia. rewrite Z.pow_add_r by lia. pose proof (big_power (p - 2) ltac:(lia)). change (2 ^ 2) with 4. lia. }
    rewrite Zle_Qle, inject_Z_mult in V. change (inject_Z 8) with 8%Q in V. pose proof (mul_l_le _ _ _ U0 V). lra. }
  assert (D0 : (pow2 (- p) <= inject_Z (84 * p + 98) * pow2 (- p))%Q). { pose proof (mul_l_le _ _ _ U0 L1). lra. } set (d := (inject_Z (84 * p + 98) * pow2 (- p))%Q) in *.
  destruct (near_rel d _ _ ltac:(lra) N1) as (a & EA & QA). destruct (near_rel d _ _ ltac:(lra) N2) as (b & EB & QB). destruct (rel p (s / c)) as (e & EE & E1 & E2). set (u := sinh_sum x n) in *. set (v := cosh_sum x n) in *.
  assert (QE : (Qabs e <= d)%Q) by (apply Qabs_Qle_condition; lra). pose proof (quot_err d a b e ltac:(lra) D1 QA QB QE) as Q. apply abs_bd in QB.
  assert (X : (rnd p (s / c) - u / v == (u / v) * ((1 + a) / (1 + b) * (1 + e) - 1))%Q). { rewrite EE, EA, EB. field. split; [lra|]. lra. }
  cbv beta. rewrite X, Qabs_Qmult. eapply Qle_trans; [apply (mul_r_le _ _ _ (Qabs_nonneg _) Q)|unfold d; lra].
Qed.
Print Assumptions tanh_accurate.

(* At the default precision of 256 bits: fewer than 14 of the 256 bits are lost. *)
Theorem exp_accurate_256 : forall q, (0 <= q)%Q -> (q <= 127)%Q -> forall fuel, 2563 < Z.of_nat fuel ->
  exists z, exp_op (rnd 256) 256 fuel q = Some (Ok z) /\ near_limit (pow2 (-242)) z (exp_sum (rnd 256 q)).
Proof.
  intros q Q0 Q1 fuel F. destruct (exp_accurate 256 fuel q ltac:(lia) ltac:(lia) Q0 ltac:(change (inject_Z (256 - 2)) with 254%Q; lra)) as (z & E & n0 & N). exists z. split; [exact E|]. exists n0. intros n L. eapply Qle_trans; [apply (N n L)|]. pose proof (Qabs_nonneg (exp_sum (rnd 256 q) n)). assert (inject_Z (42 * 256 + 52) * pow2 (- (256)) <= pow2 (-242))%Q by (vm_compute; discriminate). nra.
Qed.
Print Assumptions exp_accurate_256.

(* The bound tells values apart: at 16 bits, 1 is not near e**1, nor 3 near sinh 2. *)
Lemma sum_mono t a n : (forall k, (0 <= t k)%Q) -> (sum_to t a <= sum_to t (n + a))%Q.
Proof. intros P. induction n as [|n IH]; [cbn [Nat.add]; apply Qle_refl|]. cbn [Nat.add sum_to]. specialize (P (S (n + a))). lra. Qed.
Example exp_one_apart : ~ near_limit (inject_Z (42 * 16 + 52) * pow2 (- (16))) 1 (exp_sum 1).
Proof.
  intros (n0 & N). specialize (N (n0 + 3)%nat ltac:(lia)). pose proof (sum_mono (pterm 1) 3 n0 (fun k => pterm_pos 1 k ltac:(lra))) as M. fold (exp_sum 1 (n0 + 3)) in M. set (s := exp_sum 1 (n0 + 3)) in *. assert (L : (5 # 2 <= sum_to (pterm 1) 3)%Q) by (vm_compute; discriminate). rewrite (Qabs_pos s) in N by lra. apply abs_bd in N. assert (D : (inject_Z (42 * 16 + 52) * pow2 (- (16)) <= 1 # 2)%Q) by (vm_compute; discriminate). nra.
Qed.
Example sinh_two_apart : ~ near_limit (inject_Z (84 * 16 + 98) * pow2 (- (16))) 3 (sinh_sum 2).
Proof.
  intros (n0 & N). specialize (N (n0 + 3)%nat ltac:(lia)). pose proof (sum_mono (fun k => pterm 2 (2 * k + 1)) 3 n0 (fun k => pterm_pos 2 _ ltac:(lra))) as M. fold (sinh_sum 2 (n0 + 3)) in M. set (s := sinh_sum 2 (n0 + 3)) in *. assert (L : (36 # 10 <= sum_to (fun k => pterm 2 (2 * k + 1)) 3)%Q) by (vm_compute; discriminate). rewrite (Qabs_pos s) in N by lra. apply abs_bd in N. assert (D : (inject_Z (84 * 16 + 98) * pow2 (- (16)) <= 1 # 20)%Q) by (vm_compute; discriminate). nra.
Qed.
(* the hypotheses are met: e**(5/2) at 16 bits *)
Definition fuel200 := Eval vm_compute in Z.to_nat 200.
Example exp_case : exists z, exp_op (rnd 16) 16 fuel200 (5 # 2) = Some (Ok z) /\ (12182 # 1000 < z)%Q /\ (z < 12183 # 1000)%Q /\ near_limit (inject_Z (42 * 16 + 52) * pow2 (- (16))) z (exp_sum (rnd 16 (5 # 2))).
Proof.
  destruct (exp_accurate 16 fuel200 (5 # 2) ltac:(lia) ltac:(vm_compute; reflexivity) ltac:(vm_compute; discriminate) ltac:(vm_compute; discriminate)) as (z & E & N). exists z. split; [exact E|]. assert (E2 := E). vm_compute in E2. injection E2 as <-. split; [vm_compute; reflexivity|]. split; [vm_compute; reflexivity|exact N].
Qed.

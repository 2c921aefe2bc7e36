(* C118: e**x and the hyperbolic functions come out for arguments that are not too large for the precision. *)
From Coq Require Import QArith Qabs Setoid Lqa Lia.
From Verif Require Import Value FloatModel FloatProofs FloatSqrt FloatMono FloatSign FloatReduce RandSpec MixProofs ArcModel ArcSpec ArcRound ArcProofs SqrtConv LogConv HypProofs ExpModel ExpProofs.
Open Scope Z_scope.

(* e**q, for q from 0 to 4 p, comes out, and is at least 1 + q with each operation rounded. *)
Theorem exp_total_partial : forall p fuel q, 8 <= p <= 1000000 -> 10 * p + 3 < Z.of_nat fuel -> (0 <= q)%Q -> (q <= inject_Z (4 * p))%Q ->
  exists z, exp_op (rnd p) p fuel q = Some (Ok z) /\ (1 <= z)%Q /\ (rnd p (1 + rnd p q) <= z)%Q.
Proof.
  intros p fuel q Hp Hf Q0 Q1. pose proof (small_power p ltac:(lia)) as SP. pose proof (rnd_nonneg p q ltac:(lia) Q0) as R0. pose proof (bounded p (4 * p) q ltac:(lia) ltac:(lia) ltac:(rewrite Qabs_pos by exact Q0; exact Q1)) as R1. rewrite Qabs_pos in R1 by exact R0.
  destruct (exp_all p fuel (rnd p q) Hp Hf R0 R1) as (z & E & Z0). exists z. split; [exact E|]. pose proof (rnd_exact p (rnd p q) ltac:(lia) ltac:(apply rep_rnd; lia)) as RE. pose proof (rnd_compat p (1 + rnd p (rnd p q)) (1 + rnd p q) ltac:(lia) ltac:(lra)) as RC. pose proof (above_one p (1 + rnd p q) ltac:(lia) ltac:(lra)). split; lra.
Qed.
Print Assumptions exp_total_partial.
(* sinh q, for q from -12 p to 12 p, comes out, with the sign of q and at least as far from 0. *)
Theorem sinh_total_partial : forall p fuel q, 8 <= p <= 1000000 -> 10 * p + 3 < Z.of_nat fuel -> (Qabs q <= inject_Z (12 * p))%Q ->
  exists z, sinh_op (rnd p) p fuel q = Some (Ok z) /\ signed q z /\ (Qabs (rnd p q) <= Qabs z)%Q.
Proof.
  intros p fuel q Hp Hf Q1. pose proof (small_power p ltac:(lia)) as SP. destruct (sinh_all p fuel (rnd p q) Hp Hf (bounded p (12 * p) q ltac:(lia) ltac:(lia) Q1)) as (z & E & A & S). exists z. split; [exact E|]. split; [apply (signed_rnd p); [lia|exact S]|].
  pose proof (rnd_exact p (rnd p q) ltac:(lia) ltac:(apply rep_rnd; lia)) as RE. rewrite RE in A. exact A.
Qed.
Print Assumptions sinh_total_partial.
(* cosh q, for q from -12 p to 12 p, comes out and is at least 1; tanh q comes out with the sign of q. *)
Theorem cosh_total_partial : forall p fuel q, 8 <= p <= 1000000 -> 10 * p + 3 < Z.of_nat fuel -> (Qabs q <= inject_Z (12 * p))%Q ->
  exists z, cosh_op (rnd p) p fuel q = Some (Ok z) /\ (1 <= z)%Q.
Proof. intros p fuel q Hp Hf Q1. pose proof (small_power p ltac:(lia)) as SP. exact (cosh_pos p fuel (rnd p q) Hp Hf (bounded p (12 * p) q ltac:(lia) ltac:(lia) Q1)). Qed.
Print Assumptions cosh_total_partial.
Theorem tanh_total_partial : forall p fuel q, 8 <= p <= 1000000 -> 10 * p + 3 < Z.of_nat fuel -> (Qabs q <= inject_Z (12 * p))%Q ->
  exists z, tanh_op (rnd p) p fuel q = Some (Ok z) /\ signed q z.
Proof.
  intros p fuel q Hp Hf Q1. pose proof (small_power p ltac:(lia)) as SP. destruct (tanh_all p fuel (rnd p q) Hp Hf (bounded p (12 * p) q ltac:(lia) ltac:(lia) Q1)) as (z & E & S). exists z. split; [exact E|apply (signed_rnd p); [lia|exact S]].
Qed.
Print Assumptions tanh_total_partial.
Definition fuel8 := Eval vm_compute in Z.to_nat 100.
Definition fuel16 := Eval vm_compute in Z.to_nat 200.
(* Larger arguments do not: the series is cut off before its terms decrease. *)
Theorem exp_large_refuted : exists p fuel q, 8 <= p <= 1000000 /\ 10 * p + 10 < Z.of_nat fuel /\ (0 <= q)%Q /\ exp_op (rnd p) p fuel q = Some Err.
Proof. exists 8, fuel8, 128%Q. split; [lia|]. split; [vm_compute; reflexivity|]. split; [vm_compute; discriminate|]. vm_cast_no_check (@eq_refl (option (res Q)) (Some Err)). Qed.
Print Assumptions exp_large_refuted.
Lemma tanh_err R p fuel q : cosh_op R p fuel q = Some Err -> tanh_op R p fuel q = Some Err.
Proof. unfold cosh_op, tanh_op, float_tanh. intros ->. reflexivity. Qed.
(* In particular tanh, which is nearly 1 there, does not come out. *)
Theorem tanh_large_refuted : exists p fuel q, 8 <= p <= 1000000 /\ 10 * p + 10 < Z.of_nat fuel /\ (0 <= q)%Q /\ tanh_op (rnd p) p fuel q = Some Err /\ sinh_op (rnd p) p fuel q = Some Err /\ cosh_op (rnd p) p fuel q = Some Err.
Proof. exists 8, fuel8, 256%Q. split; [lia|]. split; [vm_compute; reflexivity|]. split; [vm_compute; discriminate|].
  assert (C : cosh_op (rnd 8) 8 fuel8 256 = Some Err) by (vm_cast_no_check (@eq_refl (option (res Q)) (Some Err))). split; [exact (tanh_err _ _ _ _ C)|]. split; [vm_cast_no_check (@eq_refl (option (res Q)) (Some Err))|exact C]. Qed.
Print Assumptions tanh_large_refuted.

(* 16 bits: e**1, sinh -2, cosh -2, tanh -2 *)
Example exp_values :
  (exists z, exp_op (rnd 16) 16 fuel16 1 = Some (Ok z) /\ (27182 # 10000 < z)%Q /\ (z < 27184 # 10000)%Q) /\
  (exists z, sinh_op (rnd 16) 16 fuel16 (-2) = Some (Ok z) /\ (-3628 # 1000 < z)%Q /\ (z < -3626 # 1000)%Q) /\
  (exists z, cosh_op (rnd 16) 16 fuel16 (-2) = Some (Ok z) /\ (3761 # 1000 < z)%Q /\ (z < 3763 # 1000)%Q) /\
  (exists z, tanh_op (rnd 16) 16 fuel16 (-2) = Some (Ok z) /\ (-9641 # 10000 < z)%Q /\ (z < -9639 # 10000)%Q).
Proof.
  repeat match goal with |- _ /\ _ => split | |- exists _, _ => eexists | |- _ = _ => vm_compute; reflexivity end; vm_compute; reflexivity.
Qed.

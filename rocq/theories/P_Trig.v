(* C123: how accurate sine and cosine, and e**x with x negative, are for arguments up to 1. *)
From Coq Require Import List ZArith Lia QArith Qabs Qpower Lqa.
From Verif Require Import Value FloatModel FloatProofs FloatSqrt FloatMono FloatSign FloatReduce RandSpec MixProofs ArcModel ArcSpec ArcRound ArcProofs SqrtConv LogConv HypProofs PowProofs ExpModel ExpProofs SeriesSpec SeriesAcc ExpAcc AltAcc AltInst SinTotal.
Open Scope Z_scope.

(* e**q comes out for q from -1 to 1 and is the sum of the series at the float q to (150 p + 174) units of 2**-p. *)
Theorem exp_small_accurate : forall p fuel q, 16 <= p <= 1000000 -> p + 6 < Z.of_nat fuel -> (Qabs q <= 1)%Q ->
  exists z, exp_op (rnd p) p fuel q = Some (Ok z) /\ within_limit (inject_Z (150 * p + 174) * pow2 (- p)) z (exp_sum (rnd p q)).
Proof.
  intros p fuel q Hp Hf Q. pose proof (small_power p ltac:(lia)) as SP. apply (exp_any p Hp fuel (rnd p q)); [|exact Hf]. apply (bounded p 1 q ltac:(lia) ltac:(lia) Q).
Qed.
Print Assumptions exp_small_accurate.

(* An argument up to 1 is not reduced. *)
Lemma not_reduced p fuel pi x : 16 <= p -> (3 <= pi)%Q -> (x <= 1)%Q -> (0 < fuel)%nat -> two_pi_reduce (rnd p) fuel pi x = Some x.
Proof.
  intros Hp P X F. unfold two_pi_reduce. destruct (fint_lo p 1000 ltac:(lia) ltac:(lia)) as [A _]. change (inject_Z 1000) with 1000%Q in A. assert (Qle_bool x (fint (rnd p) 1000) = true) as -> by (apply Qle_bool_iff; lra).
  destruct (fint_lo p 2 ltac:(lia) ltac:(lia)) as [B _]. change (inject_Z 2) with 2%Q in B. destruct fuel as [|f]; [lia|]. cbn [subtract]. destruct (Qle_bool (fmul (rnd p) (fint (rnd p) 2) pi) x) eqn:L; [|reflexivity]. exfalso. apply Qle_bool_iff in L. unfold fmul in L.
  assert (5 <= fint (rnd p) 2 * pi)%Q as G by nra. pose proof (rnd_pos p (fint (rnd p) 2 * pi) ltac:(lia) ltac:(lra)) as [R _]. lra.
Qed.
(* cos of a float from -1 to 1 comes out and is the sum of the cosine series to (116 p + 314) units of 2**-p. *)
Theorem cos_accurate : forall p fuel pi x, 16 <= p <= 1000000 -> p + 6 < Z.of_nat fuel -> (3 <= pi)%Q -> (Qabs x <= 1)%Q ->
  exists z, fst (float_cos (rnd p) p fuel pi x) = Some (Ok z) /\ within_limit (inject_Z (116 * p + 314) * pow2 (- p)) z (cos_sum x).
Proof.
  intros p fuel pi x Hp Hf P X. unfold float_cos. assert (X0 := X). apply abs_bd in X0. rewrite not_reduced; [|lia|exact P|lra|lia]. exact (cos_any p Hp fuel x X Hf).
Qed.
Print Assumptions cos_accurate.
Lemma alt_opp k t : (alt k (- t) == - alt k t)%Q. Proof. unfold alt. destruct (Nat.even k); ring. Qed.
Lemma sin_sum_odd x n : (sin_sum (- x) n == - sin_sum x n)%Q.
Proof.
  unfold sin_sum. induction n as [|n IH]; cbn [sum_to]; [rewrite (alt_eq 0 _ _ (pterm_odd x 0)); apply alt_opp|]. rewrite IH, (alt_eq (S n) _ _ (pterm_odd x (S n))), alt_opp. ring.
Qed.
(* So does sin of a float from -1 to 1, however small. *)
Theorem sin_accurate : forall p fuel pi x, 16 <= p <= 1000000 -> p + 6 < Z.of_nat fuel -> (3 <= pi)%Q -> representable p x -> (Qabs x <= 1)%Q ->
  exists z, fst (float_sin (rnd p) p fuel pi x) = Some (Ok z) /\ within_limit (inject_Z (116 * p + 314) * pow2 (- p)) z (sin_sum x).
Proof.
  intros p fuel pi x Hp Hf P RX X. unfold float_sin. assert (X0 := X). apply abs_bd in X0. destruct (Qnum x <? 0) eqn:N.
  - rewrite not_reduced; [|lia|exact P|lra|lia]. cbn [fst]. assert (X' : (Qabs (- x) <= 1)%Q) by (rewrite Qabs_opp; exact X). destruct (sin_comes_out p (- x) Hp (rep_opp p x RX) X' fuel Hf) as (w & W). rewrite W. exists (- w)%Q. split; [reflexivity|].
    destruct (sin_any p Hp fuel (- x) w (rep_opp p x RX) X' W) as (n0 & B). exists n0. intros n L. specialize (B n L). rewrite sin_sum_odd in B. setoid_replace (- w - sin_sum x n)%Q with (- (w - - sin_sum x n))%Q by ring. rewrite Qabs_opp. exact B.
  - rewrite not_reduced; [|lia|exact P|lra|lia]. cbn [fst neg_res]. destruct (sin_comes_out p x Hp RX X fuel Hf) as (w & W). exists w. split; [exact W|]. exact (sin_any p Hp fuel x w RX X W).
Qed.
Print Assumptions sin_accurate.

(* The bounds tell values apart, and are met: with 16 bits, sin 1, cos -1 and e**-1. *)
Definition fuel80 := Eval vm_compute in Z.to_nat 80.
Definition fuel200 := Eval vm_compute in Z.to_nat 200.
Definition pi16 := rnd 16 (355 # 113).
Lemma sum_near t a n : (forall k, (a <= k)%nat -> (Qabs (t (S k)) <= (1 # 2) * Qabs (t k))%Q) -> (Qabs (sum_to t (n + a) - sum_to t a) + Qabs (t (n + a)%nat) <= Qabs (t a))%Q.
Proof.
  intros P. induction n as [|n IH].
  - cbn [Nat.add]. setoid_replace (sum_to t a - sum_to t a)%Q with 0%Q by ring. change (Qabs 0) with 0%Q. lra.
  - cbn [Nat.add sum_to]. specialize (P (n + a)%nat ltac:(lia)). setoid_replace (sum_to t (n + a) + t (S (n + a)) - sum_to t a)%Q with (sum_to t (n + a) - sum_to t a + t (S (n + a)))%Q by ring. pose proof (Qabs_triangle (sum_to t (n + a) - sum_to t a) (t (S (n + a)))). lra.
Qed.
Example trig_values :
  (exists z, fst (float_sin (rnd 16) 16 fuel80 pi16 1) = Some (Ok z) /\ (8414 # 10000 < z)%Q /\ (z < 8415 # 10000)%Q) /\
  (exists z, fst (float_cos (rnd 16) 16 fuel80 pi16 (-1)) = Some (Ok z) /\ (5402 # 10000 < z)%Q /\ (z < 5404 # 10000)%Q) /\
  (exists z, exp_op (rnd 16) 16 fuel200 (-1) = Some (Ok z) /\ (3678 # 10000 < z)%Q /\ (z < 3680 # 10000)%Q).
Proof.
  repeat match goal with |- _ /\ _ => split | |- exists _, _ => eexists | |- _ = _ => vm_compute; reflexivity end; vm_compute; reflexivity.
Qed.
Example sin_case : representable 16 1 /\ (Qabs 1 <= 1)%Q /\ (3 <= pi16)%Q /\ exists z, fst (float_sin (rnd 16) 16 fuel80 pi16 1) = Some (Ok z).
Proof. split; [apply rep_one; lia|]. split; [vm_compute; discriminate|]. split; [vm_compute; discriminate|]. eexists. vm_compute. reflexivity. Qed.
Example sin_apart : ~ within_limit (inject_Z (116 * 16 + 314) * pow2 (- (16))) (9 # 10) (sin_sum 1).
Proof.
  intros (n0 & N). specialize (N (n0 + 3)%nat ltac:(lia)). pose proof (sum_near (fun k => alt k (pterm 1 (2 * k + 1))) 3 n0) as SN. fold (sin_sum 1 (n0 + 3)) in SN. cbv beta in SN.
  assert (H : forall k, (3 <= k)%nat -> (Qabs (alt (S k) (pterm 1 (2 * S k + 1))) <= (1 # 2) * Qabs (alt k (pterm 1 (2 * k + 1))))%Q).
  { intros k L. destruct k as [|k]; [lia|]. pose proof (sct_half 16 ltac:(lia) 1 3 k ltac:(vm_compute; discriminate)) as Q1. unfold sct in Q1. replace (3 + 2 * S k)%nat with (2 * S (S k) + 1)%nat in Q1 by lia. replace (3 + 2 * k)%nat with (2 * S k + 1)%nat in Q1 by lia. exact Q1. }
  specialize (SN H). set (s := sin_sum 1 (n0 + 3)) in *. pose proof (Qabs_nonneg (alt (n0 + 3) (pterm 1 (2 * (n0 + 3) + 1)))). assert (A : (sum_to (fun k => alt k (pterm 1 (2 * k + 1))) 3 <= 8415 # 10000)%Q) by (vm_compute; discriminate). assert (B : (Qabs (alt 3 (pterm 1 (2 * 3 + 1))) <= 2 # 10000)%Q) by (vm_compute; discriminate).
  assert (C : (Qabs (s - sum_to (fun k => alt k (pterm 1 (2 * k + 1))) 3) <= 2 # 10000)%Q) by lra. apply abs_bd in C. apply abs_bd in N. assert (D : (inject_Z (116 * 16 + 314) * pow2 (- (16)) <= 34 # 1000)%Q) by (vm_compute; discriminate). lra.
Qed.

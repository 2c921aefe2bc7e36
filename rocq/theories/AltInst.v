From Coq Require Import List ZArith Lia QArith Qabs Qpower Lqa.
From Verif Require Import Value FloatModel FloatProofs FloatSqrt FloatMono FloatSign FloatReduce RandSpec MixProofs ArcModel ArcSpec ArcRound ArcProofs SqrtConv LogConv HypProofs PowProofs ExpProofs SeriesSpec SeriesAcc ExpAcc AltAcc.
Open Scope Z_scope.

Lemma big_power2 p : 16 <= p -> 4096 * p <= 2 ^ p.
Proof.
  intros Hp. pattern p. apply Zlt_lower_bound_ind with (z := 16); [|exact Hp]. intros x IH L. destruct (Z.eq_dec x 16) as [->|N]; [vm_compute; discriminate|]. specialize (IH (x - 1) ltac:(lia)). replace x with (x - 1 + 1) by lia. rewrite Z.pow_add_r by lia. change (2 ^ 1) with 2. lia.
Qed.
Lemma scale_half t t' w : (t' == t * w)%Q -> (Qabs w <= 1 # 2)%Q -> (Qabs t' <= (1 # 2) * Qabs t)%Q.
Proof. intros H W. rewrite H, Qabs_Qmult. pose proof (mul_r_le (Qabs t) _ _ (Qabs_nonneg t) W). lra. Qed.
Lemma int_ge a n : a <= n -> (inject_Z a <= inject_Z n)%Q. Proof. rewrite <-Zle_Qle. tauto. Qed.
Lemma frac_half a m : (Qabs a <= 1)%Q -> (2 <= m)%Q -> (Qabs (a / m) <= 1 # 2)%Q.
Proof.
  intros A Hm. apply abs_bd in A. apply Qabs_Qle_condition. split; [apply Qle_shift_div_l; lra|apply Qle_shift_div_r; lra].
Qed.
Lemma sq_le1 x : (Qabs x <= 1)%Q -> (0 <= x * x /\ x * x <= 1)%Q. Proof. intros H. apply abs_bd in H. split; nra. Qed.
Lemma alt_S k a b : (alt (S k) (a * b) == alt k a * (- b))%Q.
Proof. unfold alt. rewrite Nat.even_succ, <-Nat.negb_even. destruct (Nat.even k); cbn; ring. Qed.
Lemma alt_eq k a b : (a == b)%Q -> (alt k a == alt k b)%Q. Proof. intros H. unfold alt. destruct (Nat.even k); rewrite H; reflexivity. Qed.

Section Inst.
Variable p : Z. Hypothesis Hp : 16 <= p <= 1000000.
Notation u := (pow2 (- p)).
Notation r := (1 - pow2 (- p))%Q.
Let rp : (0 < r /\ r <= 1)%Q := rr p ltac:(lia).

Lemma fk_fint n : fk r 1 (fint (rnd p) n) (inject_Z n). Proof. apply fk_rnd. exact Hp. Qed.
Lemma fk_mul_fint f n : fk r 2 (rnd p (f * fint (rnd p) n)) (f * inject_Z n).
Proof. destruct rp as [R0 R1]. apply (fk_trans r R0 1 1 _ (f * fint (rnd p) n)%Q); [apply fk_rnd; exact Hp|]. apply (fk_mul r R0 0 1); [apply fk_refl; reflexivity|apply fk_fint]. Qed.
Lemma fk_nz k a b : ~ (b == 0)%Q -> fk r k a b -> ~ (a == 0)%Q.
Proof. intros N H. destruct rp as [R0 R1]. apply (fk_inv r R0 k a b N H). Qed.
Lemma nz_pos a : (0 < a)%Q -> ~ (a == 0)%Q. Proof. intros. lra. Qed.
Lemma nz_mul a b : ~ (a == 0)%Q -> ~ (b == 0)%Q -> ~ (a * b == 0)%Q. Proof. intros A B H. apply Qmult_integral in H. tauto. Qed.
Lemma int_nz n : 0 < n -> ~ (inject_Z n == 0)%Q. Proof. intros H. apply nz_pos. change 0%Q with (inject_Z 0). rewrite <-Zlt_Qlt. exact H. Qed.

(* ---- the exponential ---- *)
Definition exp_st (x : Q) (i : nat) (s : pw) : Prop := exists z xN f, s = (z, xN, f) /\ ~ (f == 0)%Q /\ fk r (3 * Z.of_nat i + 0) (xN / f) (pterm x (S i)).
Lemma exp_step x i s : exp_st x i s -> exists q s', pw_body (rnd p) (Z.of_nat i) s = Ok s' /\ pw_z s' = rnd p (pw_z s + rnd p q) /\ fk r (3 * Z.of_nat i + 0) q (pterm x (S i)) /\
  exp_st x (S i) (exp_next (rnd p) x (Z.of_nat i + 1) s') /\ pw_z (exp_next (rnd p) x (Z.of_nat i + 1) s') = pw_z s'.
Proof.
  intros (z & xN & f & -> & F0 & F). destruct rp as [R0 R1]. exists (xN / f)%Q. eexists. unfold pw_body. rewrite fquo_ok by exact F0. split; [reflexivity|]. split; [reflexivity|]. split; [exact F|]. split; [|reflexivity].
  cbn [exp_next]. unfold fmul. eexists _, _, _. split; [reflexivity|]. pose proof (fk_mul_fint f (Z.of_nat i + 1 + 1)) as G. assert (N : ~ (f * inject_Z (Z.of_nat i + 1 + 1) == 0)%Q) by (apply nz_mul; [exact F0|apply int_nz; lia]). split; [exact (fk_nz _ _ _ N G)|].
  pose proof (fk_div r R0 1 2 _ _ _ _ N (fk_rnd p Hp (xN * x)) G) as D. pose proof (fk_mul r R0 _ 0 _ _ _ _ F (fk_refl r (x / inject_Z (Z.of_nat i + 1 + 1)) _ (Qeq_refl _))) as D2.
  replace (3 * Z.of_nat (S i) + 0) with (1 + 2 + (3 * Z.of_nat i + 0 + 0)) by lia. apply (fk_trans r R0 _ _ _ _ _ D). pose proof (int_nz (Z.of_nat i + 1 + 1) ltac:(lia)). apply (fk_eq r (3 * Z.of_nat i + 0 + 0) (xN / f * (x / inject_Z (Z.of_nat i + 1 + 1))) (pterm x (S i) * (x / inject_Z (Z.of_nat i + 1 + 1)))); [field; split; assumption| |exact D2].
  rewrite (pterm_S x (S i)). replace (Z.of_nat (S (S i))) with (Z.of_nat i + 1 + 1) by lia. reflexivity.
Qed.
Lemma exp_half x i : (Qabs x <= 1)%Q -> (Qabs (pterm x (S (S i))) <= (1 # 2) * Qabs (pterm x (S i)))%Q.
Proof. intros X. apply (scale_half _ _ _ (pterm_S x (S i))). apply frac_half; [exact X|]. apply (int_ge 2). lia. Qed.
Lemma pterm1 x : (pterm x 1 == x)%Q. Proof. cbn. change (inject_Z 1) with 1%Q. field. Qed.
Theorem exp_any fuel x : (Qabs x <= 1)%Q -> p + 6 < Z.of_nat fuel -> exists z, exponential (rnd p) p fuel x = Some (Ok z) /\ within_limit (inject_Z (150 * p + 174) * u) z (exp_sum x).
Proof.
  intros X Hf. destruct rp as [R0 R1]. pose proof (big_power2 p ltac:(lia)) as BP. pose proof (fint1 p ltac:(lia)) as F1. assert (X0 := X). apply abs_bd in X0.
  assert (SM : forall i, (exp_sum x (S i) == exp_sum x i + pterm x (S i))%Q) by (intros; reflexivity). assert (HF := fun i => exp_half x i X).
  assert (T0 : (Qabs (pterm x 1) <= 1)%Q) by (rewrite pterm1; exact X). assert (S0 : (Qabs (exp_sum x 0) <= 1)%Q) by (vm_compute; discriminate).
  assert (BG : 12 * (E 3 0 * M p 10) <= 2 ^ p) by (unfold E, M; lia). assert (P0 : exp_st x 0 (fint (rnd p) 1, x, fint (rnd p) 1)).
  { eexists _, _, _. split; [reflexivity|]. split; [rewrite F1; discriminate|]. apply fk_refl. rewrite F1, pterm1. field. }
  assert (RR : representable p (pw_z (fint (rnd p) 1, x, fint (rnd p) 1))) by (apply (rep_rnd p (inject_Z 1)); lia). assert (ZE : (pw_z (fint (rnd p) 1, x, fint (rnd p) 1) == exp_sum x 0)%Q) by (exact F1).
  assert (LOW : forall i, (3 <= i)%nat -> (1 # 3 <= Qabs (exp_sum x (S i)))%Q).
  { intros i I. pose proof (far (fun i => pterm x (S i)) (exp_sum x) SM HF 3 (i - 3)) as FR. replace (3 + (i - 3))%nat with i in FR by lia. cbv beta in FR. pose proof (Qabs_nonneg (pterm x (S i))) as N.
    assert (V4 : (pterm x 4 == x * x * (x * x) / 24)%Q) by (cbn; unfold Z.of_nat; cbn; change (inject_Z 1) with 1%Q; change (inject_Z 2) with 2%Q; change (inject_Z 3) with 3%Q; change (inject_Z 4) with 4%Q; field). assert (V3 : (exp_sum x 3 == 1 + x + x * x / 2 + x * x * x / 6)%Q) by (cbn; unfold Z.of_nat; cbn; change (inject_Z 1) with 1%Q; change (inject_Z 2) with 2%Q; change (inject_Z 3) with 3%Q; field).
    assert (P4 : (0 <= pterm x 4)%Q). { rewrite V4. apply Qle_shift_div_l; [reflexivity|]. pose proof (sqp x). nra. } rewrite (Qabs_pos (pterm x 4)) in FR by exact P4. rewrite (SM 3%nat) in FR.
    assert (P3 : (1 # 3 <= exp_sum x 3)%Q). { rewrite V3. setoid_replace (x * x / 2)%Q with ((1 # 2) * (x * x))%Q by field. setoid_replace (x * x * x / 6)%Q with ((1 # 6) * (x * x * x))%Q by field. assert (0 <= (x + 1) * (x * x))%Q by (apply Qmult_le_0_compat; [lra|apply sqp]). nra. }
    assert (exp_sum x 3 <= exp_sum x (S i))%Q. { assert (Qabs (exp_sum x (S i) - (exp_sum x 3 + pterm x 4)) <= pterm x 4)%Q as Q by lra. apply abs_bd in Q. lra. } rewrite Qabs_pos by lra. lra. }
  destruct (loop_total p Hp pw pw_z (pw_body (rnd p)) (exp_next (rnd p) x) 10 3 0 (fun i => pterm x (S i)) (exp_sum x) (exp_st x) ltac:(lia) ltac:(lia) ltac:(lia) SM HF T0 S0 (exp_step x) BG _ P0 RR ZE LOW fuel Hf) as (z & EZ). exists z. split; [exact EZ|].
  destruct (loop_near p Hp pw pw_z (pw_body (rnd p)) (exp_next (rnd p) x) 10 3 0 (fun i => pterm x (S i)) (exp_sum x) (exp_st x) ltac:(lia) ltac:(lia) ltac:(lia) SM HF T0 S0 (exp_step x) BG _ P0 RR ZE fuel z EZ) as (n0 & N). exists n0. intros n L. replace (150 * p + 174) with (E 3 0 * M p 10 + 24) by (unfold E, M; lia). apply N, L.
Qed.

(* ---- sine and cosine ---- *)
Definition sct (x : Q) (e0 i : nat) : Q := alt (S i) (pterm x (e0 + 2 * i)).
Definition scm (e0 i : nat) : Q := (inject_Z (Z.of_nat (e0 + 2 * i) + 1) * inject_Z (Z.of_nat (e0 + 2 * i) + 2))%Q.
Lemma sct_S x e0 i : (sct x e0 (S i) == sct x e0 i * (- (x * x / scm e0 i)))%Q.
Proof.
  unfold sct, scm. rewrite <-alt_S. apply alt_eq. replace (e0 + 2 * S i)%nat with (S (S (e0 + 2 * i))) by lia. rewrite pterm_SS. replace (Z.of_nat (S (e0 + 2 * i))) with (Z.of_nat (e0 + 2 * i) + 1) by lia. replace (Z.of_nat (S (S (e0 + 2 * i)))) with (Z.of_nat (e0 + 2 * i) + 2) by lia. reflexivity.
Qed.
Lemma scm_nz e0 i : ~ (scm e0 i == 0)%Q. Proof. apply nz_mul; apply int_nz; lia. Qed.
Lemma sct_half x e0 i : (Qabs x <= 1)%Q -> (Qabs (sct x e0 (S i)) <= (1 # 2) * Qabs (sct x e0 i))%Q.
Proof.
  intros X. apply (scale_half _ _ _ (sct_S x e0 i)). rewrite Qabs_opp. destruct (sq_le1 x X) as [A B]. apply frac_half; [rewrite Qabs_pos by exact A; exact B|]. unfold scm. pose proof (int_ge 1 (Z.of_nat (e0 + 2 * i) + 1) ltac:(lia)) as G1. pose proof (int_ge 2 (Z.of_nat (e0 + 2 * i) + 2) ltac:(lia)) as G2. change (inject_Z 1) with 1%Q in G1. change (inject_Z 2) with 2%Q in G2. nra.
Qed.
Definition sc_st (x : Q) (e0 i : nat) (s : sc) : Prop := exists z xN f, s = (z, xN, f, Z.of_nat (e0 + 2 * i)) /\ ~ (f == 0)%Q /\ fk r (6 * Z.of_nat i + 4) (xN / (- f)) (sct x e0 i).
Lemma opp_nz f : ~ (f == 0)%Q -> ~ (- f == 0)%Q. Proof. intros N H. apply N. lra. Qed.
Lemma sc_step x e0 i s : sc_st x e0 i s -> exists q s', sc_body (rnd p) (Z.of_nat i) s = Ok s' /\ sc_z s' = rnd p (sc_z s + rnd p q) /\ fk r (6 * Z.of_nat i + 4) q (sct x e0 i) /\
  sc_st x e0 (S i) (sc_next (rnd p) (fmul (rnd p) x x) (Z.of_nat i + 1) s') /\ sc_z (sc_next (rnd p) (fmul (rnd p) x x) (Z.of_nat i + 1) s') = sc_z s'.
Proof.
  intros (z & xN & f & -> & F0 & F). destruct rp as [R0 R1]. pose proof (opp_nz f F0) as F0'. exists (xN / - f)%Q. eexists. unfold sc_body. rewrite fquo_ok by exact F0'. split; [reflexivity|]. split; [reflexivity|]. split; [exact F|]. split; [|reflexivity].
  cbn [sc_next]. unfold fmul. set (e := Z.of_nat (e0 + 2 * i)) in *. eexists _, _, _. split; [replace (Z.of_nat (e0 + 2 * S i)) with (e + 2) by (unfold e; lia); reflexivity|]. set (g := (- f)%Q) in *.
  assert (G : fk r 4 (rnd p (rnd p (g * fint (rnd p) (e + 1)) * fint (rnd p) (e + 2))) (g * scm e0 i)).
  { apply (fk_trans r R0 2 2 _ _ _ (fk_mul_fint _ (e + 2))). pose proof (fk_mul r R0 2 0 _ _ _ _ (fk_mul_fint g (e + 1)) (fk_refl r (inject_Z (e + 2)) _ (Qeq_refl _))) as D. apply (fk_eq r 2 _ _ _ _ (Qeq_refl _)) with (2 := D). unfold scm. fold e. ring. }
  assert (N : ~ (g * scm e0 i == 0)%Q) by (apply nz_mul; [exact F0'|apply scm_nz]). set (f' := rnd p (rnd p (g * _) * _)) in *. split; [exact (fk_nz _ _ _ N G)|].
  assert (XN : fk r 2 (rnd p (xN * rnd p (x * x))) (xN * (x * x))). { apply (fk_trans r R0 1 1 _ _ _ (fk_rnd p Hp _)). apply (fk_mul r R0 0 1); [apply fk_refl; reflexivity|apply fk_rnd; exact Hp]. }
  pose proof (fk_div r R0 2 4 _ _ _ _ (opp_nz _ N) XN (fk_opp r 4 _ _ G)) as D. pose proof (fk_mul r R0 _ 0 _ _ _ _ F (fk_refl r (- (x * x / scm e0 i)) _ (Qeq_refl _))) as D2.
  replace (6 * Z.of_nat (S i) + 4) with (2 + 4 + (6 * Z.of_nat i + 4 + 0)) by lia. apply (fk_trans r R0 _ _ _ _ _ D). apply (fk_eq r (6 * Z.of_nat i + 4 + 0) (xN / g * - (x * x / scm e0 i)) (sct x e0 i * - (x * x / scm e0 i))); [field; split; [apply scm_nz|exact F0']|symmetry; apply sct_S|exact D2].
Qed.
Lemma sc_big : 12 * (E 6 4 * M p 4) <= 2 ^ p. Proof. pose proof (big_power2 p ltac:(lia)). unfold E, M. lia. Qed.
Lemma start_fk2 x : fk r 2 (fpow (rnd p) 2 (fint (rnd p) 1) x) (x * x).
Proof.
  destruct rp as [R0 R1]. cbn [fpow]. unfold fmul. apply (fk_trans r R0 1 1 _ _ _ (fk_rnd p Hp _)). apply (fk_mul r R0 1 0); [|apply fk_refl; reflexivity]. apply (fk_eq r 1 _ (fint (rnd p) 1 * x) _ _ (Qeq_refl _)); [rewrite (fint1 p ltac:(lia)); ring|apply fk_rnd; exact Hp].
Qed.
Lemma start_fk3 x : fk r 3 (fpow (rnd p) 3 (fint (rnd p) 1) x) (x * x * x).
Proof.
  destruct rp as [R0 R1]. change (fpow (rnd p) 3 (fint (rnd p) 1) x) with (rnd p (fpow (rnd p) 2 (fint (rnd p) 1) x * x)). apply (fk_trans r R0 1 2 _ _ _ (fk_rnd p Hp _)). apply (fk_mul r R0 2 0); [apply start_fk2|apply fk_refl; reflexivity].
Qed.
Theorem cos_any fuel x : (Qabs x <= 1)%Q -> p + 6 < Z.of_nat fuel -> exists z, sincos (rnd p) p fuel 2 x (fint (rnd p) 1) 2 (fint (rnd p) 2) = Some (Ok z) /\ within_limit (inject_Z (116 * p + 314) * u) z (cos_sum x).
Proof.
  intros X Hf. destruct rp as [R0 R1]. pose proof (fint1 p ltac:(lia)) as F1. destruct (sq_le1 x X) as [X0 X1].
  assert (SM : forall i, (cos_sum x (S i) == cos_sum x i + sct x 2 i)%Q) by (intros i; unfold cos_sum, sct; cbn [sum_to]; replace (2 + 2 * i)%nat with (2 * S i)%nat by lia; reflexivity). assert (HF := fun i => sct_half x 2 i X).
  assert (T0e : (sct x 2 0 == - (x * x / 2))%Q) by (unfold sct, alt; cbn; change (inject_Z 1) with 1%Q; change (inject_Z 2) with 2%Q; field).
  assert (T1e : (sct x 2 1 == x * x * (x * x) / 24)%Q). { rewrite sct_S, T0e. unfold scm. cbn. change (inject_Z 3) with 3%Q. change (inject_Z 4) with 4%Q. field. }
  assert (T0 : (Qabs (sct x 2 0) <= 1)%Q). { rewrite T0e, Qabs_opp. pose proof (frac_half (x * x) 2 ltac:(rewrite Qabs_pos by exact X0; exact X1) ltac:(lra)). lra. } assert (S0 : (Qabs (cos_sum x 0) <= 1)%Q) by (vm_compute; discriminate).
  set (st := (fint (rnd p) 1, fpow (rnd p) 2 (fint (rnd p) 1) x, fint (rnd p) 2, 2) : sc). assert (P0 : sc_st x 2 0 st).
  { eexists _, _, _. split; [reflexivity|]. assert (N2 : ~ (inject_Z 2 == 0)%Q) by (vm_compute; discriminate). split; [exact (fk_nz _ _ _ N2 (fk_fint 2))|]. apply (fk_mono r R0 R1 3); [lia|]. pose proof (fk_div r R0 2 1 _ _ _ _ (opp_nz _ N2) (start_fk2 x) (fk_opp r 1 _ _ (fk_fint 2))) as D. apply (fk_eq r 3 _ _ _ _ (Qeq_refl _)) with (2 := D). rewrite T0e. change (inject_Z 2) with 2%Q. field. }
  assert (RR : representable p (sc_z st)) by (apply (rep_rnd p (inject_Z 1)); lia). assert (ZE : (sc_z st == cos_sum x 0)%Q) by (exact F1).
  assert (LOW : forall i, (3 <= i)%nat -> (1 # 3 <= Qabs (cos_sum x (S i)))%Q).
  { intros i I. pose proof (far (sct x 2) (cos_sum x) SM HF 1 (i - 1)) as FR. replace (1 + (i - 1))%nat with i in FR by lia. pose proof (Qabs_nonneg (sct x 2 i)) as N. rewrite (SM 1%nat), (SM 0%nat) in FR.
    assert (P1 : (0 <= sct x 2 1)%Q). { rewrite T1e. apply Qle_shift_div_l; [reflexivity|]. nra. } rewrite (Qabs_pos (sct x 2 1)) in FR by exact P1. assert (Qabs (cos_sum x (S i) - (cos_sum x 0 + sct x 2 0 + sct x 2 1)) <= sct x 2 1)%Q as Q by lra. apply abs_bd in Q. change (cos_sum x 0) with 1%Q in Q. rewrite T0e in Q. setoid_replace (x * x / 2)%Q with ((1 # 2) * (x * x))%Q in Q by field. rewrite Qabs_pos by lra. lra. }
  destruct (loop_total p Hp sc sc_z (sc_body (rnd p)) (sc_next (rnd p) (fmul (rnd p) x x)) 4 6 4 (sct x 2) (cos_sum x) (sc_st x 2) ltac:(lia) ltac:(lia) ltac:(lia) SM HF T0 S0 (sc_step x 2) sc_big st P0 RR ZE LOW fuel Hf) as (z & EZ). exists z. split; [exact EZ|].
  destruct (loop_near p Hp sc sc_z (sc_body (rnd p)) (sc_next (rnd p) (fmul (rnd p) x x)) 4 6 4 (sct x 2) (cos_sum x) (sc_st x 2) ltac:(lia) ltac:(lia) ltac:(lia) SM HF T0 S0 (sc_step x 2) sc_big st P0 RR ZE fuel z EZ) as (n0 & N). exists n0. intros n L. replace (116 * p + 314) with (E 6 4 * M p 4 + 24) by (unfold E, M; lia). apply N, L.
Qed.
Theorem sin_any fuel x z : representable p x -> (Qabs x <= 1)%Q -> sincos (rnd p) p fuel 3 x x 3 (fint (rnd p) 6) = Some (Ok z) -> within_limit (inject_Z (116 * p + 314) * u) z (sin_sum x).
Proof.
  intros RX X EZ. destruct rp as [R0 R1]. destruct (sq_le1 x X) as [X0 X1].
  assert (SM : forall i, (sin_sum x (S i) == sin_sum x i + sct x 3 i)%Q) by (intros i; unfold sin_sum, sct; cbn [sum_to]; replace (3 + 2 * i)%nat with (2 * S i + 1)%nat by lia; reflexivity). assert (HF := fun i => sct_half x 3 i X).
  assert (T0e : (sct x 3 0 == - (x * x * x / 6))%Q) by (unfold sct, alt; cbn; change (inject_Z 1) with 1%Q; change (inject_Z 2) with 2%Q; change (inject_Z 3) with 3%Q; field).
  assert (T0 : (Qabs (sct x 3 0) <= 1)%Q). { rewrite T0e, Qabs_opp. assert (Qabs (x * x * x) <= 1)%Q. { rewrite Qabs_Qmult, (Qabs_pos (x * x)) by exact X0. pose proof (Qabs_nonneg x). nra. } pose proof (frac_half (x * x * x) 6 ltac:(assumption) ltac:(lra)). lra. }
  assert (S0e : (sin_sum x 0 == x)%Q) by (unfold sin_sum; cbn [sum_to]; change (alt 0 (pterm x (2 * 0 + 1))) with (pterm x 1); apply pterm1). assert (S0 : (Qabs (sin_sum x 0) <= 1)%Q) by (rewrite S0e; exact X).
  set (st := (x, fpow (rnd p) 3 (fint (rnd p) 1) x, fint (rnd p) 6, 3) : sc). assert (P0 : sc_st x 3 0 st).
  { eexists _, _, _. split; [reflexivity|]. assert (N6 : ~ (inject_Z 6 == 0)%Q) by (vm_compute; discriminate). split; [exact (fk_nz _ _ _ N6 (fk_fint 6))|]. pose proof (fk_div r R0 3 1 _ _ _ _ (opp_nz _ N6) (start_fk3 x) (fk_opp r 1 _ _ (fk_fint 6))) as D. apply (fk_eq r 4 _ _ _ _ (Qeq_refl _)) with (2 := D). rewrite T0e. change (inject_Z 6) with 6%Q. field. }
  assert (ZE : (sc_z st == sin_sum x 0)%Q) by (symmetry; exact S0e).
  destruct (loop_near p Hp sc sc_z (sc_body (rnd p)) (sc_next (rnd p) (fmul (rnd p) x x)) 4 6 4 (sct x 3) (sin_sum x) (sc_st x 3) ltac:(lia) ltac:(lia) ltac:(lia) SM HF T0 S0 (sc_step x 3) sc_big st P0 RX ZE fuel z EZ) as (n0 & N). exists n0. intros n L. replace (116 * p + 314) with (E 6 4 * M p 4 + 24) by (unfold E, M; lia). apply N, L.
Qed.
End Inst.

From Coq Require Import List ZArith Lia QArith Qabs Qpower Lqa.
From Verif Require Import Value FloatModel FloatProofs FloatSqrt FloatMono FloatReduce SqrtConv ArcProofs PowProofs ExpProofs SeriesSpec SeriesAcc.
Open Scope Z_scope.

Lemma big_power p : 16 <= p -> 512 * p <= 2 ^ p.
Proof.
  intros Hp. pattern p. apply Zlt_lower_bound_ind with (z := 16); [|exact Hp]. intros x IH L. destruct (Z.eq_dec x 16) as [->|E]; [vm_compute; discriminate|]. specialize (IH (x - 1) ltac:(lia)). replace x with (x - 1 + 1) by lia. rewrite Z.pow_add_r by lia. change (2 ^ 1) with 2. lia.
Qed.
Lemma threshold (P : nat -> bool) N : P N = true -> exists J, (J <= N)%nat /\ P J = true /\ forall j, (j < J)%nat -> P j = false.
Proof.
  revert P. induction N as [|N IH]; intros P H; [exists O; split; [lia|]; split; [exact H|lia]|]. destruct (P O) eqn:E; [exists O; split; [lia|]; split; [exact E|lia]|].
  destruct (IH (fun n => P (S n)) H) as (J & A & B & C). exists (S J). split; [lia|]. split; [exact B|]. intros [|j] L; [exact E|apply C; lia].
Qed.
Lemma nat_pos n : (0 < inject_Z (Z.of_nat (S n)))%Q. Proof. change 0%Q with (inject_Z 0). rewrite <-Zlt_Qlt. lia. Qed.
Lemma pterm_S x n : (pterm x (S n) == pterm x n * (x / inject_Z (Z.of_nat (S n))))%Q.
Proof. cbn [pterm]. field. pose proof (nat_pos n). lra. Qed.
Lemma pterm_SS x n : (pterm x (S (S n)) == pterm x n * (x * x / (inject_Z (Z.of_nat (S n)) * inject_Z (Z.of_nat (S (S n))))))%Q.
Proof. rewrite !pterm_S. field. pose proof (nat_pos n). pose proof (nat_pos (S n)). lra. Qed.
Lemma pterm_pos x n : (0 <= x)%Q -> (0 <= pterm x n)%Q.
Proof. intros X. induction n as [|n IH]; [cbn; lra|]. rewrite pterm_S. apply Qmult_le_0_compat; [exact IH|]. apply Qle_shift_div_l; [apply nat_pos|lra]. Qed.
Lemma pterm_spos x n : (0 < x)%Q -> (0 < pterm x n)%Q.
Proof. intros X. induction n as [|n IH]; [cbn; lra|]. rewrite pterm_S. apply Qmult_lt_0_compat; [exact IH|]. apply Qlt_shift_div_l; [apply nat_pos|lra]. Qed.
Lemma sqp x : (0 <= x * x)%Q. Proof. nra. Qed.
Lemma prod_pos a b : (0 < a)%Q -> (0 < b)%Q -> (0 < a * b)%Q. Proof. intros. nra. Qed.
Lemma pterm_even x n : (0 <= pterm x (2 * n))%Q.
Proof.
  induction n as [|n IH]; [cbn; lra|]. replace (2 * S n)%nat with (S (S (2 * n))) by lia. rewrite pterm_SS. apply Qmult_le_0_compat; [exact IH|]. apply Qle_shift_div_l; [apply prod_pos; apply nat_pos|]. pose proof (sqp x). lra.
Qed.
Lemma pterm_even_spos x n : ~ (x == 0)%Q -> (0 < pterm x (2 * n))%Q.
Proof.
  intros X. induction n as [|n IH]; [cbn; lra|]. replace (2 * S n)%nat with (S (S (2 * n))) by lia. rewrite pterm_SS. apply Qmult_lt_0_compat; [exact IH|]. apply Qlt_shift_div_l; [apply prod_pos; apply nat_pos|]. assert (~ (x * x == 0)%Q) by (intros H; apply Qmult_integral in H; tauto). pose proof (sqp x). destruct (Qlt_le_dec 0 (x * x)) as [L|L]; [lra|]. exfalso. apply H. lra.
Qed.
Lemma ratio_half t n m : (0 <= t)%Q -> (0 < m)%Q -> (2 * n <= m)%Q -> (t * (n / m) <= (1 # 2) * t)%Q.
Proof. intros T M H. assert (n / m <= 1 # 2)%Q by (apply Qle_shift_div_r; lra). nra. Qed.
Lemma ratio_grow t n m : (0 <= t)%Q -> (0 < m)%Q -> (m <= 2 * n)%Q -> (t <= 2 * (t * (n / m)))%Q.
Proof. intros T M H. assert ((1 # 2) <= n / m)%Q by (apply Qle_shift_div_l; lra). nra. Qed.

Section Acc.
Variable p : Z. Hypothesis Hp : 16 <= p <= 1000000.
Notation r := (1 - pow2 (- p))%Q.
Let rp : (0 < r /\ r <= 1)%Q := rr p ltac:(lia).

Lemma mul_fint f n : (0 < f)%Q -> 0 < n -> (0 < rnd p (f * fint (rnd p) n))%Q /\ close r 2 (rnd p (f * fint (rnd p) n)) (f * inject_Z n).
Proof.
  intros F N. destruct rp as [R0 R1]. assert (I0 : (0 < inject_Z n)%Q) by (change 0%Q with (inject_Z 0); rewrite <-Zlt_Qlt; exact N). pose proof (fint_pos p n ltac:(lia) N) as G. pose proof (prod_pos _ _ F G) as FG. split; [pose proof (rnd_pos p _ ltac:(lia) FG); lra|].
  pose proof (close_rnd p ltac:(lia) (f * fint (rnd p) n)%Q ltac:(lra)) as A. pose proof (close_rnd p ltac:(lia) (inject_Z n) ltac:(lra)) as B. pose proof (close_mul r R0 0 1 _ _ _ _ (close_refl r f f ltac:(lra) ltac:(reflexivity)) B) as C. exact (close_trans r R0 1 1 _ _ _ A C).
Qed.
Lemma mul_x xN x : (0 <= xN)%Q -> (0 <= x)%Q -> (0 <= rnd p (xN * x))%Q /\ close r 1 (rnd p (xN * x)) (xN * x).
Proof. intros A B. pose proof (Qmult_le_0_compat _ _ A B) as C. split; [apply rnd_nonneg; [lia|exact C]|apply close_rnd; [lia|exact C]]. Qed.
Lemma mul_xx xN x : (0 <= xN)%Q -> (0 <= rnd p (rnd p (xN * x) * x))%Q /\ close r 2 (rnd p (rnd p (xN * x) * x)) (xN * (x * x)).
Proof.
  intros A. destruct rp as [R0 R1]. destruct (pow2_small p ltac:(lia)) as [U0 U1]. destruct (rel p (xN * x)) as (d & E & D1 & D2). pose proof (Qmult_le_0_compat _ _ A (sqp x)) as X.
  assert (V : (rnd p (xN * x) * x == xN * (x * x) * (1 + d))%Q) by (rewrite E; ring). assert (V0 : (0 <= rnd p (xN * x) * x)%Q) by (rewrite V; apply Qmult_le_0_compat; lra). split; [apply rnd_nonneg; [lia|exact V0]|].
  apply (close_trans r R0 1 1 _ (rnd p (xN * x) * x)%Q); [apply close_rnd; [lia|exact V0]|]. unfold close. change (r ^ 1)%Q with r. rewrite V in V0 |- *. split; [exact V0|]. split; [exact X|]. set (w := (xN * (x * x))%Q) in *. split.
  - assert ((1 + d) * (1 - pow2 (- p)) <= 1)%Q by nra. setoid_replace (w * (1 + d) * (1 - pow2 (- p)))%Q with (w * ((1 + d) * (1 - pow2 (- p))))%Q by ring. nra.
  - nra.
Qed.
Lemma two_fint f n m : (0 < f)%Q -> 0 < n -> 0 < m -> (0 < rnd p (rnd p (f * fint (rnd p) n) * fint (rnd p) m))%Q /\ close r 4 (rnd p (rnd p (f * fint (rnd p) n) * fint (rnd p) m)) (f * (inject_Z n * inject_Z m)).
Proof.
  intros F N M. destruct rp as [R0 R1]. destruct (mul_fint f n F N) as [A B]. destruct (mul_fint _ m A M) as [C D]. split; [exact C|]. assert (I0 : (0 <= inject_Z m)%Q) by (change 0%Q with (inject_Z 0); rewrite <-Zle_Qle; lia).
  pose proof (close_mul r R0 2 0 _ _ _ _ B (close_refl r _ _ I0 (Qeq_refl _))) as E. pose proof (close_trans r R0 2 2 _ _ _ D E) as G. apply (close_eq r 4 _ _ _ _ (Qeq_refl _)) with (2 := G). ring.
Qed.
Lemma next_close k c1 c2 xN f t x n xN' f' : (0 <= xN)%Q -> (0 < f)%Q -> (0 <= x)%Q -> (0 < n)%Q -> (0 < f')%Q -> close r k (xN / f) t -> close r c1 xN' (xN * x) -> close r c2 f' (f * n) ->
  close r (k + (c1 + c2)) (xN' / f') (t * (x / n)).
Proof.
  intros A B X N F C D E. destruct rp as [R0 R1]. pose proof (prod_pos _ _ B N) as FN. pose proof (close_div r R0 c1 c2 _ _ _ _ F FN D E) as G. assert (H0 : (0 <= x / n)%Q) by (apply Qle_shift_div_l; lra).
  pose proof (close_mul r R0 k 0 _ _ _ _ C (close_refl r _ _ H0 (Qeq_refl _))) as H. replace (k + (c1 + c2)) with (c1 + c2 + (k + 0)) by lia. apply (close_trans r R0 (c1 + c2) (k + 0) _ ((xN * x) / (f * n))%Q); [exact G|]. apply (close_eq r (k + 0) (xN / f * (x / n)) (t * (x / n))); [field; lra|reflexivity|exact H].
Qed.

Theorem exp_near fuel x z : (0 <= x)%Q -> (2 * x <= inject_Z (p - 2))%Q -> exponential (rnd p) p fuel x = Some (Ok z) -> near_limit (inject_Z (42 * p + 52) * pow2 (- p)) z (exp_sum x).
Proof.
  intros X0 X1 H. destruct rp as [R0 R1]. pose proof (fint1 p ltac:(lia)) as F1. pose proof (big_power p ltac:(lia)) as BP.
  destruct (threshold (fun j => Qle_bool (2 * x) (inject_Z (Z.of_nat j + 2))) (Z.to_nat (p - 4))) as (J & J1 & J2 & J3). { apply Qle_bool_iff. rewrite Z2Nat.id by lia. replace (p - 4 + 2) with (p - 2) by lia. exact X1. }
  apply Qle_bool_iff in J2. replace (42 * p + 52) with (14 * 3 * (p + 1) + 2 * 0 + 10) by lia.
  assert (JP : (0 < J)%nat -> (1 <= x)%Q). { intros L. specialize (J3 O L). destruct (Qlt_le_dec x 1) as [V|V]; [|exact V]. exfalso. assert (Qle_bool (2 * x) (inject_Z (Z.of_nat 0 + 2)) = true) by (apply Qle_bool_iff; change (inject_Z (Z.of_nat 0 + 2)) with 2%Q; lra). congruence. }
  apply (pw_limit p ltac:(lia) 3 0 (fun i => pterm x (S i)) (exp_sum x) (exp_next (rnd p) x) ltac:(lia) ltac:(lia) ltac:(lia)) with (z0 := fint (rnd p) 1) (x0 := x) (f0 := fint (rnd p) 1) (fuel := fuel) (J := J); try assumption; try lia.
  - intros i. reflexivity.
  - intros i zz xN f k K A B C. cbn [exp_next]. unfold fmul. destruct (mul_x xN x A X0) as [E1 E2]. destruct (mul_fint f (Z.of_nat i + 1 + 1) B ltac:(lia)) as [E3 E4]. exists (rnd p (xN * x)), (rnd p (f * fint (rnd p) (Z.of_nat i + 1 + 1))). split; [reflexivity|]. split; [exact E1|]. split; [exact E3|].
    replace (Z.of_nat i + 1 + 1) with (Z.of_nat (S (S i))) in * by lia. apply (close_eq r (k + 3) _ _ _ _ (Qeq_refl _) (Qeq_sym _ _ (pterm_S x (S i)))). apply (next_close k 1 2 xN f _ x _ _ _ A B X0 (nat_pos _) E3 C E2 E4).
  - apply (close_mono r R0 R1 0); [lia|]. apply close_refl; [rewrite F1; lra|]. exact F1.
  - rewrite F1. lra.
  - apply close_refl; [apply Qle_shift_div_l; rewrite F1; lra|]. rewrite F1. cbn. change (inject_Z 1) with 1%Q. field.
  - intros i. apply pterm_pos. exact X0.
  - intros j L. pose proof (JP ltac:(lia)) as X2. split; [apply pterm_spos; lra|]. rewrite (pterm_S x (S j)). apply ratio_grow; [apply pterm_pos, X0|apply nat_pos|]. specialize (J3 j L). destruct (Qlt_le_dec (2 * x) (inject_Z (Z.of_nat (S (S j))))) as [V|V]; [|exact V]. exfalso. assert (Qle_bool (2 * x) (inject_Z (Z.of_nat j + 2)) = true) by (apply Qle_bool_iff; replace (Z.of_nat j + 2) with (Z.of_nat (S (S j))) by lia; lra). congruence.
  - intros j L. rewrite (pterm_S x (S j)). apply ratio_half; [apply pterm_pos, X0|apply nat_pos|]. apply Qle_trans with (1 := J2). rewrite <-Zle_Qle. lia.
  - intros L. specialize (JP L). cbn. change (inject_Z 1) with 1%Q. unfold Qdiv. change (/ 1)%Q with 1%Q. lra.
Qed.

Definition later (s : nat -> Q) (i : nat) : Q := match i with O => 0%Q | S m => s m end.
Lemma near_later d z s : near_limit d z (later s) -> near_limit d z s.
Proof. intros (n0 & H). exists n0. intros n N. exact (H (S n) ltac:(lia)). Qed.
Lemma wide x n : (Qabs x <= inject_Z p)%Q -> 2 * p - 6 <= n -> (2 * (x * x) <= inject_Z n * inject_Z (n + 1))%Q.
Proof.
  intros X N. pose proof (square_le x p ltac:(lia) X) as S. assert (2 * (p * p) <= n * (n + 1)) as V. { assert ((2 * p - 6) * (2 * p - 5) <= n * (n + 1)) by (apply Z.mul_le_mono_nonneg; lia). nia. }
  rewrite Zle_Qle, !inject_Z_mult in V. change (inject_Z 2) with 2%Q in V. lra.
Qed.
Lemma grid_le a b : 0 <= a -> a <= b -> (inject_Z a * inject_Z (a + 1) <= inject_Z b * inject_Z (b + 1))%Q.
Proof. intros A B. rewrite <-!inject_Z_mult, <-Zle_Qle. nia. Qed.

Lemma sinh_near0 fuel x z : (0 <= x)%Q -> (x <= inject_Z p)%Q -> float_sinh (rnd p) p fuel x = Some (Ok z) -> near_limit (inject_Z (84 * p + 98) * pow2 (- p)) z (sinh_sum x).
Proof.
  intros X0 X1 H. destruct rp as [R0 R1]. pose proof (fint1 p ltac:(lia)) as F1. pose proof (big_power p ltac:(lia)) as BP. apply near_later.
  set (m := fun j => 2 * Z.of_nat j + 2). destruct (threshold (fun j => Qle_bool (2 * (x * x)) (inject_Z (m j) * inject_Z (m j + 1))) (Z.to_nat (p - 4))) as (J & J1 & J2 & J3). { apply Qle_bool_iff. apply wide; [rewrite Qabs_pos by exact X0; exact X1|]. unfold m. rewrite Z2Nat.id by lia. lia. }
  apply Qle_bool_iff in J2. assert (NEG : forall j, (j < J)%nat -> (inject_Z (m j) * inject_Z (m j + 1) <= 2 * (x * x))%Q). { intros j L. specialize (J3 j L). destruct (Qlt_le_dec (2 * (x * x)) (inject_Z (m j) * inject_Z (m j + 1))) as [V|V]; [|exact V]. exfalso. assert (Qle_bool (2 * (x * x)) (inject_Z (m j) * inject_Z (m j + 1)) = true) by (apply Qle_bool_iff; lra). cbv beta in J3. congruence. }
  replace (84 * p + 98) with (14 * 6 * (p + 1) + 2 * 2 + 10) by lia.
  assert (ST : forall i, (pterm x (2 * S i + 1) == pterm x (2 * i + 1) * (x * x / (inject_Z (m i) * inject_Z (m i + 1))))%Q). { intros i. replace (2 * S i + 1)%nat with (S (S (2 * i + 1))) by lia. rewrite pterm_SS. unfold m. replace (Z.of_nat (S (2 * i + 1))) with (2 * Z.of_nat i + 2) by lia. replace (Z.of_nat (S (S (2 * i + 1)))) with (2 * Z.of_nat i + 2 + 1) by lia. reflexivity. }
  assert (MP : forall i, (0 < inject_Z (m i) * inject_Z (m i + 1))%Q). { intros i. unfold m. apply prod_pos; change 0%Q with (inject_Z 0); rewrite <-Zlt_Qlt; lia. }
  apply (pw_limit p ltac:(lia) 6 2 (fun i => pterm x (2 * i + 1)) (later (sinh_sum x)) (sinh_next (rnd p) x) ltac:(lia) ltac:(lia) ltac:(lia)) with (z0 := fint (rnd p) 0) (x0 := x) (f0 := fint (rnd p) 1) (fuel := fuel) (J := J); try assumption; try lia.
  - intros [|i]; [cbn [later]; unfold sinh_sum; cbn [sum_to]; lra|reflexivity].
  - intros i zz xN f k K A B C. cbn [sinh_next]. unfold fmul. replace (2 * (Z.of_nat i + 1)) with (m i) by (unfold m; lia). destruct (mul_xx xN x A) as [E1 E2]. destruct (two_fint f (m i) (m i + 1) B ltac:(unfold m; lia) ltac:(unfold m; lia)) as [E3 E4]. eexists _, _. split; [reflexivity|]. split; [exact E1|]. split; [exact E3|].
    apply (close_eq r (k + 6) _ _ _ _ (Qeq_refl _) (Qeq_sym _ _ (ST i))). apply (next_close k 2 4 xN f _ (x * x) _ _ _ A B (sqp x) (MP i) E3 C E2 E4).
  - apply (close_mono r R0 R1 0); [lia|]. assert (Y : (fint (rnd p) 0 == 0)%Q) by (unfold fint; rewrite rnd_zero by reflexivity; reflexivity). apply close_refl; rewrite Y; [lra|reflexivity].
  - rewrite F1. lra.
  - apply (close_mono r R0 R1 0); [lia|]. apply close_refl; [apply Qle_shift_div_l; rewrite F1; lra|]. rewrite F1. cbn. change (inject_Z 1) with 1%Q. field.
  - intros i. apply pterm_pos. exact X0.
  - intros j L. pose proof (NEG j L) as G. pose proof (MP j) as M0. split; [apply pterm_spos; nra|]. rewrite ST. apply ratio_grow; [apply pterm_pos, X0|exact M0|exact G].
  - intros j L. rewrite ST. apply ratio_half; [apply pterm_pos, X0|apply MP|]. apply Qle_trans with (1 := J2). apply grid_le; unfold m; lia.
  - intros _. cbn [later]. apply pterm_pos, X0.
Qed.
Theorem cosh_near fuel x z : (Qabs x <= inject_Z p)%Q -> float_cosh (rnd p) p fuel x = Some (Ok z) -> near_limit (inject_Z (84 * p + 98) * pow2 (- p)) z (cosh_sum x).
Proof.
  intros X1 H. destruct rp as [R0 R1]. pose proof (fint1 p ltac:(lia)) as F1. pose proof (fint_pos p 2 ltac:(lia) ltac:(lia)) as F2. pose proof (big_power p ltac:(lia)) as BP.
  set (m := fun j => 2 * Z.of_nat j + 3). destruct (threshold (fun j => Qle_bool (2 * (x * x)) (inject_Z (m j) * inject_Z (m j + 1))) (Z.to_nat (p - 4))) as (J & J1 & J2 & J3). { apply Qle_bool_iff. apply wide; [exact X1|]. unfold m. rewrite Z2Nat.id by lia. lia. }
  apply Qle_bool_iff in J2. assert (NEG : forall j, (j < J)%nat -> (inject_Z (m j) * inject_Z (m j + 1) <= 2 * (x * x))%Q). { intros j L. specialize (J3 j L). destruct (Qlt_le_dec (2 * (x * x)) (inject_Z (m j) * inject_Z (m j + 1))) as [V|V]; [|exact V]. exfalso. assert (Qle_bool (2 * (x * x)) (inject_Z (m j) * inject_Z (m j + 1)) = true) by (apply Qle_bool_iff; lra). cbv beta in J3. congruence. }
  replace (84 * p + 98) with (14 * 6 * (p + 1) + 2 * 2 + 10) by lia.
  assert (ST : forall i, (pterm x (2 * S (S i)) == pterm x (2 * S i) * (x * x / (inject_Z (m i) * inject_Z (m i + 1))))%Q). { intros i. replace (2 * S (S i))%nat with (S (S (2 * S i))) by lia. rewrite pterm_SS. unfold m. replace (Z.of_nat (S (2 * S i))) with (2 * Z.of_nat i + 3) by lia. replace (Z.of_nat (S (S (2 * S i)))) with (2 * Z.of_nat i + 3 + 1) by lia. reflexivity. }
  assert (MP : forall i, (0 < inject_Z (m i) * inject_Z (m i + 1))%Q). { intros i. unfold m. apply prod_pos; change 0%Q with (inject_Z 0); rewrite <-Zlt_Qlt; lia. }
  assert (T1 : (pterm x (2 * 1) == x * x / 2)%Q). { cbn. change (inject_Z 1) with 1%Q. change (inject_Z 2) with 2%Q. field. }
  apply (pw_limit p ltac:(lia) 6 2 (fun i => pterm x (2 * S i)) (cosh_sum x) (cosh_next (rnd p) x) ltac:(lia) ltac:(lia) ltac:(lia)) with (z0 := fint (rnd p) 1) (x0 := fmul (rnd p) x x) (f0 := fint (rnd p) 2) (fuel := fuel) (J := J); try assumption; try lia.
  - intros i. reflexivity.
  - intros i zz xN f k K A B C. cbn [cosh_next]. unfold fmul. replace (2 * (Z.of_nat i + 1) + 1) with (m i) by (unfold m; lia). replace (2 * (Z.of_nat i + 1) + 2) with (m i + 1) by (unfold m; lia). destruct (mul_xx xN x A) as [E1 E2]. destruct (two_fint f (m i) (m i + 1) B ltac:(unfold m; lia) ltac:(unfold m; lia)) as [E3 E4]. eexists _, _. split; [reflexivity|]. split; [exact E1|]. split; [exact E3|].
    apply (close_eq r (k + 6) _ _ _ _ (Qeq_refl _) (Qeq_sym _ _ (ST i))). apply (next_close k 2 4 xN f _ (x * x) _ _ _ A B (sqp x) (MP i) E3 C E2 E4).
  - apply (close_mono r R0 R1 0); [lia|]. apply close_refl; [rewrite F1; lra|exact F1].
  - unfold fmul. apply rnd_nonneg; [lia|apply sqp].
  - pose proof (close_div r R0 1 1 _ _ _ _ F2 (eq_refl : (0 < inject_Z 2)%Q) (close_rnd p ltac:(lia) _ (sqp x)) (close_rnd p ltac:(lia) (inject_Z 2) ltac:(vm_compute; discriminate))) as C. apply (close_eq r 2 _ _ _ _ (Qeq_refl _) (Qeq_sym _ _ T1)). exact C.
  - intros i. apply pterm_even.
  - intros j L. pose proof (NEG j L) as G. pose proof (MP j) as M0. split; [apply pterm_even_spos; intros Z; rewrite Z in G; lra|]. rewrite ST. apply ratio_grow; [apply pterm_even|exact M0|exact G].
  - intros j L. rewrite ST. apply ratio_half; [apply pterm_even|apply MP|]. apply Qle_trans with (1 := J2). apply grid_le; unfold m; lia.
  - intros L. specialize (NEG O L). rewrite T1. change (inject_Z (m O) * inject_Z (m O + 1))%Q with 12%Q in NEG. unfold cosh_sum. cbn [sum_to]. change (pterm x (2 * 0)) with 1%Q. apply Qle_shift_div_l; lra.
Qed.
End Acc.
Lemma pterm_odd x k : (pterm (- x) (2 * k + 1) == - pterm x (2 * k + 1))%Q.
Proof.
  induction k as [|k IH]; [cbn; change (inject_Z 1) with 1%Q; field|]. replace (2 * S k + 1)%nat with (S (S (2 * k + 1))) by lia. rewrite !pterm_SS, IH. field. split; pose proof (nat_pos (S (2 * k + 1))); pose proof (nat_pos (2 * k + 1)); lra.
Qed.
Lemma sinh_sum_odd x n : (sinh_sum (- x) n == - sinh_sum x n)%Q.
Proof. unfold sinh_sum. induction n as [|n IH]; cbn [sum_to]; [apply (pterm_odd x 0)|]. rewrite IH, (pterm_odd x (S n)). ring. Qed.
Theorem sinh_near p fuel x z : 16 <= p <= 1000000 -> (Qabs x <= inject_Z p)%Q -> float_sinh (rnd p) p fuel x = Some (Ok z) -> near_limit (inject_Z (84 * p + 98) * pow2 (- p)) z (sinh_sum x).
Proof.
  intros Hp X H. apply Qabs_Qle_condition in X. destruct X as [XA XB]. destruct (Qlt_le_dec x 0) as [N|N]; [|apply (sinh_near0 p Hp fuel); assumption].
  pose proof (FloatOdd.sinh_odd p fuel x) as O. rewrite H in O. cbn in O. destruct (sinh_near0 p Hp fuel (- x) (- z) ltac:(lra) ltac:(lra) O) as (n0 & B). exists n0. intros n L. specialize (B n L). rewrite sinh_sum_odd, Qabs_opp in B. setoid_replace (z - sinh_sum x n)%Q with (- (- z - - sinh_sum x n))%Q by ring. rewrite Qabs_opp. exact B.
Qed.

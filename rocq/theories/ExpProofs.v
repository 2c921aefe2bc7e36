(* The series of power.go and sinh.go, whose terms have one sign, settle for arguments that are not too large. *)
From Coq Require Import QArith Qabs Setoid Lqa Lia.
From Verif Require FloatOdd.
From Verif Require Import Value FloatModel FloatProofs FloatSqrt FloatMono FloatSign FloatReduce RandSpec MixProofs ArcModel ArcSpec ArcRound ArcProofs SqrtConv LogConv HypProofs ExpModel.
Open Scope Z_scope.

Section Positive.
Variables (p i0 : Z) (next : Z -> pw -> pw) (z1 : Q) (s0 : pw).
Hypothesis Hp : 8 <= p.
Hypothesis I0 : 0 <= i0.
Hypothesis next_z : forall i s, pw_z (next i s) = pw_z s.
Hypothesis next_pos : forall i z xN f, 0 <= i -> (0 <= xN)%Q -> (0 < f)%Q -> let '(_, xN', f') := next (i + 1) (z, xN, f) in (0 <= xN')%Q /\ (0 < f')%Q /\ (i0 <= i -> (xN' * f <= (1 # 2) * (xN * f'))%Q).
Definition expp (i : Z) (prev : Q) (s : pw) : Prop :=
  let '(z, xN, f) := s in (0 <= z)%Q /\ representable p z /\ (0 <= xN)%Q /\ (0 < f)%Q /\ (i = 0 -> s = s0) /\ (1 <= i -> prev = z /\ (z1 <= z)%Q) /\ (i0 < i -> (xN <= pow2 (i0 + 1 - i) * (z * f))%Q).
Hypothesis first : forall z xN f, s0 = (z, xN, f) -> (z1 <= rnd p (z + rnd p (xN / f)))%Q.
Lemma exp_step i prev s : 0 <= i <= i0 + p + 3 -> expp i prev s -> exists s', pw_body (rnd p) i s = Ok s' /\ (z1 <= pw_z s')%Q /\
  (i < i0 + p + 3 -> expp (i + 1) (pw_z s') (next (i + 1) s')) /\ (i = i0 + p + 3 -> (Qabs (rnd p (prev - pw_z s')) <= eps p (pw_z s'))%Q).
Proof using Hp I0 next_z next_pos first.
  intros Hi. destruct s as [[z xN] f]. intros (Z0 & RZ & X0 & F0 & S0 & S1 & SB). unfold pw_body. rewrite fquo_ok by lra. cbn [bind]. unfold fadd. set (v := (xN / f)%Q). assert (V : (v * f == xN)%Q) by (unfold v; field; lra). assert (V0 : (0 <= v)%Q) by (unfold v; apply Qle_shift_div_l; lra).
  pose proof (rnd_nonneg p v Hp V0) as T0. assert (TV : ((255 # 256) * v <= rnd p v)%Q /\ (rnd p v <= (257 # 256) * v)%Q). { destruct (Qlt_le_dec 0 v) as [H|H]; [apply rnd_pos; assumption|]. assert (E : (v == 0)%Q) by lra. rewrite (rnd_zero p v E). lra. }
  set (t := rnd p v) in *. set (z' := rnd p (z + t)). assert (ZZ : (z <= z')%Q). { pose proof (rnd_mono_any p z (z + t) ltac:(lia) ltac:(lra)) as M. rewrite (rnd_exact p z ltac:(lia) RZ) in M. exact M. }
  assert (ZT : (t <= z')%Q). { pose proof (rnd_mono_any p t (z + t) ltac:(lia) ltac:(lra)) as M. rewrite (rnd_exact p t) in M; [exact M|lia|apply rep_rnd; lia]. }
  assert (G : (z1 <= z')%Q). { destruct (Z.eq_dec i 0) as [E|E]; [apply (first z xN f); symmetry; auto|destruct (S1 ltac:(lia)) as [_ A]; lra]. }
  exists (z', xN, f). split; [reflexivity|]. split; [exact G|]. cbn [pw_z fst snd]. split.
  - intros _. pose proof (next_pos i z' xN f ltac:(lia) X0 F0) as NP. pose proof (next_z (i + 1) (z', xN, f)) as NZ. destruct (next (i + 1) (z', xN, f)) as [[z'' xN'] f']. cbn in NZ. subst z''. destruct NP as (A & B & C).
    split; [lra|]. split; [apply rep_rnd; lia|]. split; [exact A|]. split; [exact B|]. split; [lia|]. split; [intros _; split; [reflexivity|exact G]|]. intros L. specialize (C ltac:(lia)). assert (FF : (0 < f * f')%Q) by nra.
    assert (K : (xN <= 2 * pow2 (i0 + 1 - (i + 1)) * (z' * f))%Q).
    { rewrite <-pow2_S. replace (i0 + 1 - (i + 1) + 1) with (i0 + 1 - i) by lia. destruct (Z.eq_dec i i0) as [->|E].
      - replace (i0 + 1 - i0) with 1 by lia. change (pow2 1) with 2%Q. assert (v <= 2 * z')%Q by lra. assert (v * f <= 2 * z' * f)%Q by (apply mul_l_le; assumption). lra.
      - specialize (SB ltac:(lia)). pose proof (pow2_pos (i0 + 1 - i)) as PP. assert (z * f <= z' * f)%Q by (apply mul_l_le; assumption). assert (pow2 (i0 + 1 - i) * (z * f) <= pow2 (i0 + 1 - i) * (z' * f))%Q by (apply mul_r_le; lra). lra. }
    set (w := pow2 (i0 + 1 - (i + 1))) in *. assert (xN * f' <= 2 * w * (z' * f) * f')%Q by (apply mul_l_le; assumption).
    assert (xN' * f <= w * (z' * f') * f)%Q by lra. apply (Qmult_le_r _ _ f F0). exact H0.
  - intros ->. destruct (S1 ltac:(lia)) as [-> _]. specialize (SB ltac:(lia)). replace (i0 + 1 - (i0 + p + 3)) with (- p - 2) in SB by lia.
    destruct (Qlt_le_dec 0 (z + t)) as [Q0|Q0].
    + apply settles; [lia|exact Q0|]. rewrite Qabs_pos by exact T0. destruct (ilog2_pos (z + t) Q0) as [_ L]. rewrite pow2_S in L. unfold Z.sub. rewrite pow2_add. set (k := pow2 (ilog2 (z + t))) in *. pose proof (pow2_pos (- p)) as U.
      assert (PE : (pow2 (- p) == 4 * pow2 (- p - 2))%Q). { replace (- p) with (- p - 2 + 1 + 1) at 1 by lia. rewrite !pow2_S. ring. } set (u := pow2 (- p)) in *. set (u4 := pow2 (- p - 2)) in *.
      assert (VV : (v <= u4 * z)%Q). { assert (v * f <= u4 * z * f)%Q by lra. apply (Qmult_le_r _ _ f F0). exact H. } assert (z * u <= 2 * k * u)%Q by (apply mul_l_le; lra). assert (z * u == 4 * (u4 * z))%Q by (rewrite PE; ring). destruct TV as [TV1 TV2]. assert (0 <= u4 * z)%Q by lra. lra.
    + assert (ZE : (z == 0)%Q) by lra. assert (ZE' : (z' == 0)%Q). { unfold z'. rewrite rnd_zero by lra. reflexivity. } rewrite (rnd_zero p (z - z')) by lra. change (Qabs 0) with 0%Q. unfold eps. apply Qlt_le_weak, pow2_pos.
Qed.
Lemma exp_total fuel k : k = 10 -> i0 + p + 3 < 10 + k * p -> 10 + k * p < 2 ^ 64 -> i0 + p + 3 < Z.of_nat fuel -> (let '(z, xN, f) := s0 in (0 <= z)%Q /\ representable p z /\ (0 <= xN)%Q /\ (0 < f)%Q) ->
  exists z, result pw_z (series (rnd p) p pw pw_z (pw_body (rnd p)) next fuel (new_loop k p) s0) = Some (Ok z) /\ (z1 <= z)%Q.
Proof using Hp I0 next_z next_pos first.
  intros K L M F H. pose proof (new_loop_max k p ltac:(lia) ltac:(lia) M) as MM.
  destruct (series_total (rnd p) p pw pw_z (pw_body (rnd p)) next expp (fun s => (z1 <= pw_z s)%Q) (i0 + p + 3) ltac:(lia) exp_step fuel (new_loop k p) s0) as (s & E & G); [cbn; lia|rewrite MM; lia| |cbn; lia|].
  - cbn [new_loop l_i l_prev]. destruct s0 as [[z xN] f] eqn:SE. destruct H as (A & B & C & D). split; [exact A|]. split; [exact B|]. split; [exact C|]. split; [exact D|]. split; [intros _; symmetry; exact SE|]. split; lia.
  - rewrite E. cbn [result]. eexists. split; [reflexivity|exact G].
Qed.
End Positive.

Lemma le_inject a b : a <= b -> (inject_Z a <= inject_Z b)%Q. Proof. rewrite <-Zle_Qle. auto. Qed.
Lemma inject_0 : inject_Z 0 = 0%Q. Proof. reflexivity. Qed.
Lemma rnd_up p q : 8 <= p -> (0 <= q)%Q -> (rnd p q <= (257 # 256) * q)%Q.
Proof. intros Hp H. destruct (Qlt_le_dec 0 q) as [L|L]; [apply rnd_pos; assumption|]. rewrite rnd_zero by lra. lra. Qed.
Theorem exp_all p fuel x : 8 <= p <= 1000000 -> 10 * p + 3 < Z.of_nat fuel -> (0 <= x)%Q -> (x <= inject_Z (4 * p))%Q ->
  exists z, exponential (rnd p) p fuel x = Some (Ok z) /\ (rnd p (1 + rnd p x) <= z)%Q.
Proof.
  intros Hp Hf X0 X1. unfold exponential. pose proof (fint1 p ltac:(lia)) as F1. apply (exp_total p (9 * p)); try lia.
  - intros i [[z xN] f]. reflexivity.
  - intros i z xN f Hi A B. cbn [exp_next]. unfold fmul. destruct (fint_lo p (i + 1 + 1) ltac:(lia) ltac:(lia)) as [L _]. pose proof (fint_pos p (i + 1 + 1) ltac:(lia) ltac:(lia)) as L0. set (n := fint (rnd p) (i + 1 + 1)) in *.
    assert (C : (0 <= xN * x)%Q) by nra. assert (D : (0 < f * n)%Q) by nra. pose proof (rnd_nonneg p _ ltac:(lia) C) as E. pose proof (rnd_pos p _ ltac:(lia) D) as [G _]. split; [exact E|]. split; [lra|]. intros H. pose proof (rnd_up p _ ltac:(lia) C) as U.
    pose proof (le_inject (9 * p) (i + 1 + 1) ltac:(lia)) as I. rewrite inject_Z_mult in I, X1. change (inject_Z 9) with 9%Q in I. change (inject_Z 4) with 4%Q in X1.
    assert (N : ((1024 # 1000) * x <= (1 # 2) * n)%Q) by lra. set (a := rnd p (xN * x)) in *. set (b := rnd p (f * n)) in *.
    assert (xN * f * ((1024 # 1000) * x) <= xN * f * ((1 # 2) * n))%Q by (apply mul_r_le; [nra|exact N]). assert (a * f <= (257 # 256) * (xN * x) * f)%Q by (apply mul_l_le; assumption). assert (xN * ((255 # 256) * (f * n)) <= xN * b)%Q by (apply mul_r_le; assumption). assert (0 <= xN * x * f)%Q by nra. lra.
  - intros z xN f E. injection E as <- <- <-. apply rnd_mono_any; [lia|]. assert (W : (rnd p (x / fint (rnd p) 1) == rnd p x)%Q) by (apply rnd_compat; [lia|rewrite F1; field]). lra.
  - split; [rewrite F1; lra|]. split; [apply rep_rnd; lia|]. split; [exact X0|rewrite F1; lra].
Qed.
Lemma twice_next p xN x : 8 <= p -> (0 <= xN)%Q -> (0 <= rnd p (rnd p (xN * x) * x))%Q /\ (rnd p (rnd p (xN * x) * x) <= (1009 # 1000) * (xN * (x * x)))%Q.
Proof.
  intros Hp X0. assert (P : forall a, (0 <= a)%Q -> (0 <= rnd p (rnd p (xN * a) * a))%Q /\ (rnd p (rnd p (xN * a) * a) <= (1009 # 1000) * (xN * (a * a)))%Q).
  { intros a A. assert (B : (0 <= xN * a)%Q) by nra. pose proof (rnd_nonneg p _ Hp B) as C. pose proof (rnd_up p _ Hp B) as D. set (w := rnd p (xN * a)) in *. assert (E : (0 <= w * a)%Q) by nra. split; [apply rnd_nonneg; assumption|]. pose proof (rnd_up p _ Hp E) as F.
    assert (w * a <= (257 # 256) * (xN * a) * a)%Q by (destruct (Qlt_le_dec 0 a) as [L|L]; [apply mul_l_le; assumption|assert (Z0 : (a == 0)%Q) by lra; rewrite Z0; lra]). assert (0 <= xN * a * a)%Q by nra. lra. }
  destruct (Qlt_le_dec x 0) as [N|N]; [|apply P, N]. assert (E : (rnd p (rnd p (xN * x) * x) == rnd p (rnd p (xN * - x) * - x))%Q). { apply rnd_compat; [lia|]. assert (Y : (rnd p (xN * - x) == - rnd p (xN * x))%Q) by (rewrite <-FloatSign.rnd_opp; apply rnd_compat; [lia|ring]). rewrite Y. ring. }
  rewrite E. destruct (P (- x)%Q ltac:(lra)) as [A B]. split; [exact A|]. eapply Qle_trans; [exact B|]. lra.
Qed.
Lemma twice_fact p f a b : 8 <= p -> (0 < f)%Q -> 0 < a -> 0 < b -> (0 < rnd p (rnd p (f * fint (rnd p) a) * fint (rnd p) b))%Q /\ ((98 # 100) * (f * (inject_Z a * inject_Z b)) <= rnd p (rnd p (f * fint (rnd p) a) * fint (rnd p) b))%Q.
Proof.
  intros Hp F A B. destruct (fint_lo p a Hp A) as [LA _]. destruct (fint_lo p b Hp B) as [LB _]. pose proof (fint_pos p a Hp A) as PA. pose proof (fint_pos p b Hp B) as PB. set (n := fint (rnd p) a) in *. set (m := fint (rnd p) b) in *.
  assert (C : (0 < f * n)%Q) by nra. pose proof (rnd_pos p _ Hp C) as [D _]. set (w := rnd p (f * n)) in *. assert (E : (0 < w * m)%Q) by nra. pose proof (rnd_pos p _ Hp E) as [G _]. split; [lra|].
  assert (IA : (0 < inject_Z a)%Q) by (rewrite <-inject_0, <-Zlt_Qlt; exact A). assert (IB : (0 < inject_Z b)%Q) by (rewrite <-inject_0, <-Zlt_Qlt; exact B).
  assert (H1 : (f * ((255 # 256) * inject_Z a) <= f * n)%Q) by (apply mul_r_le; lra). assert (H2 : (w * ((255 # 256) * inject_Z b) <= w * m)%Q) by (apply mul_r_le; lra). assert (H3 : ((255 # 256) * (f * ((255 # 256) * inject_Z a)) * inject_Z b <= w * inject_Z b)%Q) by (apply mul_l_le; lra).
  assert (0 <= f * (inject_Z a * inject_Z b))%Q by (assert (0 <= inject_Z a * inject_Z b)%Q by nra; nra). lra.
Qed.
(* one step of sinh or cosh, n and n+1 being at least 18 p *)
Lemma hyp_ratio p x n xN f : 8 <= p -> (0 <= xN)%Q -> (0 < f)%Q -> 18 * p <= n -> (x * x <= inject_Z (12 * p) * inject_Z (12 * p))%Q ->
  (rnd p (rnd p (xN * x) * x) * f <= (1 # 2) * (xN * rnd p (rnd p (f * fint (rnd p) n) * fint (rnd p) (n + 1))))%Q.
Proof.
  intros Hp X0 F0 N XX. destruct (twice_next p xN x Hp X0) as [_ A]. destruct (twice_fact p f n (n + 1) Hp F0 ltac:(lia) ltac:(lia)) as [_ B]. set (a := rnd p (rnd p (xN * x) * x)) in *. set (b := rnd p (rnd p (f * _) * _)) in *.
  pose proof (le_inject (18 * p) n N) as I1. pose proof (le_inject (18 * p) (n + 1) ltac:(lia)) as I2. rewrite inject_Z_mult in I1, I2, XX. change (inject_Z 18) with 18%Q in *. change (inject_Z 12) with 12%Q in XX. assert (P8 : (8 <= inject_Z p)%Q) by (apply (le_inject 8 p); lia). set (P := inject_Z p) in *.
  set (m := inject_Z n) in *. set (m1 := inject_Z (n + 1)) in *. assert (M : (324 * (P * P) <= m * m1)%Q). { assert (18 * P * (18 * P) <= m * (18 * P))%Q by (apply mul_l_le; lra). assert (m * (18 * P) <= m * m1)%Q by (apply mul_r_le; lra). lra. } assert (PP : (0 < P * P)%Q) by nra.
  assert (a * f <= (1009 # 1000) * (xN * (x * x)) * f)%Q by (apply mul_l_le; assumption). assert (XF : (0 <= xN * f)%Q) by nra. assert (xN * f * ((1009 # 1000) * (x * x)) <= xN * f * ((49 # 100) * (m * m1)))%Q by (apply mul_r_le; [exact XF|lra]). assert (xN * ((98 # 100) * (f * (m * m1))) <= xN * b)%Q by (apply mul_r_le; assumption). lra.
Qed.
Lemma square_le x n : 0 <= n -> (Qabs x <= inject_Z n)%Q -> (x * x <= inject_Z n * inject_Z n)%Q.
Proof. intros N H. apply Qabs_Qle_condition in H. destruct H. nra. Qed.
Theorem sinh_pos p fuel x : 8 <= p <= 1000000 -> 10 * p + 3 < Z.of_nat fuel -> (0 <= x)%Q -> (x <= inject_Z (12 * p))%Q ->
  exists z, float_sinh (rnd p) p fuel x = Some (Ok z) /\ (rnd p x <= z)%Q.
Proof.
  intros Hp Hf X0 X1. pose proof (fint1 p ltac:(lia)) as F1. assert (XX : (x * x <= inject_Z (12 * p) * inject_Z (12 * p))%Q) by (apply square_le; [lia|rewrite Qabs_pos by exact X0; exact X1]). assert (F0 : (fint (rnd p) 0 == 0)%Q) by (unfold fint; rewrite rnd_zero by reflexivity; reflexivity). unfold float_sinh. apply (exp_total p (9 * p)); try lia.
  - intros i [[z xN] f]. reflexivity.
  - intros i z xN f Hi A B. cbn [sinh_next]. unfold fmul. destruct (twice_next p xN x ltac:(lia) A) as [E _]. destruct (twice_fact p f (2 * (i + 1)) (2 * (i + 1) + 1) ltac:(lia) B ltac:(lia) ltac:(lia)) as [G _]. split; [exact E|]. split; [exact G|]. intros H. apply hyp_ratio; try assumption; lia.
  - intros z xN f E. injection E as <- <- <-. assert (W : (rnd p (x / fint (rnd p) 1) == rnd p x)%Q) by (apply rnd_compat; [lia|rewrite F1; field]). assert (W2 : (rnd p (fint (rnd p) 0 + rnd p (x / fint (rnd p) 1)) == rnd p (rnd p x))%Q) by (apply rnd_compat; [lia|rewrite W, F0; ring]). pose proof (rnd_exact p (rnd p x) ltac:(lia) ltac:(apply rep_rnd; lia)) as W3. lra.
  - split; [rewrite F0; lra|]. split; [apply rep_rnd; lia|]. split; [exact X0|rewrite F1; lra].
Qed.
Theorem cosh_pos p fuel x : 8 <= p <= 1000000 -> 10 * p + 3 < Z.of_nat fuel -> (Qabs x <= inject_Z (12 * p))%Q -> exists z, float_cosh (rnd p) p fuel x = Some (Ok z) /\ (1 <= z)%Q.
Proof.
  intros Hp Hf X1. pose proof (fint1 p ltac:(lia)) as F1. pose proof (square_le x (12 * p) ltac:(lia) X1) as XX. pose proof (sq0 x) as S0. pose proof (rnd_nonneg p (x * x) ltac:(lia) S0) as S1. pose proof (fint_pos p 2 ltac:(lia) ltac:(lia)) as F2. unfold float_cosh. apply (exp_total p (9 * p)); try lia.
  - intros i [[z xN] f]. reflexivity.
  - intros i z xN f Hi A B. cbn [cosh_next]. unfold fmul. destruct (twice_next p xN x ltac:(lia) A) as [E _]. destruct (twice_fact p f (2 * (i + 1) + 1) (2 * (i + 1) + 2) ltac:(lia) B ltac:(lia) ltac:(lia)) as [G _]. split; [exact E|]. split; [exact G|]. intros H. replace (2 * (i + 1) + 2) with (2 * (i + 1) + 1 + 1) by lia. apply hyp_ratio; try assumption; lia.
  - intros z xN f E. injection E as <- <- <-. apply above_one; [lia|]. assert (0 <= rnd p (fmul (rnd p) x x / fint (rnd p) 2))%Q by (apply rnd_nonneg; [lia|]; unfold fmul; apply Qle_shift_div_l; lra). lra.
  - split; [rewrite F1; lra|]. split; [apply rep_rnd; lia|]. split; [exact S1|exact F2].
Qed.
Theorem sinh_all p fuel x : 8 <= p <= 1000000 -> 10 * p + 3 < Z.of_nat fuel -> (Qabs x <= inject_Z (12 * p))%Q ->
  exists z, float_sinh (rnd p) p fuel x = Some (Ok z) /\ (Qabs (rnd p x) <= Qabs z)%Q /\ signed x z.
Proof.
  intros Hp Hf X1. apply Qabs_Qle_condition in X1. destruct X1 as [XA XB].
  assert (P : forall y z, (0 <= y)%Q -> (rnd p y <= z)%Q -> ((y == 0)%Q -> float_sinh (rnd p) p fuel y = Some (Ok z) -> (z == 0)%Q) -> float_sinh (rnd p) p fuel y = Some (Ok z) -> (Qabs (rnd p y) <= Qabs z)%Q /\ signed y z).
  { intros y z Y0 YZ ZZ E. pose proof (rnd_nonneg p y ltac:(lia) Y0) as R0. destruct (rnd_sign p y ltac:(lia)) as (S1 & _). split; [rewrite !Qabs_pos by lra; exact YZ|]. split; [intros H; specialize (S1 H); lra|]. split; [intros; lra|]. intros H. apply ZZ; assumption. }
  assert (ZERO : forall y z, (y == 0)%Q -> float_sinh (rnd p) p fuel y = Some (Ok z) -> (z == 0)%Q).
  { intros y z Y E. destruct (sinh_pos p fuel y Hp Hf ltac:(lra) ltac:(rewrite Y; apply (le_inject 0); lia)) as (a & A & A0). destruct (sinh_pos p fuel (- y) Hp Hf ltac:(lra) ltac:(rewrite Y; apply (le_inject 0); lia)) as (b & B & B0). rewrite FloatOdd.sinh_odd, E in B. cbn in B. injection B as B. assert (z = a) by congruence. subst. rewrite rnd_zero in A0 by exact Y. rewrite rnd_zero in B0 by lra. lra. }
  destruct (Qlt_le_dec x 0) as [N|N].
  - destruct (sinh_pos p fuel (- x) Hp Hf ltac:(lra) ltac:(lra)) as (z & E & Z0). destruct (P (- x)%Q z ltac:(lra) Z0 ltac:(intros; eapply ZERO; eassumption) E) as [A (B1 & _ & _)]. exists (- z)%Q. pose proof (FloatOdd.sinh_odd p fuel (- x)) as O. rewrite FloatOdd.qopp_opp, E in O. cbn in O. split; [exact O|]. rewrite FloatOdd.rnd_opp, !Qabs_opp in *. split; [exact A|]. split; [intros; lra|]. split; [intros; specialize (B1 ltac:(lra)); lra|intros; lra].
  - destruct (sinh_pos p fuel x Hp Hf N XB) as (z & E & Z0). exists z. split; [exact E|]. apply P; try assumption. intros; eapply ZERO; eassumption.
Qed.
Theorem tanh_all p fuel x : 8 <= p <= 1000000 -> 10 * p + 3 < Z.of_nat fuel -> (Qabs x <= inject_Z (12 * p))%Q -> exists z, float_tanh (rnd p) p fuel x = Some (Ok z) /\ signed x z.
Proof.
  intros Hp Hf X. destruct (cosh_pos p fuel x Hp Hf X) as (c & C & C1). destruct (sinh_all p fuel x Hp Hf X) as (s & S & _ & S1 & S2 & S3). unfold float_tanh. rewrite C. cbn [then_]. destruct (Qeq_bool c 0) eqn:E; [apply Qeq_bool_eq in E; lra|]. rewrite S. cbn [then_]. rewrite fquo_ok by lra. unfold of_res. eexists. split; [reflexivity|].
  set (v := (s / c)%Q). assert (V : (v * c == s)%Q) by (unfold v; field; lra). apply (signed_rnd p) with (q := x); [lia|]. destruct (rnd_sign p v ltac:(lia)) as (R1 & R2 & R3). destruct (rnd_sign p x ltac:(lia)) as (T1 & T2 & T3).
  assert (G : signed x (rnd p v)). { split; [|split]; intros H; [apply R1; specialize (S1 H)|apply R2; specialize (S2 H)|apply R3; specialize (S3 H)]; nra. }
  destruct (Qlt_le_dec 0 x) as [A|A]; [specialize (T1 A)|destruct (Qlt_le_dec x 0) as [B|B]; [specialize (T2 B)|specialize (T3 ltac:(lra))]]; destruct G as (G1 & G2 & G3); (split; [|split]); intros H; try lra; auto; try (apply G3; lra).
Qed.
Lemma bounded p n q : 8 <= p -> 0 <= n <= 2 ^ p -> (Qabs q <= inject_Z n)%Q -> (Qabs (rnd p q) <= inject_Z n)%Q.
Proof.
  intros Hp N H. apply Qabs_Qle_condition in H. destruct H as [A B]. assert (R : representable p (inject_Z n)) by (exists n, 0; split; [lia|change (pow2 0) with 1%Q; ring]). pose proof (rnd_mono_any p _ _ ltac:(lia) A) as M1. pose proof (rnd_mono_any p _ _ ltac:(lia) B) as M2. rewrite (rnd_exact p _ ltac:(lia) R) in M2. rewrite (rnd_exact p _ ltac:(lia) (rep_opp p _ R)) in M1. apply Qabs_Qle_condition. split; assumption.
Qed.
Lemma small_power p : 8 <= p -> 16 * p <= 2 ^ p.
Proof.
  intros Hp. pattern p. apply Zlt_lower_bound_ind with (z := 8); [|exact Hp]. intros x IH L. destruct (Z.eq_dec x 8) as [->|E]; [vm_compute; discriminate|]. specialize (IH (x - 1) ltac:(lia)). replace x with (x - 1 + 1) by lia. rewrite Z.pow_add_r by lia. change (2 ^ 1) with 2. lia.
Qed.

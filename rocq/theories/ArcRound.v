(* Facts about rounding that the series of the inverse tangent need. *)
From Coq Require Import QArith Qabs Setoid Lqa Lia.
From Verif Require Import Value FloatModel FloatProofs FloatSqrt FloatMono FloatSign RandSpec MixProofs.
Open Scope Z_scope.

Lemma rnd_half p q : (0 < q)%Q -> (Qabs (rnd p q - q) <= pow2 (ilog2 q - p))%Q.
Proof.
  intros H. rewrite rnd_is by exact H. set (k := ilog2 q). pose proof (rne_half (q * pow2 (p - 1 - k))) as E. pose proof (pow2_pos (k - p)) as P0. apply abs_bd in E.
  assert (X : (q == q * pow2 (p - 1 - k) * pow2 (k - p + 1))%Q). { rewrite <-Qmult_assoc, <-pow2_add. replace (p - 1 - k + (k - p + 1)) with 0 by lia. rewrite pow2_0. ring. }
  rewrite X at 2. set (n := inject_Z _) in *. set (x := (q * pow2 (p - 1 - k))%Q) in *. rewrite pow2_S. apply Qabs_Qle_condition. split; nra.
Qed.
Lemma ilog2_ge q e : (0 < q)%Q -> (pow2 e <= q)%Q -> e <= ilog2 q.
Proof. intros H L. destruct (ilog2_pos q H) as [A B]. assert (pow2 e < pow2 (ilog2 q + 1))%Q as X by lra. apply pow2_lt_inv in X. lia. Qed.
Lemma ilog2_mono a b : (0 < a)%Q -> (a <= b)%Q -> ilog2 a <= ilog2 b.
Proof. intros H L. destruct (ilog2_pos a H) as [A B]. apply ilog2_ge; lra. Qed.
(* a representable number is a multiple of the step of any binade that it reaches *)
Lemma grid p s e : 1 <= p -> representable p s -> (pow2 e <= s)%Q -> exists n, (s == inject_Z n * pow2 (e - p + 1))%Q.
Proof.
  intros P R L. destruct (rep_scaled p s e P R L) as (n & N). exists n. rewrite <-N, <-Qmult_assoc, <-pow2_add. replace (p - 1 - e + (e - p + 1)) with 0 by lia. rewrite pow2_0. ring.
Qed.
Lemma steps a b w : (0 < w)%Q -> (inject_Z a * w < inject_Z b * w + w)%Q -> (inject_Z a * w <= inject_Z b * w)%Q.
Proof. intros W H. destruct (Z_le_gt_dec a b) as [L|G]; [apply mul_l_le; [exact W|rewrite <-Zle_Qle; exact L]|]. assert (b < a) as G' by lia. apply inject_lt in G'. nra. Qed.
(* z + t' with t' below half a step rounds to z *)
Lemma rnd_stays p z t k : 1 <= p -> (0 < z)%Q -> representable p z -> (0 <= t)%Q -> k <= ilog2 z -> (3 * t <= pow2 (k - p + 1))%Q -> (rnd p (z + t) <= z)%Q.
Proof.
  intros P Hz R Ht Hk L. destruct (ilog2_pos z Hz) as [A B]. assert (W0 := pow2_pos (ilog2 z - p + 1)).
  assert (W : (pow2 (k - p + 1) <= pow2 (ilog2 z - p + 1))%Q) by (apply pow2_le; lia).
  destruct (grid p z (ilog2 z) P R A) as (m & M). set (e := ilog2 z) in *. set (w := pow2 (e - p + 1)) in *.
  assert (TOP : (pow2 (e + 1) == inject_Z (2 ^ p) * w)%Q). { unfold w. rewrite <-pow2_Z, <-pow2_add by lia. replace (p + (e - p + 1)) with (e + 1) by lia. reflexivity. }
  assert (E : ilog2 (z + t) = e).
  { apply Z.le_antisymm; [|apply ilog2_ge; lra]. destruct (ilog2_pos (z + t) ltac:(lra)) as [C _]. destruct (Z_le_gt_dec (ilog2 (z + t)) e) as [G|G]; [exact G|exfalso].
    assert (pow2 (e + 1) <= z + t)%Q as X. { eapply Qle_trans; [|exact C]. apply pow2_le. lia. } rewrite TOP, M in X. rewrite M, TOP in B.
    assert (inject_Z (2 ^ p) * w <= inject_Z m * w)%Q by (apply steps; lra). lra. }
  assert (q0 : (0 < z + t)%Q) by lra. pose proof (rnd_half p (z + t) q0) as H. rewrite E in H. apply abs_bd in H. pose proof (pow2_S (e - p)) as S2. replace (e - p + 1) with (e - p + 1) in S2 by lia. fold w in S2.
  pose proof (rnd_is p (z + t) q0) as I. rewrite E in I. fold w in I. set (n := rne _) in I. rewrite I. rewrite M at 1. apply steps; [exact W0|]. rewrite <-I, <-M. lra.
Qed.
(* down by t and up again by at most two thirds of it *)
Theorem down_up p z t t' : 1 <= p -> representable p z -> (0 <= t)%Q -> (t < z)%Q -> (0 <= t')%Q -> (t' <= (2 # 3) * t)%Q -> (rnd p (rnd p (z - t) + t') <= z)%Q.
Proof.
  intros P R T0 TZ T1 T2. set (q := (z - t)%Q). assert (Q0 : (0 < q)%Q) by (unfold q; lra). destruct (ilog2_pos q Q0) as [A B]. set (k := ilog2 q) in *.
  pose proof (rnd_half p q Q0) as H. fold k in H. apply abs_bd in H. assert (QZ : (q <= z)%Q) by (unfold q; lra). assert (Z0 : (0 < z)%Q) by lra.
  pose proof (rnd_is p q Q0) as I. fold k in I. set (n := rne _) in I. destruct (grid p z k P R ltac:(lra)) as (m & M). set (w := pow2 (k - p + 1)) in *. assert (W0 : (0 < w)%Q) by apply pow2_pos.
  pose proof (pow2_S (k - p)) as S2. fold w in S2. assert (FZ : (rnd p z == z)%Q) by (apply rnd_exact; assumption).
  assert (LE : (rnd p q <= z)%Q) by (pose proof (rnd_mono p q z P ltac:(lra) QZ); lra).
  assert (NN : (0 <= rnd p q)%Q) by (apply rnd_nonneg'; [exact P|lra]).
  destruct (Z_lt_le_dec n m) as [L|L].
  - eapply Qle_trans; [apply (rnd_mono p _ z P); [lra|]|lra]. apply inject_lt in L. assert ((inject_Z n + 1) * w <= inject_Z m * w)%Q as X by (apply mul_l_le; assumption). unfold q in *. lra.
  - assert (EQ : (rnd p q == z)%Q). { apply Qle_antisym; [exact LE|]. rewrite I, M. apply mul_l_le; [exact W0|]. rewrite <-Zle_Qle. exact L. }
    assert (rnd p (rnd p q + t') == rnd p (z + t'))%Q as X by (apply rnd_compat; [exact P|lra]). rewrite X.
    apply (rnd_stays p z t' k P Z0 R T1); [apply ilog2_mono; assumption|]. fold w. unfold q in *. lra.
Qed.
(* when the loop sees the change: a term of at most one unit below the rounding step *)
Lemma settles p z t : 1 <= p -> (0 < z + t)%Q -> (Qabs t <= pow2 (ilog2 (z + t) - p))%Q ->
  (Qabs (rnd p (z - rnd p (z + t))) <= eps p (rnd p (z + t)))%Q.
Proof.
  intros P H T. set (q := (z + t)%Q) in *. destruct (ilog2_pos q H) as [A B]. pose proof (rnd_half p q H) as E. set (k := ilog2 q) in *. destruct (rnd_binade p q P H) as [C _]. fold k in C.
  assert (P0 : (0 < rnd p q)%Q). { pose proof (pow2_pos k). lra. } pose proof (ilog2_ge _ _ P0 C) as G.
  unfold eps, mant_exp. assert (NZ : Qnum (rnd p q) =? 0 = false). { apply Z.eqb_neq. intros C0. destruct (rnd p q) as [a b]. cbn in C0. subst. unfold Qlt in P0. cbn in P0. lia. } rewrite NZ. cbn [snd].
  assert (D : (Qabs (z - rnd p q) <= pow2 (k + 1 - p))%Q).
  { replace (k + 1 - p) with (k - p + 1) by lia. rewrite pow2_S. setoid_replace (z - rnd p q)%Q with (- t + - (rnd p q - q))%Q by (unfold q; ring). eapply Qle_trans; [apply Qabs_triangle|]. rewrite !Qabs_opp. lra. }
  eapply Qle_trans; [|apply (pow2_le (k + 1 - p)); lia].
  assert (RE : (rnd p (pow2 (k + 1 - p)) == pow2 (k + 1 - p))%Q). { apply rnd_exact; [exact P|]. exists 1, (k + 1 - p). split; [pose proof (Z.pow_pos_nonneg 2 p ltac:(lia) ltac:(lia)); lia|ring]. }
  destruct (Qlt_le_dec (z - rnd p q) 0) as [N|N].
  - assert (X : (rnd p (z - rnd p q) == - rnd p (- (z - rnd p q)))%Q). { rewrite FloatSign.rnd_opp. ring. } rewrite X, Qabs_opp. rewrite Qabs_neg in D by lra.
    rewrite Qabs_pos by (apply rnd_nonneg'; [exact P|lra]). rewrite <-RE. apply rnd_mono; [exact P|lra|lra].
  - rewrite Qabs_pos in D by lra. rewrite Qabs_pos by (apply rnd_nonneg'; [exact P|lra]). rewrite <-RE. apply rnd_mono; [exact P|lra|lra].
Qed.

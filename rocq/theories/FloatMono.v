(* Rounding to nearest is monotone and leaves the numbers of p bits alone. *)
From Coq Require Import QArith Qabs Qpower Setoid Lqa.
From Verif Require Import Value FloatModel FloatProofs RandSpec.
Open Scope Z_scope.

Lemma rne_tie q : (Qabs (inject_Z (rne q) - q) == 1 # 2)%Q -> Z.even (rne q) = true.
Proof.
  destruct q as [n d]. unfold rne. cbn [Qnum Qden]. pose proof (Z.div_mod n (Zpos d) ltac:(lia)) as E.
  pose proof (Z.mod_pos_bound n (Zpos d) ltac:(lia)) as B. set (f := n / Zpos d) in *. set (r := n mod Zpos d) in *.
  assert (forall g, g = f /\ 2 * r < Zpos d \/ g = f + 1 /\ Zpos d < 2 * r -> (Qabs (inject_Z g - (n # d)) < 1 # 2)%Q) as H.
  { intros g G. apply Qabs_Qlt_condition. unfold Qlt, Qminus, Qplus, Qopp, inject_Z. cbn [Qnum Qden]. rewrite !Z.mul_1_r, !Pos2Z.inj_mul.
    rewrite E. destruct G as [[-> G]|[-> G]]; split; nia. }
  destruct (Z.compare_spec (2 * r) (Zpos d)) as [C|C|C]; intros T.
  - destruct (Z.even f) eqn:EV; [exact EV|]. rewrite Z.even_add, EV. reflexivity.
  - specialize (H f (or_introl (conj eq_refl C))). rewrite T in H. discriminate H.
  - specialize (H (f + 1) (or_intror (conj eq_refl C))). rewrite T in H. discriminate H.
Qed.
Lemma inject_lt a b : a < b -> (inject_Z a + 1 <= inject_Z b)%Q.
Proof. intros H. change 1%Q with (inject_Z 1). rewrite <-inject_Z_plus, <-Zle_Qle. lia. Qed.
Lemma rne_mono a b : (a <= b)%Q -> rne a <= rne b.
Proof.
  intros H. destruct (Z_le_gt_dec (rne a) (rne b)) as [L|G]; [exact L|exfalso].
  pose proof (rne_half a) as A. pose proof (rne_half b) as B. apply Qabs_Qle_condition in A, B.
  pose proof (inject_lt (rne b) (rne a) ltac:(lia)) as I.
  assert (TA : (inject_Z (rne a) - a == 1 # 2)%Q) by lra. assert (TB : (inject_Z (rne b) - b == - (1 # 2))%Q) by lra.
  assert (EQ : (inject_Z (rne a) == inject_Z (rne b + 1))%Q) by (rewrite inject_Z_plus; change (inject_Z 1) with 1%Q; lra).
  assert (R : rne a = rne b + 1) by (unfold Qeq, inject_Z in EQ; cbn in EQ; lia).
  assert (EA : Z.even (rne a) = true) by (apply rne_tie; rewrite TA; reflexivity).
  assert (EB : Z.even (rne b) = true) by (apply rne_tie; rewrite TB; reflexivity).
  rewrite R, Z.even_add, EB in EA. discriminate.
Qed.
Lemma rne_Z q n : (q == inject_Z n)%Q -> rne q = n.
Proof.
  intros H. pose proof (rne_half q) as A. apply Qabs_Qle_condition in A. destruct A as [A1 A2].
  destruct (Z_lt_le_dec (rne q) n) as [L|L]; [pose proof (inject_lt _ _ L); lra|]. destruct (Z_lt_le_dec n (rne q)) as [G|G]; [pose proof (inject_lt _ _ G); lra|lia].
Qed.
Lemma pow2_lt_inv a b : (pow2 a < pow2 b)%Q -> a < b.
Proof. intros H. destruct (Z_lt_le_dec a b) as [L|L]; [exact L|]. apply pow2_le in L. lra. Qed.
Lemma mul_l_le a b c : (0 < c)%Q -> (a <= b)%Q -> (a * c <= b * c)%Q. Proof. intros. nra. Qed.
(* a positive number rounded stays in its binade, or becomes the next power of two *)
Lemma rnd_is p q : (0 < q)%Q -> (rnd p q == inject_Z (rne (q * pow2 (p - 1 - ilog2 q))) * pow2 (ilog2 q - p + 1))%Q.
Proof.
  intros H. unfold rnd. destruct (Z.eqb_spec (Qnum q) 0) as [Z0|NZ].
  - exfalso. destruct q as [n d]. unfold Qlt in H. cbn in *. lia.
  - rewrite dyadic_ok. replace (- (ilog2 q - p + 1)) with (p - 1 - ilog2 q) by lia. reflexivity.
Qed.
Lemma ilog2_pos q : (0 < q)%Q -> (pow2 (ilog2 q) <= q)%Q /\ (q < pow2 (ilog2 q + 1))%Q.
Proof. intros H. assert (N : ~ (q == 0)%Q) by lra. destruct (ilog2_spec q N) as [A B]. rewrite Qabs_pos in A, B by lra. auto. Qed.
Lemma rnd_binade p q : 1 <= p -> (0 < q)%Q -> (pow2 (ilog2 q) <= rnd p q)%Q /\ (rnd p q <= pow2 (ilog2 q + 1))%Q.
Proof.
  intros P H. destruct (ilog2_pos q H) as [A B]. rewrite rnd_is by exact H. set (e := ilog2 q) in *.
  pose proof (pow2_pos (p - 1 - e)) as P1. pose proof (pow2_pos (e - p + 1)) as P2.
  assert (LO : 2 ^ (p - 1) <= rne (q * pow2 (p - 1 - e))).
  { rewrite <-(rne_Z (inject_Z (2 ^ (p - 1))) (2 ^ (p - 1))) by reflexivity. apply rne_mono. rewrite <-pow2_Z by lia.
    replace (p - 1) with (e + (p - 1 - e)) at 1 by lia. rewrite pow2_add. apply mul_l_le; assumption. }
  assert (HI : rne (q * pow2 (p - 1 - e)) <= 2 ^ p).
  { rewrite <-(rne_Z (inject_Z (2 ^ p)) (2 ^ p)) by reflexivity. apply rne_mono. rewrite <-pow2_Z by lia.
    replace p with (e + 1 + (p - 1 - e)) at 2 by lia. rewrite pow2_add. apply mul_l_le; [assumption|lra]. }
  split.
  - replace e with ((p - 1) + (e - p + 1)) at 1 by lia. rewrite pow2_add. apply mul_l_le; [exact P2|]. rewrite pow2_Z by lia. rewrite <-Zle_Qle. exact LO.
  - replace (e + 1) with (p + (e - p + 1)) by lia. rewrite (pow2_add p). apply mul_l_le; [exact P2|]. rewrite (pow2_Z p) by lia. rewrite <-Zle_Qle. exact HI.
Qed.
Lemma rnd_zero p q : (q == 0)%Q -> rnd p q = 0%Q.
Proof. intros H. unfold rnd. destruct q as [n d]. unfold Qeq in H. cbn in H. cbn [Qnum]. replace (n =? 0) with true by lia. reflexivity. Qed.
Theorem rnd_mono p a b : 1 <= p -> (0 <= a)%Q -> (a <= b)%Q -> (rnd p a <= rnd p b)%Q.
Proof.
  intros P HA H. destruct (Qlt_le_dec 0 a) as [PA|NA].
  2: { assert (Z0 : (a == 0)%Q) by lra. rewrite (rnd_zero p a Z0). destruct (Qlt_le_dec 0 b) as [PB|NB].
       - destruct (rnd_binade p b P PB) as [L _]. pose proof (pow2_pos (ilog2 b)). lra.
       - rewrite (rnd_zero p b) by lra. lra. }
  assert (PB : (0 < b)%Q) by lra. destruct (ilog2_pos a PA) as [A1 A2]. destruct (ilog2_pos b PB) as [B1 B2].
  assert (LE : ilog2 a <= ilog2 b). { assert (X : (pow2 (ilog2 a) < pow2 (ilog2 b + 1))%Q) by lra. apply pow2_lt_inv in X. lia. }
  destruct (Z.eq_dec (ilog2 a) (ilog2 b)) as [E|N].
  - rewrite (rnd_is p a PA), (rnd_is p b PB), E. apply mul_l_le; [apply pow2_pos|]. rewrite <-Zle_Qle. apply rne_mono. apply mul_l_le; [apply pow2_pos|exact H].
  - destruct (rnd_binade p a P PA) as [_ L1]. destruct (rnd_binade p b P PB) as [L2 _]. pose proof (pow2_le (ilog2 a + 1) (ilog2 b) ltac:(lia)). lra.
Qed.
Theorem rnd_fix p q : 1 <= p -> (0 <= q)%Q -> representable p q -> (rnd p q == q)%Q.
Proof.
  intros P HQ (m & e & M & E). destruct (Qlt_le_dec 0 q) as [PQ|NQ]; [|assert (Z0 : (q == 0)%Q) by lra; rewrite (rnd_zero p q Z0), Z0; reflexivity].
  destruct (ilog2_pos q PQ) as [A B]. rewrite rnd_is by exact PQ. set (k := ilog2 q) in *.
  assert (HM : 0 < m). { pose proof (pow2_pos e). destruct (Z_lt_le_dec 0 m) as [L|L]; [exact L|]. assert (inject_Z m <= 0)%Q by (change 0%Q with (inject_Z 0); rewrite <-Zle_Qle; exact L). nra. }
  assert (KE : k < e + p \/ (m = 2 ^ p /\ k = e + p)).
  { assert (X : (pow2 k <= inject_Z (2 ^ p) * pow2 e)%Q). { eapply Qle_trans; [exact A|]. rewrite E. apply mul_l_le; [apply pow2_pos|]. rewrite <-Zle_Qle. lia. }
    rewrite <-pow2_Z, <-pow2_add in X by lia. destruct (Z_lt_le_dec k (e + p)) as [L|L]; [left; exact L|right].
    assert (K : k = p + e). { destruct (Z_lt_le_dec (p + e) k) as [G|G]; [|lia]. pose proof (pow2_le (p + e + 1) k ltac:(lia)) as Y. rewrite pow2_S in Y. pose proof (pow2_pos (p + e)). lra. }
    split; [|lia]. assert (Y : (inject_Z (2 ^ p) * pow2 e <= inject_Z m * pow2 e)%Q). { rewrite <-E. rewrite <-pow2_Z, <-pow2_add by lia. rewrite <-K. exact A. }
    pose proof (pow2_pos e). destruct (Z_lt_le_dec m (2 ^ p)) as [G|G]; [|lia]. apply inject_lt in G. nra. }
  assert (I : exists n, (q * pow2 (p - 1 - k) == inject_Z n)%Q).
  { destruct KE as [K|[-> K]].
    - exists (m * 2 ^ (e + (p - 1 - k))). rewrite E, inject_Z_mult, <-pow2_Z by lia. rewrite pow2_add. ring.
    - exists (2 ^ (p - 1)). rewrite E, K. rewrite <-!pow2_Z by lia. rewrite <-!pow2_add. replace (p + e + (p - 1 - (e + p))) with (p - 1) by lia. reflexivity. }
  destruct I as (n & I). rewrite (rne_Z _ _ I), <-I. rewrite <-Qmult_assoc, <-pow2_add. replace (p - 1 - k + (k - p + 1)) with 0 by lia. rewrite pow2_0. ring.
Qed.

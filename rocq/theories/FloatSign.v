(* Rounding and signs. *)
From Coq Require Import QArith Qabs Lqa.
From Verif Require Import Value FloatModel FloatProofs RandSpec FloatMono.
Open Scope list_scope.
Open Scope Z_scope.

Lemma rne_opp q : rne (- q) = - rne q.
Proof.
  unfold rne, Qopp. cbn [Qnum Qden]. set (d := Z.pos (Qden q)). assert (D : 0 < d) by (unfold d; lia). set (n := Qnum q). clearbody n d.
  destruct (Z.eq_dec (n mod d) 0) as [E|E].
  - rewrite Z.mod_opp_l_z, Z.div_opp_l_z, E by lia. replace (2 * 0 ?= d) with Lt by (symmetry; apply Z.compare_lt_iff; lia). reflexivity.
  - rewrite Z.mod_opp_l_nz, Z.div_opp_l_nz by lia. pose proof (Z.mod_pos_bound n d D) as B.
    destruct (Z.compare_spec (2 * (n mod d)) d) as [C|C|C].
    + replace (2 * (d - n mod d) ?= d) with Eq by (symmetry; apply Z.compare_eq_iff; lia).
      replace (Z.even (- (n / d) - 1)) with (negb (Z.even (n / d))) by (rewrite Z.even_sub, Z.even_opp; cbn; destruct (Z.even (n / d)); reflexivity). destruct (Z.even (n / d)); cbn; lia.
    + replace (2 * (d - n mod d) ?= d) with Gt by (symmetry; apply Z.compare_gt_iff; lia). lia.
    + replace (2 * (d - n mod d) ?= d) with Lt by (symmetry; apply Z.compare_lt_iff; lia). lia.
Qed.
Lemma rne_compat a b : (a == b)%Q -> rne a = rne b.
Proof. intros H. assert (rne a <= rne b) by (apply rne_mono; lra). assert (rne b <= rne a) by (apply rne_mono; lra). lia. Qed.
Lemma ilog2_opp q : ilog2 (- q) = ilog2 q.
Proof. unfold ilog2, Qopp, Qabs. destruct q as [n d]. cbn [Qnum Qden]. rewrite Z.abs_opp. reflexivity. Qed.
Theorem rnd_opp p q : (rnd p (- q) == - rnd p q)%Q.
Proof.
  unfold rnd. rewrite ilog2_opp. replace (Qnum (- q) =? 0) with (Qnum q =? 0) by (destruct q as [n d]; cbn [Qnum Qopp]; lia). destruct (Qnum q =? 0); [reflexivity|].
  cbv zeta. rewrite !dyadic_ok. rewrite (rne_compat (- q * pow2 (- (ilog2 q - p + 1))) (- (q * pow2 (- (ilog2 q - p + 1))))) by ring. rewrite rne_opp, inject_Z_opp. ring.
Qed.
Theorem rnd_compat p a b : 1 <= p -> (a == b)%Q -> (rnd p a == rnd p b)%Q.
Proof.
  intros P H. destruct (Qlt_le_dec a 0) as [L|L].
  - assert (X : (rnd p (- a) == rnd p (- b))%Q). { assert (rnd p (- a) <= rnd p (- b))%Q by (apply rnd_mono; [exact P|lra|lra]). assert (rnd p (- b) <= rnd p (- a))%Q by (apply rnd_mono; [exact P|lra|lra]). lra. }
    rewrite !rnd_opp in X. lra.
  - assert (rnd p a <= rnd p b)%Q by (apply rnd_mono; [exact P|lra|lra]). assert (rnd p b <= rnd p a)%Q by (apply rnd_mono; [exact P|lra|lra]). lra.
Qed.
Theorem rnd_exact p q : 1 <= p -> representable p q -> (rnd p q == q)%Q.
Proof.
  intros P R. destruct (Qlt_le_dec q 0) as [L|L]; [|apply rnd_fix; assumption].
  assert (X : (rnd p (- q) == - q)%Q). { apply rnd_fix; [exact P|lra|]. destruct R as (m & e & M & E). exists (- m), e. split; [lia|]. rewrite inject_Z_opp, E. ring. }
  rewrite rnd_opp in X. lra.
Qed.
Lemma rnd_int p z q : 1 <= p -> Z.abs z <= 2 ^ p -> (q == inject_Z z)%Q -> (rnd p q == inject_Z z)%Q.
Proof. intros P H E. rewrite rnd_exact; [exact E|exact P|]. exists z, 0. split; [exact H|]. rewrite pow2_0, E. ring. Qed.
Lemma rnd_nonneg' p q : 1 <= p -> (0 <= q)%Q -> (0 <= rnd p q)%Q.
Proof. intros P H. pose proof (rnd_mono p 0 q P ltac:(lra) H) as M. rewrite (rnd_zero p 0) in M by reflexivity. exact M. Qed.
(* the error of rounding to 53 bits and more *)
Lemma rnd_near p q B : 53 <= p -> (- B <= q)%Q -> (q <= B)%Q -> (q - B * (1 # 9000000000000000) <= rnd p q)%Q /\ (rnd p q <= q + B * (1 # 9000000000000000))%Q.
Proof.
  intros P L H. pose proof (rnd_error p q) as E. assert (U : (pow2 (- p) <= 1 # 9000000000000000)%Q). { eapply Qle_trans; [apply (pow2_le (- p) (- 53)); lia|]. vm_compute. discriminate. }
  pose proof (pow2_pos (- p)) as U0. assert (A : (Qabs q <= B)%Q) by (apply Qabs_Qle_condition; split; assumption). pose proof (Qabs_nonneg q) as A0. assert (X : (Qabs q * pow2 (- p) <= B * (1 # 9000000000000000))%Q) by nra.
  apply Qabs_Qle_condition in E. lra.
Qed.

(* ---- truncation ---- *)
From Verif Require Import TimeModel.
Lemma trunc_pos q : (0 <= q)%Q -> 0 <= trunc q /\ (inject_Z (trunc q) <= q)%Q /\ (q < inject_Z (trunc q) + 1)%Q.
Proof.
  intros H. destruct q as [n d]. unfold trunc. cbn [Qnum Qden]. assert (N : 0 <= n) by (unfold Qle in H; cbn in H; lia).
  rewrite Z.quot_div_nonneg by lia. pose proof (Z.div_pos n (Zpos d) N ltac:(lia)). split; [assumption|]. pose proof (Z_div_mod_eq_full n (Zpos d)) as E. pose proof (Z.mod_pos_bound n (Zpos d) ltac:(lia)) as B.
  split; [unfold Qle|unfold Qlt]; cbn; nia.
Qed.
Lemma trunc_is q n : 0 <= n -> (inject_Z n <= q)%Q -> (q < inject_Z n + 1)%Q -> trunc q = n.
Proof.
  intros N L H. assert (Q0 : (0 <= q)%Q) by (eapply Qle_trans; [|exact L]; change 0%Q with (inject_Z 0); rewrite <-Zle_Qle; exact N). destruct (trunc_pos q Q0) as (T0 & T1 & T2).
  destruct (Z_lt_le_dec (trunc q) n) as [A|A]; [pose proof (inject_lt _ _ A); lra|]. destruct (Z_lt_le_dec n (trunc q)) as [G|G]; [pose proof (inject_lt _ _ G); lra|lia].
Qed.
Lemma trunc_int q n : (q == inject_Z n)%Q -> trunc q = n.
Proof. intros E. destruct q as [a d]. unfold Qeq in E. cbn in E. unfold trunc. cbn [Qnum Qden]. rewrite Z.mul_1_r in E. rewrite E. apply Z.quot_mul. lia. Qed.

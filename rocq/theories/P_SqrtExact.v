(* C120: the square root of the square of a float is that float. *)
From Coq Require Import QArith Qabs Setoid Lqa Lia.
From Verif Require Import Value FloatModel FloatProofs FloatSqrt FloatMono FloatSign FloatReduce RandSpec MixSpec MixProofs ArcModel ArcSpec ArcRound ArcProofs SqrtConv LogConv HypProofs PowModel SqrtExact.
From Verif Require P_Pow.
Open Scope Z_scope.

Lemma odd_part m : 0 < m -> exists n a, 0 <= a /\ 0 < n /\ Z.odd n = true /\ m = n * 2 ^ a.
Proof.
  intros H. destruct m as [|q|q]; try lia. clear H. induction q as [q IH|q IH|].
  - exists (Z.pos q~1), 0. repeat split; try lia. 
  - destruct IH as (n & a & A & N & O & E). exists n, (a + 1). repeat split; try lia; [exact O|]. rewrite Z.pow_add_r by lia. change (Z.pos q~0) with (2 * Z.pos q). rewrite E. ring.
  - exists 1, 0. repeat split; lia.
Qed.
Lemma square_fits p s : 0 <= p -> (0 < s)%Q -> representable p s -> representable p (s * s) -> exists n j, 1 <= n /\ n * n <= 2 ^ p /\ (s == inject_Z n * pow2 j)%Q.
Proof.
  intros Hp S (m & e & M & E) (m2 & f & M2 & E2). assert (PM : 0 < m). { rewrite E in S. pose proof (pow2_pos e). assert (0 * pow2 e < inject_Z m * pow2 e)%Q as L by lra. apply Qmult_lt_r in L; [|assumption]. unfold Qlt in L. cbn in L. lia. }
  destruct (odd_part m PM) as (n & a & A & N & O & EM). exists n, (e + a). split; [lia|].
  assert (SE : (s == inject_Z n * pow2 (e + a))%Q). { rewrite E, EM, inject_Z_mult, pow2_add. rewrite (pow2_Z a) by lia. ring. } split; [|exact SE].
  rewrite SE in E2. set (b := e + a) in *. assert (E3 : (inject_Z (n * n) * pow2 (b + b) == inject_Z m2 * pow2 f)%Q). { rewrite <-E2, inject_Z_mult, pow2_add. ring. }
  destruct (Z_lt_le_dec (b + b) f) as [L|L].
  - exfalso. assert (X : (inject_Z (n * n) * pow2 (b + b) == inject_Z (m2 * 2 ^ (f - (b + b))) * pow2 (b + b))%Q). { rewrite E3, inject_Z_mult, <-(pow2_Z (f - (b + b))) by lia. rewrite <-Qmult_assoc, <-pow2_add. replace (f - (b + b) + (b + b)) with f by lia. reflexivity. }
    apply Qmult_inj_r in X; [|pose proof (pow2_pos (b + b)); lra]. apply (proj1 (inject_Z_injective _ _)) in X. assert (OO : Z.odd (n * n) = true) by (rewrite Z.odd_mul, O; reflexivity). rewrite X, Z.odd_mul, Z.odd_pow in OO by lia. cbn in OO. rewrite Bool.andb_false_r in OO. discriminate.
  - assert (X : (inject_Z m2 * pow2 f == inject_Z (n * n * 2 ^ (b + b - f)) * pow2 f)%Q). { rewrite <-E3, (inject_Z_mult (n * n)), <-(pow2_Z (b + b - f)) by lia. rewrite <-Qmult_assoc, <-pow2_add. replace (b + b - f + f) with (b + b) by lia. reflexivity. }
    apply Qmult_inj_r in X; [|pose proof (pow2_pos f); lra]. apply (proj1 (inject_Z_injective _ _)) in X. assert (0 < 2 ^ (b + b - f)) by (apply Z.pow_pos_nonneg; lia). nia.
Qed.

(* If a float of p bits is the square of a float of p bits, its square root is that float, exactly. *)
Theorem sqrt_of_square : forall p s x fuel, 16 <= p <= 1000000 -> p + 4 < Z.of_nat fuel -> (0 < s)%Q -> representable p s -> representable p (s * s) -> (x == s * s)%Q ->
  exists z, float_sqrt (rnd p) p fuel x = Some (Ok z) /\ (z == s)%Q.
Proof.
  intros p s x fuel Hp Hf S R R2 X. destruct (square_fits p s ltac:(lia) S R R2) as (n & j & N & NN & E).
  assert (X0 : (0 < x)%Q) by (rewrite X; apply Qmult_lt_0_compat; exact S). destruct (sqrt_value p x fuel ltac:(lia) X0 (rep_compat p _ _ (Qeq_sym _ _ X) R2) Hf) as (z & F & _).
  exists z. split; [exact F|]. apply (sqrt_exact_n p n j s ltac:(lia) N NN E x fuel z X F).
Qed.
Print Assumptions sqrt_of_square.
(* The square root of a perfect square is the integer whose square it is, whenever the square fits in the mantissa. *)
Theorem sqrt_perfect_square : forall p n fuel, 16 <= p <= 1000000 -> p + 4 < Z.of_nat fuel -> 1 <= n -> n * n <= 2 ^ p ->
  exists z, float_sqrt (rnd p) p fuel (inject_Z (n * n)) = Some (Ok z) /\ (z == inject_Z n)%Q.
Proof.
  intros p n fuel Hp Hf N NN. assert (I : (inject_Z (n * n) == inject_Z n * inject_Z n)%Q) by (rewrite inject_Z_mult; reflexivity).
  apply (sqrt_of_square p (inject_Z n)); auto; [unfold Qlt; cbn; lia| |].
  - exists n, 0. split; [nia|]. rewrite pow2_0. ring.
  - exists (n * n), 0. split; [nia|]. rewrite pow2_0, I. ring.
Qed.
Print Assumptions sqrt_perfect_square.
(* The same through the power operator: (s*s) ** 1/2 is s, and (s*s) ** -1/2 is 1/s rounded. *)
Theorem power_half_square : forall p log2 s fuel, 16 <= p <= 1000000 -> p + 4 < Z.of_nat fuel -> (0 < s)%Q -> ~ (s * s == 1)%Q -> representable p s -> representable p (s * s) ->
  (exists z, float_power (rnd p) p log2 fuel (s * s) (1 # 2) = Some (Ok z) /\ (z == s)%Q) /\
  (exists w, float_power (rnd p) p log2 fuel (s * s) (- (1 # 2)) = Some (Ok w) /\ nearest p (1 / s) w).
Proof.
  intros p log2 s fuel Hp Hf S N1 R R2. destruct (sqrt_of_square p s (s * s) fuel Hp Hf S R R2 (Qeq_refl _)) as (z & F & Z). assert (SS : (0 < s * s)%Q) by (apply Qmult_lt_0_compat; exact S).
  assert (H : float_power (rnd p) p log2 fuel (s * s) (1 # 2) = Some (Ok z)).
  { unfold float_power. cbn [Qnum Z.ltb Z.compare Z.eqb andb]. change (Z.eqb (Qnum (1 # 2)) 0) with false. rewrite (P_Pow.not_one _ N1). rewrite (P_Pow.num_not0 (s * s)) by lra. cbn [orb]. change (Qeq_bool (Qabs (1 # 2)) (1 # 2)) with true. cbn match. rewrite F. reflexivity. }
  split; [exists z; split; [exact H|exact Z]|]. exists (rnd p (1 / z)). split; [apply (P_Pow.power_reciprocal p log2 fuel (s * s) (1 # 2) z); auto; try lia; try reflexivity; lra|].
  destruct (rnd_nearest p (1 / z) ltac:(lia)) as [A B]. split; [exact A|]. intros r RR. specialize (B r RR). assert (E : (1 / z == 1 / s)%Q) by (rewrite Z; reflexivity). rewrite E in B at 2 3. exact B.
Qed.
Print Assumptions power_half_square.
(* The root is not always the nearest float: of 6, with the default 256 bits, a float of the same precision is closer. *)
Definition fuel256 := Eval vm_compute in Z.to_nat 300.
Definition root6 := Eval vm_compute in match float_sqrt (rnd 256) 256 fuel256 6 with Some (Ok z) => Qred z | _ => 0%Q end.
Definition better6 := Eval vm_compute in Qred (if Qle_bool (root6 * root6) 6 then root6 + pow2 (ilog2 root6 - 255) else root6 - pow2 (ilog2 root6 - 255)).
Theorem sqrt_nearest_refuted : exists z s, (exists z0, float_sqrt (rnd 256) 256 fuel256 6 = Some (Ok z0) /\ (z0 == z)%Q) /\ representable 256 s /\ (0 < z)%Q /\ (0 < s)%Q /\
  ((z * z < 6 /\ z < s /\ (s + z) * (s + z) < 4 * 6) \/ (6 < z * z /\ s < z /\ 4 * 6 < (s + z) * (s + z)))%Q.
Proof.
  exists root6, better6. split; [|split; [|split; [vm_compute; reflexivity|split; [vm_compute; reflexivity|]]]].
  - eexists. split; [vm_compute; reflexivity|]. vm_compute. reflexivity.
  - exists (Qnum (Qred (better6 * pow2 254))), (-254). split; [vm_compute; discriminate|vm_compute; reflexivity].
  - (left; repeat split; vm_compute; reflexivity) || (right; repeat split; vm_compute; reflexivity).
Qed.
Print Assumptions sqrt_nearest_refuted.
(* sqrt 9 is 3 at 256 bits, and the square of 5/8 gives 5/8 back. *)
Example nine : exists z, float_sqrt (rnd 256) 256 fuel256 9 = Some (Ok z) /\ (z == 3)%Q.
Proof. apply (sqrt_perfect_square 256 3 fuel256); [lia|vm_compute; reflexivity|lia|vm_compute; discriminate]. Qed.
Example five_eighths : exists z, float_sqrt (rnd 256) 256 fuel256 (25 # 64) = Some (Ok z) /\ (z == 5 # 8)%Q.
Proof. apply (sqrt_of_square 256 (5 # 8) _ fuel256); [lia|vm_compute; reflexivity|reflexivity| | |reflexivity]; [exists 5, (-3)|exists 25, (-6)]; (split; [vm_compute; discriminate|reflexivity]). Qed.

(* C121: square roots of negative and complex numbers, and the absolute value of a complex number. *)
From Coq Require Import QArith Qabs Setoid Lqa Lia.
From Verif Require Import Value FloatModel FloatProofs FloatSqrt FloatMono FloatSign FloatReduce RandSpec MixProofs ArcModel ArcSpec ArcRound ArcProofs SqrtConv LogConv HypProofs SqrtExact SqrtAbove CSqrtModel CSqrtProofs.
From Verif Require P_SqrtExact.
Open Scope Z_scope.

Lemma rounded_root p q fuel : 8 <= p <= 1000000 -> p + 4 < Z.of_nat fuel -> (0 <= q)%Q ->
  exists z, float_sqrt (rnd p) p fuel (rnd p q) = Some (Ok z) /\ (0 <= z)%Q /\ ((0 < q)%Q -> (0 < z)%Q) /\ ((q == 0)%Q -> (z == 0)%Q) /\ (Qabs (z * z - q) <= 18 * (q * pow2 (- p)))%Q.
Proof.
  intros Hp Hf Q0. destruct (pow2_small p ltac:(lia)) as [U U1]. destruct (rnd_sign p q ltac:(lia)) as (S1 & _ & S3). assert (R0 : (0 <= rnd p q)%Q). { destruct (Qlt_le_dec 0 q) as [H|H]; [pose proof (S1 H); lra|]. assert (q == 0)%Q as E by lra. rewrite (S3 E). lra. }
  destruct (root_total p (rnd p q) fuel Hp Hf R0 ltac:(apply rep_rnd; lia)) as (z & F & Z0 & Z1 & Z2 & A). exists z. split; [exact F|]. split; [exact Z0|]. split; [auto|]. split; [auto|]. destruct (rel p q) as (d & E & D1 & D2). apply (round_root _ q (rnd p q) z d); auto.
Qed.
(* The root of a real number always comes out: a real number when it is not negative, otherwise on the imaginary axis;
   squared, it gives the number back to 18 units in the last place. *)
Theorem sqrt_of_real : forall p q fuel, 8 <= p <= 1000000 -> p + 4 < Z.of_nat fuel ->
  ((0 <= q)%Q -> exists z, sqrt_op (rnd p) p fuel q 0 = Some (Ok (RealRoot z)) /\ (0 <= z)%Q /\ (Qabs (z * z - q) <= 18 * (q * pow2 (- p)))%Q) /\
  ((q < 0)%Q -> exists z, sqrt_op (rnd p) p fuel q 0 = Some (Ok (CplxRoot 0 z)) /\ (0 < z)%Q /\ (Qabs (z * z + q) <= 18 * (- q * pow2 (- p)))%Q).
Proof.
  intros p q fuel Hp Hf. split; intros Q0; unfold sqrt_op; change (negb (Qnum 0 =? 0)) with false; cbn match.
  - rewrite (numneg_f q Q0). destruct (rounded_root p q fuel Hp Hf Q0) as (z & F & Z0 & _ & _ & A). rewrite F. cbn [after]. exists z. split; [reflexivity|]. split; assumption.
  - assert (Qnum q <? 0 = true) as E by (apply numneg; exact Q0). rewrite E. destruct (rounded_root p (- q) fuel Hp Hf ltac:(lra)) as (z & F & _ & Z0 & _ & A). rewrite F. cbn [after]. exists z. split; [reflexivity|]. split; [apply Z0; lra|]. assert (X : (z * z + q == z * z - - q)%Q) by ring. rewrite X. exact A.
Qed.
Print Assumptions sqrt_of_real.
(* The absolute value of a complex number with exact parts always comes out: a real number, 0 only for 0, accurate to
   18 units in the last place of its square, and exact when the sum of the squares is the square of a float. *)
Theorem abs_total : forall p a b fuel, 8 <= p <= 1000000 -> p + 4 < Z.of_nat fuel ->
  exists z, abs_op (rnd p) p fuel a b = Some (Ok (RealRoot z)) /\ (0 <= z)%Q /\ ((z == 0)%Q <-> ((a == 0)%Q /\ (b == 0)%Q)) /\
  (Qabs (z * z - (a * a + b * b)) <= 18 * ((a * a + b * b) * pow2 (- p)))%Q.
Proof.
  intros p a b fuel Hp Hf. pose proof (sq_nonneg a) as A. pose proof (sq_nonneg b) as B. unfold abs_op, sqrt_op. change (negb (Qnum 0 =? 0)) with false. cbn match. rewrite numneg_f by lra. destruct (rounded_root p (a * a + b * b) fuel Hp Hf ltac:(lra)) as (z & F & Z0 & Z1 & Z2 & E). rewrite F. cbn [after]. exists z. split; [reflexivity|]. split; [exact Z0|]. split; [|exact E].
  split.
  - intros Z. assert (S0 : ~ (0 < a * a + b * b)%Q) by (intros H; apply Z1 in H; lra). assert (a * a == 0)%Q as A0 by lra. assert (b * b == 0)%Q as B0 by lra. split; [destruct (Qmult_integral _ _ A0); assumption|destruct (Qmult_integral _ _ B0); assumption].
  - intros [X Y]. apply Z2. rewrite X, Y. ring.
Qed.
Print Assumptions abs_total.
Theorem abs_exact : forall p a b s fuel, 16 <= p <= 1000000 -> p + 4 < Z.of_nat fuel -> (0 < s)%Q -> representable p s -> representable p (s * s) -> (a * a + b * b == s * s)%Q ->
  exists z, abs_op (rnd p) p fuel a b = Some (Ok (RealRoot z)) /\ (z == s)%Q.
Proof.
  intros p a b s fuel Hp Hf S R R2 E. unfold abs_op, sqrt_op. change (negb (Qnum 0 =? 0)) with false. cbn match. assert (0 < s * s)%Q by (apply Qmult_lt_0_compat; assumption). rewrite numneg_f by lra.
  assert (X : (rnd p (a * a + b * b) == s * s)%Q) by (rewrite (rnd_compat p _ (s * s)) by (lia || exact E); apply rnd_exact; [lia|exact R2]). destruct (P_SqrtExact.sqrt_of_square p s _ fuel Hp Hf S R R2 X) as (z & F & Z). rewrite F. cbn [after]. exists z. split; [reflexivity|exact Z].
Qed.
Print Assumptions abs_exact.

Lemma rnd_nonneg_inv p q : 8 <= p -> (0 <= rnd p q)%Q -> (0 <= q)%Q.
Proof. intros Hp H. destruct (Qlt_le_dec q 0) as [L|L]; [|exact L]. destruct (rnd_sign p q Hp) as (_ & S & _). apply S in L. lra. Qed.
Lemma half_nonneg x : (0 <= x / 2)%Q -> (0 <= x)%Q. Proof. rewrite half_eq. lra. Qed.
(* Whenever the root of a complex number comes out, it is in the right half plane, on the side of the real axis on which
   the number is, and squaring it gives the number back: the real part to 21 (|a|+|b|) units of 2^-p, the square of the
   imaginary part to 120 (a^2 + b^2) units.  a and b are the parts rounded to p bits. *)
Theorem csqrt_accurate : forall p a0 b0 fuel v, 8 <= p -> ~ (b0 == 0)%Q -> sqrt_op (rnd p) p fuel a0 b0 = Some (Ok v) ->
  exists r i, v = CplxRoot r i /\ (0 <= r)%Q /\ ((0 < b0)%Q -> (0 <= i)%Q) /\ ((b0 < 0)%Q -> (i <= 0)%Q) /\
  let a := rnd p a0 in let b := rnd p b0 in
  (Qabs (r * r - i * i - a) <= 21 * ((Qabs a + Qabs b) * pow2 (- p)))%Q /\
  (Qabs ((2 * r * i) * (2 * r * i) - b * b) <= 120 * ((a * a + b * b) * pow2 (- p)))%Q.
Proof.
  intros p a0 b0 fuel v Hp B0 F. destruct (pow2_small p Hp) as [U U1]. unfold sqrt_op in F. assert (Qnum b0 =? 0 = false) as NB. { destruct (Qnum b0 =? 0) eqn:E; [apply num0 in E; contradiction|reflexivity]. } rewrite NB in F. cbn [negb] in F. unfold complex_sqrt in F. destruct (rnd_sign p b0 Hp) as (SB1 & SB2 & _). set (a := rnd p a0) in *. set (b := rnd p b0) in *.
  destruct (float_sqrt (rnd p) p fuel (fadd (rnd p) (fmul (rnd p) a a) (fmul (rnd p) b b))) as [[m| | |]|] eqn:FM; cbn [after] in F; try discriminate.
  destruct (float_sqrt (rnd p) p fuel (rnd p (fadd (rnd p) m a / 2))) as [[r| | |]|] eqn:FR; cbn [after] in F; try discriminate.
  destruct (float_sqrt (rnd p) p fuel (rnd p (fsub (rnd p) m a / 2))) as [[i| | |]|] eqn:FI; cbn [after] in F; try discriminate. injection F as <-.
  destruct (root_any p _ fuel m Hp FM) as (_ & M0 & MA). destruct (root_any p _ fuel r Hp FR) as (R0 & R1 & RA). destruct (root_any p _ fuel i Hp FI) as (I0 & I1 & IA).
  destruct (sum_rel p a b Hp) as (d & E & D1 & D2). pose proof (sq_nonneg a) as A2. pose proof (sq_nonneg b) as B2. pose proof (mag_bounds _ (a * a + b * b) _ m d U U1 ltac:(lra) E D1 D2 MA) as MB.
  unfold fadd in R0, RA. unfold fsub in I0, IA. apply (rnd_nonneg_inv p _ Hp), half_nonneg, (rnd_nonneg_inv p _ Hp) in R0, I0.
  destruct (half_rel p (m + a) Hp) as (dr & ER & DR1 & DR2). destruct (half_rel p (m - a) Hp) as (di & EI & DI1 & DI2).
  assert (HR : (0 <= (m + a) / 2)%Q) by (rewrite half_eq; lra). assert (HI : (0 <= (m - a) / 2)%Q) by (rewrite half_eq; lra).
  pose proof (part_root _ ((m + a) / 2) _ r dr U U1 HR ER DR1 DR2 RA) as PR. pose proof (part_root _ ((m - a) / 2) _ i di U U1 HI EI DI1 DI2 IA) as PI.
  destruct (parts _ a m r i PR PI) as [_ PA]. pose proof (product _ a b m r i U U1 MB R0 I0 PR PI) as PP.
  set (i' := if Qnum b <? 0 then (- i)%Q else i). assert (I2 : (i' * i' == i * i)%Q) by (unfold i'; destruct (Qnum b <? 0); ring).
  exists r, i'. split; [reflexivity|]. split; [exact R1|]. split; [intros H; unfold i'; rewrite numneg_f by (pose proof (SB1 H); lra); exact I1|].
  split; [intros H; unfold i'; assert (Qnum b <? 0 = true) as -> by (apply numneg, SB2, H); lra|]. cbn zeta. set (u := pow2 (- p)) in *. split.
  - assert (X : (r * r - i' * i' - a == r * r - i * i - a)%Q) by (rewrite I2; reflexivity). rewrite X. eapply Qle_trans; [exact PA|].
    assert (ML : (m <= (21 # 20) * (Qabs a + Qabs b))%Q).
    { pose proof (Qabs_nonneg a) as QA. pose proof (Qabs_nonneg b) as QB. assert (AA : (a * a == Qabs a * Qabs a)%Q) by (apply Qabs_case; intros; ring). assert (BB : (b * b == Qabs b * Qabs b)%Q) by (apply Qabs_case; intros; ring). apply abs_bd in MB. destruct MB as [_ MB]. set (x := Qabs a) in *. set (y := Qabs b) in *. rewrite AA, BB in MB.
      assert (XY : (x * x + y * y <= (x + y) * (x + y))%Q) by nra. assert (ZU : ((x * x + y * y) * u <= (x * x + y * y) * (1 # 256))%Q) by nra. assert (MM : (m * m <= (110 # 100) * ((x + y) * (x + y)))%Q) by lra.
      destruct (Qlt_le_dec ((21 # 20) * (x + y)) m) as [L|L]; [|exact L]. exfalso. assert (((21 # 20) * (x + y)) * ((21 # 20) * (x + y)) <= m * m)%Q by (apply mul_le; lra). assert (0 <= (x + y) * (x + y))%Q by nra. assert ((x + y) * (x + y) == 0)%Q as Z by lra. assert (m * m <= 0)%Q by lra. assert (0 < m * m)%Q by (apply Qmult_lt_0_compat; lra). lra. }
    assert (m * u <= (21 # 20) * (Qabs a + Qabs b) * u)%Q by (apply mul_l_le; assumption). lra.
  - assert (X : (2 * r * i' * (2 * r * i') - b * b == 4 * (r * r) * (i * i) - b * b)%Q). { assert (Y : (2 * r * i' * (2 * r * i') == 4 * (r * r) * (i' * i'))%Q) by ring. rewrite Y, I2. reflexivity. } rewrite X. exact PP.
Qed.
Print Assumptions csqrt_accurate.
(* The root of a number at least the rounded square of a is at least a. *)
Theorem sqrt_not_below : forall p a x fuel z, 16 <= p -> (0 < a)%Q -> representable p a -> representable p x -> (rnd p (a * a) <= x)%Q -> float_sqrt (rnd p) p fuel x = Some (Ok z) -> (a <= z)%Q.
Proof. exact root_above. Qed.
Print Assumptions sqrt_not_below.
(* The root of a complex number always comes out: no difference in it rounds below 0. *)
Theorem csqrt_total : forall p a0 b0 fuel, 16 <= p <= 1000000 -> p + 4 < Z.of_nat fuel -> ~ (b0 == 0)%Q ->
  exists r i, sqrt_op (rnd p) p fuel a0 b0 = Some (Ok (CplxRoot r i)).
Proof.
  intros p a0 b0 fuel Hp Hf B0. assert (Hp8 : 8 <= p <= 1000000) by lia. unfold sqrt_op. assert (Qnum b0 =? 0 = false) as NB. { destruct (Qnum b0 =? 0) eqn:E; [apply num0 in E; contradiction|reflexivity]. } rewrite NB. cbn [negb]. unfold complex_sqrt. set (a := rnd p a0). set (b := rnd p b0). assert (Ra : representable p a) by (apply rep_rnd; lia).
  pose proof (sq_nonneg a) as A2. pose proof (sq_nonneg b) as B2. set (x := fadd (rnd p) (fmul (rnd p) a a) (fmul (rnd p) b b)).
  assert (RB : (0 <= rnd p (b * b))%Q). { pose proof (rnd_mono_any p 0 (b * b) ltac:(lia) B2) as M. rewrite (rnd_zero p 0) in M by reflexivity. exact M. }
  assert (XX : (rnd p (a * a) <= x)%Q). { unfold x, fadd, fmul. rewrite <-(rnd_exact p (rnd p (a * a)) ltac:(lia)) at 1 by (apply rep_rnd; lia). apply rnd_mono_any; [lia|]. lra. }
  assert (X0 : (0 <= x)%Q). { pose proof (rnd_mono_any p 0 (a * a) ltac:(lia) A2) as M. rewrite (rnd_zero p 0) in M by reflexivity. lra. }
  destruct (root_total p x fuel Hp8 Hf X0 ltac:(apply rep_rnd; lia)) as (m & FM & M0 & _). rewrite FM. cbn [after].
  assert (MA : (- m <= a /\ a <= m)%Q).
  { destruct (Qlt_le_dec 0 a) as [P|P]; [pose proof (root_above p a x fuel m ltac:(lia) P Ra ltac:(apply rep_rnd; lia) XX FM); lra|]. destruct (Qlt_le_dec a 0) as [N|N]; [|lra].
    assert (XN : (rnd p (- a * - a) <= x)%Q) by (rewrite (rnd_compat p _ (a * a)) by (lia || ring); exact XX). pose proof (root_above p (- a) x fuel m ltac:(lia) ltac:(lra) (rep_opp p a Ra) ltac:(apply rep_rnd; lia) XN FM). lra. }
  assert (NN : forall q, (0 <= q)%Q -> (0 <= rnd p (rnd p q / 2))%Q). { intros q Q0. pose proof (rnd_mono_any p 0 q ltac:(lia) Q0) as M. rewrite (rnd_zero p 0) in M by reflexivity. pose proof (rnd_mono_any p 0 (rnd p q / 2) ltac:(lia) ltac:(rewrite half_eq; lra)) as M2. rewrite (rnd_zero p 0) in M2 by reflexivity. exact M2. }
  destruct (root_total p (rnd p (fadd (rnd p) m a / 2)) fuel Hp8 Hf (NN (m + a)%Q ltac:(lra)) ltac:(apply rep_rnd; lia)) as (r & FR & _). destruct (root_total p (rnd p (fsub (rnd p) m a / 2)) fuel Hp8 Hf (NN (m - a)%Q ltac:(lra)) ltac:(apply rep_rnd; lia)) as (i & FI & _).
  rewrite FR. cbn [after]. rewrite FI. cbn [after]. do 2 eexists. reflexivity.
Qed.
Print Assumptions csqrt_total.
(* Neither part of the root is 0 when the imaginary part is not too small beside the real part: 200 a^2 2^-p <= b^2.  The imaginary part has
   then the sign of b. *)
Theorem csqrt_proper : forall p a0 b0 fuel, 8 <= p <= 1000000 -> p + 4 < Z.of_nat fuel -> ~ (b0 == 0)%Q ->
  (200 * (rnd p a0 * rnd p a0 * pow2 (- p)) <= rnd p b0 * rnd p b0)%Q ->
  exists r i, sqrt_op (rnd p) p fuel a0 b0 = Some (Ok (CplxRoot r i)) /\ (0 < r)%Q /\ ((0 < b0)%Q -> (0 < i)%Q) /\ ((b0 < 0)%Q -> (i < 0)%Q).
Proof.
  intros p a0 b0 fuel Hp Hf B0 C. assert (Hp' : 8 <= p) by lia. destruct (pow2_small p Hp') as [U U1]. unfold sqrt_op. assert (Qnum b0 =? 0 = false) as NB. { destruct (Qnum b0 =? 0) eqn:E; [apply num0 in E; contradiction|reflexivity]. } rewrite NB. cbn [negb]. unfold complex_sqrt. destruct (rnd_sign p b0 Hp') as (SB1 & SB2 & _). set (a := rnd p a0) in *. set (b := rnd p b0) in *.
  assert (BN : ~ (b == 0)%Q). { destruct (Qlt_le_dec 0 b0) as [H|H]; [pose proof (SB1 H); lra|]. assert (b0 < 0)%Q as L by lra. apply SB2 in L. lra. }
  assert (B2 : (0 < b * b)%Q). { destruct (Qlt_le_dec 0 b) as [H|H]; [nra|]. assert (b < 0)%Q by lra. nra. } pose proof (sq_nonneg a) as A2.
  destruct (sum_rel p a b Hp') as (d & E & D1 & D2). set (u := pow2 (- p)) in *.
  assert (S0 : (0 < fadd (rnd p) (fmul (rnd p) a a) (fmul (rnd p) b b))%Q) by (rewrite E; apply Qmult_lt_0_compat; lra).
  destruct (root_total p _ fuel Hp Hf (Qlt_le_weak _ _ S0) ltac:(apply rep_rnd; lia)) as (m & FM & M0 & MP & _ & MA). rewrite FM. cbn [after]. specialize (MP S0). fold u in MA.
  pose proof (mag_bounds _ (a * a + b * b) _ m d U U1 ltac:(lra) E D1 D2 MA) as MB. apply abs_bd in MB. destruct MB as [MB _].
  assert (MG : (a * a < m * m)%Q). { set (x := (a * a)%Q) in *. set (y := (b * b)%Q) in *. assert (y * u <= y * (1 # 256))%Q by nra. assert (0 <= x * u)%Q by nra. lra. }
  pose proof (sq_lt a m MP MG) as P1. assert (P2 : (0 < m - a)%Q) by (apply (sq_lt (- a) m MP); lra).
  assert (G1 : (0 < rnd p (fadd (rnd p) m a / 2))%Q). { unfold fadd. apply rnd_sign; [lia|]. rewrite half_eq. pose proof (proj1 (rnd_sign p (m + a) Hp') P1). lra. }
  assert (G2 : (0 < rnd p (fsub (rnd p) m a / 2))%Q). { unfold fsub. apply rnd_sign; [lia|]. rewrite half_eq. pose proof (proj1 (rnd_sign p (m - a) Hp') P2). lra. }
  destruct (root_total p _ fuel Hp Hf (Qlt_le_weak _ _ G1) ltac:(apply rep_rnd; lia)) as (r & FR & _ & RP & _). destruct (root_total p _ fuel Hp Hf (Qlt_le_weak _ _ G2) ltac:(apply rep_rnd; lia)) as (i & FI & _ & IP & _).
  rewrite FR. cbn [after]. rewrite FI. cbn [after]. specialize (RP G1). specialize (IP G2). do 2 eexists. split; [reflexivity|]. split; [exact RP|].
  split; intros H; [rewrite numneg_f by (pose proof (SB1 H); lra); exact IP|]. assert (Qnum b <? 0 = true) as -> by (apply numneg, SB2, H). lra.
Qed.
Print Assumptions csqrt_proper.
(* A small imaginary part is lost: at the default 256 bits the root of 1j2**-140 is 1j0, although 2**-141 is a float. *)
Definition fuel256 := Eval vm_compute in Z.to_nat 300.
Theorem csqrt_lost_refuted : exists a b r i, ~ (b == 0)%Q /\ representable 256 a /\ representable 256 b /\ sqrt_op (rnd 256) 256 fuel256 a b = Some (Ok (CplxRoot r i)) /\ (r == 1)%Q /\ (i == 0)%Q.
Proof.
  exists 1%Q, (pow2 (-140)). do 2 eexists. split; [vm_compute; discriminate|]. split; [apply rep_one; lia|]. split; [exists 1, (-140); split; [vm_compute; discriminate|reflexivity]|]. split; [vm_compute; reflexivity|]. split; vm_compute; reflexivity.
Qed.
Print Assumptions csqrt_lost_refuted.
(* |3j4| is 5, and the hypotheses hold for 3j4 at 256 bits. *)
Example five : exists z, abs_op (rnd 256) 256 fuel256 3 4 = Some (Ok (RealRoot z)) /\ (z == 5)%Q.
Proof. apply (abs_exact 256 3 4 5 fuel256); [lia|vm_compute; reflexivity|reflexivity| | |reflexivity]; [exists 5, 0|exists 25, 0]; (split; [vm_compute; discriminate|reflexivity]). Qed.
Example three_four : exists r i, sqrt_op (rnd 256) 256 fuel256 3 4 = Some (Ok (CplxRoot r i)) /\ (0 < r)%Q /\ ((0 < 4)%Q -> (0 < i)%Q) /\ ((4 < 0)%Q -> (i < 0)%Q).
Proof. apply csqrt_proper; [lia|vm_compute; reflexivity|discriminate|vm_compute; discriminate]. Qed.

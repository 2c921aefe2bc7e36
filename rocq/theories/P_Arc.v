(* C116: the inverse functions, the square root and the logarithm come out, in their range and with the right sign. *)
From Coq Require Import QArith Qabs Setoid Lqa Lia.
From Verif Require FloatOdd.
From Verif Require Import Value FloatModel FloatProofs FloatSqrt FloatMono FloatSign FloatReduce RandSpec MixProofs ArcModel ArcSpec ArcRound ArcProofs SqrtConv LogConv HypProofs.
Open Scope Z_scope.

(* The square root of a positive number of p bits always comes out, and is accurate. *)
Theorem sqrt_always : forall p x fuel, 8 <= p <= 1000000 -> (0 < x)%Q -> representable p x -> p + 4 < Z.of_nat fuel ->
  exists z, float_sqrt (rnd p) p fuel x = Some (Ok z) /\ (0 < z)%Q /\ (Qabs (z * z - x) <= 16 * (x * pow2 (- p)))%Q.
Proof. exact sqrt_value. Qed.
Print Assumptions sqrt_always.
(* The logarithm of a positive number of p bits always comes out, with its sign. *)
Theorem log_always : forall p fuel log2 x, 8 <= p <= 1000000 -> (0 <= log2)%Q -> p < Z.of_nat fuel -> (0 < x)%Q -> representable p x ->
  exists z, float_log (rnd p) p fuel log2 x = Some (Ok z) /\ ((x < 1)%Q -> (z < 0)%Q) /\ ((x == 1)%Q -> (z == 0)%Q) /\ ((1 < x)%Q -> (0 < z)%Q).
Proof. exact log_total. Qed.
Print Assumptions log_always.
Lemma all_converge p fuel : 8 <= p <= 1000000 -> p + 4 < Z.of_nat fuel -> forall q, (0 < q)%Q -> representable p q -> converges p fuel q.
Proof. intros Hp Hf q Q0 R. apply sqrt_converges; assumption. Qed.
Lemma two p fuel : 8 <= p <= 1000000 -> p + 4 < Z.of_nat fuel -> converges p fuel 2.
Proof. intros Hp Hf. apply all_converge; [exact Hp|exact Hf|reflexivity|]. exists 1, 1. split; [pose proof (Z.pow_pos_nonneg 2 p ltac:(lia) ltac:(lia)); lia|reflexivity]. Qed.
(* atan of every number: between -pi/2 and pi/2, with the sign of its argument. *)
Theorem atan_total : forall p pi d fuel q, 8 <= p <= 1000000 -> pi_like p pi -> p + 4 < Z.of_nat fuel -> (4 <= d)%nat ->
  exists z, real (atan (rnd p) p pi d fuel q) z /\ between (- (pi / 2)) z (pi / 2) /\ signed q z.
Proof.
  intros p pi d fuel q Hp PL Hf Hd. destruct (atan_all p pi fuel d (rnd p q) Hp PL ltac:(lia) (two p fuel Hp Hf) Hd) as (z & E & B & S). exists z. unfold real, atan. rewrite E. split; [reflexivity|]. split; [exact B|]. apply (signed_rnd p); [lia|exact S].
Qed.
Print Assumptions atan_total.
(* atan of -q is the opposite of atan q. *)
Lemma atan_odd_pos p pi d fuel q z : 8 <= p <= 1000000 -> pi_like p pi -> p + 4 < Z.of_nat fuel -> (4 <= d)%nat -> (0 < q)%Q ->
  real (atan (rnd p) p pi d fuel q) z -> real (atan (rnd p) p pi d fuel (- q)) (- z)%Q.
Proof.
  intros Hp PL Hf Hd Q0 E. destruct (atan_total p pi d fuel (- q) Hp PL Hf Hd) as (w & W & _). unfold real, atan in *. injection E as E. injection W as W. rewrite FloatOdd.rnd_opp in *.
  destruct (rnd_sign p q ltac:(lia)) as (P & _). pose proof (atan_symmetric p pi fuel d (rnd p q) z (P Q0) E) as S1. pose proof (atan_more _ _ _ _ d _ _ W (S d) ltac:(lia)) as S2. rewrite W. congruence.
Qed.
Theorem atan_odd : forall p pi d fuel q z, 8 <= p <= 1000000 -> pi_like p pi -> p + 4 < Z.of_nat fuel -> (4 <= d)%nat ->
  real (atan (rnd p) p pi d fuel q) z -> exists w, real (atan (rnd p) p pi d fuel (- q)) w /\ (w == - z)%Q.
Proof.
  intros p pi d fuel q z Hp PL Hf Hd E. destruct (atan_total p pi d fuel (- q) Hp PL Hf Hd) as (w & W & _ & SW). exists w. split; [exact W|]. destruct (atan_total p pi d fuel q Hp PL Hf Hd) as (z' & E' & _ & SZ). assert (z' = z) by (unfold real in *; congruence). subst z'.
  destruct (Qlt_le_dec 0 q) as [H|H]; [pose proof (atan_odd_pos p pi d fuel q z Hp PL Hf Hd H E); unfold real in *; assert (w = (- z)%Q) as -> by congruence; reflexivity|]. destruct (Qlt_le_dec q 0) as [G|G].
  - pose proof (atan_odd_pos p pi d fuel (- q) w Hp PL Hf Hd ltac:(lra) W) as O. rewrite FloatOdd.qopp_opp in O. unfold real in *. assert (z = (- w)%Q) as -> by congruence. ring.
  - destruct SW as (_ & _ & SW). destruct SZ as (_ & _ & SZ). rewrite SW, SZ by lra. reflexivity.
Qed.
Print Assumptions atan_odd.
(* asin: a real number exactly from -1 to 1, between -pi/2 and pi/2, with the sign of its argument, and the ends at the ends. *)
Theorem asin_total : forall p pi d fuel q, 8 <= p <= 1000000 -> pi_like p pi -> p + 4 < Z.of_nat fuel -> (4 <= d)%nat ->
  (((-1 <= q)%Q /\ (q <= 1)%Q) -> exists z, real (asin (rnd p) p pi d fuel q) z /\ between (- (pi / 2)) z (pi / 2) /\ signed q z /\ ((q == 1)%Q -> (z == pi / 2)%Q) /\ ((q == -1)%Q -> (z == - (pi / 2))%Q)) /\
  (((q < -1)%Q \/ (1 < q)%Q) -> asin (rnd p) p pi d fuel q = Complex).
Proof.
  intros p pi d fuel q Hp PL Hf Hd. split.
  - intros [Q1 Q2]. destruct (unit_range p q ltac:(lia) Q1 Q2) as [R1 R2]. destruct (asin_all p pi fuel d (rnd p q) Hp PL ltac:(lia) (all_converge p fuel Hp Hf) Hd ltac:(apply rep_rnd; lia) R1 R2) as (z & E & B & S & E1 & E2).
    exists z. unfold real, asin, in_arc_domain. apply Qle_bool_iff in Q1, Q2. rewrite Q1, Q2. cbn [andb]. rewrite E. split; [reflexivity|]. split; [exact B|]. split; [apply (signed_rnd p); [lia|exact S]|].
    split; intros H; [apply E1|apply E2]; rewrite (rnd_compat p _ _ ltac:(lia) H); apply rnd_exact; try lia; [apply rep_one; lia|apply (rep_compat p (-(1))); [reflexivity|apply rep_opp, rep_one; lia]].
  - intros H. unfold asin, in_arc_domain. destruct (Qle_bool (-1) q) eqn:A; [|reflexivity]. destruct (Qle_bool q 1) eqn:B; [|reflexivity]. apply Qle_bool_iff in A, B. lra.
Qed.
Print Assumptions asin_total.
(* acos: a real number exactly from -1 to 1, between 0 and pi, exact at -1, 0 and 1. *)
Theorem acos_total : forall p pi d fuel q, 8 <= p <= 1000000 -> pi_like p pi -> p + 4 < Z.of_nat fuel -> (4 <= d)%nat ->
  (((-1 <= q)%Q /\ (q <= 1)%Q) -> exists z, real (acos (rnd p) p pi d fuel q) z /\ between 0 z pi /\ ((q == 1)%Q -> (z == 0)%Q) /\ ((q == -1)%Q -> (z == pi)%Q) /\ ((q == 0)%Q -> (z == pi / 2)%Q)) /\
  (((q < -1)%Q \/ (1 < q)%Q) -> acos (rnd p) p pi d fuel q = Complex).
Proof.
  intros p pi d fuel q Hp PL Hf Hd. split.
  - intros [Q1 Q2]. destruct (unit_range p q ltac:(lia) Q1 Q2) as [R1 R2]. destruct (acos_all p pi fuel d (rnd p q) Hp PL ltac:(lia) (all_converge p fuel Hp Hf) Hd ltac:(apply rep_rnd; lia) R1 R2) as (z & E & B & E1 & E2 & E3).
    exists z. unfold real, acos, in_arc_domain. apply Qle_bool_iff in Q1, Q2. rewrite Q1, Q2. cbn [andb]. rewrite E. split; [reflexivity|]. split; [exact B|].
    split; [|split]; intros H; [apply E1|apply E2|apply E3]; try (rewrite rnd_zero by exact H; reflexivity); rewrite (rnd_compat p _ _ ltac:(lia) H); apply rnd_exact; try lia; [apply rep_one; lia|apply (rep_compat p (-(1))); [reflexivity|apply rep_opp, rep_one; lia]].
  - intros H. unfold acos, in_arc_domain. destruct (Qle_bool (-1) q) eqn:A; [|reflexivity]. destruct (Qle_bool q 1) eqn:B; [|reflexivity]. apply Qle_bool_iff in A, B. lra.
Qed.
Print Assumptions acos_total.
(* acosh: a real number exactly from 1 on, not negative, 0 at 1. *)
Theorem acosh_total : forall p log2 fuel q, 8 <= p <= 1000000 -> (0 <= log2)%Q -> p + 4 < Z.of_nat fuel ->
  ((1 <= q)%Q -> exists z, real (acosh (rnd p) p log2 fuel q) z /\ (0 <= z)%Q /\ ((q == 1)%Q -> (z == 0)%Q) /\ ((1 < rnd p q)%Q -> (0 < z)%Q)) /\
  ((q < 1)%Q -> acosh (rnd p) p log2 fuel q = Complex).
Proof.
  intros p log2 fuel q Hp L0 Hf. split.
  - intros Q1. destruct (acosh_all p log2 fuel (rnd p q) Hp L0 Hf ltac:(apply rep_rnd; lia) (above_one p q ltac:(lia) Q1)) as (z & E & Z0 & Z1 & Z2). exists z. unfold real, acosh. rewrite below_false by exact Q1. rewrite E. split; [reflexivity|]. split; [exact Z0|]. split; [|exact Z2].
    intros H. apply Z1. rewrite (rnd_compat p _ _ ltac:(lia) H). apply rnd_exact; [lia|apply rep_one; lia].
  - intros H. unfold acosh. apply below_spec in H. rewrite H. reflexivity.
Qed.
Print Assumptions acosh_total.
(* asinh of a number that is not negative comes out, positive from 1/8 on. *)
Theorem asinh_total_partial : forall p log2 fuel q, 8 <= p <= 1000000 -> (0 <= log2)%Q -> p + 4 < Z.of_nat fuel -> (0 <= q)%Q ->
  exists z, real (asinh (rnd p) p log2 fuel q) z /\ ((1 # 8 <= q)%Q -> (0 < z)%Q).
Proof.
  intros p log2 fuel q Hp L0 Hf Q0. destruct (asinh_all p log2 fuel (rnd p q) Hp L0 Hf ltac:(apply rep_rnd; lia) ltac:(apply rnd_nonneg; [lia|exact Q0])) as (z & E & Z1). exists z. unfold real, asinh. rewrite E. split; [reflexivity|].
  intros H. apply Z1. pose proof (rnd_mono_any p _ _ ltac:(lia) H) as M. rewrite (rnd_exact p (1 # 8)) in M; [exact M|lia|]. exists 1, (-3). split; [pose proof (Z.pow_pos_nonneg 2 p ltac:(lia) ltac:(lia)); lia|reflexivity].
Qed.
Print Assumptions asinh_total_partial.
(* atanh: complex from 1 on in absolute value; real up to 1 - 2^-p, with the sign of its argument or 0. *)
Theorem atanh_total_partial : forall p log2 fuel q, 8 <= p <= 1000000 -> (0 <= log2)%Q -> p + 4 < Z.of_nat fuel ->
  ((- (1 - pow2 (- p)) <= q)%Q /\ (q <= 1 - pow2 (- p))%Q -> exists z, real (atanh (rnd p) p log2 fuel q) z /\ ((0 <= q)%Q -> (0 <= z)%Q) /\ ((q <= 0)%Q -> (z <= 0)%Q)) /\
  (((q <= -1)%Q \/ (1 <= q)%Q) -> atanh (rnd p) p log2 fuel q = Complex) /\
  ((-1 < q)%Q /\ (q < 1)%Q -> atanh (rnd p) p log2 fuel q <> Complex).
Proof.
  intros p log2 fuel q Hp L0 Hf. pose proof (pow2_small p ltac:(lia)) as [U0 U1].
  assert (IN : (-1 < q)%Q -> (q < 1)%Q -> atanh (rnd p) p log2 fuel q = Real (float_atanh (rnd p) p log2 fuel (rnd p q))).
  { intros A B. unfold atanh. destruct (Qle_bool q (-1)) eqn:C; [apply Qle_bool_iff in C; lra|]. destruct (Qle_bool 1 q) eqn:D; [apply Qle_bool_iff in D; lra|]. reflexivity. }
  split; [|split].
  - intros [A B]. rewrite IN by lra. destruct (open_range p q ltac:(lia) A B) as [C D]. destruct (atanh_all p log2 fuel (rnd p q) Hp L0 Hf C D) as (z & E & Z1 & Z2). exists z. unfold real. rewrite E. split; [reflexivity|].
    split; intros H; [apply Z1, rnd_nonneg|apply Z2, rnd_nonpos]; try lia; exact H.
  - intros H. unfold atanh. destruct (Qle_bool q (-1)) eqn:C; [reflexivity|]. destruct (Qle_bool 1 q) eqn:D; [reflexivity|]. destruct H as [H|H]; apply Qle_bool_iff in H; congruence.
  - intros [A B]. rewrite IN by lra. discriminate.
Qed.
Print Assumptions atanh_total_partial.

Definition pi24 := (6588397 # 2097152)%Q.
Definition log24 := Eval vm_compute in rnd 24 (693147180559945 # 1000000000000000).
Definition fuel24 := Eval vm_compute in Z.to_nat 2000.
(* The rest is false: a large negative number has no asinh, *)
Theorem asinh_negative_refuted : exists p log2 fuel q, 8 <= p <= 1000000 /\ (0 <= log2)%Q /\ p + 4 < Z.of_nat fuel /\ asinh (rnd p) p log2 fuel q = Real (Some Err) /\ exists z, real (asinh (rnd p) p log2 fuel (- q)) z.
Proof. exists 24, log24, fuel24, (-5000)%Q. split; [lia|]. split; [vm_compute; discriminate|]. split; [vm_compute; reflexivity|]. split; [vm_compute; reflexivity|]. eexists. vm_compute. reflexivity. Qed.
Print Assumptions asinh_negative_refuted.
(* asinh is not odd where it has a value, *)
Theorem asinh_odd_refuted : exists p log2 fuel q a b, 8 <= p <= 1000000 /\ (0 < log2)%Q /\ real (asinh (rnd p) p log2 fuel q) a /\ real (asinh (rnd p) p log2 fuel (- q)) b /\ (1 # 100 <= Qabs (a + b))%Q.
Proof. exists 24, log24, fuel24, 1000%Q. do 2 eexists. split; [lia|]. split; [vm_compute; reflexivity|]. split; [vm_compute; reflexivity|]. split; [vm_compute; reflexivity|]. vm_compute. discriminate. Qed.
Print Assumptions asinh_odd_refuted.
(* a small positive number can have asinh and atanh 0, *)
Theorem tiny_refuted : exists p log2 fuel q, 8 <= p <= 1000000 /\ (0 < log2)%Q /\ (0 < q)%Q /\ real (asinh (rnd p) p log2 fuel q) 0 /\ real (atanh (rnd p) p log2 fuel q) 0.
Proof. exists 24, log24, fuel24, (1 # 100000000)%Q. split; [lia|]. split; [vm_compute; reflexivity|]. split; [vm_compute; reflexivity|]. split; vm_compute; reflexivity. Qed.
Print Assumptions tiny_refuted.
(* and a number below 1 that rounds to 1 has no atanh: neither a real nor a complex one. *)
Theorem atanh_near_one_refuted : exists p log2 fuel q, 8 <= p <= 1000000 /\ (0 < log2)%Q /\ (0 < q)%Q /\ (q < 1)%Q /\ atanh (rnd p) p log2 fuel q = Real (Some Err).
Proof. exists 24, log24, fuel24, (99999999 # 100000000)%Q. split; [lia|]. split; [vm_compute; reflexivity|]. split; [vm_compute; reflexivity|]. split; [vm_compute; reflexivity|]. vm_compute. reflexivity. Qed.
Print Assumptions atanh_near_one_refuted.

Example arc_hyps : 8 <= 24 <= 1000000 /\ pi_like 24 pi24 /\ 24 + 4 < Z.of_nat fuel24 /\ (0 <= log24)%Q.
Proof. split; [lia|]. split; [split; [exists 6588397, (-21); split; [vm_compute; discriminate|vm_compute; reflexivity]|split; vm_compute; discriminate]|]. split; [vm_compute; reflexivity|vm_compute; discriminate]. Qed.
(* 24 bits: atan 1, atan of -1/3, asin 1/2, acos -1, acosh 2, asinh 1/2, atanh -1/2 *)
Example arc_values :
  real (atan (rnd 24) 24 pi24 4 fuel24 1) (13176795 # 16777216) /\
  (exists z, real (atan (rnd 24) 24 pi24 4 fuel24 (-1 # 3)) z /\ (z < 0)%Q) /\
  real (acos (rnd 24) 24 pi24 4 fuel24 (-1)) pi24 /\
  asin (rnd 24) 24 pi24 4 fuel24 (3 # 2) = Complex /\
  (exists z, real (asin (rnd 24) 24 pi24 4 fuel24 (1 # 2)) z /\ (5235 # 10000 < z)%Q /\ (z < 5237 # 10000)%Q) /\
  (exists z, real (acosh (rnd 24) 24 log24 fuel24 2) z /\ (13169 # 10000 < z)%Q /\ (z < 13170 # 10000)%Q) /\
  (exists z, real (asinh (rnd 24) 24 log24 fuel24 (1 # 2)) z /\ (4812 # 10000 < z)%Q /\ (z < 4813 # 10000)%Q) /\
  (exists z, real (atanh (rnd 24) 24 log24 fuel24 (-1 # 2)) z /\ (-5494 # 10000 < z)%Q /\ (z < -5493 # 10000)%Q).
Proof.
  repeat match goal with |- _ /\ _ => split | |- exists _, _ => eexists | |- real _ _ => vm_compute; reflexivity | |- _ = _ => vm_compute; reflexivity end; vm_compute; reflexivity.
Qed.

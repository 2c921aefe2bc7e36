(* C124: how accurate the logarithm of a float is. *)
From Coq Require Import List ZArith Lia QArith Qabs Qpower Lqa.
From Verif Require Import Value FloatModel FloatProofs FloatSqrt FloatMono FloatSign FloatReduce RandSpec MixProofs ArcModel ArcSpec ArcRound ArcProofs SqrtConv LogConv HypProofs PowProofs ExpProofs SeriesSpec SeriesAcc ExpAcc AltAcc AltInst LogSpec LogAcc.
Open Scope Z_scope.

(* z is, to within d, the sum of the series for log m plus e times the stored logarithm of 2, where v = m * 2**e and 1/2 <= m < 1:
   d is (520 p + 160 + 6 |e|) units of 2**-p *)
Definition log_near (p : Z) (log2 v z : Q) : Prop := exists m e, (v == m * pow2 e)%Q /\ (1 # 2 <= m)%Q /\ (m < 1)%Q /\
  exists n0, forall n, (n0 <= n)%nat -> (Qabs (z - (log_sum (1 - m) n + inject_Z e * log2)) <= inject_Z (520 * p + 160 + 6 * Z.abs e) * pow2 (- p))%Q.

(* the logarithm of a positive float below 1 *)
Theorem log_accurate_below : forall p fuel log2 x, 20 <= p <= 1000000 -> p < Z.of_nat fuel -> (0 <= log2)%Q -> (log2 <= 1)%Q -> (0 < x)%Q -> (x < 1)%Q -> representable p x ->
  exists z, float_log (rnd p) p fuel log2 x = Some (Ok z) /\ log_near p log2 x z.
Proof.
  intros p fuel log2 x Hp Hf L0 L1 X0 X1 R. destruct (log_total p fuel log2 x ltac:(lia) L0 Hf X0 R) as (z & E & _). exists z. split; [exact E|]. revert E. unfold float_log. assert (NP : Qnum x <=? 0 = false) by (destruct x as [a b]; unfold Qlt in X0; cbn in *; lia). rewrite NP.
  destruct (Qeq_bool x 1) eqn:E1; [apply Qeq_bool_eq in E1; lra|]. assert (Qle_bool x 1 = true) as -> by (apply Qle_bool_iff; lra). cbn [negb]. destruct (mant_exp x) as [m e] eqn:ME. cbn [neg_res].
  destruct (log_series _ _ _ _) as [[w| | |]|] eqn:W; intros E; try discriminate E. injection E as <-. destruct (log_core p Hp fuel log2 x m e w X0 X1 R L0 L1 ME W) as (A & B & C & D). exists m, e. repeat (split; [assumption|]). exact D.
Qed.
Print Assumptions log_accurate_below.

(* The logarithm of a float above 1 is minus the logarithm of its inverse, rounded. *)
Theorem log_accurate_above : forall p fuel log2 x, 20 <= p <= 1000000 -> p < Z.of_nat fuel -> (0 <= log2)%Q -> (log2 <= 1)%Q -> (1 < x)%Q -> representable p x ->
  exists z, float_log (rnd p) p fuel log2 x = Some (Ok z) /\ log_near p log2 (rnd p (1 / x)) (- z).
Proof.
  intros p fuel log2 x Hp Hf L0 L1 X1 R. assert (X0 : (0 < x)%Q) by lra. destruct (log_total p fuel log2 x ltac:(lia) L0 Hf X0 R) as (z & E & _). exists z. split; [exact E|]. revert E. unfold float_log. assert (NP : Qnum x <=? 0 = false) by (destruct x as [a b]; unfold Qlt in X0; cbn in *; lia). rewrite NP.
  destruct (Qeq_bool x 1) eqn:E1; [apply Qeq_bool_eq in E1; lra|]. assert (Qle_bool x 1 = false) as ->. { destruct (Qle_bool x 1) eqn:L; [apply Qle_bool_iff in L; lra|reflexivity]. } cbn [negb]. rewrite fquo_ok by lra. destruct (inverse_below p x ltac:(lia) X1 R) as [I0 I1].
  destruct (mant_exp (rnd p (fint (rnd p) 1 / x))) as [m e] eqn:ME. cbn [neg_res]. destruct (log_series _ _ _ _) as [[w| | |]|] eqn:W; intros E; try discriminate E. injection E as <-.
  destruct (log_core p Hp fuel log2 _ m e w I0 I1 ltac:(apply rep_rnd; lia) L0 L1 ME W) as (A & B & C & n0 & D). exists m, e. pose proof (fint1 p ltac:(lia)) as F.
  split; [rewrite <-A; apply rnd_compat; [lia|rewrite F; reflexivity]|]. split; [exact B|]. split; [exact C|]. exists n0. intros n Hn. specialize (D n Hn). unfold fadd.
  set (ex := fmul (rnd p) (fint (rnd p) e) log2) in *. rewrite (rnd_compat p (- w + - ex) (- (w + ex)) ltac:(lia) ltac:(ring)), FloatOdd.rnd_opp, Qopp_involutive. exact D.
Qed.
Print Assumptions log_accurate_above.

(* With 24 bits, the logarithms of 3/4 and of 10. *)
Definition fuel30 := Eval vm_compute in Z.to_nat 30.
Example log_values :
  (exists z, float_log (rnd 24) 24 fuel30 (11629080 # 16777216) (3 # 4) = Some (Ok z) /\ (- (28769 # 100000) < z)%Q /\ (z < - (28768 # 100000))%Q) /\
  (exists z, float_log (rnd 24) 24 fuel30 (11629080 # 16777216) 10 = Some (Ok z) /\ (230258 # 100000 < z)%Q /\ (z < 230259 # 100000)%Q).
Proof. split; (eexists; split; [vm_compute; reflexivity|split; vm_compute; reflexivity]). Qed.
Example log_meets : representable 24 (3 # 4) /\ representable 24 10 /\ (0 <= 11629080 # 16777216)%Q /\ (11629080 # 16777216 <= 1)%Q.
Proof. split; [exists 3, (-2)|split; [exists 5, 1|split; vm_compute; discriminate]]; (split; [vm_compute; discriminate|vm_compute; reflexivity]). Qed.
(* with 256 bits the series' share of the error is below 2**-238 *)
Example log_error_256 : (inject_Z (520 * 256 + 160 + 6 * 1000) * pow2 (-256) < pow2 (-238))%Q. Proof. vm_compute. reflexivity. Qed.

(* C59, C66-C69 and part of C12: the floating-point functions and the integer logarithm.

   rnd p q is q rounded to p bits.  exponential (rnd p) p fuel x and the like model ivy's
   functions at precision p (FloatModel.v): the result is None as long as the loop would
   still be running after fuel iterations, Some (Ok z) for a value and Some Err for an
   error report. *)
From Coq Require Import QArith Qabs Lqa.
From Verif Require Import Value FloatModel FloatProofs FloatSqrt FloatReduce FloatOdd LogModel LogProofs.
Open Scope Z_scope.

(* The rounding: the result has p bits, and is within half a unit of the last place. *)
Theorem rounding_representable : forall p q, 0 < p ->
  exists m e, Z.abs m <= 2 ^ p /\ (rnd p q == inject_Z m * pow2 e)%Q.
Proof.
  intros p q Hp. unfold rnd. destruct (Z.eqb_spec (Qnum q) 0) as [Z0|NZ].
  - exists 0, 0. split; [cbn; apply Z.pow_nonneg; lia|reflexivity].
  - assert (~ (q == 0)%Q) as N. { intros C. apply NZ. destruct q as [n d]. unfold Qeq in C. cbn in *. lia. }
    set (e := ilog2 q - p + 1). exists (rne (q * pow2 (- e))), e. split; [|apply dyadic_ok].
    destruct (ilog2_spec q N) as [_ I]. pose proof (rne_half (q * pow2 (- e))) as H. pose proof (pow2_pos (- e)) as Pe.
    assert (Qabs (q * pow2 (- e)) <= pow2 p)%Q as B.
    { rewrite Qabs_Qmult, (Qabs_pos (pow2 (- e))) by lra. replace p with ((ilog2 q + 1) + (- e)) by (unfold e; lia).
      rewrite pow2_add. apply Qmult_le_compat_r; lra. }
    rewrite (pow2_Z p) in B by lia. set (m := rne (q * pow2 (- e))) in *. set (y := (q * pow2 (- e))%Q) in *.
    pose proof (Qabs_triangle (inject_Z m - y) y) as T. assert (inject_Z m - y + y == inject_Z m)%Q as E by ring. rewrite E in T.
    assert (Qabs (inject_Z m) <= inject_Z (2 ^ p) + (1 # 2))%Q as F by lra. clear - F.
    change (Qabs (inject_Z m)) with (inject_Z (Z.abs m)) in F. unfold Qle, inject_Z, Qplus in F. cbn [Qnum Qden] in F. lia.
Qed.
Print Assumptions rounding_representable.
Theorem rounding_error : forall p q, (Qabs (rnd p q - q) <= Qabs q * pow2 (- p))%Q.
Proof. exact rnd_error. Qed.
Print Assumptions rounding_error.
Example rounding_example : rnd 4 (17 # 100) = (11 # 64)%Q /\ rnd 4 17 = 16%Q /\ rnd 4 19 = 20%Q.
Proof. vm_compute. auto. Qed.

(* C59: every series loop stops within 10 + k * p iterations, whatever it computes and
   however the arithmetic rounds: body and next are arbitrary. *)
Theorem series_loop_stops : forall R p k S zof (body : Z -> S -> res S) next s,
  0 <= k -> 0 <= p -> 10 + k * p < 2 ^ 64 ->
  forall fuel, 10 + k * p <= Z.of_nat fuel -> series R p S zof body next fuel (new_loop k p) s <> None.
Proof.
  intros R p k S zof body next s Hk Hp Hm fuel Hf. apply series_stops; rewrite new_loop_max by assumption; cbn [l_i new_loop]; nia.
Qed.
Print Assumptions series_loop_stops.
(* It yields a value only after four rounds at least, when the last one changed the sum by
   no more than one unit in its last place. *)
Theorem series_loop_value : forall R p k S zof (body : Z -> S -> res S) next s fuel s',
  0 <= k -> 0 <= p -> 10 + k * p < 2 ^ 64 ->
  series R p S zof body next fuel (new_loop k p) s = Some (Ok s') ->
  exists i prev b, 3 <= i < 10 + k * p /\ body i b = Ok s' /\ (Qabs (R (prev - zof s')) <= eps p (zof s'))%Q.
Proof.
  intros R p k S zof body next s fuel s' Hk Hp Hm H. apply series_value in H; rewrite ?new_loop_max by assumption; cbn [l_i new_loop]; try nia.
  destruct H as (i & prev & b & Hi & Hl & B & D). rewrite new_loop_max in Hl by assumption. exists i, prev, b. split; [lia|]. split; [exact B|].
  destruct D as [D|D]; [|exact D]. apply Qeq_bool_iff in D. rewrite D. apply Qlt_le_weak, pow2_pos.
Qed.
Print Assumptions series_loop_value.

(* The functions built on it, at every precision that )prec accepts. *)
Theorem functions_stop : forall R p, 1 <= p <= 1000000 -> forall fuel, 10 + 40 * p <= Z.of_nat fuel ->
  forall x, exponential R p fuel x <> None /\ float_sinh R p fuel x <> None /\ float_cosh R p fuel x <> None /\
  float_sqrt R p fuel x <> None /\ atan_small R p fuel x <> None /\
  (forall index z e f, sincos R p fuel index x z e f <> None) /\
  (forall pi, atan_large R p fuel pi x <> None) /\
  (forall log2, float_log R p fuel log2 x <> None).
Proof.
  intros R p Hp fuel Hf x.
  assert (forall k S zof (body : Z -> S -> res S) next s, 0 <= k <= 40 -> series R p S zof body next fuel (new_loop k p) s <> None) as G.
  { intros. apply series_loop_stops; nia. }
  repeat (match goal with |- _ /\ _ => split end); intros; unfold exponential, float_sinh, float_cosh, atan_small, sincos.
  - apply result_some, G. lia.
  - apply result_some, G. lia.
  - apply result_some, G. lia.
  - unfold float_sqrt. destruct (_ <? _); [discriminate|]. destruct (_ =? _); [discriminate|]. apply G. lia.
  - apply result_some, G. lia.
  - apply result_some, G. lia.
  - unfold atan_large. destruct (fquo R pi (fint R 2)); try discriminate. apply result_some, G. lia.
  - unfold float_log. destruct (_ <=? _); [discriminate|]. destruct (Qeq_bool _ _); [discriminate|].
    destruct (if negb (Qle_bool x 1) then _ else _) as [x'| | |]; try discriminate. destruct (mant_exp x') as [m e].
    pose proof (result_some fst _ (G 40 at_st fst (log_body R) (atan_next R (fsub R (fint R 1) m)) (0%Q, fsub R (fint R 1) m) ltac:(lia))) as N.
    unfold log_series. destruct (result fst _) as [[r| | |]|]; [| | | |congruence]; destruct (negb _); discriminate.
Qed.
Print Assumptions functions_stop.
Example functions_example :
  exponential (rnd 24) 24 970 (3 # 2) = Some (Ok (9398783 # 2097152)) /\           (* 4.4816890 *)
  float_log (rnd 24) 24 970 (11629080 # 16777216) 10 = Some (Ok (4828871 # 2097152)). (* 2.3025851 *)
Proof. vm_compute. auto. Qed.

(* Integer powers end as well: as many rounds as the exponent has bits. *)
Theorem integer_power_stops : forall R x e, e < 2 ^ 63 -> forall fuel, (63 <= fuel)%nat -> integer_power R fuel x e <> None.
Proof.
  intros R x e He fuel Hf. unfold integer_power.
  assert (forall fuel z y e, e < 2 ^ Z.of_nat fuel -> int_power R fuel z y e <> None) as G.
  { clear. induction fuel as [|f IH]; intros z y e H; cbn [int_power].
    - change (2 ^ Z.of_nat 0) with 1 in H. destruct (Z.leb_spec e 0); [discriminate|lia].
    - destruct (Z.leb_spec e 0); [discriminate|]. apply IH. rewrite Nat2Z.inj_succ, Z.pow_succ_r in H by lia.
      apply Z.div_lt_upper_bound; lia. }
  apply G. eapply Z.lt_le_trans; [exact He|]. apply Z.pow_le_mono_r; lia.
Qed.
Print Assumptions integer_power_stops.
Example integer_power_example : integer_power (rnd 24) 63 (3 # 2) 10 = Some (59049 # 1024)%Q.
Proof. vm_compute. reflexivity. Qed.

(* C66: the reduction of the argument modulo 2 pi ends, for every argument of every size,
   if there are at least 9 bits. *)
Theorem reduction_ends : forall p pi x, 9 <= p -> (3 <= pi)%Q -> (0 <= x)%Q ->
  exists x' n, (0 <= x' /\ x' < fmul (rnd p) (fint (rnd p) 2) pi)%Q /\
    forall fuel, (n <= fuel)%nat -> two_pi_reduce (rnd p) fuel pi x = Some x'.
Proof. exact two_pi_reduce_ends. Qed.
Print Assumptions reduction_ends.
Theorem sin_cos_end_partial : forall p pi x, 9 <= p <= 1000000 -> (3 <= pi)%Q ->
  exists n, forall fuel, (n <= fuel)%nat ->
    fst (float_sin (rnd p) p fuel pi x) <> None /\ fst (float_cos (rnd p) p fuel pi x) <> None.
Proof.
  intros p pi x Hp Hpi. 
  assert (forall y, exists y' n, forall fuel, (n <= fuel)%nat -> two_pi_reduce (rnd p) fuel pi y = Some y') as G.
  { intros y. destruct (Qlt_le_dec y 0) as [N|N].
    - exists y, 1%nat. intros [|f] Hf; [lia|]. unfold two_pi_reduce.
      assert (Qle_bool y (fint (rnd p) 1000) = true) as ->.
      { apply Qle_bool_iff. pose proof (fint_pos p 1000 ltac:(lia) ltac:(lia)). lra. }
      cbn [subtract]. destruct (Qle_bool (fmul (rnd p) (fint (rnd p) 2) pi) y) eqn:E; [|reflexivity]. exfalso.
      apply Qle_bool_iff in E. pose proof (fmul_pos p (fint (rnd p) 2) pi ltac:(lia) (fint_pos p 2 ltac:(lia) ltac:(lia)) ltac:(lra)). lra.
    - destruct (two_pi_reduce_ends p pi y ltac:(lia) Hpi N) as (y' & n & _ & F). eauto. }
  destruct (G x) as (x1 & n1 & F1). destruct (G (if Qnum x <? 0 then (- x)%Q else x)) as (x2 & n2 & F2).
  exists (n1 + n2 + Z.to_nat (10 + 40 * p))%nat. intros fuel Hf.
  assert (forall y index z e f, sincos (rnd p) p fuel index y z e f <> None) as NS.
  { intros y. apply (functions_stop (rnd p) p ltac:(lia) fuel ltac:(lia) y). }
  unfold float_sin, float_cos. rewrite F1, F2 by lia. cbn [fst]. split; [|apply NS].
  pose proof (NS x2 3%nat x2 3 (fint (rnd p) 6)) as N. unfold neg_res.
  destruct (_ <? _); [|exact N]. destruct (sincos _ _ _ _ _ _ _ _) as [[r| | |]|]; congruence.
Qed.
Print Assumptions sin_cos_end_partial.
Example reduction_example : two_pi_reduce (rnd 24) 400 (6588397 # 2097152) 100000 <> None /\
  fst (float_sin (rnd 24) 24 200 (6588397 # 2097152) (-20)) = Some (Ok (-15316685 # 16777216)).
Proof. vm_compute. split; [discriminate|reflexivity]. Qed.
(* With fewer bits it may never end: )prec 6, sin 992.  The subtraction of 2 pi leaves 992. *)
Theorem sin_never_returns_refuted : exists p pi x, 1 <= p /\ pi = rnd p (355 # 113) /\ x = rnd p x /\
  forall fuel, fst (float_sin (rnd p) p fuel pi x) = None /\ fst (float_cos (rnd p) p fuel pi x) = None.
Proof.
  exists 6, (25 # 8), 992%Q. split; [lia|]. split; [reflexivity|]. split; [reflexivity|]. intros fuel.
  assert (two_pi_reduce (rnd 6) fuel (25 # 8) 992 = None) as E.
  { unfold two_pi_reduce. change (Qle_bool 992 (fint (rnd 6) 1000)) with true. cbn match. apply subtract_stuck; reflexivity. }
  unfold float_sin, float_cos. change (Qnum 992 <? 0) with false. cbn match. rewrite E. auto.
Qed.
Print Assumptions sin_never_returns_refuted.

(* C67: square roots.  z * z is within 16 units of x in the last place. *)
Theorem sqrt_close : forall p x fuel z, 8 <= p -> (0 < x)%Q -> float_sqrt (rnd p) p fuel x = Some (Ok z) ->
  (0 < z)%Q /\ (Qabs (z * z - x) <= 16 * (x * pow2 (- p)))%Q.
Proof. intros p x fuel z. apply sqrt_accurate. Qed.
Print Assumptions sqrt_close.
Theorem sqrt_of_negative : forall R p fuel x, (x < 0)%Q -> float_sqrt R p fuel x = Some Err.
Proof.
  intros R p fuel x H. unfold float_sqrt. assert (Qnum x <? 0 = true) as ->; [|reflexivity].
  apply Z.ltb_lt. destruct x as [n d]. unfold Qlt in H. cbn in *. lia.
Qed.
Print Assumptions sqrt_of_negative.
Example sqrt_example : float_sqrt (rnd 24) 24 40 2 = Some (Ok (11863283 # 8388608)).
Proof. vm_compute. reflexivity. Qed.

(* C68: logarithms of integers to an integer base, for Ints (int = true, below 2**63) and
   for big integers.  A power of the base has its exponent as the logarithm, exactly. *)
Theorem log_of_power : forall int b n, 2 <= b -> 0 <= n -> (int = true -> b < 2 ^ 63 /\ b ^ n < 2 ^ 63) ->
  forall fuel, (if int then 6 else bit_len (b ^ n)) <= Z.of_nat fuel -> log_base_u fuel int b (b ^ n) = Some (Exact n).
Proof.
  intros int b n Hb Hn Hi fuel Hf. unfold log_base_u. destruct int.
  - destruct (Hi eq_refl) as [B1 B2]. assert (0 < b ^ n) by (apply Z.pow_pos_nonneg; lia).
    unfold int_log. destruct (Z.leb_spec b 1); [lia|]. destruct (Z.ltb_spec (b ^ n) 0); [lia|]. cbn [orb].
    pose proof (uint64_digit fuel b n 1 ltac:(lia) ltac:(lia) Hn ltac:(lia)) as D. rewrite Z.mul_1_l in D. rewrite D; [reflexivity|].
    apply uint64_ends; [lia|]. apply tower6; lia.
  - pose proof (big_digit fuel b n 1 Hb ltac:(lia) Hn) as D. rewrite Z.mul_1_l in D. rewrite D; [reflexivity|].
    apply big_ends; [lia|]. apply tower_big; assumption.
Qed.
Print Assumptions log_of_power.
Example log_of_power_example : log_base_u 6 true 10 (10 ^ 18) = Some (Exact 18) /\ log_base_u 700 false 5 (5 ^ 300) = Some (Exact 300).
Proof. vm_compute. auto. Qed.
(* A digit times a power of the base: the power is split off exactly. *)
Theorem log_of_digit_power : forall int b n d, 2 <= b -> 0 <= n -> 1 < d < b -> (int = true -> b < 2 ^ 63 /\ d * b ^ n < 2 ^ 63) ->
  forall fuel, (if int then 6 else bit_len (d * b ^ n)) <= Z.of_nat fuel -> log_base_u fuel int b (d * b ^ n) = Some (Approx n d).
Proof.
  intros int b n d Hb Hn Hd Hi fuel Hf. assert (d =? 1 = false) as E1 by (apply Z.eqb_neq; lia).
  unfold log_base_u. destruct int.
  - destruct (Hi eq_refl) as [B1 B2]. assert (0 < b ^ n) by (apply Z.pow_pos_nonneg; lia).
    unfold int_log. destruct (Z.leb_spec b 1); [lia|]. destruct (Z.ltb_spec (d * b ^ n) 0); [nia|]. cbn [orb].
    rewrite uint64_digit; try lia; [rewrite E1; reflexivity|]. apply uint64_ends; [lia|]. apply tower6; lia.
  - rewrite big_digit; try lia; [rewrite E1; reflexivity|]. apply big_ends; [lia|]. apply tower_big; assumption.
Qed.
Print Assumptions log_of_digit_power.
Example log_of_digit_power_example : log_base_u 6 true 10 (7 * 10 ^ 3) = Some (Approx 3 7).
Proof. vm_compute. reflexivity. Qed.
(* In general the integer that is split off is never too large: the base to that power is at
   most v, and what is left is the quotient. *)
Theorem log_part_bound_partial : forall int b v, 2 <= b -> 1 <= v -> (int = true -> b < 2 ^ 63 /\ v < 2 ^ 63) ->
  forall fuel, (if int then 6 else bit_len v) <= Z.of_nat fuel ->
  exists i r, log_base_u fuel int b v = Some (if r =? 1 then Exact i else Approx i r) /\
    0 <= i /\ b ^ i <= v /\ r = v / b ^ i.
Proof.
  intros int b v Hb Hv Hi fuel Hf. unfold log_base_u.
  assert (exists i r, (if int then int_log fuel b v else big_int_log fuel b v) = Some (i, r) /\ part b v i r) as (i & r & E & P).
  { destruct int.
    - destruct (Hi eq_refl) as [B1 B2]. unfold int_log. destruct (Z.leb_spec b 1); [lia|]. destruct (Z.ltb_spec v 0); [lia|]. cbn [orb].
      pose proof (uint64_ends fuel b v ltac:(lia) ltac:(apply tower6; lia)) as N.
      destruct (uint64_log fuel b v) as [[i r]|] eqn:E; [|congruence]. exists i, r. split; [reflexivity|]. apply uint64_part in E; [exact E|lia|lia].
    - pose proof (big_ends fuel b v ltac:(lia) ltac:(apply tower_big; assumption)) as N.
      destruct (big_int_log fuel b v) as [[i r]|] eqn:E; [|congruence]. exists i, r. split; [reflexivity|]. apply big_part in E; [exact E|lia|lia]. }
  exists i, r. rewrite E. split; [reflexivity|]. destruct P as (P1 & P2 & P3). split; [exact P1|]. split; [|exact P2].
  specialize (P3 Hv). assert (0 < b ^ i) by (apply Z.pow_pos_nonneg; lia).
  destruct (Z.le_gt_cases (b ^ i) v); [assumption|]. rewrite Z.div_small in P2 by lia. lia.
Qed.
Print Assumptions log_part_bound_partial.
(* But the logarithm can be an integer when it should not: 2 log 12 is 3, 10 log 1200 is 3,
   for Ints and for big integers alike. *)
Theorem log_exact_refuted : forall int, exists b v i, 2 <= b /\ b ^ i <> v /\
  forall fuel, (6 <= fuel)%nat -> log_base_u fuel int b v = Some (Exact i).
Proof.
  intros int. exists 2, 12, 3. split; [lia|]. split; [discriminate|]. intros fuel Hf.
  do 6 (destruct fuel as [|fuel]; [lia|]). destruct int; reflexivity.
Qed.
Print Assumptions log_exact_refuted.
Example log_1200 : log_base_u 6 true 10 1200 = Some (Exact 3) /\ log_base_u 12 false 10 1200 = Some (Exact 3).
Proof. vm_compute. auto. Qed.

(* C69: signs and ranges.  e**x is positive for x >= 0, cosh x for all x ... *)
Theorem exp_positive_partial : forall p fuel x z, 8 <= p -> (0 <= x)%Q -> exponential (rnd p) p fuel x = Some (Ok z) -> (0 < z)%Q.
Proof. exact exp_positive. Qed.
Print Assumptions exp_positive_partial.
Theorem cosh_is_positive : forall p fuel x z, 8 <= p -> float_cosh (rnd p) p fuel x = Some (Ok z) -> (0 < z)%Q.
Proof. exact cosh_positive. Qed.
Print Assumptions cosh_is_positive.
(* ... but not for negative x, and the cosine of a negative number, which is not reduced
   modulo 2 pi, can be far outside of -1 .. 1. *)
Theorem exp_positive_refuted : exists p fuel x z, 8 <= p /\ exponential (rnd p) p fuel x = Some (Ok z) /\ (z < 0)%Q.
Proof. exists 10, 200%nat, (-9)%Q, (-445 # 1024)%Q. split; [lia|]. split; [vm_compute; reflexivity|reflexivity]. Qed.
Print Assumptions exp_positive_refuted.
Theorem cos_range_refuted : exists p fuel pi x z, 8 <= p /\ pi = rnd p (355 # 113) /\
  fst (float_cos (rnd p) p fuel pi x) = Some (Ok z) /\ (z < -1000)%Q.
Proof. exists 10, 200%nat, (201 # 64)%Q, (-20)%Q, (-16832)%Q. split; [lia|]. split; [vm_compute; reflexivity|]. split; [vm_compute; reflexivity|reflexivity]. Qed.
Print Assumptions cos_range_refuted.
Theorem cos_negative_not_reduced : forall p pi x, 9 <= p -> (3 <= pi)%Q -> (x < 0)%Q ->
  forall fuel, (0 < fuel)%nat -> two_pi_reduce (rnd p) fuel pi x = Some x.
Proof.
  intros p pi x Hp Hpi N [|f] Hf; [lia|]. unfold two_pi_reduce.
  assert (Qle_bool x (fint (rnd p) 1000) = true) as ->.
  { apply Qle_bool_iff. pose proof (fint_pos p 1000 ltac:(lia) ltac:(lia)). lra. }
  cbn [subtract]. destruct (Qle_bool (fmul (rnd p) (fint (rnd p) 2) pi) x) eqn:E; [|reflexivity]. exfalso.
  apply Qle_bool_iff in E. pose proof (fmul_pos p (fint (rnd p) 2) pi ltac:(lia) (fint_pos p 2 ltac:(lia) ltac:(lia)) ltac:(lra)). lra.
Qed.
Print Assumptions cos_negative_not_reduced.

(* C12: sin (and tan) change the floating-point number they are given: the second component
   of float_sin is what the operand holds afterwards. *)
Theorem sin_keeps_operand_refuted : exists p fuel pi x z, 8 <= p /\
  fst (float_sin (rnd p) p fuel pi x) = Some (Ok z) /\ ~ (snd (float_sin (rnd p) p fuel pi x) == x)%Q.
Proof.
  exists 24, 200%nat, (6588397 # 2097152)%Q, (-20)%Q, (-15316685 # 16777216)%Q. split; [lia|]. split; [vm_compute; reflexivity|]. vm_compute. discriminate.
Qed.
Print Assumptions sin_keeps_operand_refuted.

(* C70: odd functions are odd, to the last bit.  neg_res true negates a value and leaves an
   error alone; atan_small is the series for small arguments. *)
Theorem rounding_symmetric : forall p q, rnd p (- q) = (- rnd p q)%Q.
Proof. exact rnd_opp. Qed.
Print Assumptions rounding_symmetric.
Theorem odd_functions : forall p fuel x,
  float_sinh (rnd p) p fuel (- x) = neg_res true (float_sinh (rnd p) p fuel x) /\
  atan_small (rnd p) p fuel (- x) = neg_res true (atan_small (rnd p) p fuel x) /\
  (forall pi, (0 < x)%Q -> fst (float_sin (rnd p) p fuel pi (- x)) = neg_res true (fst (float_sin (rnd p) p fuel pi x))).
Proof. intros p fuel x. split; [apply sinh_odd|]. split; [apply atan_odd|]. intros pi H. apply sin_odd, H. Qed.
Print Assumptions odd_functions.
Example odd_example : exists z, float_sinh (rnd 24) 24 300 (-3 # 2) = Some (Ok z) /\ (z < -2)%Q /\ atan_small (rnd 24) 24 300 (1 # 3) <> None.
Proof. eexists. split; [vm_compute; reflexivity|]. split; [reflexivity|vm_compute; discriminate]. Qed.

(* Loops that add rounded terms of either sign. *)
From Coq Require Import List ZArith Lia QArith Qabs Qpower Lqa.
From Verif Require Import Value FloatModel FloatProofs FloatSqrt FloatMono FloatSign FloatReduce RandSpec MixProofs ArcModel ArcSpec ArcRound ArcProofs SqrtConv LogConv HypProofs PowProofs ExpProofs SeriesSpec SeriesAcc ExpAcc.
Open Scope Z_scope.

(* a is b times a factor between r ^ k and r ^ -k *)
Definition fk (r : Q) (k : Z) (a b : Q) : Prop := exists g, (a == b * g)%Q /\ (r ^ k <= g)%Q /\ (g * r ^ k <= 1)%Q.
Section Fk.
Variable r : Q.
Hypotheses (r0 : (0 < r)%Q) (r1 : (r <= 1)%Q).
Lemma fk_refl a b : (a == b)%Q -> fk r 0 a b.
Proof. intros E. exists 1%Q. change (r ^ 0)%Q with 1%Q. split; [rewrite E; ring|]. split; lra. Qed.
Lemma fk_mono k l a b : k <= l -> fk r k a b -> fk r l a b.
Proof. intros K (g & E & A & B). exists g. pose proof (qp_down r k l r0 r1 K) as M. pose proof (qp_pos r k r0). split; [exact E|]. split; [lra|nra]. Qed.
Lemma fk_mul k l a b c d : fk r k a b -> fk r l c d -> fk r (k + l) (a * c) (b * d).
Proof.
  intros (g & E & A & B) (h & F & C & D). exists (g * h)%Q. pose proof (qp_pos r k r0). pose proof (qp_pos r l r0). rewrite Qpower_plus by lra. split; [rewrite E, F; ring|]. split; [apply prod_le; lra|].
  assert (g * r ^ k * (h * r ^ l) <= 1 * 1)%Q by (apply prod_le; try assumption; apply Qmult_le_0_compat; lra). lra.
Qed.
Lemma fk_trans k l a b c : fk r k a b -> fk r l b c -> fk r (k + l) a c.
Proof.
  intros (g & E & A & B) (h & F & C & D). exists (g * h)%Q. pose proof (qp_pos r k r0). pose proof (qp_pos r l r0). rewrite Qpower_plus by lra. split; [rewrite E, F; ring|]. split; [apply prod_le; lra|].
  assert (g * r ^ k * (h * r ^ l) <= 1 * 1)%Q by (apply prod_le; try assumption; apply Qmult_le_0_compat; lra). lra.
Qed.
Lemma fk_inv l c d : ~ (d == 0)%Q -> fk r l c d -> ~ (c == 0)%Q /\ fk r l (1 / c) (1 / d).
Proof.
  intros N (h & F & C & D). pose proof (qp_pos r l r0) as P. assert (H : (0 < h)%Q) by lra. assert (M : ~ (c == 0)%Q). { intros Z. rewrite Z in F. symmetry in F. apply Qmult_integral in F. destruct F; [contradiction|lra]. } split; [exact M|].
  exists (1 / h)%Q. split; [rewrite F; field; split; [lra|exact N]|]. split; [apply Qle_shift_div_l; lra|]. setoid_replace (1 / h * r ^ l)%Q with (r ^ l / h)%Q by (field; lra). apply Qle_shift_div_r; lra.
Qed.
Lemma fk_eq k a b a' b' : (a == a')%Q -> (b == b')%Q -> fk r k a b -> fk r k a' b'.
Proof. intros A B (g & E & F). exists g. rewrite <-A, <-B. auto. Qed.
Lemma fk_div k l a b c d : ~ (d == 0)%Q -> fk r k a b -> fk r l c d -> fk r (k + l) (a / c) (b / d).
Proof. intros N A B. destruct (fk_inv l c d N B) as [M C]. apply (fk_eq _ (a * (1 / c)) (b * (1 / d))); [field; exact M|field; exact N|]. apply fk_mul; assumption. Qed.
Lemma fk_opp k a b : fk r k a b -> fk r k (- a) (- b).
Proof. intros (g & E & F). exists g. split; [rewrite E; ring|exact F]. Qed.
End Fk.
Lemma abs_mul_le x a b : (Qabs a <= b)%Q -> (Qabs (x * a) <= Qabs x * b)%Q.
Proof. intros H. rewrite Qabs_Qmult. apply mul_r_le; [apply Qabs_nonneg|exact H]. Qed.

Section Rnd.
Variable p : Z. Hypothesis Hp : 16 <= p <= 1000000.
Notation u := (pow2 (- p)).
Notation r := (1 - pow2 (- p))%Q.
Lemma fk_rnd q : fk r 1 (rnd p q) q.
Proof.
  destruct (pow2_small p ltac:(lia)) as [U0 U1]. destruct (rel p q) as (d & E & A & B). exists (1 + d)%Q. change (r ^ 1)%Q with r. split; [exact E|]. split; [lra|nra].
Qed.
(* the error that k roundings make *)
Lemma fk_err k a b : 0 <= k -> (inject_Z k * u <= 1 # 5)%Q -> fk r k a b -> (Qabs (a - b) <= Qabs b * ((5 # 4) * (inject_Z k * u)))%Q.
Proof.
  intros K KU (g & E & A & B). pose proof (bernoulli p ltac:(lia) k K) as BE. destruct (rr p ltac:(lia)) as [R0 R1]. pose proof (qp_pos r k R0) as P. assert (KN : (0 <= inject_Z k)%Q) by (apply (le_inject 0); exact K). destruct (pow2_small p ltac:(lia)) as [U0 U1]. assert (KP : (0 <= inject_Z k * u)%Q) by (apply Qmult_le_0_compat; lra). set (e := (inject_Z k * u)%Q) in *.
  setoid_replace (a - b)%Q with (b * (g - 1))%Q by (rewrite E; ring). apply abs_mul_le. apply Qabs_Qle_condition. assert (g * (1 - e) <= 1)%Q by nra. split; [lra|nra].
Qed.

Section Loop.
Variables (S : Type) (zof : S -> Q) (body : Z -> S -> res S) (next : Z -> S -> S) (K c k0 : Z) (T Sm : nat -> Q) (P : nat -> S -> Prop).
Hypotheses (K1 : 4 <= K <= 40) (c1 : 0 <= c) (k00 : 0 <= k0).
Hypothesis sm : forall i, (Sm (Datatypes.S i) == Sm i + T i)%Q.
Hypothesis half : forall i, (Qabs (T (Datatypes.S i)) <= (1 # 2) * Qabs (T i))%Q.
Hypotheses (t0 : (Qabs (T O) <= 1)%Q) (s0 : (Qabs (Sm O) <= 1)%Q).
Hypothesis step : forall i s, P i s -> exists q s', body (Z.of_nat i) s = Ok s' /\ zof s' = rnd p (zof s + rnd p q) /\ fk r (c * Z.of_nat i + k0) q (T i) /\
  P (Datatypes.S i) (next (Z.of_nat i + 1) s') /\ zof (next (Z.of_nat i + 1) s') = zof s'.
Definition E := 2 * (c + k0) + 9.
Definition M := K * p + 10.
Hypothesis big : 12 * (E * M) <= 2 ^ p.

Lemma t_pow i : (Qabs (T i) <= pow2 (- Z.of_nat i))%Q.
Proof. induction i as [|i IH]; [change (pow2 (- Z.of_nat 0)) with 1%Q; exact t0|]. specialize (half i). replace (- Z.of_nat i) with (- Z.of_nat (Datatypes.S i) + 1) in IH by lia. rewrite pow2_S in IH. lra. Qed.
Lemma s_bound i : (Qabs (Sm i) + 2 * pow2 (- Z.of_nat i) <= 3)%Q.
Proof.
  induction i as [|i IH]; [change (pow2 (- Z.of_nat 0)) with 1%Q; lra|]. rewrite sm. pose proof (Qabs_triangle (Sm i) (T i)). pose proof (t_pow i) as L. replace (- Z.of_nat i) with (- Z.of_nat (Datatypes.S i) + 1) in * by lia. rewrite pow2_S in *. lra.
Qed.
Lemma s3 i : (Qabs (Sm i) <= 3)%Q. Proof. pose proof (s_bound i). pose proof (pow2_pos (- Z.of_nat i)). lra. Qed.
Lemma far i m : (Qabs (Sm (Datatypes.S (i + m)) - Sm (Datatypes.S i)) + Qabs (T (i + m)%nat) <= Qabs (T i))%Q.
Proof.
  induction m as [|m IH].
  - rewrite Nat.add_0_r. setoid_replace (Sm (Datatypes.S i) - Sm (Datatypes.S i))%Q with 0%Q by ring. change (Qabs 0) with 0%Q. lra.
  - rewrite Nat.add_succ_r. rewrite (sm (Datatypes.S (i + m))). pose proof (half (i + m)). setoid_replace (Sm (Datatypes.S (i + m)) + T (Datatypes.S (i + m)) - Sm (Datatypes.S i))%Q with (Sm (Datatypes.S (i + m)) - Sm (Datatypes.S i) + T (Datatypes.S (i + m)))%Q by ring. pose proof (Qabs_triangle (Sm (Datatypes.S (i + m)) - Sm (Datatypes.S i)) (T (Datatypes.S (i + m)))). lra.
Qed.
Lemma unit_2p : (inject_Z (2 ^ p) * u == 1)%Q. Proof. rewrite <-pow2_Z by lia. rewrite <-pow2_add. replace (p + - p) with 0 by lia. reflexivity. Qed.
Lemma small_u k n : 0 < n -> n * k <= 2 ^ p -> (inject_Z n * (inject_Z k * u) <= 1)%Q.
Proof. intros N V. rewrite Zle_Qle, inject_Z_mult in V. pose proof unit_2p. pose proof (mul_l_le _ _ _ (pow2_pos (- p)) V). lra. Qed.
Lemma nonneg k : 0 <= k -> (0 <= inject_Z k * u)%Q.
Proof. intros H. apply Qmult_le_0_compat; [apply (le_inject 0); exact H|pose proof (pow2_pos (- p)); lra]. Qed.
Lemma pow_ge i : (inject_Z (Z.of_nat i) * pow2 (- Z.of_nat i) <= 1)%Q.
Proof.
  assert (Z.of_nat i <= 2 ^ Z.of_nat i) as L. { induction i as [|i IH]; [vm_compute; discriminate|]. rewrite Nat2Z.inj_succ, Z.pow_succ_r by lia. lia. }
  rewrite Zle_Qle in L. pose proof (mul_l_le _ _ _ (pow2_pos (- Z.of_nat i)) L) as X. rewrite <-pow2_Z in X by lia. rewrite <-pow2_add in X. replace (Z.of_nat i + - Z.of_nat i) with 0 in X by lia. change (pow2 0) with 1%Q in X. exact X.
Qed.

Definition inv2 (i : nat) (prev : Q) (s : S) : Prop := P i s /\ representable p (zof s) /\ (Qabs (zof s - Sm i) <= inject_Z (E * Z.of_nat i) * u)%Q /\ ((0 < i)%nat -> prev = zof s).
(* one step *)
Lemma one i prev s : inv2 i prev s -> Z.of_nat i < M -> exists t s', body (Z.of_nat i) s = Ok s' /\ zof s' = rnd p (zof s + t) /\ representable p t /\
  (Qabs t <= (5 # 4) * Qabs (T i))%Q /\ (Qabs (T i) <= (4 # 3) * Qabs t)%Q /\ (Qabs (zof s') <= 4)%Q /\
  (Qabs (zof s' - Sm (Datatypes.S i)) <= inject_Z (E * Z.of_nat (Datatypes.S i)) * u)%Q /\ inv2 (Datatypes.S i) (zof s') (next (Z.of_nat i + 1) s').
Proof.
  intros (HP & HR & HE & _) Hi. destruct (step i s HP) as (q & s' & B & Z & F & P' & Z'). destruct (pow2_small p ltac:(lia)) as [U0 U1]. destruct (rr p ltac:(lia)) as [R0 R1].
  exists (rnd p q), s'. split; [exact B|]. split; [exact Z|]. split; [apply rep_rnd; lia|]. set (t := rnd p q) in *. set (z := zof s) in *.
  assert (EM : 0 <= E * Z.of_nat i <= E * M) by (unfold E, M in *; nia). assert (EM' : 0 <= E * Z.of_nat (Datatypes.S i) <= E * M) by (unfold E, M in *; nia).
  set (k := 1 + (c * Z.of_nat i + k0)). assert (Kb : 0 <= k /\ 5 * k <= 2 ^ p) by (unfold k, E, M in *; nia).
  pose proof (small_u k 5 ltac:(lia) ltac:(lia)) as KU. change (inject_Z 5) with 5%Q in KU. pose proof (nonneg k ltac:(lia)) as KN.
  pose proof (fk_err k t (T i) ltac:(lia) ltac:(lra) (fk_trans r R0 1 _ _ _ _ (fk_rnd q) F)) as TE. pose proof (Qabs_nonneg (T i)) as TN. pose proof (t_pow i) as TP.
  assert (T1 : (Qabs t <= (5 # 4) * Qabs (T i))%Q). { pose proof (Qabs_triangle (T i) (t - T i)) as Q. setoid_replace (T i + (t - T i))%Q with t in Q by ring. nra. }
  assert (T2 : (Qabs (T i) <= (4 # 3) * Qabs t)%Q). { pose proof (Qabs_triangle t (T i - t)) as Q. setoid_replace (t + (T i - t))%Q with (T i) in Q by ring. rewrite Qabs_Qminus in TE. nra. }
  assert (TL : (Qabs (T i) <= 1)%Q). { pose proof (pow2_le (- Z.of_nat i) 0 ltac:(lia)) as Q. change (pow2 0) with 1%Q in Q. lra. }
  pose proof (small_u (E * M) 12 ltac:(lia) ltac:(lia)) as EU. change (inject_Z 12) with 12%Q in EU.
  assert (EI : (inject_Z (E * Z.of_nat i) * u <= 1 # 12)%Q). { assert (inject_Z (E * Z.of_nat i) <= inject_Z (E * M))%Q as L by (rewrite <-Zle_Qle; lia). pose proof (mul_l_le _ _ _ U0 L). lra. }
  assert (EI' : (inject_Z (E * Z.of_nat (Datatypes.S i)) * u <= 1 # 12)%Q). { assert (inject_Z (E * Z.of_nat (Datatypes.S i)) <= inject_Z (E * M))%Q as L by (rewrite <-Zle_Qle; lia). pose proof (mul_l_le _ _ _ U0 L). lra. }
  assert (ZB : (Qabs z <= 4)%Q). { pose proof (Qabs_triangle (Sm i) (z - Sm i)) as Q. setoid_replace (Sm i + (z - Sm i))%Q with z in Q by ring. pose proof (s3 i). lra. }
  (* the error of the term *)
  assert (TT : (Qabs (t - T i) <= (5 # 4) * (inject_Z (c + k0 + 1) * u))%Q).
  { eapply Qle_trans; [exact TE|]. assert (inject_Z k * Qabs (T i) <= inject_Z (c + k0 + 1))%Q as L.
    { unfold k. replace (1 + (c * Z.of_nat i + k0)) with (c * Z.of_nat i + (k0 + 1)) by lia. replace (c + k0 + 1) with (c + (k0 + 1)) by lia. rewrite !(inject_Z_plus _ (k0 + 1)), inject_Z_mult. pose proof (pow_ge i) as G. assert (N1 : (0 <= inject_Z (Z.of_nat i))%Q) by (apply (le_inject 0); lia). assert (N2 : (0 <= inject_Z c)%Q) by (apply (le_inject 0); lia). assert (N3 : (0 <= inject_Z (k0 + 1))%Q) by (apply (le_inject 0); lia).
      assert (inject_Z (Z.of_nat i) * Qabs (T i) <= inject_Z (Z.of_nat i) * pow2 (- Z.of_nat i))%Q by (apply mul_r_le; assumption). assert (inject_Z c * (inject_Z (Z.of_nat i) * Qabs (T i)) <= inject_Z c * 1)%Q by (apply mul_r_le; [assumption|lra]). assert (inject_Z (k0 + 1) * Qabs (T i) <= inject_Z (k0 + 1) * 1)%Q by (apply mul_r_le; assumption). lra. }
    pose proof (mul_l_le _ _ _ U0 L). lra. }
  assert (ZT : (Qabs (z + t) <= 6)%Q) by (pose proof (Qabs_triangle z t); lra).
  assert (ZR : (Qabs (zof s' - (z + t)) <= 6 * u)%Q). { rewrite Z. pose proof (rnd_error p (z + t)) as Q. pose proof (mul_l_le _ _ _ U0 ZT). lra. }
  assert (ER : (Qabs (zof s' - Sm (Datatypes.S i)) <= inject_Z (E * Z.of_nat (Datatypes.S i)) * u)%Q).
  { rewrite sm. setoid_replace (zof s' - (Sm i + T i))%Q with (zof s' - (z + t) + ((z - Sm i) + (t - T i)))%Q by ring. pose proof (Qabs_triangle (zof s' - (z + t)) ((z - Sm i) + (t - T i))). pose proof (Qabs_triangle (z - Sm i) (t - T i)).
    assert ((5 # 4) * inject_Z (c + k0 + 1) + 6 + inject_Z (E * Z.of_nat i) <= inject_Z (E * Z.of_nat (Datatypes.S i)))%Q as L. { rewrite Nat2Z.inj_succ. replace (E * Z.succ (Z.of_nat i)) with (E + E * Z.of_nat i) by lia. rewrite (inject_Z_plus E). assert (5 * (c + k0 + 1) + 24 <= 4 * E) as V by (unfold E; lia). rewrite Zle_Qle, (inject_Z_plus _ 24), !inject_Z_mult in V. change (inject_Z 5) with 5%Q in V. change (inject_Z 24) with 24%Q in V. change (inject_Z 4) with 4%Q in V. lra. }
    pose proof (mul_l_le _ _ _ U0 L). lra. }
  assert (ZB' : (Qabs (zof s') <= 4)%Q). { pose proof (Qabs_triangle (Sm (Datatypes.S i)) (zof s' - Sm (Datatypes.S i))) as Q. setoid_replace (Sm (Datatypes.S i) + (zof s' - Sm (Datatypes.S i)))%Q with (zof s') in Q by ring. pose proof (s3 (Datatypes.S i)). lra. }
  do 4 (split; [assumption|]). split; [exact P'|]. rewrite Z'. split; [rewrite Z; apply rep_rnd; lia|]. split; [exact ER|reflexivity].
Qed.

Variable st : S.
Hypotheses (st0 : P O st) (str : representable p (zof st)) (ste : (zof st == Sm O)%Q).
Lemma inv2_start prev : inv2 O prev st.
Proof. split; [exact st0|]. split; [exact str|]. split; [|lia]. setoid_replace (zof st - Sm O)%Q with 0%Q by (rewrite ste; ring). change (Qabs 0) with 0%Q. apply nonneg. lia. Qed.
Lemma max_is : l_max (new_loop K p) = M.
Proof. unfold new_loop, M. cbn [l_max]. rewrite (Z.mod_small (K * p)) by nia. rewrite Z.mod_small by nia. lia. Qed.
Definition linv (l : looper) (s : S) : Prop := exists i, l_i l = Z.of_nat i /\ l_max l = M /\ l_i l < M /\ inv2 i (l_prev l) s.

Theorem loop_near fuel z : result zof (series (rnd p) p S zof body next fuel (new_loop K p) st) = Some (Ok z) ->
  exists n0, forall n, (n0 <= n)%nat -> (Qabs (z - Sm n) <= inject_Z (E * M + 24) * u)%Q.
Proof.
  destruct (pow2_small p ltac:(lia)) as [U0 U1]. intros H. destruct (series (rnd p) p S zof body next fuel (new_loop K p) st) as [[s| | |]|] eqn:EQ; try discriminate. injection H as <-.
  apply (series_inv (rnd p) p S zof body next linv) in EQ.
  - destruct EQ as (l & sl & (i & L1 & L2 & L3 & V) & Bd & St). destruct (one i _ _ V ltac:(lia)) as (t & s' & B & Z & RT & T1 & T2 & Z4 & ER & _). rewrite L1, B in Bd. injection Bd as ->. destruct V as (_ & VR & _ & VP).
    exists (Datatypes.S i). intros n Hn. pose proof (far i (n - Datatypes.S i)) as F. replace (Datatypes.S (i + (n - Datatypes.S i))) with n in F by lia. pose proof (Qabs_nonneg (T (i + (n - Datatypes.S i)))).
    assert (T3 : 3 <= l_i l /\ (Qabs (rnd p (l_prev l - zof s)) <= 2 * (Qabs (zof s) * u) \/ (zof s == 0)%Q /\ Qabs (rnd p (l_prev l - zof s)) <= u)%Q).
    { unfold done in St. destruct (Qeq_bool _ 0 && _) eqn:E1.
      - apply andb_prop in E1. destruct E1 as [E1 E2]. apply Qeq_bool_eq in E1. split; [lia|]. left. rewrite E1. change (Qabs 0) with 0%Q. pose proof (Qabs_nonneg (zof s)). assert (0 <= Qabs (zof s) * u)%Q by (apply Qmult_le_0_compat; lra). lra.
      - destruct (Qle_bool _ _ && _) eqn:E2; [|destruct (_ =? _); discriminate]. apply andb_prop in E2. destruct E2 as [E2 E3]. apply Qle_bool_iff in E2. split; [lia|].
        destruct (Qeq_dec (zof s) 0) as [C|C]; [right; split; [exact C|]|left; pose proof (eps_le p (zof s) C); lra]. unfold eps, mant_exp in E2. assert (Qnum (zof s) =? 0 = true) as N by (destruct (zof s); unfold Qeq in C; cbn in *; lia). rewrite N in E2. cbn [snd] in E2. replace (0 - p) with (- p) in E2 by lia. exact E2. }
    destruct T3 as [I3 De]. rewrite VP in De by lia. set (z := zof sl) in *. assert (De' : (Qabs (rnd p (z - zof s)) <= 8 * u)%Q). { destruct De as [De|[_ De]]; [|lra]. pose proof (mul_l_le _ _ _ U0 Z4). lra. }
    destruct (rel p (z - zof s)) as (d & Ed & Da & Db). rewrite Ed, Qabs_Qmult in De'. rewrite (Qabs_pos (1 + d)) in De' by lra. pose proof (Qabs_nonneg (z - zof s)) as N0. assert (D9 : (Qabs (z - zof s) <= (81 # 10) * u)%Q) by nra.
    assert (ZT : (Qabs (z + t) <= (5 # 1))%Q).
    { destruct (rel p (z + t)) as (e & Ee & Ea & Eb). rewrite <-Z in Ee. rewrite Ee, Qabs_Qmult, (Qabs_pos (1 + e)) in Z4 by lra. pose proof (Qabs_nonneg (z + t)). nra. }
    assert (ZR : (Qabs (zof s - (z + t)) <= 5 * u)%Q). { rewrite Z. pose proof (rnd_error p (z + t)) as Q. pose proof (mul_l_le _ _ _ U0 ZT). lra. }
    assert (TB : (Qabs t <= 14 * u)%Q). { setoid_replace t with (- (zof s - (z + t)) + (- (z - zof s)))%Q by ring. pose proof (Qabs_triangle (- (zof s - (z + t))) (- (z - zof s))) as Q. rewrite !Qabs_opp in Q. lra. }
    setoid_replace (zof s - Sm n)%Q with (zof s - Sm (Datatypes.S i) + - (Sm n - Sm (Datatypes.S i)))%Q by ring. pose proof (Qabs_triangle (zof s - Sm (Datatypes.S i)) (- (Sm n - Sm (Datatypes.S i)))) as Q. rewrite Qabs_opp in Q.
    rewrite inject_Z_plus. change (inject_Z 24) with 24%Q. assert (inject_Z (E * Z.of_nat (Datatypes.S i)) <= inject_Z (E * M))%Q as L by (rewrite <-Zle_Qle; unfold E in *; nia). pose proof (mul_l_le _ _ _ U0 L). lra.
  - clear EQ s. intros l s s1 l' (i & L1 & L2 & L3 & V) Bd Mo. destruct (one i _ _ V ltac:(lia)) as (t & s' & B & Z & RT & T1 & T2 & Z4 & ER & V'). rewrite L1, B in Bd. injection Bd as ->. assert (M < 2 ^ 64) by (unfold M; nia).
    unfold done in Mo. destruct (_ && _); [discriminate|]. destruct (_ && _); [discriminate|]. rewrite Z.mod_small in Mo by lia. destruct (Z.eqb_spec (l_i l + 1) (l_max l)) as [|NE]; [discriminate|]. injection Mo as <-. cbn [l_i]. exists (Datatypes.S i). cbn [l_i l_max l_prev]. rewrite L1. split; [lia|]. split; [exact L2|]. split; [lia|exact V'].
  - exists O. split; [reflexivity|]. split; [apply max_is|]. split; [cbn; unfold M; nia|apply inv2_start].
Qed.

(* the loop ends when the sums stay away from 0 *)
Hypothesis low : forall i, (3 <= i)%nat -> (1 # 3 <= Qabs (Sm (Datatypes.S i)))%Q.
Theorem loop_total fuel : p + 6 < Z.of_nat fuel -> exists z, result zof (series (rnd p) p S zof body next fuel (new_loop K p) st) = Some (Ok z).
Proof.
  intros Hf. destruct (pow2_small p ltac:(lia)) as [U0 U1]. assert (M < 2 ^ 64) by (unfold M; nia).
  destruct (series_total2 (rnd p) p S zof body next (fun i prev s => exists n, i = Z.of_nat n /\ inv2 n prev s) (p + 5)) with (fuel := fuel) (l := new_loop K p) (s := st) as (s' & Es).
  - intros i prev s Hi (n & -> & V). assert (Z.of_nat n < M) by (unfold M; nia). destruct (one n _ _ V ltac:(lia)) as (t & s' & B & Z & RT & T1 & T2 & Z4 & ER & V'). exists s'. split; [exact B|].
    destruct (Z.eq_dec (Z.of_nat n) (p + 5)) as [EN|EN]; [left|right; split; [lia|]; exists (Datatypes.S n); split; [lia|exact V']]. split; [lia|]. destruct V as (_ & VR & _ & VP). rewrite VP by lia. set (z := zof s) in *.
    assert (TS : (Qabs t <= (5 # 4) * ((1 # 32) * u))%Q). { pose proof (t_pow n) as L. rewrite EN in L. replace (- (p + 5)) with (- p + -5) in L by lia. rewrite pow2_add in L. change (pow2 (-5)) with (1 # 32)%Q in L. lra. }
    destruct (rnd_nearest p (z + t) ltac:(lia)) as [_ NR]. specialize (NR z VR). rewrite <-Z in NR. rewrite Qabs_Qminus in NR. setoid_replace (z - (z + t))%Q with (- t)%Q in NR by ring. rewrite Qabs_opp in NR.
    assert (DZ : (Qabs (z - zof s') <= (5 # 64) * u)%Q). { setoid_replace (z - zof s')%Q with (- t + (z + t - zof s'))%Q by ring. pose proof (Qabs_triangle (- t) (z + t - zof s')) as Q. rewrite Qabs_opp in Q. pose proof NR. lra. }
    destruct (rel p (z - zof s')) as (d & Ed & Da & Db). rewrite Ed, Qabs_Qmult, (Qabs_pos (1 + d)) by lra.
    assert (ZL : (1 # 4 <= Qabs (zof s'))%Q).
    { pose proof (low n ltac:(lia)) as L. pose proof (Qabs_triangle (zof s') (Sm (Datatypes.S n) - zof s')) as Q. setoid_replace (zof s' + (Sm (Datatypes.S n) - zof s'))%Q with (Sm (Datatypes.S n)) in Q by ring. rewrite Qabs_Qminus in ER. pose proof (small_u (E * M) 12 ltac:(lia) ltac:(lia)) as EU. change (inject_Z 12) with 12%Q in EU.
      assert (inject_Z (E * Z.of_nat (Datatypes.S n)) <= inject_Z (E * M))%Q as LL by (rewrite <-Zle_Qle; unfold E, M in *; nia). pose proof (mul_l_le _ _ _ U0 LL). lra. }
    assert (EP : (Qabs (zof s') * u <= eps p (zof s'))%Q).
    { unfold eps, mant_exp. destruct (Z.eqb_spec (Qnum (zof s')) 0) as [C|C]; [exfalso; assert (zof s' == 0)%Q as X by (destruct (zof s'); unfold Qeq; cbn in *; lia); rewrite X in ZL; change (Qabs 0) with 0%Q in ZL; lra|]. cbn [snd]. replace (ilog2 (zof s') + 1 - p) with (ilog2 (zof s') + 1 + - p) by lia. rewrite pow2_add. assert (N : ~ (zof s' == 0)%Q) by (intros X; rewrite X in ZL; change (Qabs 0) with 0%Q in ZL; lra). destruct (ilog2_spec _ N) as [_ X]. apply mul_l_le; [exact U0|lra]. }
    pose proof (mul_l_le _ _ _ U0 ZL). pose proof (Qabs_nonneg (z - zof s')). nra.
  - cbn. lia.
  - rewrite max_is. unfold M in *. nia.
  - exists O. split; [reflexivity|apply inv2_start].
  - cbn. lia.
  - rewrite Es. eexists. reflexivity.
Qed.
End Loop.
End Rnd.

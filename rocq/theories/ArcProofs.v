From Coq Require Import QArith Qabs Setoid Lqa Lia.
From Verif Require FloatOdd.
From Verif Require Import Value FloatModel FloatProofs FloatSqrt FloatMono FloatSign FloatReduce RandSpec MixProofs ArcModel ArcSpec ArcRound.
Open Scope Z_scope.

Section Total.
Variables (R : Q -> Q) (p : Z) (S : Type) (zof : S -> Q) (body : Z -> S -> res S) (next : Z -> S -> S).
Variables (P : Z -> Q -> S -> Prop) (G : S -> Prop) (N : Z).
Hypothesis HN : 3 <= N.
Hypothesis step : forall i prev s, 0 <= i <= N -> P i prev s -> exists s', body i s = Ok s' /\ G s' /\
  (i < N -> P (i + 1) (zof s') (next (i + 1) s')) /\ (i = N -> Qabs (R (prev - zof s')) <= eps p (zof s'))%Q.
Lemma series_total : forall fuel l s, 0 <= l_i l <= N -> N < l_max l < 2 ^ 64 -> P (l_i l) (l_prev l) s -> N - l_i l < Z.of_nat fuel ->
  exists s', series R p S zof body next fuel l s = Some (Ok s') /\ G s'.
Proof using HN step.
  induction fuel as [|f IH]; intros l s Hi Hm HP Hf; [lia|]. cbn [series]. destruct (step _ _ _ Hi HP) as (s' & B & HG & H1 & H2). rewrite B. unfold done.
  destruct (_ && _); [eauto|]. destruct (Qle_bool _ _ && _) eqn:E; [eauto|]. rewrite Z.mod_small by lia.
  assert (NI : l_i l <> N). { intros EI. pose proof (H2 EI) as X. apply Qle_bool_iff in X. rewrite X in E. cbn in E. lia. }
  destruct (Z.eqb_spec (l_i l + 1) (l_max l)); [lia|]. apply IH; cbn [l_i l_max l_prev]; [lia|lia|apply H1; lia|lia].
Qed.
End Total.

Lemma mul_r_le v a b : (0 <= v -> a <= b -> v * a <= v * b)%Q.
Proof. intros. assert (0 <= v * (b - a))%Q by (apply Qmult_le_0_compat; lra). lra. Qed.
Lemma abs_ge a : (- Qabs a <= a /\ a <= Qabs a)%Q. Proof. apply abs_bd. lra. Qed.
Lemma rnd_bd p q : 8 <= p -> (Qabs (rnd p q) <= (257 # 256) * Qabs q)%Q.
Proof.
  intros Hp. pose proof (rnd_error p q) as E. destruct (pow2_small p Hp) as [U1 U2]. pose proof (Qabs_nonneg q).
  assert (Qabs q * pow2 (- p) <= Qabs q * (1 # 256))%Q by (apply mul_le; lra). pose proof (Qabs_triangle (rnd p q - q) q) as T. setoid_replace (rnd p q - q + q)%Q with (rnd p q) in T by ring. lra.
Qed.
Lemma p_u p : 8 <= p -> (inject_Z p * pow2 (- p) <= 1 # 32)%Q.
Proof.
  intros Hp. pose proof (pow2_opp p) as E. rewrite (pow2_Z p) in E by lia. assert (H : p * 32 <= 2 ^ p).
  { pattern p. apply (Zlt_lower_bound_ind _ 8); [|exact Hp]. intros x IH Hx. destruct (Z.eq_dec x 8) as [->|]; [vm_compute; discriminate|]. specialize (IH (x - 1) ltac:(lia)). replace x with (x - 1 + 1) by lia. rewrite Z.pow_add_r by lia. lia. }
  rewrite Zle_Qle, inject_Z_mult in H. change (inject_Z 32) with 32%Q in H. pose proof (pow2_pos (- p)). nra.
Qed.
Lemma i_u p i X : 8 <= p -> 0 <= i <= p -> (0 <= X)%Q -> (0 <= inject_Z i * (X * pow2 (- p)) /\ inject_Z i * (X * pow2 (- p)) <= X * (1 # 32))%Q.
Proof.
  intros Hp Hi HX. pose proof (p_u p Hp) as E. pose proof (pow2_pos (- p)) as U. assert (0 <= inject_Z i)%Q as I0 by (change 0%Q with (inject_Z 0); rewrite <-Zle_Qle; lia).
  assert (inject_Z i <= inject_Z p)%Q as I1 by (rewrite <-Zle_Qle; lia). assert (0 <= X * pow2 (- p))%Q as XU by nra. split; [nra|].
  assert (inject_Z i * (X * pow2 (- p)) <= inject_Z p * (X * pow2 (- p)))%Q by nra. assert (X * (inject_Z p * pow2 (- p)) <= X * (1 # 32))%Q by (apply mul_le; lra || nra). lra.
Qed.
Lemma fint1 p : 1 <= p -> (fint (rnd p) 1 == 1)%Q.
Proof. intros P. unfold fint. apply (rnd_int p 1); [exact P|pose proof (Z.pow_pos_nonneg 2 p ltac:(lia) ltac:(lia)); lia|reflexivity]. Qed.
Lemma fint_lo p n : 8 <= p -> 0 < n -> ((255 # 256) * inject_Z n <= fint (rnd p) n /\ fint (rnd p) n <= (257 # 256) * inject_Z n)%Q.
Proof. intros Hp Hn. apply rnd_pos; [exact Hp|]. change 0%Q with (inject_Z 0). rewrite <-Zlt_Qlt. exact Hn. Qed.
Lemma fquo_ok R x y : ~ (y == 0)%Q -> fquo R x y = Ok (R (x / y)%Q).
Proof. intros H. unfold fquo. destruct (Qeq_bool y 0) eqn:E; [apply Qeq_bool_eq in E; contradiction|reflexivity]. Qed.
Lemma quo_bd a b c : (0 < c)%Q -> (c <= b)%Q -> (Qabs (a / b) * c <= Qabs a)%Q.
Proof.
  intros C B. assert (E : (Qabs a == Qabs (a / b) * b)%Q). { rewrite <-(Qabs_pos b) at 2 by lra. rewrite <-Qabs_Qmult. apply Qabs_wd. field. lra. }
  rewrite E. pose proof (Qabs_nonneg (a / b)). nra.
Qed.
Lemma err_bd p q B : (Qabs q <= B)%Q -> (q - B * pow2 (- p) <= rnd p q /\ rnd p q <= q + B * pow2 (- p))%Q.
Proof. intros H. pose proof (rnd_error p q) as E. pose proof (pow2_pos (- p)). assert (Qabs q * pow2 (- p) <= B * pow2 (- p))%Q by (apply mul_l_le; assumption). apply abs_bd in E. split; lra. Qed.

(* ---- the series for small arguments ---- *)
Section Small.
Variables (p : Z) (x : Q).
Hypothesis Hp : 8 <= p.
Hypothesis Hx : (0 < x)%Q.
Hypothesis Hx1 : (x <= 51 # 100)%Q.
Let u := pow2 (- p).
Definition sp (i : Z) (prev : Q) (s : at_st) : Prop :=
  let '(z, xN) := s in
  (i = 0 /\ z = 0%Q /\ xN = x) \/
  (1 <= i /\ prev = z /\ (Qabs xN <= x * pow2 (- i))%Q /\ ((79 # 100) * x - 2 * (inject_Z i * (x * pow2 (- p))) <= z - (6 # 10) * Qabs xN)%Q /\ (z + (6 # 10) * Qabs xN <= (121 # 100) * x + 2 * (inject_Z i * (x * pow2 (- p))))%Q).
Definition sg (s : at_st) : Prop := ((7 # 10) * x <= fst s /\ fst s <= (13 # 10) * x)%Q.
Lemma x2_bd : (0 <= fmul (rnd p) x x /\ fmul (rnd p) x x <= 262 # 1000)%Q.
Proof. unfold fmul. assert (0 < x * x)%Q by nra. pose proof (rnd_pos p _ Hp H). assert (x * x <= (51 # 100) * (51 # 100))%Q by (apply mul_le; lra). split; lra. Qed.
Lemma next_bd xN : (Qabs (fmul (rnd p) (- xN) (fmul (rnd p) x x)) <= (1 # 3) * Qabs xN)%Q.
Proof.
  unfold fmul at 1. pose proof (rnd_bd p (- xN * fmul (rnd p) x x) Hp) as B. rewrite Qabs_Qmult, Qabs_opp in B. destruct x2_bd as [A1 A2]. rewrite (Qabs_pos (fmul _ _ _)) in B by exact A1.
  pose proof (Qabs_nonneg xN). assert (Qabs xN * fmul (rnd p) x x <= Qabs xN * (262 # 1000))%Q by (apply mul_le; lra). lra.
Qed.
Lemma small_step i prev s : 0 <= i <= p -> sp i prev s -> exists s', atan_body (rnd p) i s = Ok s' /\ sg s' /\
  (i < p -> sp (i + 1) (fst s') (atan_next (rnd p) (fmul (rnd p) x x) (i + 1) s')) /\ (i = p -> Qabs (rnd p (prev - fst s')) <= eps p (fst s'))%Q.
Proof using Hp Hx Hx1.
  intros Hi. destruct s as [z xN]. unfold sp. unfold atan_body. destruct (fint_lo p (2 * i + 1) Hp ltac:(lia)) as [F1 F2]. pose proof (fint_pos p (2 * i + 1) Hp ltac:(lia)) as F0.
  rewrite fquo_ok by lra. cbn [bind]. set (f := fint (rnd p) (2 * i + 1)) in *. set (t := rnd p (xN / f)). unfold fadd. set (z' := rnd p (z + t)).
  intros H. exists (z', (- xN)%Q). split; [reflexivity|]. cbn [fst]. unfold atan_next, sg. cbn [fst]. pose proof (next_bd xN) as NB. set (xN' := fmul (rnd p) (- xN) (fmul (rnd p) x x)) in *.
  pose proof (i_u p i x Hp Hi ltac:(lra)) as [IU0 IU]. pose proof (Qabs_nonneg xN) as S0. pose proof (Qabs_nonneg xN') as S0'. assert (XU : (0 < x * pow2 (- p))%Q) by (pose proof (pow2_pos (- p)); nra).
  destruct H as [(-> & -> & ->)|(I1 & -> & S1 & K & HH)].
  - assert (f == 1)%Q as FE by (apply fint1; lia). assert (E : (x / f == x)%Q) by (rewrite FE; field). assert (T : (t == rnd p x)%Q) by (apply rnd_compat; [lia|exact E]).
    pose proof (rnd_pos p x Hp Hx) as [T1 T2]. assert (ZT : (z' == rnd p t)%Q) by (apply rnd_compat; [lia|ring]). pose proof (rnd_pos p t Hp ltac:(lra)) as [Z1 Z2]. rewrite (Qabs_pos x) in NB by lra.
    split; [lra|]. split; [|lia]. intros _. right. split; [lia|]. split; [reflexivity|]. change (pow2 (- (0 + 1))) with (1 # 2)%Q. change (inject_Z (0 + 1)) with 1%Q. split; [lra|]. split; lra.
  - assert (T : (Qabs t <= (34 # 100) * Qabs xN)%Q).
    { pose proof (rnd_bd p (xN / f) Hp) as B. fold t in B. assert (3 <= inject_Z (2 * i + 1))%Q as I3 by (change 3%Q with (inject_Z 3); rewrite <-Zle_Qle; lia). pose proof (quo_bd xN f ((255 # 256) * 3) ltac:(lra) ltac:(lra)) as D. lra. }
    destruct (abs_ge t) as [T1 T2]. assert (B : (Qabs (z + t) <= 2 * x)%Q) by (apply Qabs_Qle_condition; split; lra). pose proof (err_bd p (z + t) (2 * x) B) as [E1 E2]. fold z' in E1, E2.
    assert (UX : (x * pow2 (- p) <= x * (1 # 256))%Q) by (apply mul_le; try lra; [pose proof (pow2_pos (- p)); lra|apply (pow2_small p Hp)]). 
    split; [lra|]. split.
    + intros _. right. split; [lia|]. split; [reflexivity|]. rewrite inject_Z_plus. change (inject_Z 1) with 1%Q. split; [|split; lra].
      assert (pow2 (- i) == 2 * pow2 (- (i + 1)))%Q as PE by (rewrite <-pow2_S; replace (- (i + 1) + 1) with (- i) by lia; reflexivity). rewrite PE in S1. lra.
    + intros ->. apply settles; [lia|lra|]. destruct (ilog2_pos (z + t) ltac:(lra)) as [_ L]. set (k := ilog2 (z + t)) in *. rewrite pow2_S in L. unfold Z.sub. rewrite (pow2_add k).
      assert ((36 # 100) * x <= pow2 k)%Q as KX by lra. assert ((36 # 100) * x * pow2 (- p) <= pow2 k * pow2 (- p))%Q by (apply mul_l_le; [apply pow2_pos|exact KX]). lra.
Qed.
End Small.
Lemma zero_step p (Hp : 8 <= p) x i (prev : Q) (s : at_st) : 0 <= i <= p -> ((prev == 0)%Q /\ (fst s == 0)%Q /\ (snd s == 0)%Q) -> exists s', atan_body (rnd p) i s = Ok s' /\ (fst s' == 0)%Q /\
  (i < p -> (fst s' == 0)%Q /\ (fst (atan_next (rnd p) (fmul (rnd p) x x) (i + 1) s') == 0)%Q /\ (snd (atan_next (rnd p) (fmul (rnd p) x x) (i + 1) s') == 0)%Q) /\
  (i = p -> Qabs (rnd p (prev - fst s')) <= eps p (fst s'))%Q.
Proof.
  intros Hi (A & B & C). destruct s as [z xN]. cbn [fst snd] in *. pose proof (fint_pos p (2 * i + 1) Hp ltac:(lia)) as F0. unfold atan_body. rewrite fquo_ok by lra. cbn [bind]. eexists. split; [reflexivity|]. cbn [fst snd atan_next].
  assert (X : (rnd p (xN / fint (rnd p) (2 * i + 1)) == 0)%Q). { rewrite rnd_zero; [reflexivity|]. rewrite C. field. lra. }
  assert (Y : (fadd (rnd p) z (rnd p (xN / fint (rnd p) (2 * i + 1))) == 0)%Q). { unfold fadd. rewrite rnd_zero; [reflexivity|]. rewrite B, X. reflexivity. }
  split; [exact Y|]. split; [intros _; split; [exact Y|]; split; [exact Y|]; unfold fmul at 1; rewrite rnd_zero; [reflexivity|rewrite C; ring]|]. intros _. rewrite rnd_zero by (rewrite A, Y; ring). unfold eps. change (Qabs 0) with 0%Q. apply Qlt_le_weak, pow2_pos.
Qed.
Theorem small_value p x fuel : 8 <= p <= 1000000 -> (0 <= x)%Q -> (x <= 51 # 100)%Q -> p < Z.of_nat fuel ->
  exists z, atan_small (rnd p) p fuel x = Some (Ok z) /\ ((7 # 10) * x <= z /\ z <= (13 # 10) * x)%Q.
Proof.
  intros Hp X0 X1 Hf. unfold atan_small. pose proof (new_loop_max 4 p ltac:(lia) ltac:(lia) ltac:(lia)) as M.
  destruct (Qlt_le_dec 0 x) as [XP|XN].
  - destruct (series_total (rnd p) p at_st fst (atan_body (rnd p)) (atan_next (rnd p) (fmul (rnd p) x x)) (sp p x) (sg x) p ltac:(lia) (small_step p x ltac:(lia) XP X1) fuel (new_loop 4 p) (0%Q, x)) as (s & E & G);
      [cbn; lia|rewrite M; lia|cbn; left; auto|cbn; lia|]. rewrite E. cbn [result]. eexists. split; [reflexivity|exact G].
  - assert (x == 0)%Q as XE by lra.
    destruct (series_total (rnd p) p at_st fst (atan_body (rnd p)) (atan_next (rnd p) (fmul (rnd p) x x)) (fun _ prev s => (prev == 0)%Q /\ (fst s == 0)%Q /\ (snd s == 0)%Q) (fun s => (fst s == 0)%Q) p ltac:(lia) (zero_step p ltac:(lia) x) fuel (new_loop 4 p) (0%Q, x)) as (s & E & G);
      [cbn; lia|rewrite M; lia|cbn; split; [reflexivity|]; split; [reflexivity|exact XE]|cbn; lia|]. rewrite E. cbn [result]. eexists. split; [reflexivity|]. rewrite G, XE. split; lra.
Qed.

(* ---- the series for large arguments ---- *)
Section Large.
Variables (p : Z) (x h : Q).
Hypothesis Hp : 8 <= p.
Hypothesis Hx : (149 # 100 <= x)%Q.
Hypothesis Hr : representable p h.
Hypothesis Hh : (149 # 100 <= h)%Q.
Hypothesis Hh2 : (h <= 201 # 100)%Q.
Definition lp (i : Z) (prev : Q) (st : at_st) : Prop :=
  let '(z, xN) := st in
  exists s, (0 < s)%Q /\ (Qabs xN * s == 1)%Q /\ (s <= pow2 (- i))%Q /\
    ((i = 0 /\ z = h /\ xN = x) \/
     (1 <= i /\ prev = z /\ ((56 # 100) - 3 * (inject_Z i * (1 * pow2 (- p))) <= z - (7 # 10) * s)%Q)) /\
    (Z.even i = true -> (0 < xN)%Q /\ (z <= h)%Q /\ representable p z) /\
    (Z.even i = false -> (xN < 0)%Q /\ (z <= h)%Q /\
       exists z0 t0, z = rnd p (z0 - t0) /\ representable p z0 /\ (z0 <= h)%Q /\ (0 < t0)%Q /\ (t0 < z0)%Q /\ ((102 # 100) * s <= (2 # 3) * (t0 * inject_Z (2 * i + 1)))%Q).
Definition lg (s : at_st) : Prop := ((3 # 10) <= fst s /\ fst s <= h)%Q.
Lemma x2_ge : (221 # 100 <= fmul (rnd p) x x)%Q.
Proof using Hp Hx. unfold fmul. assert (0 < x * x)%Q by nra. pose proof (rnd_pos p _ Hp H). assert ((149 # 100) * (149 # 100) <= x * x)%Q by (apply mul_le; lra). lra. Qed.
(* the reciprocal of a product *)
Lemma term_bd a f n s : (0 < s)%Q -> (Qabs a * s == 1)%Q -> (0 < n)%Q -> ((255 # 256) * n <= f)%Q -> (f <= (257 # 256) * n)%Q ->
  ~ (fmul (rnd p) a f == 0)%Q /\
  let t := rnd p (fint (rnd p) 1 / fmul (rnd p) a f) in
  ((98 # 100) * s <= Qabs t * n)%Q /\ (Qabs t * n <= (102 # 100) * s)%Q /\ ((0 < a)%Q -> (0 < t)%Q) /\ ((a < 0)%Q -> (t < 0)%Q).
Proof.
  clear - Hp.
  assert (POS : forall a f n s, (0 < a)%Q -> (0 < s)%Q -> (a * s == 1)%Q -> (0 < n)%Q -> ((255 # 256) * n <= f)%Q -> (f <= (257 # 256) * n)%Q ->
    (0 < fmul (rnd p) a f)%Q /\ (0 < rnd p (fint (rnd p) 1 / fmul (rnd p) a f))%Q /\ ((98 # 100) * s <= rnd p (fint (rnd p) 1 / fmul (rnd p) a f) * n)%Q /\ (rnd p (fint (rnd p) 1 / fmul (rnd p) a f) * n <= (102 # 100) * s)%Q).
  { clear a f n s. intros a f n s A S0 AS N0 F1 F2. unfold fmul. assert (AF : (0 < a * f)%Q) by nra. pose proof (rnd_pos p _ Hp AF) as [M1 M2]. set (m := rnd p (a * f)) in *.
    assert (M0 : (0 < m)%Q) by lra. split; [exact M0|]. pose proof (fint1 p ltac:(lia)) as F. set (v := (fint (rnd p) 1 / m)%Q). assert (V : (v * m == 1)%Q) by (unfold v; rewrite F; field; lra).
    assert (V0 : (0 < v)%Q) by nra. pose proof (rnd_pos p v Hp V0) as [T1 T2]. set (t := rnd p v) in *. split; [lra|].
    (* v * n * a within ... of 1 *)
    assert (X1 : ((255 # 256) * (255 # 256) * (v * n * a) <= 1)%Q). { assert (v * ((255 # 256) * (a * ((255 # 256) * n))) <= v * m)%Q. { apply mul_r_le; [lra|]. assert (a * ((255 # 256) * n) <= a * f)%Q by (apply mul_r_le; lra). lra. } lra. }
    assert (X2 : (1 <= (257 # 256) * (257 # 256) * (v * n * a))%Q). { assert (v * m <= v * ((257 # 256) * (a * ((257 # 256) * n))))%Q. { apply mul_r_le; [lra|]. assert (a * f <= a * ((257 # 256) * n))%Q by (apply mul_r_le; lra). lra. } lra. }
    assert (SS : (s * (v * n * a) == v * n)%Q) by (setoid_replace (s * (v * n * a))%Q with (v * n * (a * s))%Q by ring; rewrite AS; ring).
    assert (Y1 : (s * ((255 # 256) * (255 # 256) * (v * n * a)) <= s * 1)%Q) by (apply mul_r_le; lra).
    assert (Y2 : (s * 1 <= s * ((257 # 256) * (257 # 256) * (v * n * a)))%Q) by (apply mul_r_le; lra).
    assert (t * n <= (257 # 256) * v * n)%Q by (apply mul_l_le; lra). assert ((255 # 256) * v * n <= t * n)%Q by (apply mul_l_le; lra). split; lra. }
  intros S0 AS N0 F1 F2. destruct (Qlt_le_dec 0 a) as [A|A].
  - rewrite (Qabs_pos a) in AS by lra. destruct (POS a f n s A S0 AS N0 F1 F2) as (A1 & A2 & A3 & A4). split; [lra|]. cbv zeta. rewrite (Qabs_pos (rnd p _)) by lra. repeat split; try lra; auto.
  - rewrite (Qabs_neg a) in AS by lra. assert (A' : (0 < - a)%Q) by nra. destruct (POS (- a)%Q f n s A' S0 AS N0 F1 F2) as (A1 & A2 & A3 & A4).
    assert (E : (fmul (rnd p) (- a) f == - fmul (rnd p) a f)%Q). { unfold fmul. rewrite <-FloatSign.rnd_opp. apply rnd_compat; [lia|ring]. }
    assert (E2 : (rnd p (fint (rnd p) 1 / fmul (rnd p) (- a) f) == - rnd p (fint (rnd p) 1 / fmul (rnd p) a f))%Q). { rewrite <-FloatSign.rnd_opp. apply rnd_compat; [lia|]. rewrite E. field. lra. }
    split; [lra|]. cbv zeta. rewrite (Qabs_neg (rnd p _)) by lra. rewrite <-E2. repeat split; try lra; auto.
Qed.
Lemma rnd_big q : (0 < q)%Q -> ((255 # 256) * q <= rnd p q)%Q. Proof using Hp. intros H. apply (rnd_pos p q Hp H). Qed.
Lemma next_large xN s : (0 < s)%Q -> (Qabs xN * s == 1)%Q -> exists s', (0 < s')%Q /\ (Qabs (fmul (rnd p) (- xN) (fmul (rnd p) x x)) * s' == 1)%Q /\ (s' <= (1 # 2) * s)%Q /\
  ((0 < xN)%Q -> (fmul (rnd p) (- xN) (fmul (rnd p) x x) < 0)%Q) /\ ((xN < 0)%Q -> (0 < fmul (rnd p) (- xN) (fmul (rnd p) x x))%Q).
Proof using Hp Hx.
  intros S0 E. pose proof x2_ge as X2. set (x2 := fmul (rnd p) x x) in *. unfold fmul. set (y := rnd p (- xN * x2)).
  assert (NZ : (0 < Qabs xN)%Q) by (pose proof (Qabs_nonneg xN); nra).
  assert (G : (2 * Qabs xN <= Qabs y)%Q /\ ((0 < xN)%Q -> (y < 0)%Q) /\ ((xN < 0)%Q -> (0 < y)%Q)).
  { destruct (Qlt_le_dec 0 xN) as [A|A].
    - rewrite (Qabs_pos xN) in * by lra. assert (B : ((221 # 100) * xN <= xN * x2)%Q) by nra. pose proof (rnd_big (xN * x2) ltac:(lra)) as C.
      assert (D : (y == - rnd p (xN * x2))%Q). { unfold y. rewrite <-FloatSign.rnd_opp. apply rnd_compat; [lia|ring]. } rewrite (Qabs_neg y) by lra. split; [lra|]. split; intros; lra.
    - rewrite (Qabs_neg xN) in * by lra. assert (B : ((221 # 100) * (- xN) <= - xN * x2)%Q) by nra. pose proof (rnd_big (- xN * x2) ltac:(lra)) as C. fold y in C. rewrite (Qabs_pos y) by lra. split; [lra|]. split; intros; lra. }
  destruct G as (G1 & G2 & G3). assert (Y0 : (0 < Qabs y)%Q) by lra. exists (/ Qabs y)%Q. assert (YE : (Qabs y * / Qabs y == 1)%Q) by (field; lra). assert (V0 : (0 < / Qabs y)%Q) by (apply Qinv_lt_0_compat; exact Y0).
  set (v := (/ Qabs y)%Q) in *. split; [exact V0|]. split; [exact YE|]. split; [|split; assumption].
  assert (2 * Qabs xN * v <= Qabs y * v)%Q as Z1 by (apply mul_l_le; assumption). assert (2 * Qabs xN * v <= Qabs xN * s)%Q as Z2 by lra. nra.
Qed.
Lemma i_u2 i : 0 <= i <= p + 2 -> (0 <= inject_Z i * (1 * pow2 (- p)) /\ inject_Z i * (1 * pow2 (- p)) <= (1 # 16))%Q.
Proof using Hp.
  intros Hi. pose proof (p_u p Hp) as E. pose proof (pow2_pos (- p)) as U. assert (0 <= inject_Z i)%Q as I0 by (change 0%Q with (inject_Z 0); rewrite <-Zle_Qle; lia).
  assert (inject_Z i <= inject_Z (2 * p))%Q as I1 by (rewrite <-Zle_Qle; lia). rewrite inject_Z_mult in I1. change (inject_Z 2) with 2%Q in I1. assert (inject_Z i * pow2 (- p) <= 2 * inject_Z p * pow2 (- p))%Q by (apply mul_l_le; assumption). split; [nra|lra].
Qed.
Lemma even_succ i : Z.even (i + 1) = negb (Z.even i). Proof. rewrite Z.add_1_r, Z.even_succ, Z.negb_even. reflexivity. Qed.
Lemma large_step i prev s : 0 <= i <= p + 2 -> lp i prev s -> exists s', atanl_body (rnd p) i s = Ok s' /\ lg s' /\
  (i < p + 2 -> lp (i + 1) (fst s') (atan_next (rnd p) (fmul (rnd p) x x) (i + 1) s')) /\ (i = p + 2 -> (Qabs (rnd p (prev - fst s')) <= eps p (fst s'))%Q).
Proof using Hp Hx Hr Hh Hh2.
  intros Hi. destruct s as [z xN]. unfold lp. intros (s & S0 & SE & S1 & C & EV & OD).
  unfold atanl_body. destruct (fint_lo p (2 * i + 1) Hp ltac:(lia)) as [F1 F2]. assert (N0 : (0 < inject_Z (2 * i + 1))%Q) by (change 0%Q with (inject_Z 0); rewrite <-Zlt_Qlt; lia).
  assert (SE' : (Qabs (- xN) * s == 1)%Q) by (rewrite Qabs_opp; exact SE).
  destruct (term_bd (- xN)%Q _ _ s S0 SE' N0 F1 F2) as (NZ & T1 & T2 & T3 & T4). rewrite fquo_ok by exact NZ. cbn [bind]. set (t := rnd p (fint (rnd p) 1 / fmul (rnd p) (- xN) (fint (rnd p) (2 * i + 1)))) in *.
  unfold fadd. set (z' := rnd p (z + t)). exists (z', (- xN)%Q). split; [reflexivity|]. cbn [fst atan_next]. unfold lg. cbn [fst].
  destruct (next_large xN s S0 SE) as (s2 & V0 & VE & V1 & V2 & V3). set (xN2 := fmul (rnd p) (- xN) (fmul (rnd p) x x)) in *. set (n := inject_Z (2 * i + 1)) in *.
  pose proof (i_u2 i Hi) as [IU0 IU]. destruct (abs_ge t) as [TA TB]. pose proof (Qabs_nonneg t) as TC.
  assert (PE : (pow2 (- i) == 2 * pow2 (- (i + 1)))%Q) by (rewrite <-pow2_S; replace (- (i + 1) + 1) with (- i) by lia; reflexivity).
  assert (U := pow2_pos (- p)). assert (U2 : (pow2 (- p) <= 1 # 256)%Q) by apply (pow2_small p Hp).
  (* what the sum is *)
  assert (MAIN : ((1 # 100) < z + t /\ (3 # 10) <= z' /\ z <= h /\ z' <= h)%Q /\ ((56 # 100) - 3 * (inject_Z (i + 1) * (1 * pow2 (- p))) <= z' - (7 # 10) * s2)%Q /\ (Qabs t < z)%Q).
  { destruct C as [(-> & -> & ->)|(I1 & -> & K)].
    - change (inject_Z (2 * 0 + 1)) with 1%Q in n. unfold n in *. rewrite (Qabs_pos x) in SE by lra. assert (s <= 672 # 1000)%Q as SB by nra.
      assert (TN : (t < 0)%Q) by (apply T4; lra). rewrite (Qabs_neg t) in * by lra. assert (BB : (0 < h + t)%Q) by lra. pose proof (rnd_pos p _ Hp BB) as [Z1 Z2]. fold z' in Z1, Z2.
      assert (ZH : (z' <= h)%Q). { pose proof (rnd_mono p (h + t) h ltac:(lia) ltac:(lra) ltac:(lra)) as Q1. pose proof (rnd_exact p h ltac:(lia) Hr) as Q2. fold z' in Q1. lra. }
      change (inject_Z (0 + 1)) with 1%Q. split; [lra|]. split; lra.
    - assert (I3 : (3 <= n)%Q) by (unfold n; change 3%Q with (inject_Z 3); rewrite <-Zle_Qle; lia). assert (TT : (Qabs t <= (34 # 100) * s)%Q) by nra.
      assert (ZH : (z <= h)%Q). { destruct (Z.even i) eqn:E; [apply (EV eq_refl)|apply (OD eq_refl)]. }
      assert (BB : (Qabs (z + t) <= 3)%Q). { apply Qabs_Qle_condition. assert (S2 : (s <= 1)%Q) by (eapply Qle_trans; [exact S1|]; change 1%Q with (pow2 0); apply pow2_le; lia). split; lra. }
      pose proof (err_bd p _ _ BB) as [E1 E2]. fold z' in E1, E2. rewrite inject_Z_plus. change (inject_Z 1) with 1%Q.
      assert (ZH' : (z' <= h)%Q).
      { destruct (Z.even i) eqn:E.
        - destruct (EV eq_refl) as (A & _ & RZ). assert (TN : (t < 0)%Q) by (apply T4; lra). pose proof (rnd_mono p (z + t) z ltac:(lia) ltac:(lra) ltac:(lra)) as Q1. pose proof (rnd_exact p z ltac:(lia) RZ) as Q2. fold z' in Q1. lra.
        - destruct (OD eq_refl) as (A & _ & z0 & t0 & -> & RZ & ZZ & P0 & P1 & P2). assert (TN : (0 < t)%Q) by (apply T3; lra). rewrite (Qabs_pos t) in * by lra.
          assert (TT0 : (t <= (2 # 3) * t0)%Q). { assert (t * n <= (2 # 3) * t0 * n)%Q as TM by lra. nra. }
          pose proof (down_up p z0 t0 t ltac:(lia) RZ ltac:(lra) P1 ltac:(lra) TT0) as DU. unfold z'. lra. }
      split; [lra|]. split; lra. }
  destruct MAIN as ((M1 & M2 & M2' & M3) & M4 & M5). split; [lra|]. split.
  - intros _. exists s2. split; [exact V0|]. split; [exact VE|]. split; [lra|]. split; [right; split; [lia|]; split; [reflexivity|exact M4]|]. rewrite even_succ. split.
    + intros E. destruct (Z.even i); [discriminate|]. destruct (OD eq_refl) as (A & _). split; [apply V3; exact A|]. split; [exact M3|]. apply rnd_rep_pos; [lia|lra].
    + intros E. destruct (Z.even i) eqn:EI; [|discriminate]. destruct (EV eq_refl) as (A & B & RZ). assert (TN : (t < 0)%Q) by (apply T4; lra). rewrite (Qabs_neg t) in * by lra.
      split; [apply V2; exact A|]. split; [exact M3|]. exists z, (- t)%Q. split; [unfold z'; f_equal; unfold Qminus; rewrite FloatOdd.qopp_opp; reflexivity|]. split; [exact RZ|]. split; [exact B|]. split; [lra|]. split; [exact M5|].
      replace (2 * (i + 1) + 1) with (2 * i + 1 + 2) by lia. rewrite inject_Z_plus. change (inject_Z 2) with 2%Q. fold n. assert (0 < - t * 2)%Q by lra. lra.
  - intros ->. destruct C as [(C & _)|(I1 & -> & K)]; [lia|]. apply settles; [lia|lra|]. destruct (ilog2_pos (z + t) ltac:(lra)) as [_ L]. set (k := ilog2 (z + t)) in *. rewrite pow2_S in L. unfold Z.sub. rewrite (pow2_add k).
    assert (I3 : (3 <= n)%Q) by (unfold n; change 3%Q with (inject_Z 3); rewrite <-Zle_Qle; lia). assert (TT : (Qabs t <= (34 # 100) * s)%Q) by nra.
    assert ((17 # 100) <= pow2 k)%Q as KX by lra. assert ((17 # 100) * pow2 (- p) <= pow2 k * pow2 (- p))%Q by (apply mul_l_le; [apply pow2_pos|exact KX]).
    replace (- (p + 2)) with (- p + - 2) in S1 by lia. rewrite pow2_add in S1. change (pow2 (-2)) with (1 # 4)%Q in S1. lra.
Qed.
End Large.
Theorem large_value p pi x fuel : 8 <= p <= 1000000 -> (149 # 100 <= x)%Q -> representable p pi -> (3 <= pi)%Q -> (pi <= 4)%Q -> p + 2 < Z.of_nat fuel ->
  exists z, atan_large (rnd p) p fuel pi x = Some (Ok z) /\ (3 # 10 <= z)%Q /\ (z <= pi / 2)%Q.
Proof.
  intros Hp X0 RP P1 P2 Hf. unfold atan_large. assert (F2 : (fint (rnd p) 2 == 2)%Q). { apply (rnd_int p 2); [lia| |reflexivity]. pose proof (Z.pow_le_mono_r 2 1 p ltac:(lia) ltac:(lia)). lia. }
  rewrite fquo_ok by lra. set (h := rnd p (pi / fint (rnd p) 2)). assert (HE : (h == pi / 2)%Q).
  { unfold h. rewrite (rnd_compat p _ (pi / 2)) by (lia || (rewrite F2; reflexivity)). apply rnd_exact; [lia|]. destruct RP as (m & e & M & E). exists m, (e - 1). split; [exact M|]. rewrite E. replace e with (e - 1 + 1) at 1 by lia. rewrite pow2_S. field. }
  assert (HH : (pi / 2 == (1 # 2) * pi)%Q) by field. pose proof (new_loop_max 4 p ltac:(lia) ltac:(lia) ltac:(lia)) as M.
  destruct (series_total (rnd p) p at_st fst (atanl_body (rnd p)) (atan_next (rnd p) (fmul (rnd p) x x)) (lp p x h) (lg h) (p + 2) ltac:(lia)) with (fuel := fuel) (l := new_loop 4 p) (s := (h, x)) as (s & E & G1 & G2).
  - apply large_step; try lia; try lra. apply rnd_rep_pos; [lia|]. rewrite F2, HH. lra.
  - cbn; lia.
  - rewrite M; lia.
  - cbn [new_loop l_i l_prev]. unfold lp. exists (/ x)%Q. assert (X1 : (0 < / x)%Q) by (apply Qinv_lt_0_compat; lra). assert (XE : (x * / x == 1)%Q) by (field; lra). rewrite (Qabs_pos x) by lra.
    split; [exact X1|]. split; [exact XE|]. split; [change (pow2 (- 0)) with 1%Q; nra|]. split; [left; auto|]. split; [intros _|discriminate]. split; [lra|]. split; [lra|]. apply rnd_rep_pos; [lia|]. rewrite F2, HH. lra.
  - cbn; lia.
  - rewrite E. cbn [result]. eexists. split; [reflexivity|]. split; lra.
Qed.

(* ---- the inverse tangent ---- *)
Lemma below_true a b : below a b = true -> (a < b)%Q.
Proof. unfold below. intros H. apply Bool.negb_true_iff in H. destruct (Qlt_le_dec a b) as [L|L]; [exact L|]. apply Qle_bool_iff in L. congruence. Qed.
Lemma below_false a b : below a b = false -> (b <= a)%Q.
Proof. unfold below. intros H. apply Bool.negb_false_iff in H. apply Qle_bool_iff. exact H. Qed.
Lemma below_lt a b : (a < b)%Q -> below a b = true.
Proof. intros H. unfold below. apply Bool.negb_true_iff. destruct (Qle_bool b a) eqn:E; [|reflexivity]. apply Qle_bool_iff in E. lra. Qed.
Lemma below_ge a b : (b <= a)%Q -> below a b = false.
Proof. intros H. unfold below. apply Bool.negb_false_iff. apply Qle_bool_iff. exact H. Qed.
Lemma num_neg x : (0 <= x)%Q -> Qnum x <? 0 = false.
Proof. intros H. destruct x as [n d]. unfold Qle in H. cbn in *. lia. Qed.
Section Atan.
Variables (p : Z) (pi : Q) (fuel : nat) (s : Q).
Hypothesis Hp : 8 <= p <= 1000000.
Hypothesis RP : representable p pi.
Hypothesis P1 : (3 <= pi)%Q.
Hypothesis P2 : (pi <= 4)%Q.
Hypothesis Hf : p + 2 < Z.of_nat fuel.
Hypothesis SQ : float_sqrt (rnd p) p fuel 2 = Some (Ok s).
Let at_ := float_atan (rnd p) p pi.
Lemma near_true x : below (Qabs (fsub (rnd p) 1 x)) (1 # 2) = true -> (498 # 1000 < x /\ x < 1502 # 1000)%Q.
Proof.
  intros H. apply below_true in H. unfold fsub in H. pose proof (rnd_error p (1 - x)) as E. destruct (pow2_small p ltac:(lia)) as [U1 U2]. pose proof (Qabs_nonneg (1 - x)).
  assert (Qabs (1 - x) * pow2 (- p) <= Qabs (1 - x) * (1 # 256))%Q by (apply mul_r_le; assumption).
  pose proof (Qabs_triangle (1 - x - rnd p (1 - x)) (rnd p (1 - x))) as T. setoid_replace (1 - x - rnd p (1 - x) + rnd p (1 - x))%Q with (1 - x)%Q in T by ring. rewrite Qabs_Qminus in E. destruct (abs_ge (1 - x)). split; lra.
Qed.
Lemma near_false x : below (Qabs (fsub (rnd p) 1 x)) (1 # 2) = false -> (x <= 502 # 1000 \/ 1498 # 1000 <= x)%Q.
Proof.
  intros H. apply below_false in H. unfold fsub in H. pose proof (rnd_bd p (1 - x) ltac:(lia)) as B. destruct (Qlt_le_dec (1 - x) 0); [right; rewrite (Qabs_neg (1 - x)) in B by lra|left; rewrite (Qabs_pos (1 - x)) in B by lra]; lra.
Qed.
Lemma y_bd : (366 # 1000 <= fsub (rnd p) s 1 /\ fsub (rnd p) s 1 <= 461 # 1000)%Q.
Proof.
  pose proof (sqrt_accurate p 2 fuel s ltac:(lia) eq_refl SQ) as [S0 SE]. destruct (pow2_small p ltac:(lia)) as [U1 U2]. assert (Qabs (s * s - 2) <= 1 # 8)%Q as E by lra. apply abs_bd in E.
  assert (1369 # 1000 <= s)%Q by nra. assert (s <= 1458 # 1000)%Q by nra. unfold fsub. pose proof (rnd_pos p (s - 1) ltac:(lia) ltac:(lra)). lra.
Qed.
Lemma t_bd x : (498 # 1000 < x)%Q -> (x < 1502 # 1000)%Q -> let y := fsub (rnd p) s 1 in
  ~ (fadd (rnd p) (fmul (rnd p) x y) 1 == 0)%Q /\ let t := rnd p (fsub (rnd p) x y / fadd (rnd p) (fmul (rnd p) x y) 1) in
  (0 < t)%Q /\ (t <= 76 # 100)%Q /\ ((x <= 77 # 100)%Q -> (t <= 36 # 100)%Q).
Proof.
  intros X1 X2 y. destruct y_bd as [Y1 Y2]. fold y in Y1, Y2. assert (H8 : 8 <= p) by lia. unfold fmul. assert (XY : (0 < x * y)%Q) by nra. pose proof (rnd_pos p _ H8 XY) as [A1 A2]. set (a := rnd p (x * y)) in *.
  unfold fadd. pose proof (rnd_pos p (a + 1) H8 ltac:(lra)) as [B1 B2]. set (den := rnd p (a + 1)) in *. unfold fsub. pose proof (rnd_pos p (x - y) H8 ltac:(lra)) as [C1 C2]. set (num := rnd p (x - y)) in *.
  split; [lra|]. cbv zeta. assert (D0 : (0 < den)%Q) by lra. set (v := (num / den)%Q). assert (V : (v * den == num)%Q) by (unfold v; field; lra). assert (V0 : (0 < v)%Q) by nra.
  pose proof (rnd_pos p v H8 V0) as [T1 T2]. split; [lra|].
  assert (XYL : ((366 # 1000) * x <= x * y)%Q) by nra. assert (XYH : (x * y <= (461 # 1000) * x)%Q) by nra. split.
  - assert (num <= (756 # 1000) * den)%Q as ND by lra. assert (v <= 756 # 1000)%Q by nra. lra.
  - intros X3. assert (num <= (358 # 1000) * den)%Q as ND by lra. assert (v <= 358 # 1000)%Q by nra. lra.
Qed.
Lemma z8 : exists z, fquo (rnd p) pi (fint (rnd p) 8) = Ok z /\ (36 # 100 <= z)%Q /\ (z <= 506 # 1000)%Q.
Proof.
  pose proof (fint_lo p 8 ltac:(lia) ltac:(lia)) as [F1 F2]. change (inject_Z 8) with 8%Q in *. set (f := fint (rnd p) 8) in *. rewrite fquo_ok by lra. eexists. split; [reflexivity|].
  set (v := (pi / f)%Q). assert (V : (v * f == pi)%Q) by (unfold v; field; lra). assert (V0 : (0 < v)%Q) by nra. pose proof (rnd_pos p v ltac:(lia) V0) as [A B]. assert (v <= 503 # 1000)%Q by nra. assert (370 # 1000 <= v)%Q by nra. split; lra.
Qed.
Lemma level d x : (0 <= x)%Q -> float_atan (rnd p) p pi (Datatypes.S d) fuel x =
  if below (Qabs (fsub (rnd p) 1 x)) (1 # 2) then
      then_ (of_res (fquo (rnd p) pi (fint (rnd p) 8))) (fun z =>
      then_ (of_res (fquo (rnd p) (fsub (rnd p) x (fsub (rnd p) s 1)) (fadd (rnd p) (fmul (rnd p) x (fsub (rnd p) s 1)) 1))) (fun t =>
      then_ (float_atan (rnd p) p pi d fuel t) (fun w => Some (Ok (fadd (rnd p) z w)))))
  else if below 1 x then atan_large (rnd p) p fuel pi x else atan_small (rnd p) p fuel x.
Proof. intros H. cbn [float_atan]. rewrite (num_neg x H), SQ. reflexivity. Qed.
Lemma level1 d x : (0 <= x)%Q -> (x <= 36 # 100)%Q -> exists z, float_atan (rnd p) p pi (Datatypes.S d) fuel x = Some (Ok z) /\ ((7 # 10) * x <= z /\ z <= (13 # 10) * x)%Q.
Proof.
  intros X0 X1. rewrite level by exact X0. destruct (below (Qabs _) _) eqn:N; [apply near_true in N; lra|]. rewrite below_ge by lra. apply small_value; try lra; lia.
Qed.
Lemma near_value d x (B : Q) : (0 <= B)%Q -> (B <= 985 # 1000)%Q -> (498 # 1000 < x)%Q -> (x < 1502 # 1000)%Q ->
  (forall t, (0 < t)%Q -> (t <= 76 # 100)%Q -> ((x <= 77 # 100)%Q -> (t <= 36 # 100)%Q) -> exists w, float_atan (rnd p) p pi d fuel t = Some (Ok w) /\ (0 <= w)%Q /\ (w <= B)%Q) ->
  exists z, then_ (of_res (fquo (rnd p) pi (fint (rnd p) 8))) (fun z =>
      then_ (of_res (fquo (rnd p) (fsub (rnd p) x (fsub (rnd p) s 1)) (fadd (rnd p) (fmul (rnd p) x (fsub (rnd p) s 1)) 1))) (fun t =>
      then_ (float_atan (rnd p) p pi d fuel t) (fun w => Some (Ok (fadd (rnd p) z w))))) = Some (Ok z) /\ (3 # 10 <= z)%Q /\ (z <= (257 # 256) * ((506 # 1000) + B))%Q.
Proof.
  intros B0 B1 X1 X2 H. destruct z8 as (z & E & Z1 & Z2). rewrite E. cbn [of_res then_]. destruct (t_bd x X1 X2) as (NZ & T1 & T2 & T3). rewrite fquo_ok by exact NZ. cbn [then_].
  destruct (H _ T1 T2 T3) as (w & W & W1 & W2). rewrite W. cbn [then_]. eexists. split; [reflexivity|]. unfold fadd. pose proof (rnd_pos p (z + w) ltac:(lia) ltac:(lra)). lra.
Qed.
Lemma level2 d x : (0 <= x)%Q -> (x <= 76 # 100)%Q -> exists z, float_atan (rnd p) p pi (Datatypes.S (Datatypes.S d)) fuel x = Some (Ok z) /\ (0 <= z)%Q /\ (z <= 98 # 100)%Q.
Proof.
  intros X0 X1. rewrite level by exact X0. destruct (below (Qabs _) _) eqn:N.
  - apply near_true in N. destruct N as [N1 N2]. destruct (near_value (Datatypes.S d) x (47 # 100) ltac:(lra) ltac:(lra) N1 N2) as (z & E & Z1 & Z2).
    + intros t T1 T2 T3. destruct (level1 d t ltac:(lra) ltac:(apply T3; lra)) as (w & W & W1 & W2). exists w. split; [exact W|]. specialize (T3 ltac:(lra)). split; lra.
    + exists z. split; [exact E|]. split; lra.
  - apply near_false in N. rewrite below_ge by lra. destruct (small_value p x fuel Hp X0 ltac:(lra) ltac:(lia)) as (z & E & Z1 & Z2). exists z. split; [exact E|]. split; lra.
Qed.
Lemma level3 d x : (0 <= x)%Q -> exists z, float_atan (rnd p) p pi (Datatypes.S (Datatypes.S (Datatypes.S d))) fuel x = Some (Ok z) /\ (0 <= z)%Q /\ (z <= pi / 2)%Q /\ ((0 < x)%Q -> (0 < z)%Q) /\ ((x == 0)%Q -> (z == 0)%Q).
Proof.
  intros X0. assert (HH : (pi / 2 == (1 # 2) * pi)%Q) by field. rewrite level by exact X0. destruct (below (Qabs _) _) eqn:N.
  - apply near_true in N. destruct N as [N1 N2]. destruct (near_value (Datatypes.S (Datatypes.S d)) x (98 # 100) ltac:(lra) ltac:(lra) N1 N2) as (z & E & Z1 & Z2).
    + intros t T1 T2 T3. apply level2; lra.
    + exists z. split; [exact E|]. split; [lra|]. split; [lra|]. split; intros; lra.
  - apply near_false in N. destruct (below 1 x) eqn:B.
    + apply below_true in B. destruct (large_value p pi x fuel Hp ltac:(destruct N; lra) RP P1 P2 Hf) as (z & E & Z1 & Z2). exists z. split; [exact E|]. split; [lra|]. split; [exact Z2|]. split; intros; lra.
    + apply below_false in B. destruct (small_value p x fuel Hp X0 ltac:(destruct N; lra) ltac:(lia)) as (z & E & Z1 & Z2). exists z. split; [exact E|]. split; [lra|]. split; [lra|]. split; intros; lra.
Qed.
End Atan.
Lemma atan_more R p pi fuel : forall d x r, float_atan R p pi d fuel x = Some r -> forall d', (d <= d')%nat -> float_atan R p pi d' fuel x = Some r.
Proof.
  induction d as [|d IH]; intros x r H d' L; [discriminate|]. destruct d' as [|d']; [lia|]. cbn [float_atan] in *. assert (L' : (d <= d')%nat) by lia. destruct (Qnum x <? 0).
  - destruct (float_atan R p pi d fuel (- x)) as [r0|] eqn:E; [|discriminate]. rewrite (IH _ _ E d' L'). exact H.
  - destruct (below (Qabs _) _); [|exact H]. unfold then_ in *. destruct (of_res (fquo R pi _)) as [[z| | |]|]; try exact H. destruct (float_sqrt R p fuel 2) as [[y| | |]|]; try exact H.
    destruct (of_res _) as [[t| | |]|]; try exact H. destruct (float_atan R p pi d fuel t) as [r0|] eqn:E; [|discriminate]. rewrite (IH _ _ E d' L'). exact H.
Qed.
Lemma atan_negative p pi fuel d x : (0 < x)%Q -> float_atan (rnd p) p pi (Datatypes.S d) fuel (- x) = neg_res true (float_atan (rnd p) p pi d fuel x).
Proof.
  intros H. cbn [float_atan]. assert (N : Qnum (- x) <? 0 = true) by (destruct x as [n q]; unfold Qlt in H; cbn in *; lia). rewrite N, FloatOdd.qopp_opp. reflexivity.
Qed.

(* every argument has an inverse tangent *)
Theorem atan_all p pi fuel d x : 8 <= p <= 1000000 -> pi_like p pi -> p + 2 < Z.of_nat fuel -> converges p fuel 2 -> (4 <= d)%nat ->
  exists z, float_atan (rnd p) p pi d fuel x = Some (Ok z) /\ between (- (pi / 2)) z (pi / 2) /\ signed x z.
Proof.
  intros Hp (RP & P1 & P2) Hf (s & SQ) Hd. destruct (Qlt_le_dec x 0) as [N|N].
  - destruct (level3 p pi fuel s Hp RP P1 P2 Hf SQ 0%nat (- x)%Q ltac:(lra)) as (z & E & Z0 & Z1 & Z2 & _). exists (- z)%Q. split.
    + apply (atan_more _ _ _ _ 4%nat); [|exact Hd]. replace x with (- - x)%Q by apply FloatOdd.qopp_opp. rewrite atan_negative by lra. rewrite E. reflexivity.
    + specialize (Z2 ltac:(lra)). split; [split; lra|]. split; [|split]; intros; lra.
  - destruct (level3 p pi fuel s Hp RP P1 P2 Hf SQ 0%nat x N) as (z & E & Z0 & Z1 & Z2 & Z3). exists z. split; [apply (atan_more _ _ _ _ 3%nat); [exact E|lia]|].
    assert (HH : (pi / 2 == (1 # 2) * pi)%Q) by field. split; [split; lra|]. split; [exact Z2|]. split; [intros; lra|exact Z3].
Qed.
Theorem atan_symmetric p pi fuel d x z : (0 < x)%Q -> float_atan (rnd p) p pi d fuel x = Some (Ok z) -> float_atan (rnd p) p pi (Datatypes.S d) fuel (- x) = Some (Ok (- z)%Q).
Proof. intros H E. rewrite atan_negative by exact H. rewrite E. reflexivity. Qed.

(* ---- the inverse sine and cosine ---- *)
Lemma half_pi_is p pi : 8 <= p -> pi_like p pi -> exists h, half_pi (rnd p) pi = Some (Ok h) /\ (h == pi / 2)%Q.
Proof.
  intros Hp (RP & P1 & P2). unfold half_pi, of_res. rewrite fquo_ok by lra. eexists. split; [reflexivity|]. apply rnd_exact; [lia|].
  destruct RP as (m & e & M & E). exists m, (e - 1). split; [exact M|]. rewrite E. replace e with (e - 1 + 1) at 1 by lia. rewrite pow2_S. field.
Qed.
Lemma rep_abs p x : representable p x -> representable p (Qabs x).
Proof. intros H. destruct (Qlt_le_dec x 0); [apply (rep_compat p (- x)); [symmetry; apply Qabs_neg; lra|apply rep_opp, H]|apply (rep_compat p x); [symmetry; apply Qabs_pos; lra|exact H]]. Qed.
Lemma rest_pos p x : 8 <= p -> representable p x -> (Qabs x < 1)%Q -> (0 < fsub (rnd p) 1 (fmul (rnd p) x x))%Q.
Proof.
  intros Hp R H. pose proof (Qabs_nonneg x) as A0. assert (X : (x * x == Qabs x * Qabs x)%Q). { rewrite <-Qabs_Qmult. symmetry. apply Qabs_pos. nra. }
  assert (B : (fmul (rnd p) x x <= Qabs x)%Q). { unfold fmul. pose proof (rnd_mono p (x * x) (Qabs x) ltac:(lia) ltac:(nra) ltac:(nra)) as M. rewrite (rnd_exact p (Qabs x) ltac:(lia) (rep_abs p x R)) in M. exact M. }
  unfold fsub. pose proof (rnd_pos p (1 - fmul (rnd p) x x) Hp ltac:(lra)) as [C _]. lra.
Qed.
Theorem asin_all p pi fuel d x : 8 <= p <= 1000000 -> pi_like p pi -> p + 2 < Z.of_nat fuel -> (forall q, (0 < q)%Q -> representable p q -> converges p fuel q) -> (4 <= d)%nat ->
  representable p x -> (-1 <= x)%Q -> (x <= 1)%Q ->
  exists z, float_asin (rnd p) p pi d fuel x = Some (Ok z) /\ between (- (pi / 2)) z (pi / 2) /\ signed x z /\ ((x == 1)%Q -> (z == pi / 2)%Q) /\ ((x == -1)%Q -> (z == - (pi / 2))%Q).
Proof.
  intros Hp PL Hf CV Hd R L1 L2. pose proof PL as (_ & P1 & P2). assert (HH : (pi / 2 == (1 # 2) * pi)%Q) by field. destruct (half_pi_is p pi ltac:(lia) PL) as (h & HP & HE). unfold float_asin. rewrite HP.
  destruct (Qeq_bool x 1) eqn:E1.
  - apply Qeq_bool_eq in E1. exists h. split; [reflexivity|]. split; [split; lra|]. split; [split; [|split]; intros; lra|]. split; intros; lra.
  - apply Qeq_bool_neq in E1. destruct (Qeq_bool x (-1)) eqn:E2.
    + apply Qeq_bool_eq in E2. exists (- h)%Q. split; [reflexivity|]. split; [split; lra|]. split; [split; [|split]; intros; lra|]. split; intros; lra.
    + apply Qeq_bool_neq in E2. assert (A : (Qabs x < 1)%Q). { apply Qabs_Qlt_condition. split; [destruct (Qlt_le_dec (-(1)) x) as [G|G]; [exact G|exfalso; apply E2; lra]|destruct (Qlt_le_dec x 1) as [G|G]; [exact G|exfalso; apply E1; lra]]. }
      pose proof (rest_pos p x ltac:(lia) R A) as Q0. set (q := fsub (rnd p) 1 (fmul (rnd p) x x)) in *. assert (RQ : representable p q). { apply rnd_nearest. lia. }
      destruct (CV q Q0 RQ) as (s & S). rewrite S. cbn [then_]. pose proof (sqrt_accurate p q fuel s ltac:(lia) Q0 S) as [S0 _]. rewrite fquo_ok by lra. cbn [of_res then_].
      assert (R2 : representable p 2). { exists 1, 1. split; [pose proof (Z.pow_pos_nonneg 2 p ltac:(lia) ltac:(lia)); lia|reflexivity]. }
      destruct (atan_all p pi fuel d (rnd p (x / s)) Hp PL Hf (CV 2%Q ltac:(lra) R2) Hd) as (z & E & B & G1 & G2 & G3). exists z. split; [exact E|]. split; [exact B|].
      assert (I : (0 < / s)%Q) by (apply Qinv_lt_0_compat; exact S0). split; [|split; intros; contradiction].
      split; [|split]; intros X.
      * apply G1. pose proof (rnd_pos p (x / s) ltac:(lia) ltac:(unfold Qdiv; apply Qmult_lt_0_compat; assumption)) as [C _]. assert (0 < x / s)%Q by (unfold Qdiv; apply Qmult_lt_0_compat; assumption). lra.
      * apply G2. assert (Y : (0 < - x / s)%Q) by (unfold Qdiv; apply Qmult_lt_0_compat; lra). pose proof (rnd_pos p (- x / s) ltac:(lia) Y) as [C _]. assert (W : (rnd p (x / s) == - rnd p (- x / s))%Q) by (rewrite <-FloatSign.rnd_opp; apply rnd_compat; [lia|field; lra]). lra.
      * apply G3. rewrite rnd_zero; [reflexivity|]. rewrite X. field. lra.
Qed.
Theorem acos_all p pi fuel d x : 8 <= p <= 1000000 -> pi_like p pi -> p + 2 < Z.of_nat fuel -> (forall q, (0 < q)%Q -> representable p q -> converges p fuel q) -> (4 <= d)%nat ->
  representable p x -> (-1 <= x)%Q -> (x <= 1)%Q ->
  exists z, float_acos (rnd p) p pi d fuel x = Some (Ok z) /\ between 0 z pi /\ ((x == 1)%Q -> (z == 0)%Q) /\ ((x == -1)%Q -> (z == pi)%Q) /\ ((x == 0)%Q -> (z == pi / 2)%Q).
Proof.
  intros Hp PL Hf CV Hd R L1 L2. pose proof PL as (RP & P1 & P2). assert (HH : (pi / 2 == (1 # 2) * pi)%Q) by field. destruct (half_pi_is p pi ltac:(lia) PL) as (h & HP & HE). unfold float_acos. rewrite HP. cbn [then_].
  destruct (asin_all p pi fuel d x Hp PL Hf CV Hd R L1 L2) as (w & W & (B1 & B2) & (G1 & G2 & G3) & E1 & E2). rewrite W. cbn [then_]. eexists. split; [reflexivity|]. unfold fsub.
  pose proof (rnd_exact p pi ltac:(lia) RP) as XP. assert (RH : representable p h). { destruct RP as (m & e & M & E). exists m, (e - 1). split; [exact M|]. rewrite HE, E. replace e with (e - 1 + 1) at 1 by lia. rewrite pow2_S. field. }
  split; [split; [apply rnd_nonneg; [lia|lra]|]|].
  - pose proof (rnd_mono p (h - w) pi ltac:(lia) ltac:(lra) ltac:(lra)). lra.
  - split; [|split]; intros X.
    + rewrite rnd_zero; [reflexivity|]. specialize (E1 X). lra.
    + specialize (E2 X). rewrite (rnd_compat p (h - w) pi) by (lia || lra). exact XP.
    + specialize (G3 X). rewrite (rnd_compat p (h - w) h) by (lia || lra). rewrite (rnd_exact p h ltac:(lia) RH). exact HE.
Qed.

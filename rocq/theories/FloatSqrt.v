From Coq Require Import QArith Qabs Qpower Setoid Lqa.
From Verif Require Import Value FloatModel FloatProofs.
Open Scope Z_scope.

Section Inv.
Variables (R : Q -> Q) (p : Z) (S : Type) (zof : S -> Q) (body : Z -> S -> res S) (next : Z -> S -> S).
Variable I : looper -> S -> Prop.
Hypothesis step : forall l s s' l', I l s -> body (l_i l) s = Ok s' -> done R p l (zof s') = More l' -> I l' (next (l_i l') s').
Lemma series_inv : forall fuel l s s', I l s -> series R p S zof body next fuel l s = Some (Ok s') ->
  exists l0 s0, I l0 s0 /\ body (l_i l0) s0 = Ok s' /\ done R p l0 (zof s') = Stop.
Proof.
  induction fuel as [|f IH]; intros l s s' Hi; [discriminate|]. cbn [series].
  destruct (body (l_i l) s) as [s1| | |] eqn:B; try discriminate.
  destruct (done R p l (zof s1)) as [| |l'] eqn:D; try discriminate.
  - intros [= <-]. exists l, s. auto.
  - apply IH. eapply step; eauto.
Qed.
End Inv.

Lemma abs_bd a b : (Qabs a <= b)%Q -> (- b <= a /\ a <= b)%Q.
Proof. apply Qabs_Qle_condition. Qed.
Lemma mul_le a b c d : (0 <= a -> a <= b -> 0 <= c -> c <= d -> a * c <= b * d)%Q.
Proof. intros. assert (0 <= (b - a) * c)%Q by (apply Qmult_le_0_compat; lra). assert (0 <= b * (d - c))%Q by (apply Qmult_le_0_compat; lra). lra. Qed.
Lemma eps_le p z : ~ (z == 0)%Q -> (eps p z <= 2 * (Qabs z * pow2 (- p)))%Q.
Proof.
  intros N. unfold eps, mant_exp. destruct (Z.eqb_spec (Qnum z) 0) as [C|_].
  { exfalso. apply N. destruct z; cbn in C; subst; reflexivity. }
  cbn [snd]. replace (ilog2 z + 1 - p) with (ilog2 z + (- p) + 1) by lia. rewrite pow2_S, pow2_add.
  destruct (ilog2_spec z N) as [I1 _]. pose proof (pow2_pos (- p)). nra.
Qed.
Lemma pow2_small p : 8 <= p -> (0 < pow2 (- p) /\ pow2 (- p) <= 1 # 256)%Q.
Proof.
  intros H. split; [apply pow2_pos|]. change (1 # 256) with (pow2 (-8)). apply pow2_le. lia.
Qed.

(* rounding, of positive numbers *)
Lemma rnd_pos p q : 8 <= p -> (0 < q)%Q -> ((255 # 256) * q <= rnd p q /\ rnd p q <= (257 # 256) * q)%Q.
Proof.
  intros Hp H. pose proof (rnd_error p q) as E. rewrite (Qabs_pos q) in E by lra. apply abs_bd in E.
  destruct (pow2_small p Hp) as [U1 U2]. split; nra.
Qed.
Lemma rnd_nonneg p q : 8 <= p -> (0 <= q)%Q -> (0 <= rnd p q)%Q.
Proof.
  intros Hp H. pose proof (rnd_error p q) as E. rewrite (Qabs_pos q) in E by lra. apply abs_bd in E.
  destruct (pow2_small p Hp) as [U1 U2]. nra.
Qed.

Lemma newton_ok p x z : 8 <= p -> (0 < x)%Q -> (0 < z)%Q -> exists z', newton (rnd p) x 0 z = Ok z' /\ (0 < z')%Q.
Proof.
  intros Hp Hx Hz. unfold newton, fquo, fmul, fsub, fint.
  set (zz := rnd p (z * z)). set (num := rnd p (zz - x)). set (two := rnd p (inject_Z 2)). set (den := rnd p (two * z)).
  destruct (pow2_small p Hp) as [U1 U2].
  assert (0 < z * z)%Q as Q0 by nra. pose proof (rnd_pos p _ Hp Q0) as [Z1 Z2]. fold zz in Z1, Z2.
  assert (0 < inject_Z 2)%Q as Q2 by reflexivity. pose proof (rnd_pos p _ Hp Q2) as [T1 T2]. fold two in T1, T2. change (inject_Z 2) with 2%Q in T1, T2.
  assert (0 < two * z)%Q as Q3 by nra. pose proof (rnd_pos p _ Hp Q3) as [D1 D2]. fold den in D1, D2.
  assert (0 < den)%Q as Dp by nra.
  assert (Qeq_bool den 0 = false) as ->. { destruct (Qeq_bool den 0) eqn:E; [|reflexivity]. apply Qeq_bool_iff in E. rewrite E in Dp. exfalso. lra. }
  cbn [bind]. eexists. split; [reflexivity|].
  set (q := (num / den)%Q). assert (q * den == num)%Q as Eq by (unfold q; field; lra).
  assert (num <= (11 # 10) * (z * z))%Q as N1.
  { pose proof (rnd_error p (zz - x)) as E. fold num in E. apply abs_bd in E.
    destruct (Qlt_le_dec 0 (zz - x)) as [P|P].
    - rewrite (Qabs_pos (zz - x)) in E by lra. nra.
    - rewrite (Qabs_neg (zz - x)) in E by lra. nra. }
  assert ((19 # 10) * z <= den)%Q as D3 by nra.
  assert (q <= (6 # 10) * z)%Q as Q4.
  { destruct (Qlt_le_dec ((6 # 10) * z) q) as [C|C]; [|exact C]. exfalso.
    assert ((6 # 10) * z * ((19 # 10) * z) < q * den)%Q; [|nra].
    assert (0 < q)%Q by nra. assert ((6 # 10) * z * ((19 # 10) * z) <= (6 # 10) * z * den)%Q by nra. nra. }
  assert (rnd p q <= (7 # 10) * z)%Q as Q5.
  { destruct (Qlt_le_dec 0 q) as [P|P]; [pose proof (rnd_pos p q Hp P) as [_ B]; nra|].
    pose proof (rnd_error p q) as E. rewrite (Qabs_neg q) in E by lra. apply abs_bd in E. nra. }
  assert (0 < z - rnd p q)%Q as Q6 by lra.
  pose proof (rnd_pos p _ Hp Q6) as [F1 _]. lra.
Qed.

Section Acc.
Variables (u x y z zz num den q t : Q).
Hypothesis Hu : (0 < u /\ u <= 1 # 256)%Q.
Hypothesis Hx : (0 < x)%Q.
Hypothesis Hy : (0 < y)%Q.
Hypothesis Hz : (0 < z)%Q.
Hypothesis Hzz : (Qabs (zz - y * y) <= (y * y) * u)%Q.
Hypothesis Hnum : (Qabs (num - (zz - x)) <= Qabs (zz - x) * u)%Q.
Hypothesis Hden : (0 < den /\ den <= 2 * y * (1 + 3 * u))%Q.
Hypothesis Hq : (q * den == num)%Q.
Hypothesis Ht : (Qabs (t - q) <= Qabs q * u)%Q.
Hypothesis Hzt : (Qabs (z - (y - t)) <= Qabs (y - t) * u)%Q.
Hypothesis Hd : (Qabs (y - z) * (1 - u) <= 2 * (z * u))%Q.

Lemma small_abs a b : (0 <= a)%Q -> (a * (1 - u) <= b)%Q -> (a <= (256 # 255) * b)%Q.
Proof. intros Ha H. nra. Qed.
Lemma near a b : (Qabs (a - b) <= Qabs b * u)%Q -> (Qabs b <= (256 # 255) * Qabs a)%Q.
Proof.
  intros H. apply small_abs; [apply Qabs_nonneg|]. pose proof (Qabs_triangle (b - a) a) as T.
  assert (b - a + a == b)%Q as E by ring. rewrite E in T. rewrite (Qabs_Qminus b a) in T. lra.
Qed.
Lemma sqrt_acc : (Qabs (z * z - x) <= 16 * (x * u))%Q.
Proof.
  set (w := (z * u)%Q) in *. assert (0 < w)%Q as W0 by (unfold w; nra). assert (w <= (1 # 256) * z)%Q as W1 by (unfold w; nra).
  pose proof (small_abs _ _ (Qabs_nonneg _) Hd) as A1. (* |y-z| <= 2.008 w *)
  pose proof (near _ _ Hzt) as A2. rewrite (Qabs_pos z) in A2 by lra.
  assert (Qabs (y - t) * u <= (256 # 255) * w)%Q as A3 by (unfold w; nra).
  assert (Qabs t <= (302 # 100) * w)%Q as A4.
  { pose proof (Qabs_triangle (y - z) (z - (y - t))) as T. assert (y - z + (z - (y - t)) == t)%Q as E by ring. rewrite E in T. lra. }
  pose proof (near _ _ Ht) as A5. assert (Qabs q <= (304 # 100) * w)%Q as A6 by lra.
  assert (y <= (101 # 100) * z)%Q as Y1. { apply abs_bd in A1. lra. }
  assert (den <= (205 # 100) * z)%Q as D1.
  { destruct Hden as [_ D]. assert (0 <= y * ((1 # 256) - u))%Q as K by (apply Qmult_le_0_compat; lra). lra. }
  assert (0 < w * z)%Q as WZ by (apply Qmult_lt_0_compat; assumption).
  assert (Qabs num <= (624 # 100) * (w * z))%Q as N1.
  { rewrite <-Hq, Qabs_Qmult. rewrite (Qabs_pos den) by lra. pose proof (Qabs_nonneg q).
    pose proof (mul_le _ _ _ _ H A6 (Qlt_le_weak _ _ (proj1 Hden)) D1) as K. lra. }
  pose proof (near _ _ Hnum) as N2. assert (Qabs (zz - x) <= (628 # 100) * (w * z))%Q as N3 by lra.
  assert (y * y <= (103 # 100) * (z * z))%Q as Y2.
  { pose proof (mul_le y _ y _ ltac:(lra) Y1 ltac:(lra) Y1) as K. assert (0 < z * z)%Q by (apply Qmult_lt_0_compat; assumption). lra. }
  assert (Qabs (zz - y * y) <= (103 # 100) * (w * z))%Q as Z1.
  { assert (y * y * u <= (103 # 100) * (w * z))%Q; [unfold w; nra|lra]. }
  assert (Qabs (y * y - z * z) <= (41 # 10) * (w * z))%Q as Z2.
  { assert (y * y - z * z == (y - z) * (y + z))%Q as E by ring. rewrite E, Qabs_Qmult. rewrite (Qabs_pos (y + z)) by lra.
    pose proof (Qabs_nonneg (y - z)). set (D := Qabs (y - z)) in *. pose proof (mul_le D _ (y + z) ((201 # 100) * z) ltac:(lra) A1 ltac:(lra) ltac:(lra)). lra. }
  assert (Qabs (z * z - x) <= (115 # 10) * (w * z))%Q as F.
  { pose proof (Qabs_triangle (z * z - y * y) (y * y - zz + (zz - x))) as T1. pose proof (Qabs_triangle (y * y - zz) (zz - x)) as T2.
    assert (z * z - y * y + (y * y - zz + (zz - x)) == z * z - x)%Q as E by ring. rewrite E in T1.
    rewrite (Qabs_Qminus (z * z) (y * y)) in T1. rewrite (Qabs_Qminus (y * y) zz) in T2. lra. }
  assert (w * z == z * z * u)%Q as E by (unfold w; ring). rewrite E in F.
  assert (z * z <= (106 # 100) * x)%Q as B. { apply abs_bd in F. nra. }
  assert ((115 # 10) * (z * z * u) <= 16 * (x * u))%Q; [|lra]. nra.
Qed.
End Acc.

Definition sqrt_inv (x : Q) (l : looper) (z : Q) : Prop := (0 < z)%Q /\ 0 <= l_i l /\ (0 < l_i l -> l_prev l = z).
Lemma sqrt_accurate p x fuel z : 8 <= p -> (0 < x)%Q -> float_sqrt (rnd p) p fuel x = Some (Ok z) ->
  (0 < z)%Q /\ (Qabs (z * z - x) <= 16 * (x * pow2 (- p)))%Q.
Proof.
  intros Hp Hx. unfold float_sqrt.
  assert (0 < Qnum x) as Nx. { destruct x as [n d]. unfold Qlt in Hx. cbn in *. lia. }
  destruct (Z.ltb_spec (Qnum x) 0); [lia|]. destruct (Z.eqb_spec (Qnum x) 0); [lia|]. intros H1.
  assert (sqrt_inv x (new_loop 1 p) (sqrt_start x)) as I0.
  { split; [|cbn; lia]. unfold sqrt_start, mant_exp. destruct (Z.eqb_spec (Qnum x) 0); [lia|].
    rewrite Qred_correct. rewrite Qred_correct. pose proof (pow2_pos (- (ilog2 x + 1))). pose proof (pow2_pos (Z.quot (ilog2 x + 1) 2)).
    apply Qmult_lt_0_compat; [apply Qmult_lt_0_compat; assumption|assumption]. }
  eapply series_inv with (I := sqrt_inv x) in H1; [|clear - Hp Hx|exact I0].
  - destruct H1 as (l & y & (Hy & Hi & Hprev) & B & D). clear fuel I0.
    assert (newton (rnd p) x 0 y = Ok z) as B' by exact B.
    destruct (newton_ok p x y Hp Hx Hy) as (z' & Ez & Hz). rewrite B' in Ez. injection Ez as <-. split; [exact Hz|].
    unfold done in D. assert (3 <= l_i l /\ (Qabs (rnd p (l_prev l - z)) <= 2 * (z * pow2 (- p)))%Q) as [L3 Dl].
    { pose proof (eps_le p z ltac:(lra)) as E. rewrite (Qabs_pos z) in E by lra. destruct (pow2_small p Hp) as [U1 U2].
      destruct (Qeq_bool _ 0 && (3 <=? l_i l)) eqn:E1.
      - apply andb_true_iff in E1. destruct E1 as [E1 E2]. apply Qeq_bool_iff in E1. apply Z.leb_le in E2. split; [exact E2|].
        rewrite E1. change (Qabs 0) with 0%Q. nra.
      - destruct (Qle_bool _ _ && (3 <=? l_i l)) eqn:E2; [|destruct (_ =? _); discriminate].
        apply andb_true_iff in E2. destruct E2 as [E2 E3]. apply Qle_bool_iff in E2. apply Z.leb_le in E3. split; [exact E3|]. lra. }
    rewrite Hprev in Dl by lia. clear D Hprev B. revert B'. unfold newton, fquo, fmul, fsub, fint.
    destruct (Qeq_bool (rnd p (rnd p (inject_Z 2) * y)) 0) eqn:E0; [discriminate|]. cbn [bind]. intros [= Ez].
    destruct (pow2_small p Hp) as [U1 U2].
    pose proof (rnd_error p (inject_Z 2)) as Etwo. rewrite (Qabs_pos (inject_Z 2)) in Etwo by discriminate. apply abs_bd in Etwo. change (inject_Z 2) with 2%Q in *.
    set (two := rnd p 2) in *. assert (0 < two * y)%Q as P2 by nra.
    pose proof (rnd_error p (two * y)) as Eden. rewrite (Qabs_pos (two * y)) in Eden by lra. apply abs_bd in Eden.
    pose proof (rnd_pos p _ Hp P2) as [D1 _]. set (den := rnd p (two * y)) in *.
    assert (0 < den)%Q as Dp by lra.
    apply (sqrt_acc (pow2 (- p)) x y z (rnd p (y * y)) (rnd p (rnd p (y * y) - x)) den (rnd p (rnd p (y * y) - x) / den) (rnd p (rnd p (rnd p (y * y) - x) / den))); auto.
    + pose proof (rnd_error p (y * y)) as E. rewrite (Qabs_pos (y * y)) in E by nra. exact E.
    + apply rnd_error.
    + split; [exact Dp|]. destruct Eden as [_ Ed]. destruct Etwo as [_ Et]. set (uu := pow2 (- p)) in *.
      assert (den <= two * y * (1 + uu))%Q by lra. assert (two * y * (1 + uu) <= 2 * (1 + uu) * y * (1 + uu))%Q.
      { assert (two <= 2 * (1 + uu))%Q by lra. assert (0 < y * (1 + uu))%Q by nra. nra. }
      assert ((1 + uu) * (1 + uu) <= 1 + 3 * uu)%Q by nra. nra.
    + field. lra.
    + apply rnd_error.
    + rewrite <-Ez at 1. apply rnd_error.
    + pose proof (rnd_error p (y - z)) as E.
      pose proof (Qabs_triangle (y - z - rnd p (y - z)) (rnd p (y - z))) as T.
      assert (y - z - rnd p (y - z) + rnd p (y - z) == y - z)%Q as E2 by ring. rewrite E2 in T.
      rewrite (Qabs_Qminus (y - z)) in T. lra.
  - intros l y z1 l' (Hy & Hi & Hp1) B D. destruct (newton_ok p x y Hp Hx Hy) as (z' & Ez & Hz).
    assert (newton (rnd p) x 0 y = Ok z1) as B' by exact B. rewrite B' in Ez. injection Ez as <-.
    unfold done in D. destruct (_ && _); [discriminate|]. destruct (_ && _); [discriminate|].
    destruct (_ =? _); [discriminate|]. injection D as <-. split; [exact Hz|]. cbn [l_i l_prev]. split; [|reflexivity].
    apply Z.mod_pos_bound. reflexivity.
Qed.

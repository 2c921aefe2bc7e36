From Coq Require Import List ZArith Lia QArith Qabs Qpower Lqa.
From Verif Require Import Value FloatModel FloatProofs FloatSqrt FloatMono FloatReduce SqrtConv ArcProofs PowProofs SeriesSpec.
Open Scope Z_scope.

(* a and b differ by a factor of at most r ^ -k *)
Definition close (r : Q) (k : Z) (a b : Q) : Prop := (0 <= a /\ 0 <= b /\ a * r ^ k <= b /\ b * r ^ k <= a)%Q.
Section Close.
Variable r : Q.
Hypotheses (r0 : (0 < r)%Q) (r1 : (r <= 1)%Q).
Lemma close_refl a b : (0 <= a)%Q -> (a == b)%Q -> close r 0 a b.
Proof. intros A E. unfold close. change (r ^ 0)%Q with 1%Q. lra. Qed.
Lemma close_mono k l a b : k <= l -> close r k a b -> close r l a b.
Proof.
  intros K (A & B & C & D). pose proof (qp_down r k l r0 r1 K) as M. unfold close. repeat split; try assumption; nra.
Qed.
Lemma close_trans k l a b c : close r k a b -> close r l b c -> close r (k + l) a c.
Proof.
  intros (A & B & C & D) (A' & B' & C' & D'). pose proof (qp_pos r k r0). pose proof (qp_pos r l r0). unfold close. rewrite Qpower_plus by lra.
  assert (a * r ^ k * r ^ l <= b * r ^ l)%Q by (apply mul_l_le; assumption). assert (c * r ^ l * r ^ k <= b * r ^ k)%Q by (apply mul_l_le; assumption). repeat split; lra.
Qed.
Lemma prod_le a b c d : (0 <= a)%Q -> (a <= b)%Q -> (0 <= c)%Q -> (c <= d)%Q -> (a * c <= b * d)%Q. Proof. intros. nra. Qed.
Lemma close_mul k l a b c d : close r k a b -> close r l c d -> close r (k + l) (a * c) (b * d).
Proof.
  intros (A & B & C & D) (A' & B' & C' & D'). pose proof (qp_pos r k r0) as P. pose proof (qp_pos r l r0) as P'. unfold close. rewrite Qpower_plus by lra.
  assert (a * r ^ k * (c * r ^ l) <= b * d)%Q by (apply prod_le; try assumption; apply Qmult_le_0_compat; lra).
  assert (b * r ^ k * (d * r ^ l) <= a * c)%Q by (apply prod_le; try assumption; apply Qmult_le_0_compat; lra).
  repeat split; try (apply Qmult_le_0_compat; assumption); lra.
Qed.
Lemma inv_le a b q : (0 < a)%Q -> (0 < b)%Q -> (b * q <= a)%Q -> (1 / a * q <= 1 / b)%Q.
Proof. intros A B H. apply Qle_shift_div_l; [exact B|]. setoid_replace (1 / a * q * b)%Q with (b * q / a)%Q by (field; lra). apply Qle_shift_div_r; [exact A|lra]. Qed.
Lemma close_inv l c d : (0 < c)%Q -> (0 < d)%Q -> close r l c d -> close r l (1 / c) (1 / d).
Proof.
  intros C D (_ & _ & A & B). unfold close. split; [apply Qle_shift_div_l; lra|]. split; [apply Qle_shift_div_l; lra|]. split; apply inv_le; assumption.
Qed.
Lemma close_eq k a b a' b' : (a == a')%Q -> (b == b')%Q -> close r k a b -> close r k a' b'.
Proof. intros A B (C & D & E & F). unfold close. rewrite <-A, <-B. auto. Qed.
Lemma close_div k l a b c d : (0 < c)%Q -> (0 < d)%Q -> close r k a b -> close r l c d -> close r (k + l) (a / c) (b / d).
Proof.
  intros C D A B. apply (close_eq _ (a * (1 / c)) (b * (1 / d))); [field; lra|field; lra|]. apply close_mul; [exact A|apply close_inv; assumption].
Qed.
Lemma close_add k a b c d : close r k a b -> close r k c d -> close r k (a + c) (b + d).
Proof. intros (A & B & C & D) (A' & B' & C' & D'). unfold close. repeat split; lra. Qed.
Lemma close_sym k a b : close r k a b -> close r k b a. Proof. unfold close. tauto. Qed.
End Close.

Section Rnd.
Variables (p : Z). Hypothesis Hp : 8 <= p.
Notation u := (pow2 (- p)).
Notation r := (1 - pow2 (- p))%Q.
Lemma rr : (0 < r /\ r <= 1)%Q. Proof. destruct (pow2_small p Hp). split; lra. Qed.
Lemma close_rnd q : (0 <= q)%Q -> close r 1 (rnd p q) q.
Proof.
  intros Q0. destruct (pow2_small p Hp) as [U0 U1]. destruct (rel p q) as (d & E & A & B). unfold close. change (r ^ 1)%Q with r. rewrite E.
  assert (0 <= q * (1 + d))%Q by (apply Qmult_le_0_compat; lra). split; [assumption|]. split; [assumption|]. split.
  - assert ((1 + d) * (1 - u) <= 1)%Q by nra. setoid_replace (q * (1 + d) * (1 - u))%Q with (q * ((1 + d) * (1 - u)))%Q by ring. nra.
  - nra.
Qed.
Lemma bernoulli k : 0 <= k -> (1 - inject_Z k * u <= r ^ k)%Q.
Proof.
  destruct (pow2_small p Hp) as [U0 U1]. destruct rr as [R0 R1]. revert k. apply natlike_ind.
  - change (r ^ 0)%Q with 1%Q. change (inject_Z 0) with 0%Q. lra.
  - intros k Hk IH. unfold Z.succ. rewrite qp_S by exact R0. rewrite inject_Z_plus. change (inject_Z 1) with 1%Q. assert (0 <= inject_Z k)%Q by (change 0%Q with (inject_Z 0); rewrite <-Zle_Qle; exact Hk).
    assert ((1 - u) * (1 - inject_Z k * u) <= (1 - u) * r ^ k)%Q by nra. assert (0 <= u * (inject_Z k * u))%Q by (apply Qmult_le_0_compat; [lra|apply Qmult_le_0_compat; lra]). lra.
Qed.

Section Pw.
Variables (c k0 : Z) (T Sm : nat -> Q) (next : Z -> pw -> pw).
Hypotheses (c1 : 1 <= c) (k00 : 0 <= k0) (p1 : p <= 1000000).
Hypothesis sm : forall i, (Sm (S i) == Sm i + T i)%Q.
Hypothesis nx : forall i z xN f k, 0 <= k -> (0 <= xN)%Q -> (0 < f)%Q -> close r k (xN / f) (T i) ->
  exists xN' f', next (Z.of_nat i + 1) (z, xN, f) = (z, xN', f') /\ (0 <= xN')%Q /\ (0 < f')%Q /\ close r (k + c) (xN' / f') (T (S i)).
Variables (z0 x0 f0 : Q).
Hypotheses (Z0 : close r (k0 + 1) z0 (Sm O)) (X0 : (0 <= x0)%Q) (F0 : (0 < f0)%Q) (T0 : close r k0 (x0 / f0) (T O)).

Definition inv (l : looper) (s : pw) : Prop := exists i z xN f, s = (z, xN, f) /\ l_i l = Z.of_nat i /\ l_max l = 10 * p + 10 /\ l_i l < 10 * p + 10 /\
  ((0 < i)%nat -> l_prev l = z) /\ (0 <= xN)%Q /\ (0 < f)%Q /\ close r (c * Z.of_nat i + k0) (xN / f) (T i) /\ close r (c * Z.of_nat i + k0 + 1) z (Sm i).

Lemma body_close i z xN f : (0 <= xN)%Q -> (0 < f)%Q -> close r (c * Z.of_nat i + k0) (xN / f) (T i) -> close r (c * Z.of_nat i + k0 + 1) z (Sm i) ->
  close r (c * Z.of_nat i + k0 + 2) (rnd p (z + rnd p (xN / f))) (Sm (S i)).
Proof.
  intros A B C D. destruct rr as [R0 R1]. assert (Q0 : (0 <= xN / f)%Q) by (apply Qle_shift_div_l; lra). pose proof (close_rnd _ Q0) as E. pose proof (close_trans r R0 _ _ _ _ _ E C) as G.
  pose proof (close_add r _ _ _ _ _ D (close_mono r R0 R1 (1 + (c * Z.of_nat i + k0)) (c * Z.of_nat i + k0 + 1) _ _ ltac:(lia) G)) as H.
  assert (0 <= z + rnd p (xN / f))%Q as P by (destruct H; assumption). pose proof (close_trans r R0 _ _ _ _ _ (close_rnd _ P) H) as J.
  apply (close_eq r _ (rnd p (z + rnd p (xN / f))) (Sm i + T i)); [reflexivity|rewrite sm; reflexivity|]. apply (close_mono r R0 R1 (1 + (c * Z.of_nat i + k0 + 1))); [lia|exact J].
Qed.

Lemma pw_result fuel z : result pw_z (series (rnd p) p pw pw_z (pw_body (rnd p)) next fuel (new_loop 10 p) (z0, x0, f0)) = Some (Ok z) ->
  (10 * c * p + 10 * c + k0 + 2) * 5 <= 2 ^ p ->
  exists i, (3 <= i)%nat /\ Z.of_nat i < 10 * p + 10 /\ close r (c * Z.of_nat i + k0 + 2) z (Sm (S i)) /\ (T i <= 5 * (z * u))%Q.
Proof.
  destruct rr as [R0 R1]. destruct (pow2_small p Hp) as [U0 U1]. intros H K.
  destruct (series (rnd p) p pw pw_z (pw_body (rnd p)) next fuel (new_loop 10 p) (z0, x0, f0)) as [[s| | |]|] eqn:E; try discriminate. injection H as <-.
  apply (series_inv (rnd p) p pw pw_z (pw_body (rnd p)) next inv) in E.
  - destruct E as (l & s0 & (i & zz & xN & f & -> & L1 & L2 & L3 & L4 & A & B & C & D) & Bd & St). unfold pw_body in Bd. rewrite fquo_ok in Bd by lra. cbn in Bd. injection Bd as <-. unfold pw_z in *. cbn [fst] in *. unfold fadd in *.
    pose proof (body_close i zz xN f A B C D) as BC. set (t := rnd p (xN / f)) in *. set (z' := rnd p (zz + t)) in *.
    assert (T3 : 3 <= l_i l /\ (Qabs (rnd p (l_prev l - z')) <= 2 * (Qabs z' * u))%Q).
    { unfold done in St. destruct (Qeq_bool _ 0 && _) eqn:E1.
      - apply andb_prop in E1. destruct E1 as [E1 E2]. apply Qeq_bool_eq in E1. split; [lia|]. rewrite E1. change (Qabs 0) with 0%Q. pose proof (Qabs_nonneg z'). assert (0 <= Qabs z' * u)%Q by (apply Qmult_le_0_compat; lra). lra.
      - destruct (Qle_bool _ _ && _) eqn:E2; [|destruct (_ =? _); discriminate]. apply andb_prop in E2. destruct E2 as [E2 E3]. apply Qle_bool_iff in E2. split; [lia|].
        destruct (Qeq_dec z' 0) as [Z|Z]; [|pose proof (eps_le p z' Z); lra].
        assert (Y : (zz + t == 0)%Q). { destruct (close_rnd (zz + t)) as (_ & _ & _ & W); [destruct D; assert (0 <= t)%Q by (apply rnd_nonneg; [exact Hp|apply Qle_shift_div_l; lra]); lra|]. fold z' in W. rewrite Z in W. change (r ^ 1)%Q with r in W. destruct D as (D0 & _). assert (0 <= t)%Q by (apply rnd_nonneg; [exact Hp|apply Qle_shift_div_l; lra]). nra. }
        rewrite L4 by lia. destruct D as (D0 & _). assert (0 <= t)%Q by (apply rnd_nonneg; [exact Hp|apply Qle_shift_div_l; lra]). rewrite rnd_zero by lra. rewrite Z. change (Qabs 0) with 0%Q. lra. }
    destruct T3 as [I3 De]. rewrite L4 in De by lia. exists i. split; [lia|]. split; [lia|]. split; [exact BC|].
    destruct BC as (B0 & _). rewrite (Qabs_pos z' B0) in De. pose proof (close_rnd (xN / f) ltac:(apply Qle_shift_div_l; lra)) as CT. fold t in CT. pose proof (close_trans r R0 _ _ _ _ _ CT C) as (T1 & T2 & _ & T4).
    destruct D as (D0 & _). destruct (close_rnd (zz + t) ltac:(lra)) as (_ & _ & _ & ZT). fold z' in ZT. change (r ^ 1)%Q with r in ZT.
    destruct (rel p (zz - z')) as (d & Ed & Da & Db). rewrite Ed in De. apply abs_bd in De. destruct De as [De1 De2].
    assert (t <= 4 * (z' * u))%Q as TT.
    { assert (z' - zz <= (2 # 1) * (z' * u) * (129 # 128) \/ z' - zz <= 0)%Q as W. { destruct (Qlt_le_dec 0 (z' - zz)) as [V|V]; [left|right; exact V]. assert ((z' - zz) * (255 # 256) <= 2 * (z' * u))%Q by nra. assert (0 <= z' * u)%Q by (apply Qmult_le_0_compat; lra). lra. }
      assert (0 <= z' * u)%Q by (apply Qmult_le_0_compat; lra). assert (zz + t - z' <= (zz + t) * u)%Q by lra. assert ((zz + t) * (255 # 256) <= z')%Q by nra. assert ((zz + t) * u <= (256 # 255) * z' * u)%Q by (apply mul_l_le; lra). destruct W; lra. }
    pose proof (bernoulli (1 + (c * Z.of_nat i + k0)) ltac:(nia)) as BE.
    assert (inject_Z (1 + (c * Z.of_nat i + k0)) * u <= 1 # 5)%Q as KU.
    { assert (5 * (1 + (c * Z.of_nat i + k0)) <= 2 ^ p) as V by nia. rewrite Zle_Qle, inject_Z_mult in V. change (inject_Z 5) with 5%Q in V. assert (W : (inject_Z (2 ^ p) * u == 1)%Q) by (rewrite <-pow2_Z by lia; rewrite <-pow2_add; replace (p + - p) with 0 by lia; reflexivity). pose proof (mul_l_le _ _ _ U0 V). lra. }
    assert (0 <= T i)%Q by exact T2. assert (T i * (4 # 5) <= T i * r ^ (1 + (c * Z.of_nat i + k0)))%Q by nra. lra.
  - clear E s; intros l s s1 l' (i & zz & xN & f & -> & L1 & L2 & L3 & L4 & A & B & C & D) Bd M. unfold pw_body in Bd. rewrite fquo_ok in Bd by lra. cbn in Bd. injection Bd as <-. unfold pw_z in M. cbn [fst] in M. unfold fadd in *.
    unfold done in M. destruct (_ && _); [discriminate|]. destruct (_ && _); [discriminate|]. rewrite Z.mod_small in M by lia. destruct (Z.eqb_spec (l_i l + 1) (l_max l)) as [|NE]; [discriminate|]. injection M as <-. cbn [l_i].
    set (z' := rnd p (zz + rnd p (xN / f))) in *. destruct (nx i z' xN f (c * Z.of_nat i + k0) ltac:(nia) A B C) as (xN' & f' & E' & A' & B' & C').
    exists (S i), z', xN', f'. rewrite L1, E'. cbn [l_i l_max l_prev]. split; [reflexivity|]. split; [lia|]. split; [exact L2|]. split; [lia|]. split; [reflexivity|]. split; [exact A'|]. split; [exact B'|]. split.
    + apply (close_mono r R0 R1 (c * Z.of_nat i + k0 + c)); [lia|exact C'].
    + apply (close_mono r R0 R1 (c * Z.of_nat i + k0 + 2)); [lia|apply body_close; assumption].
  - exists O, z0, x0, f0. unfold new_loop. cbn [l_i l_max l_prev]. replace (c * Z.of_nat 0 + k0) with k0 by lia. rewrite (Z.mod_small (10 * p)) by lia; rewrite Z.mod_small by lia. split; [reflexivity|]. split; [reflexivity|]. split; [lia|]. split; [lia|]. split; [lia|]. auto.
Qed.

Hypothesis tpos : forall i, (0 <= T i)%Q.
(* the terms grow, or fall by less than one half, up to J, and fall by one half and more from J *)
Variable J : nat.
Hypotheses (Jp : Z.of_nat J <= p - 4) (grow : forall j, (j < J)%nat -> (0 < T j /\ T j <= 2 * T (S j))%Q) (half : forall j, (J <= j)%nat -> (T (S j) <= (1 # 2) * T j)%Q) (first : (0 < J)%nat -> (Sm O <= T O)%Q).
Lemma head i : (i < J)%nat -> (Sm i + T i <= (3 * pow2 (Z.of_nat i) - 1) * T i)%Q.
Proof.
  induction i as [|i IH]; intros I; [specialize (first I); change (pow2 (Z.of_nat 0)) with 1%Q; lra|]. specialize (IH ltac:(lia)). destruct (grow i ltac:(lia)) as [G0 G1]. rewrite sm. replace (Z.of_nat (S i)) with (Z.of_nat i + 1) by lia. rewrite pow2_S. pose proof (pow2_le 0 (Z.of_nat i) ltac:(lia)) as P. change (pow2 0) with 1%Q in P.
  set (b := pow2 (Z.of_nat i)) in *. assert ((3 * b - 1) * T i <= (3 * b - 1) * (2 * T (S i)))%Q by nra. lra.
Qed.
Lemma past i : (T i <= 7 * (Sm (S i) * u))%Q -> (J <= i)%nat.
Proof.
  intros H. destruct (le_lt_dec J i) as [L|L]; [exact L|]. exfalso. pose proof (head i L) as E. destruct (grow i L) as [G _]. rewrite sm in H. destruct (pow2_small p Hp) as [U0 U1].
  assert (X : (pow2 (Z.of_nat i) * u <= 1 # 32)%Q). { rewrite <-pow2_add. change (1 # 32) with (pow2 (-5)). apply pow2_le. lia. }
  set (b := pow2 (Z.of_nat i)) in *. assert ((Sm i + T i) * u <= 3 * b * T i * u)%Q by (apply mul_l_le; lra). assert (T i * (b * u) <= T i * (1 # 32))%Q by nra. lra.
Qed.
Lemma tail_le i m : (J <= i)%nat -> (Sm (S i) <= Sm (S (i + m)) /\ Sm (S (i + m)) + T (i + m)%nat <= Sm (S i) + T i)%Q.
Proof.
  intros I. induction m as [|m IH]; [rewrite Nat.add_0_r; lra|]. rewrite Nat.add_succ_r. pose proof (sm (S (i + m))) as E. pose proof (half (i + m) ltac:(lia)) as H. pose proof (tpos (S (i + m))). rewrite E. lra.
Qed.
Theorem pw_limit fuel z : result pw_z (series (rnd p) p pw pw_z (pw_body (rnd p)) next fuel (new_loop 10 p) (z0, x0, f0)) = Some (Ok z) ->
  (10 * c * p + 10 * c + k0 + 2) * 5 <= 2 ^ p -> near_limit (inject_Z (14 * c * (p + 1) + 2 * k0 + 10) * u) z Sm.
Proof.
  intros H K. destruct (pw_result fuel z H K) as (i & I3 & Im & (A & B & C & D) & Ti). exists (S i). intros n Hn.
  destruct (pow2_small p Hp) as [U0 U1]. pose proof (bernoulli (c * Z.of_nat i + k0 + 2) ltac:(nia)) as BE. set (kk := c * Z.of_nat i + k0 + 2) in *.
  assert (KK : 0 <= kk <= 10 * c * p + 9 * c + k0 + 2) by (unfold kk; nia). assert (W : (inject_Z (2 ^ p) * u == 1)%Q) by (rewrite <-pow2_Z by lia; rewrite <-pow2_add; replace (p + - p) with 0 by lia; reflexivity).
  assert (KU : (0 <= inject_Z kk * u /\ inject_Z kk * u <= 1 # 5)%Q).
  { assert (5 * kk <= 2 ^ p) as V by nia. rewrite Zle_Qle, inject_Z_mult in V. change (inject_Z 5) with 5%Q in V. assert (0 <= inject_Z kk)%Q by (change 0%Q with (inject_Z 0); rewrite <-Zle_Qle; lia). split; [apply Qmult_le_0_compat; lra|]. pose proof (mul_l_le _ _ _ U0 V). lra. }
  assert (KN : ((5 # 4) * (inject_Z kk * u) + 7 * u <= inject_Z (14 * c * (p + 1) + 2 * k0 + 10) * u)%Q).
  { assert (5 * kk + 28 <= 4 * (14 * c * (p + 1) + 2 * k0 + 10)) as V by nia. rewrite Zle_Qle, inject_Z_plus, !(inject_Z_mult _ kk), inject_Z_mult in V. change (inject_Z 5) with 5%Q in V. change (inject_Z 28) with 28%Q in V. change (inject_Z 4) with 4%Q in V. nra. }
  set (N := (inject_Z (14 * c * (p + 1) + 2 * k0 + 10) * u)%Q) in *. set (e := (inject_Z kk * u)%Q) in *.
  assert (S1 : (z * (1 - e) <= Sm (S i))%Q) by nra. assert (S2 : (Sm (S i) * (1 - e) <= z)%Q) by nra.
  assert (Zs : (z <= (5 # 4) * Sm (S i))%Q) by nra.
  assert (Z1 : (z - Sm (S i) <= Sm (S i) * ((5 # 4) * e))%Q). { assert (z * e <= (5 # 4) * Sm (S i) * e)%Q by nra. lra. }
  assert (Z2 : (Sm (S i) - z <= Sm (S i) * e)%Q) by lra.
  assert (T5 : (T i <= 7 * (Sm (S i) * u))%Q). { assert (z * u <= (5 # 4) * Sm (S i) * u)%Q by (apply mul_l_le; lra). assert (0 <= Sm (S i) * u)%Q by (apply Qmult_le_0_compat; lra). lra. }
  destruct (tail_le i (n - S i) (past i T5)) as [L1 L2]. pose proof (tpos (i + (n - S i))). replace (S (i + (n - S i))) with n in * by lia. set (s := Sm (S i)) in *. set (w := Sm n) in *. assert (W0 : (0 <= w)%Q) by lra. rewrite (Qabs_pos w W0).
  assert (WT : (w <= s + T i)%Q) by lra.
  apply Qabs_Qle_condition. split; nra.
Qed.
End Pw.
End Rnd.

From Coq Require Import QArith Qabs Qpower Setoid Lqa.
From Verif Require Import Value FloatModel.
Open Scope Z_scope.

(* ---- powers of two ---- *)
Lemma pow2_spec e : (pow2 e == 2 ^ e)%Q.
Proof.
  unfold pow2. destruct (Z.leb_spec 0 e) as [H|H].
  - rewrite Qpower.Zpower_Qpower by exact H. reflexivity.
  - replace e with (- (- e)) at 2 by lia. rewrite Qpower_opp.
    rewrite <-(Qpower.Zpower_Qpower 2 (- e)) by lia.
    assert (0 < 2 ^ (- e)) by (apply Z.pow_pos_nonneg; lia).
    unfold Qinv, inject_Z, Qeq. cbn. destruct (2 ^ (- e)) eqn:E; try lia. cbn. reflexivity.
Qed.
Lemma pow2_pos e : (0 < pow2 e)%Q.
Proof. rewrite pow2_spec. apply Qpower_0_lt. reflexivity. Qed.
Lemma pow2_add a b : (pow2 (a + b) == pow2 a * pow2 b)%Q.
Proof. rewrite !pow2_spec. apply Qpower_plus. intros C. discriminate C. Qed.
Lemma pow2_0 : (pow2 0 == 1)%Q. Proof. reflexivity. Qed.
Lemma pow2_opp e : (pow2 (- e) * pow2 e == 1)%Q.
Proof. rewrite <-pow2_add. replace (- e + e) with 0 by lia. reflexivity. Qed.
Lemma pow2_S e : (pow2 (e + 1) == 2 * pow2 e)%Q.
Proof. rewrite pow2_add. change (pow2 1) with 2%Q. ring. Qed.
Lemma pow2_le a b : a <= b -> (pow2 a <= pow2 b)%Q.
Proof.
  intros H. replace b with (a + (b - a)) by lia. rewrite pow2_add. pose proof (pow2_pos a).
  assert (1 <= pow2 (b - a))%Q.
  { unfold pow2. destruct (Z.leb_spec 0 (b - a)); [|lia]. assert (0 < 2 ^ (b - a)) by (apply Z.pow_pos_nonneg; lia).
    unfold Qle, inject_Z. cbn. lia. }
  nra.
Qed.
Lemma pow2_Z e : 0 <= e -> pow2 e = inject_Z (2 ^ e).
Proof. intros H. unfold pow2. destruct (Z.leb_spec 0 e); [reflexivity|lia]. Qed.

(* ---- the exponent of a number ---- *)
Lemma log2_q n d : 0 < n -> let k := Z.log2 n - Z.log2 (Zpos d) in
  (pow2 (k - 1) < n # d)%Q /\ (n # d < pow2 (k + 1))%Q.
Proof.
  intros Hn k. pose proof (Z.log2_spec n Hn) as [L1 L2]. pose proof (Z.log2_spec (Zpos d) eq_refl) as [M1 M2].
  pose proof (Z.log2_nonneg n). pose proof (Z.log2_nonneg (Zpos d)). rewrite Z.pow_succ_r in L2, M2 by lia.
  set (a := Z.log2 n) in *. set (b := Z.log2 (Zpos d)) in *.
  assert (n # d == inject_Z n / inject_Z (Zpos d))%Q as E by (rewrite <-Qmake_Qdiv; reflexivity).
  assert (inject_Z (2 ^ a) == pow2 a)%Q as Ea by (rewrite pow2_Z by lia; reflexivity).
  assert (inject_Z (2 ^ b) == pow2 b)%Q as Eb by (rewrite pow2_Z by lia; reflexivity).
  assert (pow2 a <= inject_Z n)%Q as A1 by (rewrite <-Ea; rewrite <-Zle_Qle; exact L1).
  assert (inject_Z n < 2 * pow2 a)%Q as A2.
  { rewrite <-Ea. change 2%Q with (inject_Z 2). rewrite <-inject_Z_mult, <-Zlt_Qlt. exact L2. }
  assert (pow2 b <= inject_Z (Zpos d))%Q as B1 by (rewrite <-Eb; rewrite <-Zle_Qle; exact M1).
  assert (inject_Z (Zpos d) < 2 * pow2 b)%Q as B2.
  { rewrite <-Eb. change 2%Q with (inject_Z 2). rewrite <-inject_Z_mult, <-Zlt_Qlt. exact M2. }
  assert (0 < inject_Z (Zpos d))%Q as D by reflexivity.
  assert (pow2 a == pow2 k * pow2 b)%Q as K by (rewrite <-pow2_add; unfold k; replace (a - b + b) with a by lia; reflexivity).
  assert (pow2 k == 2 * pow2 (k - 1))%Q as K1 by (rewrite <-pow2_S; replace (k - 1 + 1) with k by lia; reflexivity).
  pose proof (pow2_pos (k - 1)) as P. pose proof (pow2_pos b) as Pb.
  rewrite E. split.
  - apply Qlt_shift_div_l; [exact D|]. nra.
  - apply Qlt_shift_div_r; [exact D|]. rewrite pow2_S. nra.
Qed.
Lemma ilog2_spec q : ~ (q == 0)%Q -> (pow2 (ilog2 q) <= Qabs q)%Q /\ (Qabs q < pow2 (ilog2 q + 1))%Q.
Proof.
  intros H. destruct q as [n d]. unfold ilog2. cbn [Qnum Qden].
  assert (0 < Z.abs n) as Hn. { destruct n; try lia. exfalso. apply H. reflexivity. }
  assert (Qabs (n # d) = Z.abs n # d) as -> by reflexivity.
  pose proof (log2_q (Z.abs n) d Hn) as L. cbv zeta in L. set (k := Z.log2 (Z.abs n) - Z.log2 (Zpos d)) in *. destruct L as [L1 L2].
  destruct (Qle_bool (pow2 k) (Z.abs n # d)) eqn:E.
  - apply Qle_bool_iff in E. auto.
  - split; [apply Qlt_le_weak, L1|]. replace (k - 1 + 1) with k by lia. apply Qnot_le_lt. intros C. apply Qle_bool_iff in C. congruence.
Qed.

(* ---- rounding ---- *)
Lemma rne_half q : (Qabs (inject_Z (rne q) - q) <= 1 # 2)%Q.
Proof.
  destruct q as [n d]. unfold rne. cbn [Qnum Qden]. pose proof (Z.div_mod n (Zpos d) ltac:(lia)) as E.
  pose proof (Z.mod_pos_bound n (Zpos d) ltac:(lia)) as B. set (f := n / Zpos d) in *. set (r := n mod Zpos d) in *.
  assert (forall g, (g = f /\ 2 * r <= Zpos d) \/ (g = f + 1 /\ Zpos d <= 2 * r) -> (Qabs (inject_Z g - (n # d)) <= 1 # 2)%Q) as H.
  { intros g G. apply Qabs_Qle_condition. unfold Qle, Qminus, Qplus, Qopp, inject_Z. cbn [Qnum Qden]. rewrite !Z.mul_1_r, !Pos2Z.inj_mul.
    rewrite E. destruct G as [[-> G]|[-> G]]; split; nia. }
  destruct (Z.compare_spec (2 * r) (Zpos d)) as [C|C|C]; apply H; [|left; lia|right; lia].
  destruct (Z.even f); [left|right]; lia.
Qed.
Lemma halve_ok n d : (halve n d == Zpos n # d)%Q.
Proof.
  revert d. induction n as [n IH|n IH|]; intros d; try reflexivity. destruct d as [d|d|]; try reflexivity.
  cbn [halve]. rewrite IH. unfold Qeq. cbn. lia.
Qed.
Lemma dyadic_ok m e : (dyadic m e == inject_Z m * pow2 e)%Q.
Proof.
  unfold dyadic, pow2. destruct (Z.leb_spec 0 e); [rewrite inject_Z_mult; reflexivity|].
  destruct m as [|n|n]; [reflexivity| |]; rewrite halve_ok; unfold Qeq; cbn; lia.
Qed.
Theorem rnd_error p q : (Qabs (rnd p q - q) <= Qabs q * pow2 (- p))%Q.
Proof.
  unfold rnd. destruct (Z.eqb_spec (Qnum q) 0) as [Z0|NZ].
  - assert (q == 0)%Q as E by (destruct q; cbn in Z0; subst; reflexivity). rewrite E. change (Qabs (0 - 0)) with 0%Q. rewrite Qabs_pos by lra. lra.
  - assert (~ (q == 0)%Q) as N. { intros C. apply NZ. destruct q as [n d]. unfold Qeq in C. cbn in *. lia. }
    set (e := ilog2 q - p + 1). rewrite dyadic_ok. pose proof (rne_half (q * pow2 (- e))) as H.
    set (m := inject_Z (rne (q * pow2 (- e)))) in *. pose proof (pow2_opp e) as O. pose proof (pow2_pos e) as Pe.
    assert (m * pow2 e - q == (m - q * pow2 (- e)) * pow2 e)%Q as ->.
    { transitivity (m * pow2 e - q * (pow2 (- e) * pow2 e))%Q; [rewrite O; ring|ring]. }
    rewrite Qabs_Qmult. rewrite (Qabs_pos (pow2 e)) by (apply Qlt_le_weak, Pe).
    destruct (ilog2_spec q N) as [I1 _].
    assert (pow2 e == 2 * (pow2 (ilog2 q) * pow2 (- p)))%Q as ->.
    { rewrite <-pow2_add, <-pow2_S. unfold e. replace (ilog2 q + - p + 1) with (ilog2 q - p + 1) by lia. reflexivity. }
    pose proof (pow2_pos (- p)). pose proof (pow2_pos (ilog2 q)).
    set (X := Qabs (m - q * pow2 (- e))) in *. set (Y := pow2 (ilog2 q)) in *. set (W := pow2 (- p)) in *.
    assert (0 <= X)%Q by apply Qabs_nonneg. assert (0 < Y * W)%Q by nra. assert (Y * W <= Qabs q * W)%Q by nra.
    assert (X * (2 * (Y * W)) <= (1 # 2) * (2 * (Y * W)))%Q by nra. nra.
Qed.

(* ---- the loop ---- *)
Section Series.
Variables (R : Q -> Q) (p : Z) (S : Type) (zof : S -> Q) (body : Z -> S -> res S) (next : Z -> S -> S).
Lemma series_stops : forall fuel l s, 0 <= l_i l < l_max l -> l_max l < 2 ^ 64 -> l_max l - l_i l <= Z.of_nat fuel ->
  series R p S zof body next fuel l s <> None.
Proof.
  induction fuel as [|f IH]; intros l s Hi Hm Hf; [lia|]. cbn [series]. destruct (body (l_i l) s) as [s'| | |]; try discriminate.
  unfold done. destruct (_ && _); [discriminate|]. destruct (_ && _); [discriminate|].
  rewrite Z.mod_small by lia. destruct (Z.eqb_spec (l_i l + 1) (l_max l)); [discriminate|]. apply IH; cbn [l_i l_max]; lia.
Qed.
(* what it takes to stop with a value *)
Lemma series_value : forall fuel l s s', 0 <= l_i l < l_max l -> l_max l < 2 ^ 64 ->
  series R p S zof body next fuel l s = Some (Ok s') ->
  exists i prev b, 3 <= i /\ 0 <= i < l_max l /\ body i b = Ok s' /\
    (Qeq_bool (R (prev - zof s')) 0 = true \/ (Qabs (R (prev - zof s')) <= eps p (zof s'))%Q).
Proof.
  induction fuel as [|f IH]; intros l s s' Hi Hm; [discriminate|]. cbn [series]. destruct (body (l_i l) s) as [s1| | |] eqn:B; try discriminate.
  destruct (done R p l (zof s1)) as [| |l'] eqn:D; try discriminate.
  - intros [= <-]. exists (l_i l), (l_prev l), s. unfold done in D.
    destruct (Qeq_bool (R (l_prev l - zof s1)) 0 && (3 <=? l_i l)) eqn:E1.
    + apply andb_true_iff in E1. destruct E1 as [E1 E2]. apply Z.leb_le in E2. repeat split; auto; lia.
    + destruct (Qle_bool _ _ && (3 <=? l_i l)) eqn:E2; [|destruct (_ =? _); discriminate].
      apply andb_true_iff in E2. destruct E2 as [E2 E3]. apply Z.leb_le in E3. apply Qle_bool_iff in E2. repeat split; auto; lia.
  - intros H. unfold done in D. destruct (_ && _); [discriminate|]. destruct (_ && _); [discriminate|].
    rewrite Z.mod_small in D by lia. destruct (Z.eqb_spec (l_i l + 1) (l_max l)); [discriminate|]. injection D as <-.
    apply IH in H; cbn [l_i l_max] in *; [exact H|lia|lia].
Qed.
End Series.
Lemma new_loop_max k p : 0 <= k -> 0 <= p -> 10 + k * p < 2 ^ 64 -> l_max (new_loop k p) = 10 + k * p.
Proof. intros Hk Hp H. unfold new_loop. cbn [l_max]. rewrite (Z.mod_small (k * p)) by nia. apply Z.mod_small. nia. Qed.
Lemma result_some {S} (zof : S -> Q) r : r <> None -> result zof r <> None.
Proof. destruct r as [[| | |]|]; simpl; congruence. Qed.

(* maxbits, logic on every scalar, and concrete evaluations. *)
From Verif Require Import Value NumModel NumSpec NumProofs NumArith NumMore NumTree NumCplx.
From Coq Require Import QArith Qreduction Qabs ZifyBool Lqa.
Open Scope Z_scope.
Ltac Zify.zify_post_hook ::= Z.div_mod_to_equations.

Lemma bitlen_le z n : 0 <= n -> (bitlen z <= n <-> Z.abs z < 2 ^ n).
Proof. intros H. pose proof (bitlen_lt z n H). lia. Qed.
Lemma bitlen_bound z : Z.abs z < 2 ^ bitlen z.
Proof. apply bitlen_le; [apply bitlen_nonneg|lia]. Qed.
Lemma vbits_shrink z : vbits (shrink_big z) = bitlen z.
Proof. unfold shrink_big. destruct (_ <? _); reflexivity. Qed.
Lemma vbits_maybe z : vbits (maybe_big z) = bitlen z.
Proof. unfold maybe_big. destruct (_ && _); reflexivity. Qed.

Lemma add_bits x y : bitlen (x + y) <= Z.max (bitlen x) (bitlen y) + 1.
Proof.
  pose proof (bitlen_nonneg x). pose proof (bitlen_nonneg y). apply bitlen_le; [lia|].
  pose proof (bitlen_bound x). pose proof (bitlen_bound y).
  pose proof (Z.pow_le_mono_r 2 (bitlen x) (Z.max (bitlen x) (bitlen y))).
  pose proof (Z.pow_le_mono_r 2 (bitlen y) (Z.max (bitlen x) (bitlen y))).
  rewrite Z.pow_add_r by lia. lia.
Qed.
Lemma bitlen_opp z : bitlen (- z) = bitlen z.
Proof. unfold bitlen. destruct (z =? 0) eqn:E, (- z =? 0) eqn:F; try lia. rewrite Z.abs_opp. reflexivity. Qed.
Lemma sub_bits x y : bitlen (x - y) <= Z.max (bitlen x) (bitlen y) + 1.
Proof. pose proof (add_bits x (- y)). rewrite bitlen_opp in *. exact H. Qed.
Lemma mul_bits x y : bitlen (x * y) <= bitlen x + bitlen y.
Proof.
  pose proof (bitlen_nonneg x). pose proof (bitlen_nonneg y). apply bitlen_le; [lia|].
  rewrite Z.abs_mul, Z.pow_add_r by lia.
  pose proof (bitlen_bound x). pose proof (bitlen_bound y).
  assert (0 < 2 ^ bitlen x) by lia. nia.
Qed.
Lemma pow_bits x n : 0 <= n -> bitlen (x ^ n) <= Z.max 1 (bitlen x * n).
Proof.
  intros Hn. pose proof (bitlen_nonneg x).
  destruct (Z.eq_dec n 0) as [->|Nz]; [rewrite Z.pow_0_r; unfold bitlen; simpl; lia|].
  enough (bitlen (x ^ n) <= bitlen x * n) by lia.
  apply bitlen_le; [nia|]. rewrite Z.abs_pow. rewrite Z.pow_mul_r by lia.
  apply Z.pow_lt_mono_l; [lia|]. split; [lia|apply bitlen_bound].
Qed.

(* What maxbits bounds. *)
Lemma limit_ok c o a b x y v : 64 <= maxbits c -> (o = BAdd \/ o = BSub \/ o = BMul) ->
  valid a -> valid b -> intval a = Some x -> intval b = Some y -> eval_scalar c o a b = Ok v -> vbits v <= maxbits c.
Proof.
  intros Hm Ho Va Vb Ia Ib E.
  assert (forall x y, fn_big c o x y = Ok v -> vbits v <= maxbits c) as FB.
  { clear x y Ia Ib. intros x y F. destruct Ho as [-> | [-> | ->]]; cbn [fn_big] in F.
    - destruct (must_fit_cases c (bitlen x + 1)) as [[E1 H1]|[E1 H1]]; rewrite E1 in F; [|discriminate]. cbn [bind] in F.
      destruct (must_fit_cases c (bitlen y + 1)) as [[E2 H2]|[E2 H2]]; rewrite E2 in F; [|discriminate]. cbn [bind] in F.
      apply Ok_inj in F. subst v. rewrite vbits_shrink. pose proof (add_bits x y). lia.
    - destruct (must_fit_cases c (bitlen x + 1)) as [[E1 H1]|[E1 H1]]; rewrite E1 in F; [|discriminate]. cbn [bind] in F.
      destruct (must_fit_cases c (bitlen y + 1)) as [[E2 H2]|[E2 H2]]; rewrite E2 in F; [|discriminate]. cbn [bind] in F.
      apply Ok_inj in F. subst v. rewrite vbits_shrink. pose proof (sub_bits x y). lia.
    - destruct (must_fit_cases c (bitlen x + bitlen y)) as [[E1 H1]|[E1 H1]]; rewrite E1 in F; [|discriminate]. cbn [bind] in F.
      apply Ok_inj in F. subst v. rewrite vbits_shrink. pose proof (mul_bits x y). lia. }
  assert (forall x y, - 2 ^ 31 <= x <= 2 ^ 31 -> - 2 ^ 31 <= y <= 2 ^ 31 -> fn_int c o x y = Ok v -> vbits v <= maxbits c) as FI.
  { clear x y Ia Ib. intros x y Bx By F. assert (forall z, - 2 ^ 63 < z < 2 ^ 63 -> bitlen z <= maxbits c) as LZ.
    { intros z Hz. enough (bitlen z <= 63) by lia. apply bitlen_le; lia. }
    destruct Ho as [-> | [-> | ->]]; cbn [fn_int] in F; apply Ok_inj in F; subst v.
    - destruct (x =? 0); [apply LZ; lia|]. destruct (y =? 0); [apply LZ; lia|].
      rewrite wrap64_id, vbits_maybe by lia. apply LZ. lia.
    - destruct (y =? 0); [apply LZ; lia|]. rewrite wrap64_id, vbits_maybe by lia. apply LZ. lia.
    - destruct (_ || _); [apply LZ; lia|]. destruct (_ || _); [apply LZ; lia|].
      pose proof (mul_bound x y Bx By). rewrite wrap64_id, vbits_maybe by lia. apply LZ.
      assert (Z.abs (x * y) <= 2 ^ 31 * 2 ^ 31) by (rewrite Z.abs_mul; apply Z.mul_le_mono_nonneg; lia). lia. }
  destruct a as [xa| |xa| | | |]; try discriminate; destruct b as [yb| |yb| | | |]; try discriminate;
    destruct Ho as [-> | [-> | ->]]; first [exact (FI xa yb Va Vb E) | exact (FB xa yb E)].
Qed.

Lemma pow_limit_ok c a b x n v : 64 <= maxbits c -> valid a -> valid b -> intval a = Some x -> intval b = Some n ->
  0 <= n -> x <> 2 -> bitlen x * n < 2 ^ 63 -> eval_scalar c BPow a b = Ok v -> vbits v <= maxbits c \/ vbits v <= vbits a.
Proof.
  intros Hm Va Vb Ia Ib Hn Hx Hw E.
  assert (fn_big c BPow x n = Ok v) as F.
  { destruct a; try discriminate; destruct b; try discriminate; inversion Ia; inversion Ib; subst; exact E. }
  clear E. cbn [fn_big] in F.
  destruct (n =? 0) eqn:N0; [apply Ok_inj in F; subst v; left; unfold vbits, zbits, vone; simpl; lia|].
  destruct (n <? 0) eqn:N1; [lia|].
  destruct ((x =? 1) || (x =? 0)) eqn:X1.
  { apply Ok_inj in F. subst v. right. destruct a; try discriminate; inversion Ia; subst; simpl; lia. }
  unfold big_int_exp in F. rewrite X1 in F.
  destruct (x =? -1) eqn:X2.
  { destruct (Z.even n); cbn [bind] in F; apply Ok_inj in F; subst v; assert (x = -1) by lia; subst x; left; rewrite vbits_shrink; cbv [bitlen Z.eqb Z.opp Z.abs Z.log2 Z.add Pos.add]; lia. }
  destruct (63 <? bitlen n) eqn:B; [discriminate|]. destruct (x =? 2) eqn:X3; [lia|].
  rewrite (Z.abs_eq n) in F by lia. pose proof (bitlen_nonneg x) as NN.
  rewrite (wrap64_id (bitlen x * n)) in F by nia.
  destruct (must_fit_cases c (bitlen x * n)) as [[E1 H1]|[E1 H1]]; rewrite E1 in F; [|discriminate]. cbn [bind] in F.
  apply Ok_inj in F. subst v. left. rewrite vbits_shrink. pose proof (pow_bits x n Hn). lia.
Qed.

Lemma pow_is_big c x n : eval_scalar c BPow (VInt x) (VBig n) = fn_big c BPow x n.
Proof. reflexivity. Qed.
Lemma pow_big_gt m k : m <= k -> 2 ^ m <= Z.abs 3 ^ k.
Proof.
  intros H. transitivity (2 ^ k); [apply Z.pow_le_mono_r; lia|]. apply Z.pow_le_mono_l. change (Z.abs 3) with 3. lia.
Qed.
Lemma pow_big_bits m k : 0 <= m -> m <= k -> m < bitlen (3 ^ k).
Proof.
  intros H0 H. apply Z.nle_gt. intros B. apply bitlen_le in B; [|assumption].
  revert B. apply Z.le_ngt. rewrite Z.abs_pow. apply pow_big_gt. assumption.
Qed.
(* 3 ** 2**62 slips past a limit of 10^9 bits: BitLen*exp wraps to a negative int64. *)
Lemma pow_wraps_past c : maxbits c = 10 ^ 9 ->
  exists v, eval_scalar c BPow (VInt 3) (VBig (2 ^ 62)) = Ok v /\ maxbits c < vbits v.
Proof.
  intros Hm. exists (shrink_big (3 ^ 2 ^ 62)). split.
  - rewrite pow_is_big.
    assert (big_int_exp c 3 (2 ^ 62) = Ok (3 ^ 2 ^ 62)) as H.
    { unfold big_int_exp. destruct ((3 =? 1) || (3 =? 0)) eqn:E1; [discriminate E1|].
      destruct (3 =? -1) eqn:E2; [discriminate E2|].
      assert (63 <? bitlen (2 ^ 62) = false) as -> by reflexivity.
      destruct (3 =? 2) eqn:E3; [discriminate E3|].
      assert (wrap64 (bitlen 3 * Z.abs (2 ^ 62)) = - 2 ^ 63) as -> by reflexivity.
      assert (must_fit c (- 2 ^ 63) = Ok tt) as ->; [|reflexivity].
      unfold must_fit. rewrite Hm. reflexivity. }
    unfold fn_big. destruct (2 ^ 62 =? 0) eqn:E1; [discriminate E1|]. destruct (2 ^ 62 <? 0) eqn:E2; [discriminate E2|].
    destruct ((3 =? 1) || (3 =? 0)) eqn:E3; [discriminate E3|]. rewrite H. reflexivity.
  - rewrite vbits_shrink, Hm. exact (pow_big_bits (10 ^ 9) (2 ^ 62) ltac:(discriminate) ltac:(discriminate)).
Qed.

(* ---- logic on every scalar ---- *)
Lemma to_bool_c u p : cval u = Some p -> exists b, to_bool u = Ok b /\ (b = true <-> c_true p).
Proof.
  intros H. unfold c_true. destruct u; simpl in H; try discriminate.
  1-3: (inversion H; subst; eexists; split; [reflexivity|]; cbn [fst snd];
    match goal with |- _ <-> ~ (?q == 0 /\ _)%Q => pose proof (qnz q) as Hq; unfold is_true_q in Hq; simpl in Hq end;
    rewrite <-Hq; split; [intros A [B _]; contradiction|intros A B; apply A; split; [assumption|reflexivity]]).
  destruct (numval u1) as [x|] eqn:N1; [|discriminate]. destruct (numval u2) as [y|] eqn:N2; [|discriminate].
  inversion H; subst. eexists. split; [reflexivity|]. cbn [fst snd].
  rewrite (isZero_val _ _ N1), (isZero_val _ _ N2), <-!Qeq_bool_iff.
  destruct (Qeq_bool x 0), (Qeq_bool y 0); simpl; intuition congruence.
Qed.

Lemma logical_truth o u v p q bu bv : is_logic o -> to_bool u = Ok bu -> (bu = true <-> p) -> to_bool v = Ok bv -> (bv = true <-> q) ->
  truth (logical (logic_fn o) u v) (logic_rel o p q).
Proof.
  intros Ho Eu Hu Ev Hv. unfold logical. rewrite Eu, Ev. cbn [bind]. unfold truth.
  destruct bu, bv, o; try contradiction; simpl; intuition congruence.
Qed.

Lemma logic_cplx c o u v p q : is_logic o -> cvalid u -> cvalid v -> cval u = Some p -> cval v = Some q ->
  truth (eval_scalar c o u v) (logic_rel o (c_true p) (c_true q)).
Proof.
  intros Ho Vu Vv Nu Nv.
  destruct (to_bool_c u p Nu) as (bu & Eu & Hu). destruct (to_bool_c v q Nv) as (bv & Ev & Hv).
  assert (eval_scalar c o u v = logical (logic_fn o) u v) as ->; [|eapply logical_truth; eassumption].
  unfold logical. rewrite Eu, Ev.
  destruct (is_cplx u || is_cplx v) eqn:C.
  - assert (exists a b d e, eval_scalar c o u v = fn_cplx c o a b d e /\ to_bool (VCplx a b) = Ok bu /\ to_bool (VCplx d e) = Ok bv) as (a & b & d & e & -> & Ea & Ed).
    { destruct u; simpl in Nu; try discriminate; destruct v; simpl in Nv; try discriminate; try discriminate C;
        destruct o; try contradiction; do 4 eexists; (split; [reflexivity|]); simpl in Eu, Ev |- *;
        rewrite ?orb_false_r; split; assumption. }
    destruct o; try contradiction; cbn [fn_cplx]; unfold logical; rewrite Ea, Ed; reflexivity.
  - destruct u; simpl in Nu; try discriminate; destruct v; simpl in Nv; try discriminate;
      destruct o; try contradiction; simpl in Eu, Ev |- *; apply Ok_inj in Eu, Ev; subst; reflexivity.
Qed.
Lemma logic_char c o x y : is_logic o ->
  truth (eval_scalar c o (VChar x) (VChar y)) (logic_rel o (x <> 0) (y <> 0)).
Proof.
  intros Ho. assert (eval_scalar c o (VChar x) (VChar y) = logical (logic_fn o) (VChar x) (VChar y)) as ->.
  { destruct o; try contradiction; reflexivity. }
  eapply logical_truth; try reflexivity; try assumption; simpl; lia.
Qed.

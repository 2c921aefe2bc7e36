(* Proofs about the scalar operators. *)
From Verif Require Import Value NumModel NumSpec.
From Coq Require Import QArith Qreduction Qround Qabs ZifyBool Znumtheory Lqa.
Open Scope Z_scope.
Ltac Zify.zify_post_hook ::= Z.div_mod_to_equations.

Lemma wrap64_id z : - 2 ^ 63 <= z < 2 ^ 63 -> wrap64 z = z.
Proof.
  intros H. unfold wrap64. rewrite Z.mod_small; [lia|].
  change (2 ^ 64) with (2 * 2 ^ 63). lia.
Qed.

Lemma bitlen_lt z n : 0 <= n -> (bitlen z <=? n) = (Z.abs z <? 2 ^ n).
Proof.
  intros Hn. unfold bitlen. destruct (z =? 0) eqn:E.
  - assert (z = 0) by lia. subst. pose proof (Z.pow_pos_nonneg 2 n). cbn [Z.abs]. lia.
  - assert (0 < Z.abs z) as Hp by lia.
    pose proof (Z.log2_lt_pow2 (Z.abs z) n Hp). lia.
Qed.
Lemma bitlen_nonneg z : 0 <= bitlen z.
Proof. unfold bitlen. destruct (z =? 0); [lia|]. pose proof (Z.log2_nonneg (Z.abs z)). lia. Qed.

Lemma bitlen_small z : (bitlen z <? intBits) = (Z.abs z <? 2 ^ 31).
Proof. rewrite <-bitlen_lt by lia. unfold intBits. lia. Qed.

Lemma shrink_big_val z : numval (shrink_big z) = Some (inject_Z z).
Proof. unfold shrink_big. destruct (_ <? _); reflexivity. Qed.
Lemma shrink_big_int z : intval (shrink_big z) = Some z.
Proof. unfold shrink_big. destruct (_ <? _); reflexivity. Qed.
Lemma shrink_big_near z : near_canonical (shrink_big z).
Proof. unfold shrink_big. rewrite bitlen_small. destruct (Z.abs z <? 2 ^ 31) eqn:E; simpl; lia. Qed.
Lemma near_valid v : near_canonical v -> valid v.
Proof. destruct v; simpl; auto. Qed.
Lemma shrink_big_valid z : valid (shrink_big z).
Proof. apply near_valid, shrink_big_near. Qed.

Lemma maybe_big_val z : numval (maybe_big z) = Some (inject_Z z).
Proof. unfold maybe_big. destruct (_ && _); reflexivity. Qed.
Lemma maybe_big_int z : intval (maybe_big z) = Some z.
Proof. unfold maybe_big. destruct (_ && _); reflexivity. Qed.
Lemma maybe_big_canonical z : canonical (maybe_big z).
Proof.
  unfold maybe_big, minInt, maxInt. destruct (_ && _) eqn:E; simpl; lia.
Qed.
Lemma canonical_near v : canonical v -> near_canonical v.
Proof. destruct v; simpl; auto; lia. Qed.
Lemma maybe_big_valid z : valid (maybe_big z).
Proof. apply near_valid, canonical_near, maybe_big_canonical. Qed.

Lemma shrink_rat_near q : Qred q = q -> near_canonical (shrink_rat q).
Proof.
  intros H. unfold shrink_rat. destruct (Pos.eqb_spec (Qden q) 1) as [E|E].
  - apply shrink_big_near.
  - simpl. auto.
Qed.
Lemma den1 q : Qden q = 1%positive -> q = inject_Z (Qnum q).
Proof. destruct q as [n d]. simpl. intros ->. reflexivity. Qed.
Lemma shrink_rat_val q : numval (shrink_rat q) = Some q.
Proof.
  unfold shrink_rat. destruct (Pos.eqb_spec (Qden q) 1) as [E|E]; [|reflexivity].
  rewrite shrink_big_val. f_equal. symmetry. apply den1, E.
Qed.
Lemma red_red q : Qred (Qred q) = Qred q.
Proof. apply Qred_complete, Qred_correct. Qed.
Lemma red_inject z : Qred (inject_Z z) = inject_Z z.
Proof.
  unfold inject_Z, Qred. pose proof (Z.ggcd_gcd z 1) as G.
  pose proof (Z.ggcd_correct_divisors z 1) as C.
  destruct (Z.ggcd z 1) as [g [aa bb]]. simpl in *. rewrite Z.gcd_1_r in G. subst g.
  destruct C as [C1 C2]. rewrite Z.mul_1_l in *. subst. reflexivity.
Qed.
Lemma red_opp q : Qred q = q -> Qred (Qopp q) = Qopp q.
Proof.
  intros H. rewrite Qred_opp. rewrite H. reflexivity.
Qed.
Lemma red_num0 q : Qred q = q -> Qnum q = 0 -> q = inject_Z 0.
Proof.
  intros H Hn. rewrite <-H. transitivity (Qred (inject_Z 0)); [|reflexivity].
  apply Qred_complete. unfold Qeq. simpl. lia.
Qed.

Lemma gives_big z : gives (Ok (shrink_big z)) (inject_Z z).
Proof.
  exists (shrink_big z), (inject_Z z). split; [reflexivity|].
  split; [apply shrink_big_valid|]. split; [apply shrink_big_val|]. apply Qeq_refl.
Qed.
Lemma gives_maybe z : gives (Ok (maybe_big z)) (inject_Z z).
Proof.
  exists (maybe_big z), (inject_Z z). split; [reflexivity|].
  split; [apply maybe_big_valid|]. split; [apply maybe_big_val|]. apply Qeq_refl.
Qed.
Lemma gives_int_v z : - 2 ^ 31 <= z <= 2 ^ 31 -> gives (Ok (VInt z)) (inject_Z z).
Proof. intros H. exists (VInt z), (inject_Z z). split; [reflexivity|]. split; [exact H|]. split; reflexivity. Qed.
Lemma gives_rat q : gives (Ok (shrink_rat (Qred q))) q.
Proof.
  exists (shrink_rat (Qred q)), (Qred q). split; [reflexivity|].
  split; [apply near_valid, shrink_rat_near, red_red|]. split; [apply shrink_rat_val|]. apply Qred_correct.
Qed.
Lemma gives_eq r p q : gives r p -> (p == q)%Q -> gives r q.
Proof. intros (v & x & A & B & C & D) E. exists v, x. repeat split; auto. rewrite D. exact E. Qed.

Lemma numval_cases v x : numval v = Some x -> valid v ->
  (exists z, v = VInt z /\ x = inject_Z z /\ - 2 ^ 31 <= z <= 2 ^ 31) \/
  (exists z, v = VBig z /\ x = inject_Z z) \/
  (v = VRat x /\ Qred x = x /\ Qden x <> 1%positive).
Proof.
  destruct v as [z|z|z|q|a b|l|s l]; simpl; intros H Hv; try discriminate; inversion H; subst.
  - left. eauto.
  - right. left. eauto.
  - right. right. auto.
Qed.

(* Promotion: what eval_scalar calls for each pair of representations. *)
Definition arith_op (o : bop) : Prop := forall t1 t2, which_type o t1 t2 = arith_type t1 t2.

Ltac numcases Ha Hb Va Vb :=
  let x := fresh "x" in let y := fresh "y" in
  destruct (numval_cases _ _ Ha Va) as [(x & -> & -> & ?)|[(x & -> & ->)|(-> & ? & ?)]];
  destruct (numval_cases _ _ Hb Vb) as [(y & -> & -> & ?)|[(y & -> & ->)|(-> & ? & ?)]].

Lemma inj_plus a b : (inject_Z (a + b) == inject_Z a + inject_Z b)%Q.
Proof. rewrite inject_Z_plus. apply Qeq_refl. Qed.
Lemma inj_minus a b : (inject_Z (a - b) == inject_Z a - inject_Z b)%Q.
Proof. unfold Z.sub, Qminus. rewrite inject_Z_plus, inject_Z_opp. apply Qeq_refl. Qed.
Lemma inj_mult a b : (inject_Z (a * b) == inject_Z a * inject_Z b)%Q.
Proof. rewrite inject_Z_mult. apply Qeq_refl. Qed.

Lemma must_fit_cases c n : (must_fit c n = Ok tt /\ (maxbits c = 0 \/ n <= maxbits c)) \/
  (must_fit c n = Err /\ maxbits c <> 0 /\ maxbits c < n).
Proof.
  unfold must_fit. destruct (maxbits c =? 0) eqn:E; simpl; [left; split; [reflexivity|lia]|].
  destruct (maxbits c <? n) eqn:F; [right|left]; split; try reflexivity; lia.
Qed.

Lemma bitlen_vbits z : bitlen z = vbits (VInt z). Proof. reflexivity. Qed.
Lemma bitlen_vbits' z : bitlen z = vbits (VBig z). Proof. reflexivity. Qed.

Lemma add_big_exact c x y :
  gives (fn_big c BAdd x y) (inject_Z x + inject_Z y) \/
  (fn_big c BAdd x y = Err /\ maxbits c <> 0 /\ maxbits c < Z.max (bitlen x) (bitlen y) + 1).
Proof.
  simpl. destruct (must_fit_cases c (bitlen x + 1)) as [[-> H1]|[-> H1]]; simpl.
  2:{ right. split; [reflexivity|]. lia. }
  destruct (must_fit_cases c (bitlen y + 1)) as [[-> H2]|[-> H2]]; simpl.
  2:{ right. split; [reflexivity|]. lia. }
  left. eapply gives_eq; [apply gives_big|]. apply inj_plus.
Qed.
Lemma sub_big_exact c x y :
  gives (fn_big c BSub x y) (inject_Z x - inject_Z y) \/
  (fn_big c BSub x y = Err /\ maxbits c <> 0 /\ maxbits c < Z.max (bitlen x) (bitlen y) + 1).
Proof.
  simpl. destruct (must_fit_cases c (bitlen x + 1)) as [[-> H1]|[-> H1]]; simpl.
  2:{ right. split; [reflexivity|]. lia. }
  destruct (must_fit_cases c (bitlen y + 1)) as [[-> H2]|[-> H2]]; simpl.
  2:{ right. split; [reflexivity|]. lia. }
  left. eapply gives_eq; [apply gives_big|]. apply inj_minus.
Qed.
Lemma mul_big_exact c x y :
  gives (fn_big c BMul x y) (inject_Z x * inject_Z y) \/
  (fn_big c BMul x y = Err /\ maxbits c <> 0 /\ maxbits c < bitlen x + bitlen y).
Proof.
  simpl. destruct (must_fit_cases c (bitlen x + bitlen y)) as [[-> H1]|[-> H1]]; simpl.
  2:{ right. split; [reflexivity|]. lia. }
  left. eapply gives_eq; [apply gives_big|]. apply inj_mult.
Qed.

(* Size limits that excuse an error in a op b. *)
Lemma add_exact c a b x y : valid a -> valid b -> numval a = Some x -> numval b = Some y ->
  gives (eval_scalar c BAdd a b) (x + y) \/
  (eval_scalar c BAdd a b = Err /\ maxbits c <> 0 /\ maxbits c < Z.max (vbits a) (vbits b) + 1).
Proof.
  intros Va Vb Ha Hb. numcases Ha Hb Va Vb;
    try (left; apply gives_rat); try apply (add_big_exact c).
  left. change (eval_scalar c BAdd (VInt x0) (VInt y0)) with
    (Ok (if x0 =? 0 then VInt y0 else if y0 =? 0 then VInt x0 else maybe_big (wrap64 (x0 + y0)))).
  destruct (x0 =? 0) eqn:E1; [|destruct (y0 =? 0) eqn:E2].
  - assert (x0 = 0) by lia; subst. eapply gives_eq; [apply gives_int_v; lia|]. rewrite Qplus_0_l. apply Qeq_refl.
  - assert (y0 = 0) by lia; subst. eapply gives_eq; [apply gives_int_v; lia|]. rewrite Qplus_0_r. apply Qeq_refl.
  - rewrite wrap64_id by lia. eapply gives_eq; [apply gives_maybe|]. apply inj_plus.
Qed.

Lemma sub_exact c a b x y : valid a -> valid b -> numval a = Some x -> numval b = Some y ->
  gives (eval_scalar c BSub a b) (x - y) \/
  (eval_scalar c BSub a b = Err /\ maxbits c <> 0 /\ maxbits c < Z.max (vbits a) (vbits b) + 1).
Proof.
  intros Va Vb Ha Hb. numcases Ha Hb Va Vb;
    try (left; apply gives_rat); try apply (sub_big_exact c).
  left. change (eval_scalar c BSub (VInt x0) (VInt y0)) with
    (Ok (if y0 =? 0 then VInt x0 else maybe_big (wrap64 (x0 - y0)))).
  destruct (y0 =? 0) eqn:E2.
  - assert (y0 = 0) by lia; subst. eapply gives_eq; [apply gives_int_v; lia|].
    unfold Qminus. change (- inject_Z 0)%Q with 0%Q. rewrite Qplus_0_r. apply Qeq_refl.
  - rewrite wrap64_id by lia. eapply gives_eq; [apply gives_maybe|]. apply inj_minus.
Qed.

Lemma mul_bound x y : - 2 ^ 31 <= x <= 2 ^ 31 -> - 2 ^ 31 <= y <= 2 ^ 31 -> - 2 ^ 63 <= x * y < 2 ^ 63.
Proof.
  intros Hx Hy. assert (Z.abs (x * y) <= 2 ^ 31 * 2 ^ 31).
  { rewrite Z.abs_mul. apply Z.mul_le_mono_nonneg; lia. }
  lia.
Qed.

Lemma mul_exact c a b x y : valid a -> valid b -> numval a = Some x -> numval b = Some y ->
  gives (eval_scalar c BMul a b) (x * y) \/
  (eval_scalar c BMul a b = Err /\ maxbits c <> 0 /\ maxbits c < vbits a + vbits b).
Proof.
  intros Va Vb Ha Hb. numcases Ha Hb Va Vb;
    try (left; apply gives_rat); try apply (mul_big_exact c).
  left. change (eval_scalar c BMul (VInt x0) (VInt y0)) with
    (Ok (if (x0 =? 1) || (y0 =? 0) then VInt y0
         else if (y0 =? 1) || (x0 =? 0) then VInt x0 else maybe_big (wrap64 (x0 * y0)))).
  destruct ((x0 =? 1) || (y0 =? 0)) eqn:E1; [|destruct ((y0 =? 1) || (x0 =? 0)) eqn:E2].
  - eapply gives_eq; [apply gives_int_v; lia|]. rewrite <-inj_mult.
    apply orb_true_iff in E1. replace (x0 * y0) with y0; [apply Qeq_refl|].
    destruct E1; [assert (x0 = 1) by lia|assert (y0 = 0) by lia]; subst; ring.
  - eapply gives_eq; [apply gives_int_v; lia|]. rewrite <-inj_mult.
    apply orb_true_iff in E2. replace (x0 * y0) with x0; [apply Qeq_refl|].
    destruct E2; [assert (y0 = 1) by lia|assert (x0 = 0) by lia]; subst; ring.
  - rewrite wrap64_id by (apply mul_bound; lia). eapply gives_eq; [apply gives_maybe|]. apply inj_mult.
Qed.

Lemma Qnum0 q : (Qnum q =? 0) = true <-> (q == 0)%Q.
Proof. unfold Qeq. simpl. split; intros; lia. Qed.

Lemma quo_exact c a b x y : valid a -> valid b -> numval a = Some x -> numval b = Some y ->
  (~ (y == 0)%Q /\ gives (eval_scalar c BQuo a b) (x / y)) \/
  ((y == 0)%Q /\ eval_scalar c BQuo a b = Err).
Proof.
  intros Va Vb Ha Hb.
  assert (eval_scalar c BQuo a b = if Qnum y =? 0 then Err else Ok (shrink_rat (Qred (x / y)))) as ->.
  { numcases Ha Hb Va Vb; reflexivity. }
  destruct (Qnum y =? 0) eqn:E.
  - right. split; [apply Qnum0, E|reflexivity].
  - left. split; [rewrite <-Qnum0; congruence|]. apply gives_rat.
Qed.

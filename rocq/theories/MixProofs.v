From Coq Require Import QArith Qabs Lqa.
From Verif Require Import Value FloatModel FloatProofs RandSpec FloatMono NumModel NumSpec TimeModel FloatSign NumModel MixModel MixSpec.
Open Scope list_scope.
Open Scope Z_scope.

(* ---- rnd is a nearest number ---- *)
Lemma rne_nearest x n : (Qabs (inject_Z (rne x) - x) <= Qabs (inject_Z n - x))%Q.
Proof.
  pose proof (rne_half x) as H. destruct (Z.eq_dec n (rne x)) as [->|N]; [lra|]. apply Qabs_Qle_condition in H. eapply Qle_trans; [apply rne_half|].
  destruct (Z_lt_le_dec n (rne x)) as [L|L].
  - apply inject_lt in L. rewrite Qabs_neg by lra. lra.
  - assert (L' : rne x < n) by lia. apply inject_lt in L'. rewrite Qabs_pos by lra. lra.
Qed.
Lemma rep_opp p q : representable p q -> representable p (- q).
Proof. intros (m & e & M & E). exists (- m), e. split; [lia|]. rewrite inject_Z_opp, E. ring. Qed.
Lemma rep_compat p a b : (a == b)%Q -> representable p a -> representable p b.
Proof. intros H (m & e & M & E). exists m, e. split; [exact M|]. rewrite <-H. exact E. Qed.
Lemma rep_scaled p s e : 1 <= p -> representable p s -> (pow2 e <= s)%Q -> exists n, (s * pow2 (p - 1 - e) == inject_Z n)%Q.
Proof.
  intros P (m & k & M & E) L. assert (K : e <= p + k). { assert (X : (pow2 e <= pow2 (p + k))%Q). { eapply Qle_trans; [exact L|]. rewrite E, pow2_add, (pow2_Z p) by lia. apply mul_l_le; [apply pow2_pos|]. rewrite <-Zle_Qle. lia. } destruct (Z_le_gt_dec e (p + k)) as [H|H]; [exact H|]. exfalso.
    assert (Y : (pow2 (p + k + 1) <= pow2 e)%Q) by (apply pow2_le; lia). rewrite pow2_S in Y. pose proof (pow2_pos (p + k)). lra. }
  destruct (Z.eq_dec e (p + k)) as [EE|NE].
  - exists (2 ^ (p - 1)). assert (S0 : (s == pow2 e)%Q). { assert (U : (s <= pow2 e)%Q). { rewrite E, EE, pow2_add, (pow2_Z p) by lia. apply mul_l_le; [apply pow2_pos|]. rewrite <-Zle_Qle. lia. } lra. } rewrite S0, <-pow2_add. replace (e + (p - 1 - e)) with (p - 1) by lia. rewrite pow2_Z by lia. reflexivity.
  - exists (m * 2 ^ (k + (p - 1 - e))). rewrite E, inject_Z_mult, <-pow2_Z by lia. rewrite pow2_add. ring.
Qed.
Lemma rnd_rep_pos p q : 1 <= p -> (0 < q)%Q -> representable p (rnd p q).
Proof.
  intros P F. exists (rne (q * pow2 (p - 1 - ilog2 q))), (ilog2 q - p + 1). split; [|apply rnd_is, F]. destruct (ilog2_pos q F) as [L1 L2]. set (k := ilog2 q) in *.
  pose proof (pow2_pos (p - 1 - k)) as PP. assert (A : 0 <= rne (q * pow2 (p - 1 - k))). { rewrite <-(rne_Z 0 0) by reflexivity. apply rne_mono. nra. }
  assert (B : rne (q * pow2 (p - 1 - k)) <= 2 ^ p). { rewrite <-(rne_Z (inject_Z (2 ^ p)) (2 ^ p)) by reflexivity. apply rne_mono. rewrite <-pow2_Z by lia. replace p with (k + 1 + (p - 1 - k)) at 2 by lia. rewrite pow2_add. apply mul_l_le; [exact PP|lra]. }
  lia.
Qed.
Lemma rnd_nearest_pos p q s : 1 <= p -> (0 < q)%Q -> representable p s -> (Qabs (rnd p q - q) <= Qabs (s - q))%Q.
Proof.
  intros P F R. destruct (ilog2_pos q F) as [L1 L2]. destruct (rnd_binade p q P F) as [B1 B2]. pose proof (rnd_is p q F) as I. set (k := ilog2 q) in *. pose proof (pow2_pos (k - p + 1)) as PP.
  assert (KEY : forall n, (Qabs (rnd p q - q) <= Qabs (inject_Z n * pow2 (k - p + 1) - q))%Q).
  { intros n. set (x := (q * pow2 (p - 1 - k))%Q) in *. assert (X : (q == x * pow2 (k - p + 1))%Q). { unfold x. rewrite <-Qmult_assoc, <-pow2_add. replace (p - 1 - k + (k - p + 1)) with 0 by lia. rewrite pow2_0. ring. }
    rewrite I. assert (E1 : forall z, (Qabs (inject_Z z * pow2 (k - p + 1) - q) == Qabs (inject_Z z - x) * pow2 (k - p + 1))%Q).
    { intros z. rewrite X at 1. setoid_replace (inject_Z z * pow2 (k - p + 1) - x * pow2 (k - p + 1))%Q with ((inject_Z z - x) * pow2 (k - p + 1))%Q by ring. rewrite Qabs_Qmult. rewrite (Qabs_pos (pow2 (k - p + 1))) by lra. reflexivity. }
    rewrite !E1. apply mul_l_le; [exact PP|apply rne_nearest]. }
  destruct (Qlt_le_dec s (pow2 k)) as [C|C].
  - eapply Qle_trans; [apply (KEY (2 ^ (p - 1)))|]. rewrite <-pow2_Z, <-pow2_add by lia. replace (p - 1 + (k - p + 1)) with k by lia. rewrite Qabs_neg by lra. rewrite Qabs_neg by lra. lra.
  - destruct (rep_scaled p s k P R C) as (n & N). eapply Qle_trans; [apply (KEY n)|]. rewrite <-N, <-Qmult_assoc, <-pow2_add. replace (p - 1 - k + (k - p + 1)) with 0 by lia. rewrite pow2_0, Qmult_1_r. lra.
Qed.
Lemma rep_zero p : 1 <= p -> representable p 0.
Proof. intros P. exists 0, 0. split; [pose proof (Z.pow_pos_nonneg 2 p); lia|reflexivity]. Qed.
Theorem rnd_nearest p q : 1 <= p -> nearest p q (rnd p q).
Proof.
  intros P. destruct (Q_dec 0 q) as [[F|F]|F].
  - split; [apply rnd_rep_pos; assumption|]. intros s R. apply rnd_nearest_pos; assumption.
  - assert (F' : (0 < - q)%Q) by lra. split.
    + apply (rep_compat p (- rnd p (- q))); [rewrite rnd_opp; ring|]. apply rep_opp, rnd_rep_pos; assumption.
    + intros s R. pose proof (rnd_nearest_pos p (- q) (- s) P F' (rep_opp _ _ R)) as N. rewrite rnd_opp in N.
      setoid_replace (- rnd p q - - q)%Q with (- (rnd p q - q))%Q in N by ring. setoid_replace (- s - - q)%Q with (- (s - q))%Q in N by ring. rewrite !Qabs_opp in N. exact N.
  - rewrite rnd_zero by (symmetry; exact F). split; [apply rep_zero, P|]. intros s _. rewrite <-F. change (Qabs (0 - 0)) with 0%Q. apply Qabs_nonneg.
Qed.
Lemma nearest_compat p x x' r r' : (x == x')%Q -> (r == r')%Q -> nearest p x r -> nearest p x' r'.
Proof. intros X R [A B]. split; [apply (rep_compat p r); assumption|]. intros s S. rewrite <-X, <-R. apply B, S. Qed.
Lemma rnd_mono_any p a b : 1 <= p -> (a <= b)%Q -> (rnd p a <= rnd p b)%Q.
Proof.
  intros P H. destruct (Qlt_le_dec a 0) as [L|L]; [|apply rnd_mono; assumption]. destruct (Qlt_le_dec b 0) as [M|M].
  - pose proof (rnd_mono p (- b) (- a) P ltac:(lra) ltac:(lra)) as N. rewrite !rnd_opp in N. lra.
  - pose proof (rnd_mono p 0 b P ltac:(lra) M) as N. pose proof (rnd_mono p 0 (- a) P ltac:(lra) ltac:(lra)) as N2. rewrite rnd_opp in N2. rewrite (rnd_zero p 0) in * by reflexivity. lra.
Qed.

(* ---- shrinking ---- *)
Lemma is_int_spec q : is_int q = true <-> exists z, (q == inject_Z z)%Q.
Proof.
  unfold is_int. rewrite Z.eqb_eq. destruct q as [n d]. cbn [Qnum Qden]. split.
  - intros H. exists (n / Zpos d). unfold Qeq. cbn. pose proof (Z_div_mod_eq_full n (Zpos d)). lia.
  - intros (z & E). unfold Qeq in E. cbn in E. rewrite Z.mul_1_r in E. rewrite E. apply Z_mod_mult.
Qed.
Lemma qnum0 q : Qnum q =? 0 = true <-> (q == 0)%Q.
Proof. destruct q as [n d]. unfold Qeq. cbn. lia. Qed.
Lemma ilog2_int q z : (q == inject_Z z)%Q -> ~ (q == 0)%Q -> ilog2 q + 1 <= 100 <-> Z.abs z < 2 ^ 100.
Proof.
  intros E N. destruct (ilog2_spec q N) as [A B]. assert (AQ : (Qabs q == inject_Z (Z.abs z))%Q) by (rewrite E; reflexivity). rewrite AQ in A, B. split.
  - intros H. apply pow2_le in H. rewrite (pow2_Z 100) in H by lia. rewrite Zlt_Qlt. lra.
  - intros H. rewrite Zlt_Qlt in H. rewrite <-(pow2_Z 100) in H by lia. assert (X : (pow2 (ilog2 q) < pow2 100)%Q) by lra. apply pow2_lt_inv in X. lia.
Qed.
Lemma val_shrink_big z : val (Ex (shrink_big z)) = inject_Z z.
Proof. unfold shrink_big. destruct (_ <? _); reflexivity. Qed.
Lemma bitlen_small z n : 0 < n -> bitlen z < n + 1 <-> Z.abs z < 2 ^ n.
Proof.
  intros N. unfold bitlen. destruct (Z.eqb_spec z 0) as [->|NZ]; [split; [intros _; apply Z.pow_pos_nonneg; lia|lia]|]. split; intros H.
  - apply Z.log2_lt_pow2; lia.
  - apply Z.log2_lt_pow2 in H; lia.
Qed.
Theorem shrink_val p q : (val (shrink_float p q) == q)%Q.
Proof.
  unfold shrink_float. destruct (is_int q) eqn:I; [|reflexivity]. apply is_int_spec in I. destruct I as (z & E). cbn [andb].
  destruct ((Qnum q =? 0) || (ilog2 q + 1 <=? 100)); [|reflexivity]. rewrite val_shrink_big, (trunc_int _ _ E). symmetry. exact E.
Qed.
Theorem shrink_form p q : float_form p (shrink_float p q).
Proof.
  unfold shrink_float. destruct (is_int q) eqn:I; cbn [andb].
  - pose proof I as I'. apply is_int_spec in I'. destruct I' as (z & E). destruct (Qnum q =? 0) eqn:Z0; cbn [orb].
    + apply qnum0 in Z0. rewrite (trunc_int q 0) by exact Z0. left. exists 0. split; [reflexivity|lia].
    + assert (NZ : ~ (q == 0)%Q) by (intros X; apply qnum0 in X; congruence). destruct (Z.leb_spec (ilog2 q + 1) 100) as [L|L].
      * apply (ilog2_int q z E NZ) in L. rewrite (trunc_int _ _ E). unfold shrink_big, intBits. destruct (Z.ltb_spec (bitlen z) 32) as [B|B].
        -- left. exists z. split; [reflexivity|]. apply (bitlen_small z 31) in B; lia.
        -- right. exists z. split; [reflexivity|]. assert (~ Z.abs z < 2 ^ 31) by (intros X; apply (bitlen_small z 31) in X; lia). lia.
      * split; [reflexivity|]. intros (z' & E' & L'). apply (ilog2_int q z' E' NZ) in L'. lia.
  - split; [reflexivity|]. intros (z & E & _). assert (X : is_int q = true) by (apply is_int_spec; exists z; exact E). congruence.
Qed.

(* ---- arithmetic ---- *)
Lemma as_float_operand P u : 1 <= P -> real u -> exists p x, as_float P u = Ok (p, x) /\ operand P u x.
Proof.
  intros HP R. destruct u as [[z|ch|z|q|a b|l|s l]|p q]; try contradiction; cbn [as_float operand val]; eexists _, _; (split; [reflexivity|]); try (apply rnd_nearest, HP); reflexivity.
Qed.
Theorem mixed_nearest c P o u v : 1 <= P -> real u -> real v -> is_float u \/ is_float v -> In o [BAdd; BSub; BMul; BQuo] ->
  exists x y, operand P u x /\ operand P v y /\
    (forall z, exactly o x y z -> exists r, mixed c P o u v = Ok r /\ nearest P z (val r) /\ float_form P r) /\
    (o = BQuo -> (y == 0)%Q -> mixed c P o u v = Err \/ mixed c P o u v = Unmod).
Proof.
  intros HP RU RV FL IO. destruct (as_float_operand P u HP RU) as (p & x & EU & OU). destruct (as_float_operand P v HP RV) as (r & y & EV & OV).
  assert (M : mixed c P o u v = fn_float P o (p, x) (r, y)).
  { unfold mixed. destruct u as [a|pu qu], v as [b|pv qv]; [destruct FL as [[]|[]]| | |]; cbn [In] in IO;
    (destruct IO as [<- |[<- |[<- |[<- |[]]]]]); rewrite EU, EV; cbn [bind]; try reflexivity.
    all: try (destruct a; reflexivity); try (destruct b; reflexivity). }
  exists x, y. split; [exact OU|]. split; [exact OV|]. rewrite M. split.
  - intros z E. assert (G : forall w, (z == w)%Q -> exists r0, Ok (rounded P w) = Ok r0 /\ nearest P z (val r0) /\ float_form P r0).
    { intros w W. eexists. split; [reflexivity|]. unfold rounded. split; [|apply shrink_form]. eapply nearest_compat; [symmetry; exact W|symmetry; apply shrink_val|apply rnd_nearest, HP]. }
    cbn [In] in IO. destruct IO as [<- |[<- |[<- |[<- |[]]]]]; cbn [fn_float exactly] in *; try (apply G; exact E).
    destruct E as [NZ E]. destruct (Qnum y =? 0) eqn:Y0; [apply qnum0 in Y0; contradiction|]. apply G, E.
  - intros -> Y. apply qnum0 in Y. cbn [fn_float]. rewrite Y. destruct (Qnum x =? 0); tauto.
Qed.

(* ---- comparisons ---- *)
Lemma rep_mono p p' q : 0 <= p -> p <= p' -> representable p q -> representable p' q.
Proof. intros P0 L (m & e & M & E). exists m, e. split; [|exact E]. pose proof (Z.pow_le_mono_r 2 p p' ltac:(lia) L). lia. Qed.
Lemma as_float_fits P u : 1 <= P -> fits P u -> exists p x, as_float P u = Ok (p, x) /\ (x == val u)%Q.
Proof.
  intros HP F. destruct u as [[z|ch|z|q|a b|l|s l]|p q]; try contradiction; cbn [as_float val fits] in *; eexists _, _; (split; [reflexivity|]).
  - apply rnd_int; [exact HP|exact F|reflexivity].
  - apply rnd_int; [exact HP|exact F|reflexivity].
  - reflexivity.
Qed.
Lemma to_int_decides b (R : Prop) : (b = true <-> R) -> decides (Ok (Ex (to_int b))) R.
Proof. intros H. split; intros X; destruct b; try reflexivity; exfalso; [apply H in X; discriminate|apply X, H; reflexivity]. Qed.
Lemma q_cmp_spec a b : match q_cmp a b with Lt => (a < b)%Q | Eq => (a == b)%Q | Gt => (b < a)%Q end.
Proof. unfold q_cmp. destruct (a ?= b)%Q eqn:E; [apply Qeq_alt, E|apply Qlt_alt, E|apply Qgt_alt, E]. Qed.
Lemma cmp_op_rel o a b x y : is_cmp o -> (a == x)%Q -> (b == y)%Q -> cmp_op o (q_cmp a b) = true <-> cmp_rel o x y.
Proof.
  intros I A B. pose proof (q_cmp_spec a b) as H. destruct o; try contradiction; cbn [cmp_op cmp_rel]; destruct (q_cmp a b); (split; intros X; [try discriminate|try reflexivity; exfalso]); try lra; try (apply X; lra); intros Y; lra.
Qed.
Lemma real_fits P u : fits P u -> real u.
Proof. destruct u as [[z|ch|z|q|a b|l|s l]|p q]; cbn; tauto. Qed.
Lemma mixed_is c P o u v x y : is_float u \/ is_float v -> real u -> real v -> o <> BMod -> as_float P u = Ok x -> as_float P v = Ok y -> mixed c P o u v = fn_float P o x y.
Proof.
  intros FL RU RV NM EU EV. unfold mixed. destruct u as [a|pu qu], v as [b|pv qv]; [destruct FL as [[]|[]]| | |]; rewrite EU, EV; cbn [bind].
  - destruct o, a; try contradiction; try reflexivity; congruence.
  - destruct o, b; try contradiction; try reflexivity; congruence.
  - destruct o; try reflexivity; congruence.
Qed.
Theorem mixed_compares c P o u v : 1 <= P -> is_cmp o -> fits P u -> fits P v -> is_float u \/ is_float v ->
  decides (mixed c P o u v) (cmp_rel o (val u) (val v)).
Proof.
  intros HP I FU FV FL. destruct (as_float_fits P u HP FU) as (p & x & EU & XU). destruct (as_float_fits P v HP FV) as (r & y & EV & XV).
  rewrite (mixed_is c P o u v _ _ FL (real_fits _ _ FU) (real_fits _ _ FV) ltac:(destruct o; try contradiction; discriminate) EU EV).
  assert (E : fn_float P o (p, x) (r, y) = Ok (Ex (to_int (cmp_op o (q_cmp x y))))) by (destruct o; try contradiction; reflexivity). rewrite E.
  apply to_int_decides, cmp_op_rel; assumption.
Qed.
(* In general the operands are compared as floats. *)
Theorem mixed_compares_rounded c P o u v : 1 <= P -> is_cmp o -> real u -> real v -> is_float u \/ is_float v ->
  exists x y, operand P u x /\ operand P v y /\ decides (mixed c P o u v) (cmp_rel o x y).
Proof.
  intros HP I RU RV FL. destruct (as_float_operand P u HP RU) as (p & x & EU & XU). destruct (as_float_operand P v HP RV) as (r & y & EV & XV). exists x, y. split; [exact XU|]. split; [exact XV|].
  rewrite (mixed_is c P o u v _ _ FL RU RV ltac:(destruct o; try contradiction; discriminate) EU EV).
  assert (E : fn_float P o (p, x) (r, y) = Ok (Ex (to_int (cmp_op o (q_cmp x y))))) by (destruct o; try contradiction; reflexivity). rewrite E.
  apply to_int_decides, cmp_op_rel; try assumption; reflexivity.
Qed.
Theorem order_mixed c P u v : 1 <= P -> fits P u -> fits P v -> is_float u \/ is_float v ->
  exists s, order c P u v = Ok s /\ sign_of (val u) (val v) s.
Proof.
  intros HP FU FV FL. pose proof (mixed_compares c P BLt u v HP Logic.I FU FV FL) as L. pose proof (mixed_compares c P BEq u v HP Logic.I FU FV FL) as E. cbn [cmp_rel] in L, E.
  assert (G : (exists p a r b, u = Fl p a /\ v = Fl r b) \/ order c P u v = (let! l := mixed c P BLt u v in match l with Ex (VInt 1) => Ok (-1) | _ => let! e := mixed c P BEq u v in match e with Ex (VInt 1) => Ok 0 | _ => Ok 1 end end)).
  { destruct u as [a|pu qu], v as [b|pv qv]; [destruct FL as [[]|[]]| | |left; eauto 6]; right; [destruct a|destruct b]; try contradiction; reflexivity. }
  destruct G as [(p & a & r & b & -> & ->) | -> ].
  - cbn [order val]. pose proof (q_cmp_spec a b) as H. unfold sign_of. destruct (q_cmp a b); eexists; (split; [reflexivity|]); tauto.
  - destruct (Q_dec (val u) (val v)) as [[H|H]|H].
    + rewrite (proj1 L H). cbn [bind]. eexists. split; [reflexivity|]. left. split; [reflexivity|exact H].
    + rewrite (proj2 L) by lra. cbn [bind]. rewrite (proj2 E) by lra. cbn [bind]. eexists. split; [reflexivity|]. right. right. split; [reflexivity|exact H].
    + rewrite (proj2 L) by lra. cbn [bind]. rewrite (proj1 E H). cbn [bind]. eexists. split; [reflexivity|]. right. left. split; [reflexivity|exact H].
Qed.

(* ---- unary ---- *)
Lemma trunc_neg q : (q < 0)%Q -> (q <= inject_Z (trunc q))%Q /\ (inject_Z (trunc q) < q + 1)%Q.
Proof.
  intros H. assert (E : trunc q = - trunc (- q)). { destruct q as [n d]. unfold trunc. cbn [Qnum Qden Qopp]. rewrite Z.quot_opp_l by lia. lia. } rewrite E, inject_Z_opp. destruct (trunc_pos (- q) ltac:(lra)) as (_ & A & B). lra.
Qed.
Theorem floor_float c P p q : exists z, mixed_unary c P (FU UFloor) (Fl p q) = Ok (Ex (shrink_big z)) /\ (inject_Z z <= q)%Q /\ (q < inject_Z z + 1)%Q.
Proof.
  cbn [mixed_unary]. eexists. split; [reflexivity|]. pose proof (q_cmp_spec (inject_Z (trunc q)) q) as H. unfold q_cmp in H.
  destruct (Qlt_le_dec q 0) as [L|L].
  - pose proof (trunc_neg q L). destruct (inject_Z (trunc q) ?= q)%Q; try lra. unfold Z.sub. rewrite inject_Z_plus. change (inject_Z (- (1))) with (-1)%Q. lra.
  - pose proof (trunc_pos q L) as (_ & A & B). destruct (inject_Z (trunc q) ?= q)%Q; lra.
Qed.
Theorem ceil_float c P p q : exists z, mixed_unary c P (FU UCeil) (Fl p q) = Ok (Ex (shrink_big z)) /\ (inject_Z z - 1 < q)%Q /\ (q <= inject_Z z)%Q.
Proof.
  cbn [mixed_unary]. eexists. split; [reflexivity|]. pose proof (q_cmp_spec (inject_Z (trunc q)) q) as H. unfold q_cmp in H.
  destruct (Qlt_le_dec q 0) as [L|L].
  - pose proof (trunc_neg q L). destruct (inject_Z (trunc q) ?= q)%Q; lra.
  - pose proof (trunc_pos q L) as (_ & A & B). destruct (inject_Z (trunc q) ?= q)%Q; try lra. rewrite inject_Z_plus. change (inject_Z 1) with 1%Q. lra.
Qed.
Theorem sgn_float c P p q : exists s, mixed_unary c P (FU USgn) (Fl p q) = Ok (Ex (VInt s)) /\ sign_of q 0 s.
Proof.
  cbn [mixed_unary]. eexists. split; [reflexivity|]. destruct q as [n d]. cbn [Qnum]. unfold sign_of, Qlt, Qeq. cbn [Qnum Qden]. rewrite Z.mul_1_r. destruct (Z.sgn_spec n) as [[A B] | [[A B] | [A B]]]; rewrite B; lia.
Qed.
Theorem not_float c P p q : decides (mixed_unary c P (FU ULNot) (Fl p q)) (q == 0)%Q.
Proof.
  cbn [mixed_unary]. split; intros H.
  - apply qnum0 in H. rewrite H. reflexivity.
  - destruct (Qnum q =? 0) eqn:E; [apply qnum0 in E; contradiction|reflexivity].
Qed.
Theorem unary_nearest c P o p q z : 1 <= P -> exactly1 o q z ->
  exists r, mixed_unary c P (FU o) (Fl p q) = Ok r /\ nearest P z (val r) /\ float_form P r.
Proof.
  intros HP E. assert (G : forall w, (z == w)%Q -> exists r0, Ok (rounded P w) = Ok r0 /\ nearest P z (val r0) /\ float_form P r0).
  { intros w W. eexists. split; [reflexivity|]. unfold rounded. split; [|apply shrink_form]. eapply nearest_compat; [symmetry; exact W|symmetry; apply shrink_val|apply rnd_nearest, HP]. }
  destruct o; try contradiction; cbn [exactly1 mixed_unary] in *; try (apply G; exact E).
  destruct E as [NZ E]. destruct (Qnum q =? 0) eqn:Q0; [apply qnum0 in Q0; contradiction|]. apply G, E.
Qed.
Theorem float_operand c P u : 1 <= P -> real u -> exists p x, mixed_unary c P FFloat u = Ok (Fl p x) /\ operand P u x /\ mixed_unary c P FFloat (Fl p x) = Ok (Fl p x).
Proof.
  intros HP R. destruct (as_float_operand P u HP R) as (p & x & E & O). exists p, x. cbn [mixed_unary]. rewrite E. cbn [bind fst snd]. split; [reflexivity|]. split; [exact O|]. reflexivity.
Qed.

(* ---- remainders ---- *)
Lemma abs_le x d : (- d <= x)%Q -> (x <= d)%Q -> (Qabs x <= d)%Q.
Proof. intros A B. apply Qabs_Qle_condition. split; assumption. Qed.
Lemma rnd_err53 q B : (0 <= q)%Q -> (q <= B)%Q -> (q - B * (1 # 9007199254740992) <= rnd 53 q)%Q /\ (rnd 53 q <= q + B * (1 # 9007199254740992))%Q.
Proof.
  intros A H. pose proof (rnd_error 53 q) as E. assert (X : (pow2 (-53) == 1 # 9007199254740992)%Q) by reflexivity. rewrite X in E. rewrite (Qabs_pos q) in E by exact A. apply Qabs_Qle_condition in E. destruct E as [E1 E2].
  assert (Y : (q * (1 # 9007199254740992) <= B * (1 # 9007199254740992))%Q) by (apply Qmult_le_compat_r; [exact H|discriminate]). lra.
Qed.
Lemma transfer x y w r d l h : (w == r)%Q -> remainder x y r d /\ (l <= r)%Q /\ (r <= h)%Q -> remainder x y w d /\ (l <= w)%Q /\ (w <= h)%Q.
Proof. intros E ((n & N) & L & H). split; [exists n; rewrite E; exact N|]. split; lra. Qed.
Theorem mod_float_near c P u v : 1 <= P -> real u -> real v -> is_float u \/ is_float v ->
  exists x y, operand P u x /\ operand P v y /\
   ((y == 0)%Q -> exists r, mixed c P BMod u v = Ok r /\ (val r == x)%Q) /\
   (~ (y == 0)%Q -> exists r, mixed c P BMod u v = Ok r /\ remainder x y (val r) ((Qabs x + Qabs y) * (1 # 1125899906842624)) /\
      (- (Qabs y * (1 # 1125899906842624)) <= val r)%Q /\ (val r <= Qabs y * (1 + (1 # 1125899906842624)))%Q).
Proof.
  intros HP RU RV FL. destruct (as_float_operand P u HP RU) as (p & x & EU & XU). destruct (as_float_operand P v HP RV) as (r & y & EV & XV). exists x, y. split; [exact XU|]. split; [exact XV|].
  assert (M : mixed c P BMod u v = let! m := mod_float P u v in Ok (fst (fst m))).
  { unfold mixed. destruct u as [a|pu qu], v as [b|pv qv]; [destruct FL as [[]|[]]| | |]; try (destruct a; try contradiction; reflexivity); try (destruct b; try contradiction; reflexivity); reflexivity. }
  rewrite M. unfold mod_float. rewrite EU, EV. cbn [bind fst]. split; intros Y.
  - apply qnum0 in Y. rewrite Y. cbn [bind fst]. eexists. split; [reflexivity|]. reflexivity.
  - destruct (Qnum y =? 0) eqn:Y0; [apply qnum0 in Y0; contradiction|]. cbn [bind fst]. eexists. split; [reflexivity|]. eapply transfer; [apply shrink_val|].
    set (A := Qabs x). set (B := Qabs y). assert (BP : (0 < B)%Q). { unfold B. pose proof (Qabs_nonneg y). destruct (Qlt_le_dec 0 (Qabs y)) as [L|L]; [exact L|]. exfalso. apply Y. apply Qabs_Qle_condition in L. lra. }
    assert (AP : (0 <= A)%Q) by apply Qabs_nonneg. assert (QP : (0 <= A / B)%Q) by (apply Qle_shift_div_l; lra).
    set (qt := (A / B)%Q) in *. assert (AE : (qt * B == A)%Q) by (unfold qt; field; lra).
    destruct (rnd_err53 qt qt QP ltac:(lra)) as [Q1 Q2]. pose proof (rnd_nonneg' 53 qt ltac:(lia) QP) as QN. set (quo := rnd 53 qt) in *.
    destruct (trunc_pos quo QN) as (N0 & N1 & N2). set (n := trunc quo) in *. set (f := (quo - inject_Z n)%Q).
    assert (F0 : (0 <= f)%Q) by (unfold f; lra). assert (F1 : (f <= 1)%Q) by (unfold f; lra).
    destruct (rnd_err53 f 1 F0 F1) as [G1 G2]. pose proof (rnd_nonneg' 53 f ltac:(lia) F0) as G0. set (g := rnd 53 f) in *.
    assert (B1 : (quo * B <= A + A * (1 # 9007199254740992))%Q). { rewrite <-AE. setoid_replace (qt * B + qt * B * (1 # 9007199254740992))%Q with ((qt + qt * (1 # 9007199254740992)) * B)%Q by ring. apply mul_l_le; assumption. }
    assert (B2 : (A - A * (1 # 9007199254740992) <= quo * B)%Q). { rewrite <-AE. setoid_replace (qt * B - qt * B * (1 # 9007199254740992))%Q with ((qt - qt * (1 # 9007199254740992)) * B)%Q by ring. apply mul_l_le; assumption. }
    assert (B3 : (g * B <= quo * B - inject_Z n * B + B * (1 # 9007199254740992))%Q). { setoid_replace (quo * B - inject_Z n * B + B * (1 # 9007199254740992))%Q with ((f + 1 * (1 # 9007199254740992)) * B)%Q by (unfold f; ring). apply mul_l_le; assumption. }
    assert (B4 : (quo * B - inject_Z n * B - B * (1 # 9007199254740992) <= g * B)%Q). { setoid_replace (quo * B - inject_Z n * B - B * (1 # 9007199254740992))%Q with ((f - 1 * (1 # 9007199254740992)) * B)%Q by (unfold f; ring). apply mul_l_le; assumption. }
    assert (B5 : (0 <= g * B)%Q) by (apply Qmult_le_0_compat; lra).
    assert (B6 : (g * B <= B + B * (1 # 9007199254740992))%Q). { setoid_replace (B + B * (1 # 9007199254740992))%Q with ((1 + 1 * (1 # 9007199254740992)) * B)%Q by ring. apply mul_l_le; [exact BP|lra]. }
    destruct (rnd_err53 (g * B) (2 * B) B5 ltac:(lra)) as [R1 R2]. pose proof (rnd_nonneg' 53 (g * B) ltac:(lia) B5) as R0. set (rm := rnd 53 (g * B)) in *.
    set (nB := (inject_Z n * B)%Q) in *.
    (* the integer multiple of y *)
    assert (MULT : forall k : Z, exists m : Z, (inject_Z m * y == inject_Z k * B)%Q).
    { intros k. unfold B. destruct (Qlt_le_dec y 0) as [L|L]; [exists (- k); rewrite Qabs_neg by lra; rewrite inject_Z_opp; ring|exists k; rewrite Qabs_pos by lra; reflexivity]. }
    assert (XA : (Qnum x <? 0) = true -> (x == - A)%Q). { intros L. unfold A. rewrite Qabs_neg; [ring|]. destruct x as [xn xd]. cbn [Qnum] in L. unfold Qle. cbn. lia. }
    assert (XA' : (Qnum x <? 0) = false -> (x == A)%Q). { intros L. unfold A. rewrite Qabs_pos; [reflexivity|]. destruct x as [xn xd]. cbn [Qnum] in L. unfold Qle. cbn. lia. }
    destruct (Qnum x <? 0) eqn:XS; cbn [andb].
    + specialize (XA eq_refl). destruct (Qnum rm =? 0) eqn:R0'; cbn [negb].
      * apply qnum0 in R0'. split; [|split; lra]. destruct (MULT (- n)) as (m & ME). exists m. rewrite ME, XA, inject_Z_opp. unfold nB in *. apply abs_le; lra.
      * destruct (MULT (- (n + 1))) as (m & ME).
        assert (RR : (B - rm - 2 * B * (1 # 9007199254740992) <= rnd 53 (B - rm))%Q /\ (rnd 53 (B - rm) <= B - rm + 2 * B * (1 # 9007199254740992))%Q).
        { destruct (Qlt_le_dec (B - rm) 0) as [L|L]; [|apply rnd_err53; lra]. destruct (rnd_err53 (- (B - rm)) (2 * B) ltac:(lra) ltac:(lra)) as [S1 S2]. rewrite rnd_opp in S1, S2. lra. }
        set (r2 := rnd 53 (B - rm)) in *. split; [|split; lra]. exists m. rewrite ME, XA, inject_Z_opp, inject_Z_plus. change (inject_Z 1) with 1%Q.
        setoid_replace (- (inject_Z n + 1) * B)%Q with (- nB - B)%Q by (unfold nB; ring). apply abs_le; lra.
    + specialize (XA' eq_refl). split; [|split; lra]. destruct (MULT n) as (m & ME). exists m. rewrite ME, XA'. fold nB. apply abs_le; lra.
Qed.
Theorem mod_operands P u v r u' v' : mod_float P u v = Ok (r, u', v') ->
  (~ is_float u \/ 0 <= val u)%Q -> (~ is_float v \/ 0 <= val v)%Q -> 
  (match u' with Fl p q => exists q', u = Fl p q' /\ (q == q')%Q | _ => u' = u end) /\
  (match v' with Fl p q => exists q', v = Fl p q' /\ (q == q')%Q | _ => v' = v end).
Proof.
  intros H U V. unfold mod_float in H. destruct (as_float P u) as [[p x]| | |]; cbn [bind] in H; try discriminate. destruct (as_float P v) as [[p' y]| | |]; cbn [bind] in H; try discriminate.
  assert (S : forall w, match w with Fl p0 q => exists q', w = Fl p0 q' /\ (q == q')%Q | _ => w = w end) by (intros [w|pw qw]; [reflexivity|exists qw; split; reflexivity]).
  assert (G : forall w, (~ is_float w \/ 0 <= val w)%Q -> match in_place w with Fl p0 q => exists q', w = Fl p0 q' /\ (q == q')%Q | _ => in_place w = w end).
  { intros [w|pw qw] [X|X]; cbn [in_place is_float val] in *; try reflexivity; [tauto|]. exists qw. split; [reflexivity|]. apply Qabs_pos, X. }
  destruct (Qnum y =? 0); injection H as <- <- <-; split; first [apply G; assumption | apply S].
Qed.

(* ---- laws ---- *)
Lemma nearest_exact p z r : nearest p z r -> representable p z -> (r == z)%Q.
Proof.
  intros [_ N] R. specialize (N z R). setoid_replace (z - z)%Q with 0%Q in N by ring. change (Qabs 0) with 0%Q in N. apply Qabs_Qle_condition in N. lra.
Qed.
Lemma rounded_val P q : (val (rounded P q) == rnd P q)%Q.
Proof. apply shrink_val. Qed.
Theorem mixed_commutes c P o u v : 1 <= P -> o = BAdd \/ o = BMul -> real u -> real v -> is_float u \/ is_float v ->
  exists r s, mixed c P o u v = Ok r /\ mixed c P o v u = Ok s /\ (val r == val s)%Q.
Proof.
  intros HP O RU RV FL. destruct (as_float_operand P u HP RU) as (p & x & EU & _). destruct (as_float_operand P v HP RV) as (r & y & EV & _).
  assert (NM : o <> BMod) by (destruct O as [-> | ->]; discriminate).
  rewrite (mixed_is c P o u v _ _ FL RU RV NM EU EV), (mixed_is c P o v u _ _ ltac:(tauto) RV RU NM EV EU).
  destruct O as [-> | ->]; cbn [fn_float]; eexists _, _; (split; [reflexivity|]); (split; [reflexivity|]); rewrite !rounded_val; apply rnd_compat; try exact HP; ring.
Qed.
Theorem mixed_add_mono c P u u' v : 1 <= P -> real u -> real u' -> real v -> is_float v -> (val u <= val u')%Q ->
  exists r s, mixed c P BAdd u v = Ok r /\ mixed c P BAdd u' v = Ok s /\ (fits P u -> fits P u' -> (val r <= val s)%Q).
Proof.
  intros HP RU RU' RV FV L. destruct (as_float_operand P u HP RU) as (p & x & EU & _). destruct (as_float_operand P u' HP RU') as (p' & x' & EU' & _). destruct (as_float_operand P v HP RV) as (r & y & EV & _).
  rewrite (mixed_is c P BAdd u v _ _ ltac:(tauto) RU RV ltac:(discriminate) EU EV), (mixed_is c P BAdd u' v _ _ ltac:(tauto) RU' RV ltac:(discriminate) EU' EV).
  cbn [fn_float]. eexists _, _. split; [reflexivity|]. split; [reflexivity|]. intros FU FU'. rewrite !rounded_val. apply rnd_mono_any; [exact HP|].
  destruct (as_float_fits P u HP FU) as (? & ? & E1 & X1). destruct (as_float_fits P u' HP FU') as (? & ? & E2 & X2). rewrite EU in E1. rewrite EU' in E2. injection E1 as <- <-. injection E2 as <- <-. lra.
Qed.
Theorem mixed_min_max c P o u v : 1 <= P -> o = BMin \/ o = BMax -> fits P u -> fits P v -> is_float u \/ is_float v ->
  exists r, mixed c P o u v = Ok r /\ ((val r == val u)%Q \/ (val r == val v)%Q) /\
    (o = BMin -> (val r <= val u)%Q /\ (val r <= val v)%Q) /\ (o = BMax -> (val u <= val r)%Q /\ (val v <= val r)%Q).
Proof.
  intros HP O FU FV FL. destruct (as_float_fits P u HP FU) as (p & x & EU & XU). destruct (as_float_fits P v HP FV) as (r & y & EV & XV).
  assert (NM : o <> BMod) by (destruct O as [-> | ->]; discriminate). rewrite (mixed_is c P o u v _ _ FL (real_fits _ _ FU) (real_fits _ _ FV) NM EU EV).
  pose proof (q_cmp_spec x y) as H. destruct O as [-> | ->]; cbn [fn_float]; eexists; (split; [reflexivity|]); destruct (q_cmp x y); rewrite shrink_val; (split; [first [left; lra | right; lra]|]); split; intros X; try discriminate; lra.
Qed.
Theorem mixed_logic c P o u v : 1 <= P -> is_logic o -> fits P u -> fits P v -> is_float u \/ is_float v ->
  decides (mixed c P o u v) (logic_rel o (is_true_q (val u)) (is_true_q (val v))).
Proof.
  intros HP O FU FV FL. destruct (as_float_fits P u HP FU) as (p & x & EU & XU). destruct (as_float_fits P v HP FV) as (r & y & EV & XV).
  rewrite (mixed_is c P o u v _ _ FL (real_fits _ _ FU) (real_fits _ _ FV) ltac:(destruct o; try contradiction; discriminate) EU EV).
  assert (A : Qnum x =? 0 = true <-> (val u == 0)%Q) by (rewrite qnum0, XU; reflexivity). assert (B : Qnum y =? 0 = true <-> (val v == 0)%Q) by (rewrite qnum0, XV; reflexivity).
  unfold is_true_q. destruct o; try contradiction; cbn [fn_float logic_rel]; apply to_int_decides; destruct (Qnum x =? 0), (Qnum y =? 0);
  first [assert (A' : (val u == 0)%Q) by (apply A; reflexivity) | assert (A' : ~ (val u == 0)%Q) by (intros X; apply A in X; discriminate)];
  first [assert (B' : (val v == 0)%Q) by (apply B; reflexivity) | assert (B' : ~ (val v == 0)%Q) by (intros X; apply B in X; discriminate)];
  cbn [negb andb orb xorb]; split; intros X; first [discriminate X | reflexivity | tauto | exfalso; tauto].
Qed.

From Verif Require Import Value NumModel NumSpec NumProofs NumArith NumMore NumTree NumCplx ArrModel ArrSpec ArrBase EvalModel EvalSpec InvModel InvSpec.
From Coq Require Import QArith Setoid Morphisms Ring Lqa.
Open Scope nat_scope.

(* ---- the ring of exact complex numbers ---- *)
Definition copp (x : cnumber) : cnumber := (- fst x, - snd x)%Q.
Definition csub (x y : cnumber) : cnumber := cadd x (copp y).
#[export] Instance ceq_equiv : Equivalence ceq.
Proof.
  split.
  - intros x. split; reflexivity.
  - intros x y [H1 H2]. split; symmetry; assumption.
  - intros x y z [H1 H2] [H3 H4]. split; etransitivity; eassumption.
Qed.
#[export] Instance cadd_proper : Proper (ceq ==> ceq ==> ceq) cadd.
Proof. intros x y [H1 H2] z w [H3 H4]. split; cbn [fst snd cadd]; rewrite ?H1, ?H2, ?H3, ?H4; reflexivity. Qed.
#[export] Instance cmul_proper : Proper (ceq ==> ceq ==> ceq) cmul.
Proof. intros x y [H1 H2] z w [H3 H4]. split; cbn [fst snd cmul]; rewrite ?H1, ?H2, ?H3, ?H4; reflexivity. Qed.
#[export] Instance copp_proper : Proper (ceq ==> ceq) copp.
Proof. intros x y [H1 H2]. split; cbn [fst snd copp]; rewrite ?H1, ?H2; reflexivity. Qed.
#[export] Instance csub_proper : Proper (ceq ==> ceq ==> ceq) csub.
Proof. intros x y H z w H'. unfold csub. rewrite H, H'. reflexivity. Qed.
Lemma c_ring : ring_theory c0 c1 cadd cmul csub copp ceq.
Proof. split; intros; split; unfold csub, cadd, cmul, copp, c0, c1; cbn [fst snd]; ring. Qed.
Lemma c_ext : ring_eq_ext cadd cmul copp ceq.
Proof. split; [exact cadd_proper|exact cmul_proper|exact copp_proper]. Qed.
Add Ring cring : c_ring (setoid ceq_equiv c_ext).

Lemma csum_ext n f g : (forall k, k < n -> ceq (f k) (g k)) -> ceq (csum n f) (csum n g).
Proof. induction n; intros H; cbn [csum]; [reflexivity|]. rewrite IHn by (intros; apply H; lia). rewrite H by lia. reflexivity. Qed.
Lemma csum_add n f g : ceq (csum n (fun k => cadd (f k) (g k))) (cadd (csum n f) (csum n g)).
Proof. induction n; cbn [csum]; [ring|]. rewrite IHn. ring. Qed.
Lemma csum_scale n a f : ceq (csum n (fun k => cmul a (f k))) (cmul a (csum n f)).
Proof. induction n; cbn [csum]; [ring|]. rewrite IHn. ring. Qed.
Lemma csum_scale_r n a f : ceq (csum n (fun k => cmul (f k) a)) (cmul (csum n f) a).
Proof. induction n; cbn [csum]; [ring|]. rewrite IHn. ring. Qed.
Lemma csum_zero n f : (forall k, k < n -> ceq (f k) c0) -> ceq (csum n f) c0.
Proof. induction n; intros H; cbn [csum]; [reflexivity|]. rewrite IHn by (intros; apply H; lia). rewrite H by lia. ring. Qed.
Lemma csum_swap n m f : ceq (csum n (fun i => csum m (fun j => f i j))) (csum m (fun j => csum n (fun i => f i j))).
Proof.
  induction n; cbn [csum]; [symmetry; apply csum_zero; reflexivity|]. rewrite IHn, <-csum_add. reflexivity.
Qed.
Lemma csum_delta n i f : i < n -> ceq (csum n (fun k => cmul (delta i k) (f k))) (f i).
Proof.
  induction n; intros H; [lia|]. cbn [csum]. destruct (Nat.eq_dec i n) as [->|N].
  - rewrite csum_zero; [unfold delta; rewrite Nat.eqb_refl; ring|]. intros k K. unfold delta.
    destruct (Nat.eqb_spec n k); [lia|]. ring.
  - rewrite IHn by lia. unfold delta. destruct (Nat.eqb_spec i n); [lia|]. ring.
Qed.
Lemma csum_delta_r n i f : i < n -> ceq (csum n (fun k => cmul (f k) (delta k i))) (f i).
Proof.
  intros H. rewrite <-(csum_delta n i f H). apply csum_ext. intros k K. unfold delta. rewrite Nat.eqb_sym. ring.
Qed.
(* one term apart *)
Lemma csum_split n i f : i < n -> ceq (csum n f) (cadd (f i) (csum n (fun k => if k =? i then c0 else f k))).
Proof.
  induction n; intros H; [lia|]. cbn [csum]. destruct (Nat.eq_dec i n) as [->|N].
  - rewrite Nat.eqb_refl. rewrite (csum_ext n (fun k => if k =? n then c0 else f k) f); [ring|].
    intros k K. destruct (Nat.eqb_spec k n); [lia|reflexivity].
  - rewrite IHn by lia. destruct (Nat.eqb_spec n i); [lia|]. ring.
Qed.
Lemma csum_le n m f : m <= n -> (forall k, m <= k < n -> ceq (f k) c0) -> ceq (csum n f) (csum m f).
Proof.
  intros L. induction n; intros H; [replace m with 0 by lia; reflexivity|].
  destruct (Nat.eq_dec m (S n)) as [->|N]; [reflexivity|]. cbn [csum]. rewrite IHn; [|lia|intros; apply H; lia].
  rewrite (H n) by lia. ring.
Qed.

(* ---- one column of the elimination, on numbers ---- *)
Section Pivot.
Variables (n x : nat) (T T' : nat -> nat -> cnumber) (s : cnumber).
Hypothesis Hx : x < n.
Hypothesis Hs : ceq (cmul s (T x x)) c1.
Hypothesis Hrow : forall j, j < 2 * n -> ceq (T' x j) (cmul s (T x j)).
Hypothesis Hoth : forall i j, i < n -> i <> x -> j < 2 * n -> ceq (T' i j) (csub (T i j) (cmul (cmul (T i x) s) (T x j))).
Variable M : nat -> nat -> cnumber.
Definition Aug (i j : nat) : cnumber := if j <? n then M i j else delta i (j - n).
Definition Smat (x i k : nat) : cnumber := if k <? x then M i k else delta i k.

Lemma pivot_cols : (forall i j, i < n -> j < x -> ceq (T i j) (delta i j)) ->
  forall i j, i < n -> j < S x -> ceq (T' i j) (delta i j).
Proof.
  intros H i j Hi Hj. destruct (Nat.eq_dec i x) as [->|Ni].
  - rewrite Hrow by lia. destruct (Nat.eq_dec j x) as [->|Nj]; [rewrite Hs; unfold delta; rewrite Nat.eqb_refl; reflexivity|].
    rewrite H by lia. unfold delta. destruct (Nat.eqb_spec x j); [lia|]. ring.
  - rewrite Hoth by lia. destruct (Nat.eq_dec j x) as [->|Nj].
    + transitivity (csub (T i x) (cmul (T i x) (cmul s (T x x)))); [ring|]. rewrite Hs.
      unfold delta. destruct (Nat.eqb_spec i x); [lia|]. ring.
    + rewrite (H i j), (H x j) by lia. unfold delta at 2. destruct (Nat.eqb_spec x j); [lia|]. ring.
Qed.
Lemma pivot_lin : (forall i j, i < n -> j < n -> ceq (T i j) (csum n (fun k => cmul (T i (n + k)) (M k j)))) ->
  forall i j, i < n -> j < n -> ceq (T' i j) (csum n (fun k => cmul (T' i (n + k)) (M k j))).
Proof.
  intros H i j Hi Hj. destruct (Nat.eq_dec i x) as [->|Ni].
  - rewrite Hrow, H by lia. rewrite <-csum_scale. apply csum_ext. intros k K. rewrite Hrow by lia. ring.
  - rewrite Hoth by lia. rewrite (H i j), (H x j) by lia.
    rewrite <-csum_scale. unfold csub.
    transitivity (csum n (fun k => cadd (cmul (T i (n + k)) (M k j)) (cmul (copp (cmul (T i x) s)) (cmul (T x (n + k)) (M k j))))).
    + rewrite csum_add, !csum_scale. ring.
    + apply csum_ext. intros k K. rewrite Hoth by lia. ring.
Qed.
Lemma pivot_right : (forall i k, i < n -> x <= k < n -> ceq (T i (n + k)) (delta i k)) ->
  forall i k, i < n -> S x <= k < n -> ceq (T' i (n + k)) (delta i k).
Proof.
  intros H i k Hi Hk. destruct (Nat.eq_dec i x) as [->|Ni].
  - rewrite Hrow by lia. rewrite H by lia. unfold delta. destruct (Nat.eqb_spec x k); [lia|]. ring.
  - rewrite Hoth by lia. rewrite (H i k), (H x k) by lia. unfold delta at 2. destruct (Nat.eqb_spec x k); [lia|]. ring.
Qed.
Lemma pivot_span : (forall i j, i < n -> j < 2 * n -> ceq (csum n (fun k => cmul (Smat x i k) (T k j))) (Aug i j)) ->
  forall i j, i < n -> j < 2 * n -> ceq (csum n (fun k => cmul (Smat (S x) i k) (T' k j))) (Aug i j).
Proof.
  intros H i j Hi Hj. rewrite <-H by lia.
  assert (ceq (M i x) (csum n (fun k => cmul (Smat x i k) (T k x)))) as HM.
  { rewrite H by lia. unfold Aug. destruct (Nat.ltb_spec x n); [reflexivity|lia]. }
  rewrite (csum_split n x _ Hx). rewrite (csum_split n x (fun k => cmul (Smat x i k) (T k j)) Hx).
  rewrite (csum_split n x _ Hx) in HM.
  set (R1 := csum n (fun k => if k =? x then c0 else cmul (Smat x i k) (T k j))) in *.
  set (R2 := csum n (fun k => if k =? x then c0 else cmul (Smat x i k) (T k x))) in *.
  assert (ceq (csum n (fun k => if k =? x then c0 else cmul (Smat (S x) i k) (T' k j)))
              (csub R1 (cmul (cmul s (T x j)) R2))) as E.
  { unfold csub, R1, R2. rewrite <-csum_scale.
    transitivity (cadd (csum n (fun k => if k =? x then c0 else cmul (Smat x i k) (T k j)))
      (csum n (fun k => cmul (copp (cmul s (T x j))) (if k =? x then c0 else cmul (Smat x i k) (T k x))))).
    - rewrite <-csum_add. apply csum_ext. intros k K. destruct (Nat.eqb_spec k x) as [->|N]; [ring|].
      rewrite Hoth by lia. assert (Smat (S x) i k = Smat x i k) as ->.
      { unfold Smat. destruct (Nat.ltb_spec k (S x)), (Nat.ltb_spec k x); auto; lia. }
      ring.
    - rewrite !csum_scale. ring. }
  rewrite E. assert (Smat (S x) i x = M i x) as ->. { unfold Smat. destruct (Nat.ltb_spec x (S x)); [reflexivity|lia]. }
  rewrite Hrow by lia. rewrite HM.
  transitivity (cadd (cmul (Smat x i x) (cmul (cmul s (T x x)) (T x j))) R1); [ring|]. rewrite Hs. ring.
Qed.
End Pivot.

(* ---- numbers as values ---- *)
Definition num (v : value) : cnumber := num_of (Some v).
Lemma cvalid_val v : cvalid v -> cval v = Some (num v).
Proof.
  unfold num, num_of. destruct v as [z|z|z|q|a b|l|s d]; simpl; try contradiction; try reflexivity.
  intros (Va & Vb & y & Ny & _). rewrite Ny. destruct a; simpl in *; try contradiction; reflexivity.
Qed.
Lemma cvalid_scalar v : cvalid v -> is_scalar v = true.
Proof. destruct v; simpl; try contradiction; reflexivity. Qed.
Lemma isZero_num v : cvalid v -> isZero v = true <-> ceq (num v) c0.
Proof.
  unfold num, num_of, ceq, c0. destruct v as [z|z|z|q|a b|l|s d]; simpl; try contradiction.
  - intros _. rewrite Z.eqb_eq. split; [intros ->; split; reflexivity|]. intros [H _]. revert H. unfold Qeq. simpl. lia.
  - intros _. rewrite Z.eqb_eq. split; [intros ->; split; reflexivity|]. intros [H _]. revert H. unfold Qeq. simpl. lia.
  - intros _. split; [intros H; split; [|reflexivity]; apply Qnum0; exact H|intros [H _]; apply Qnum0; exact H].
  - intros (Va & Vb & y & Ny & NZ). assert (exists x, numval a = Some x) as [x Nx] by (destruct a; simpl in Va; try contradiction; simpl; eauto).
    rewrite Nx, Ny. cbn [fst snd]. rewrite (isZero_val _ _ Nx), (isZero_val _ _ Ny), andb_true_iff, !Qeq_bool_iff. reflexivity.
Qed.
Lemma std_scalar c o u v : cvalid u -> cvalid v -> ev_std c o u v = eval_scalar c o u v.
Proof. intros Hu Hv. unfold ev_std, elementwise. destruct u; try contradiction; destruct v; try contradiction; reflexivity. Qed.
Lemma std1_scalar c o u : cvalid u -> ev1_std c o u = eval_unary_scalar c o u.
Proof. intros Hu. unfold ev1_std, elementwise1. destruct u; try contradiction; reflexivity. Qed.

(* A result that is right, unless it exceeds the size limit. *)
Definition okc {A} (c : conf) (r : res A) (P : A -> Prop) : Prop := (exists v, r = Ok v /\ P v) \/ (r = Err /\ maxbits c <> 0%Z).
Lemma okc_bind {A B} c (r : res A) (k : A -> res B) P Q : okc c r P -> (forall v, P v -> okc c (k v) Q) -> okc c (bind r k) Q.
Proof. intros [(v & -> & Hv)|(-> & H)] Hk; [apply Hk, Hv|right; auto]. Qed.
Lemma okc_ret {A} c (v : A) (P : A -> Prop) : P v -> okc c (Ok v) P.
Proof. left. eauto. Qed.
Lemma okc_impl {A} c (r : res A) (P Q : A -> Prop) : okc c r P -> (forall v, P v -> Q v) -> okc c r Q.
Proof. intros [(v & -> & Hv)|H] HPQ; [left; eauto|right; auto]. Qed.

Lemma cinv_exists p : ~ ceq p c0 -> exists s, ceq (cmul s p) c1.
Proof.
  intros H. destruct p as [a b]. pose proof (sumsq_nz a b H) as N.
  exists (a / (a * a + b * b), - b / (a * a + b * b))%Q. split; cbn [fst snd cmul c1]; field; exact N.
Qed.
Lemma arith_num c o a b r : c_arith o -> cvalid a -> cvalid b -> c_bop o (num a) (num b) = Some r ->
  okc c (ev_std c o a b) (fun v => cvalid v /\ ceq (num v) r).
Proof.
  intros Ho Va Vb E. rewrite std_scalar by assumption.
  pose proof (cplx_exact c o a b _ _ Ho Va Vb (cvalid_val a Va) (cvalid_val b Vb)) as H. rewrite E in H.
  destruct H as [(v & q & -> & Vv & Nv & Eq)|[-> H]]; [left|right; auto].
  exists v. split; [reflexivity|]. split; [exact Vv|]. rewrite (cvalid_val v Vv) in Nv. injection Nv as <-. exact Eq.
Qed.
Lemma add_num c a b : cvalid a -> cvalid b -> okc c (ev_std c BAdd a b) (fun v => cvalid v /\ ceq (num v) (cadd (num a) (num b))).
Proof. intros Va Vb. eapply (arith_num c BAdd); auto; [exact I|]. unfold c_bop. destruct (num a), (num b). reflexivity. Qed.
Lemma sub_num c a b : cvalid a -> cvalid b -> okc c (ev_std c BSub a b) (fun v => cvalid v /\ ceq (num v) (csub (num a) (num b))).
Proof. intros Va Vb. eapply (arith_num c BSub); auto; [exact I|]. unfold c_bop. destruct (num a), (num b). reflexivity. Qed.
Lemma mul_num c a b : cvalid a -> cvalid b -> okc c (ev_std c BMul a b) (fun v => cvalid v /\ ceq (num v) (cmul (num a) (num b))).
Proof. intros Va Vb. eapply (arith_num c BMul); auto; [exact I|]. unfold c_bop. destruct (num a), (num b). reflexivity. Qed.
Lemma quo_num c a b : cvalid a -> cvalid b -> ~ ceq (num b) c0 ->
  okc c (ev_std c BQuo a b) (fun v => cvalid v /\ ceq (cmul (num v) (num b)) (num a)).
Proof.
  intros Va Vb N. remember (num a) as p eqn:Ep. remember (num b) as q eqn:Eq. destruct p as [x y], q as [z w].
  pose proof (sumsq_nz z w N) as SN.
  eapply okc_impl; [eapply (arith_num c BQuo a b ((x * z + y * w) / (z * z + w * w), (y * z - x * w) / (z * z + w * w))%Q); auto; [exact I|]|].
  - rewrite <-Ep, <-Eq. unfold c_bop. destruct (Qeq_bool z 0 && Qeq_bool w 0) eqn:E; [|reflexivity].
    exfalso. apply N. apply andb_true_iff in E. rewrite !Qeq_bool_iff in E. exact E.
  - intros v [Vv Hv]. split; [exact Vv|]. rewrite Hv. split; cbn [fst snd cmul]; field; exact SN.
Qed.
Lemma inv_num c a : cvalid a -> ~ ceq (num a) c0 -> okc c (ev1_std c UInv a) (fun v => cvalid v /\ ceq (cmul (num v) (num a)) c1).
Proof.
  intros Va N. rewrite std1_scalar by exact Va.
  destruct a as [z|z|z|q|a b|l|s d]; try contradiction.
  1-3: match goal with |- okc _ (eval_unary_scalar ?c UInv ?a) _ =>
      assert (exists x, numval a = Some x) as [x Nx] by (simpl; eauto);
      assert (ceq (num a) (x, 0%Q)) as En by (unfold num, num_of; simpl; simpl in Nx; injection Nx as <-; reflexivity);
      destruct (inv_exact c a x Va Nx) as [[X0 _]|[X0 (v & y & -> & Vv & Ny & Ey)]];
      [exfalso; apply N; rewrite En; split; [exact X0|reflexivity]|];
      left; exists v; split; [reflexivity|];
      assert (cvalid v /\ num v = (y, 0%Q)) as [Cv Nv] by (destruct v; simpl in Vv; try contradiction; simpl in Ny; injection Ny as <-; (split; [exact Vv|reflexivity]));
      split; [exact Cv|]; rewrite Nv, En; split; cbn [fst snd cmul c1]; [rewrite Ey; field; exact X0|ring] end.
  destruct Va as (Va & Vb & y & Ny & NZ). assert (exists x, numval a = Some x) as [x Nx] by (destruct a; simpl in Va; try contradiction; simpl; eauto).
  assert (num (VCplx a b) = (x, y)) as En by (unfold num, num_of; cbn [cval]; rewrite Nx, Ny; reflexivity). rewrite En in *.
  pose proof (sumsq_nz x y N) as SN.
  cbn [eval_unary_scalar]. rewrite (isZero_val _ _ Nx), (isZero_val _ _ Ny).
  destruct (Qeq_bool x 0 && Qeq_bool y 0) eqn:E0.
  { exfalso. apply N. apply andb_true_iff in E0. rewrite !Qeq_bool_iff in E0. exact E0. }
  assert (forall r q k (P : value -> Prop), err_or c r q -> (forall v z, valid v -> numval v = Some z -> (z == q)%Q -> okc c (k v) P) -> okc c (bind r k) P) as B.
  { intros r q k P [(v & z & -> & Vv & Nv & Ev)|(-> & H)] Hk; [eapply Hk; eauto|right; auto]. }
  eapply B; [exact (real_arith c BMul a a _ _ _ I Va Va Nx Nx eq_refl)|]. intros v1 z1 V1 N1 E1.
  eapply B; [exact (real_arith c BMul b b _ _ _ I Vb Vb Ny Ny eq_refl)|]. intros v2 z2 V2 N2 E2.
  eapply B; [exact (real_arith c BAdd v1 v2 _ _ _ I V1 V2 N1 N2 eq_refl)|]. intros den zd Vd Nd Ed.
  assert (~ (zd == 0)%Q) as DN by (rewrite Ed, E1, E2; exact SN).
  eapply B; [exact (real_arith c BQuo a den _ _ _ I Va Vd Nx Nd (sem_quo _ _ DN))|]. intros v3 z3 V3 N3 E3.
  eapply B; [exact (real_arith c BQuo b den _ _ _ I Vb Vd Ny Nd (sem_quo _ _ DN))|]. intros v4 z4 V4 N4 E4.
  destruct (neg_exact c v4 z4 V4 N4) as (v5 & z5 & E5 & V5 & N5 & Q5).
  assert (eval_unary_real UNeg v4 = Ok v5) as -> by (destruct v4; try contradiction; exact E5). cbn [bind].
  destruct (shrink_parts c (new_cplx v3 v5) (z3, z5)) as [(w & q & Ew & Vw & Nw & Qw)|[E9 H]].
  - eapply parts_new; eauto; reflexivity.
  - left. exists w. split; [exact Ew|]. split; [exact Vw|]. rewrite (cvalid_val w Vw) in Nw. injection Nw as <-.
    rewrite Qw. split; cbn [fst snd cmul c1]; rewrite ?Q5, ?E3, ?E4, Ed, E1, E2; field; exact SN.
  - exfalso. rewrite (new_cplx_ok v3 v5 _ _ N3 N5) in E9. discriminate E9.
Qed.

(* ---- rows of exact values ---- *)
Definition vd : value := VInt 0.
Lemma cvalid_one : cvalid vone. Proof. vm_compute. intuition congruence. Qed.
Lemma cvalid_zero : cvalid vzero. Proof. vm_compute. intuition congruence. Qed.
Definition TV (n : nat) (t : list (list value)) : Prop :=
  length t = n /\ forall i, i < n -> length (nth i t []) = 2 * n /\ Forall cvalid (nth i t []).
Definition tn (t : list (list value)) (i j : nat) : cnumber := num (nth j (nth i t []) vd).

Lemma okc_mapM c (f : nat -> res value) (P : nat -> value -> Prop) : forall n s,
  (forall i, s <= i < s + n -> okc c (f i) (P i)) ->
  okc c (mapM f (seq s n)) (fun l => length l = n /\ forall i, i < n -> P (s + i) (nth i l vd)).
Proof.
  induction n as [|n IH]; intros s H; cbn [seq mapM].
  - apply okc_ret. split; [reflexivity|]. intros; lia.
  - eapply okc_bind; [apply H; lia|]. intros v Hv. eapply okc_bind; [apply (IH (S s)); intros; apply H; lia|].
    intros l [Hl Hp]. apply okc_ret. split; [simpl; lia|]. intros [|i] Hi; [rewrite Nat.add_0_r; exact Hv|].
    simpl. replace (s + S i) with (S s + i) by lia. apply Hp. lia.
Qed.
Lemma nth_put t y r i : y < length t -> nth i (put_row t y r) [] = if i =? y then r else nth i t [].
Proof.
  intros Hy. unfold put_row. destruct (Nat.lt_ge_cases i (length t)) as [L|L].
  - rewrite nth_indep with (d' := (if 0 =? y then r else nth 0 t [])) by (rewrite map_length, seq_length; exact L).
    rewrite (map_nth (fun i => if i =? y then r else nth i t []) (seq 0 (length t)) 0 i), seq_nth by exact L. reflexivity.
  - rewrite nth_overflow by (rewrite map_length, seq_length; exact L). destruct (Nat.eqb_spec i y); [lia|].
    symmetry. apply nth_overflow. exact L.
Qed.
Lemma put_len t y r : length (put_row t y r) = length t.
Proof. unfold put_row. rewrite map_length, seq_length. reflexivity. Qed.
Lemma Forall_nthv (P : value -> Prop) l : (forall i, i < length l -> P (nth i l vd)) -> Forall P l.
Proof. intros H. apply Forall_forall. intros x Hx. destruct (In_nth l x vd Hx) as (i & Hi & <-). apply H, Hi. Qed.
Lemma TV_put n t y r : TV n t -> y < n -> length r = 2 * n -> (forall i, i < 2 * n -> cvalid (nth i r vd)) -> TV n (put_row t y r).
Proof.
  intros [L H] Hy Lr Hr. split; [rewrite put_len; exact L|]. intros i Hi. rewrite nth_put by lia.
  destruct (i =? y); [|apply H, Hi]. split; [exact Lr|]. apply Forall_nthv. rewrite Lr. exact Hr.
Qed.
Lemma TV_at n t i j : TV n t -> i < n -> j < 2 * n -> cvalid (nth j (nth i t []) vd).
Proof. intros [L H] Hi Hj. destruct (H i Hi) as [Lr Hr]. rewrite Forall_forall in Hr. apply Hr, nth_In. lia. Qed.
Lemma row_at_ok n t y : TV n t -> y < n -> row_at t y = Ok (nth y t []).
Proof. intros [L _] Hy. unfold row_at. rewrite (nth_error_nth' t []) by lia. reflexivity. Qed.
Lemma at_ok (l : list value) i : i < length l -> at_ l i = Ok (nth i l vd).
Proof. intros H. unfold at_. rewrite (nth_error_nth' l vd) by exact H. reflexivity. Qed.
Lemma cell_ok n t y x : TV n t -> y < n -> x < 2 * n -> at_ (nth y t []) x = Ok (nth x (nth y t []) vd).
Proof. intros [L H] Hy Hx. apply at_ok. destruct (H y Hy) as [-> _]. exact Hx. Qed.

Section Col.
Variable (c : conf) (n x : nat).
Hypothesis Hx : x < n.
Notation step := (inv_step (ev_std c) (ev1_std c) n x).

Lemma find_ok t y rows : TV n t -> Forall (fun k => k < n) rows ->
  (find_target t x y rows = Ok None \/ exists k, find_target t x y rows = Ok (Some k) /\ k < n /\ k <> y /\ ~ ceq (tn t k x) c0).
Proof.
  intros HT. induction 1 as [|k rows Hk Hr IH]; cbn [find_target]; [auto|].
  destruct (Nat.eqb_spec k y); [exact IH|]. rewrite (row_at_ok n t k HT Hk). cbn [bind].
  rewrite (cell_ok n t k x HT Hk) by lia. cbn [bind].
  destruct (isZero (nth x (nth k t []) vd)) eqn:E; [exact IH|]. right. exists k. repeat split; auto.
  intros C. apply isZero_num in C; [|apply (TV_at n); auto; lia]. congruence.
Qed.
Lemma find_pivot t y : TV n t -> y <> x -> ~ ceq (tn t x x) c0 -> find_target t x y (seq x (n - x)) = Ok (Some x).
Proof.
  intros HT Hy Hp. destruct (n - x) as [|m] eqn:E; [lia|]. cbn [seq find_target].
  destruct (Nat.eqb_spec x y); [lia|]. rewrite (row_at_ok n t x HT Hx). cbn [bind]. rewrite (cell_ok n t x x HT Hx) by lia. cbn [bind].
  destruct (isZero _) eqn:Ez; [|reflexivity]. exfalso. apply Hp. apply isZero_num; [apply (TV_at n); auto; lia|exact Ez].
Qed.

Lemma step_start t y : TV n t -> y < n ->
  step t y = (let v := nth x (nth y t []) vd in
    if y =? x then if isZero v then Err else
      let! scale := ev1_std c UInv v in
      let! r := mapM (fun i => if i =? x then Ok vone else let! a := at_ (nth y t []) i in ev_std c BMul a scale) (seq 0 (2 * n)) in
      Ok (put_row t y r)
    else if isZero v then Ok t else
    let! target := find_target t x y (seq x (n - x)) in
    match target with
    | None => Err
    | Some k =>
      let! row := row_at t k in
      let! p := at_ row x in
      let! ratio := ev_std c BQuo v p in
      let! r := mapM (fun i => if i =? x then Ok vzero
                               else let! a := at_ (nth y t []) i in let! b := at_ row i in
                                    let! m := ev_std c BMul ratio b in ev_std c BSub a m) (seq 0 (2 * n)) in
      Ok (put_row t y r)
    end).
Proof.
  intros HT Hy. unfold inv_step. rewrite (row_at_ok n t y HT Hy). cbn [bind]. rewrite (cell_ok n t y x HT Hy) by lia. cbn [bind].
  rewrite cvalid_scalar by (apply (TV_at n); auto; lia). reflexivity.
Qed.

Lemma step_diag_zero t : TV n t -> ceq (tn t x x) c0 -> step t x = Err.
Proof.
  intros HT Hz. rewrite step_start by auto. cbv zeta. rewrite Nat.eqb_refl.
  assert (isZero (nth x (nth x t []) vd) = true) as -> by (apply isZero_num; [apply (TV_at n); auto; lia|exact Hz]). reflexivity.
Qed.
Lemma step_diag t : TV n t -> ~ ceq (tn t x x) c0 ->
  okc c (step t x) (fun t' => TV n t' /\ (forall i, i <> x -> nth i t' [] = nth i t []) /\
    exists s, ceq (cmul s (tn t x x)) c1 /\ forall j, j < 2 * n -> ceq (tn t' x j) (cmul s (tn t x j))).
Proof.
  intros HT Hz. rewrite step_start by auto. cbv zeta. rewrite Nat.eqb_refl.
  assert (cvalid (nth x (nth x t []) vd)) as Vp by (apply (TV_at n); auto; lia).
  destruct (isZero (nth x (nth x t []) vd)) eqn:Ez; [exfalso; apply Hz, isZero_num; auto|].
  eapply okc_bind; [apply (inv_num c _ Vp Hz)|]. intros scale [Vs Es].
  eapply okc_bind.
  { apply okc_mapM with (P := fun i v => cvalid v /\ ceq (num v) (cmul (num scale) (tn t x i))). intros i Hi.
    destruct (Nat.eqb_spec i x) as [->|N].
    - apply okc_ret. split; [exact cvalid_one|]. unfold tn. rewrite Es. reflexivity.
    - rewrite (cell_ok n t x i HT Hx) by lia. cbn [bind]. eapply okc_impl; [apply mul_num; [apply (TV_at n); auto; lia|exact Vs]|].
      intros v [Vv Ev]. split; [exact Vv|]. rewrite Ev. unfold tn. ring. }
  intros r [Lr Hr]. apply okc_ret. split; [|split].
  - apply TV_put; auto. intros i Hi. apply (Hr i Hi).
  - intros i Hi. rewrite nth_put by (destruct HT; lia). destruct (Nat.eqb_spec i x); [lia|reflexivity].
  - exists (num scale). split; [exact Es|]. intros j Hj. unfold tn at 1. rewrite nth_put by (destruct HT; lia). rewrite Nat.eqb_refl. apply (Hr j Hj).
Qed.
Lemma step_zero t y : TV n t -> y < n -> y <> x -> ceq (tn t y x) c0 -> step t y = Ok t.
Proof.
  intros HT Hy Hyx Hz. rewrite step_start by auto. cbv zeta. destruct (Nat.eqb_spec y x); [lia|].
  assert (isZero (nth x (nth y t []) vd) = true) as -> by (apply isZero_num; [apply (TV_at n); auto; lia|exact Hz]). reflexivity.
Qed.
Lemma step_target t y k : TV n t -> y < n -> y <> x -> ~ ceq (tn t y x) c0 -> k < n -> ~ ceq (tn t k x) c0 ->
  find_target t x y (seq x (n - x)) = Ok (Some k) ->
  okc c (step t y) (fun t' => TV n t' /\ (forall i, i <> y -> nth i t' [] = nth i t []) /\
    exists q, ceq (cmul q (tn t k x)) (tn t y x) /\ forall j, j < 2 * n -> ceq (tn t' y j) (csub (tn t y j) (cmul q (tn t k j)))).
Proof.
  intros HT Hy Hyx Hz Hk Hkz Hf. rewrite step_start by auto. cbv zeta. destruct (Nat.eqb_spec y x); [lia|].
  assert (cvalid (nth x (nth y t []) vd)) as Vp by (apply (TV_at n); auto; lia).
  destruct (isZero (nth x (nth y t []) vd)) eqn:Ez; [exfalso; apply Hz, isZero_num; auto|].
  rewrite Hf. cbn [bind]. rewrite (row_at_ok n t k HT Hk). cbn [bind]. rewrite (cell_ok n t k x HT Hk) by lia. cbn [bind].
  eapply okc_bind; [apply quo_num; [exact Vp|apply (TV_at n); auto; lia|exact Hkz]|]. intros q [Vq Eq].
  eapply okc_bind.
  { apply okc_mapM with (P := fun i v => cvalid v /\ ceq (num v) (csub (tn t y i) (cmul (num q) (tn t k i)))). intros i Hi.
    destruct (Nat.eqb_spec i x) as [->|N].
    - apply okc_ret. split; [exact cvalid_zero|]. unfold tn. rewrite Eq. change (num vzero) with c0. ring.
    - rewrite (cell_ok n t y i HT Hy), (cell_ok n t k i HT Hk) by lia. cbn [bind].
      eapply okc_bind; [apply mul_num; [exact Vq|apply (TV_at n t k i); auto; lia]|]. intros m [Vm Em].
      eapply okc_impl; [apply sub_num; [apply (TV_at n t y i); auto; lia|exact Vm]|].
      intros v [Vv Ev]. split; [exact Vv|]. rewrite Ev, Em. unfold tn. reflexivity. }
  intros r [Lr Hr]. apply okc_ret. split; [|split].
  - apply TV_put; auto. intros i Hi. apply (Hr i Hi).
  - intros i Hi. rewrite nth_put by (destruct HT; lia). destruct (Nat.eqb_spec i y); [lia|reflexivity].
  - exists (num q). split; [exact Eq|]. intros j Hj. unfold tn at 1. rewrite nth_put by (destruct HT; lia). rewrite Nat.eqb_refl. apply (Hr j Hj).
Qed.
(* any row but the pivot's *)
Lemma step_other t y : TV n t -> y < n -> y <> x ->
  step t y = Err \/ exists t', step t y = Ok t' /\ TV n t' /\ forall i, i <> y -> nth i t' [] = nth i t [].
Proof.
  intros HT Hy Hyx. destruct (isZero (nth x (nth y t []) vd)) eqn:Ez.
  - right. exists t. rewrite (step_zero t y HT Hy Hyx); auto. apply isZero_num; [apply (TV_at n); auto; lia|exact Ez].
  - assert (~ ceq (tn t y x) c0) as Hz. { intros C. apply isZero_num in C; [congruence|apply (TV_at n); auto; lia]. }
    destruct (find_ok t y (seq x (n - x)) HT) as [F|(k & F & Hk & Hky & Hkz)].
    { apply Forall_forall. intros k Hk. apply in_seq in Hk. lia. }
    + left. rewrite step_start by auto. cbv zeta. destruct (Nat.eqb_spec y x); [lia|]. rewrite Ez, F. reflexivity.
    + destruct (step_target t y k HT Hy Hyx Hz Hk Hkz F) as [(t' & E & T' & O & _)|[E _]]; [right|left; exact E].
      exists t'. auto.
Qed.

Lemma fold_app {A S} (f : S -> A -> res S) l k s : foldR f (l ++ k) s = let! s' := foldR f l s in foldR f k s'.
Proof. revert s. induction l as [|a l IH]; intros s; [reflexivity|]. cbn [app foldR]. destruct (f s a); cbn [bind]; auto. Qed.

(* a zero on the diagonal *)
Lemma col_zero t : TV n t -> ceq (tn t x x) c0 -> inv_col (ev_std c) (ev1_std c) n t x = Err.
Proof.
  intros HT Hz. unfold inv_col. replace (seq 0 n) with (seq 0 x ++ x :: seq (S x) (n - S x)).
  2:{ replace n with (x + S (n - S x)) at 2 by lia. rewrite seq_app. reflexivity. }
  rewrite fold_app.
  assert (forall m t0, m <= x -> TV n t0 -> nth x t0 [] = nth x t [] -> foldR step (seq (x - m) m) t0 = Err \/
    exists t', foldR step (seq (x - m) m) t0 = Ok t' /\ TV n t' /\ nth x t' [] = nth x t []) as H.
  { induction m as [|m IH]; intros t0 Hm H0 Hr; cbn [seq foldR]; [right; eauto|].
    destruct (step_other t0 (x - S m) H0 ltac:(lia) ltac:(lia)) as [->|(t1 & -> & H1 & O1)]; [left; reflexivity|]. cbn [bind].
    replace (S (x - S m)) with (x - m) by lia. apply IH; [lia|exact H1|]. rewrite O1 by lia. exact Hr. }
  destruct (H x t (le_n _) HT eq_refl) as [E|(t' & E & T' & R)]; rewrite Nat.sub_diag in E; rewrite E; [reflexivity|].
  cbn [bind foldR]. rewrite step_diag_zero; [reflexivity|exact T'|]. unfold tn. rewrite R. exact Hz.
Qed.
(* otherwise: the whole column *)
Definition after_rows (t : list (list value)) (s : cnumber) (y i j : nat) : cnumber :=
  if i <? y then if i =? x then cmul s (tn t x j) else csub (tn t i j) (cmul (cmul (tn t i x) s) (tn t x j)) else tn t i j.
Lemma col_ok t s : TV n t -> ceq (cmul s (tn t x x)) c1 ->
  okc c (inv_col (ev_std c) (ev1_std c) n t x) (fun t' => TV n t' /\
    forall i j, i < n -> j < 2 * n -> ceq (tn t' i j) (after_rows t s n i j)).
Proof.
  intros HT Hs. unfold inv_col.
  assert (forall m t0, m <= n -> TV n t0 -> (forall i j, i < n -> j < 2 * n -> ceq (tn t0 i j) (after_rows t s (n - m) i j)) ->
    okc c (foldR step (seq (n - m) m) t0) (fun t' => TV n t' /\ forall i j, i < n -> j < 2 * n -> ceq (tn t' i j) (after_rows t s n i j))) as H.
  2:{ specialize (H n t (le_n _) HT). rewrite Nat.sub_diag in H. apply H. intros i j Hi Hj. unfold after_rows.
      destruct (Nat.ltb_spec i 0); [lia|reflexivity]. }
  induction m as [|m IH]; intros t0 Hm H0 HG; cbn [seq foldR].
  { apply okc_ret. split; [exact H0|]. intros i j Hi Hj. rewrite HG, Nat.sub_0_r by auto. reflexivity. }
  set (y := n - S m) in *. assert (y < n) as Hy by lia. replace (S y) with (n - m) by lia.
  assert (forall j, j < 2 * n -> ceq (tn t0 y j) (tn t y j)) as Hyj.
  { intros j Hj. rewrite HG by auto. unfold after_rows. destruct (Nat.ltb_spec y y); [lia|reflexivity]. }
  assert (forall t1, TV n t1 -> (forall i, i <> y -> nth i t1 [] = nth i t0 []) ->
    (forall j, j < 2 * n -> ceq (tn t1 y j) (if y =? x then cmul s (tn t x j) else csub (tn t y j) (cmul (cmul (tn t y x) s) (tn t x j)))) ->
    okc c (foldR step (seq (n - m) m) t1) (fun t' => TV n t' /\ forall i j, i < n -> j < 2 * n -> ceq (tn t' i j) (after_rows t s n i j))) as K.
  { intros t1 H1 O1 Y1. apply IH; [lia|exact H1|]. intros i j Hi Hj. unfold after_rows.
    destruct (Nat.eq_dec i y) as [->|N].
    - destruct (Nat.ltb_spec y (n - m)); [|lia]. apply Y1, Hj.
    - unfold tn at 1. rewrite O1 by exact N. fold (tn t0 i j). rewrite HG by auto. unfold after_rows.
      destruct (Nat.ltb_spec i y), (Nat.ltb_spec i (n - m)); try lia; reflexivity. }
  assert (~ ceq (tn t x x) c0) as Pz.
  { intros C. rewrite C in Hs. assert (ceq c0 c1) as [E _]; [|unfold Qeq in E; simpl in E; lia]. rewrite <-Hs. ring. }
  destruct (Nat.eq_dec y x) as [Eyx|Nyx].
  - rewrite Eyx in *. assert (~ ceq (tn t0 x x) c0) as Pz0 by (rewrite Hyj by lia; exact Pz).
    eapply okc_bind; [apply step_diag; auto|]. intros t1 (H1 & O1 & s' & Es' & R1). apply K; auto.
    intros j Hj. rewrite Nat.eqb_refl, R1, Hyj by auto.
    rewrite Hyj in Es' by lia.
    transitivity (cmul (cmul s' (cmul s (tn t x x))) (tn t x j)); [rewrite Hs; ring|].
    transitivity (cmul (cmul s (cmul s' (tn t x x))) (tn t x j)); [ring|]. rewrite Es'. ring.
  - assert (exists u : cnumber, ~ ceq u c0 /\ forall j, j < 2 * n -> ceq (tn t0 x j) (cmul u (tn t x j))) as (u & Uz & Hu).
    { destruct (Nat.ltb_spec x y) as [L|L].
      - exists s. split.
        + intros C. rewrite C in Hs. assert (ceq c0 c1) as [E _]; [|unfold Qeq in E; simpl in E; lia]. rewrite <-Hs. ring.
        + intros j Hj. rewrite HG by auto. unfold after_rows. destruct (Nat.ltb_spec x y); [|lia]. rewrite Nat.eqb_refl. reflexivity.
      - exists c1. split; [intros [E _]; unfold Qeq in E; simpl in E; lia|]. intros j Hj. rewrite HG by auto. unfold after_rows.
        destruct (Nat.ltb_spec x y); [lia|]. ring. }
    assert (~ ceq (tn t0 x x) c0) as Pz0.
    { rewrite Hu by lia. intros C. apply Uz. transitivity (cmul (cmul s (tn t x x)) u); [rewrite Hs; ring|].
      transitivity (cmul s (cmul u (tn t x x))); [ring|]. rewrite C. ring. }
    destruct (isZero (nth x (nth y t0 []) vd)) eqn:Ez.
    + assert (ceq (tn t0 y x) c0) as Z by (apply isZero_num; [apply (TV_at n); auto; lia|exact Ez]).
      rewrite (step_zero t0 y H0 Hy Nyx Z). cbn [bind]. apply K; auto. intros j Hj. rewrite (proj2 (Nat.eqb_neq y x) Nyx), Hyj by exact Hj.
      rewrite <-(Hyj x) by lia. rewrite Z. ring.
    + assert (~ ceq (tn t0 y x) c0) as Z. { intros C. apply isZero_num in C; [congruence|apply (TV_at n); auto; lia]. }
      eapply okc_bind; [apply (step_target t0 y x H0 Hy Nyx Z Hx Pz0), find_pivot; auto|].
      intros t1 (H1 & O1 & q & Eq & R1). apply K; auto. intros j Hj. rewrite (proj2 (Nat.eqb_neq y x) Nyx), R1, Hyj by exact Hj.
      rewrite (Hu j Hj). rewrite (Hu x), (Hyj x) in Eq by lia. rewrite <-Eq.
      transitivity (csub (tn t y j) (cmul (cmul (cmul q u) (cmul s (tn t x x))) (tn t x j))); [rewrite Hs|]; ring.
Qed.
End Col.

From Coq Require Import QArith Setoid Ring Lqa.
From Verif Require Import Value NumModel NumSpec NumArith NumCplx ArrModel ArrSpec ArrBase EvalModel EvalSpec EvalProofs EvalReduce InvModel InvSpec InvProofs InvMat InvInner InvVec.
Open Scope nat_scope.
Add Ring cring5 : c_ring (setoid ceq_equiv c_ext).

Lemma exact_matrix_array v n m : exact_matrix v n m <-> exact_array v [n; m].
Proof. reflexivity. Qed.
(* the product with an n by n matrix, n <> 0 *)
Lemma mat_times c a b n t : exact_matrix a n n -> exact_array b (n :: t) -> n <> 0 ->
  okc c (inner (ev_std c BAdd) (ev_std c BMul) a b) (fun w => exact_array w (n :: t) /\
    forall i e, i < n -> inb t e -> ceq (at_c w (i :: e)) (csum n (fun k => cmul (at2 a i k) (at_c b (k :: e))))).
Proof.
  intros Ha Hb Hn. pose proof Hb as (Wb & Sb & _).
  destruct (inner_num c a b [n] n t Ha Hb Hn) as [(w & E & Hw & P)|[(_ & E & H)|[NL _]]]; [discriminate| | |].
  - left. exists w. split; [exact E|]. split; [exact Hw|]. intros i e Hi He. rewrite P; [reflexivity|]. apply inb_cons. auto.
  - right. auto.
  - exfalso. apply NL. simpl. rewrite <-Sb. destruct b as [z|z|z|q|x y|l|s d]; try discriminate Sb; [apply legal_short; simpl; lia|apply Wb].
Qed.

Lemma as_matrix b n t : exact_array b (n :: t) -> let p := to_mat b in exact_array (VMat (fst p) (snd p)) (n :: t) /\
  (forall e, at_c (VMat (fst p) (snd p)) e = at_c b e) /\ is_scalar b = false.
Proof.
  intros (W & S & F). destruct b as [z|z|z|q|x y|l|s d]; try discriminate S; cbn [to_mat fst snd].
  - injection S as <- <-. split; [|split; reflexivity]. split; [|split; [reflexivity|exact F]].
    split; [discriminate|]. split; [unfold vol; simpl; lia|apply legal_short; simpl; lia].
  - split; [|split; reflexivity]. split; [exact W|split; [exact S|exact F]].
Qed.
Lemma solve_ok n (a r : value) (x b : nat -> cnumber) : product_is_identity n a r ->
  (forall i, i < n -> ceq (x i) (csum n (fun k => cmul (at2 r i k) (b k)))) ->
  forall i, i < n -> ceq (csum n (fun k => cmul (at2 a i k) (x k))) (b i).
Proof.
  intros H Hx i Hi.
  rewrite (csum_ext n _ (fun k => csum n (fun l => cmul (cmul (at2 a i k) (at2 r k l)) (b l)))).
  2:{ intros k Hk. rewrite Hx by exact Hk. rewrite <-csum_scale. apply csum_ext. intros l Hl. ring. }
  rewrite csum_swap. rewrite (csum_ext n _ (fun l => cmul (delta i l) (b l))).
  - apply csum_delta, Hi.
  - intros l Hl. rewrite csum_scale_r. rewrite (H i l Hi Hl). reflexivity.
Qed.
Lemma mdiv_spec c a b n t : exact_matrix a n n -> exact_array b (n :: t) -> n <> 0 ->
  (exists x, op_mdiv c b a = Ok x /\ exact_array x (n :: t) /\ (forall k, k <= n -> ~ singular_block a k) /\
     (forall e, inb t e -> (forall i, i < n -> ceq (csum n (fun k => cmul (at2 a i k) (at_c x (k :: e)))) (at_c b (i :: e))) /\
       forall y, (forall i, i < n -> ceq (csum n (fun k => cmul (at2 a i k) (y k))) (at_c b (i :: e))) -> forall k, k < n -> ceq (y k) (at_c x (k :: e)))) \/
  (op_mdiv c b a = Err /\ (maxbits c <> 0%Z \/ exists k, 0 < k <= n /\ singular_block a k)).
Proof.
  intros Ha Hb Hn. destruct (as_matrix b n t Hb) as (Hb' & Eb & Sb). unfold op_mdiv, mdiv. rewrite Sb. cbn [andb].
  destruct (exact_matrix_inv a n n Ha) as (d & -> & L & Lg & F).
  unfold at_least_vector. replace (is_mat b || is_mat (VMat [n; n] d)) with true by (destruct b; reflexivity).
  unfold mdiv_mat. change (mat_inverse (ev_std c) (ev1_std c) (fst (to_mat (VMat [n; n] d))) (snd (to_mat (VMat [n; n] d)))) with (op_inv c (VMat [n; n] d)).
  destruct (inverse_spec c _ n Ha) as [(r & -> & Hr & P1 & P2 & NS)|[-> H]]; cbn [bind]; [|right; auto].
  destruct (mat_times c r _ n t Hr Hb' Hn) as [(x & -> & Hx & Px)|[-> H]]; [left|right; auto].
  exists x. split; [reflexivity|]. split; [exact Hx|]. split; [exact NS|]. intros e He.
  assert (forall i, i < n -> ceq (at_c x (i :: e)) (csum n (fun k => cmul (at2 r i k) (at_c b (k :: e))))) as Q.
  { intros i Hi. rewrite Px by auto. apply csum_ext. intros k Hk. rewrite Eb. reflexivity. }
  split.
  - apply (solve_ok n _ r (fun k => at_c x (k :: e)) (fun k => at_c b (k :: e)) P2 Q).
  - intros y Hy k Hk. rewrite Q by exact Hk.
    symmetry. apply (solve_ok n r (VMat [n; n] d) (fun k => at_c b (k :: e)) y P1); [|exact Hk].
    intros i Hi. symmetry. apply Hy, Hi.
Qed.

(* the projection of one real vector on another *)
Lemma mdiv_vec_spec c l k : length l = length k -> Forall cvalid l -> Forall cvalid k -> forallb real_b l && forallb real_b k = true ->
  let dot := fun a b => csum (length l) (fun i => cmul (num (nth i a vd)) (num (nth i b vd))) in
  ~ ceq (dot k k) c0 -> okc c (op_mdiv c (VVec l) (VVec k)) (fun v => cvalid v /\ ceq (cmul (num v) (dot k k)) (dot l k)).
Proof.
  intros L Fl Fk R dot Hz. unfold op_mdiv, mdiv. cbn [is_scalar andb]. unfold at_least_vector. cbn [is_mat orb to_vec bind].
  unfold mdiv_vec. rewrite L, Nat.eqb_refl, R. cbn [negb].
  assert (l <> []) as Nl. { intros ->. apply Hz. unfold dot. simpl. reflexivity. }
  assert (k <> []) as Nk. { intros ->. destruct l; [congruence|discriminate]. }
  assert (forall a b, length a = length b -> a <> [] -> inner_vec (ev_std c BAdd) (ev_std c BMul) a b = rinner (ev_std c BAdd) (ev_std c BMul) (combine a b)) as E.
  { intros a b Lab Na. rewrite <-(inner_vec_ok _ _ a b Lab Na). reflexivity. }
  rewrite !E by auto.
  eapply okc_bind; [apply rinner_num; auto|]. intros p [Vp Ep].
  eapply okc_bind; [apply rinner_num; auto|]. intros q [Vq Eq]. rewrite <-L in Eq. fold (dot k k) in Eq. fold (dot l k) in Ep.
  eapply okc_impl; [apply quo_num; [exact Vp|exact Vq|rewrite Eq; exact Hz]|]. intros v [Vv Ev]. split; [exact Vv|].
  rewrite <-Eq, <-Ep. exact Ev.
Qed.

Lemma real_num x : cvalid x -> real_b x = true -> ceq (cconj (num x)) (num x).
Proof. intros V R. destruct x; try contradiction; try discriminate; unfold num, num_of, cconj; cbn; split; cbn [fst snd]; try reflexivity; ring. Qed.
Lemma vec_sum l f : ceq (csum (length l) (fun i => f (at_c (VVec l) [i]))) (csum (length l) (fun i => f (num (nth i l vd)))).
Proof. apply csum_ext. intros k Hk. rewrite at1_nth by exact Hk. reflexivity. Qed.

Lemma vec_inv_spec c l : 2 <= length l -> Forall cvalid l ->
  let n := length l in let v := VVec l in
  (exists r, op_inv c v = Ok r /\ exact_vector r n /\ (exists i, i < n /\ ~ ceq (at1 v i) c0) /\
     ceq (csum n (fun i => cmul (at1 r i) (at1 v i))) c1 /\
     forall i, i < n -> ceq (cmul (at1 r i) (csum n (fun k => cmul (at1 v k) (cconj (at1 v k))))) (cconj (at1 v i))) \/
  (op_inv c v = Err /\ (maxbits c <> 0%Z \/ forall i, i < n -> ceq (at1 v i) c0)).
Proof.
  intros L F n v.
  assert (forall i, i < n -> at1 v i = num (nth i l vd)) as A by (intros i Hi; apply (at1_nth l i Hi)).
  pose proof (vec_inverse_num c l L F) as V. cbv zeta in V. set (N := csum (length l) (fun k => mag2 (num (nth k l vd)))) in V.
  assert (ceq (csum n (fun k => cmul (at1 v k) (cconj (at1 v k)))) N) as EN.
  { apply csum_ext. intros k Hk. rewrite (A k Hk). reflexivity. }
  assert (op_inv c v = let! r := vec_inverse (ev_std c) (ev1_std c) l in Ok (VVec r)) as EO by reflexivity. rewrite EO.
  destruct V as [V0 V1]. assert (ceq N c0 \/ ~ ceq N c0) as [D|D].
  { unfold ceq. destruct (Qeq_dec (fst N) (fst c0)), (Qeq_dec (snd N) (snd c0)); [left|right|right|right]; tauto. }
  - right. rewrite (V0 D). split; [reflexivity|]. right. intros i Hi. rewrite (A i Hi). apply (proj1 (magsum_zero n (fun k => num (nth k l vd))) D i Hi).
  - destruct (V1 D) as [(r & -> & Lr & Fr & Hr)|[-> H]]; [left|right; auto]. cbn [bind]. exists (VVec r).
    assert (forall i, i < n -> at1 (VVec r) i = num (nth i r vd)) as B by (intros i Hi; apply (at1_nth r i); lia).
    split; [reflexivity|]. split; [split; [exact I|split; [simpl; rewrite Lr; reflexivity|exact Fr]]|]. split; [|split].
    + destruct (existsb (fun i => negb (isZero (nth i l vd))) (seq 0 n)) eqn:Ex.
      * apply existsb_exists in Ex. destruct Ex as (i & Hi & Ei). apply in_seq in Hi. exists i. split; [lia|]. rewrite A by lia.
        intros C. apply isZero_num in C; [rewrite C in Ei; discriminate|]. rewrite Forall_forall in F. apply F, nth_In. lia.
      * exfalso. apply D. apply magsum_zero. intros k Hk.
        destruct (isZero (nth k l vd)) eqn:Ez; [apply isZero_num; [rewrite Forall_forall in F; apply F, nth_In; lia|exact Ez]|].
        assert (existsb (fun i => negb (isZero (nth i l vd))) (seq 0 n) = true); [|congruence].
        apply existsb_exists. exists k. split; [apply in_seq; lia|]. rewrite Ez. reflexivity.
    + destruct (cinv_exists N D) as [s Hs].
      rewrite (csum_ext n _ (fun i => cmul (mag2 (num (nth i l vd))) s)).
      * rewrite csum_scale_r. change (csum n (fun k => mag2 (num (nth k l vd)))) with N. rewrite <-Hs. ring.
      * intros i Hi. rewrite A, B by exact Hi. unfold mag2. rewrite <-(Hr i Hi).
        transitivity (cmul (cmul (num (nth i r vd)) (num (nth i l vd))) (cmul s N)); [rewrite Hs|]; ring.
    + intros i Hi. rewrite EN, B, A by exact Hi. apply Hr, Hi.
Qed.

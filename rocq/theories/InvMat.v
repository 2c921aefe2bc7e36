From Coq Require Import QArith Setoid Ring.
From Verif Require Import Value NumModel NumSpec ArrModel ArrSpec ArrBase EvalModel InvModel InvSpec InvProofs.
Open Scope nat_scope.
Add Ring cring2 : c_ring (setoid ceq_equiv c_ext).

Section Mat.
Variable (c : conf) (n : nat) (m : value).
Notation M := (at2 m).
Record inv_at (x : nat) (t : list (list value)) : Prop := {
  ia_tv : TV n t;
  ia_cols : forall i j, i < n -> j < x -> ceq (tn t i j) (delta i j);
  ia_lin : forall i j, i < n -> j < n -> ceq (tn t i j) (csum n (fun k => cmul (tn t i (n + k)) (M k j)));
  ia_span : forall i j, i < n -> j < 2 * n -> ceq (csum n (fun k => cmul (Smat M x i k) (tn t k j))) (Aug n M i j);
  ia_right : forall i k, i < n -> x <= k < n -> ceq (tn t i (n + k)) (delta i k) }.

Lemma inv_at_nonsing x t : x <= n -> inv_at x t -> ~ singular_block m x.
Proof.
  intros Hx H (v & (j & Hj & Nz) & Hv). apply Nz.
  rewrite <-(csum_delta x j v Hj).
  rewrite (csum_ext x _ (fun k => cmul (tn t j k) (v k))) by (intros k Hk; rewrite (ia_cols x t H) by lia; reflexivity).
  rewrite (csum_ext x _ (fun k => csum n (fun l => cmul (cmul (tn t j (n + l)) (M l k)) (v k)))).
  2:{ intros k Hk. rewrite (ia_lin x t H) by lia. rewrite csum_scale_r. reflexivity. }
  rewrite csum_swap. apply csum_zero. intros l Hl.
  rewrite (csum_ext x _ (fun k => cmul (tn t j (n + l)) (cmul (M l k) (v k)))) by (intros; ring).
  rewrite csum_scale. destruct (Nat.lt_ge_cases l x) as [L|L]; [rewrite Hv by exact L; ring|].
  rewrite (ia_right x t H) by lia. unfold delta. destruct (Nat.eqb_spec j l); [lia|ring].
Qed.
Lemma inv_at_sing x t : x < n -> inv_at x t -> ceq (tn t x x) c0 -> singular_block m (S x).
Proof.
  intros Hx H Hz. exists (fun j => if j =? x then c1 else copp (tn t j x)). split.
  - exists x. split; [lia|]. rewrite Nat.eqb_refl. intros [E _]. unfold Qeq in E. simpl in E. lia.
  - intros i Hi. cbn [csum]. rewrite Nat.eqb_refl.
    rewrite (csum_ext x _ (fun j => cmul (copp c1) (cmul (M i j) (tn t j x)))).
    2:{ intros k Hk. destruct (Nat.eqb_spec k x); [lia|]. ring. }
    rewrite csum_scale. pose proof (ia_span x t H i x ltac:(lia) ltac:(lia)) as S. unfold Aug in S.
    destruct (Nat.ltb_spec x n); [|lia]. rewrite <-S.
    assert (forall k, x <= k < n -> ceq (cmul (Smat M x i k) (tn t k x)) c0) as Z.
    { intros k Hk. unfold Smat, delta. destruct (Nat.ltb_spec k x); [lia|].
      destruct (Nat.eqb_spec i k); [replace k with x by lia; rewrite Hz|]; ring. }
    rewrite (csum_le n x _ ltac:(lia) Z).
    rewrite (csum_ext x _ (fun j => cmul (Smat M x i j) (tn t j x))); [ring|].
    intros k Hk. unfold Smat. destruct (Nat.ltb_spec k x); [reflexivity|lia].
Qed.
Lemma inv_at_step x t : x < n -> inv_at x t -> ~ ceq (tn t x x) c0 ->
  okc c (inv_col (ev_std c) (ev1_std c) n t x) (inv_at (S x)).
Proof.
  intros Hx H Hz. destruct (cinv_exists _ Hz) as [s Hs].
  eapply okc_impl; [apply (col_ok c n x Hx t s (ia_tv x t H) Hs)|]. intros t' [HT' G].
  assert (forall j, j < 2 * n -> ceq (tn t' x j) (cmul s (tn t x j))) as Hrow.
  { intros j Hj. rewrite G by lia. unfold after_rows. destruct (Nat.ltb_spec x n); [|lia]. rewrite Nat.eqb_refl. reflexivity. }
  assert (forall i j, i < n -> i <> x -> j < 2 * n -> ceq (tn t' i j) (csub (tn t i j) (cmul (cmul (tn t i x) s) (tn t x j)))) as Hoth.
  { intros i j Hi Hix Hj. rewrite G by lia. unfold after_rows. destruct (Nat.ltb_spec i n); [|lia]. destruct (Nat.eqb_spec i x); [lia|]. reflexivity. }
  destruct H as [H1 H2 H3 H4 H5]. split.
  - exact HT'.
  - eapply pivot_cols; eauto.
  - eapply pivot_lin; eauto.
  - eapply pivot_span; eauto.
  - eapply pivot_right; eauto.
Qed.
Definition elim := foldR (inv_col (ev_std c) (ev1_std c) n).
Lemma elim_ok : forall k t, k <= n -> inv_at (n - k) t ->
  (exists t', elim (seq (n - k) k) t = Ok t' /\ inv_at n t' /\ forall x, n - k <= x <= n -> ~ singular_block m x) \/
  (elim (seq (n - k) k) t = Err /\ (maxbits c <> 0%Z \/ exists x, 0 < x <= n /\ singular_block m x)).
Proof.
  induction k as [|k IH]; intros t Hk H.
  - left. exists t. rewrite Nat.sub_0_r in *. split; [reflexivity|]. split; [exact H|]. intros x Hx. replace x with n by lia. apply (inv_at_nonsing n t); auto.
  - unfold elim. cbn [seq foldR]. fold elim. set (x := n - S k) in *. assert (x < n) as Hx by lia.
    replace (Datatypes.S x) with (n - k) by lia.
    destruct (isZero (nth x (nth x t []) vd)) eqn:Ez.
    + assert (ceq (tn t x x) c0) as Z by (apply isZero_num; [apply (TV_at n); [apply (ia_tv x t H)|lia|lia]|exact Ez]).
      right. rewrite (col_zero c n x Hx t (ia_tv x t H) Z). split; [reflexivity|]. right. exists (Datatypes.S x). split; [lia|]. apply (inv_at_sing x t); auto.
    + assert (~ ceq (tn t x x) c0) as Z.
      { intros C. apply isZero_num in C; [congruence|apply (TV_at n); [apply (ia_tv x t H)|lia|lia]]. }
      destruct (inv_at_step x t Hx H Z) as [(t1 & -> & H1)|[-> Hm]]; cbn [bind]; [|right; auto].
      replace (Datatypes.S x) with (n - k) in H1 by lia.
      destruct (IH t1 ltac:(lia) H1) as [(t' & E & I1 & I2)|E]; [left|right; exact E].
      exists t'. split; [exact E|]. split; [exact I1|]. intros y Hy. destruct (Nat.eq_dec y x) as [->|]; [apply (inv_at_nonsing x t); auto; lia|apply I2; lia].
Qed.
End Mat.

Lemma nth_skip {A} (d : A) n : forall l j, nth j (skipn n l) d = nth (n + j) l d.
Proof. induction n as [|n IH]; intros [|a l] j; simpl; auto. destruct j; reflexivity. Qed.
Lemma exact_matrix_inv m n k : exact_matrix m n k -> exists d, m = VMat [n; k] d /\ length d = n * k /\ legal [n; k] /\ Forall cvalid d.
Proof.
  intros (W & S & F). destruct m as [z|z|z|q|a b|l|s d]; try discriminate S. simpl in S. subst s.
  destruct W as (_ & L & Lg). exists d. repeat split; auto. rewrite L. unfold vol. simpl. lia.
Qed.
Lemma ravel2 n k i j : ravel [n; k] [i; j] = i * k + j.
Proof. unfold ravel. simpl. lia. Qed.
Lemma at2_nth n k d i j : length d = n * k -> i < n -> j < k -> at2 (VMat [n; k] d) i j = num (nth (i * k + j) d vd).
Proof.
  intros L Hi Hj. unfold at2, elem. cbn [data_of shape_of]. rewrite ravel2. rewrite (nth_error_nth' d vd) by nia. reflexivity.
Qed.
Lemma augment_ok n d : length d = n * n -> Forall cvalid d -> exists t, augment n d = Ok t /\ inv_at n (VMat [n; n] d) 0 t.
Proof.
  intros L F. set (m := VMat [n; n] d).
  set (rowf := fun y => map (fun x => nth (y * n + x) d vd) (seq 0 n) ++ map (fun x => if x =? y then vone else vzero) (seq 0 n)).
  exists (map rowf (seq 0 n)). assert (augment n d = Ok (map rowf (seq 0 n))) as E.
  { unfold augment. apply mapM_ok. intros y Hy. apply in_seq in Hy.
    rewrite (mapM_ok _ (fun x => nth (y * n + x) d vd)); [reflexivity|]. intros x Hx. apply in_seq in Hx. apply at_ok. nia. }
  split; [exact E|].
  assert (forall i, i < n -> nth i (map rowf (seq 0 n)) [] = rowf i) as Nr by (intros; apply nth_map_seq; assumption).
  assert (forall i, length (rowf i) = 2 * n) as Lr. { intros. unfold rowf. rewrite app_length, !map_length, seq_length. lia. }
  assert (forall i j, i < n -> j < n -> tn (map rowf (seq 0 n)) i j = at2 m i j) as TL.
  { intros i j Hi Hj. unfold tn. rewrite Nr by exact Hi. unfold rowf. rewrite app_nth1 by (rewrite map_length, seq_length; exact Hj).
    rewrite nth_map_seq by exact Hj. symmetry. apply at2_nth; auto. }
  assert (forall i k, i < n -> k < n -> ceq (tn (map rowf (seq 0 n)) i (n + k)) (delta i k)) as TR.
  { intros i j Hi Hj. unfold tn. rewrite Nr by exact Hi. unfold rowf. rewrite app_nth2 by (rewrite map_length, seq_length; lia).
    rewrite map_length, seq_length. replace (n + j - n) with j by lia. rewrite nth_map_seq by exact Hj.
    unfold delta. rewrite Nat.eqb_sym. destruct (i =? j); reflexivity. }
  split.
  - split; [rewrite map_length, seq_length; reflexivity|]. intros i Hi. rewrite Nr by exact Hi. split; [apply Lr|].
    apply Forall_app. split; apply Forall_forall; intros v Hv; apply in_map_iff in Hv; destruct Hv as (x & <- & Hx); apply in_seq in Hx.
    + rewrite Forall_forall in F. apply F, nth_In. nia.
    + destruct (x =? i); [exact cvalid_one|exact cvalid_zero].
  - intros; lia.
  - intros i j Hi Hj. rewrite TL by auto. rewrite (csum_ext n _ (fun k => cmul (delta i k) (at2 m k j))).
    + rewrite csum_delta by exact Hi. reflexivity.
    + intros k Hk. rewrite TR by auto. reflexivity.
  - intros i j Hi Hj. rewrite (csum_ext n _ (fun k => cmul (delta i k) (tn (map rowf (seq 0 n)) k j))).
    + rewrite csum_delta by exact Hi. unfold Aug. destruct (Nat.ltb_spec j n); [rewrite TL by auto; reflexivity|].
      replace j with (n + (j - n)) at 1 by lia. apply TR; lia.
    + intros k Hk. unfold Smat. destruct (Nat.ltb_spec k 0); [lia|reflexivity].
  - intros i k Hi Hk. apply TR; lia.
Qed.

Theorem inverse_spec c m n : exact_matrix m n n ->
  (exists r, op_inv c m = Ok r /\ exact_matrix r n n /\ product_is_identity n r m /\ product_is_identity n m r /\
     forall k, k <= n -> ~ singular_block m k) \/
  (op_inv c m = Err /\ (maxbits c <> 0%Z \/ exists k, 0 < k <= n /\ singular_block m k)).
Proof.
  intros Hm. destruct (exact_matrix_inv m n n Hm) as (d & -> & L & Lg & F).
  unfold op_inv, inverse, mat_inverse. rewrite Nat.eqb_refl. cbn [negb].
  destruct (augment_ok n d L F) as (t & -> & H0). cbn [bind].
  pose proof (elim_ok c n (VMat [n; n] d) n t (le_n _)) as H. rewrite Nat.sub_diag in H. specialize (H H0). unfold elim in H.
  destruct H as [(t' & -> & [H1 H2 H3 H4 H5] & Hs)|[-> H]]; cbn [bind]; [|right; auto]. left.
  set (r := concat (map (skipn n) t')). set (g := fun i j => nth (n + j) (nth i t' []) vd).
  assert (r = concat (map (fun i => map (g i) (seq 0 n)) (seq 0 n))) as Er.
  { unfold r. f_equal. rewrite <-(map_nth_seq t' [] n (proj1 H1)) at 1. rewrite map_map. apply map_ext_in. intros i Hi. apply in_seq in Hi.
    destruct (proj2 H1 i ltac:(lia)) as [Li _]. rewrite <-(map_nth_seq (skipn n (nth i t' [])) vd n) by (rewrite skipn_length; lia).
    apply map_ext_in. intros j Hj. unfold g. apply nth_skip. }
  rewrite concat_rows in Er.
  assert (length r = n * n) as Lr by (rewrite Er, map_length, seq_length; reflexivity).
  assert (forall i j, i < n -> j < n -> at2 (VMat [n; n] r) i j = tn t' i (n + j)) as Hr.
  { intros i j Hi Hj. rewrite at2_nth by auto. rewrite Er, nth_map_seq by nia. rewrite dm_div, dm_mod by lia. reflexivity. }
  destruct (new_matrix_ok [n; n] r) as [[_ ->]|[C _]]; [discriminate|rewrite Lr; unfold vol; simpl; lia| |contradiction].
  eexists. split; [reflexivity|]. split; [|split; [|split]].
  - split; [|split; [reflexivity|]].
    + split; [discriminate|]. split; [rewrite Lr; unfold vol; simpl; lia|exact Lg].
    + cbn [data_of]. rewrite Er. apply Forall_forall. intros v Hv. apply in_map_iff in Hv. destruct Hv as (p & <- & Hp). apply in_seq in Hp.
      unfold g. assert (n <> 0) by nia. assert (p / n < n) by (apply Nat.div_lt_upper_bound; nia). pose proof (Nat.mod_upper_bound p n ltac:(lia)). apply (TV_at n); auto; lia.
  - intros i j Hi Hj. rewrite <-H2 by lia. rewrite H3 by lia. apply csum_ext. intros k Hk. rewrite Hr by auto. reflexivity.
  - intros i j Hi Hj. specialize (H4 i (n + j) Hi ltac:(lia)). unfold Aug in H4. destruct (Nat.ltb_spec (n + j) n); [lia|].
    replace (n + j - n) with j in H4 by lia. rewrite <-H4. apply csum_ext. intros k Hk. rewrite Hr by auto. unfold Smat.
    destruct (Nat.ltb_spec k n); [reflexivity|lia].
  - intros k Hk. apply Hs. lia.
Qed.

(* C45, C65: inverses and matrix division.

   op_inv c v models ivy's  inv v,  op_mdiv c b a models  b mdiv a,  and
   inner (ev_std c BAdd) (ev_std c BMul) a b  models  a +.* b  (InvModel.v, EvalModel.v).
   maxbits c is the limit on the size of numbers, 0 for none. *)
From Coq Require Import QArith.
From Verif Require Import Value NumModel NumSpec ArrModel ArrSpec EvalModel InvModel InvSpec InvProofs InvMat InvInner InvVec InvDiv.
Open Scope nat_scope.

(* C45: the inverse of a matrix is one, on both sides. *)
Theorem inverse_of_matrix : forall c m n r, exact_matrix m n n -> op_inv c m = Ok r ->
  exact_matrix r n n /\ product_is_identity n r m /\ product_is_identity n m r.
Proof.
  intros c m n r H E. destruct (inverse_spec c m n H) as [(r' & E' & H1 & H2 & H3 & _)|[E' _]]; [|congruence].
  assert (r' = r) as -> by congruence. auto.
Qed.
Print Assumptions inverse_of_matrix.

(* The same, with the product computed by ivy. *)
Theorem inverse_times_matrix : forall c m n r, exact_matrix m n n -> n <> 0 -> op_inv c m = Ok r ->
  forall a b, (a = r /\ b = m) \/ (a = m /\ b = r) ->
  (exists w, inner (ev_std c BAdd) (ev_std c BMul) a b = Ok w /\ exact_matrix w n n /\ forall i j, i < n -> j < n -> ceq (at2 w i j) (delta i j)) \/
  (inner (ev_std c BAdd) (ev_std c BMul) a b = Err /\ maxbits c <> 0%Z).
Proof.
  intros c m n r H Hn E a b AB. destruct (inverse_of_matrix c m n r H E) as (Hr & P1 & P2).
  assert (exact_matrix a n n /\ exact_matrix b n n /\ product_is_identity n a b) as (Ha & Hb & P).
  { destruct AB as [[Ea Eb]|[Ea Eb]]; subst a b; auto. }
  destruct (mat_times c a b n [n] Ha Hb Hn) as [(w & Ew & Hw & Pw)|X]; [left|right; exact X].
  exists w. split; [exact Ew|]. split; [exact Hw|]. intros i j Hi Hj. rewrite <-(P i j Hi Hj).
  apply (Pw i [j] Hi). constructor; [exact Hj|constructor].
Qed.
Print Assumptions inverse_times_matrix.

(* When there is an inverse to be had: exactly when no leading block is singular. *)
Theorem inverse_exists_iff : forall c m n, exact_matrix m n n -> maxbits c = 0%Z ->
  ((exists r, op_inv c m = Ok r) <-> forall k, 0 < k <= n -> ~ singular_block m k) /\
  ((forall r, op_inv c m <> Ok r) -> op_inv c m = Err).
Proof.
  intros c m n H M. destruct (inverse_spec c m n H) as [(r & E & _ & _ & _ & NS)|[E [X|(k & Hk & S)]]]; [|congruence|].
  - split; [|intros C; exfalso; apply (C r E)]. split; [intros _ k Hk; apply NS; lia|]. intros _. eauto.
  - split; [|auto]. split; [intros [r Er]; congruence|]. intros C. exfalso. apply (C k Hk S).
Qed.
Print Assumptions inverse_exists_iff.

(* A singular matrix is never inverted. *)
Theorem singular_not_inverted : forall c m n, exact_matrix m n n -> singular_block m n -> op_inv c m = Err.
Proof.
  intros c m n H S. destruct (inverse_spec c m n H) as [(r & E & _ & _ & _ & NS)|[E _]]; [|exact E]. exfalso. apply (NS n (le_n _) S).
Qed.
Print Assumptions singular_not_inverted.
(* Nor is one that is not square, or has three axes. *)
Theorem only_square : forall c n m d, n <> m -> op_inv c (VMat [n; m] d) = Err.
Proof. intros c n m d H. unfold op_inv, inverse, mat_inverse. destruct (Nat.eqb_spec m n); [congruence|reflexivity]. Qed.
Print Assumptions only_square.

(* Full statement refuted: an invertible matrix is not always inverted (a zero on the
   diagonal is not exchanged for another row). *)
Theorem zero_pivot_refuted : exists c m r, maxbits c = 0%Z /\ exact_matrix m 2 2 /\ exact_matrix r 2 2 /\
  product_is_identity 2 r m /\ product_is_identity 2 m r /\ op_inv c m = Err.
Proof.
  exists (mkConf 0 1), (VMat [2; 2] (map VInt [0; 1; 1; 0]%Z)), (VMat [2; 2] (map VInt [0; 1; 1; 0]%Z)).
  assert (exact_matrix (VMat [2; 2] (map VInt [0; 1; 1; 0]%Z)) 2 2) as X.
  { split; [|split; [reflexivity|]].
    - split; [discriminate|]. split; [reflexivity|]. intros [|[|[|k]]] Hk; simpl in Hk; try lia. vm_compute. discriminate.
    - repeat constructor; vm_compute; intuition congruence. }
  assert (product_is_identity 2 (VMat [2; 2] (map VInt [0; 1; 1; 0]%Z)) (VMat [2; 2] (map VInt [0; 1; 1; 0]%Z))) as Y.
  { intros [|[|i]] [|[|j]] Hi Hj; try lia; vm_compute; split; reflexivity. }
  split; [reflexivity|]. split; [exact X|]. split; [exact X|]. split; [exact Y|]. split; [exact Y|reflexivity].
Qed.
Print Assumptions zero_pivot_refuted.

(* The inverse of a vector of two or more numbers: the vector r with r +.* v = 1 and r_i = conj v_i / |v|^2;
   it is an error only for a vector of zeros or because of the size limit. *)
Theorem inverse_of_vector : forall c l, 2 <= length l -> Forall cvalid l ->
  let n := length l in let v := VVec l in
  (exists r, op_inv c v = Ok r /\ exact_vector r n /\ (exists i, i < n /\ ~ ceq (at1 v i) c0) /\
     ceq (csum n (fun i => cmul (at1 r i) (at1 v i))) c1 /\
     forall i, i < n -> ceq (cmul (at1 r i) (csum n (fun k => cmul (at1 v k) (cconj (at1 v k))))) (cconj (at1 v i))) \/
  (op_inv c v = Err /\ (maxbits c <> 0%Z \/ forall i, i < n -> ceq (at1 v i) c0)).
Proof. exact vec_inv_spec. Qed.
Print Assumptions inverse_of_vector.
(* With one element it is an error, although 5 has the inverse 1/5. *)
Theorem inverse_one_element_refuted : exists c x r, maxbits c = 0%Z /\ op_inv c x = Ok r /\ op_inv c (VVec [x]) = Err.
Proof. exists (mkConf 0 1), (VInt 5), (VRat (1 # 5)). repeat split. Qed.
Print Assumptions inverse_one_element_refuted.
(* A number. *)
Theorem inverse_of_number : forall c x, cvalid x -> ~ ceq (num_of (Some x)) c0 ->
  (exists r, op_inv c x = Ok r /\ cvalid r /\ ceq (cmul (num_of (Some r)) (num_of (Some x))) c1) \/ (op_inv c x = Err /\ maxbits c <> 0%Z).
Proof.
  intros c x V N. assert (op_inv c x = ev1_std c UInv x) as -> by (destruct x; try contradiction; reflexivity). apply (inv_num c x V N).
Qed.
Print Assumptions inverse_of_number.

(* C65:  b mdiv a  is the solution x of  a +.* x = b, for a vector b, or column by column for an
   array b. *)
Theorem mdiv_solves : forall c a b n t x, exact_matrix a n n -> exact_array b (n :: t) -> n <> 0 -> op_mdiv c b a = Ok x ->
  exact_array x (n :: t) /\
  forall e, inb t e ->
    (forall i, i < n -> ceq (csum n (fun k => cmul (at2 a i k) (at_c x (k :: e)))) (at_c b (i :: e))) /\
    (forall y, (forall i, i < n -> ceq (csum n (fun k => cmul (at2 a i k) (y k))) (at_c b (i :: e))) ->
       forall k, k < n -> ceq (y k) (at_c x (k :: e))).
Proof.
  intros c a b n t x Ha Hb Hn E. destruct (mdiv_spec c a b n t Ha Hb Hn) as [(x' & E' & H1 & _ & H2)|[E' _]]; [|congruence].
  assert (x' = x) as -> by congruence. auto.
Qed.
Print Assumptions mdiv_solves.
Theorem mdiv_exists_iff : forall c a b n t, exact_matrix a n n -> exact_array b (n :: t) -> n <> 0 -> maxbits c = 0%Z ->
  ((exists x, op_mdiv c b a = Ok x) <-> forall k, 0 < k <= n -> ~ singular_block a k) /\
  ((forall x, op_mdiv c b a <> Ok x) -> op_mdiv c b a = Err).
Proof.
  intros c a b n t Ha Hb Hn M. destruct (mdiv_spec c a b n t Ha Hb Hn) as [(x & E & _ & NS & _)|[E [X|(k & Hk & S)]]]; [|congruence|].
  - split; [|intros C; exfalso; apply (C x E)]. split; [intros _ k Hk; apply NS; lia|]. intros _. eauto.
  - split; [|auto]. split; [intros [r Er]; congruence|]. intros C. exfalso. apply (C k Hk S).
Qed.
Print Assumptions mdiv_exists_iff.
(* Of two vectors of real numbers: x with (u - x v) +.* v = 0. *)
Theorem mdiv_vectors : forall c l k, length l = length k -> Forall cvalid l -> Forall cvalid k ->
  Forall (fun x => forall a b, x <> VCplx a b) l -> Forall (fun x => forall a b, x <> VCplx a b) k ->
  let n := length l in let u := VVec l in let v := VVec k in
  (exists i, i < n /\ ~ ceq (at1 v i) c0) ->
  (exists x, op_mdiv c u v = Ok x /\ cvalid x /\
     ceq (cmul (num_of (Some x)) (csum n (fun i => cmul (at1 v i) (at1 v i)))) (csum n (fun i => cmul (at1 u i) (at1 v i)))) \/
  (op_mdiv c u v = Err /\ maxbits c <> 0%Z).
Proof.
  intros c l k L Fl Fk Rl Rk n u v (i0 & Hi0 & Nz).
  assert (forall q, Forall cvalid q -> Forall (fun x => forall a b, x <> VCplx a b) q -> forallb real_b q = true) as RB.
  { intros q Fq Rq. apply forallb_forall. intros x Hx. rewrite Forall_forall in Fq, Rq. specialize (Fq x Hx). specialize (Rq x Hx).
    destruct x; try contradiction; try reflexivity. exfalso. eapply Rq. reflexivity. }
  assert (forall i, i < n -> at1 u i = num (nth i l vd)) as Au by (intros i Hi; apply (at1_nth l i Hi)).
  assert (forall i, i < n -> at1 v i = num (nth i k vd)) as Av by (intros i Hi; apply (at1_nth k i); unfold n in Hi; lia).
  pose proof (mdiv_vec_spec c l k L Fl Fk) as H. rewrite (RB l), (RB k) in H by auto. specialize (H eq_refl). cbv zeta in H.
  destruct H as [(x & E & V & P)|X]; [| |right; exact X].
  - intros C. apply Nz. rewrite (Av i0 Hi0). revert i0 Hi0 Nz. intros i0 Hi0 _.
    refine (proj1 (magsum_zero n (fun i => num (nth i k vd))) _ i0 Hi0). rewrite <-C. apply csum_ext. intros i Hi.
    unfold mag2. rewrite real_num; [reflexivity| |].
    + rewrite Forall_forall in Fk. apply Fk, nth_In. unfold n in Hi. lia.
    + specialize (RB k Fk Rk). rewrite forallb_forall in RB. apply RB, nth_In. unfold n in Hi. lia.
  - left. exists x. split; [exact E|]. split; [exact V|].
    rewrite (csum_ext n (fun i => cmul (at1 v i) (at1 v i)) (fun i => cmul (num (nth i k vd)) (num (nth i k vd)))) by (intros; rewrite Av by assumption; reflexivity).
    rewrite (csum_ext n (fun i => cmul (at1 u i) (at1 v i)) (fun i => cmul (num (nth i l vd)) (num (nth i k vd)))) by (intros; rewrite Au, Av by assumption; reflexivity).
    exact P.
Qed.
Print Assumptions mdiv_vectors.

(* ---- cases ---- *)
Definition ca := mkConf 1000000 1.
Definition m2 := VMat [2; 2] [VInt 2; VInt 1; VRat (1 # 2); VCplx (VInt 0) (VInt 1)].
Example m2_exact : exact_matrix m2 2 2.
Proof.
  split; [|split; [reflexivity|]].
  - split; [discriminate|]. split; [reflexivity|]. intros [|[|[|k]]] Hk; simpl in Hk; try lia. vm_compute. discriminate.
  - repeat constructor; try (vm_compute; intuition congruence). exists 1%Q. split; [reflexivity|]. intros C. discriminate C.
Qed.
Example m2_inverse : exists r, op_inv ca m2 = Ok r /\ inner (ev_std ca BAdd) (ev_std ca BMul) r m2 = Ok (VMat [2; 2] (map VInt [1; 0; 0; 1]%Z)).
Proof. eexists. split; [vm_compute; reflexivity|vm_compute; reflexivity]. Qed.
Example m2_solve : exists x, op_mdiv ca (VVec [VInt 3; VInt 4]) m2 = Ok x /\ inner (ev_std ca BAdd) (ev_std ca BMul) m2 x = Ok (VVec [VInt 3; VInt 4]).
Proof. eexists. split; [vm_compute; reflexivity|vm_compute; reflexivity]. Qed.
Example b2_exact : exact_array (VVec [VInt 3; VInt 4]) [2].
Proof. split; [exact I|]. split; [reflexivity|]. repeat constructor; vm_compute; intuition congruence. Qed.
Example m3_inverse : op_inv ca (VMat [3; 3] (map VInt [2; 0; 1; 1; 3; 2; 0; 1; 1]%Z)) =
  Ok (VMat [3; 3] [VRat (1 # 3); VRat (1 # 3); VInt (-1); VRat (-1 # 3); VRat (2 # 3); VInt (-1); VRat (1 # 3); VRat (-2 # 3); VInt 2]).
Proof. vm_compute. reflexivity. Qed.
Example m_singular : singular_block (VMat [2; 2] (map VInt [1; 2; 2; 4]%Z)) 2 /\ op_inv ca (VMat [2; 2] (map VInt [1; 2; 2; 4]%Z)) = Err.
Proof.
  split; [|reflexivity]. exists (fun j => if j =? 0 then (2, 0)%Q else (-1, 0)%Q). split; [exists 0; split; [lia|intros [C _]; discriminate C]|].
  intros [|[|i]] Hi; try lia; vm_compute; split; reflexivity.
Qed.
Example v_inverse : op_inv ca (VVec [VInt 3; VCplx (VInt 0) (VInt 4)]) = Ok (VVec [VRat (3 # 25); VCplx (VInt 0) (VRat (-4 # 25))]).
Proof. vm_compute. reflexivity. Qed.
Example v_mdiv : op_mdiv ca (VVec (map VInt [1; 2; 3]%Z)) (VVec (map VInt [1; 0; 1]%Z)) = Ok (VInt 2).
Proof. vm_compute. reflexivity. Qed.

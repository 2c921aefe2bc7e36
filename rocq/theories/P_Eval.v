(* Properties of elementwise application, reduction, scan, products and each
   (eval.go).  [ev] is whatever applying the operator to two elements does. *)
From Verif Require Import Value NumModel NumSpec ArrModel EvalModel ArrSpec EvalSpec EvalProofs EvalReduce EvalAssoc.
Open Scope nat_scope.

Definition c0 : conf := mkConf 0 1.
Definition sub := eval_scalar c0 BSub.
Definition m23 := VMat [2; 3] (map VInt [1; 2; 3; 4; 5; 6]%Z).
Ltac wf_m := split; [discriminate|]; split; [reflexivity|]; intros [|[|[|k]]] HH; cbn in *; try lia.

(* ---- C30: elementwise application ---- *)
Theorem elementwise_unary : forall fs ev1 v, wf v -> rank_of v <> 0 ->
  computes (el_unary fs ev1 v) (shape_of v) (fun c => on1 ev1 (elem v c)).
Proof. exact el_unary_ok. Qed.
Print Assumptions elementwise_unary.
Theorem elementwise_same_shape : forall fs ev u v, wf u -> wf v -> rank_of u <> 0 -> shape_of u = shape_of v ->
  computes (el_binary fs ev u v) (shape_of u) (fun c => on2 ev (elem u c) (elem v c)).
Proof. exact el_same. Qed.
Print Assumptions elementwise_same_shape.
Example elementwise_example : el_binary sub sub m23 m23 = Ok (VMat [2; 3] (repeat (VInt 0) 6)) /\ wf m23.
Proof. split; [reflexivity|wf_m]. Qed.
Theorem elementwise_scalar_left : forall fs ev u v x, single u x -> wf v -> rank_of v <> 0 ->
  computes (el_binary fs ev u v) (shape_of v) (fun c => on1 (ev x) (elem v c)).
Proof. exact el_single_left. Qed.
Print Assumptions elementwise_scalar_left.
Theorem elementwise_scalar_right : forall fs ev u v y, single v y -> wf u -> rank_of u <> 0 -> vol (shape_of u) <> 1 ->
  computes (el_binary fs ev u v) (shape_of u) (fun c => on1 (fun x => ev x y) (elem u c)).
Proof. exact el_single_right. Qed.
Print Assumptions elementwise_scalar_right.
Example elementwise_scalar_example : single (VInt 1) (VInt 1) /\
  el_binary sub sub m23 (VInt 1) = Ok (VMat [2; 3] (map VInt [0; 1; 2; 3; 4; 5]%Z)) /\
  el_binary sub sub (VVec [VInt 1]) m23 = Ok (VMat [2; 3] (map VInt [0; -1; -2; -3; -4; -5]%Z)).
Proof. repeat split. Qed.
(* A vector as long as the last axis of a matrix is used for every row. *)
Theorem elementwise_vector_left : forall fs ev u v, wf u -> wf v -> rank_of u <> 0 -> rank_of v <> 0 ->
  (exists k, shape_of u = last (shape_of v) 0 :: repeat 1 k) -> is_mat v = true -> vol (shape_of v) <> 1 ->
  computes (el_binary fs ev u v) (shape_of v)
    (fun c => on2 ev (elem u (last c 0 :: repeat 0 (rank_of u - 1))) (elem v c)).
Proof. exact extend_left. Qed.
Print Assumptions elementwise_vector_left.
Theorem elementwise_vector_right : forall fs ev u v, wf u -> wf v -> rank_of u <> 0 -> rank_of v <> 0 ->
  (exists k, shape_of v = last (shape_of u) 0 :: repeat 1 k) ->
  (forall k, shape_of u <> last (shape_of v) 0 :: repeat 1 k) -> is_mat u = true -> vol (shape_of u) <> 1 ->
  computes (el_binary fs ev u v) (shape_of u)
    (fun c => on2 ev (elem u c) (elem v (last c 0 :: repeat 0 (rank_of v - 1)))).
Proof. exact extend_right. Qed.
Print Assumptions elementwise_vector_right.
Example elementwise_vector_example :
  el_binary sub sub m23 (ints [1; 1; 2]%Z) = Ok (VMat [2; 3] (map VInt [0; 1; 1; 3; 4; 4]%Z)) /\
  (exists k, shape_of (ints [1; 1; 2]%Z) = last (shape_of m23) 0 :: repeat 1 k) /\
  (forall k, shape_of m23 <> last (shape_of (ints [1; 1; 2]%Z)) 0 :: repeat 1 k).
Proof. split; [reflexivity|]. split; [exists 0; reflexivity|]. intros k H. injection H as H _. discriminate. Qed.
Theorem elementwise_mismatch : forall fs ev u v, wf u -> wf v -> rank_of u <> 0 -> rank_of v <> 0 ->
  ~ extends (shape_of u) (shape_of v) -> ~ extends (shape_of v) (shape_of u) -> el_binary fs ev u v = Err.
Proof. exact el_mismatch. Qed.
Print Assumptions elementwise_mismatch.
Example elementwise_mismatch_example : ~ extends [2; 3] [2] /\ ~ extends [2] [2; 3].
Proof.
  split; intros [H|[(k & H)|H]]; cbn in *; try lia; try discriminate.
  injection H as H. destruct k as [|[|k]]; discriminate.
Qed.
(* The operator applied to nested arrays goes down to their scalars. *)
Theorem elementwise_nested : forall fs u v, elementwise fs u v = el_binary fs (elementwise fs) u v.
Proof. exact elementwise_rec. Qed.
Print Assumptions elementwise_nested.
Theorem elementwise_nested_unary : forall fs v, elementwise1 fs v = el_unary fs (elementwise1 fs) v.
Proof. exact elementwise1_rec. Qed.
Print Assumptions elementwise_nested_unary.
Example elementwise_nested_example :
  elementwise sub (VVec [ints [1; 2]%Z; VInt 3]) (VVec [VInt 1; ints [1; 2]%Z]) = Ok (VVec [ints [0; 1]%Z; ints [2; 1]%Z]).
Proof. reflexivity. Qed.
(* A column is taken for a row: shapes 3 2 and 2 1 differ, yet there is no error. *)
Theorem elementwise_mismatch_refuted : exists u v w, wf u /\ wf v /\ shape_of u = [3; 2] /\ shape_of v = [2; 1] /\
  el_binary sub sub u v = Ok w.
Proof.
  exists (VMat [3; 2] (map VInt [1; 2; 3; 4; 5; 6]%Z)), (VMat [2; 1] (map VInt [1; 2]%Z)). eexists.
  split; [wf_m|]. split; [wf_m|]. split; [reflexivity|]. split; [reflexivity|]. reflexivity.
Qed.
(* A 1 by 1 matrix and an integer give a matrix of rank 1. *)
Theorem elementwise_rank_refuted : exists u v w, wf u /\ shape_of u = [1; 1] /\ scalar v /\
  el_binary sub sub u v = Ok w /\ shape_of w = [1].
Proof.
  exists (VMat [1; 1] [VInt 5]), (VInt 1). eexists. split; [wf_m|]. repeat split.
Qed.

(* ---- C31: reduction ---- *)
Theorem reduce_vector : forall ev l, l <> [] -> reduce ev (VVec l) = rfold ev l.
Proof. exact vec_reduce_ok. Qed.
Print Assumptions reduce_vector.
Theorem reduce_rows : forall ev s n d, s <> [] -> n <> 0 -> wf (VMat (s ++ [n]) d) ->
  computes (reduce ev (VMat (s ++ [n]) d)) s (fun c => rfold ev (row (VMat (s ++ [n]) d) n c)).
Proof. exact reduce_mat. Qed.
Print Assumptions reduce_rows.
Theorem reduce_columns : forall ev s n d, s <> [] -> n <> 0 -> vol s <> 0 -> wf (VMat (n :: s) d) ->
  computes (reduce_first ev (VMat (n :: s) d)) s (fun c => rfold ev (column (VMat (n :: s) d) n c)).
Proof. exact reduce_first_mat. Qed.
Print Assumptions reduce_columns.
Theorem reduce_scalar : forall ev v, scalar v -> (forall z, v <> VChar z) -> reduce ev v = Ok v /\ reduce_first ev v = Ok v.
Proof. intros ev v S N. destruct v; try easy. now destruct (N z). Qed.
Print Assumptions reduce_scalar.
Theorem reduce_first_vector : forall ev l, reduce_first ev (VVec l) = reduce ev (VVec l).
Proof. reflexivity. Qed.
Example reduce_example : reduce sub (ints [1; 2; 3; 4]%Z) = Ok (VInt (-2)) /\ reduce sub m23 = Ok (ints [2; 5]%Z) /\
  reduce_first sub m23 = Ok (ints [-3; -3; -3]%Z) /\ wf (VMat ([2] ++ [3]) (map VInt [1; 2; 3; 4; 5; 6]%Z)).
Proof. split; [reflexivity|]. split; [reflexivity|]. split; [reflexivity|wf_m]. Qed.
(* "(1 1 rho 5) - 1 2 3" has the shape 3, like the list 4 3 2, but it is a matrix: "-/" of it is an error. *)
Theorem reduce_rank1_refuted : exists u v w l, wf u /\ wf v /\ el_binary sub sub u v = Ok w /\ shape_of w = [3] /\
  shape_of w = shape_of (VVec l) /\ (forall c, elem w c = elem (VVec l) c) /\
  reduce sub w = Err /\ reduce sub (VVec l) = Ok (VInt 3).
Proof.
  exists (VMat [1; 1] [VInt 5]), (ints [1; 2; 3]%Z). eexists. exists (map VInt [4; 3; 2]%Z).
  split; [wf_m|]. split; [exact I|]. repeat split; reflexivity.
Qed.
Print Assumptions reduce_rank1_refuted.

(* ---- C32: scan ---- *)
Theorem scan_vector : forall ev l, l <> [] ->
  computes (scan ev false (VVec l)) [length l] (fun c => rfold ev (firstn (S (last c 0)) l)).
Proof. intros ev l. apply scan_vec_ok. apply prefixes_gen. Qed.
Print Assumptions scan_vector.
Theorem scan_rows : forall ev s n d, s <> [] -> n <> 0 -> wf (VMat (s ++ [n]) d) ->
  computes (scan ev false (VMat (s ++ [n]) d)) (s ++ [n])
    (fun c => rfold ev (firstn (S (last c 0)) (row (VMat (s ++ [n]) d) n (removelast c)))).
Proof. intros ev s n d. apply scan_mat_ok. apply prefixes_gen. Qed.
Print Assumptions scan_rows.
Theorem scan_columns : forall c ev s n d, s <> [] -> n <> 0 -> vol s <> 0 -> wf (VMat (n :: s) d) ->
  computes (scan_first c ev false (VMat (n :: s) d)) (n :: s)
    (fun k => rfold ev (firstn (S (hd 0 k)) (column (VMat (n :: s) d) n (tl k)))).
Proof. intros c ev s n d. apply scan_first_ok. intros. apply prefixes_gen. Qed.
Print Assumptions scan_columns.
Example scan_example : scan sub false m23 = Ok (VMat [2; 3] (map VInt [1; -1; 2; 4; -1; 5]%Z)) /\
  scan_first c0 sub false m23 = Ok (VMat [2; 3] (map VInt [1; 2; 3; -3; -3; -3]%Z)).
Proof. split; reflexivity. Qed.
(* The operators the code takes to be associative are folded from the left; with no
   size limit in force the numbers are those of the prefix reductions. *)
Theorem scan_known_vector : forall c o l, maxbits c = 0%Z -> assoc_op o -> Forall (assoc_dom o) l -> l <> [] ->
  exists w, scan (eval_scalar c o) true (VVec l) = Ok w /\ shape_of w = [length l] /\
    forall j, j < length l -> exists x y, elem w [j] = Some x /\ rfold (eval_scalar c o) (firstn (S j) l) = Ok y /\ same_number x y.
Proof. exact scan_known_vec. Qed.
Print Assumptions scan_known_vector.
Theorem scan_known_rows : forall c o s n d, maxbits c = 0%Z -> assoc_op o -> Forall (assoc_dom o) d -> s <> [] -> n <> 0 -> wf (VMat (s ++ [n]) d) ->
  exists w, scan (eval_scalar c o) true (VMat (s ++ [n]) d) = Ok w /\ wf w /\ shape_of w = s ++ [n] /\
    forall k j, inb s k -> j < n -> exists x y, elem w (k ++ [j]) = Some x /\
      rfold (eval_scalar c o) (firstn (S j) (row (VMat (s ++ [n]) d) n k)) = Ok y /\ same_number x y.
Proof. exact scan_known_mat. Qed.
Print Assumptions scan_known_rows.
(* Any operator that is total and associative on the elements. *)
Theorem scan_assoc_vector : forall (ev : value -> value -> res value) (D : value -> Prop) l,
  (forall a b, D a -> D b -> exists r, ev a b = Ok r /\ D r) ->
  (forall a b c, D a -> D b -> D c -> (let! r := ev a b in ev r c) = (let! r := ev b c in ev a r)) ->
  Forall D l -> l <> [] ->
  computes (scan ev true (VVec l)) [length l] (fun c => rfold ev (firstn (S (last c 0)) l)).
Proof. intros ev D l H1 H2 HD. apply scan_vec_ok. now apply (prefixes_assoc ev D). Qed.
Print Assumptions scan_assoc_vector.
Theorem scan_assoc_columns : forall c (ev : value -> value -> res value) (D : value -> Prop) s n d,
  (forall a b, D a -> D b -> exists r, ev a b = Ok r /\ D r) ->
  (forall a b c, D a -> D b -> D c -> (let! r := ev a b in ev r c) = (let! r := ev b c in ev a r)) ->
  Forall D d -> s <> [] -> n <> 0 -> vol s <> 0 -> wf (VMat (n :: s) d) ->
  computes (scan_first c ev true (VMat (n :: s) d)) (n :: s)
    (fun k => rfold ev (firstn (S (hd 0 k)) (column (VMat (n :: s) d) n (tl k)))).
Proof.
  intros c ev D s n d H1 H2 HD. apply scan_first_ok. intros l Hl. apply (prefixes_assoc ev D); auto.
  rewrite Forall_forall in *. auto.
Qed.
Print Assumptions scan_assoc_columns.
Example scan_known_example : scan (eval_scalar c0 BAdd) true m23 = Ok (VMat [2; 3] (map VInt [1; 3; 6; 4; 9; 15]%Z)) /\
  Forall (assoc_dom BAdd) (map VInt [1; 2; 3; 4; 5; 6]%Z) /\ Forall (assoc_dom BXor) (map VInt [1; 2; 3; 4; 5; 6]%Z).
Proof. split; [reflexivity|]. split; repeat constructor; cbn; try lia; eexists; reflexivity. Qed.
(* The fast case is chosen by the operator's name: if the user has redefined + as
   subtraction, +\ 1 2 3 folds from the left: 1 -1 -4 and not 1 -1 2. *)
Theorem scan_redefined_refuted : exists ev l w j x y, scan ev true (VVec l) = Ok w /\ j < length l /\
  elem w [j] = Some x /\ rfold ev (firstn (S j) l) = Ok y /\ ~ same_number x y.
Proof.
  exists sub, (map VInt [1; 2; 3]%Z), (ints [1; -1; -4]%Z), 2, (VInt (-4)), (VInt 2).
  split; [reflexivity|]. split; [cbn; lia|]. split; [reflexivity|]. split; [reflexivity|].
  intros (x & y & Hx & Hy & E). cbn in Hx, Hy. injection Hx as <-. injection Hy as <-. discriminate.
Qed.
(* With a size limit the two orders can differ: one is an error, the other a number. *)
Theorem scan_limit_refuted : exists c l w, scan (eval_scalar c BAdd) false (VVec l) = Ok w /\
  scan (eval_scalar c BAdd) true (VVec l) = Err.
Proof.
  exists (mkConf 64 1), [VBig (2 ^ 62); VBig (2 ^ 61); VBig (2 ^ 61); VBig (- 2 ^ 62)]. eexists.
  split; vm_compute; reflexivity.
Qed.

(* ---- C33: outer product ---- *)
Theorem outer_product : forall ev u v, wf u -> wf v -> rank_of u <> 0 -> rank_of v <> 0 ->
  computes_if_legal (outer ev u v) (shape_of u ++ shape_of v)
    (fun c => on2 ev (elem u (firstn (rank_of u) c)) (elem v (skipn (rank_of u) c))).
Proof. exact outer_ok. Qed.
Print Assumptions outer_product.
Example outer_example : outer sub (ints [1; 2]%Z) (ints [1; 2; 3]%Z) = Ok (VMat [2; 3] (map VInt [0; -1; -2; 1; 0; -1]%Z)) /\
  shape_of (ints [1; 2]%Z) ++ shape_of (ints [1; 2; 3]%Z) = [2; 3] /\ legal [2; 3].
Proof. split; [reflexivity|]. split; [reflexivity|]. intros [|[|[|k]]] H; cbn in *; lia. Qed.
(* With a scalar operand the rank of the result depends on the kind of number. *)
Theorem outer_scalar_refuted : exists a b, outer sub (VInt 1) m23 = Ok a /\ outer sub (VRat (1 # 2)) m23 = Ok b /\
  shape_of a = [1; 2; 3] /\ shape_of b = [1; 1; 2; 3].
Proof. do 2 eexists. repeat split; vm_compute; reflexivity. Qed.

(* ---- C34: inner product ---- *)
Theorem inner_product_vectors : forall evl evr l k, length l = length k -> l <> [] ->
  inner evl evr (VVec l) (VVec k) = rinner evl evr (combine l k).
Proof. exact inner_vec_ok. Qed.
Print Assumptions inner_product_vectors.
Theorem inner_product_matrices : forall evl evr u v s n t, wf u -> wf v -> shape_of u = s ++ [n] -> shape_of v = n :: t -> n <> 0 -> s ++ t <> [] ->
  computes_if_legal (inner evl evr u v) (s ++ t)
    (fun c => rinner evl evr (combine (row u n (firstn (length s) c)) (column v n (skipn (length s) c)))).
Proof. exact inner_mat_ok. Qed.
Print Assumptions inner_product_matrices.
Theorem inner_product_mismatch : forall evl evr u v, wf u -> wf v -> rank_of u <> 0 -> rank_of v <> 0 ->
  last (shape_of u) 0 <> hd 0 (shape_of v) -> inner evl evr u v = Err.
Proof. exact inner_mat_bad. Qed.
Print Assumptions inner_product_mismatch.
(* When the products succeed, it is the reduction of the products. *)
Theorem inner_is_reduction : forall evl evr ps zs, mapM (fun p => evr (fst p) (snd p)) ps = Ok zs -> rinner evl evr ps = rfold evl zs.
Proof. exact rinner_rfold. Qed.
Print Assumptions inner_is_reduction.
Example inner_example : inner (eval_scalar c0 BAdd) (eval_scalar c0 BMul) m23 (VMat [3; 2] (map VInt [1; 2; 3; 4; 5; 6]%Z)) =
  Ok (VMat [2; 2] (map VInt [22; 28; 49; 64]%Z)) /\
  inner (eval_scalar c0 BAdd) (eval_scalar c0 BMul) m23 (ints [1; 2; 3]%Z) = Ok (ints [14; 32]%Z).
Proof. split; reflexivity. Qed.
(* Two matrices of rank 1 have no inner product. *)
Theorem inner_rank1_refuted : exists u v, wf u /\ wf v /\ shape_of u = [3] /\ shape_of v = [3] /\
  inner (eval_scalar c0 BAdd) (eval_scalar c0 BMul) u v = Err.
Proof.
  exists (VMat [3] (map VInt [1; 2; 3]%Z)), (ints [1; 2; 3]%Z).
  split; [wf_m|]. split; [exact I|]. split; [reflexivity|]. split; reflexivity.
Qed.
(* Sharing an axis of length 0 is a division by zero in the interpreter itself. *)
Theorem inner_empty_refuted : exists u v, wf u /\ wf v /\ shape_of u = [2; 0] /\ shape_of v = [0; 2] /\
  inner (eval_scalar c0 BAdd) (eval_scalar c0 BMul) u v = Crash.
Proof.
  exists (VMat [2; 0] []), (VMat [0; 2] []).
  split; [wf_m|]. split; [wf_m|]. split; [reflexivity|]. split; reflexivity.
Qed.

(* ---- C63: each ---- *)
Theorem each_parts : forall ev1 n v d, wf v -> rank_of v <> 0 -> n <> 0 -> d = Nat.min n (rank_of v) -> vol (skipn d (shape_of v)) <> 0 ->
  computes (each ev1 n v) (firstn d (shape_of v)) (fun c => ev1 (n - d) (part_at v c)).
Proof. exact each_ok. Qed.
Print Assumptions each_parts.
Example each_example : each (fun _ v => Ok (op_rho1 v)) 1 m23 = Ok (VVec [ints [3]%Z; ints [3]%Z]) /\
  part_at m23 [1] = ints [4; 5; 6]%Z /\ part_at m23 [1; 2] = VInt 6.
Proof. repeat split. Qed.
(* A op@ B, A @op B, A @op@ B and deeper: the operator is applied to every part of A at the
   depth of the @s on its left, with every part of B at the depth of those on its right. *)
Theorem binary_each_parts : forall ev nl nr u v ld rd, wf u -> wf v -> (nl <> 0 -> rank_of u <> 0) -> (nr <> 0 -> rank_of v <> 0) -> nl + nr <> 0 ->
  ld = Nat.min nl (rank_of u) -> rd = Nat.min nr (rank_of v) -> vol (skipn ld (shape_of u)) <> 0 -> vol (skipn rd (shape_of v)) <> 0 ->
  computes_if_legal (binary_each ev nl nr u v) (firstn ld (shape_of u) ++ firstn rd (shape_of v))
    (fun c => ev (nl - ld) (nr - rd) (part_at u (firstn ld c)) (part_at v (skipn ld c))).
Proof. exact binary_each_ok. Qed.
Print Assumptions binary_each_parts.
Example binary_each_example :
  binary_each (fun _ _ => op_cat) 1 1 m23 (ints [7; 8]%Z) =
    Ok (VMat [2; 2] [ints [1; 2; 3; 7]%Z; ints [1; 2; 3; 8]%Z; ints [4; 5; 6; 7]%Z; ints [4; 5; 6; 8]%Z]) /\
  binary_each (fun _ _ => op_cat) 0 1 (VInt 0) m23 = Ok (VVec [ints [0; 1; 2; 3]%Z; ints [0; 4; 5; 6]%Z]) /\
  wf m23 /\ vol (skipn 1 (shape_of m23)) <> 0.
Proof. split; [reflexivity|]. split; [reflexivity|]. split; [wf_m|discriminate]. Qed.
(* The rows of a 2 by 0 matrix are two empty vectors, yet each row is not visited. *)
Theorem each_empty_refuted : exists v, wf v /\ shape_of v = [2; 0] /\ each (fun _ v => Ok (op_rho1 v)) 1 v = Ok (VVec []).
Proof. exists (VMat [2; 0] []). split; [wf_m|]. split; reflexivity. Qed.

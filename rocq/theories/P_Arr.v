(* Properties of the structural array operators.  Model: ArrModel.v.
   Specification: ArrSpec.v (shape_of, elem, is_array, ...). *)
From Verif Require Import Value NumModel ArrModel ArrSpec ArrBase ArrRot ArrTake ArrTransp ArrCat ArrSel ArrPart ArrMix ArrLaws.
Open Scope nat_scope.

(* Closes the side conditions of the examples. *)
Lemma wf_mat s d : s <> [] -> length d = vol s -> too_large s = false -> wf (VMat s d).
Proof. intros A B C. split; auto. split; auto. apply too_large_legal; auto. Qed.
Ltac side := first
  [ exact Logic.I | apply wf_mat; [discriminate|reflexivity|reflexivity] | apply too_large_legal; reflexivity
  | left; reflexivity | left; discriminate | discriminate | reflexivity | intros; discriminate | repeat constructor; auto; fail | cbn; lia | cbn; congruence
  | right; eexists; split; reflexivity | right; right; eexists; split; reflexivity | vm_compute; discriminate ].
Definition c1 : conf := mkConf 0 1.
Definition m23 : value := VMat [2; 3] (map VInt [1; 2; 3; 4; 5; 6]%Z).
Definition m222 : value := VMat [2; 2; 2] (map VInt [1; 2; 3; 4; 5; 6; 7; 8]%Z).
Definition v3 : value := ints [7; 8; 9]%Z.

(* ---- C35: reshape ---- *)
Theorem reshape : forall u v s, int_list u (map Z.of_nat s) -> s <> [] ->
  (fits s -> is_array (op_rho u v) s (fun c => nth_error (nonempty_data (data_of v)) (ravel s c mod length (nonempty_data (data_of v))))) /\
  (~ fits s -> op_rho u v = Err).
Proof. exact op_rho_ok. Qed.
Print Assumptions reshape.
Example reshape_example : op_rho (ints [2; 4]%Z) m23 = Ok (VMat [2; 4] (map VInt [1; 2; 3; 4; 5; 6; 1; 2]%Z)).
Proof. reflexivity. Qed.
Example reshape_example_hyp : int_list (ints [2; 4]%Z) (map Z.of_nat [2; 4]) /\ fits [2; 4].
Proof. split; [side|]. split; [repeat constructor; lia|]. intros [|[|[|k]]] H; cbn in *; lia. Qed.
Theorem reshape_rejects : forall A v, (exists x, In x A /\ forall z, x = VInt z -> (z < 0 \/ 2 ^ 31 - 1 < z)%Z) -> op_rho (VVec A) v = Err.
Proof. exact op_rho_bad. Qed.
Print Assumptions reshape_rejects.
Example reshape_rejects_example : op_rho (ints [2; -1]%Z) m23 = Err.
Proof. apply reshape_rejects. exists (VInt (-1)). split; [right; left; reflexivity|]. intros z H. injection H as <-. left. reflexivity. Qed.
(* An empty left operand asks for a scalar; the result is an empty vector. *)
Theorem reshape_to_scalar_refuted : exists v, op_rho (ints []%Z) v = Ok (VVec []).
Proof. exists v3. reflexivity. Qed.
Theorem shape_and_count : forall v, op_rho1 v = VVec (map (fun n => VInt (Z.of_nat n)) (shape_of v)) /\
  (wf v -> op_count v = VInt (Z.of_nat (match shape_of v with n :: _ => n | [] => 1 end)) /\ op_ravel v = VVec (data_of v)).
Proof. intros v. destruct v; repeat split; try reflexivity. destruct H as [H _]. destruct shape; [congruence|reflexivity]. Qed.
Print Assumptions shape_and_count.

(* ---- C36: take and drop ---- *)
Theorem take : forall u v ks, int_vector u ks -> wf v -> Forall wf (data_of v) -> rank_of v <> 0 ->
  (rank_of v < length ks -> vol (shape_of v) = 1) ->
  let s' := take_shape (shape_of v) ks in let ks' := all_axes s' ks in
  (Z.of_nat (vol (dims ks')) <= 2 ^ 31 - 1)%Z -> gives_array (op_take u v) (dims ks') (taken v s' ks').
Proof. exact op_take_ok. Qed.
Print Assumptions take.
Theorem drop : forall u v ks, int_vector u ks -> wf v -> Forall wf (data_of v) -> rank_of v <> 0 -> length ks <= rank_of v -> ks <> [] ->
  (Z.of_nat (vol (shape_of v)) <= 2 ^ 31 - 1)%Z ->
  is_array (op_drop u v) (drop_dims (shape_of v) ks) (fun c => elem v (drop_coord (shape_of v) ks c)).
Proof. exact op_drop_ok. Qed.
Print Assumptions drop.
Theorem take_then_drop : forall l n, Forall wf l -> n <= length l ->
  is_array (let! a := op_take (VInt (Z.of_nat n)) (VVec l) in let! b := op_drop (VInt (Z.of_nat n)) (VVec l) in op_cat a b)
    [length l] (elem (VVec l)).
Proof. exact take_drop_cat. Qed.
Print Assumptions take_then_drop.
Example take_example : op_take (ints [-1; 4]%Z) m23 = Ok (VMat [1; 4] (map VInt [4; 5; 6; 0]%Z)).
Proof. reflexivity. Qed.
Example take_example_hyp : gives_array (op_take (ints [-1; 4]%Z) m23) [1; 4] (taken m23 [2; 3] [-1; 4]%Z).
Proof. apply (take (ints [-1; 4]%Z) m23 [-1; 4]%Z); try side. Qed.
Example drop_example : op_drop (ints [1; -1]%Z) m23 = Ok (VMat [1; 2] (map VInt [4; 5]%Z)).
Proof. reflexivity. Qed.
Example drop_example_hyp : is_array (op_drop (ints [1; -1]%Z) m23) [1; 2] (fun c => elem m23 (drop_coord [2; 3] [1; -1]%Z c)).
Proof. apply (drop (ints [1; -1]%Z) m23 [1; -1]%Z); try side. Qed.

(* ---- C37: rotation and reversal ---- *)
Theorem rotate : forall u v k s n, one_int u k -> wf v -> shape_of v = s ++ [n] -> n <> 0 -> (forall x, v <> VVec [x]) ->
  is_array (op_rot u v) (s ++ [n]) (fun c => elem v (on_last (rotl k n) c)).
Proof. exact op_rot_ok. Qed.
Print Assumptions rotate.
Theorem rotate_first_axis : forall u v k s0 s, one_int u k -> wf v -> shape_of v = s0 :: s -> vol (s0 :: s) <> 0 ->
  (forall x, v <> VVec [x]) -> (s = [] -> is_mat u = false /\ is_mat v = false) ->
  is_array (op_flip u v) (s0 :: s) (fun c => elem v (on_first (rotl k s0) c)).
Proof. exact op_flip_ok. Qed.
Print Assumptions rotate_first_axis.
Theorem rotations_add : forall v s n a b, wf v -> shape_of v = s ++ [n] -> n <> 0 -> s ++ [n] <> [1] ->
  is_array (bind (op_rot (VInt a) v) (op_rot (VInt b))) (s ++ [n]) (fun c => elem v (on_last (rotl (a + b) n) c)).
Proof. exact rot_rot. Qed.
Print Assumptions rotations_add.
Theorem rotations_first_axis_add : forall v n s a b, wf v -> shape_of v = n :: s -> vol (n :: s) <> 0 -> s <> [] ->
  is_array (bind (op_flip (VInt a) v) (op_flip (VInt b))) (n :: s) (fun c => elem v (on_first (rotl (a + b) n) c)).
Proof. exact flip_flip. Qed.
Print Assumptions rotations_first_axis_add.
Theorem reverse : forall v s n, wf v -> shape_of v = s ++ [n] -> n <> 0 -> (is_mat v = true -> s <> []) ->
  is_array (op_rot1 v) (s ++ [n]) (fun c => elem v (on_last (mirror n) c)).
Proof. exact op_rot1_ok. Qed.
Print Assumptions reverse.
Theorem reverse_first_axis : forall v s0 s, wf v -> shape_of v = s0 :: s -> (is_mat v = true -> s <> []) ->
  is_array (op_flip1 v) (s0 :: s) (fun c => elem v (on_first (mirror s0) c)).
Proof. exact op_flip1_ok. Qed.
Print Assumptions reverse_first_axis.
Theorem reverse_twice : forall v s n, wf v -> shape_of v = s ++ [n] -> n <> 0 -> s <> [] ->
  is_array (bind (op_rot1 v) op_rot1) (s ++ [n]) (elem v).
Proof. exact reverse_reverse. Qed.
Print Assumptions reverse_twice.
Theorem reverse_twice_vector : forall l, bind (op_rot1 (VVec l)) op_rot1 = Ok (VVec l).
Proof. exact reverse_reverse_vec. Qed.
Print Assumptions reverse_twice_vector.
Theorem reverse_first_axis_twice : forall v n s, wf v -> shape_of v = n :: s -> s <> [] ->
  is_array (bind (op_flip1 v) op_flip1) (n :: s) (elem v).
Proof. exact flip1_flip1. Qed.
Print Assumptions reverse_first_axis_twice.
Example rotate_example : op_rot (VInt (-1)) m23 = Ok (VMat [2; 3] (map VInt [3; 1; 2; 6; 4; 5]%Z)).
Proof. reflexivity. Qed.
Example rotate_example_hyp : is_array (op_rot (VInt (-1)) m23) [2; 3] (fun c => elem m23 (on_last (rotl (-1) 3) c)).
Proof. apply (rotate (VInt (-1)) m23 (-1) [2] 3); side. Qed.
Example rotate_first_example_hyp : is_array (op_flip (VInt 1) m23) [2; 3] (fun c => elem m23 (on_first (rotl 1 2) c)).
Proof. apply (rotate_first_axis (VInt 1) m23 1 2 [3]); side. Qed.
Example reverse_example : op_rot1 m23 = Ok (VMat [2; 3] (map VInt [3; 2; 1; 6; 5; 4]%Z)) /\ op_flip1 m23 = Ok (VMat [2; 3] (map VInt [4; 5; 6; 1; 2; 3]%Z)).
Proof. split; reflexivity. Qed.
(* A one-element vector becomes a scalar; a matrix with an empty last axis
   crashes; a rank-1 matrix is not rotated by flip. *)
Theorem rotate_shape_refuted : exists x, shape_of (VVec [x]) = [1] /\ op_rot (VInt 1) (VVec [x]) = Ok x /\ shape_of x = [].
Proof. exists (VInt 5). repeat split. Qed.
Theorem rotate_empty_refuted : exists v, wf v /\ op_rot (VInt 1) v = Crash.
Proof. exists (VMat [2; 0] []). split; [side|reflexivity]. Qed.
Theorem rotate_first_axis_rank1_refuted : exists v w, wf v /\ op_flip (VInt 1) v = Ok w /\ elem w [0] <> elem v (on_first (rotl 1 2) [0]).
Proof. exists (VMat [2] [VInt 1; VInt 2]), (VMat [2] [VInt 1; VInt 2]). split; [side|]. split; [reflexivity|discriminate]. Qed.

(* ---- C38: transposition ---- *)
Theorem transpose_reverses_axes : forall c v, wf v -> 2 <= rank_of v -> (forall x, shape_of v <> [x; 0]) ->
  gives_array (op_transp1 c v) (rev (shape_of v)) (fun k => elem v (rev k)).
Proof. exact op_transp1_ok. Qed.
Print Assumptions transpose_reverses_axes.
Theorem transpose_twice : forall c v, wf v -> 2 <= rank_of v -> (forall x, shape_of v <> [x; 0]) -> (forall x, shape_of v <> [0; x]) ->
  legal (rev (shape_of v)) -> is_array (bind (op_transp1 c v) (op_transp1 c)) (shape_of v) (elem v).
Proof. exact transp_transp. Qed.
Print Assumptions transpose_twice.
Theorem transpose_by_axes : forall c u v m t, int_vector u (map (fun j => (Z.of_nat j + origin c)%Z) m) -> wf v -> rank_of v <> 0 ->
  length m = rank_of v -> Forall (fun j => j < rank_of v) m -> axes_to (shape_of v) m t ->
  gives_array (op_transp c u v) t (fun k => elem v (axes_from m k)).
Proof. exact op_transp_ok. Qed.
Print Assumptions transpose_by_axes.
(* Some axis of the result has no source: an error. *)
Theorem transpose_missing_axis : forall c u v m, int_vector u (map (fun j => (Z.of_nat j + origin c)%Z) m) -> wf v -> rank_of v <> 0 ->
  length m = rank_of v -> Forall (fun j => j < rank_of v) m -> (forall t, ~ axes_to (shape_of v) m t) -> op_transp c u v = Err.
Proof. exact op_transp_missing. Qed.
Print Assumptions transpose_missing_axis.
Theorem transpose_bad_axis : forall c u v zs, int_vector u zs -> wf v -> rank_of v <> 0 ->
  length zs <> rank_of v \/ (exists z, In z zs /\ ~ (origin c <= z < origin c + Z.of_nat (rank_of v))%Z) -> op_transp c u v = Err.
Proof. exact op_transp_bad_axis. Qed.
Print Assumptions transpose_bad_axis.
Example transpose_example : op_transp1 c1 m23 = Ok (VMat [3; 2] (map VInt [1; 4; 2; 5; 3; 6]%Z)).
Proof. reflexivity. Qed.
Example transpose_example_hyp : gives_array (op_transp1 c1 m23) [3; 2] (fun k => elem m23 (rev k)).
Proof. apply (transpose_reverses_axes c1 m23); side. Qed.
(* a diagonal *)
Example transpose_diagonal_hyp : gives_array (op_transp c1 (ints [1; 1]%Z) m23) [2] (fun k => elem m23 (axes_from [0; 0] k)).
Proof.
  apply (transpose_by_axes c1 (ints [1; 1]%Z) m23 [0; 0] [2]); try side. split.
  - intros [|[|j]] H; cbn in *; lia.
  - intros [|i] H; [exists 0|]; cbn in *; lia.
Qed.
Example transpose_diagonal : op_transp c1 (ints [1; 1]%Z) m23 = Ok (ints [1; 5]%Z).
Proof. reflexivity. Qed.
Theorem transpose_empty_refuted : exists v, wf v /\ rank_of v = 2 /\ op_transp1 c1 v = Crash.
Proof. exists (VMat [3; 0] []). split; [side|]. split; reflexivity. Qed.

(* ---- C39: catenation ---- *)
Theorem catenate : forall x y s a b, wf x -> wf y -> shape_of x = s ++ [a] -> shape_of y = s ++ [b] ->
  gives_array (op_cat x y) (s ++ [a + b]) (fun c => if last c 0 <? a then elem x c else elem y (on_last (fun j => j - a) c)).
Proof. exact op_cat_ll. Qed.
Print Assumptions catenate.
Theorem catenate_slice_right : forall x y s a, wf x -> wf y -> shape_of x = s ++ [a] -> shape_of y = s -> s <> [] -> vol s <> 0 ->
  gives_array (op_cat x y) (s ++ [a + 1]) (fun c => if last c 0 <? a then elem x c else elem y (removelast c)).
Proof. exact op_cat_le. Qed.
Print Assumptions catenate_slice_right.
Theorem catenate_slice_left : forall x y s b, wf x -> wf y -> shape_of x = s -> shape_of y = s ++ [b] -> s <> [] -> vol s <> 0 ->
  gives_array (op_cat x y) (s ++ [b + 1]) (fun c => if last c 0 =? 0 then elem x (removelast c) else elem y (on_last (fun j => j - 1) c)).
Proof. exact op_cat_el. Qed.
Print Assumptions catenate_slice_left.
Theorem catenate_one_right : forall x y s a, wf x -> shape_of x = s ++ [a] -> s <> [] -> vol s <> 0 ->
  gives_array (op_cat x (VVec [y])) (s ++ [a + 1]) (fun c => if last c 0 <? a then elem x c else Some y).
Proof. exact op_cat_ls. Qed.
Print Assumptions catenate_one_right.
Theorem catenate_one_left : forall x y s b, wf y -> shape_of y = s ++ [b] -> s <> [] -> vol s <> 0 ->
  gives_array (op_cat (VVec [x]) y) (s ++ [b + 1]) (fun c => if last c 0 =? 0 then Some x else elem y (on_last (fun j => j - 1) c)).
Proof. exact op_cat_sl. Qed.
Print Assumptions catenate_one_left.
(* A scalar is a one-element vector here (fractions and complex numbers next to a
   matrix excepted, see catenate_fraction_refuted). *)
Theorem catenate_scalar : forall x y,
  (is_mat y = true -> forall q a b, x <> VRat q /\ x <> VCplx a b) -> (is_mat x = true -> forall q a b, y <> VRat q /\ y <> VCplx a b) ->
  op_cat x y = op_cat (as_list x) (as_list y) /\ op_cat_first x y = op_cat_first (as_list x) (as_list y).
Proof. intros x y A B. split; apply alv_as_list; auto. Qed.
Print Assumptions catenate_scalar.
Theorem catenate_first : forall x y s a b, wf x -> wf y -> shape_of x = a :: s -> shape_of y = b :: s ->
  gives_array (op_cat_first x y) ((a + b) :: s) (fun c => if hd 0 c <? a then elem x c else elem y (on_first (fun j => j - a) c)).
Proof. exact op_cat1_ll. Qed.
Print Assumptions catenate_first.
Theorem catenate_first_slice_right : forall x y s a, wf x -> wf y -> shape_of x = a :: s -> shape_of y = s -> s <> [] ->
  gives_array (op_cat_first x y) ((a + 1) :: s) (fun c => if hd 0 c <? a then elem x c else elem y (tl c)).
Proof. exact op_cat1_le. Qed.
Print Assumptions catenate_first_slice_right.
Theorem catenate_first_slice_left : forall x y s b, wf x -> wf y -> shape_of x = s -> shape_of y = b :: s -> s <> [] ->
  gives_array (op_cat_first x y) ((b + 1) :: s) (fun c => if hd 0 c =? 0 then elem x (tl c) else elem y (on_first (fun j => j - 1) c)).
Proof. exact op_cat1_el. Qed.
Print Assumptions catenate_first_slice_left.
Theorem catenate_first_one_right : forall x y s a, wf x -> shape_of x = a :: s -> s <> [] ->
  gives_array (op_cat_first x (VVec [y])) ((a + 1) :: s) (fun c => if hd 0 c <? a then elem x c else Some y).
Proof. exact op_cat1_ls. Qed.
Print Assumptions catenate_first_one_right.
Theorem catenate_first_one_left : forall x y s b, wf y -> shape_of y = b :: s -> s <> [] ->
  gives_array (op_cat_first (VVec [x]) y) ((b + 1) :: s) (fun c => if hd 0 c =? 0 then Some x else elem y (on_first (fun j => j - 1) c)).
Proof. exact op_cat1_sl. Qed.
Print Assumptions catenate_first_one_left.
Example catenate_example : op_cat m23 (ints [8; 9]%Z) = Ok (VMat [2; 4] (map VInt [1; 2; 3; 8; 4; 5; 6; 9]%Z)).
Proof. reflexivity. Qed.
Example catenate_example_hyp : gives_array (op_cat m23 m23) [2; 6] (fun c => if last c 0 <? 3 then elem m23 c else elem m23 (on_last (fun j => j - 3) c)).
Proof. apply (catenate m23 m23 [2] 3 3); side. Qed.
Example catenate_slice_hyp : gives_array (op_cat m23 (ints [8; 9]%Z)) [2; 4] (fun c => if last c 0 <? 3 then elem m23 c else elem (ints [8; 9]%Z) (removelast c)).
Proof. apply (catenate_slice_right m23 (ints [8; 9]%Z) [2] 3); side. Qed.
Example catenate_first_example_hyp : gives_array (op_cat_first m23 v3) [3; 3] (fun c => if hd 0 c <? 2 then elem m23 c else elem v3 (tl c)).
Proof. apply (catenate_first_slice_right m23 v3 [3] 2); side. Qed.
(* An integer can be joined to a matrix, a fraction cannot. *)
Theorem catenate_fraction_refuted : (exists r, op_cat m23 (VInt 1) = Ok r) /\ op_cat m23 (VRat (1 # 2)) = Err.
Proof. split; [eexists; reflexivity|reflexivity]. Qed.

(* ---- C40: selection and expansion ---- *)
Theorem select : forall u v ks s n, int_list u ks -> wf v -> shape_of v = s ++ [n] -> length ks = 1 \/ length ks = n -> ks <> [] -> vol s <> 0 ->
  gives_array (op_sel u v) (s ++ [total (counts ks n)])
    (fun c => nth_error (selected (counts ks n) (row v n (removelast c))) (last c 0)).
Proof. exact op_sel_ok. Qed.
Print Assumptions select.
Theorem select_mismatch : forall u v ks s n, int_list u ks -> wf v -> shape_of v = s ++ [n] -> length ks <> 1 -> length ks <> n -> op_sel u v = Err.
Proof. exact op_sel_bad. Qed.
Print Assumptions select_mismatch.
Theorem expand : forall u l ks, int_vector u ks -> npos ks = length l -> (fill_len ks <= 10 ^ 8)%Z ->
  op_fill u (VVec l) = Ok (VVec (filled (blank_for l) ks l)).
Proof. exact op_fill_ok. Qed.
Print Assumptions expand.
Theorem expand_mismatch : forall u l ks, int_vector u ks -> ks <> [] -> npos ks <> length l \/ (10 ^ 8 < fill_len ks)%Z -> op_fill u (VVec l) = Err.
Proof. exact op_fill_bad. Qed.
Print Assumptions expand_mismatch.
Example select_example : op_sel (ints [2; 0; -1]%Z) m23 = Ok (VMat [2; 3] (map VInt [1; 1; 0; 4; 4; 0]%Z)).
Proof. reflexivity. Qed.
Example select_example_hyp : gives_array (op_sel (ints [2; 0; -1]%Z) m23) [2; 3]
  (fun c => nth_error (selected [2; 0; -1]%Z (row m23 3 (removelast c))) (last c 0)).
Proof. apply (select (ints [2; 0; -1]%Z) m23 [2; 0; -1]%Z [2] 3); try side. Qed.
Example expand_example : op_fill (ints [1; 0; -2; 2]%Z) (ints [5; 6]%Z) = Ok (ints [5; 0; 0; 0; 6; 6]%Z) /\ npos [1; 0; -2; 2]%Z = length [5; 6].
Proof. split; reflexivity. Qed.

(* ---- C41: partition ---- *)
Theorem partition_vector : forall u l ks, int_vector u (map Z.of_nat ks) -> length ks = length l ->
  op_part u (VVec l) = Ok (VVec (map VVec (runs (combine ks l)))).
Proof. exact op_part_vec. Qed.
Print Assumptions partition_vector.
Theorem partition_mismatch : forall u l ks, int_vector u ks -> length ks <> length l -> op_part u (VVec l) = Err.
Proof. exact op_part_vec_len. Qed.
Print Assumptions partition_mismatch.
(* Missing for matrices: a single row, and a first score of 0 (both refuted below). *)
Theorem partition_matrix_partial : forall u s n d ks, int_list u (map Z.of_nat ks) -> wf (VMat (s ++ [n]) d) -> length ks = 1 \/ length ks = n ->
  2 <= vol s -> n <> 0 -> hd 0 ks <> 0 ->
  gives_array (op_part u (VMat (s ++ [n]) d)) (s ++ [ngroups (scores ks n)])
    (fun c => nth_error (map VVec (runs (combine (scores ks n) (row (VMat (s ++ [n]) d) n (removelast c))))) (last c 0)).
Proof. exact op_part_mat. Qed.
Print Assumptions partition_matrix_partial.
(* The groups put together are the elements with a non-zero score. *)
Theorem partition_keeps_elements : forall l, concat (runs l) = map snd (filter (fun p => negb (fst p =? 0)) l).
Proof.
  induction l as [|[k x] t IH]; auto. cbn [runs filter fst]. destruct (k =? 0); cbn [negb]; auto. cbn [map snd].
  destruct t as [|[k' y] t]; auto. rewrite <-IH. destruct (negb (k' =? 0) && (k' <=? k)); auto.
  destruct (runs ((k', y) :: t)); reflexivity.
Qed.
Print Assumptions partition_keeps_elements.
Example partition_example : op_part (ints [1; 1; 0; 2; 1; 3]%Z) (ints [1; 2; 3; 4; 5; 6]%Z) = Ok (VVec [ints [1; 2]%Z; ints [4; 5]%Z; ints [6]%Z]).
Proof. reflexivity. Qed.
Example partition_matrix_example : op_part (ints [1; 2; 0]%Z) m23 = Ok (VMat [2; 2] [ints [1]%Z; ints [2]%Z; ints [4]%Z; ints [5]%Z]).
Proof. reflexivity. Qed.
Example partition_matrix_hyp : gives_array (op_part (ints [1; 2; 0]%Z) m23) [2; 2]
  (fun c => nth_error (map VVec (runs (combine [1; 2; 0] (row m23 3 (removelast c))))) (last c 0)).
Proof. apply (partition_matrix_partial (ints [1; 2; 0]%Z) [2] 3 (map VInt [1; 2; 3; 4; 5; 6]%Z) [1; 2; 0]); try side. Qed.
Theorem partition_matrix_refuted :
  (exists v, wf v /\ shape_of v = [1; 3] /\ op_part (ints [1; 1; 2]%Z) v = Err) /\
  (exists v, wf v /\ shape_of v = [2; 3] /\ op_part (ints [0; 1; 2]%Z) v = Err).
Proof.
  split; [exists (VMat [1; 3] (map VInt [1; 2; 3]%Z))|exists m23]; (split; [side|split; reflexivity]).
Qed.

(* ---- C42: where and iota ---- *)
Theorem iota_counts : forall c n, (Z.of_nat n <= 2 ^ 31 - 1)%Z ->
  is_array (op_iota1 c (VInt (Z.of_nat n))) [n] (fun k => Some (VInt (origin c + Z.of_nat (hd 0 k)))).
Proof. exact op_iota1_int. Qed.
Print Assumptions iota_counts.
Theorem iota_coordinates : forall c s, 2 <= length s ->
  (fits s -> is_array (op_iota1 c (VVec (map (fun n => VInt (Z.of_nat n)) s))) s (fun k => Some (coord_vec (origin c) k))) /\
  (~ fits s -> op_iota1 c (VVec (map (fun n => VInt (Z.of_nat n)) s)) = Err).
Proof. exact op_iota1_shape. Qed.
Print Assumptions iota_coordinates.
Theorem where_vector : forall c ns, op_where c (VVec (map (fun n => VInt (Z.of_nat n)) ns)) =
  Ok (VVec (concat (map (fun i => repeat (VInt (origin c + Z.of_nat i)) (nth i ns 0)) (seq 0 (length ns))))).
Proof. exact op_where_vec. Qed.
Print Assumptions where_vector.
Theorem where_matrix : forall c s ns, s <> [] -> length ns = vol s ->
  op_where c (VMat s (map (fun n => VInt (Z.of_nat n)) ns)) =
  Ok (VVec (concat (map (fun i => repeat (coord_vec (origin c) (unravel s i)) (nth i ns 0)) (seq 0 (vol s))))).
Proof. exact op_where_mat. Qed.
Print Assumptions where_matrix.
Example where_example : op_where c1 (VMat [2; 2] (map VInt [0; 1; 2; 0]%Z)) = Ok (VVec [ints [1; 2]%Z; ints [2; 1]%Z; ints [2; 1]%Z]).
Proof. reflexivity. Qed.
Example iota_example : op_iota1 c1 (ints [2; 2]%Z) = Ok (VMat [2; 2] [ints [1; 1]%Z; ints [1; 2]%Z; ints [2; 1]%Z; ints [2; 2]%Z]).
Proof. reflexivity. Qed.

(* ---- C43: mix and split ---- *)
Theorem split_rows : forall s n d, s <> [] -> wf (VMat (s ++ [n]) d) ->
  is_array (op_split (VMat (s ++ [n]) d)) s (fun c => Some (VVec (row (VMat (s ++ [n]) d) n c))).
Proof. intros s n d Hs (_ & L & LG). exact (mat_split_ok s n d Hs L LG). Qed.
Print Assumptions split_rows.
Theorem mix_pads : forall r v, 1 <= r -> wf v -> rank_of v <> 0 -> data_of v <> [] -> ~ Forall scalar (data_of v) ->
  Forall (mixable r (common r (data_of v))) (data_of v) ->
  gives_array (op_mix v) (shape_of v ++ common r (data_of v))
    (fun c => match elem v (firstn (rank_of v) c) with Some e => padded (as_list e) (skipn (rank_of v) c) | None => None end).
Proof. exact op_mix_ok. Qed.
Print Assumptions mix_pads.
Theorem mix_of_split : forall s n d, s <> [] -> vol s <> 0 -> wf (VMat (s ++ [n]) d) -> Forall wf d ->
  bind (op_split (VMat (s ++ [n]) d)) op_mix = Ok (VMat (s ++ [n]) d).
Proof. exact mix_split. Qed.
Print Assumptions mix_of_split.
Theorem split_of_mix : forall n ls, ls <> [] -> Forall (fun l => length l = n /\ Forall wf l) ls -> legal [length ls; n] ->
  bind (op_mix (VVec (map VVec ls))) op_split = Ok (VVec (map VVec ls)).
Proof. exact split_mix. Qed.
Print Assumptions split_of_mix.
Example mix_example : op_mix (VVec [ints [1]%Z; ints [2; 3; 4]%Z; VInt 9]) = Ok (VMat [3; 3] (map VInt [1; 0; 0; 2; 3; 4; 9; 0; 0]%Z)).
Proof. reflexivity. Qed.
Example mix_example_hyp : Forall (mixable 1 (common 1 [ints [1]%Z; ints [2; 3; 4]%Z; VInt 9])) [ints [1]%Z; ints [2; 3; 4]%Z; VInt 9].
Proof. repeat constructor; discriminate. Qed.
Example mix_split_example : bind (op_split m222) op_mix = Ok m222.
Proof. apply (mix_of_split [2; 2] 2 (map VInt [1; 2; 3; 4; 5; 6; 7; 8]%Z)); try side. Qed.
(* A one-element array is not padded, and elements of different rank can be cut. *)
Theorem mix_pads_refuted :
  op_mix (VVec [VMat [1; 1] [VInt 5]; VMat [2; 2] (map VInt [1; 2; 3; 4]%Z)]) = Err /\
  (exists r, op_mix (VVec [ints [1; 2; 3; 4; 5]%Z; VMat [2; 2] (map VInt [6; 7; 8; 9]%Z)]) = Ok r /\ ~ In (VInt 3) (data_of r)).
Proof.
  split; [reflexivity|]. eexists. split; [vm_compute; reflexivity|]. cbn. intuition discriminate.
Qed.

(* C44, C05 and C06: x[i; j; ...] and x[i; j; ...] = y. *)
From Verif Require Import Value NumModel ArrSpec ParModel ParSpec IdxModel IdxSpec IdxProofs IdxOps IdxAssign IdxErr.
Open Scope nat_scope.

Definition c1 : conf := mkConf 0 1.
Definition m234 : value := VMat [2; 3; 4] (map (fun i => VInt (Z.of_nat i)) (seq 1 24)).
Definition m23 : value := VMat [2; 3] (map VInt [1; 2; 3; 4; 5; 6]%Z).
Lemma legal_m234 : legal [2; 3; 4].
Proof. intros k Hk. cbn [length] in Hk. assert (k = 2 \/ k = 3) as [->| ->] by lia; cbn; lia. Qed.
Lemma legal_m23 : legal [2; 3].
Proof. intros k Hk. cbn [length] in Hk. assert (k = 2) as -> by lia. cbn; lia. Qed.

(* Indexing by axes: the shape of the result is the shapes of the indexes in order,
   then the axes not indexed; its element at c is the element of the array at the
   target of c.  The two restrictions are refuted below. *)
Theorem index_elements c v xs : arr v -> wf v -> valid (origin c) (shape_of v) xs ->
  rev (missing (shape_of v) xs) = missing (shape_of v) xs -> vol (skipn (length xs) (shape_of v)) <> 0 ->
  out_shape (shape_of v) xs <> [] ->
  gives_array (op_index c v xs) (out_shape (shape_of v) xs)
    (fun k => match target (origin c) (shape_of v) xs k with Some t => elem v t | None => None end).
Proof. intros Hv W V P N. exact (index_axes c v xs Hv W V P N). Qed.
Print Assumptions index_elements.
Example index_elements_case : let xs := [Some (VInt 2); None] in
  arr m234 /\ wf m234 /\ valid 1 (shape_of m234) xs /\ rev (missing (shape_of m234) xs) = missing (shape_of m234) xs /\
  vol (skipn (length xs) (shape_of m234)) <> 0 /\ out_shape (shape_of m234) xs = [3; 4] /\
  target 1 (shape_of m234) xs [2; 1] = Some [1; 2; 1] /\
  op_index c1 m234 xs = Ok (VMat [3; 4] (map (fun i => VInt (Z.of_nat i)) (seq 13 12))).
Proof.
  intros xs. split; [exact I|]. split; [split; [discriminate|split; [reflexivity|exact legal_m234]]|]. split.
  { constructor; [split; [exact I|repeat constructor; exists 2%Z; split; [reflexivity|lia]]|]. constructor; [exact I|constructor]. }
  split; [reflexivity|]. split; [cbn; lia|]. split; [reflexivity|]. split; reflexivity.
Qed.

(* All axes indexed by single integers: the element itself. *)
Theorem index_element c v xs : arr v -> wf v -> valid (origin c) (shape_of v) xs ->
  out_shape (shape_of v) xs = [] ->
  exists t x, target (origin c) (shape_of v) xs [] = Some t /\ elem v t = Some x /\ op_index c v xs = Ok x.
Proof.
  intros Hv W V E. refine (index_axes_one c v xs Hv W V _ E). now rewrite (missing_none c v xs V E).
Qed.
Print Assumptions index_element.
Example index_element_case : op_index c1 m23 [Some (VInt 2); Some (VInt 3)] = Ok (VInt 6) /\
  target 1 [2; 3] [Some (VInt 2); Some (VInt 3)] [] = Some [1; 2].
Proof. split; reflexivity. Qed.

(* Indexing by coordinates: x[w] where w's elements are coordinate vectors. *)
Theorem index_coordinates c v w n : arr v -> wf v -> valid_coords (origin c) (shape_of v) n w ->
  vol (skipn n (shape_of v)) <> 0 ->
  gives_array (op_index c v [Some w]) (shape_of w ++ skipn n (shape_of v))
    (fun k => match coord_target (origin c) w k with Some t => elem v t | None => None end).
Proof. intros Hv W V N. exact (index_coords c v w n Hv W V N). Qed.
Print Assumptions index_coordinates.
Example index_coordinates_case : let w := VVec [ints [2; 1]%Z; ints [1; 3]%Z] in
  valid_coords 1 (shape_of m234) 2 w /\ coord_target 1 w [0; 2] = Some [1; 0; 2] /\
  op_index c1 m234 [Some w] = Ok (VMat [2; 4] (map VInt [13; 14; 15; 16; 9; 10; 11; 12]%Z)).
Proof.
  intros w. split; [|split; reflexivity]. split; [exact I|]. split; [discriminate|]. split; [discriminate|]. split; [cbn; lia|].
  repeat constructor; eexists; (split; [reflexivity|]); (split; [reflexivity|]); repeat constructor; eexists; (split; [reflexivity|lia]).
Qed.

(* Anything else - an index that is not an integer or is out of range, too many
   indexes, something that has no elements - is an error, and assigns nothing. *)
Theorem index_rejects c v xs : Forall wf_index xs -> ~ (arr v /\ valid_any (origin c) (shape_of v) xs) ->
  op_index c v xs = Err /\ forall rhs, index_assign c v xs rhs = (v, Err).
Proof. exact (index_invalid c v xs). Qed.
Print Assumptions index_rejects.
Example index_rejects_case : let xs := [Some (VInt 1); Some (VInt 4)] in
  Forall wf_index xs /\ ~ (arr m23 /\ valid_any 1 (shape_of m23) xs).
Proof.
  intros xs. split; [repeat constructor|]. intros [_ [V|(w & n & E & _)]]; [|discriminate].
  inversion V as [|? ? ? ? _ V2]; subst. inversion V2 as [|? ? ? ? H _]; subst. destruct H as [_ H]. apply Forall_inv in H. destruct H as (z & E & Hz).
  injection E as <-. lia.
Qed.

(* Two missing indexes: the lengths of their axes come out in reverse, so the result has
   another shape than the axes selected (found in index.go: outShapeToUpdate is filled
   from the right and used from the left). *)
Theorem index_two_missing_refuted : exists v xs r, arr v /\ wf v /\ valid 1 (shape_of v) xs /\
  vol (skipn (length xs) (shape_of v)) <> 0 /\ op_index c1 v xs = Ok r /\ shape_of r <> out_shape (shape_of v) xs.
Proof.
  exists m234, [None; Some (VInt 1); None], (VMat [4; 2] (map VInt [1; 2; 3; 4; 13; 14; 15; 16]%Z)).
  split; [exact I|]. split; [split; [discriminate|split; [reflexivity|exact legal_m234]]|]. split.
  { constructor; [exact I|]. constructor; [split; [exact I|repeat constructor; exists 1%Z; split; [reflexivity|lia]]|]. constructor; [exact I|constructor]. }
  split; [cbn; lia|]. split; [reflexivity|discriminate].
Qed.
Print Assumptions index_two_missing_refuted.
(* An empty axis that is not indexed: a division by zero. *)
Theorem index_empty_axis_refuted : exists v xs, arr v /\ wf v /\ valid 1 (shape_of v) xs /\
  rev (missing (shape_of v) xs) = missing (shape_of v) xs /\ op_index c1 v xs = Crash.
Proof.
  exists (VMat [2; 0] []), [Some (VInt 1)]. split; [exact I|]. split.
  { split; [discriminate|]. split; [reflexivity|]. intros k Hk. cbn [length] in Hk. assert (k = 2) as -> by lia. cbn; lia. }
  split; [|split; reflexivity]. constructor; [split; [exact I|repeat constructor; exists 1%Z; split; [reflexivity|lia]]|constructor].
Qed.
Print Assumptions index_empty_axis_refuted.

(* Assigning to x[...]: the selected elements, and only they, are replaced; x keeps its
   shape; of several values for one element the last prevails. *)
Theorem assign_elements c v xs rhs : arr v -> wf v -> valid (origin c) (shape_of v) xs ->
  rev (missing (shape_of v) xs) = missing (shape_of v) xs -> vol (skipn (length xs) (shape_of v)) <> 0 ->
  wf rhs -> fits (out_shape (shape_of v) xs) rhs ->
  exists v', index_assign c v xs rhs = (v', Ok tt) /\
    replaced v v' (out_shape (shape_of v) xs) (target (origin c) (shape_of v) xs) (stored (out_shape (shape_of v) xs) rhs).
Proof. intros Hv W V P N. exact (assign_axes c v xs Hv W V P N rhs). Qed.
Print Assumptions assign_elements.
Example assign_elements_case :
  index_assign c1 m23 [Some (VInt 2); Some (ints [3; 1; 3]%Z)] (ints [70; 80; 90]%Z) = (VMat [2; 3] (map VInt [1; 2; 3; 80; 5; 90]%Z), Ok tt) /\
  fits (out_shape [2; 3] [Some (VInt 2); Some (ints [3; 1; 3]%Z)]) (ints [70; 80; 90]%Z) /\
  valid 1 [2; 3] [Some (VInt 2); Some (ints [3; 1; 3]%Z)].
Proof.
  split; [reflexivity|]. split; [reflexivity|]. constructor; [split; [exact I|]|constructor; [split; [exact I|]|constructor]];
  repeat constructor; eexists; (split; [reflexivity|lia]).
Qed.
Theorem assign_coordinates c v w n rhs : arr v -> wf v -> valid_coords (origin c) (shape_of v) n w ->
  vol (skipn n (shape_of v)) <> 0 -> wf rhs -> fits (shape_of w ++ skipn n (shape_of v)) rhs ->
  exists v', index_assign c v [Some w] rhs = (v', Ok tt) /\
    replaced v v' (shape_of w ++ skipn n (shape_of v)) (coord_target (origin c) w) (stored (shape_of w ++ skipn n (shape_of v)) rhs).
Proof. intros Hv W V N. exact (assign_coords c v w n Hv W V N rhs). Qed.
Print Assumptions assign_coordinates.
Example assign_coordinates_case :
  index_assign c1 m23 [Some (VVec [ints [2; 1]%Z; ints [1; 3]%Z])] (VInt 0) = (VMat [2; 3] (map VInt [1; 2; 0; 0; 5; 6]%Z), Ok tt).
Proof. reflexivity. Qed.
(* An array of another shape is refused. *)
Theorem assign_misfit c v xs rhs : arr v -> wf v -> valid (origin c) (shape_of v) xs ->
  rev (missing (shape_of v) xs) = missing (shape_of v) xs -> ~ fits (out_shape (shape_of v) xs) rhs ->
  index_assign c v xs rhs = (v, Err).
Proof. intros Hv W V P. exact (assign_axes_unfit c v xs Hv W V P rhs). Qed.
Print Assumptions assign_misfit.
Example assign_misfit_case : ~ fits (out_shape [2; 3] [Some (VInt 2)]) (ints [70; 80]%Z) /\ valid 1 [2; 3] [Some (VInt 2)].
Proof.
  split; [discriminate|]. constructor; [split; [exact I|]|constructor]. repeat constructor; eexists; (split; [reflexivity|lia]).
Qed.
(* All or nothing: an assignment that does not succeed, for whatever reason, leaves the
   variable as it was. *)
Theorem assign_all_or_nothing c v xs rhs : arr v -> wf v -> wf rhs -> Forall wf_index xs ->
  snd (index_assign c v xs rhs) = Ok tt \/ fst (index_assign c v xs rhs) = v.
Proof. exact (assign_atomic c v xs rhs). Qed.
Print Assumptions assign_all_or_nothing.
Example assign_all_or_nothing_case : index_assign c1 m23 [Some (VInt 2); Some (ints [3; 9]%Z)] (VInt 0) = (m23, Err).
Proof. reflexivity. Qed.

(* Over several goroutines, if no element is selected twice, every schedule leaves in
   the variable what a single goroutine does. *)
Theorem parallel_assign c v xs rhs ok procs work schedule r steps n k : arr v -> wf v -> valid (origin c) (shape_of v) xs ->
  vol (skipn (length xs) (shape_of v)) <> 0 ->
  procs <> 0 -> work <> 0 -> wf rhs -> distinct (out_shape (shape_of v) xs) (target (origin c) (shape_of v) xs) ->
  prepare c v xs rhs = Ok (steps, n, k) ->
  let st := run (cells (data_of v), spawn steps (plan ok procs work k n)) schedule in
  finished st -> outcome st r -> exists m', r = Ok m' /\ index_assign c v xs rhs = (contents v m', Ok tt).
Proof. intros Hv W V N. exact (parallel_assign_axes c v xs Hv W V N rhs ok procs work schedule r steps n k). Qed.
Print Assumptions parallel_assign.
Theorem parallel_assign_coordinates c v w n rhs ok procs work schedule r steps m k : arr v -> wf v ->
  valid_coords (origin c) (shape_of v) n w -> vol (skipn n (shape_of v)) <> 0 ->
  procs <> 0 -> work <> 0 -> wf rhs -> distinct (shape_of w ++ skipn n (shape_of v)) (coord_target (origin c) w) ->
  prepare c v [Some w] rhs = Ok (steps, m, k) ->
  let st := run (cells (data_of v), spawn steps (plan ok procs work k m)) schedule in
  finished st -> outcome st r -> exists m', r = Ok m' /\ index_assign c v [Some w] rhs = (contents v m', Ok tt).
Proof. intros Hv W V N. exact (parallel_assign_coords c v w n Hv W V N rhs ok procs work schedule r steps m k). Qed.
Print Assumptions parallel_assign_coordinates.
(* If some are, every schedule leaves one of the values given for them, and changes
   nothing else. *)
Theorem parallel_assign_some_value c v xs rhs ok procs work schedule r steps n k : arr v -> wf v -> valid (origin c) (shape_of v) xs ->
  rev (missing (shape_of v) xs) = missing (shape_of v) xs -> vol (skipn (length xs) (shape_of v)) <> 0 ->
  procs <> 0 -> work <> 0 -> wf rhs -> prepare c v xs rhs = Ok (steps, n, k) ->
  let st := run (cells (data_of v), spawn steps (plan ok procs work k n)) schedule in
  finished st -> outcome st r -> exists m', r = Ok m' /\
    replaced_somehow v (contents v m') (out_shape (shape_of v) xs) (target (origin c) (shape_of v) xs) (stored (out_shape (shape_of v) xs) rhs).
Proof. exact (parallel_somehow_axes c v xs rhs ok procs work schedule r steps n k). Qed.
Print Assumptions parallel_assign_some_value.
(* Which one depends on the schedule.  (The loop is split here for two items; in the
   program it takes 2*pforMinWork.) *)
Theorem parallel_assign_repeated_refuted : exists v xs rhs steps n k schedule schedule' m m', arr v /\ wf v /\ wf rhs /\ valid 1 (shape_of v) xs /\
  prepare c1 v xs rhs = Ok (steps, n, k) /\
  (let st := run (cells (data_of v), spawn steps (plan true 2 1 k n)) schedule in finished st /\ outcome st (Ok m)) /\
  (let st := run (cells (data_of v), spawn steps (plan true 2 1 k n)) schedule' in finished st /\ outcome st (Ok m')) /\
  contents v m <> contents v m'.
Proof.
  exists (ints [0; 0]%Z), [Some (ints [1; 1]%Z)], (ints [5; 6]%Z). eexists _, _, _, [0; 1], [1; 0], _, _.
  split; [exact I|]. split; [exact I|]. split; [exact I|]. split.
  { constructor; [split; [exact I|]|constructor]. constructor; [exists 1%Z; split; [reflexivity|cbn; lia]|]. constructor; [exists 1%Z; split; [reflexivity|cbn; lia]|constructor]. }
  split; [reflexivity|]. split; [split; [repeat constructor|apply all_well; repeat constructor]|].
  split; [split; [repeat constructor|apply all_well; repeat constructor]|]. cbn. discriminate.
Qed.
Print Assumptions parallel_assign_repeated_refuted.
Example parallel_assign_case : distinct (out_shape [3] [Some (ints [3; 1]%Z)]) (target 1 [3] [Some (ints [3; 1]%Z)]).
Proof.
  intros a b Ia Ib. apply ArrBase.inb1 in Ia. apply ArrBase.inb1 in Ib. destruct Ia as (i & -> & Hi), Ib as (j & -> & Hj).
  cbn [ints map length] in Hi, Hj. assert (i = 0 \/ i = 1) as [->| ->] by lia; assert (j = 0 \/ j = 1) as [->| ->] by lia; vm_compute; congruence.
Qed.

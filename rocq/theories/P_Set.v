(* Theorems about the order of values, ===, in, union, intersect, unique, up, down and
   binary iota.  The sorts are any functions that keep the contracts of Go's sort.Slice
   (a_sort) and sort.SliceStable (a_stable_sort). *)
From Verif Require Import Value NumModel NumSpec ArrSpec ArrBase EvalSpec OrdModel OrdSpec OrdProofs OrdOps OrdMat.
Open Scope nat_scope.

Definition c1 : conf := mkConf 0 1.
Lemma plain_exact x : plain x -> exact x.
Proof. now intros []. Qed.
Lemma plain_same c x y : plain x -> plain y -> (ordered_compare c x y = 0%Z <-> same x y).
Proof. intros [Hx Nx] [Hy _]. rewrite oc_zero by auto. eapply alike_same; eauto. Qed.
Lemma exact_alike c x y : exact x -> exact y -> (ordered_compare c x y = 0%Z <-> alike x y).
Proof. apply oc_zero. Qed.
Lemma self_exact x : exact x -> exact x.
Proof. auto. Qed.
Local Hint Resolve plain_exact plain_same exact_alike self_exact : core.

(* ---- C24 ---- *)
Theorem order_reflexive c u : exact u -> ordered_compare c u u = 0%Z.
Proof. exact (oc_refl c u). Qed.
Print Assumptions order_reflexive.
Theorem order_antisymmetric c u v : exact u -> exact v ->
  ordered_compare c v u = (- ordered_compare c u v)%Z /\ (-1 <= ordered_compare c u v <= 1)%Z.
Proof. intros Hu Hv. split; [now apply oc_opp|apply oc_range]. Qed.
Print Assumptions order_antisymmetric.
Theorem order_transitive c u v w : exact u -> exact v -> exact w ->
  (ordered_compare c u v <= 0)%Z -> (ordered_compare c v w <= 0)%Z ->
  (ordered_compare c u w <= 0)%Z /\ ((ordered_compare c u v < 0)%Z \/ (ordered_compare c v w < 0)%Z -> (ordered_compare c u w < 0)%Z).
Proof. exact (oc_trans c u v w). Qed.
Print Assumptions order_transitive.
(* Ties are the equal values. *)
Theorem order_ties c u v : plain u -> plain v -> (ordered_compare c u v = 0%Z <-> same u v).
Proof. exact (plain_same c u v). Qed.
Print Assumptions order_ties.
Theorem order_ties_nested c u v : exact u -> exact v -> (ordered_compare c u v = 0%Z <-> alike u v).
Proof. exact (oc_zero c u v). Qed.
Print Assumptions order_ties_nested.
(* On numbers it is the order of the rationals, whatever the types. *)
Theorem order_numeric c u v x y : numval u = Some x -> numval v = Some y ->
  ((ordered_compare c u v < 0)%Z <-> (x < y)%Q) /\ (ordered_compare c u v = 0%Z <-> (x == y)%Q).
Proof. intros Hx Hy. rewrite (compare_num c u v x y Hx Hy). split; [apply cmp_z_lt|apply cmp_z_eq]. Qed.
Print Assumptions order_numeric.
Theorem order_char c a b : ((ordered_compare c (VChar a) (VChar b) < 0)%Z <-> (a < b)%Z).
Proof. rewrite compare_char. destruct (Z.compare_spec a b); cbn; lia. Qed.
Print Assumptions order_char.
(* Characters before numbers before complex numbers before vectors before matrices. *)
Theorem order_class c u v : exact u -> exact v -> class u < class v -> (ordered_compare c u v < 0)%Z.
Proof. intros Hu Hv H. rewrite compare_class by (auto; lia). destruct (Nat.ltb_spec (class u) (class v)); lia. Qed.
Print Assumptions order_class.
(* Vectors: by length, then by the first difference. *)
Theorem order_vector c l l' : Forall exact l -> Forall exact l' ->
  (length l < length l' -> (ordered_compare c (VVec l) (VVec l') < 0)%Z) /\
  (length l = length l' -> (ordered_compare c (VVec l) (VVec l') <= 0)%Z ->
   lexicographic (fun x y => (ordered_compare c x y < 0)%Z) alike l l').
Proof.
  intros Hl Hl'. rewrite compare_vec. unfold cmp_lists. split; intros H.
  - destruct (Nat.eqb_spec (length l) (length l')); [lia|]. cbn [negb]. unfold sgn2_int.
    destruct (Z.ltb_spec (Z.of_nat (length l)) (Z.of_nat (length l'))); lia.
  - rewrite H, Nat.eqb_refl. cbn [negb]. apply (lex_lexicographic c exact); auto.
Qed.
Print Assumptions order_vector.
Example order_case : let c := c1 in let v := VVec [VInt 1; VVec [VRat (1 # 2); VChar 97]]%Z in
  exact v /\ ordered_compare c v (VVec [VInt 1; VVec [VInt 1; VChar 97]])%Z = (-1)%Z /\
  ordered_compare c (VCplx (VInt 1) (VInt 2)) v = (-1)%Z /\ ordered_compare c (VInt 2) (VBig 2) = 0%Z.
Proof. repeat split. Qed.

(* ---- C29 ---- *)
Theorem identity c u v : plain u -> plain v -> exists b, op_ident c u v = Ok (VInt b) /\
  op_notident c u v = Ok (VInt (1 - b)) /\ ((b = 1%Z /\ same u v) \/ (b = 0%Z /\ ~ same u v)).
Proof.
  intros Hu Hv. unfold op_ident, op_notident. pose proof (plain_same c u v Hu Hv) as H. destruct (Z.eqb_spec (ordered_compare c u v) 0) as [H0|H0].
  - exists 1%Z. repeat split. left. split; auto. now apply H.
  - exists 0%Z. repeat split. right. split; auto. intros S. now apply H0, H.
Qed.
Print Assumptions identity.
Theorem identity_matrix c s d d' : Forall plain d -> Forall plain d' -> exists b, op_ident c (VMat s d) (VMat s d') = Ok (VInt b) /\
  ((b = 1%Z /\ same (VMat s d) (VMat s d')) \/ (b = 0%Z /\ ~ same (VMat s d) (VMat s d'))).
Proof.
  intros Hd Hd'. unfold op_ident. rewrite compare_mat. pose proof (cmp_lists_zero (ordered_compare c) d d') as H.
  rewrite (Forall2_iff_in _ same) in H by (rewrite Forall_forall in Hd, Hd'; intros; apply plain_same; auto).
  destruct (Z.eqb_spec (cmp_lists (ordered_compare c) d d') 0) as [H0|H0].
  - exists 1%Z. split; auto. left. split; auto. constructor; auto. now apply H.
  - exists 0%Z. split; auto. right. split; auto. intros S. inversion S; subst; [discriminate|]. now apply H0, H.
Qed.
Print Assumptions identity_matrix.
(* === does not look at the shapes of matrices. *)
Theorem identity_shape_refuted : exists u v, exact u /\ exact v /\ wf u /\ wf v /\ shape_of u <> shape_of v /\ ~ same u v /\
  op_ident c1 u v = Ok (VInt 1).
Proof.
  exists (VMat [2; 3] (map VInt [1; 2; 3; 4; 5; 6]%Z)), (VMat [3; 2] (map VInt [1; 2; 3; 4; 5; 6]%Z)).
  assert (L : forall a b, (a < 4 /\ b < 4)%nat -> legal [a; b]).
  { intros a b H k Hk. cbn in Hk. assert (k = 2) as -> by lia. cbn. assert (a * (b * 1) <= 16) by nia. lia. }
  split; [cbn; tauto|]. split; [cbn; tauto|]. split; [repeat split; [discriminate|apply L; lia]|]. split; [repeat split; [discriminate|apply L; lia]|].
  split; [discriminate|]. split; [|reflexivity]. inversion 1; discriminate.
Qed.
Print Assumptions identity_shape_refuted.
Example identity_case : op_ident c1 (VVec [VInt 1; VVec [VRat (1 # 2)]])%Z (VVec [VInt 1; VVec [VRat (1 # 2)]])%Z = Ok (VInt 1) /\
  op_ident c1 (VVec [VInt 1]) (VVec [VInt 1; VInt 2])%Z = Ok (VInt 0).
Proof. split; reflexivity. Qed.

(* ---- C25 ---- *)
Theorem membership srt c u v : a_sort srt -> is_mat u = false -> is_mat v = false -> Forall plain (data_of u) -> Forall plain (data_of v) ->
  exists w, op_in srt c u v = Ok w /\ is_mat w = false /\ flags (among same (data_of v)) (data_of u) (data_of w).
Proof. intros S. apply (in_ok c plain same); auto. Qed.
Print Assumptions membership.
Theorem membership_matrix srt c s d v : a_sort srt -> wf (VMat s d) -> 2 <= length s -> Forall plain d -> Forall plain (data_of v) ->
  exists r, op_in srt c (VMat s d) v = Ok (VMat s r) /\ flags (among same (data_of v)) d r.
Proof. intros S. apply (in_matrix_ok c plain same); auto. Qed.
Print Assumptions membership_matrix.
(* With matrices among the elements, up to their shapes. *)
Theorem membership_nested srt c u v : a_sort srt -> is_mat u = false -> is_mat v = false -> Forall exact (data_of u) -> Forall exact (data_of v) ->
  exists w, op_in srt c u v = Ok w /\ is_mat w = false /\ flags (among alike (data_of v)) (data_of u) (data_of w).
Proof. intros S. apply (in_ok c exact alike); auto. Qed.
Print Assumptions membership_nested.
(* A fraction in a matrix: a 1 by 1 matrix and not a number (toType, bigrat.go:193-197). *)
Theorem membership_fraction_refuted : exists srt d, a_sort srt /\
  op_in srt c1 (VRat (1 # 2)) (VMat [2; 2] d) = Ok (VMat [1; 1] [VInt 1]) /\
  op_in srt c1 (VInt 3) (VMat [2; 2] d) = Ok (VInt 1).
Proof. exists insertion_sort, [VInt 3; VRat (1 # 2); VInt 1; VInt 0]%Z. split; [exact insertion_sorts|]. split; reflexivity. Qed.
Print Assumptions membership_fraction_refuted.
Example membership_case : a_sort insertion_sort /\
  op_in insertion_sort c1 (VVec [VInt 3; VRat (1 # 2); VVec [VInt 1]; VChar 97])%Z (VVec [VVec [VInt 1]; VInt 5; VRat (1 # 2)])%Z =
    Ok (VVec [VInt 0; VInt 1; VInt 1; VInt 0])%Z.
Proof. split; [exact insertion_sorts|reflexivity]. Qed.

(* ---- C26 ---- *)
Theorem set_union srt c u v : a_sort srt -> is_mat u = false -> is_mat v = false -> Forall plain (data_of u) -> Forall plain (data_of v) ->
  exists w r, op_union srt c u v = Ok w /\ is_mat w = false /\ data_of w = data_of u ++ r /\
    keeps (fun x => ~ among same (data_of u) x) (data_of v) r.
Proof. intros S. apply (union_ok c plain same); auto. Qed.
Print Assumptions set_union.
Theorem set_intersection srt c u v : a_sort srt -> is_mat u = false -> is_mat v = false -> Forall plain (data_of u) -> Forall plain (data_of v) ->
  exists w, op_intersect srt c u v = Ok w /\ is_mat w = false /\ keeps (among same (data_of v)) (data_of u) (data_of w).
Proof. intros S. apply (intersect_ok c plain same); auto. Qed.
Print Assumptions set_intersection.
Theorem set_of_matrix srt c u v : is_mat u = true \/ is_mat v = true ->
  op_union srt c u v = Err /\ op_intersect srt c u v = Err.
Proof. destruct u, v; cbn; intros [H|H]; try discriminate; auto. Qed.
Print Assumptions set_of_matrix.
(* unique keeps elements in place; no two of them are equal; every element equals one. *)
Theorem set_unique srt c l : a_sort srt -> Forall plain l ->
  exists r idx, op_unique srt c (VVec l) = Ok (VVec r) /\ chosen l idx r /\ ForallOrdPairs (fun x y => ~ same x y) r /\
    (forall x, In x l -> among same r x).
Proof.
  intros S Hl. destruct (unique_ok c plain same) with (srt := srt) (l := l) as (r & idx & H1 & H2 & H3 & H4 & _); auto. exists r, idx. auto.
Qed.
Print Assumptions set_unique.
Theorem set_unique_scalar srt c v : scalar v -> op_unique srt c v = Ok v.
Proof. destruct v; intros []; reflexivity. Qed.
Print Assumptions set_unique_scalar.
(* The elements kept are the first ones of their kind if the sort is stable and equal
   elements have the same type. *)
Theorem set_unique_first_partial srt c l : a_stable_sort srt -> Forall plain l ->
  (forall x y, In x l -> In y l -> same x y -> ty x = ty y) ->
  exists r idx, op_unique srt c (VVec l) = Ok (VVec r) /\ chosen l idx r /\
    forall i x, nth_error l i = Some x -> (In i idx <-> first_time same l i x).
Proof.
  intros S Hl T. assert (S1 := S). destruct S1 as [S1 _].
  destruct (unique_ok c plain same) with (srt := srt) (l := l) as (r & idx & H1 & H2 & H3 & H4 & H5); auto. exists r, idx. auto.
Qed.
Print Assumptions set_unique_first_partial.
(* unique uses sort.Slice, which promises no stability, and does not compare the indexes
   of equal elements: the order of first appearance is not guaranteed. *)
Theorem set_unique_order_refuted : exists srt l, a_sort srt /\ Forall plain l /\
  l = map VInt [1; 2; 1]%Z /\ op_unique srt c1 (VVec l) = Ok (VVec (map VInt [2; 1]%Z)).
Proof.
  exists tie_reversing_sort, (map VInt [1; 2; 1]%Z). split; [exact reversing_sorts|].
  split; [repeat constructor|]. split; reflexivity.
Qed.
Print Assumptions set_unique_order_refuted.
(* Nested matrices: the same up to shapes. *)
Theorem sets_nested srt c u v : a_sort srt -> is_mat u = false -> is_mat v = false -> Forall exact (data_of u) -> Forall exact (data_of v) ->
  (exists w r, op_union srt c u v = Ok w /\ is_mat w = false /\ data_of w = data_of u ++ r /\
    keeps (fun x => ~ among alike (data_of u) x) (data_of v) r) /\
  (exists w, op_intersect srt c u v = Ok w /\ is_mat w = false /\ keeps (among alike (data_of v)) (data_of u) (data_of w)).
Proof. intros S Hu Hv Du Dv. split; [apply (union_ok c exact alike)|apply (intersect_ok c exact alike)]; auto. Qed.
Print Assumptions sets_nested.
Example sets_case : let a := VVec (map VInt [3; 1; 3; 2])%Z in let b := VVec (map VInt [2; 5; 3])%Z in
  op_union insertion_sort c1 a b = Ok (VVec (map VInt [3; 1; 3; 2; 5])%Z) /\
  op_intersect insertion_sort c1 a b = Ok (VVec (map VInt [3; 3; 2])%Z) /\
  op_unique insertion_sort c1 a = Ok (VVec (map VInt [3; 1; 2])%Z).
Proof. repeat split. Qed.

(* ---- C27 ---- *)
Theorem index_of stb c u v : a_stable_sort stb -> is_mat u = false -> is_mat v = false -> Forall plain (data_of u) -> Forall plain (data_of v) ->
  exists r, op_iota2 stb c u v = Ok (VVec r) /\ Forall2 (first_index same (origin c) (data_of u)) (data_of v) r.
Proof. intros S. apply (iota_ok c plain same); auto. Qed.
Print Assumptions index_of.
(* Arrays: the items of the right operand that have the shape of the items of the left
   one are looked for among those. *)
Theorem index_of_items stb c s0 sa da sp db : s0 <> 0 -> vol sa <> 0 -> wf (VMat (s0 :: sa) da) -> wf (VMat (sp ++ sa) db) ->
  Forall plain da -> Forall plain db ->
  exists r, op_iota2 stb c (VMat (s0 :: sa) da) (VMat (sp ++ sa) db) = Ok (match sp with [] | [_] => VVec r | _ => VMat sp r end) /\
    Forall2 (first_index (Forall2 same) (origin c) (items (vol sa) da s0)) (items (vol sa) db (vol sp)) r.
Proof.
  intros H0 Hn (_ & La & _) (_ & Lb & Leg) Da Db. unfold op_iota2, at_least_vector. cbn [is_mat orb to_mat].
  apply (mat_iota_ok c plain same); auto.
Qed.
Print Assumptions index_of_items.
(* No items, or empty ones: a division by zero (binary.go:1171-1200). *)
Theorem index_of_empty_refuted : exists u v, wf u /\ wf v /\ forall stb, op_iota2 stb c1 u v = Crash.
Proof.
  exists (VMat [0; 2] []), (VMat [1; 2] [VInt 1%Z; VInt 2%Z]).
  assert (L : forall a b, (a < 4 /\ b < 4)%nat -> legal [a; b]).
  { intros a b H k Hk. cbn in Hk. assert (k = 2) as -> by lia. cbn. assert (a * (b * 1) <= 16) by nia. lia. }
  split; [repeat split; [discriminate|apply L; lia]|]. split; [repeat split; [discriminate|apply L; lia]|]. reflexivity.
Qed.
Print Assumptions index_of_empty_refuted.
Example index_of_case : a_stable_sort insertion_sort /\
  op_iota2 insertion_sort c1 (VVec (map VInt [3; 1; 3; 2])%Z) (VVec (map VInt [3; 5; 2])%Z) = Ok (VVec (map VInt [1; 0; 4])%Z) /\
  op_iota2 insertion_sort c1 (VMat [3; 2] (map VInt [1; 2; 3; 4; 1; 2]%Z)) (VMat [2; 2] (map VInt [3; 4; 1; 2]%Z)) = Ok (VVec (map VInt [2; 1])%Z).
Proof. split; [exact insertion_stable|]. split; reflexivity. Qed.

(* ---- C28 ---- *)
Theorem grade_up srt stb c l : a_sort srt -> a_stable_sort stb -> Forall plain l ->
  exists p, op_up srt stb c (VVec l) = Ok (indexes (origin c) p) /\ arranges (length l) (nth_error l) (ahead c same) p.
Proof. intros S. apply (up_ok c plain same); auto. Qed.
Print Assumptions grade_up.
Theorem grade_down srt stb c l : a_sort srt -> a_stable_sort stb -> Forall plain l ->
  exists p, op_down srt stb c (VVec l) = Ok (indexes (origin c) p) /\ arranges (length l) (nth_error l) (fun x y => ahead c same y x) p.
Proof. intros S. apply (down_ok c plain same); auto. Qed.
Print Assumptions grade_down.
(* Matrices: the items along the first axis, lexicographically; ties in any order. *)
Theorem grade_up_matrix srt stb c s0 s d : a_sort srt -> s0 <> 0 -> wf (VMat (s0 :: s) d) -> Forall plain d ->
  exists p, op_up srt stb c (VMat (s0 :: s) d) = Ok (indexes (origin c) p) /\
    arranges s0 (fun i => Some (item (vol s) d i))
      (fun x y => lexicographic (fun x y => (ordered_compare c x y < 0)%Z) same (snd x) (snd y)) p.
Proof. intros S H0 (_ & L & _). apply (up_matrix_ok c plain same); auto. Qed.
Print Assumptions grade_up_matrix.
Theorem grade_down_matrix srt stb c s0 s d : a_sort srt -> s0 <> 0 -> wf (VMat (s0 :: s) d) -> Forall plain d ->
  exists p, op_down srt stb c (VMat (s0 :: s) d) = Ok (indexes (origin c) p) /\
    arranges s0 (fun i => Some (item (vol s) d i))
      (fun x y => lexicographic (fun x y => (ordered_compare c x y < 0)%Z) same (snd y) (snd x)) p.
Proof. intros S H0 (_ & L & _). apply (down_matrix_ok c plain same); auto. Qed.
Print Assumptions grade_down_matrix.
(* A matrix with no items: a division by zero (matrix.go:1039). *)
Theorem grade_empty_refuted : exists v, wf v /\ forall srt stb, op_up srt stb c1 v = Crash.
Proof.
  exists (VMat [0; 2] []). split; [|reflexivity]. repeat split; [discriminate|]. intros k Hk. cbn in Hk. assert (k = 2) as -> by lia. cbn. lia.
Qed.
Print Assumptions grade_empty_refuted.
Example grade_case :
  op_up insertion_sort insertion_sort c1 (VVec [VInt 3; VRat (1 # 2); VInt 3; VChar 97])%Z = Ok (VVec (map VInt [4; 2; 1; 3])%Z) /\
  op_down insertion_sort insertion_sort c1 (VVec [VInt 3; VRat (1 # 2); VInt 3; VChar 97])%Z = Ok (VVec (map VInt [3; 1; 2; 4])%Z).
Proof. split; reflexivity. Qed.

(* Selection, expansion, where, iota, split. *)
From Verif Require Import Value NumModel ArrModel ArrSpec ArrBase ArrRot ArrTake ArrCat.
From Coq Require Import Arith ZifyBool ZifyNat.
Open Scope nat_scope.

Lemma value_ind' (P : value -> Prop) :
  (forall z, P (VInt z)) -> (forall z, P (VChar z)) -> (forall z, P (VBig z)) -> (forall q, P (VRat q)) ->
  (forall a b, P a -> P b -> P (VCplx a b)) -> (forall l, Forall P l -> P (VVec l)) -> (forall s d, Forall P d -> P (VMat s d)) ->
  forall v, P v.
Proof.
  intros A B C D E F G. fix IH 1. intros v. case v.
  - exact A.
  - exact B.
  - exact C.
  - exact D.
  - intros a b. apply E; apply IH.
  - intros l. apply F. induction l; constructor; [apply IH|assumption].
  - intros s d. apply G. induction d; constructor; [apply IH|assumption].
Qed.
Lemma map_ext_Forall {A B} (f g : A -> B) l : Forall (fun x => f x = g x) l -> map f l = map g l.
Proof. induction 1; simpl; auto. f_equal; auto. Qed.
Lemma all_zeros_zeroed v : all_zeros v = zeroed v.
Proof. induction v using value_ind'; simpl; auto; f_equal; apply map_ext_Forall; auto. Qed.
Lemma sel_one_copies k x : sel_one k x = copies k x.
Proof. unfold sel_one, copies. rewrite all_zeros_zeroed. destruct (Z.ltb_spec k 0); f_equal; lia. Qed.

Lemma nth_map_int ks i : i < length ks -> nth i (map VInt ks) dflt = VInt (nth i ks 0%Z).
Proof. intros H. change dflt with (VInt 0). apply map_nth. Qed.
(* the pieces made from the positions of a list of rows *)
Lemma vec_sel_ok l ks n : ks <> [] -> (length ks = 1 \/ length ks = n) ->
  vec_sel l (map VInt ks) n = Ok (concat (map (fun i => copies (nth (i mod length ks) ks 0%Z) (nth i l dflt)) (seq 0 (length l)))).
Proof.
  intros K0 H. unfold vec_sel. rewrite map_length.
  destruct (negb (length ks =? 1) && negb (length ks =? n)) eqn:E; [lia|].
  rewrite mapM_ok with (g := fun i => copies (nth (i mod length ks) ks 0%Z) (nth i l dflt)); [reflexivity|].
  intros i I. apply in_seq in I. assert (length ks <> 0) by (destruct ks; simpl; congruence).
  rewrite at_nth by (rewrite map_length; apply Nat.mod_upper_bound; auto).
  rewrite nth_map_int by (apply Nat.mod_upper_bound; auto). cbn [bind as_int].
  rewrite at_nth by lia. cbn [bind]. rewrite sel_one_copies. reflexivity.
Qed.
Lemma selected_map ks : forall xs, length ks = length xs ->
  selected ks xs = concat (map (fun i => copies (nth i ks 0%Z) (nth i xs dflt)) (seq 0 (length xs))).
Proof.
  induction ks as [|k ks IH]; intros [|x xs] L; simpl in L; try lia; auto.
  cbn [selected length seq map concat nth]. f_equal. rewrite IH by lia. rewrite <-seq_shift, map_map. reflexivity.
Qed.
Lemma counts_len ks n : length ks = 1 \/ length ks = n -> length (counts ks n) = n.
Proof. intros H. unfold counts. destruct ks as [|k [|]]; simpl in *; auto; try lia. apply repeat_length. Qed.
Lemma counts_nth ks n i : length ks = 1 \/ length ks = n -> i < n -> nth i (counts ks n) 0%Z = nth (i mod length ks) ks 0%Z.
Proof.
  intros H I. unfold counts. destruct ks as [|k [|k2 ks]]; [destruct i; simpl in *; lia| |].
  - rewrite (nth_indep _ 0%Z k) by (rewrite repeat_length; auto). rewrite nth_repeat. cbn [length]. rewrite Nat.mod_1_r. reflexivity.
  - destruct H as [H|H]; [simpl in H; lia|]. rewrite Nat.mod_small by lia. reflexivity.
Qed.
Lemma vec_sel_vec l ks : ks <> [] -> length ks = 1 \/ length ks = length l ->
  vec_sel l (map VInt ks) (length l) = Ok (selected (counts ks (length l)) l).
Proof.
  intros K H. rewrite vec_sel_ok by auto. f_equal. rewrite selected_map by (apply counts_len; auto). f_equal.
  apply map_ext_in. intros i I. apply in_seq in I. rewrite counts_nth by (auto; lia). reflexivity.
Qed.
Lemma copies_len k x : length (copies k x) = Z.to_nat (Z.abs k).
Proof. apply repeat_length. Qed.
Lemma selected_len ks : forall xs, length ks = length xs -> length (selected ks xs) = total ks.
Proof. induction ks as [|k ks IH]; intros [|x xs] L; simpl in *; try lia. rewrite app_length, copies_len, IH by lia. reflexivity. Qed.
Lemma concat_seq_rows {A} (f : nat -> list A) m n : concat (map f (seq 0 (m * n))) = concat (map (fun r => concat (map (fun j => f (r * n + j)) (seq 0 n))) (seq 0 m)).
Proof.
  induction m as [|m IH]; auto. rewrite (seq_S m 0), map_app, concat_app, <-IH. replace (S m * n) with (m * n + n) by lia.
  rewrite seq_app, map_app, concat_app. f_equal. cbn [map concat plus]. rewrite app_nil_r. rewrite (map_seq_shift f (m * n)). reflexivity.
Qed.
Lemma concat_nth_rows {A} (f : nat -> list A) m t : (forall r, r < m -> length (f r) = t) ->
  length (concat (map f (seq 0 m))) = m * t /\
  forall r j, r < m -> j < t -> nth_error (concat (map f (seq 0 m))) (r * t + j) = nth_error (f r) j.
Proof.
  induction m as [|m IH]; intros H; [split; auto; lia|]. rewrite (seq_S m 0), map_app, concat_app. cbn [plus map concat]. rewrite app_nil_r.
  destruct IH as [L N]; [intros; apply H; lia|]. split; [rewrite app_length, L, H by lia; lia|].
  intros r j R J. destruct (Nat.eq_dec r m) as [->|E].
  - rewrite nth_error_app2 by lia. f_equal. lia.
  - rewrite nth_error_app1 by nia. apply N; lia.
Qed.
Lemma row_len v n c : length (row v n c) = n.
Proof. unfold row. rewrite map_length, seq_length. reflexivity. Qed.
Lemma row_eq v s n c : shape_of v = s ++ [n] -> length (data_of v) = vol (s ++ [n]) -> inb s c ->
  row v n c = map (fun j => nth (ravel s c * n + j) (data_of v) dflt) (seq 0 n).
Proof.
  intros S L I. unfold row. apply map_ext_in. intros j J. apply in_seq in J. unfold elem. rewrite S, ravel_snoc by (apply inb_len; auto).
  rewrite (nth_error_nth' _ dflt); auto. rewrite L, vol_snoc. pose proof (ravel_lt _ _ I). nia.
Qed.
Lemma selected_row ks n (f : nat -> value) : length ks = 1 \/ length ks = n ->
  selected (counts ks n) (map f (seq 0 n)) = concat (map (fun j => copies (nth (j mod length ks) ks 0%Z) (f j)) (seq 0 n)).
Proof.
  intros H. rewrite selected_map by (rewrite map_length, seq_length; apply counts_len; auto). rewrite map_length, seq_length. f_equal.
  apply map_ext_in. intros j J. apply in_seq in J. rewrite counts_nth by (auto; lia). rewrite nth_map_seq by lia. reflexivity.
Qed.
Lemma op_sel_ok u v ks s n : int_list u ks -> wf v -> shape_of v = s ++ [n] -> length ks = 1 \/ length ks = n -> ks <> [] -> vol s <> 0 ->
  gives_array (op_sel u v) (s ++ [total (counts ks n)])
    (fun c => nth_error (selected (counts ks n) (row v n (removelast c))) (last c 0)).
Proof.
  intros Hu W S HK KN HV. pose proof (rank_snoc _ _ _ S) as R.
  destruct (to_mat_arr v W ltac:(lia)) as (TM & LD & _). rewrite S in *.
  unfold op_sel, at_least_vector. destruct (is_mat u || is_mat v) eqn:E.
  - rewrite (int_list_mat u _ Hu), TM. unfold mat_sel. cbn [fst snd].
    rewrite (match_nonnil (s ++ [n])) by apply snoc_nonnil. rewrite last_snoc, init_snoc, size_vol.
    rewrite vec_sel_ok by auto. cbn [bind]. destruct (Nat.eqb_spec (vol s) 0); [congruence|].
    rewrite LD, vol_snoc, concat_seq_rows.
    assert (length ks <> 0) as L0 by (destruct ks; simpl; congruence).
    set (f := fun r => concat (map (fun j => copies (nth ((r * n + j) mod length ks) ks 0%Z) (nth (r * n + j) (data_of v) dflt)) (seq 0 n))).
    assert (forall c, inb s c -> f (ravel s c) = selected (counts ks n) (row v n c)) as FR.
    { intros c I. rewrite (row_eq v s n c) by auto. rewrite selected_row by auto. unfold f. f_equal. apply map_ext_in. intros j J. apply in_seq in J.
      f_equal. f_equal. destruct HK as [K|K]; rewrite K; [rewrite !Nat.mod_1_r; auto|]. rewrite dm_mod, Nat.mod_small by lia. auto. }
    destruct (concat_nth_rows f (vol s) (total (counts ks n))) as [LC NC].
    { intros r Hr. rewrite <-(ravel_unravel s r Hr), FR by (apply unravel_inb; auto). apply selected_len. rewrite counts_len, row_len; auto. }
    rewrite LC, Nat.mul_comm, Nat.div_mul by auto.
    apply new_matrix_array; [apply snoc_nonnil|rewrite vol_snoc; auto|].
    intros c I. destruct (inb_snoc _ _ _ I) as (c' & j & -> & I' & J). rewrite ravel_snoc by (apply inb_len; auto).
    rewrite NC by (auto; apply ravel_lt; auto). rewrite FR, removelast_last, last_last by auto. reflexivity.
  - apply orb_false_iff in E. destruct E as [Eu Ev]. rewrite (int_list_vec u _ Hu Eu). cbn [bind].
    destruct (to_vec_arr v Ev ltac:(lia)) as [l ->]. cbn [shape_of data_of] in *. destruct s as [|? [|? ?]]; simpl in S; try discriminate.
    injection S as <-. cbn [to_vec bind]. rewrite vec_sel_vec by auto. cbn [bind app].
    assert (row (VVec l) (length l) [] = l) as RL.
    { rewrite (row_eq (VVec l) [] (length l) []); auto; [|constructor]. cbn [ravel data_of mult plus]. apply (map_nth_seq l dflt (length l)). auto. }
    apply vec_array.
    + rewrite selected_len; auto. apply counts_len; auto.
    + intros i I. cbn [removelast last]. rewrite RL. reflexivity.
Qed.

(* ---- fill ---- *)
Lemma fill_counts_ok ks : fill_counts (map VInt ks) = Ok (fill_len ks, npos ks).
Proof.
  induction ks as [|k ks IH]; auto. cbn [map fill_counts]. rewrite IH. cbn [bind fst snd]. unfold npos, fill_len. cbn [filter fold_right].
  destruct (0 <? k)%Z; reflexivity.
Qed.
Lemma fill_loop_ok z xs ks : forall jx, npos ks + jx = length xs -> fill_loop (map VInt ks) xs jx z = Ok (filled z ks (skipn jx xs)).
Proof.
  induction ks as [|k ks IH]; intros jx H; auto. cbn [map fill_loop filled].
  unfold npos in H. cbn [filter] in H. destruct (Z.ltb_spec 0 k) as [P|P].
  - destruct (Z.eqb_spec k 0); [lia|]. destruct (Z.ltb_spec k 0); [lia|]. cbn [length] in H. fold (npos ks) in H.
    rewrite at_nth by lia. cbn [bind]. rewrite (IH (S jx)) by lia. cbn [bind].
    assert (skipn jx xs = nth jx xs dflt :: skipn (S jx) xs) as ->; [|reflexivity].
    assert (jx < length xs) as J by lia. clear -J. revert jx J. induction xs as [|x xs IHx]; intros [|jx] J; simpl in *; try lia; auto.
    rewrite IHx by lia. destruct xs; reflexivity.
  - fold (npos ks) in H. destruct (Z.eqb_spec k 0) as [E|E]; [rewrite IH by auto; reflexivity|].
    destruct (Z.ltb_spec k 0); [|lia]. rewrite IH by auto. reflexivity.
Qed.
Lemma op_fill_ok u l ks : int_vector u ks -> npos ks = length l -> (fill_len ks <= 10 ^ 8)%Z ->
  op_fill u (VVec l) = Ok (VVec (filled (blank_for l) ks l)).
Proof.
  intros Hu N F. unfold op_fill, at_least_vector. assert (is_mat u = false) as -> by (destruct Hu as [->|(z & -> & ->)]; auto).
  cbn [is_mat orb]. rewrite (int_vector_vec _ _ Hu). cbn [bind to_vec]. unfold vec_fill.
  destruct ks as [|k ks]; [reflexivity|]. change (map VInt (k :: ks)) with (VInt k :: map VInt ks) at 1.
  rewrite fill_counts_ok. cbn [bind fst snd]. rewrite N, Nat.eqb_refl. cbn [negb].
  destruct (Z.ltb_spec (10 ^ 8) (fill_len (k :: ks))); [lia|].
  rewrite fill_loop_ok by lia. reflexivity.
Qed.
Lemma op_fill_bad u l ks : int_vector u ks -> ks <> [] -> npos ks <> length l \/ (10 ^ 8 < fill_len ks)%Z -> op_fill u (VVec l) = Err.
Proof.
  intros Hu K N. unfold op_fill, at_least_vector. assert (is_mat u = false) as -> by (destruct Hu as [->|(z & -> & ->)]; auto).
  cbn [is_mat orb]. rewrite (int_vector_vec _ _ Hu). cbn [bind to_vec]. unfold vec_fill.
  destruct ks as [|k ks]; [congruence|]. change (map VInt (k :: ks)) with (VInt k :: map VInt ks) at 1.
  rewrite fill_counts_ok. cbn [bind fst snd]. destruct (Nat.eqb_spec (npos (k :: ks)) (length l)); auto. cbn [negb].
  destruct (Z.ltb_spec (10 ^ 8) (fill_len (k :: ks))); auto. lia.
Qed.

(* ---- iota, where ---- *)
Lemma coord_value_vec c k : coord_value c k = coord_vec (origin c) k.
Proof. unfold coord_value, coord_vec, ints. rewrite map_map. reflexivity. Qed.
Lemma op_iota1_int c n : (Z.of_nat n <= maxInt)%Z ->
  is_array (op_iota1 c (VInt (Z.of_nat n))) [n] (fun k => Some (VInt (origin c + Z.of_nat (hd 0 k)))).
Proof.
  intros H. apply array_legal; [apply legal_short; auto|]. cbn [op_iota1]. unfold new_iota.
  destruct (Z.ltb_spec (Z.of_nat n) 0); [lia|]. destruct (Z.ltb_spec maxInt (Z.of_nat n)); [lia|]. cbn [orb]. rewrite Nat2Z.id.
  apply vec_array; [rewrite map_length, seq_length; auto|]. rewrite map_length, seq_length. intros i I.
  rewrite nth_error_map_seq by auto. reflexivity.
Qed.
Lemma op_iota1_shape c s : 2 <= length s ->
  (fits s -> is_array (op_iota1 c (int_vec s)) s (fun k => Some (coord_vec (origin c) k))) /\
  (~ fits s -> op_iota1 c (int_vec s) = Err).
Proof.
  intros H. assert (op_iota1 c (int_vec s) = let! t := shape_of_vec 1 (zs_of s) in
      new_matrix t (map (coord_value c) (odo_run (size t) t (repeat 0 (length t))))) as ->.
  { destruct s as [|a [|b s]]; simpl in H; try lia. reflexivity. }
  assert (forall k, (1 * Z.of_nat k)%Z = Z.of_nat k) as ONE by lia.
  destruct (shape_of_vec_ok s 1 ltac:(lia)) as [(F & P & ->)|(N & ->)].
  2: { split; auto. intros [F P]. exfalso. apply N. split; auto. intros k Hk. rewrite ONE. auto. }
  split; [|intros N; exfalso; apply N; split; auto; intros k Hk; specialize (P k Hk); rewrite ONE in P; auto].
  intros FT. cbn [bind]. rewrite size_vol, odo_run_all, map_map. apply array_legal; [apply fits_legal; auto|].
  apply new_matrix_build; [destruct s; simpl in *; [lia|discriminate]|]. intros k I. rewrite unravel_ravel, coord_value_vec by auto. reflexivity.
Qed.
Lemma nth_map_nat ns : forall i, i < length ns -> nth i (map (fun n => VInt (Z.of_nat n)) ns) dflt = VInt (Z.of_nat (nth i ns 0)).
Proof. induction ns as [|n ns IH]; intros [|i] H; simpl in H; try lia; auto. apply IH; lia. Qed.
Lemma op_where_vec c ns : op_where c (VVec (map (fun n => VInt (Z.of_nat n)) ns)) =
  Ok (VVec (concat (map (fun i => repeat (VInt (origin c + Z.of_nat i)) (nth i ns 0)) (seq 0 (length ns))))).
Proof.
  cbn [op_where]. rewrite map_length.
  rewrite mapM_ok with (g := fun i => repeat (VInt (origin c + Z.of_nat i)) (nth i ns 0)); [reflexivity|].
  intros i I. apply in_seq in I. rewrite at_nth by (rewrite map_length; lia). cbn [bind].
  rewrite nth_map_nat by lia. cbn [as_uint].
  destruct (Z.ltb_spec (Z.of_nat (nth i ns 0)) 0); [lia|]. cbn [bind]. rewrite Nat2Z.id. reflexivity.
Qed.
Lemma combine_map_seq {A} (l : list A) (g : nat -> list nat) (d : A) : combine l (map g (seq 0 (length l))) = map (fun i => (nth i l d, g i)) (seq 0 (length l)).
Proof.
  revert g. induction l as [|x l IH]; intros g; auto. cbn [length seq map combine nth]. f_equal.
  rewrite <-!seq_shift, !map_map. rewrite (IH (fun i => g (S i))). reflexivity.
Qed.
Lemma op_where_mat c s ns : s <> [] -> length ns = vol s ->
  op_where c (VMat s (map (fun n => VInt (Z.of_nat n)) ns)) =
  Ok (VVec (concat (map (fun i => repeat (coord_vec (origin c) (unravel s i)) (nth i ns 0)) (seq 0 (vol s))))).
Proof.
  intros Hs L. cbn [op_where]. rewrite map_length, L, odo_run_all. rewrite <-L.
  replace (length ns) with (length (map (fun n => VInt (Z.of_nat n)) ns)) at 1 by apply map_length.
  rewrite (combine_map_seq _ (unravel s) dflt), mapM_map, map_length.
  rewrite mapM_ok with (g := fun i => repeat (coord_vec (origin c) (unravel s i)) (nth i ns 0)); [reflexivity|].
  intros i I. apply in_seq in I. cbn [fst snd].
  rewrite nth_map_nat by lia. cbn [as_uint].
  destruct (Z.ltb_spec (Z.of_nat (nth i ns 0)) 0); [lia|]. cbn [bind]. rewrite Nat2Z.id, coord_value_vec. reflexivity.
Qed.
(* a count that is not a non-negative integer is an error *)
Lemma mapM_err {A B} (f : A -> res B) l x : (forall y, In y l -> f y <> Crash /\ f y <> Unmod) -> In x l -> f x = Err -> mapM f l = Err.
Proof.
  induction l as [|y l IH]; intros H I E; [destruct I|]. simpl. destruct (H y (or_introl eq_refl)) as [H1 H2].
  destruct (f y) eqn:Fy; simpl; auto; try congruence. destruct I as [->|I]; [congruence|]. rewrite IH; auto. intros; apply H; right; auto.
Qed.

(* ---- split ---- *)
Lemma mat_split_ok s n d : s <> [] -> length d = vol (s ++ [n]) -> legal (s ++ [n]) ->
  is_array (mat_split (s ++ [n]) d) s (fun c => Some (VVec (row (VMat (s ++ [n]) d) n c))).
Proof.
  intros Hs L LG. assert (legal s) as LS.
  { intros k Hk. specialize (LG k ltac:(rewrite snoc_len; lia)). rewrite firstn_app in LG.
    replace (k - length s) with 0 in LG by lia. simpl in LG. rewrite app_nil_r in LG. auto. }
  assert (mat_split (s ++ [n]) d = let! rows := mapM (fun i => let! r := build n (fun k => at_ d (i * n + k)) in Ok (VVec r)) (seq 0 (vol s)) in
      let! m := new_matrix s rows in Ok (shrink_mat m)) as ->.
  { unfold mat_split. rewrite last_snoc, init_snoc. destruct s as [|a [|b s]]; [congruence| |]; reflexivity. }
  rewrite mapM_ok with (g := fun i => VVec (map (fun k => nth (i * n + k) d dflt) (seq 0 n))).
  2: { intros i I. apply in_seq in I. rewrite (build_ok n _ (fun k => nth (i * n + k) d dflt)); auto.
       intros k K. apply at_nth. rewrite L, vol_snoc. nia. }
  cbn [bind]. destruct (new_matrix_build s (fun i => VVec (map (fun k => nth (i * n + k) d dflt) (seq 0 n)))
     (fun c => Some (VVec (row (VMat (s ++ [n]) d) n c))) Hs) as [[_ G]|[N _]]; [|  |tauto].
  { intros c I. rewrite (row_eq (VMat (s ++ [n]) d) s n c) by auto. reflexivity. }
  destruct G as (v & -> & W & S & E). cbn [bind].
  destruct v; simpl in S; subst; try congruence; [exists (VVec l); auto|].
  destruct s as [|a [|b s]]; [congruence| |exists (VMat (a :: b :: s) data); auto].
  exists (VVec data). split; auto. split; [exact I|]. destruct W as (_ & LD & _). simpl in LD. simpl. split; [f_equal; lia|].
  intros c J. destruct (E c J) as [E1 E2]. unfold elem in *. simpl in *. destruct c; auto.
Qed.
Lemma vec_sel_bad l ks n : length ks <> 1 -> length ks <> n -> vec_sel l (map VInt ks) n = Err.
Proof. intros A B. unfold vec_sel. rewrite map_length. destruct (Nat.eqb_spec (length ks) 1), (Nat.eqb_spec (length ks) n); try lia. reflexivity. Qed.
Lemma op_sel_bad u v ks s n : int_list u ks -> wf v -> shape_of v = s ++ [n] -> length ks <> 1 -> length ks <> n -> op_sel u v = Err.
Proof.
  intros Hu W S A B. pose proof (rank_snoc _ _ _ S) as R. destruct (to_mat_arr v W ltac:(lia)) as (TM & LD & _). rewrite S in *.
  unfold op_sel, at_least_vector. destruct (is_mat u || is_mat v) eqn:E.
  - rewrite (int_list_mat u _ Hu), TM. unfold mat_sel. cbn [fst snd].
    rewrite (match_nonnil (s ++ [n])) by apply snoc_nonnil. rewrite last_snoc. rewrite vec_sel_bad by auto. reflexivity.
  - apply orb_false_iff in E. destruct E as [Eu Ev]. rewrite (int_list_vec u _ Hu Eu). cbn [bind].
    destruct (to_vec_arr v Ev ltac:(lia)) as [l ->]. cbn [shape_of data_of] in *. destruct s as [|? [|? ?]]; simpl in S; try discriminate.
    injection S as <-. cbn [to_vec bind]. rewrite vec_sel_bad by auto. reflexivity.
Qed.

(* Catenation. *)
From Verif Require Import Value NumModel ArrModel ArrSpec ArrBase ArrRot ArrTake.
From Coq Require Import Arith ZifyBool ZifyNat.
Open Scope nat_scope.

Definition cat_cell (dx dy : list value) nL aL aR (i k : nat) : value :=
  if k <? nL then nth (i * aL + k) dx dflt else nth (i * aR + (k - nL)) dy dflt.
Lemma copy_elems_ok dx dy nrows nL aL nR aR :
  (forall i k, i < nrows -> k < nL -> i * aL + k < length dx) ->
  (forall i k, i < nrows -> k < nR -> i * aR + k < length dy) ->
  copy_elems dx dy nrows nL aL nR aR =
    Ok (map (fun p => cat_cell dx dy nL aL aR (p / (nL + nR)) (p mod (nL + nR))) (seq 0 (nrows * (nL + nR)))).
Proof.
  intros BL BR. unfold copy_elems.
  rewrite mapM_ok with (g := fun i => map (cat_cell dx dy nL aL aR i) (seq 0 (nL + nR))).
  { cbn [bind]. rewrite concat_rows. reflexivity. }
  intros i I. apply in_seq in I.
  rewrite (build_ok nL _ (fun k => nth (i * aL + k) dx dflt)) by (intros; apply at_nth; apply BL; lia). cbn [bind].
  rewrite (build_ok nR _ (fun k => nth (i * aR + k) dy dflt)) by (intros; apply at_nth; apply BR; lia). cbn [bind].
  f_equal. rewrite seq_app, map_app. f_equal.
  - apply map_ext_in. intros k K. apply in_seq in K. unfold cat_cell. destruct (Nat.ltb_spec k nL); [reflexivity|lia].
  - cbn [plus]. rewrite (map_seq_shift _ nL). apply map_ext_in. intros k K. unfold cat_cell.
    destruct (Nat.ltb_spec (nL + k) nL); [lia|]. f_equal. lia.
Qed.
(* The general catenation along the last axis. *)
Lemma cat_array dx dy s nL aL nR aR f :
  (forall i k, i < vol s -> k < nL -> i * aL + k < length dx) ->
  (forall i k, i < vol s -> k < nR -> i * aR + k < length dy) ->
  (forall c j, inb s c -> j < nL + nR -> f (c ++ [j]) =
     if j <? nL then nth_error dx (ravel s c * aL + j) else nth_error dy (ravel s c * aR + (j - nL))) ->
  gives_array (let! r := copy_elems dx dy (vol s) nL aL nR aR in new_matrix (s ++ [nL + nR]) r) (s ++ [nL + nR]) f.
Proof.
  intros BL BR F. rewrite copy_elems_ok by auto. cbn [bind]. rewrite <-vol_snoc.
  apply new_matrix_build; [apply snoc_nonnil|]. intros c I. destruct (inb_snoc _ _ _ I) as (c' & j & -> & I' & J).
  rewrite F by auto. rewrite ravel_snoc by (apply inb_len; auto). rewrite dm_div, dm_mod by auto.
  unfold cat_cell. pose proof (ravel_lt _ _ I'). destruct (Nat.ltb_spec j nL); apply nth_error_nth'; [apply BL|apply BR]; auto; lia.
Qed.
Lemma shape_eqb_refl s : shape_eqb s s = true.
Proof. unfold shape_eqb. destruct (list_eq_dec Nat.eq_dec s s); congruence. Qed.
Lemma shape_eqb_neq s t : s <> t -> shape_eqb s t = false.
Proof. unfold shape_eqb. destruct (list_eq_dec Nat.eq_dec s t); congruence. Qed.
Lemma bump_snoc s n k : bump_last (s ++ [n]) k = s ++ [n + k].
Proof. unfold bump_last. rewrite init_snoc, last_snoc. reflexivity. Qed.
Lemma snoc_len {A} (s : list A) n : length (s ++ [n]) = S (length s).
Proof. rewrite app_length. simpl. lia. Qed.
Lemma eqbS0 n : (S n =? 0) = false. Proof. reflexivity. Qed.
Lemma eqb_S n : (S n =? n) = false. Proof. apply Nat.eqb_neq. lia. Qed.
Lemma eqb_S' n : (n =? S n) = false. Proof. apply Nat.eqb_neq. lia. Qed.
Lemma mul_lt_bound i n k : forall m, i < m -> k < n -> i * n + k < m * n.
Proof. intros m A B. nia. Qed.

Lemma cat_ll s a b dx dy : length dx = vol (s ++ [a]) -> length dy = vol (s ++ [b]) ->
  gives_array (mat_catenate (s ++ [a], dx) (s ++ [b], dy)) (s ++ [a + b])
    (fun c => if last c 0 <? a then nth_error dx (ravel (s ++ [a]) c) else nth_error dy (ravel (s ++ [b]) (on_last (fun j => j - a) c))).
Proof.
  intros LX LY. rewrite vol_snoc in LX, LY. unfold mat_catenate. rewrite !snoc_len, !init_snoc, !last_snoc, !bump_snoc.
  rewrite ?eqbS0. cbn [orb]. rewrite !Nat.eqb_refl, shape_eqb_refl. cbn [andb].
  apply cat_array.
  - intros; rewrite LX; apply mul_lt_bound; auto.
  - intros; rewrite LY; apply mul_lt_bound; auto.
  - intros c j I J. rewrite last_last, on_last_snoc, !ravel_snoc by (apply inb_len; auto). reflexivity.
Qed.
Lemma cat_le s a dx dy : s <> [] -> vol s <> 0 -> length dx = vol (s ++ [a]) -> length dy = vol s ->
  gives_array (mat_catenate (s ++ [a], dx) (s, dy)) (s ++ [a + 1])
    (fun c => if last c 0 <? a then nth_error dx (ravel (s ++ [a]) c) else nth_error dy (ravel s (removelast c))).
Proof.
  intros Hs HV LX LY. rewrite vol_snoc in LX. unfold mat_catenate. rewrite !snoc_len, !init_snoc, !last_snoc, !bump_snoc.
  rewrite ?eqbS0. cbn [orb]. destruct (Nat.eqb_spec (length s) 0) as [E|E]; [destruct s; simpl in *; congruence|].
  rewrite eqb_S. cbn [andb]. rewrite Nat.eqb_refl, shape_eqb_refl. cbn [andb]. rewrite size_vol.
  destruct (Nat.eqb_spec (vol s) 0); [congruence|]. rewrite Nat.div_same by auto.
  apply cat_array.
  - intros; rewrite LX; apply mul_lt_bound; auto.
  - intros; rewrite LY. lia.
  - intros c j I J. rewrite last_last, removelast_last, !ravel_snoc by (apply inb_len; auto).
    destruct (Nat.ltb_spec j a); auto. f_equal. lia.
Qed.
Lemma cat_el s b dx dy : s <> [] -> vol s <> 0 -> length dx = vol s -> length dy = vol (s ++ [b]) ->
  gives_array (mat_catenate (s, dx) (s ++ [b], dy)) (s ++ [b + 1])
    (fun c => if last c 0 =? 0 then nth_error dx (ravel s (removelast c)) else nth_error dy (ravel (s ++ [b]) (on_last (fun j => j - 1) c))).
Proof.
  intros Hs HV LX LY. rewrite vol_snoc in LY. unfold mat_catenate. rewrite !snoc_len, !init_snoc, !last_snoc, !bump_snoc.
  rewrite ?eqbS0. cbn [orb]. destruct (Nat.eqb_spec (length s) 0) as [E|E]; [destruct s; simpl in *; congruence|].
  rewrite eqb_S'. cbn [orb andb]. destruct (Nat.eqb_spec (length s) (S (S (length s)))); [lia|]. cbn [andb].
  rewrite Nat.eqb_refl, shape_eqb_refl. cbn [andb]. rewrite size_vol.
  destruct (Nat.eqb_spec (vol s) 0); [congruence|]. rewrite Nat.div_same by auto.
  rewrite (Nat.add_comm b 1). apply cat_array.
  - intros; rewrite LX. lia.
  - intros; rewrite LY; apply mul_lt_bound; auto.
  - intros c j I J. rewrite last_last, removelast_last, on_last_snoc, !ravel_snoc by (apply inb_len; auto).
    destruct j; cbn [Nat.eqb Nat.ltb Nat.leb]; f_equal; lia.
Qed.
Lemma len1_snoc (s : list nat) n : s <> [] -> 1 < length (s ++ [n]).
Proof. intros H. rewrite snoc_len. destruct s; simpl; [congruence|lia]. Qed.
(* scalar extension *)
Lemma cat_ls s a dx y : s <> [] -> length dx = vol (s ++ [a]) -> vol s <> 0 ->
  gives_array (mat_catenate (s ++ [a], dx) ([1], [y])) (s ++ [a + 1])
    (fun c => if last c 0 <? a then nth_error dx (ravel (s ++ [a]) c) else Some y).
Proof.
  intros Hs LX HV. destruct (list_eq_dec Nat.eq_dec s [1]) as [->|N1].
  { destruct (cat_le [1] a dx [y]) as [[A B]|[A B]]; auto; [left|right; auto]. split; auto.
    eapply is_array_ext; [|exact B]. intros c I. cbn beta. destruct (last c 0 <? a) eqn:E; auto.
    destruct (inb_snoc _ _ _ I) as (c' & j & -> & I' & J). rewrite removelast_last. destruct (inb1 _ _ I') as (i & -> & Hi).
    assert (i = 0) by lia. subst. reflexivity. }
  rewrite vol_snoc in LX. unfold mat_catenate. rewrite !snoc_len, !init_snoc, !last_snoc, !bump_snoc.
  cbn [length]. rewrite ?eqbS0. cbn [orb]. assert (length s <> 0) by (destruct s; simpl in *; congruence).
  destruct (Nat.eqb_spec (S (length s)) 1); [lia|]. cbn [andb].
  rewrite (shape_eqb_neq s [1]), andb_false_r by auto.
  rewrite (shape_eqb_neq (s ++ [a]) (init_ [1])), andb_false_r by (intros E; apply (f_equal (@length nat)) in E; rewrite snoc_len in E; simpl in E; lia).
  rewrite (shape_eqb_neq (s ++ [a]) [1]) by (intros E; apply (f_equal (@length nat)) in E; rewrite snoc_len in E; simpl in E; lia).
  cbn [andb]. destruct (Nat.ltb_spec 1 (S (length s))); [|lia]. rewrite shape_eqb_refl. cbn [andb]. rewrite size_vol.
  apply cat_array.
  - intros; rewrite LX; apply mul_lt_bound; auto.
  - simpl; intros. lia.
  - intros c j I J. rewrite last_last, !ravel_snoc by (apply inb_len; auto).
    destruct (Nat.ltb_spec j a); auto. replace (ravel s c * 0 + (j - a)) with 0 by lia. reflexivity.
Qed.
Lemma cat_sl s b x dy : s <> [] -> length dy = vol (s ++ [b]) -> vol s <> 0 ->
  gives_array (mat_catenate ([1], [x]) (s ++ [b], dy)) (s ++ [b + 1])
    (fun c => if last c 0 =? 0 then Some x else nth_error dy (ravel (s ++ [b]) (on_last (fun j => j - 1) c))).
Proof.
  intros Hs LY HV. destruct (list_eq_dec Nat.eq_dec s [1]) as [->|N1].
  { destruct (cat_el [1] b [x] dy) as [[A B]|[A B]]; auto; [left|right; auto]. split; auto.
    eapply is_array_ext; [|exact B]. intros c I. cbn beta. destruct (last c 0 =? 0) eqn:E; auto.
    destruct (inb_snoc _ _ _ I) as (c' & j & -> & I' & J). rewrite removelast_last. destruct (inb1 _ _ I') as (i & -> & Hi).
    assert (i = 0) by lia. subst. reflexivity. }
  rewrite vol_snoc in LY. unfold mat_catenate. rewrite !snoc_len, !init_snoc, !last_snoc, !bump_snoc.
  cbn [length]. rewrite ?eqbS0. cbn [orb]. assert (length s <> 0) by (destruct s; simpl in *; congruence).
  destruct (length s) as [|n] eqn:Ls; [congruence|]. cbn [andb Nat.eqb].
  rewrite (shape_eqb_neq [1] s), andb_false_r by congruence.
  destruct (Nat.ltb_spec 1 (S (S n))); [|lia]. rewrite shape_eqb_refl. cbn [andb]. rewrite size_vol.
  rewrite (Nat.add_comm b 1). apply cat_array.
  - simpl; intros; lia.
  - intros; rewrite LY; apply mul_lt_bound; auto.
  - intros c j I J. rewrite last_last, on_last_snoc, !ravel_snoc by (rewrite ?Ls; apply inb_len in I; lia).
    destruct j; cbn [Nat.eqb Nat.ltb Nat.leb]; [rewrite Nat.mul_0_r; reflexivity|f_equal; lia].
Qed.

Lemma op_cat_mat x y : is_mat x || is_mat y = true -> op_cat x y = mat_catenate (to_mat x) (to_mat y).
Proof. intros H. unfold op_cat, at_least_vector. rewrite H. reflexivity. Qed.
Lemma mat_of_rank v : wf v -> 2 <= rank_of v -> is_mat v = true.
Proof. destruct v; unfold rank_of; simpl; auto; lia. Qed.
Lemma rank_snoc v s a : shape_of v = s ++ [a] -> rank_of v = S (length s).
Proof. unfold rank_of. intros ->. apply snoc_len. Qed.
Ltac mats := repeat match goal with
  | W : wf ?v, R : rank_of ?v <> 0 |- _ => destruct (to_mat_arr v W R) as (?TM & ?LD & ?LG); clear R end.
Lemma op_cat_ll x y s a b : wf x -> wf y -> shape_of x = s ++ [a] -> shape_of y = s ++ [b] ->
  gives_array (op_cat x y) (s ++ [a + b]) (fun c => if last c 0 <? a then elem x c else elem y (on_last (fun j => j - a) c)).
Proof.
  intros Wx Wy Sx Sy. pose proof (rank_snoc _ _ _ Sx) as Rx. pose proof (rank_snoc _ _ _ Sy) as Ry.
  destruct (to_mat_arr x Wx ltac:(lia)) as (TX & LX & _). destruct (to_mat_arr y Wy ltac:(lia)) as (TY & LY & _).
  unfold elem. rewrite Sx, Sy in *.
  destruct (is_mat x || is_mat y) eqn:E.
  - rewrite op_cat_mat, TX, TY by auto. apply cat_ll; auto.
  - apply orb_false_iff in E. destruct E as [Ex Ey].
    destruct (to_vec_arr x Ex ltac:(lia)) as [l ->]. destruct (to_vec_arr y Ey ltac:(lia)) as [k ->].
    cbn [shape_of data_of] in *. destruct s as [|? [|? ?]]; simpl in Sx, Sy; try discriminate. injection Sx as <-. injection Sy as <-.
    change (op_cat (VVec l) (VVec k)) with (Ok (VVec (l ++ k))). apply vec_array; [rewrite app_length; auto|]. rewrite app_length. intros i I.
    unfold on_last, on_first. cbn [app last hd removelast ravel vol]. rewrite !Nat.mul_1_r, !Nat.add_0_r. destruct (Nat.ltb_spec i (length l)).
    + rewrite nth_error_app1; auto.
    + rewrite nth_error_app2; auto.
Qed.
Lemma op_cat_le x y s a : wf x -> wf y -> shape_of x = s ++ [a] -> shape_of y = s -> s <> [] -> vol s <> 0 ->
  gives_array (op_cat x y) (s ++ [a + 1]) (fun c => if last c 0 <? a then elem x c else elem y (removelast c)).
Proof.
  intros Wx Wy Sx Sy Hs HV. pose proof (rank_snoc _ _ _ Sx) as Rx. assert (length s <> 0) as Ls by (destruct s; simpl; congruence).
  assert (rank_of y <> 0) as Ry by (unfold rank_of; rewrite Sy; auto).
  destruct (to_mat_arr x Wx ltac:(lia)) as (TX & LX & _). destruct (to_mat_arr y Wy Ry) as (TY & LY & _).
  rewrite op_cat_mat by (rewrite (mat_of_rank x) by (auto; lia); auto).
  unfold elem. rewrite TX, TY, Sx, Sy in *. apply cat_le; auto.
Qed.
Lemma op_cat_el x y s b : wf x -> wf y -> shape_of x = s -> shape_of y = s ++ [b] -> s <> [] -> vol s <> 0 ->
  gives_array (op_cat x y) (s ++ [b + 1]) (fun c => if last c 0 =? 0 then elem x (removelast c) else elem y (on_last (fun j => j - 1) c)).
Proof.
  intros Wx Wy Sx Sy Hs HV. pose proof (rank_snoc _ _ _ Sy) as Ry. assert (length s <> 0) as Ls by (destruct s; simpl; congruence).
  assert (rank_of x <> 0) as Rx by (unfold rank_of; rewrite Sx; auto).
  destruct (to_mat_arr x Wx Rx) as (TX & LX & _). destruct (to_mat_arr y Wy ltac:(lia)) as (TY & LY & _).
  rewrite op_cat_mat by (rewrite (mat_of_rank y) by (auto; lia); apply orb_true_r).
  unfold elem. rewrite TX, TY, Sx, Sy in *. apply cat_el; auto.
Qed.
Lemma op_cat_ls x y s a : wf x -> shape_of x = s ++ [a] -> s <> [] -> vol s <> 0 ->
  gives_array (op_cat x (VVec [y])) (s ++ [a + 1]) (fun c => if last c 0 <? a then elem x c else Some y).
Proof.
  intros Wx Sx Hs HV. pose proof (rank_snoc _ _ _ Sx) as Rx. assert (length s <> 0) as Ls by (destruct s; simpl; congruence).
  destruct (to_mat_arr x Wx ltac:(lia)) as (TX & LX & _).
  rewrite op_cat_mat by (rewrite (mat_of_rank x) by (auto; lia); auto).
  unfold elem. rewrite TX, Sx in *. apply cat_ls; auto.
Qed.
Lemma op_cat_sl x y s b : wf y -> shape_of y = s ++ [b] -> s <> [] -> vol s <> 0 ->
  gives_array (op_cat (VVec [x]) y) (s ++ [b + 1]) (fun c => if last c 0 =? 0 then Some x else elem y (on_last (fun j => j - 1) c)).
Proof.
  intros Wy Sy Hs HV. pose proof (rank_snoc _ _ _ Sy) as Ry. assert (length s <> 0) as Ls by (destruct s; simpl; congruence).
  destruct (to_mat_arr y Wy ltac:(lia)) as (TY & LY & _).
  rewrite op_cat_mat by (rewrite (mat_of_rank y) by (auto; lia); apply orb_true_r).
  unfold elem. rewrite TY, Sy in *. apply cat_sl; auto.
Qed.
(* A scalar other than a fraction or a complex number counts as a one-element vector. *)
Lemma as_list_mat v : (forall q, v <> VRat q) -> (forall a b, v <> VCplx a b) -> to_mat v = to_mat (as_list v) /\ is_mat v = is_mat (as_list v).
Proof. intros A B. destruct v; simpl; auto; [exfalso; eapply A; eauto|exfalso; eapply B; eauto]. Qed.
Lemma as_list_vec v : to_vec v = to_vec (as_list v) /\ is_mat v = is_mat (as_list v).
Proof. destruct v; simpl; auto. Qed.
Lemma alv_as_list fv fm x y :
  (is_mat y = true -> forall q a b, x <> VRat q /\ x <> VCplx a b) -> (is_mat x = true -> forall q a b, y <> VRat q /\ y <> VCplx a b) ->
  at_least_vector fv fm x y = at_least_vector fv fm (as_list x) (as_list y).
Proof.
  intros Hx Hy. unfold at_least_vector. destruct (as_list_vec x) as [-> Ix]. destruct (as_list_vec y) as [-> Iy].
  rewrite <-Ix, <-Iy. destruct (is_mat x || is_mat y) eqn:E; auto.
  assert (to_mat x = to_mat (as_list x)) as ->.
  { destruct (is_mat x) eqn:Ex; [destruct x; try discriminate; auto|]. specialize (Hx E). apply as_list_mat.
    - intros q. apply (Hx q x x). - intros a b. apply (Hx 0%Q a b). }
  assert (to_mat y = to_mat (as_list y)) as ->; auto.
  { destruct (is_mat y) eqn:Ey; [destruct y; try discriminate; auto|]. rewrite orb_false_r in E. specialize (Hy E). apply as_list_mat.
    - intros q. apply (Hy q y y). - intros a b. apply (Hy 0%Q a b). }
Qed.

(* ---- along the first axis ---- *)
Definition dec_first (k : nat) (c : list nat) : list nat := on_first (fun j => j - k) c.
Lemma cat1_app s x0 y0 dx dy f : length dx = vol (x0 :: s) -> length dy = vol (y0 :: s) ->
  (forall j c, inb s c -> j < x0 + y0 -> f (j :: c) =
     if j <? x0 then nth_error dx (ravel (x0 :: s) (j :: c)) else nth_error dy (ravel (y0 :: s) ((j - x0) :: c))) ->
  gives_array (new_matrix ((x0 + y0) :: s) (dx ++ dy)) ((x0 + y0) :: s) f.
Proof.
  intros LX LY F. cbn [vol] in LX, LY. apply new_matrix_array; [discriminate|rewrite app_length; cbn [vol]; lia|].
  intros [|j c] I; [inversion I|]. apply inb_cons in I. destruct I as [J I]. rewrite F by auto. cbn [ravel].
  pose proof (ravel_lt _ _ I). destruct (Nat.ltb_spec j x0).
  - rewrite nth_error_app1 by nia. reflexivity.
  - rewrite nth_error_app2 by nia. f_equal. rewrite LX. nia.
Qed.
Lemma cat1_ll s a b dx dy : length dx = vol (a :: s) -> length dy = vol (b :: s) ->
  gives_array (mat_catenate_first (a :: s, dx) (b :: s, dy)) ((a + b) :: s)
    (fun c => if hd 0 c <? a then nth_error dx (ravel (a :: s) c) else nth_error dy (ravel (b :: s) (dec_first a c))).
Proof.
  intros LX LY. unfold mat_catenate_first. cbn [length]. rewrite Nat.eqb_refl, shape_eqb_refl. cbn [andb bump_first].
  apply cat1_app; auto.
Qed.
Lemma cat1_le s a dx dy : s <> [] -> length dx = vol (a :: s) -> length dy = vol s ->
  gives_array (mat_catenate_first (a :: s, dx) (s, dy)) ((a + 1) :: s)
    (fun c => if hd 0 c <? a then nth_error dx (ravel (a :: s) c) else nth_error dy (ravel s (tl c))).
Proof.
  intros Hs LX LY. unfold mat_catenate_first. destruct s as [|s0 s'] eqn:Es; [congruence|]. rewrite <-Es in *.
  cbn [length]. rewrite eqb_S. cbn [andb]. rewrite Nat.eqb_refl, shape_eqb_refl. cbn [andb bump_first].
  apply cat1_app; auto; [cbn [vol]; lia|]. intros j c I J. cbn [hd tl ravel]. destruct (Nat.ltb_spec j a); auto. f_equal. nia.
Qed.
Lemma cat1_el s b dx dy : s <> [] -> length dx = vol s -> length dy = vol (b :: s) ->
  gives_array (mat_catenate_first (s, dx) (b :: s, dy)) ((b + 1) :: s)
    (fun c => if hd 0 c =? 0 then nth_error dx (ravel s (tl c)) else nth_error dy (ravel (b :: s) (dec_first 1 c))).
Proof.
  intros Hs LX LY. unfold mat_catenate_first. destruct s as [|s0 s'] eqn:Es; [congruence|]. rewrite <-Es in *.
  assert (length s <> 0) as Ls by (rewrite Es; simpl; lia).
  cbn [length]. rewrite eqb_S'. cbn [andb]. destruct (Nat.eqb_spec (length s) (S (S (length s)))); [lia|]. cbn [andb].
  rewrite Nat.eqb_refl, shape_eqb_refl. cbn [andb bump_first]. rewrite (Nat.add_comm b 1).
  apply cat1_app; auto; [cbn [vol]; lia|]. intros j c I J. cbn [hd tl]. unfold dec_first. cbn [on_first].
  destruct j; cbn [Nat.eqb Nat.ltb Nat.leb]; auto. 
Qed.
Lemma cat1_ls s a dx y : s <> [] -> length dx = vol (a :: s) ->
  gives_array (mat_catenate_first (a :: s, dx) ([1], [y])) ((a + 1) :: s)
    (fun c => if hd 0 c <? a then nth_error dx (ravel (a :: s) c) else Some y).
Proof.
  intros Hs LX. destruct (list_eq_dec Nat.eq_dec s [1]) as [->|N1].
  { destruct (cat1_le [1] a dx [y]) as [[A B]|[A B]]; auto; [left|right; auto]. split; auto.
    eapply is_array_ext; [|exact B]. intros c I. cbn beta. destruct (hd 0 c <? a) eqn:E; auto.
    destruct c as [|j c]; [inversion I|]. apply inb_cons in I. destruct I as [_ I]. destruct (inb1 _ _ I) as (i & -> & Hi).
    assert (i = 0) by lia. subst. reflexivity. }
  unfold mat_catenate_first. assert (length s <> 0) as Ls by (destruct s; simpl in *; congruence).
  destruct (length s) as [|n] eqn:Ln; [congruence|]. cbn [length]. rewrite Ln. cbn [Nat.eqb andb].
  rewrite (shape_eqb_neq s [1]), andb_false_r by auto. cbn [andb].
  rewrite (shape_eqb_neq (a :: s) [1]) by (destruct s; congruence). cbn [andb].
  destruct (Nat.ltb_spec 1 (S (S n))); [|lia]. rewrite shape_eqb_refl. cbn [andb bind at_ nth_error bump_first]. rewrite size_vol.
  apply cat1_app; auto; [rewrite repeat_length; cbn [vol]; lia|]. intros j c I J. cbn [hd].
  destruct (Nat.ltb_spec j a); auto. cbn [ravel]. replace (j - a) with 0 by lia. simpl.
  rewrite (nth_error_nth' _ y) by (rewrite repeat_length; apply ravel_lt; auto). rewrite nth_repeat. reflexivity.
Qed.
Lemma cat1_sl s b x dy : s <> [] -> length dy = vol (b :: s) ->
  gives_array (mat_catenate_first ([1], [x]) (b :: s, dy)) ((b + 1) :: s)
    (fun c => if hd 0 c =? 0 then Some x else nth_error dy (ravel (b :: s) (dec_first 1 c))).
Proof.
  intros Hs LY. destruct (list_eq_dec Nat.eq_dec s [1]) as [->|N1].
  { destruct (cat1_el [1] b [x] dy) as [[A B]|[A B]]; auto; [left|right; auto]. split; auto.
    eapply is_array_ext; [|exact B]. intros c I. cbn beta. destruct (hd 0 c =? 0) eqn:E; auto.
    destruct c as [|j c]; [inversion I|]. apply inb_cons in I. destruct I as [_ I]. destruct (inb1 _ _ I) as (i & -> & Hi).
    assert (i = 0) by lia. subst. reflexivity. }
  unfold mat_catenate_first. assert (length s <> 0) as Ls by (destruct s; simpl in *; congruence).
  destruct (length s) as [|n] eqn:Ln; [congruence|]. cbn [length]. rewrite Ln. cbn [Nat.eqb andb].
  rewrite (shape_eqb_neq [1] s), andb_false_r by congruence. cbn [andb].
  destruct (Nat.ltb_spec 1 (S (S n))); [|lia]. rewrite shape_eqb_refl. cbn [andb bind at_ nth_error bump_first]. rewrite size_vol.
  rewrite (Nat.add_comm b 1). apply cat1_app; auto; [rewrite repeat_length; cbn [vol]; lia|]. intros j c I J. cbn [hd].
  destruct j as [|j]; cbn [Nat.eqb Nat.ltb Nat.leb]; auto. cbn [ravel]. simpl.
  rewrite (nth_error_nth' _ x) by (rewrite repeat_length; apply ravel_lt; auto). rewrite nth_repeat. reflexivity.
Qed.
Lemma op_cat1_mat x y : is_mat x || is_mat y = true -> op_cat_first x y = mat_catenate_first (to_mat x) (to_mat y).
Proof. intros H. unfold op_cat_first, at_least_vector. rewrite H. reflexivity. Qed.
Lemma op_cat1_ll x y s a b : wf x -> wf y -> shape_of x = a :: s -> shape_of y = b :: s ->
  gives_array (op_cat_first x y) ((a + b) :: s) (fun c => if hd 0 c <? a then elem x c else elem y (on_first (fun j => j - a) c)).
Proof.
  intros Wx Wy Sx Sy.
  destruct (to_mat_arr x Wx ltac:(unfold rank_of; rewrite Sx; discriminate)) as (TX & LX & _).
  destruct (to_mat_arr y Wy ltac:(unfold rank_of; rewrite Sy; discriminate)) as (TY & LY & _).
  unfold elem. rewrite Sx, Sy in *.
  destruct (is_mat x || is_mat y) eqn:E.
  - rewrite op_cat1_mat, TX, TY by auto. apply cat1_ll; auto.
  - apply orb_false_iff in E. destruct E as [Ex Ey].
    destruct (to_vec_arr x Ex ltac:(unfold rank_of; rewrite Sx; discriminate)) as [l ->].
    destruct (to_vec_arr y Ey ltac:(unfold rank_of; rewrite Sy; discriminate)) as [k ->].
    cbn [shape_of data_of] in *. injection Sx as <- <-. injection Sy as <-.
    change (op_cat_first (VVec l) (VVec k)) with (Ok (VVec (l ++ k))). apply vec_array; [rewrite app_length; auto|]. rewrite app_length. intros i I.
    unfold on_last, on_first. cbn [app last hd removelast ravel vol]. rewrite !Nat.mul_1_r, !Nat.add_0_r. destruct (Nat.ltb_spec i (length l)).
    + rewrite nth_error_app1; auto.
    + rewrite nth_error_app2; auto.
Qed.
Lemma op_cat1_le x y s a : wf x -> wf y -> shape_of x = a :: s -> shape_of y = s -> s <> [] ->
  gives_array (op_cat_first x y) ((a + 1) :: s) (fun c => if hd 0 c <? a then elem x c else elem y (tl c)).
Proof.
  intros Wx Wy Sx Sy Hs. assert (length s <> 0) as Ls by (destruct s; simpl; congruence).
  destruct (to_mat_arr x Wx ltac:(unfold rank_of; rewrite Sx; discriminate)) as (TX & LX & _).
  destruct (to_mat_arr y Wy ltac:(unfold rank_of; rewrite Sy; auto)) as (TY & LY & _).
  rewrite op_cat1_mat by (rewrite (mat_of_rank x) by (auto; unfold rank_of; rewrite Sx; simpl; lia); auto).
  unfold elem. rewrite TX, TY, Sx, Sy in *. apply cat1_le; auto.
Qed.
Lemma op_cat1_el x y s b : wf x -> wf y -> shape_of x = s -> shape_of y = b :: s -> s <> [] ->
  gives_array (op_cat_first x y) ((b + 1) :: s) (fun c => if hd 0 c =? 0 then elem x (tl c) else elem y (on_first (fun j => j - 1) c)).
Proof.
  intros Wx Wy Sx Sy Hs. assert (length s <> 0) as Ls by (destruct s; simpl; congruence).
  destruct (to_mat_arr x Wx ltac:(unfold rank_of; rewrite Sx; auto)) as (TX & LX & _).
  destruct (to_mat_arr y Wy ltac:(unfold rank_of; rewrite Sy; discriminate)) as (TY & LY & _).
  rewrite op_cat1_mat by (rewrite (mat_of_rank y) by (auto; unfold rank_of; rewrite Sy; simpl; lia); apply orb_true_r).
  unfold elem. rewrite TX, TY, Sx, Sy in *. apply cat1_el; auto.
Qed.
Lemma op_cat1_ls x y s a : wf x -> shape_of x = a :: s -> s <> [] ->
  gives_array (op_cat_first x (VVec [y])) ((a + 1) :: s) (fun c => if hd 0 c <? a then elem x c else Some y).
Proof.
  intros Wx Sx Hs. assert (length s <> 0) as Ls by (destruct s; simpl; congruence).
  destruct (to_mat_arr x Wx ltac:(unfold rank_of; rewrite Sx; discriminate)) as (TX & LX & _).
  rewrite op_cat1_mat by (rewrite (mat_of_rank x) by (auto; unfold rank_of; rewrite Sx; simpl; lia); auto).
  unfold elem. rewrite TX, Sx in *. apply cat1_ls; auto.
Qed.
Lemma op_cat1_sl x y s b : wf y -> shape_of y = b :: s -> s <> [] ->
  gives_array (op_cat_first (VVec [x]) y) ((b + 1) :: s) (fun c => if hd 0 c =? 0 then Some x else elem y (on_first (fun j => j - 1) c)).
Proof.
  intros Wy Sy Hs. assert (length s <> 0) as Ls by (destruct s; simpl; congruence).
  destruct (to_mat_arr y Wy ltac:(unfold rank_of; rewrite Sy; discriminate)) as (TY & LY & _).
  rewrite op_cat1_mat by (rewrite (mat_of_rank y) by (auto; unfold rank_of; rewrite Sy; simpl; lia); apply orb_true_r).
  unfold elem. rewrite TY, Sy in *. apply cat1_sl; auto.
Qed.

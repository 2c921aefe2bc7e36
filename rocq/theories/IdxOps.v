(* Indexing and indexed assignment, from what init gives. *)
From Verif Require Import Value NumModel ArrSpec ArrBase ArrRot EvalSpec EvalProofs ParModel ParSpec ParProofs IdxModel IdxSpec IdxProofs.
Open Scope nat_scope.

(* ---- indexing by coordinates ---- *)
Lemma check_coord_ok o l : forall s, Forall2 (fun z m => exists i, z = VInt i /\ (o <= i < o + Z.of_nat m)%Z) l (firstn (length l) s) ->
  check_coord o s l = Ok (coord_of o (VVec l)) /\ inb (firstn (length l) s) (coord_of o (VVec l)).
Proof.
  induction l as [|x l IH]; intros s H; [split; [destruct s; reflexivity|constructor]|].
  destruct s as [|n s]; cbn [length firstn] in H; inversion H as [|? ? ? ? Hx Hl]; subst. destruct (IH s Hl) as [E J].
  cbn [check_coord]. rewrite index_in_ok by auto. cbn [bind]. rewrite E. cbn [bind]. destruct Hx as (i & -> & Hi). split; [reflexivity|].
  cbn [length firstn coord_of map]. constructor; [lia|exact J].
Qed.
Definition at_data (w : value) (c : list nat) : value := nth (ravel (shape_of w) c) (data_of w) (VInt 0).
Definition picked (o : Z) (w : value) (ca : list nat) : list nat := coord_of o (at_data w ca).
Lemma init_coords o v w n : arr v -> wf v -> valid_coords o (shape_of v) n w ->
  exists s, init o v [Some w] = Ok s /\ sel_data s = data_of v /\
    good s (firstn n (shape_of v)) (skipn n (shape_of v)) (shape_of w) (picked o w) /\
    sel_out s = shape_of w ++ skipn n (shape_of v).
Proof.
  intros Hv W (Ww & Rk & Ne & L & F). unfold init. rewrite init_loop_ok.
  2: { constructor; [|constructor]. destruct w; cbn in *; auto. }
  cbn [bind]. rewrite indexable_ok by auto. cbn [bind map elems_of]. cbn [vector_index].
  destruct (data_of w) as [|e0 es] eqn:Ed; [congruence|]. destruct (Forall_inv F) as (l0 & -> & L0 & F0).
  replace (length (shape_of v) <? length l0) with false by (symmetry; apply Nat.ltb_ge; lia).
  assert (Each : forall e, In e (VVec l0 :: es) -> exists l, e = VVec l /\ length l = n /\ check_coord o (shape_of v) l = Ok (coord_of o e) /\ inb (firstn n (shape_of v)) (coord_of o e)).
  { intros e He. rewrite Forall_forall in F. destruct (F e He) as (l & -> & Ll & Fl). exists l. split; auto. split; auto.
    rewrite <-Ll in *. apply check_coord_ok. auto. }
  rewrite (mapM_ok _ (coord_of o)).
  2: { intros e He. destruct (Each e He) as (l & -> & Ll & E & _). rewrite Ll, L0, Nat.eqb_refl. exact E. }
  cbn [bind map]. assert (N : length (coord_of o (VVec l0)) = n) by (cbn [coord_of]; rewrite map_length; auto). rewrite N.
  eexists. split; [reflexivity|]. cbn [sel_data sel_out outs rev place].
  rewrite app_nil_l, rev_involutive. split; [reflexivity|]. split; [|reflexivity].
  pose proof (data_len w Ww) as DL.
  split; cbn [sel_shape sel_dim sel_data sel_out sel_items].
  - now rewrite firstn_skipn.
  - rewrite firstn_length. lia.
  - rewrite firstn_skipn. now apply data_len.
  - intros ca I. unfold picked, at_data. apply ravel_lt in I. rewrite <-DL in I.
    destruct (Each (nth (ravel (shape_of w) ca) (data_of w) (VInt 0))) as (l & _ & _ & _ & J); [rewrite <-Ed; now apply nth_In|exact J].
  - intros lo hi H. unfold offsets. cbn [sel_items sel_shape]. apply map_ext_in. intros i Hi. apply in_seq in Hi.
    change (coord_of o (VVec l0) :: map (coord_of o) es) with (map (coord_of o) (VVec l0 :: es)). rewrite <-Ed.
    assert (Hi' : i < length (data_of w)) by lia.
    rewrite (nth_error_nth' _ (coord_of o (VInt 0))) by (rewrite map_length; auto). rewrite map_nth. f_equal.
    destruct (Each (nth i (data_of w) (VInt 0))) as (l & _ & _ & _ & J); [rewrite <-Ed; now apply nth_In|].
    unfold picked, at_data. rewrite ravel_unravel by lia. pose proof (inb_len _ _ J) as JL. rewrite firstn_length in JL.
    rewrite offset_of_ok by lia. rewrite JL, Nat.min_l by lia. lia.
  - exists (shape_of w). auto.
  - intros H. apply app_eq_nil in H. destruct H as [H _]. unfold rank_of in Rk. rewrite H in Rk. now cbn in Rk.
Qed.

(* ---- reading ---- *)
Lemma vec_or_mat out l f : out <> [] -> length l = vol out -> (forall c, inb out c -> nth_error l (ravel out c) = f c) ->
  gives_array (match out with [_] => Ok (VVec l) | _ => new_matrix out l end) out f.
Proof.
  intros N L H. destruct out as [|n [|m out]]; [congruence| |apply new_matrix_array; auto].
  cbn [vol] in L. rewrite Nat.mul_1_r in L. apply vec_array; [now rewrite L|]. intros i Hi. specialize (H [i]).
  cbn [ravel vol] in H. rewrite Nat.mul_1_r, Nat.add_0_r in H. symmetry. apply H. constructor; [lia|constructor].
Qed.
Section Good.
Variables (c : conf) (v : value) (xs : list (option value)) (s : selection) (D R A : list nat) (tg : list nat -> list nat).
Hypothesis Init : init (origin c) v xs = Ok s.
Hypothesis G : good s D R A tg.
Lemma copy_ok : size (skipn (sel_dim s) (sel_shape s)) = vol R.
Proof. rewrite (g_shape _ _ _ _ _ G), (g_dim _ _ _ _ _ G), skipn_len_app. reflexivity. Qed.
Lemma items_ok out : sel_out s = out -> vol R <> 0 -> size out / vol R = vol A.
Proof.
  intros <- N. destruct (g_out _ _ _ _ _ G) as (A' & -> & E & _). change (size (A' ++ R)) with (vol (A' ++ R)). rewrite vol_app, E. now apply Nat.div_mul.
Qed.
Definition off (i : nat) : nat := ravel D (tg (unravel A i)).
Lemma off_lt i : i < vol A -> off i < vol D.
Proof. intros H. apply ravel_lt, (g_tg _ _ _ _ _ G), unravel_inb, H. Qed.
Lemma cell_coord i k : i < vol A -> k < vol R -> off i * vol R + k = ravel (D ++ R) (tg (unravel A i) ++ unravel R k).
Proof.
  intros Hi Hk. rewrite ravel_app by (apply inb_len, (g_tg _ _ _ _ _ G), unravel_inb, Hi). rewrite ravel_unravel by auto. reflexivity.
Qed.
Lemma index_one : sel_out s = [] -> exists x, nth_error (sel_data s) (ravel (D ++ R) (tg [])) = Some x /\ op_index c v xs = Ok x.
Proof.
  intros E. destruct (g_out _ _ _ _ _ G) as (A' & E' & EV & EL). rewrite E' in E. apply app_eq_nil in E. destruct E as [-> ->].
  assert (A = []) by now destruct A. subst A. pose proof (g_data _ _ _ _ _ G) as DL. rewrite app_nil_r in *.
  assert (H : ravel D (tg []) < length (sel_data s)). { rewrite DL. apply ravel_lt, (g_tg _ _ _ _ _ G). constructor. }
  pose proof (g_one _ _ _ _ _ G E') as O1.
  exists (nth (ravel D (tg [])) (sel_data s) dflt). split; [now apply nth_error_nth'|].
  unfold op_index. rewrite Init. cbn [bind]. rewrite E'. destruct (sel_items s) as [idx|cs].
  - destruct (at_coord idx (map (fun _ => 0) idx)) as [ks| | |]; cbn [bind] in *; try discriminate. injection O1 as ->. now apply at_nth.
  - injection O1 as O1. rewrite O1. now apply at_nth.
Qed.
Lemma index_many : sel_out s = A ++ R -> A ++ R <> [] -> vol R <> 0 ->
  gives_array (op_index c v xs) (A ++ R) (fun k => nth_error (sel_data s) (ravel (D ++ R) (tg (firstn (length A) k) ++ skipn (length A) k))).
Proof.
  intros EO NE NR. unfold op_index. rewrite Init. cbn [bind]. rewrite EO. destruct (A ++ R) as [|x0 out0] eqn:EA; [congruence|]. rewrite <-EA in *.
  rewrite copy_ok. replace (vol R =? 0) with false by (symmetry; now apply Nat.eqb_neq). rewrite (items_ok _ EO NR).
  rewrite (g_off _ _ _ _ _ G) by lia. rewrite Nat.sub_0_r, mapM_map.
  rewrite (mapM_ok _ (fun i => map (fun k => nth (off i * vol R + k) (sel_data s) dflt) (seq 0 (vol R)))).
  2: { intros i Hi. apply in_seq in Hi. cbn [bind]. apply build_ok. intros k Hk. apply at_nth. rewrite (g_data _ _ _ _ _ G), vol_app.
    pose proof (off_lt i ltac:(lia)) as OL. unfold off in *. nia. }
  cbn [bind]. rewrite (concat_rows (fun i k => nth (off i * vol R + k) (sel_data s) dflt)).
  match goal with |- gives_array (match out0 with [] => Ok (VVec ?l) | _ :: _ => _ end) _ _ =>
    change (gives_array (match x0 :: out0 with [_] => Ok (VVec l) | _ => new_matrix (A ++ R) l end) (A ++ R)
      (fun k => nth_error (sel_data s) (ravel (D ++ R) (tg (firstn (length A) k) ++ skipn (length A) k)))) end.
  rewrite <-EA. apply vec_or_mat; [now rewrite EA|rewrite map_length, seq_length, vol_app; reflexivity|].
  intros k I. pose proof (ravel_lt _ _ I) as KL. rewrite vol_app in KL. rewrite nth_error_map_seq by auto.
  apply inb_split in I. destruct I as (a & b & -> & La & Ia & Ib). rewrite ravel_app by auto.
  pose proof (ravel_lt _ _ Ib) as BL. pose proof (ravel_lt _ _ Ia) as AL. rewrite dm_div, dm_mod by auto. rewrite <-La, firstn_len_app, skipn_len_app.
  rewrite cell_coord, !unravel_ravel by auto. symmetry. apply nth_error_nth'.
  rewrite (g_data _ _ _ _ _ G). apply ravel_lt. apply inb_app; [apply inb_len, (g_tg _ _ _ _ _ G), Ia|]. split; auto. apply (g_tg _ _ _ _ _ G), Ia.
Qed.

(* ---- writing ---- *)
(* The steps of item i. *)
Definition item_body (src : nat -> res value) (i : nat) : list action :=
  map (fun k (_ : mem) => let! o := Ok (off i) in let! x := src (k + i * vol R) in Ok (o * vol R + k, x)) (seq 0 (vol R)).
Lemma steps_each src lo hi : hi <= vol A -> assign_steps s (vol R) src (lo, hi) = each_k (item_body src) (lo, hi).
Proof.
  intros Hh. unfold assign_steps, each_k. cbn [fst snd]. destruct (le_lt_dec hi lo) as [Hl|Hl].
  { replace (hi - lo) with 0 by lia. reflexivity. }
  rewrite (g_off _ _ _ _ _ G) by lia.
  induction (seq lo (hi - lo)) as [|i l IH]; cbn [map combine flat_map]; [reflexivity|]. rewrite IH. reflexivity.
Qed.
Lemma item_in_order src src' i m : (forall j, j < vol A * vol R -> src j = Ok (src' j)) -> i < vol A -> forall n, n <= vol R ->
  exists m', in_order (map (fun k (_ : mem) => let! o := Ok (off i) in let! x := src (k + i * vol R) in Ok (o * vol R + k, x)) (seq 0 n)) m = Ok m' /\
    forall x, m' x = if (off i * vol R <=? x) && (x <? off i * vol R + n) then Some (src' (x - off i * vol R + i * vol R)) else m x.
Proof.
  intros Hs Hi. induction n as [|n IH]; intros Hn.
  - exists m. split; [reflexivity|]. intros x. destruct (Nat.leb_spec (off i * vol R) x), (Nat.ltb_spec x (off i * vol R + 0)); auto. lia.
  - destruct (IH ltac:(lia)) as (m' & E & Hm). rewrite seq_S, map_app, in_order_app, E. cbn [bind map in_order plus].
    rewrite Hs by nia. cbn [bind]. eexists. split; [reflexivity|]. intros x. unfold mset. rewrite Hm.
    destruct (Nat.eqb_spec x (off i * vol R + n)) as [->|N].
    + rewrite (proj2 (Nat.leb_le _ _)) by lia. rewrite (proj2 (Nat.ltb_lt _ _)) by lia. cbn [andb]. do 2 f_equal. lia.
    + destruct (Nat.leb_spec (off i * vol R) x), (Nat.ltb_spec x (off i * vol R + n)), (Nat.ltb_spec x (off i * vol R + S n)); auto; lia.
Qed.
(* What the cells hold after the first n items: the last item that selects a cell
   prevails. *)
Lemma items_in_order src src' m : (forall j, j < vol A * vol R -> src j = Ok (src' j)) -> forall n, n <= vol A ->
  exists m', in_order (flat_map (item_body src) (seq 0 n)) m = Ok m' /\
    (forall x, (forall i, i < n -> x / vol R <> off i) -> m' x = m x) /\
    (forall x i, vol R <> 0 -> i < n -> x / vol R = off i -> (forall i', i < i' < n -> off i' <> off i) -> m' x = Some (src' (x mod vol R + i * vol R))).
Proof.
  intros Hs. destruct (Nat.eq_dec (vol R) 0) as [Z|NZ].
  { intros n Hn. exists m. split; [|split; [auto|intros; congruence]]. unfold item_body. rewrite Z. cbn [seq map].
    induction (seq 0 n); cbn; auto. }
  induction n as [|n IH]; intros Hn.
  - exists m. split; [reflexivity|]. split; [auto|intros; lia].
  - destruct (IH ltac:(lia)) as (m1 & E & H1 & H2). rewrite seq_S, flat_map_app, in_order_app, E. cbn [bind flat_map plus]. rewrite app_nil_r.
    destruct (item_in_order src src' n m1 Hs ltac:(lia) (vol R) (le_n _)) as (m2 & E2 & Hm). exists m2. split; [exact E2|].
    assert (Row : forall x, (off n * vol R <=? x) && (x <? off n * vol R + vol R) = (x / vol R =? off n)).
    { intros x. pose proof (Nat.div_mod x (vol R) NZ) as DM. pose proof (Nat.mod_upper_bound x (vol R) NZ) as MB.
      destruct (Nat.eqb_spec (x / vol R) (off n)) as [Ex|N].
      - rewrite Ex in DM. rewrite (proj2 (Nat.leb_le _ _)) by lia. rewrite (proj2 (Nat.ltb_lt _ _)) by lia. reflexivity.
      - apply andb_false_iff. rewrite Nat.leb_gt, Nat.ltb_ge. destruct (Nat.lt_ge_cases (x / vol R) (off n)); [left|right]; nia. }
    split.
    + intros x Hx. rewrite Hm, Row. rewrite (proj2 (Nat.eqb_neq _ _)) by (apply Hx; lia). apply H1. intros i Hi. apply Hx. lia.
    + intros x i _ Hi Hx Hl. rewrite Hm, Row. destruct (Nat.eqb_spec (x / vol R) (off n)) as [Ex|Nx].
      * assert (i = n). { destruct (Nat.eq_dec i n); auto. exfalso. apply (Hl n); [lia|congruence]. } subst i. do 2 f_equal.
        pose proof (Nat.div_mod x (vol R) NZ). rewrite Hx in H. lia.
      * apply H2; auto.
        -- destruct (Nat.eq_dec i n); [subst; congruence|lia].
        -- intros i' Hi'. apply Hl. lia.
Qed.
End Good.
(* store_all is in_order, but for what it leaves in memory when a step fails. *)
Lemma store_in_order l : forall m m', in_order l m = Ok m' -> store_all l m = (m', Ok tt).
Proof.
  induction l as [|a l IH]; intros m m' E; cbn [in_order store_all] in *; [now injection E as <-|].
  destruct (a m) as [[k x]| | |]; try discriminate. now apply IH.
Qed.
Lemma source_ok out rhs src : wf rhs -> source out rhs = Ok src ->
  exists src', (forall j, j < vol out -> src j = Ok (src' j)) /\ forall c, inb out c -> Some (src' (ravel out c)) = stored out rhs c.
Proof.
  intros W. unfold source, stored. destruct out as [|n out]; [intros E; injection E as <-; exists (fun _ => rhs); split; auto|].
  assert (Eq : forall a b, shape_eqb a b = true -> a = b).
  { intros a b. unfold shape_eqb. destruct (list_eq_dec Nat.eq_dec a b); auto; discriminate. }
  destruct rhs as [| | | | |l|s d]; try (intros E; injection E as <-; eexists; split; [intros; reflexivity|reflexivity]).
  - destruct (shape_eqb (n :: out) [length l]) eqn:S; intros E; [|discriminate]. injection E as <-. apply Eq in S. exists (fun j => nth j l dflt).
    rewrite S. split; [intros j Hj; apply at_nth; cbn in Hj; lia|]. intros k I. unfold elem. cbn [data_of shape_of]. symmetry. apply nth_error_nth'.
    apply ravel_lt in I. cbn in *. lia.
  - destruct (shape_eqb (n :: out) s) eqn:S; intros E; [|discriminate]. injection E as <-. apply Eq in S. exists (fun j => nth j d dflt).
    rewrite S. destruct W as (_ & L & _). split; [intros j Hj; apply at_nth; lia|]. intros k I. unfold elem. cbn [data_of shape_of]. symmetry. apply nth_error_nth'.
    apply ravel_lt in I. lia.
Qed.

(* Reshape, take, drop. *)
From Verif Require Import Value NumModel ArrModel ArrSpec ArrBase ArrRot.
From Coq Require Import Arith ZifyBool ZifyNat.
Open Scope nat_scope.

(* ---- reshape ---- *)
Definition zs_of (s : list nat) : list value := map (fun n => VInt (Z.of_nat n)) s.
Lemma shape_of_vec_ok s : forall n, (0 <= n)%Z ->
  (Forall (fun d => (Z.of_nat d <= maxInt)%Z) s /\ (forall k, 1 <= k <= length s -> (n * Z.of_nat (vol (firstn k s)) <= maxInt)%Z)
   /\ shape_of_vec n (zs_of s) = Ok s) \/
  (~ (Forall (fun d => (Z.of_nat d <= maxInt)%Z) s /\ (forall k, 1 <= k <= length s -> (n * Z.of_nat (vol (firstn k s)) <= maxInt)%Z))
   /\ shape_of_vec n (zs_of s) = Err).
Proof.
  induction s as [|d s IH]; intros n Hn; cbn [zs_of map shape_of_vec].
  { left. repeat split; auto. simpl; lia. }
  destruct (Z.ltb_spec (Z.of_nat d) 0); [lia|]. cbn [orb].
  destruct (Z.ltb_spec maxInt (Z.of_nat d)) as [A|A].
  { right. split; auto. intros [F _]. inversion F. lia. }
  destruct (Z.ltb_spec maxInt (n * Z.of_nat d)) as [B|B].
  { right. split; auto. intros [_ F]. specialize (F 1 ltac:(simpl; lia)). cbn [firstn vol] in F. lia. }
  fold (zs_of s). destruct (IH (n * Z.of_nat d)%Z ltac:(nia)) as [(F & P & ->)|(N & ->)]; cbn [bind].
  - left. split; [constructor; auto|]. split; [|rewrite Nat2Z.id; auto].
    intros k Hk. destruct k as [|k]; [lia|]. cbn [firstn vol]. simpl length in Hk.
    destruct k as [|k]; [cbn [firstn vol]; lia|]. specialize (P (S k) ltac:(lia)). rewrite Nat2Z.inj_mul. lia.
  - right. split; auto. intros [F P]. apply N. inversion F; subst. split; auto.
    intros k Hk. specialize (P (S k) ltac:(simpl; lia)). cbn [firstn vol] in P. rewrite Nat2Z.inj_mul in P. lia.
Qed.
Lemma fits_legal s : fits s -> legal s.
Proof. intros [_ H] k Hk. apply H. lia. Qed.
Lemma replicate_ok (B : list value) n : forall fuel i t, B <> [] -> length B <= i -> length t = Nat.min i n ->
  (forall p, p < length t -> nth_error t p = nth_error B (p mod length B)) -> n <= i + fuel ->
  exists r, replicate_from fuel i (length B) n t = Ok r /\ length r = n /\
    forall p, p < n -> nth_error r p = nth_error B (p mod length B).
Proof.
  induction fuel as [|f IH]; intros i t HB Hi Ht Hp Hf; simpl.
  { exists t. split; auto. split; [lia|]. intros p P. apply Hp. lia. }
  assert (length B <> 0) by (destruct B; simpl in *; [congruence|lia]).
  destruct (Nat.ltb_spec i n) as [L|L].
  - rewrite at_nth by lia. cbn [bind]. apply IH; [auto|lia|rewrite app_length; cbn [length]; lia| |lia].
    intros p P. rewrite app_length in P. simpl in P.
    destruct (Nat.eq_dec p (length t)) as [->|N].
    + rewrite nth_error_app2, Nat.sub_diag by lia. simpl. rewrite Ht, Nat.min_l by lia.
      rewrite <-nth_error_nth' by lia. rewrite Hp by lia.
      f_equal. replace i with (i - length B + 1 * length B) at 2 by lia. rewrite Nat.mod_add by auto. reflexivity.
    + rewrite nth_error_app1 by lia. apply Hp. lia.
  - exists t. split; auto. split; [lia|]. intros p P. apply Hp. lia.
Qed.
Lemma firstn_nth {A} (l : list A) n p : p < n -> nth_error (firstn n l) p = nth_error l p.
Proof. revert l p. induction n; intros [|x l] [|p] H; simpl; auto; try lia. apply IHn. lia. Qed.
Lemma reshape_ok s B : s <> [] ->
  (fits s -> is_array (reshape (zs_of s) B) s (fun c => nth_error (nonempty_data B) (ravel s c mod length (nonempty_data B)))) /\
  (~ fits s -> reshape (zs_of s) B = Err).
Proof.
  intros Hs. unfold reshape. change (match B with [] => [vzero] | _ => B end) with (nonempty_data B).
  set (D := nonempty_data B). assert (D <> []) as HD by (unfold D; destruct B; discriminate).
  assert (length D <> 0) as HL by (destruct D; simpl; [congruence|lia]).
  destruct (zs_of s) as [|z zt] eqn:Ez; [destruct s; [congruence|discriminate]|]. rewrite <-Ez.
  assert (forall k, (1 * Z.of_nat k)%Z = Z.of_nat k) as ONE by lia.
  destruct (shape_of_vec_ok s 1 ltac:(lia)) as [(F & P & ->)|(N & ->)].
  2: { split; auto. intros [F P]. exfalso. apply N. split; auto. intros k Hk. rewrite ONE. auto. }
  split; [|intros N; exfalso; apply N; split; auto; intros k Hk; specialize (P k Hk); rewrite ONE in P; auto].
  intros FT. cbn [bind]. rewrite size_vol.
  destruct (replicate_ok D (vol s) (vol s) (length D) (firstn (vol s) D)) as (r & -> & Lr & Nr); auto.
  { rewrite firstn_length. lia. }
  { intros p Hp. rewrite firstn_length in Hp. rewrite firstn_nth by lia. rewrite Nat.mod_small; auto. lia. }
  { lia. }
  cbn [bind].
  assert (forall c, inb s c -> nth_error r (ravel s c) = nth_error D (ravel s c mod length D)) as EQ.
  { intros c I. apply Nr. apply ravel_lt; auto. }
  destruct s as [|d1 [|d2 s2]]; [congruence| |].
  - simpl in Ez. injection Ez as <- <-. apply array_legal; [apply legal_short; auto|].
    apply vec_array; [simpl in Lr; f_equal; lia|]. intros i Hi. cbn [vol] in Lr. symmetry.
    specialize (EQ [i]). cbn [ravel vol] in EQ. rewrite Nat.mul_1_r, Nat.add_0_r in EQ.
    cbn [ravel vol]. rewrite Nat.mul_1_r, Nat.add_0_r. apply EQ. constructor; [lia|constructor].
  - simpl in Ez. injection Ez as <- <-. apply array_legal; [apply fits_legal; auto|].
    apply new_matrix_array; auto.
Qed.
Lemma int_list_vec u zs : int_list u zs -> is_mat u = false -> to_vec u = Ok (map VInt zs).
Proof. intros [->|[->|(z & -> & ->)]]; simpl; auto; discriminate. Qed.
Lemma int_list_mat u zs : int_list u zs -> to_mat u = ([length zs], map VInt zs).
Proof. intros [->|[->|(z & -> & ->)]]; simpl; auto. rewrite map_length; auto. Qed.
Lemma to_mat_data v : snd (to_mat v) = data_of v.
Proof. destruct v; reflexivity. Qed.
Lemma to_vec_data v : is_mat v = false -> to_vec v = Ok (data_of v).
Proof. destruct v; simpl; auto; discriminate. Qed.
Lemma op_rho_ok u v s : int_list u (map Z.of_nat s) -> s <> [] ->
  (fits s -> is_array (op_rho u v) s (fun c => nth_error (nonempty_data (data_of v)) (ravel s c mod length (nonempty_data (data_of v))))) /\
  (~ fits s -> op_rho u v = Err).
Proof.
  intros Hu Hs. assert (op_rho u v = reshape (zs_of s) (data_of v)) as ->; [|apply reshape_ok; auto].
  unfold op_rho, at_least_vector. destruct (is_mat u || is_mat v) eqn:E.
  - rewrite (int_list_mat u _ Hu), to_mat_data. cbn [fst snd]. rewrite map_map. reflexivity.
  - apply orb_false_iff in E. destruct E as [Eu Ev]. rewrite (int_list_vec u _ Hu Eu), (to_vec_data v Ev). cbn [bind].
    rewrite map_map. reflexivity.
Qed.

(* ---- take ---- *)
Lemma all_ints_map zs : all_ints (map VInt zs) = true.
Proof. induction zs; simpl; auto. Qed.
Lemma ints_of_map zs : ints_of (map VInt zs) = zs.
Proof. induction zs; simpl; auto. f_equal; auto. Qed.
Lemma map_const {A B} (x : B) (l : list A) : map (fun _ => x) l = repeat x (length l).
Proof. induction l; simpl; auto. f_equal; auto. Qed.
Lemma fill_value_ok d : Forall wf d -> fill_value d = Ok (filler d).
Proof.
  intros H. destruct d as [|x d]; [reflexivity|]. inversion H as [|? ? W _]; subst.
  unfold fill_value, filler. fold (blank_for (x :: d)). change (forallb is_char (x :: d)) with
    (forallb (fun v => match v with VChar _ => true | _ => false end) (x :: d)).
  fold (blank_for (x :: d)). change (if forallb (fun v => match v with VChar _ => true | _ => false end) (x :: d) then VChar 32 else vzero) with (blank_for (x :: d)).
  destruct x; auto; rewrite map_const; auto.
  destruct W as (A & B & C). destruct (new_matrix_ok shape (repeat (blank_for (VMat shape data :: d)) (length data))) as [[_ ->]|[N _]];
    auto; [rewrite repeat_length; auto|tauto].
Qed.
Definition axes (s : list nat) (ks : list Z) : list axis := map (fun p => take_axis (fst p) (snd p)) (combine s ks).
Lemma take_scan_ok s : forall ks c mi, length ks = length s -> inb (dims ks) c ->
  take_scan (axes s ks) c mi = match take_coord s ks c with Some c' => Some (mi * Z.of_nat (vol s) + Z.of_nat (ravel s c'))%Z | None => None end.
Proof.
  induction s as [|n s IH]; intros [|k ks] c mi L I; simpl in L; try lia.
  { simpl. destruct c; f_equal; lia. }
  destruct c as [|j c]; [inversion I|]. cbn [dims map] in I. apply inb_cons in I. destruct I as [J I].
  cbn [axes combine map fst snd take_scan take_coord]. fold (axes s ks).
  assert ((Z.of_nat j - ax_org (take_axis n k) <? ax_min (take_axis n k))%Z || (ax_max (take_axis n k) <=? Z.of_nat j - ax_org (take_axis n k))%Z
          = negb ((0 <=? take_from n k j)%Z && (take_from n k j <? Z.of_nat n)%Z)) as ->.
  { unfold take_axis, take_from. destruct (Z.ltb_spec k 0); cbn [ax_org ax_min ax_max]; lia. }
  destruct ((0 <=? take_from n k j)%Z && (take_from n k j <? Z.of_nat n)%Z) eqn:E; cbn [negb]; auto.
  rewrite IH by (auto; lia). destruct (take_coord s ks c) as [r|]; auto. cbn [vol ravel].
  assert (Z.of_nat j - ax_org (take_axis n k) = take_from n k j)%Z as ->.
  { unfold take_axis, take_from. destruct (Z.ltb_spec k 0); cbn [ax_org]; lia. }
  assert (ax_dim (take_axis n k) = n) as -> by (unfold take_axis; destruct (k <? 0)%Z; reflexivity).
  f_equal. rewrite Nat2Z.inj_add, !Nat2Z.inj_mul, Z2Nat.id by lia. lia.
Qed.
Lemma take_coord_inb s : forall ks c c', length ks = length s -> length c = length s -> take_coord s ks c = Some c' -> inb s c'.
Proof.
  induction s as [|n s IH]; intros [|k ks] [|j c] c' L L' H; simpl in *; try lia; [injection H as <-; constructor|].
  destruct ((0 <=? take_from n k j)%Z && (take_from n k j <? Z.of_nat n)%Z) eqn:E; [|discriminate].
  destruct (take_coord s ks c) as [r|] eqn:R; [|discriminate]. injection H as <-.
  apply inb_cons. split; [lia|]. eapply IH; [| |exact R]; lia.
Qed.

Lemma skipn_ge {A} (l : list A) n : length l <= n -> skipn n l = [].
Proof. apply skipn_all2. Qed.
Lemma all_axes_len s ks : length ks <= length s -> length (all_axes s ks) = length s.
Proof. intros H. unfold all_axes. rewrite app_length, map_length, skipn_length. lia. Qed.
Lemma dims_len ks : length (dims ks) = length ks.
Proof. apply map_length. Qed.
Lemma dims_nonnil ks : ks <> [] -> dims ks <> [].
Proof. destruct ks; simpl; congruence. Qed.
(* ivy's matrix take, on the shape after any extension by axes of length 1 *)
Lemma mat_take_ok s d ks : s <> [] -> length d = vol s -> Forall wf d -> (length s < length ks -> vol s = 1) ->
  let s' := take_shape s ks in let ks' := all_axes s' ks in
  ((Z.of_nat (vol (dims ks')) <= maxInt)%Z ->
    gives_array (mat_take s d (map VInt ks)) (dims ks')
      (fun c => match take_coord s' ks' c with Some c' => nth_error d (ravel s' c') | None => Some (filler d) end)) /\
  ((maxInt < Z.of_nat (vol (dims ks')))%Z -> mat_take s d (map VInt ks) = Err).
Proof.
  intros Hs L W HX s' ks'. unfold mat_take. rewrite all_ints_map. cbn [negb]. rewrite map_length, ints_of_map.
  assert ((if length s <? length ks then if size s =? 1 then Ok (repeat 1 (length ks)) else Err else Ok s) = Ok s') as ->.
  { unfold s', take_shape. destruct (Nat.ltb_spec (length s) (length ks)); auto. rewrite size_vol, HX by auto. reflexivity. }
  cbn [bind]. fold (all_axes s' ks). fold ks'. fold (dims ks').
  assert (length ks <= length s' /\ s' <> [] /\ vol s' = vol s) as (LK & Hs' & LV).
  { unfold s', take_shape. destruct (Nat.ltb_spec (length s) (length ks)); [|auto].
    rewrite repeat_length, vol_ones, HX by auto. split; [lia|]. split; [|lia]. destruct ks; simpl in *; [lia|discriminate]. }
  change (size (dims ks')) with (vol (dims ks')).
  assert (length ks' = length s') as LK' by (apply all_axes_len; auto).
  assert (dims ks' <> []) as DN by (apply dims_nonnil; destruct s', ks'; simpl in *; congruence || lia).
  destruct (Z.ltb_spec maxInt (Z.of_nat (vol (dims ks')))) as [T|T]; [split; [lia|auto]|].
  split; [intros _|lia]. rewrite fill_value_ok by auto. cbn [bind]. rewrite odo_run_all, mapM_map.
  set (g := fun p => match take_coord s' ks' (unravel (dims ks') p) with Some c' => nth (ravel s' c') d dflt | None => filler d end).
  rewrite mapM_ok with (g := g).
  2: { intros p P. apply in_seq in P. change (map (fun p0 => take_axis (fst p0) (snd p0)) (combine s' ks')) with (axes s' ks').
       assert (inb (dims ks') (unravel (dims ks') p)) as IB by (apply unravel_inb; lia).
       rewrite take_scan_ok by auto. unfold g. destruct (take_coord s' ks' (unravel (dims ks') p)) as [c'|] eqn:E; auto.
       rewrite Z.mul_0_l, Z.add_0_l, Nat2Z.id. apply at_nth.
       apply take_coord_inb in E; auto; [|rewrite unravel_len, dims_len; auto]. apply ravel_lt in E. lia. }
  cbn [bind]. apply new_matrix_build; auto.
  intros c I. unfold g. rewrite unravel_ravel by auto. destruct (take_coord s' ks' c) as [c'|] eqn:E; auto.
  apply nth_error_nth'. apply take_coord_inb in E; auto; [apply ravel_lt in E; lia|].
  apply inb_len in I. rewrite dims_len in I. lia.
Qed.
Lemma vec_take_ok l k : Forall wf l ->
  is_array (vec_take k l) [Z.to_nat (Z.abs k)]
    (fun c => match take_coord [length l] [k] c with Some c' => nth_error l (ravel [length l] c') | None => Some (filler l) end).
Proof.
  intros W. apply array_legal; [apply legal_short; auto|]. unfold vec_take. rewrite fill_value_ok by auto. cbn [bind].
  assert (forall i x, (0 <= x < Z.of_nat (length l))%Z -> take_from (length l) k i = x ->
    (match take_coord [length l] [k] [i] with Some c' => nth_error l (ravel [length l] c') | None => Some (filler l) end) = nth_error l (Z.to_nat x)) as IN.
  { intros i x Hx E. cbn [take_coord]. rewrite E. destruct ((0 <=? x)%Z && (x <? Z.of_nat (length l))%Z) eqn:B; [|lia].
    cbn [ravel vol]. f_equal. lia. }
  assert (forall i, ~ (0 <= take_from (length l) k i < Z.of_nat (length l))%Z ->
    (match take_coord [length l] [k] [i] with Some c' => nth_error l (ravel [length l] c') | None => Some (filler l) end) = Some (filler l)) as OUT.
  { intros i Hx. cbn [take_coord]. destruct ((0 <=? take_from (length l) k i)%Z && (take_from (length l) k i <? Z.of_nat (length l))%Z) eqn:B; [lia|auto]. }
  unfold take_from in IN, OUT.
  assert (forall (x : value) n i, i < n -> nth_error (repeat x n) i = Some x) as REP.
  { intros x n i Hi. rewrite (nth_error_nth' _ x) by (rewrite repeat_length; auto). f_equal. apply nth_repeat. }
  destruct (Z.ltb_spec k 0) as [N|N].
  - destruct (Nat.ltb_spec (length l) (Z.to_nat (Z.abs k))) as [A|A].
    + apply vec_array; [rewrite app_length, repeat_length; f_equal; lia|]. rewrite app_length, repeat_length. intros i Hi.
      destruct (lt_dec i (Z.to_nat (Z.abs k) - length l)) as [B|B].
      * rewrite nth_error_app1 by (rewrite repeat_length; auto). rewrite REP by auto. apply OUT. lia.
      * rewrite nth_error_app2 by (rewrite repeat_length; lia). rewrite repeat_length.
        rewrite (IN i (Z.of_nat i + Z.of_nat (length l) + k)%Z) by lia. f_equal. lia.
    + apply vec_array; [rewrite skipn_length; f_equal; lia|]. rewrite skipn_length. intros i Hi.
      rewrite (IN i (Z.of_nat i + Z.of_nat (length l) + k)%Z) by lia.
      rewrite <-(firstn_skipn (length l - Z.to_nat (Z.abs k)) l) at 1.
      rewrite nth_error_app2 by (rewrite firstn_length; lia). f_equal. rewrite firstn_length. lia.
  - destruct (Z.eqb_spec k 0) as [->|K0].
    + apply vec_array; auto. simpl; lia.
    + destruct (Nat.ltb_spec (length l) (Z.to_nat (Z.abs k))) as [A|A].
      * apply vec_array; [rewrite app_length, repeat_length; f_equal; lia|]. rewrite app_length, repeat_length. intros i Hi.
        destruct (lt_dec i (length l)) as [B|B].
        -- rewrite nth_error_app1 by auto. rewrite (IN i (Z.of_nat i)) by lia. f_equal. lia.
        -- rewrite nth_error_app2 by lia. rewrite REP by lia. apply OUT. lia.
      * apply vec_array; [rewrite firstn_length; f_equal; lia|]. rewrite firstn_length. intros i Hi.
        rewrite firstn_nth by lia. rewrite (IN i (Z.of_nat i)) by lia. f_equal. lia.
Qed.
Lemma int_vector_vec u zs : int_vector u zs -> to_vec u = Ok (map VInt zs).
Proof. intros [->|(z & -> & ->)]; auto. Qed.
Lemma gives_of_is r s f : legal s -> is_array r s f -> gives_array r s f.
Proof. left; auto. Qed.
Lemma op_take_ok u v ks : int_vector u ks -> wf v -> Forall wf (data_of v) -> rank_of v <> 0 ->
  (rank_of v < length ks -> vol (shape_of v) = 1) ->
  let s' := take_shape (shape_of v) ks in let ks' := all_axes s' ks in
  (Z.of_nat (vol (dims ks')) <= maxInt)%Z -> gives_array (op_take u v) (dims ks') (taken v s' ks').
Proof.
  intros Hu W WD R HX s' ks' T. destruct (to_mat_arr v W R) as (TM & LD & LG).
  assert (shape_of v <> []) as SN by (unfold rank_of in R; destruct (shape_of v); simpl in *; congruence).
  unfold op_take. rewrite (int_vector_vec _ _ Hu). cbn [bind]. unfold taken.
  destruct v; try (unfold rank_of in R; simpl in R; congruence).
  - cbn [to_vec bind data_of] in *. destruct ks as [|k [|k2 kt]].
    + apply (mat_take_ok [length l] l []); auto.
    + cbn [map as_int bind]. cbn in s'. subst s' ks'. apply gives_of_is; [apply legal_short; auto|]. apply vec_take_ok; auto.
    + apply (mat_take_ok [length l] l (k :: k2 :: kt)); auto.
  - apply (mat_take_ok shape data ks); auto.
Qed.
Lemma op_take_too_big u s d ks : int_vector u ks -> wf (VMat s d) -> Forall wf d -> 
  (length s < length ks -> vol s = 1) ->
  (maxInt < Z.of_nat (vol (dims (all_axes (take_shape s ks) ks))))%Z -> op_take u (VMat s d) = Err.
Proof.
  intros Hu (A & B & C) WD HX T. unfold op_take. rewrite (int_vector_vec _ _ Hu). cbn [bind].
  apply (mat_take_ok s d ks); auto.
Qed.

(* ---- drop ---- *)
Lemma drop_counts_len s ks : length ks <= length s -> length (drop_counts s ks) = length s.
Proof. intros H. unfold drop_counts. rewrite app_length, repeat_length. lia. Qed.
Definition drop_args (s : list nat) (ks : list Z) : list Z := map (fun p => drop_arg (fst p) (snd p)) (combine s ks).
Lemma drop_args_len s ks : length ks = length s -> length (drop_args s ks) = length s.
Proof. intros H. unfold drop_args. rewrite map_length, combine_length. lia. Qed.
Lemma drop_args_dims s : forall ks, length ks = length s -> dims (drop_args s ks) = map (fun p => fst p - Z.to_nat (Z.abs (snd p))) (combine s ks).
Proof.
  induction s as [|n s IH]; intros [|k ks] L; simpl in *; try lia; auto. f_equal; [|apply IH; lia].
  unfold drop_arg. destruct ((k <? - Z.of_nat n)%Z || (Z.of_nat n <? k)%Z) eqn:E; [lia|]. destruct (Z.leb_spec 0 k); lia.
Qed.
Lemma drop_take_coord s : forall ks c, length ks = length s -> inb (dims (drop_args s ks)) c ->
  take_coord s (drop_args s ks) c = Some (map (fun p => fst p + Z.to_nat (snd p)) (combine c ks)).
Proof.
  induction s as [|n s IH]; intros [|k ks] c L I; simpl in L; try lia.
  { inversion I. reflexivity. }
  destruct c as [|j c]; [inversion I|]. cbn [dims map combine drop_args fst snd] in I. apply inb_cons in I. destruct I as [J I].
  cbn [drop_args combine map fst snd take_coord]. fold (drop_args s ks). rewrite IH by (auto; lia).
  assert (take_from n (drop_arg n k) j = Z.of_nat j + Z.max k 0)%Z as ->.
  { unfold take_from, drop_arg in *. destruct ((k <? - Z.of_nat n)%Z || (Z.of_nat n <? k)%Z) eqn:E; [lia|].
    destruct (Z.leb_spec 0 k); destruct (Z.ltb_spec (k - Z.of_nat n) 0); destruct (Z.ltb_spec (Z.of_nat n + k) 0); lia. }
  destruct ((0 <=? Z.of_nat j + Z.max k 0)%Z && (Z.of_nat j + Z.max k 0 <? Z.of_nat n)%Z) eqn:E.
  - f_equal. f_equal. lia.
  - unfold drop_arg in J. destruct ((k <? - Z.of_nat n)%Z || (Z.of_nat n <? k)%Z) eqn:E'; [lia|]. destruct (Z.leb_spec 0 k); lia.
Qed.
Lemma vol_le s : forall t, length t = length s -> Forall2 le t s -> vol t <= vol s.
Proof. induction s; intros [|x t] L H; simpl in *; try lia. inversion H; subst. apply Nat.mul_le_mono; auto. Qed.
Lemma legal_le s t : Forall2 le t s -> legal s -> legal t.
Proof.
  intros H L k Hk. assert (length t = length s) as LE by (clear L Hk; induction H; simpl; auto).
  specialize (L k ltac:(lia)). enough (vol (firstn k t) <= vol (firstn k s)) by lia.
  apply vol_le; [rewrite !firstn_length; lia|]. clear L Hk LE. revert k. induction H; intros [|k]; simpl; auto.
Qed.
Lemma drop_dims_le s : forall ks, length ks = length s -> Forall2 le (map (fun p => fst p - Z.to_nat (Z.abs (snd p))) (combine s ks)) s.
Proof. induction s as [|n s IH]; intros [|k ks] L; simpl in *; try lia; auto. constructor; [simpl; lia|]. apply IH. lia. Qed.
Lemma mat_drop_ok s d ks : s <> [] -> length d = vol s -> legal s -> Forall wf d -> length ks <= length s ->
  (Z.of_nat (vol s) <= maxInt)%Z ->
  is_array (mat_drop s d (map VInt ks)) (drop_dims s ks) (fun c => nth_error d (ravel s (drop_coord s ks c))).
Proof.
  intros Hs L LG W LK T. unfold mat_drop. rewrite map_length, all_ints_map, ints_of_map. cbn [negb].
  destruct (Nat.ltb_spec (length s) (length ks)); [lia|]. fold (drop_counts s ks).
  pose proof (drop_counts_len s ks LK) as LC. set (ks' := drop_counts s ks) in *.
  replace (map (fun p => VInt (drop_arg (fst p) (snd p))) (combine s ks')) with (map VInt (drop_args s ks'))
    by (unfold drop_args; rewrite map_map; reflexivity).
  pose proof (drop_args_len s ks' LC) as LA.
  assert (take_shape s (drop_args s ks') = s) as TS by (unfold take_shape; rewrite LA, Nat.ltb_irrefl; auto).
  destruct (mat_take_ok s d (drop_args s ks')) as [G _]; auto; [lia|]. rewrite TS in G.
  assert (all_axes s (drop_args s ks') = drop_args s ks') as AA.
  { unfold all_axes. rewrite skipn_ge by lia. rewrite app_nil_r. reflexivity. }
  rewrite AA in G. rewrite (drop_args_dims s ks' LC) in G.
  change (map (fun p => fst p - Z.to_nat (Z.abs (snd p))) (combine s ks')) with (drop_dims s ks) in G.
  assert (Forall2 le (drop_dims s ks) s) as LE by (apply drop_dims_le; auto).
  assert (legal (drop_dims s ks)) as LD by (eapply legal_le; eauto).
  assert (vol (drop_dims s ks) <= vol s) as VL.
  { apply vol_le; auto. unfold drop_dims. rewrite map_length, combine_length. fold ks'. lia. }
  specialize (G ltac:(lia)). apply array_legal in G; auto.
  eapply is_array_ext; [|exact G]. intros c I. cbn beta.
  rewrite drop_take_coord; auto. rewrite (drop_args_dims s ks' LC). exact I.
Qed.
Lemma vec_drop_ok l k : is_array (vec_drop k l) [length l - Z.to_nat (Z.abs k)] (fun c => nth_error l (ravel [length l] (drop_coord [length l] [k] c))).
Proof.
  apply array_legal; [apply legal_short; auto|]. unfold vec_drop.
  assert (forall i, ravel [length l] (drop_coord [length l] [k] [i]) = i + Z.to_nat k) as E by (intros; cbn; lia).
  destruct (Z.ltb_spec k 0) as [N|N].
  - destruct (Nat.ltb_spec (length l) (Z.to_nat (Z.abs k))) as [A|A].
    + apply vec_array; [simpl; f_equal; lia|]. simpl; lia.
    + apply vec_array; [rewrite firstn_length; f_equal; lia|]. rewrite firstn_length. intros i Hi. rewrite E, firstn_nth by lia. f_equal. lia.
  - destruct (Z.eqb_spec k 0) as [->|K0].
    + apply vec_array; [f_equal; lia|]. intros i Hi. rewrite E. f_equal. lia.
    + destruct (Nat.ltb_spec (length l) (Z.to_nat (Z.abs k))) as [A|A].
      * apply vec_array; [simpl; f_equal; lia|]. simpl; lia.
      * apply vec_array; [rewrite skipn_length; f_equal; lia|]. rewrite skipn_length. intros i Hi. rewrite E.
        rewrite <-(firstn_skipn (Z.to_nat (Z.abs k)) l) at 1.
        rewrite nth_error_app2 by (rewrite firstn_length; lia). f_equal. rewrite firstn_length. lia.
Qed.
Lemma op_drop_ok u v ks : int_vector u ks -> wf v -> Forall wf (data_of v) -> rank_of v <> 0 -> length ks <= rank_of v -> ks <> [] ->
  (Z.of_nat (vol (shape_of v)) <= maxInt)%Z ->
  is_array (op_drop u v) (drop_dims (shape_of v) ks) (fun c => elem v (drop_coord (shape_of v) ks c)).
Proof.
  intros Hu W WD R LK KN T. destruct (to_mat_arr v W R) as (TM & LD & LG).
  assert (shape_of v <> []) as SN by (unfold rank_of in R; destruct (shape_of v); simpl in *; congruence).
  unfold op_drop. rewrite (int_vector_vec _ _ Hu). cbn [bind]. unfold elem.
  destruct v; try (unfold rank_of in R; simpl in R; congruence).
  - unfold rank_of in LK. simpl in LK. destruct ks as [|k [|? ?]]; simpl in LK; try lia; [congruence|].
    cbn [to_vec bind map as_int]. apply (vec_drop_ok l k).
  - apply mat_drop_ok; auto.
Qed.

(* A count that is not a number between 0 and 2^31-1 is refused. *)
Lemma shape_of_vec_bad A : (exists x, In x A /\ forall z, x = VInt z -> (z < 0 \/ maxInt < z)%Z) -> forall n, shape_of_vec n A = Err.
Proof.
  induction A as [|a A IH]; intros (x & Hx & Bx) n; [destruct Hx|]. cbn [shape_of_vec].
  destruct Hx as [->|Hx].
  - destruct x; try reflexivity. destruct (Bx z eq_refl) as [H|H].
    + rewrite (proj2 (Z.ltb_lt _ _) H). reflexivity.
    + rewrite (proj2 (Z.ltb_lt _ _) H), orb_true_r. reflexivity.
  - destruct a; try reflexivity. destruct ((z <? 0)%Z || (maxInt <? z)%Z); [reflexivity|].
    destruct (maxInt <? n * z)%Z; [reflexivity|]. rewrite IH by (exists x; auto). reflexivity.
Qed.
Lemma op_rho_bad A v : (exists x, In x A /\ forall z, x = VInt z -> (z < 0 \/ maxInt < z)%Z) -> op_rho (VVec A) v = Err.
Proof.
  intros H. assert (R : forall B, reshape A B = Err).
  { intros B. unfold reshape. rewrite (shape_of_vec_bad A H). destruct A; [destruct H as (? & [] & _)|reflexivity]. }
  unfold op_rho, at_least_vector. cbn [is_mat orb]. destruct v; cbn [is_mat to_vec to_mat bind fst snd]; apply R.
Qed.

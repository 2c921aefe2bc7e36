(* mix *)
From Verif Require Import Value NumModel ArrModel ArrSpec ArrBase ArrRot ArrTake ArrCat ArrSel.
From Coq Require Import Arith ZifyBool ZifyNat.
Open Scope nat_scope.

Lemma inbb_iff s : forall c, inbb s c = true <-> inb s c.
Proof.
  induction s as [|d s IH]; intros [|x c]; simpl; split; intros H; try discriminate; try constructor; try (inversion H; fail).
  - lia.
  - apply IH. lia.
  - inversion H; subst. apply andb_true_iff. split; [lia|]. apply IH; auto.
Qed.
Definition maxs (a b : list nat) : list nat := map (fun p => Nat.max (fst p) (snd p)) (combine a b).
Lemma maxs_len a b : length a = length b -> length (maxs a b) = length a.
Proof. intros H. unfold maxs. rewrite map_length, combine_length. lia. Qed.
Lemma maxs_nth a : forall b i, length a = length b -> nth i (maxs a b) 0 = Nat.max (nth i a 0) (nth i b 0).
Proof. induction a as [|x a IH]; intros [|y b] [|i] H; simpl in H; try lia; simpl; auto. apply IH. lia. Qed.
Lemma max_into_maxs a : forall b, length a = length b -> max_into a b = maxs a b.
Proof.
  induction a as [|x a IH]; intros [|y b] H; simpl in H; try lia; auto. cbn [max_into]. unfold maxs. cbn [combine map fst snd]. fold (maxs a b).
  rewrite IH by lia. f_equal. destruct (Nat.ltb_spec x y); lia.
Qed.
Lemma mix_step_ok r shape e : 1 <= length shape <= r -> length (shp e) = r -> mix_step shape e = maxs (shape ++ repeat 0 (r - length shape)) (shp e).
Proof.
  intros L R. destruct e as [z|z|z|q|x y|l|s d]; unfold shp in *; cbn [as_list shape_of length] in *.
  7: { cbn [mix_step]. unfold mix_grow. rewrite R. apply max_into_maxs. rewrite app_length, repeat_length. lia. }
  all: subst r; destruct shape as [|x0 [|? ?]]; cbn [length] in *; try lia; unfold mix_step, set_last_max, last_, init_; cbn [app removelast last maxs combine map fst snd];
    try (destruct (Nat.eqb_spec x0 0)); try (destruct (Nat.ltb_spec x0 (length l))); f_equal; lia.
Qed.
Lemma max_list_nil r : map (fun i => list_max (map (fun e => nth i (shp e) 0) [])) (seq 0 r) = repeat 0 r.
Proof. cbn. generalize 0 at 2. induction r; intros; simpl; f_equal; auto. Qed.
Lemma list_ext {A} (d : A) l k : length l = length k -> (forall i, i < length l -> nth i l d = nth i k d) -> l = k.
Proof. intros H E. apply nth_ext with d d; auto. Qed.
Lemma fold_mix r xs : forall shape, length shape = r -> 1 <= r -> Forall (fun e => length (shp e) = r) xs ->
  fold_left mix_step xs shape = maxs shape (common r xs).
Proof.
  induction xs as [|e xs IH]; intros shape L R F.
  - cbn [fold_left]. change (common r []) with (map (fun i => list_max (map (fun e => nth i (shp e) 0) [])) (seq 0 r)). rewrite (max_list_nil r). apply (list_ext 0); [rewrite maxs_len; rewrite ?repeat_length; auto|].
    intros i I. rewrite maxs_nth by (rewrite repeat_length; auto). rewrite nth_repeat. lia.
  - inversion F; subst. cbn [fold_left]. rewrite mix_step_ok with (r := length shape) by (auto; lia).
    rewrite Nat.sub_diag. cbn [repeat]. rewrite app_nil_r.
    assert (forall k, length (common (length shape) k) = length shape) as LC by (intros; unfold common; rewrite map_length, seq_length; auto).
    assert (length (maxs shape (shp e)) = length shape) as LM by (apply maxs_len; auto).
    rewrite IH by auto.
    apply (list_ext 0); [rewrite !maxs_len; rewrite ?LC, ?LM; auto|]. rewrite maxs_len by (rewrite LC, LM; auto). rewrite LM.
    intros i I. rewrite !maxs_nth by (rewrite ?LM, ?LC; auto). unfold common. rewrite !nth_map_seq by auto.
    cbn [map list_max fold_right]. fold (list_max (map (fun e0 => nth i (shape_of (as_list e0)) 0) xs)).
    change (nth i (shape_of (as_list e)) 0) with (nth i (shp e) 0). unfold list_max. simpl. lia.
Qed.
Lemma mix_shape_ok r xs : xs <> [] -> 1 <= r -> Forall (fun e => length (shp e) = r) xs -> mix_shape xs = common r xs.
Proof.
  intros N R F. destruct xs as [|e xs]; [congruence|]. inversion F; subst. unfold mix_shape. cbn [fold_left].
  rewrite mix_step_ok with (r := length (shp e)) by (cbn [length]; lia).
  set (r := length (shp e)) in *. cbn [length].
  assert (([0] ++ repeat 0 (r - 1)) = repeat 0 r) as -> by (replace r with (S (r - 1)) at 2 by lia; reflexivity).
  assert (maxs (repeat 0 r) (shp e) = shp e) as ->.
  { apply (list_ext 0); [rewrite maxs_len; rewrite ?repeat_length; auto|]. intros i I. rewrite maxs_nth by (rewrite repeat_length; auto). rewrite nth_repeat. lia. }
  rewrite fold_mix with (r := r) by auto.
  assert (forall k, length (common r k) = r) as LC by (intros; unfold common; rewrite map_length, seq_length; auto).
  apply (list_ext 0); [rewrite maxs_len; rewrite ?LC; auto|]. rewrite maxs_len by (rewrite LC; auto). fold r.
  intros i I. rewrite maxs_nth by (rewrite ?LC; auto). unfold common. rewrite !nth_map_seq by auto. reflexivity.
Qed.

(* taking exactly t *)
Lemma take_coord_nat s : forall t c, length s = length t -> length c = length t ->
  take_coord s (map Z.of_nat t) c = if inbb s c then Some c else None.
Proof.
  induction s as [|n s IH]; intros [|k t] [|j c] H1 H2; simpl in H1, H2; try lia; auto.
  cbn [map take_coord inbb]. unfold take_from. destruct (Z.ltb_spec (Z.of_nat k) 0); [lia|]. rewrite IH by lia.
  destruct (Z.leb_spec 0 (Z.of_nat j)); [|lia]. cbn [andb].
  destruct (Nat.ltb_spec j n), (Z.ltb_spec (Z.of_nat j) (Z.of_nat n)); try lia; auto. cbn [andb]. destruct (inbb s c); auto. rewrite Nat2Z.id. reflexivity.
Qed.
Lemma dims_nat t : dims (map Z.of_nat t) = t.
Proof. unfold dims. rewrite map_map. rewrite (map_ext _ (fun x => x)); [apply map_id|]. intros; lia. Qed.
Lemma mat_take_nat s d t : s <> [] -> length d = vol s -> Forall wf d -> length s = length t ->
  ((Z.of_nat (vol t) <= maxInt)%Z -> gives_array (mat_take s d (map (fun n => VInt (Z.of_nat n)) t)) t (padded (VMat s d))) /\
  ((maxInt < Z.of_nat (vol t))%Z -> mat_take s d (map (fun n => VInt (Z.of_nat n)) t) = Err).
Proof.
  intros Hs L W E. pose proof (mat_take_ok s d (map Z.of_nat t) Hs L W) as H. rewrite map_length in H. specialize (H ltac:(lia)).
  assert (take_shape s (map Z.of_nat t) = s) as TS by (unfold take_shape; rewrite map_length, E, Nat.ltb_irrefl; auto).
  assert (all_axes s (map Z.of_nat t) = map Z.of_nat t) as AA.
  { unfold all_axes. rewrite map_length, <-E, skipn_all. apply app_nil_r. }
  cbv zeta in H. rewrite TS, AA, dims_nat, map_map in H. destruct H as [H1 H2]. split; [|auto].
  intros B. destruct (H1 B) as [[LG (v & R & WV & S & EL)]|]; [left|right; auto]. split; auto. exists v. repeat (split; auto).
  - destruct (EL c H) as [-> _]. rewrite take_coord_nat by (auto; apply inb_len in H; lia). unfold padded, elem. cbn [shape_of data_of]. destruct (inbb s c); auto.
  - destruct (EL c H); auto.
Qed.
Lemma mat_take_mat s d v w : mat_take s d v = Ok w -> exists s' o, w = VMat s' o.
Proof.
  unfold mat_take. destruct (negb (all_ints v)); [discriminate|].
  destruct (if length s <? length v then if size s =? 1 then Ok (repeat 1 (length v)) else Err else Ok s); try discriminate. cbn [bind].
  match goal with |- (if ?b then _ else _) = _ -> _ => destruct b; [discriminate|] end.
  destruct (fill_value d); try discriminate. cbn [bind]. destruct (mapM _ _); try discriminate. cbn [bind]. unfold new_matrix.
  destruct (too_large _); [discriminate|]. destruct (_ =? _); [|discriminate]. injection 1 as <-. eauto.
Qed.
Lemma mix_elem_ok r t e : 1 <= r -> length t = r -> mixable r t e ->
  ((Z.of_nat (vol t) <= maxInt)%Z /\ legal t -> exists o, mix_elem t e = Ok o /\ length o = vol t /\
     forall c, inb t c -> nth_error o (ravel t c) = padded (as_list e) c) /\
  (~ ((Z.of_nat (vol t) <= maxInt)%Z /\ legal t) -> mix_elem t e = Err).
Proof.
  intros R LT (W & WD & RE & ONE).
  set (take := fun ts d => let! m := new_matrix ts d in
                   match m with VMat s dd => let! r := mat_take s dd (map (fun n => VInt (Z.of_nat n)) t) in match r with VMat _ o => Ok o | _ => Crash end | _ => Crash end).
  assert (length (data_of e) = vol (shp e) /\ legal (shp e) /\ shp e <> []) as (LD & LG & SN).
  { split; [|split; [|destruct (shp e); simpl in RE; [lia|discriminate]]]; destruct e; cbn; auto; try (apply legal_short; auto; fail); try lia; try apply W. }
  assert (data_of (as_list e) = data_of e) as DA by (destruct e; auto).
  assert (take (shp e) (data_of e) = let! r := mat_take (shp e) (data_of e) (map (fun n => VInt (Z.of_nat n)) t) in match r with VMat _ o => Ok o | _ => Crash end) as TK.
  { unfold take. destruct (new_matrix_ok (shp e) (data_of e) SN LD) as [[_ ->]|[N _]]; [reflexivity|tauto]. }
  assert (((Z.of_nat (vol t) <= maxInt)%Z /\ legal t -> exists o, take (shp e) (data_of e) = Ok o /\ length o = vol t /\
     forall c, inb t c -> nth_error o (ravel t c) = padded (as_list e) c) /\
     (~ ((Z.of_nat (vol t) <= maxInt)%Z /\ legal t) -> take (shp e) (data_of e) = Err)) as [T1 T2].
  { rewrite TK. destruct (mat_take_nat (shp e) (data_of e) t SN LD WD ltac:(lia)) as [H1 H2]. split.
    - intros [B LT']. destruct (array_legal _ _ _ LT' (H1 B)) as (v & R' & WV & S & EL). rewrite R'. cbn [bind].
      assert (exists o, v = VMat t o) as [o ->] by (destruct (mat_take_mat _ _ _ _ R') as (s' & o & ->); exists o; simpl in S; subst; auto).
      exists o. split; auto. split; [apply WV|]. intros c I. destruct (EL c I) as [EC _]. unfold elem in EC. cbn [shape_of data_of] in EC. rewrite EC.
      unfold padded, elem. cbn [shape_of data_of]. rewrite DA. reflexivity.
    - intros N. destruct (Z.leb_spec (Z.of_nat (vol t)) maxInt) as [B|B]; [|rewrite H2 by auto; reflexivity].
      destruct (H1 B) as [[L' _]|[_ ->]]; [tauto|reflexivity]. }
  destruct e as [z|z|z|q|x y|l|s d]; unfold shp in *; cbn [as_list shape_of data_of length] in *.
  7: { cbn [mix_elem]. fold take. rewrite LT, RE, Nat.eqb_refl, Nat.sub_diag. cbn [andb repeat app].
       destruct (list_eq_dec Nat.eq_dec s (repeat 1 r)) as [->|NE]; [|rewrite shape_eqb_neq by auto; split; auto].
       rewrite shape_eqb_refl. specialize (ONE d eq_refl). subst t. split.
       - intros _. exists d. split; auto. split; auto. intros c I. unfold padded, elem. cbn [shape_of data_of].
         apply inbb_iff in I. rewrite I. reflexivity.
       - intros N. exfalso. apply N. split; auto. rewrite vol_ones. unfold maxInt. lia. }
  6: { cbn [mix_elem]. fold take. rewrite LT, <-RE. cbn [Nat.sub repeat app]. split; auto. }
  all: cbn [mix_elem]; fold take; rewrite LT, <-RE; cbn [Nat.sub repeat app]; split; auto.
Qed.

Lemma legal_app s t : vol s <> 0 -> s <> [] -> legal (s ++ t) -> legal t.
Proof.
  intros V N L k K. specialize (L (length s + k) ltac:(rewrite app_length; lia)). rewrite firstn_app_2 in L. rewrite vol_app in L. nia.
Qed.
Lemma legal_app_vol s t : vol s <> 0 -> s <> [] -> t <> [] -> legal (s ++ t) -> (Z.of_nat (vol t) <= maxInt)%Z.
Proof.
  intros V N T L. destruct s as [|a s]; [congruence|]. destruct t as [|b t]; [congruence|].
  specialize (L (length ((a :: s) ++ b :: t)) ltac:(rewrite app_length; simpl; lia)). rewrite firstn_all, vol_app in L. unfold maxInt. nia.
Qed.
Lemma concat_nth_map {A B} (f : A -> list B) (xs : list A) (d : A) t : Forall (fun x => length (f x) = t) xs ->
  length (concat (map f xs)) = length xs * t /\
  forall r j, r < length xs -> j < t -> nth_error (concat (map f xs)) (r * t + j) = nth_error (f (nth r xs d)) j.
Proof.
  intros F. induction F as [|x xs E F IH]; [split; auto; simpl; lia|]. cbn [map concat length]. destruct IH as [L N]. split; [rewrite app_length; lia|].
  intros [|r] j R J; cbn [nth]; [rewrite nth_error_app1 by lia; reflexivity|]. rewrite nth_error_app2 by lia. rewrite E.
  replace (S r * t + j - t) with (r * t + j) by lia. apply N; lia.
Qed.
Lemma mapM_all_err {A B} (f : A -> res B) l : l <> [] -> (forall x, In x l -> f x = Err) -> mapM f l = Err.
Proof. destruct l; [congruence|]. intros _ H. simpl. rewrite H by (left; auto). reflexivity. Qed.
Lemma mat_mix_ok r s d : 1 <= r -> s <> [] -> length d = vol s -> d <> [] -> ~ Forall scalar d ->
  Forall (mixable r (common r d)) d ->
  gives_array (mat_mix s d) (s ++ common r d)
    (fun c => padded (as_list (nth (ravel s (firstn (length s) c)) d (VInt 0))) (skipn (length s) c)).
Proof.
  intros R Hs L DN NS F. assert (forallb is_scalar d = false) as SC.
  { destruct (forallb is_scalar d) eqn:E; auto. exfalso. apply NS. rewrite forallb_forall in E. apply Forall_forall. intros x I. specialize (E x I). destruct x; simpl in *; auto; discriminate. }
  unfold mat_mix. rewrite SC. assert (Forall (fun e => length (shp e) = r) d) as FR by (eapply Forall_impl; [|exact F]; intros e H; apply H).
  rewrite (mix_shape_ok r d DN R FR). set (t := common r d) in *. assert (length t = r) as LT by (unfold t, common; rewrite map_length, seq_length; auto).
  assert (vol s <> 0) as V by (rewrite <-L; destruct d; simpl; congruence).
  assert (t <> []) as TN by (destruct t; simpl in *; [lia|discriminate]).
  assert (s ++ t <> []) as STN by (destruct s; simpl; congruence).
  assert (((Z.of_nat (vol t) <= maxInt)%Z /\ legal t) \/ ~ ((Z.of_nat (vol t) <= maxInt)%Z /\ legal t)) as [D|D].
  { destruct (legal_dec t); [|tauto]. destruct (Z.leb_spec (Z.of_nat (vol t)) maxInt); [tauto|]. right. intros [? ?]; lia. }
  - set (out := fun e => match mix_elem t e with Ok o => o | _ => [] end).
    assert (forall e, In e d -> mix_elem t e = Ok (out e) /\ length (out e) = vol t /\ forall c, inb t c -> nth_error (out e) (ravel t c) = padded (as_list e) c) as O.
    { intros e I. rewrite Forall_forall in F. destruct (mix_elem_ok r t e R LT (F e I)) as [H _]. destruct (H D) as (o & E & LO & N). unfold out. rewrite E. auto. }
    rewrite mapM_ok with (g := out) by (intros e I; apply O; auto). cbn [bind].
    destruct (concat_nth_map out d (VInt 0) (vol t)) as [LC NC]. { apply Forall_forall. intros e I. apply O; auto. }
    apply new_matrix_array; auto; [rewrite LC, vol_app, L; auto|].
    intros c I. assert (c = firstn (length s) c ++ skipn (length s) c) as CE by (symmetry; apply firstn_skipn).
    set (c1 := firstn (length s) c) in *. set (c2 := skipn (length s) c) in *.
    assert (length c1 = length s) as L1. { unfold c1. rewrite firstn_length. apply inb_len in I. rewrite app_length in I. lia. }
    rewrite CE in I |- *. apply inb_app in I; auto. destruct I as [I1 I2]. rewrite ravel_app by auto.
    pose proof (ravel_lt _ _ I1). pose proof (ravel_lt _ _ I2). rewrite NC by lia. apply O; auto. apply nth_In. lia.
  - right. split.
    + intros LG. apply D. split; [eapply legal_app_vol; eauto|eapply legal_app; eauto].
    + rewrite mapM_all_err; auto. intros e I. rewrite Forall_forall in F. apply (mix_elem_ok r t e R LT (F e I)). auto.
Qed.
Lemma op_mix_ok r v : 1 <= r -> wf v -> rank_of v <> 0 -> data_of v <> [] -> ~ Forall scalar (data_of v) ->
  Forall (mixable r (common r (data_of v))) (data_of v) ->
  gives_array (op_mix v) (shape_of v ++ common r (data_of v))
    (fun c => match elem v (firstn (rank_of v) c) with Some e => padded (as_list e) (skipn (rank_of v) c) | None => None end).
Proof.
  intros R W RN DN NS F. destruct (to_mat_arr v W RN) as (_ & LD & _).
  assert (shape_of v <> []) as SN by (unfold rank_of in RN; destruct (shape_of v); simpl in *; congruence).
  pose proof (mat_mix_ok r (shape_of v) (data_of v) R SN LD DN NS F) as H.
  assert (op_mix v = mat_mix (shape_of v) (data_of v) /\ length (shape_of v ++ common r (data_of v)) <> 1) as [E NE].
  { assert (length (shape_of v ++ common r (data_of v)) <> 1) as NE.
    { rewrite app_length. unfold common. rewrite map_length, seq_length. destruct (shape_of v); [congruence|]. simpl. lia. }
    split; auto. destruct v; cbn [op_mix shape_of data_of] in *; auto; try (unfold rank_of in RN; simpl in RN; congruence).
    destruct H as [[LG (w & -> & WW & SW & _)]|[_ ->]]; [|reflexivity]. cbn [bind]. destruct w as [| | | | |?|s' d']; auto. destruct s' as [|? [|? ?]]; auto.
    exfalso. apply NE. rewrite <-SW. reflexivity. }
  rewrite E. destruct H as [[LG (w & H1 & H2 & H3 & H4)]|H]; [left|right; auto]. split; auto. exists w. repeat (split; auto).
  - destruct (H4 c H) as [-> _]. unfold rank_of. unfold elem at 1. set (k := length (shape_of v)).
    assert (ravel (shape_of v) (firstn k c) < length (data_of v)) as B.
    { rewrite LD. apply ravel_lt. assert (length (firstn k c) = length (shape_of v)) as LK.
      { rewrite firstn_length. apply inb_len in H. rewrite app_length in H. unfold k. lia. }
      rewrite <-(firstn_skipn k c) in H. apply inb_app in H; [apply H|exact LK]. }
    rewrite (nth_error_nth' _ (VInt 0) B). reflexivity.
  - destruct (H4 c H); auto.
Qed.
(* joining the rows of a split matrix gives it back *)
Lemma row_all s n d : length d = vol (s ++ [n]) -> concat (map (fun r => map (fun j => nth (r * n + j) d dflt) (seq 0 n)) (seq 0 (vol s))) = d.
Proof.
  intros L. rewrite concat_rows. destruct (Nat.eq_dec n 0) as [->|N].
  { rewrite vol_snoc, Nat.mul_0_r in L. rewrite Nat.mul_0_r. destruct d; [reflexivity|discriminate]. }
  rewrite (map_ext _ (fun p => nth p d dflt)) by (intros p; f_equal; rewrite Nat.mul_comm; symmetry; apply Nat.div_mod; auto).
  apply map_nth_seq. rewrite L, vol_snoc. reflexivity.
Qed.
Lemma array_data v s f d : is_array (Ok v) s f -> s <> [] -> length d = vol s -> (forall c, inb s c -> f c = nth_error d (ravel s c)) -> data_of v = d.
Proof.
  intros (w & E & W & S & EL) Hs L H. assert (w = v) as -> by (injection E; auto). clear E. assert (rank_of v <> 0) as R by (unfold rank_of; rewrite S; destruct s; simpl; congruence).
  destruct (to_mat_arr v W R) as (_ & LD & _). rewrite S in LD.
  apply (list_ext dflt); [lia|]. intros i I. rewrite LD in I.
  assert (Some (nth i (data_of v) dflt) = Some (nth i d dflt)) as SS; [|injection SS; auto].
  rewrite <-(nth_error_nth' (data_of v)), <-(nth_error_nth' d) by lia.
  rewrite <-(ravel_unravel s i I). pose proof (unravel_inb s i I) as U. rewrite <-H by auto. destruct (EL _ U) as [<- _]. unfold elem. rewrite S. reflexivity.
Qed.
Lemma mix_split s n d : s <> [] -> vol s <> 0 -> wf (VMat (s ++ [n]) d) -> Forall wf d ->
  bind (op_split (VMat (s ++ [n]) d)) op_mix = Ok (VMat (s ++ [n]) d).
Proof.
  intros Hs V W FD. set (m := VMat (s ++ [n]) d). destruct (W) as (_ & LD & LG). unfold op_split.
  destruct (mat_split_ok s n d Hs LD LG) as (w & E & WW & SW & EL). unfold m. cbv beta iota. rewrite E. fold m. cbn [bind].
  assert (rank_of w <> 0) as RW by (unfold rank_of; rewrite SW; destruct s; simpl; congruence).
  destruct (to_mat_arr w WW RW) as (_ & LW & _). rewrite SW in LW.
  assert (data_of w = map (fun i => VVec (row m n (unravel s i))) (seq 0 (vol s))) as DW.
  { apply (array_data w s (fun c => Some (VVec (row m n c)))); auto.
    - exists w. auto.
    - rewrite map_length, seq_length. auto.
    - intros c I. rewrite nth_error_map_seq by (apply ravel_lt; auto). rewrite unravel_ravel by auto. reflexivity. }
  assert (forall e, In e (data_of w) -> exists c, inb s c /\ e = VVec (row m n c)) as RO.
  { intros e I. rewrite DW in I. apply in_map_iff in I. destruct I as (i & <- & I). apply in_seq in I. exists (unravel s i). split; auto. apply unravel_inb. lia. }
  assert (data_of w <> []) as DN by (intros Z; apply V; rewrite <-LW, Z; reflexivity).
  assert (common 1 (data_of w) = [n]) as CM.
  { unfold common. cbn [seq map]. f_equal. apply Nat.le_antisymm.
    - apply list_max_le. apply Forall_forall. intros x I. apply in_map_iff in I. destruct I as (e & <- & I). destruct (RO e I) as (c & _ & ->). cbn. rewrite row_len. auto.
    - destruct (data_of w) as [|e l] eqn:DE; [congruence|]. destruct (RO e (or_introl eq_refl)) as (c & _ & ->). cbn. rewrite row_len. lia. }
  assert (forall j c, In j (row m n c) -> inb s c -> wf j) as RWF.
  { intros x c I IC. rewrite (row_eq m s n c) in I by auto. apply in_map_iff in I. destruct I as (j & <- & J). apply in_seq in J. rewrite Forall_forall in FD.
    apply FD. cbn [data_of m]. apply nth_In. rewrite LD, vol_snoc. pose proof (ravel_lt _ _ IC). nia. }
  assert (gives_array (op_mix w) (s ++ [n])
    (fun c => match elem w (firstn (rank_of w) c) with Some e => padded (as_list e) (skipn (rank_of w) c) | None => None end)) as H.
  { rewrite <-SW, <-CM. apply op_mix_ok; auto.
    - intros F. destruct (data_of w) as [|e l]; [congruence|]. destruct (RO e (or_introl eq_refl)) as (c & _ & ->). inversion F; subst. cbn in *. tauto.
    - apply Forall_forall. intros e I. destruct (RO e I) as (c & IC & ->). split; [exact Logic.I|]. split; [|split; [reflexivity|discriminate]].
      apply Forall_forall. intros x IX. eapply RWF; eauto. }
  apply array_legal in H; auto. destruct H as (r & ER & WR & SR & ELR).
  assert (data_of r = d) as DR.
  { eapply (array_data r (s ++ [n])); [exists r; split; [reflexivity|]; split; [auto|]; split; [exact SR|exact ELR]|apply snoc_nonnil|auto|].
    intros c I. destruct (inb_snoc _ _ _ I) as (c' & j & -> & I' & J). assert (rank_of w = length c') as -> by (unfold rank_of; rewrite SW; symmetry; apply inb_len; auto).
    rewrite firstn_app, skipn_app, Nat.sub_diag, firstn_all, skipn_all. cbn [firstn skipn app]. rewrite app_nil_r.
    destruct (EL c' I') as [-> _]. cbn [as_list]. unfold padded. cbn [shape_of inbb]. rewrite row_len. destruct (Nat.ltb_spec j n); [|lia]. cbn [andb].
    unfold elem. cbn [shape_of data_of ravel vol]. rewrite Nat.mul_1_r, Nat.add_0_r. fold m. rewrite (row_eq m s n c') by auto. rewrite nth_error_map_seq by auto.
    rewrite ravel_snoc by (apply inb_len; auto). symmetry. apply nth_error_nth'. change (data_of m) with d; rewrite LD, vol_snoc. pose proof (ravel_lt _ _ I'). nia. }
  rewrite ER. f_equal. destruct r as [| | | | |l|s' d']; cbn [shape_of] in SR; try (exfalso; destruct s as [|a [|b s]]; cbn in SR; congruence).
  cbn in DR. subst. reflexivity.
Qed.

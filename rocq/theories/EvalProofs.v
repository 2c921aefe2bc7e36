(* Proofs about EvalModel.v: elementwise application. *)
From Verif Require Import Value ArrModel EvalModel ArrSpec EvalSpec ArrBase ArrRot ArrCat ArrSel.
Open Scope nat_scope.

Lemma mapM_cases {A B} (f : A -> res B) l :
  (exists r, mapM f l = Ok r) \/ (exists x, In x l /\ fails (f x) (mapM f l)).
Proof.
  induction l as [|x l IH]; [left; eexists; reflexivity|]. cbn [mapM]. destruct (f x) eqn:E.
  2-4: right; exists x; split; [now left|]; rewrite E; reflexivity.
  destruct IH as [[r Hr]|(y & Hy & Hf)].
  - left. rewrite Hr. eexists; reflexivity.
  - right. exists y. split; [now right|]. cbn [bind]. destruct (f y); cbn [fails] in *; [easy| | |]; rewrite Hf; reflexivity.
Qed.
Lemma build_cases n f :
  (exists r, build n f = Ok r /\ length r = n /\ forall i, i < n -> exists x, nth_error r i = Some x /\ f i = Ok x) \/
  (exists i, i < n /\ fails (f i) (build n f)).
Proof.
  unfold build. destruct (mapM_cases f (seq 0 n)) as [[r Hr]|(x & Hx & Hf)].
  - left. exists r. split; [easy|]. pose proof (mapM_Ok_len _ _ _ Hr) as HL. rewrite seq_length in HL. split; [easy|].
    intros i Hi. apply (mapM_Ok_nth _ _ _ Hr). rewrite (nth_error_nth' _ 0) by (rewrite seq_length; lia).
    rewrite seq_nth by lia. reflexivity.
  - right. exists x. apply in_seq in Hx. split; [lia|easy].
Qed.
Lemma fails_bind {A B C} (m : res A) (b : res B) (k : B -> res C) : fails m b -> fails m (let! x := b in k x).
Proof. destruct m; cbn; intros H; try subst; easy. Qed.
Lemma fails_ok {A B} (m : res A) (v : B) : ~ fails m (Ok v).
Proof. destruct m; cbn; easy. Qed.

Lemma computes_mat s n f g : s <> [] -> n = vol s ->
  (forall c, inb s c -> f (ravel s c) = g c) -> computes_if_legal (let! r := build n f in new_matrix s r) s g.
Proof.
  intros Hs -> Hf. destruct (build_cases (vol s) f) as [(r & Hr & HL & Hn)|(i & Hi & Hi')].
  - rewrite Hr. cbn [bind]. destruct (new_matrix_ok s r Hs HL) as [[Hl ->]|[Hl ->]]; split; try easy.
    intros _. left. exists (VMat s r). split; [easy|]. split; [easy|]. split; [easy|].
    intros c Hc. destruct (Hn (ravel s c) (ravel_lt _ _ Hc)) as (x & Hx & Hx'). exists x. split; [easy|].
    now rewrite <-Hf.
  - assert (F : fails (g (unravel s i)) (let! r := build (vol s) f in new_matrix s r)).
    { apply fails_bind. rewrite <-Hf by now apply unravel_inb. now rewrite ravel_unravel. }
    split.
    + intros _. right. exists (unravel s i). split; [now apply unravel_inb|easy].
    + intros _ v Hv. rewrite Hv in F. now apply fails_ok in F.
Qed.
Lemma computes_mat_legal s n f g : s <> [] -> n = vol s -> legal s ->
  (forall c, inb s c -> f (ravel s c) = g c) -> computes (let! r := build n f in new_matrix s r) s g.
Proof. intros. apply (computes_mat s n f g); easy. Qed.
Lemma computes_vec n f g : (forall i, i < n -> f i = g [i]) -> computes (let! r := build n f in Ok (VVec r)) [n] g.
Proof.
  intros Hf. destruct (build_cases n f) as [(r & Hr & HL & Hn)|(i & Hi & Hi')].
  - rewrite Hr. cbn [bind]. left. exists (VVec r). split; [easy|]. split; [easy|]. split; [cbn; congruence|].
    intros c Hc. destruct (inb1 _ _ Hc) as (i & -> & Hi). destruct (Hn i Hi) as (x & Hx & Hx').
    exists x. split; [|now rewrite <-Hf]. unfold elem. cbn. now rewrite Nat.mul_1_r, Nat.add_0_r.
  - right. exists [i]. split; [apply inb_cons; split; [easy|apply inb_nil]|]. apply fails_bind. now rewrite <-Hf.
Qed.
Lemma computes_ext r s g g' : (forall c, inb s c -> g c = g' c) -> computes r s g -> computes r s g'.
Proof.
  intros E [(v & -> & W & Hs & H)|(c & Hc & H)].
  - left. exists v. split; [easy|]. split; [easy|]. split; [easy|]. intros c Hc. rewrite <-E by easy. auto.
  - right. exists c. rewrite <-E by easy. auto.
Qed.
Lemma computes_il_ext r s g g' : (forall c, inb s c -> g c = g' c) -> computes_if_legal r s g -> computes_if_legal r s g'.
Proof. intros E [H1 H2]. split; [|easy]. intros L. eapply computes_ext; eauto. Qed.

Lemma computes_vom s n f g : s <> [] -> n = vol s ->
  (forall c, inb s c -> f (ravel s c) = g c) -> computes_if_legal (let! r := build n f in vec_or_mat s r) s g.
Proof.
  intros Hs -> Hf. destruct s as [|a [|b s]]; [easy| |].
  - split; [intros _|intros H; exfalso; apply H; now apply legal_short].
    replace (vol [a]) with a by (cbn; lia). cbn [vec_or_mat]. apply computes_vec. intros i Hi. rewrite <-Hf.
    + f_equal. cbn; lia.
    + apply inb_cons; split; [easy|apply inb_nil].
  - apply (computes_mat (a :: b :: s)); auto.
Qed.

(* reading *)
Lemma at_elem v c : wf v -> rank_of v <> 0 -> inb (shape_of v) c ->
  exists x, elem v c = Some x /\ at_ (data_of v) (ravel (shape_of v) c) = Ok x.
Proof.
  intros W R I. destruct (to_mat_arr v W R) as (_ & L & _). unfold elem, at_.
  destruct (nth_error (data_of v) (ravel (shape_of v) c)) eqn:E; eauto.
  apply nth_error_None in E. apply ravel_lt in I. lia.
Qed.

(* ---- elementwise, one operand ---- *)
Lemma el_unary_ok fs ev1 v : wf v -> rank_of v <> 0 ->
  computes (el_unary fs ev1 v) (shape_of v) (fun c => on1 ev1 (elem v c)).
Proof.
  intros W R. pose proof (at_elem v) as HE. destruct v as [| | | | |l|s d]; try (cbn in R; lia).
  - cbn [el_unary shape_of]. apply computes_vec. intros i Hi.
    destruct (HE [i] W R) as (x & Hx & Hx'); [apply inb_cons; split; [easy|apply inb_nil]|].
    rewrite Hx. cbn in Hx'. rewrite Nat.mul_1_r, Nat.add_0_r in Hx'. rewrite Hx'. reflexivity.
  - destruct W as (Hs & HL & Hl). cbn [el_unary shape_of]. apply computes_mat_legal; auto.
    intros c Hc. destruct (HE c (conj Hs (conj HL Hl)) R Hc) as (x & Hx & Hx'). cbn in Hx'. rewrite Hx, Hx'. reflexivity.
Qed.

(* ---- elementwise, two operands ---- *)
Lemma all_ones_iff s : all_ones s = true <-> s = repeat 1 (length s).
Proof.
  induction s as [|a s IH]; [easy|]. cbn [all_ones forallb]. rewrite andb_true_iff, Nat.eqb_eq.
  change (forallb (fun d => d =? 1) s) with (all_ones s). rewrite IH. cbn. split.
  - intros [-> H]. f_equal. exact H.
  - intros H. injection H as -> H. now split.
Qed.
Lemma vol_one_ones s : vol s = 1 <-> all_ones s = true.
Proof.
  rewrite all_ones_iff. split; [|intros ->; apply vol_ones].
  induction s as [|a s IH]; [easy|]. cbn. intros H. apply Nat.eq_mul_1 in H as [-> H]. f_equal. auto.
Qed.
Lemma single_arr v x : single v x -> is_mat v = true -> exists s, v = VMat s [x] /\ all_ones s = true.
Proof. intros [V D] M. destruct v; try easy. cbn in *. subst. exists shape. split; [easy|]. now apply vol_one_ones. Qed.
Lemma single_vec v x : single v x -> is_mat v = false -> to_vec v = Ok [x].
Proof. intros [V D] M. destruct v; try easy; cbn in *; congruence. Qed.
Lemma single_mat v x : single v x -> exists s, to_mat v = (s, [x]) /\ all_ones s = true.
Proof.
  intros [V D]. destruct v; cbn in *; try (injection D as <-; eexists; split; reflexivity).
  - subst. eexists; split; reflexivity.
  - subst. eexists; split; [reflexivity|]. now apply vol_one_ones.
Qed.
Lemma rank_is_scalar v : rank_of v <> 0 -> is_scalar v = false.
Proof. destruct v; cbn; try lia; auto. Qed.

Lemma el_single_left fs ev u v x : single u x -> wf v -> rank_of v <> 0 ->
  computes (el_binary fs ev u v) (shape_of v) (fun c => on1 (ev x) (elem v c)).
Proof.
  intros Su Wv Rv. pose proof (at_elem v) as HE. unfold el_binary. rewrite (rank_is_scalar v Rv), andb_false_r.
  unfold at_least_vector. destruct (is_mat u || is_mat v) eqn:M.
  - destruct (single_mat u x Su) as (s & -> & Hs). destruct (to_mat_arr v Wv Rv) as (-> & HL & Hl).
    unfold el_mat. rewrite Hs. apply computes_mat_legal; auto.
    { unfold rank_of in Rv. now destruct (shape_of v). }
    intros c Hc. destruct (HE c Wv Rv Hc) as (y & Hy & Hy'). rewrite Hy. unfold pair_at. rewrite Hy'. reflexivity.
  - apply orb_false_iff in M as [Mu Mv]. rewrite (single_vec u x Su Mu).
    destruct (to_vec_arr v Mv Rv) as (l & ->). cbn [to_vec bind]. unfold el_vec. cbn [length Nat.eqb shape_of].
    apply computes_vec. intros i Hi. destruct (HE [i] Wv Rv) as (y & Hy & Hy'); [apply inb_cons; split; [easy|apply inb_nil]|].
    rewrite Hy. cbn in Hy'. rewrite Nat.mul_1_r, Nat.add_0_r in Hy'. unfold pair_at. rewrite Hy'. reflexivity.
Qed.
Lemma el_single_right fs ev u v y : single v y -> wf u -> rank_of u <> 0 -> vol (shape_of u) <> 1 ->
  computes (el_binary fs ev u v) (shape_of u) (fun c => on1 (fun x => ev x y) (elem u c)).
Proof.
  intros Sv Wu Ru Vu. pose proof (at_elem u) as HE. unfold el_binary. rewrite (rank_is_scalar u Ru).
  cbn [andb]. unfold at_least_vector. destruct (is_mat u || is_mat v) eqn:M.
  - destruct (single_mat v y Sv) as (s & -> & Hs). destruct (to_mat_arr u Wu Ru) as (-> & HL & Hl).
    unfold el_mat. rewrite Hs. destruct (all_ones (shape_of u)) eqn:A; [now apply vol_one_ones in A|].
    apply computes_mat_legal; auto.
    { unfold rank_of in Ru. now destruct (shape_of u). }
    intros c Hc. destruct (HE c Wu Ru Hc) as (x & Hx & Hx'). rewrite Hx. unfold pair_at. rewrite Hx'. reflexivity.
  - apply orb_false_iff in M as [Mu Mv]. rewrite (single_vec v y Sv Mv).
    destruct (to_vec_arr u Mu Ru) as (l & ->). cbn [to_vec bind]. unfold el_vec. cbn [shape_of] in *.
    destruct (Nat.eqb_spec (length l) 1) as [E|E]; [cbn in Vu; lia|]. change (length [y] =? 1) with true. cbv iota.
    apply computes_vec. intros i Hi. destruct (HE [i] Wu Ru) as (x & Hx & Hx'); [apply inb_cons; split; [easy|apply inb_nil]|].
    rewrite Hx. cbn in Hx'. rewrite Nat.mul_1_r, Nat.add_0_r in Hx'. unfold pair_at. rewrite Hx'. reflexivity.
Qed.
Lemma vec_like_iff s t : s <> [] -> t <> [] -> vec_like s t = true <-> exists k, s = last t 0 :: repeat 1 k.
Proof.
  intros Hs Ht. destruct s as [|d s]; [easy|]. destruct t as [|a t]; [easy|]. unfold vec_like.
  rewrite andb_true_iff, Nat.eqb_eq, all_ones_iff. unfold last_. split.
  - intros [-> H]. exists (length s). now rewrite <-H.
  - intros (k & H). injection H as -> ->. split; auto. now rewrite repeat_length.
Qed.
Lemma vec_like_same s : s <> [] -> vec_like s s = true -> exists n, s = [n] \/ all_ones s = true.
Proof.
  intros Hs H. apply vec_like_iff in H as (k & H); auto. destruct k.
  - cbn in H. eauto.
  - exists 0. right. rewrite H. cbn [repeat]. apply all_ones_iff. cbn [length]. rewrite repeat_length.
    cbn [repeat]. f_equal. rewrite H. cbn [repeat].
    change (last (last s 0 :: 1 :: repeat 1 k) 0) with (last (1 :: repeat 1 k) 0).
    clear. induction k; auto.
Qed.
Lemma el_same fs ev u v : wf u -> wf v -> rank_of u <> 0 -> shape_of u = shape_of v ->
  computes (el_binary fs ev u v) (shape_of u) (fun c => on2 ev (elem u c) (elem v c)).
Proof.
  intros Wu Wv Ru Es. assert (Rv : rank_of v <> 0) by (unfold rank_of in *; congruence).
  destruct (Nat.eq_dec (vol (shape_of u)) 1) as [V1|V1].
  { destruct (to_mat_arr u Wu Ru) as (_ & HL & _). rewrite V1 in HL.
    destruct (data_of u) as [|x [|? ?]] eqn:D; cbn in HL; try lia.
    rewrite Es. eapply computes_ext; [|apply (el_single_left fs ev u v x); auto; split; auto].
    intros c Hc. cbn beta. unfold elem at 2. rewrite D, Es.
    assert (ravel (shape_of v) c = 0) as -> by (apply ravel_lt in Hc; rewrite <-Es in *; lia). reflexivity. }
  assert (P : forall c, inb (shape_of u) c -> pair_at ev (data_of u) (data_of v) (ravel (shape_of u) c) (ravel (shape_of u) c) = on2 ev (elem u c) (elem v c)).
  { intros c Hc. destruct (at_elem u c Wu Ru Hc) as (x & Hx & Hx'). rewrite Es in Hc.
    destruct (at_elem v c Wv Rv Hc) as (y & Hy & Hy'). rewrite Hx, Hy. unfold pair_at. rewrite Hx', Es, Hy'. reflexivity. }
  assert (Hne : shape_of u <> []) by (unfold rank_of in Ru; now destruct (shape_of u)).
  unfold el_binary. rewrite (rank_is_scalar v Rv), andb_false_r. unfold at_least_vector. destruct (is_mat u || is_mat v) eqn:M.
  - destruct (to_mat_arr u Wu Ru) as (-> & HL & Hl). destruct (to_mat_arr v Wv Rv) as (-> & HL' & Hl').
    unfold el_mat. rewrite <-Es. destruct (all_ones (shape_of u)) eqn:A; [now apply vol_one_ones in A|].
    destruct (vec_like (shape_of u) (shape_of u)) eqn:VL.
    + apply vec_like_same in VL as (n & [E|?]); auto; [|congruence]. apply computes_mat_legal; auto; [congruence|].
      intros c Hc. rewrite <-P by auto. f_equal. rewrite E in *. apply inb1 in Hc as (i & -> & Hi). cbn.
      apply Nat.mod_small. lia.
    + rewrite shape_eqb_refl. cbn [negb]. apply computes_mat_legal; auto.
  - apply orb_false_iff in M as [Mu Mv]. destruct (to_vec_arr u Mu Ru) as (l & ->). destruct (to_vec_arr v Mv Rv) as (k & ->).
    cbn [to_vec bind shape_of data_of] in *. injection Es as Es. unfold el_vec. rewrite <-Es.
    destruct (Nat.eqb_spec (length l) 1) as [E|E]; [cbn in V1; lia|].
    rewrite Nat.eqb_refl. cbn [negb]. apply computes_vec. intros i Hi.
    rewrite <-P by (apply inb_cons; split; [easy|apply inb_nil]). cbn. now rewrite Nat.mul_1_r, Nat.add_0_r.
Qed.

(* A vector along the last axis. *)
Lemma last_split s : s <> [] -> s = removelast s ++ [last s 0].
Proof. intros H. now apply app_removelast_last. Qed.
Lemma ravel_last s n c : inb (s ++ [n]) c -> ravel (s ++ [n]) c mod n = last c 0.
Proof.
  intros H. apply inb_snoc in H as (c' & j & -> & Hc & Hj). rewrite ravel_snoc by now apply inb_len in Hc.
  rewrite last_last. now apply dm_mod.
Qed.
Lemma data_last v c : wf v -> rank_of v <> 0 -> forall u, wf u -> rank_of u <> 0 -> inb (shape_of v) c ->
  (exists k, shape_of u = last (shape_of v) 0 :: repeat 1 k) ->
  elem u (last c 0 :: repeat 0 (rank_of u - 1)) = nth_error (data_of u) (ravel (shape_of v) c mod hd 0 (shape_of u)) /\
  ravel (shape_of v) c mod hd 0 (shape_of u) < length (data_of u).
Proof.
  intros Wv Rv u Wu Ru Hc (k & E). destruct (to_mat_arr u Wu Ru) as (_ & HL & _).
  assert (Hne : shape_of v <> []) by (unfold rank_of in Rv; now destruct (shape_of v)).
  unfold elem. rewrite E in *. unfold rank_of. rewrite E. cbn [hd length]. rewrite repeat_length.
  replace (S k - 1) with k by lia.
  cbn [ravel]. replace (ravel (repeat 1 k) (repeat 0 k)) with 0 by (symmetry; rewrite <-(repeat_length 1 k) at 2; apply ravel_zeros).
  rewrite vol_ones, Nat.mul_1_r, Nat.add_0_r.
  cbn [vol] in HL. rewrite vol_ones, Nat.mul_1_r in HL. rewrite HL.
  rewrite (last_split (shape_of v) Hne) in Hc |- *. rewrite last_last, ravel_last by exact Hc. split; auto.
  apply inb_snoc in Hc as (c' & j & -> & _ & Hj). now rewrite last_last.
Qed.
Lemma extend_left fs ev u v : wf u -> wf v -> rank_of u <> 0 -> rank_of v <> 0 ->
  (exists k, shape_of u = last (shape_of v) 0 :: repeat 1 k) -> is_mat v = true -> vol (shape_of v) <> 1 ->
  computes (el_binary fs ev u v) (shape_of v)
    (fun c => on2 ev (elem u (last c 0 :: repeat 0 (rank_of u - 1))) (elem v c)).
Proof.
  intros Wu Wv Ru Rv HE Mv Vv.
  assert (Hne : shape_of v <> []) by (unfold rank_of in Rv; now destruct (shape_of v)).
  assert (Hnu : shape_of u <> []) by (unfold rank_of in Ru; now destruct (shape_of u)).
  destruct (to_mat_arr u Wu Ru) as (Tu & HL & Hl). destruct (to_mat_arr v Wv Rv) as (Tv & HL' & Hl').
  destruct (Nat.eq_dec (vol (shape_of u)) 1) as [V1|V1].
  { rewrite V1 in HL. destruct (data_of u) as [|x [|? ?]] eqn:D; cbn in HL; try lia.
    eapply computes_ext; [|apply (el_single_left fs ev u v x); auto; split; auto].
    intros c Hc. cbn beta. destruct (data_last v c Wv Rv u Wu Ru Hc HE) as [-> H]. rewrite D in *. cbn [length] in H.
    replace (ravel (shape_of v) c mod hd 0 (shape_of u)) with 0 by lia. reflexivity. }
  unfold el_binary. rewrite (rank_is_scalar v Rv), andb_false_r. unfold at_least_vector. rewrite Mv, orb_true_r, Tu, Tv.
  unfold el_mat. destruct (all_ones (shape_of u)) eqn:A; [now apply vol_one_ones in A|].
  destruct (all_ones (shape_of v)) eqn:A'; [now apply vol_one_ones in A'|].
  pose proof (proj2 (vec_like_iff _ _ Hnu Hne) HE) as ->. apply computes_mat_legal; auto.
  intros c Hc. destruct (data_last v c Wv Rv u Wu Ru Hc HE) as [-> H]. destruct (at_elem v c Wv Rv Hc) as (y & Hy & Hy').
  rewrite Hy. unfold pair_at. rewrite Hy'. unfold at_. destruct (nth_error _ (_ mod _)) eqn:E; [reflexivity|].
  apply nth_error_None in E. lia.
Qed.
Lemma extend_right fs ev u v : wf u -> wf v -> rank_of u <> 0 -> rank_of v <> 0 ->
  (exists k, shape_of v = last (shape_of u) 0 :: repeat 1 k) ->
  (forall k, shape_of u <> last (shape_of v) 0 :: repeat 1 k) -> is_mat u = true -> vol (shape_of u) <> 1 ->
  computes (el_binary fs ev u v) (shape_of u)
    (fun c => on2 ev (elem u c) (elem v (last c 0 :: repeat 0 (rank_of v - 1)))).
Proof.
  intros Wu Wv Ru Rv HE Hno Mu Vu.
  assert (Hne : shape_of v <> []) by (unfold rank_of in Rv; now destruct (shape_of v)).
  assert (Hnu : shape_of u <> []) by (unfold rank_of in Ru; now destruct (shape_of u)).
  destruct (to_mat_arr u Wu Ru) as (Tu & HL & Hl). destruct (to_mat_arr v Wv Rv) as (Tv & HL' & Hl').
  destruct (Nat.eq_dec (vol (shape_of v)) 1) as [V1|V1].
  { rewrite V1 in HL'. destruct (data_of v) as [|y [|? ?]] eqn:D; cbn in HL'; try lia.
    eapply computes_ext; [|apply (el_single_right fs ev u v y); auto; split; auto].
    intros c Hc. cbn beta. destruct (data_last u c Wu Ru v Wv Rv Hc HE) as [-> H]. rewrite D in *. cbn [length] in H.
    replace (ravel (shape_of u) c mod hd 0 (shape_of v)) with 0 by lia. destruct (elem u c); reflexivity. }
  unfold el_binary. rewrite (rank_is_scalar v Rv), andb_false_r. unfold at_least_vector. rewrite Mu, Tu, Tv. cbn [orb].
  unfold el_mat. destruct (all_ones (shape_of u)) eqn:A; [now apply vol_one_ones in A|].
  destruct (all_ones (shape_of v)) eqn:A'; [now apply vol_one_ones in A'|].
  destruct (vec_like (shape_of u) (shape_of v)) eqn:VL.
  { apply vec_like_iff in VL as (k & VL); auto. now apply Hno in VL. }
  pose proof (proj2 (vec_like_iff _ _ Hne Hnu) HE) as ->. apply computes_mat_legal; auto.
  intros c Hc. destruct (data_last u c Wu Ru v Wv Rv Hc HE) as [-> H]. destruct (at_elem u c Wu Ru Hc) as (x & Hx & Hx').
  rewrite Hx. unfold pair_at. rewrite Hx'. cbn [bind]. unfold at_. destruct (nth_error _ (_ mod _)) eqn:E; [reflexivity|].
  apply nth_error_None in E. lia.
Qed.
Lemma el_mismatch fs ev u v : wf u -> wf v -> rank_of u <> 0 -> rank_of v <> 0 ->
  ~ extends (shape_of u) (shape_of v) -> ~ extends (shape_of v) (shape_of u) -> el_binary fs ev u v = Err.
Proof.
  intros Wu Wv Ru Rv H1 H2. unfold extends in *.
  assert (Hne : shape_of v <> []) by (unfold rank_of in Rv; now destruct (shape_of v)).
  assert (Hnu : shape_of u <> []) by (unfold rank_of in Ru; now destruct (shape_of u)).
  destruct (to_mat_arr u Wu Ru) as (Tu & HL & Hl). destruct (to_mat_arr v Wv Rv) as (Tv & HL' & Hl').
  unfold el_binary. rewrite (rank_is_scalar v Rv), andb_false_r. unfold at_least_vector. rewrite Tu, Tv.
  destruct (is_mat u || is_mat v) eqn:M.
  - unfold el_mat. destruct (all_ones (shape_of u)) eqn:A; [apply vol_one_ones in A; tauto|].
    destruct (all_ones (shape_of v)) eqn:A'; [apply vol_one_ones in A'; tauto|].
    destruct (vec_like (shape_of u) (shape_of v)) eqn:VL; [apply vec_like_iff in VL; tauto|].
    destruct (vec_like (shape_of v) (shape_of u)) eqn:VL'; [apply vec_like_iff in VL'; tauto|].
    rewrite (shape_eqb_neq (shape_of u) (shape_of v)); [reflexivity|tauto].
  - apply orb_false_iff in M as [Mu Mv]. destruct (to_vec_arr u Mu Ru) as (l & ->). destruct (to_vec_arr v Mv Rv) as (k & ->).
    cbn [to_vec bind shape_of vol] in *. unfold el_vec.
    destruct (Nat.eqb_spec (length l) 1) as [E|E]; [exfalso; apply H1; left; cbn; lia|].
    destruct (Nat.eqb_spec (length k) 1) as [E'|E']; [exfalso; apply H2; left; cbn; lia|].
    destruct (Nat.eqb_spec (length l) (length k)) as [E''|E'']; [exfalso; apply H1; right; right; congruence|]. reflexivity.
Qed.

(* ---- nested arrays: the operator of the elements is the operator itself ---- *)
Lemma depth_in x l : In x l -> depth x <= fold_right (fun x n => Nat.max (depth x) n) 0 l.
Proof. induction l; cbn; [easy|]. intros [->|H]; [lia|]. specialize (IHl H). lia. Qed.
Lemma at_in l i x : at_ l i = Ok x -> In x l.
Proof. unfold at_. destruct (nth_error l i) eqn:E; [|easy]. intros H. injection H as <-. now apply nth_error_In in E. Qed.
Lemma build_ext n f g : (forall i, f i = g i) -> build n f = build n g.
Proof. intros H. apply mapM_ext. auto. Qed.

Lemma pair_at_ext ev ev' l k i j : (forall x y, In x l -> In y k -> ev x y = ev' x y) -> pair_at ev l k i j = pair_at ev' l k i j.
Proof.
  intros H. unfold pair_at. destruct (at_ l i) eqn:E; auto. destruct (at_ k j) eqn:F; auto. cbn.
  apply H; eapply at_in; eassumption.
Qed.
Lemma el_binary_ext fs ev ev' u v : is_scalar u && is_scalar v = false ->
  (forall x y, depth x + depth y < depth u + depth v -> ev x y = ev' x y) -> el_binary fs ev u v = el_binary fs ev' u v.
Proof.
  intros S H. unfold el_binary. rewrite S.
  assert (P : forall i j, pair_at ev (snd (to_mat u)) (snd (to_mat v)) i j = pair_at ev' (snd (to_mat u)) (snd (to_mat v)) i j).
  { intros i j. apply pair_at_ext. intros x y Hx Hy. apply H.
    destruct u; destruct v; cbn in S; try easy; cbn [to_mat snd depth] in *;
      repeat match goal with
      | HH : In _ [_] |- _ => destruct HH as [<-|[]]; cbn [depth]
      | HH : In _ _ |- _ => apply depth_in in HH
      end; lia. }
  unfold at_least_vector. destruct (is_mat u || is_mat v) eqn:M.
  - destruct (to_mat u) as [su du]. destruct (to_mat v) as [sv dv]. cbn [snd] in P. unfold el_mat.
    repeat match goal with |- (if ?b then _ else _) = _ => destruct b end; auto;
      erewrite build_ext by (intros; apply P); reflexivity.
  - apply orb_false_iff in M as [Mu Mv].
    assert (Q : forall w, is_mat w = false -> to_vec w = Ok (snd (to_mat w))) by (intros []; cbn; easy).
    rewrite (Q u Mu), (Q v Mv). cbn [bind]. unfold el_vec.
    repeat match goal with |- (if ?b then _ else _) = _ => destruct b end; auto;
      erewrite build_ext by (intros; apply P); reflexivity.
Qed.
Lemma el_fuel fs n : forall m u v, depth u + depth v <= n -> depth u + depth v <= m ->
  el_binary_fuel n fs u v = el_binary_fuel m fs u v.
Proof.
  induction n as [|n IH]; intros m u v Hn Hm.
  - assert (is_scalar u && is_scalar v = true) as S by (destruct u, v; cbn in *; try lia; auto).
    destruct m; cbn; unfold el_binary; rewrite S; auto.
  - destruct (is_scalar u && is_scalar v) eqn:S.
    { destruct m; cbn; unfold el_binary; rewrite S; auto. }
    destruct m as [|m]; cbn.
    { exfalso. destruct u, v; cbn in *; try lia; easy. }
    apply el_binary_ext; auto. intros x y H. apply IH; lia.
Qed.
Lemma elementwise_rec fs u v : elementwise fs u v = el_binary fs (elementwise fs) u v.
Proof.
  unfold elementwise at 1. destruct (is_scalar u && is_scalar v) eqn:S.
  { destruct (depth u + depth v); cbn; unfold el_binary; rewrite S; auto. }
  destruct (depth u + depth v) eqn:E; [exfalso; destruct u, v; cbn in *; try lia; easy|].
  cbn [el_binary_fuel]. apply el_binary_ext; auto. intros x y H. unfold elementwise. apply el_fuel; lia.
Qed.
Lemma el_unary_ext fs ev ev' v : (forall x, depth x < depth v -> ev x = ev' x) -> el_unary fs ev v = el_unary fs ev' v.
Proof.
  intros H. assert (P : forall l i, S (fold_right (fun x n => Nat.max (depth x) n) 0 l) = depth v ->
    (let! x := at_ l i in ev x) = (let! x := at_ l i in ev' x)).
  { intros l i D. destruct (at_ l i) as [x| | |] eqn:E; auto. cbn. apply at_in, depth_in in E. apply H. lia. }
  destruct v as [| | | | |l|s l]; auto; cbn [el_unary];
    rewrite (build_ext _ _ (fun k => let! x := at_ l k in ev' x)) by (intros; apply P; reflexivity); reflexivity.
Qed.
Lemma el_fuel1 fs n : forall m v, depth v <= n -> depth v <= m -> el_unary_fuel n fs v = el_unary_fuel m fs v.
Proof.
  induction n as [|n IH]; intros m v Hn Hm.
  - destruct v; cbn in *; try lia; destruct m; auto.
  - destruct m as [|m]; [destruct v; cbn in *; try lia; auto|]. cbn [el_unary_fuel].
    apply el_unary_ext. intros x H. apply IH; lia.
Qed.
Lemma elementwise1_rec fs v : elementwise1 fs v = el_unary fs (elementwise1 fs) v.
Proof.
  unfold elementwise1 at 1. destruct (depth v) eqn:E; [destruct v; cbn in *; try lia; auto|].
  cbn [el_unary_fuel]. apply el_unary_ext. intros x H. unfold elementwise1. apply el_fuel1; lia.
Qed.

(* Proofs about sorting, searching, sets, grade and index-of. *)
From Verif Require Import Value NumModel NumSpec ArrSpec ArrBase ArrRot ArrSel EvalSpec EvalProofs OrdModel OrdSpec OrdProofs.
Open Scope nat_scope.

(* ---- equality without matrices ---- *)
Lemma no_matrix_vec l : no_matrix (VVec l) <-> Forall no_matrix l.
Proof. induction l as [|x l IH]; cbn in *; [split; auto; constructor|]. rewrite Forall_cons_iff, <-IH. reflexivity. Qed.
Lemma alike_same : forall n u v, vsize u <= n -> no_matrix u -> (alike u v <-> same u v).
Proof.
  induction n as [|n IH]; intros u v Hn Hu; [pose proof (vsize_pos u); lia|].
  assert (V : forall l l', u = VVec l -> (Forall2 alike l l' <-> Forall2 same l l')).
  { intros l l' ->. apply no_matrix_vec in Hu. rewrite Forall_forall in Hu. apply Forall2_iff_in. intros x y Hx _. apply IH; auto.
    cbn [vsize] in Hn. pose proof (vsize_in _ _ Hx). lia. }
  split; inversion 1; subst; try contradiction.
  - constructor.
  - eapply eu_num; eauto.
  - cbn [vsize] in Hn. destruct Hu. apply eu_cplx; apply IH; auto; lia.
  - apply eu_vec. now apply V.
  - constructor.
  - eapply eu_num; eauto.
  - cbn [vsize] in Hn. destruct Hu. apply eu_cplx; apply IH; auto; lia.
  - apply eu_vec. now apply V.
Qed.

(* ---- searching ---- *)
Lemma search_loop_ok f n : forall fuel i j, i <= j <= n -> j - i <= fuel ->
  (forall k, k < i -> f k = false) -> (forall k, j <= k < n -> f k = true) ->
  (forall a b, a <= b < n -> f a = true -> f b = true) ->
  let r := search_loop fuel f i j in r <= n /\ (forall k, k < r -> f k = false) /\ (forall k, r <= k < n -> f k = true).
Proof.
  induction fuel as [|fuel IH]; intros i j Hij Hf Hlo Hhi Hm; cbn [search_loop].
  - replace j with i in * by lia. repeat split; auto; lia.
  - destruct (Nat.ltb_spec i j) as [Hlt|Hge].
    + assert (Hh : i <= (i + j) / 2 < j) by (split; [apply Nat.div_le_lower_bound|apply Nat.div_lt_upper_bound]; lia).
      destruct (f ((i + j) / 2)) eqn:E; cbn [negb]; apply IH; auto; try lia.
      * intros k Hk. apply (Hm ((i + j) / 2)); [lia|auto].
      * intros k Hk. destruct (f k) eqn:Ek; auto. rewrite (Hm k ((i + j) / 2)) in E; [discriminate|lia|auto].
    + replace j with i in * by lia. repeat split; auto; lia.
Qed.
Lemma search_ok f n : (forall a b, a <= b < n -> f a = true -> f b = true) ->
  let r := search n f in r <= n /\ (forall k, k < r -> f k = false) /\ (forall k, r <= k < n -> f k = true).
Proof. intros Hm. apply search_loop_ok; auto; try lia. Qed.

Lemma sorted_nth {A} (R : A -> A -> Prop) l : StronglySorted R l <->
  forall i j x y, i < j -> nth_error l i = Some x -> nth_error l j = Some y -> R x y.
Proof.
  induction l as [|a l IH]; split.
  - intros _ [|i] j x y _ H; discriminate.
  - constructor.
  - intros H. apply StronglySorted_inv in H. destruct H as [H1 H2]. rewrite Forall_forall in H2.
    intros [|i] [|j] x y Hij Hx Hy; try lia; cbn in *.
    + injection Hx as <-. apply H2. eapply nth_error_In; eauto.
    + apply (proj1 IH H1 i j); auto; lia.
  - intros H. constructor.
    + apply IH. intros i j x y Hij Hx Hy. apply (H (S i) (S j)); auto; lia.
    + apply Forall_forall. intros x Hx. apply In_nth_error in Hx. destruct Hx as [k Hk]. apply (H 0 (S k)); auto; lia.
Qed.

Section Ops.
Variable c : conf.
Notation oc := (ordered_compare c).
(* E is the equality of the values in D. *)
Variable D : value -> Prop.
Variable E : value -> value -> Prop.
Hypothesis D_exact : forall x, D x -> exact x.
Hypothesis E_ok : forall x y, D x -> D y -> (oc x y = 0%Z <-> E x y).

Lemma d_opp x y : D x -> D y -> oc y x = (- oc x y)%Z.
Proof. intros. apply oc_opp; auto. Qed.
Lemma d_trans x y z : D x -> D y -> D z -> trans_at oc x y z.
Proof. intros. apply oc_trans; auto. Qed.
Lemma E_sym x y : D x -> D y -> E x y -> E y x.
Proof. intros Hx Hy H. apply E_ok in H; auto. apply E_ok; auto. rewrite d_opp by auto. lia. Qed.
Lemma E_trans x y z : D x -> D y -> D z -> E x y -> E y z -> E x z.
Proof.
  intros Hx Hy Hz H1 H2. apply E_ok in H1; auto. apply E_ok in H2; auto. apply E_ok; auto.
  pose proof (d_trans x y z Hx Hy Hz) as A. pose proof (d_trans z y x Hz Hy Hx) as B. unfold trans_at in A, B.
  rewrite (d_opp y z), (d_opp x y), (d_opp x z) in B by auto. lia.
Qed.
Lemma E_refl x : D x -> E x x.
Proof. intros H. apply E_ok; auto. apply oc_refl; auto. Qed.

Lemma by_cmp_order {A} (cmp : A -> A -> Z) (P : A -> Prop) :
  (forall x y, P x -> P y -> cmp y x = (- cmp x y)%Z) ->
  (forall x y z, P x -> P y -> P z -> (cmp x y <= 0)%Z -> (cmp y z <= 0)%Z -> (cmp x z <= 0)%Z /\ ((cmp x y < 0)%Z \/ (cmp y z < 0)%Z -> (cmp x z < 0)%Z)) ->
  weak_order (fun x y => cmp x y <? 0)%Z P.
Proof.
  intros Ho Ht. repeat split.
  - intros x Hx. pose proof (Ho x x Hx Hx). apply Z.ltb_ge. lia.
  - intros x y z Hx Hy Hz H1 H2. apply Z.ltb_lt in H1, H2. apply Z.ltb_lt. apply (Ht x y z); auto; lia.
  - intros x y z Hx Hy Hz H1 H2. apply Z.ltb_ge in H1, H2. apply Z.ltb_ge. rewrite (Ho x y) in H1 by auto. rewrite (Ho y z) in H2 by auto.
    rewrite (Ho x z) by auto. pose proof (Ht x y z Hx Hy Hz). lia.
Qed.
Lemma less_order (P : value -> Prop) : (forall x, P x -> D x) -> weak_order (less c) P.
Proof. intros H. apply by_cmp_order; intros; [apply d_opp; auto|apply (d_trans x y z); auto]. Qed.

(* ---- membership ---- *)
Lemma ge_mono l x : Forall D l -> D x -> sorted (less c) l ->
  forall a b, a <= b < length l -> ge_at c l x a = true -> ge_at c l x b = true.
Proof.
  intros Hl Hx Hs a b Hab Ha. destruct (Nat.eq_dec a b) as [->|Hne]; auto.
  unfold ge_at in *. destruct (nth_error l a) as [y|] eqn:Ey; [|discriminate].
  destruct (nth_error l b) as [z|] eqn:Ez; [|apply nth_error_None in Ez; lia].
  rewrite Forall_forall in Hl. assert (Dy : D y) by (eapply Hl, nth_error_In; eauto). assert (Dz : D z) by (eapply Hl, nth_error_In; eauto).
  pose proof (proj1 (sorted_nth _ _) Hs a b y z ltac:(lia) Ey Ez) as Hzy. cbn beta in Hzy.
  apply negb_true_iff in Ha. apply negb_true_iff.
  destruct (less_order D (fun _ h => h)) as (_ & _ & T). apply (T x y z); auto.
Qed.
(* The position found: everything before is less, everything from there on is not. *)
Lemma search_sorted l x : Forall D l -> D x -> sorted (less c) l ->
  let r := search (length l) (ge_at c l x) in
  r <= length l /\ (forall k y, k < r -> nth_error l k = Some y -> (oc y x < 0)%Z) /\
  (forall k y, r <= k -> nth_error l k = Some y -> (0 <= oc y x)%Z).
Proof.
  intros Hl Hx Hs r. destruct (search_ok _ _ (ge_mono l x Hl Hx Hs)) as (H1 & H2 & H3). fold r in H1, H2, H3.
  split; [auto|]. split; intros k y Hk Hy.
  - specialize (H2 k Hk). unfold ge_at in H2. rewrite Hy in H2. apply negb_false_iff in H2. now apply Z.ltb_lt.
  - assert (k < length l) by (apply nth_error_Some; congruence). specialize (H3 k ltac:(lia)). unfold ge_at in H3. rewrite Hy in H3.
    apply negb_true_iff in H3. now apply Z.ltb_ge.
Qed.
Lemma contains_ok l x : Forall D l -> D x -> sorted (less c) l -> (contains c l x = true <-> among E l x).
Proof.
  intros Hl Hx Hs. unfold contains. destruct (search_sorted l x Hl Hx Hs) as (H1 & H2 & H3). set (r := search _ _) in *. clearbody r.
  rewrite Forall_forall in Hl. split.
  - destruct (nth_error l r) as [y|] eqn:Ey; [|discriminate]. intros Hc. apply Z.eqb_eq in Hc.
    assert (In y l) by (eapply nth_error_In; eauto). exists y. split; auto. apply E_sym; auto. apply E_ok; auto.
  - intros (y & Hy & Hxy). apply E_sym in Hxy; auto. apply E_ok in Hxy; auto. apply In_nth_error in Hy. destruct Hy as [k Hk].
    destruct (Nat.le_gt_cases r k) as [Hrk|Hrk]; [|specialize (H2 k y Hrk Hk); lia].
    assert (k < length l) by (apply nth_error_Some; congruence).
    destruct (nth_error l r) as [z|] eqn:Ez; [|apply nth_error_None in Ez; lia].
    assert (Dy : D y) by (eapply Hl, nth_error_In; eauto). assert (Dz : D z) by (eapply Hl, nth_error_In; eauto).
    apply Z.eqb_eq. pose proof (H3 r z (le_n r) Ez) as Hzx.
    destruct (Nat.eq_dec r k) as [->|Hne]; [congruence|].
    pose proof (proj1 (sorted_nth _ _) Hs r k z y ltac:(lia) Ez Hk) as Hyz. cbn beta in Hyz. apply Z.ltb_ge in Hyz.
    pose proof (d_trans z y x Dz Dy Hx) as T. unfold trans_at in T. rewrite (d_opp y z) in T by auto. lia.
Qed.

Variable srt : sort_fn.
Hypothesis srt_ok : a_sort srt.
Lemma sort_good l : Forall D l -> Permutation l (srt value (less c) l) /\ sorted (less c) (srt value (less c) l) /\ Forall D (srt value (less c) l).
Proof.
  intros Hl. destruct (srt_ok value (less c) l) as [P S]. split; auto. split.
  - apply S. apply less_order. now apply Forall_forall.
  - now rewrite <-P.
Qed.
Lemma among_perm l l' x : Permutation l l' -> among E l x -> among E l' x.
Proof. intros P (y & Hy & H). exists y. split; auto. now rewrite <-P. Qed.
Lemma among_dec l x : Forall D l -> D x -> among E l x \/ ~ among E l x.
Proof.
  intros Hl Hx. induction Hl as [|y l Hy Hl IH]; [right; now intros (? & ? & ?)|].
  destruct (Z.eq_dec (oc x y) 0) as [H|H].
  - left. exists y. split; [now left|]. now apply E_ok.
  - destruct IH as [(z & Hz & IH)|IH]; [left; exists z; split; auto; now right|]. right. intros (z & [<-|Hz] & Hxz).
    + now apply E_ok in Hxz.
    + apply IH. now exists z.
Qed.
Lemma member_flag u v : Forall D u -> Forall D v ->
  Forall2 (fun x f => (among E v x /\ f = VInt 1%Z) \/ (~ among E v x /\ f = VInt 0%Z)) u (membership srt c u v).
Proof.
  intros Hu Hv. unfold membership. destruct (sort_good v Hv) as (P & S & G). set (s := srt value (less c) v) in *. clearbody s.
  induction Hu as [|x u Hx Hu IH]; cbn [map]; constructor; auto.
  pose proof (contains_ok s x G Hx S) as C. destruct (contains c s x).
  - left. split; auto. apply (among_perm s); [now symmetry|]. now apply C.
  - right. split; auto. intros H. apply (among_perm _ _ _ P) in H. apply C in H. discriminate.
Qed.
Lemma membership_ok u v : Forall D u -> Forall D v -> flags (among E v) u (membership srt c u v).
Proof. exact (member_flag u v). Qed.

(* ---- union and intersection ---- *)
Lemma pick_true P l fs : flags P l fs -> keeps P l (pick true fs l).
Proof.
  induction 1 as [|x f l fs [[H ->]|[H ->]] _ IH]; cbn [pick]; [constructor| |]; cbn; [now apply keeps_yes|now apply keeps_no].
Qed.
Lemma pick_false P l fs : flags P l fs -> keeps (fun x => ~ P x) l (pick false fs l).
Proof.
  induction 1 as [|x f l fs [[H ->]|[H ->]] _ IH]; cbn [pick]; [constructor| |]; cbn; [apply keeps_no; tauto|now apply keeps_yes].
Qed.
Lemma keeps_filter {A} (P : A -> Prop) f l : (forall x, In x l -> (f x = true <-> P x)) -> keeps P l (filter f l).
Proof.
  induction l as [|x l IH]; intros H; cbn [filter]; [constructor|].
  pose proof (H x (or_introl eq_refl)) as Hx. destruct (f x).
  - apply keeps_yes; [now apply Hx|]. apply IH. intros; apply H; now right.
  - apply keeps_no; [|apply IH; intros; apply H; now right]. intros Hp. apply Hx in Hp. discriminate.
Qed.
Lemma existsb_among v l : Forall D l -> D v -> (existsb (fun x => eq_val c x v) l = true <-> among E l v).
Proof.
  intros Hl Hv. rewrite Forall_forall in Hl. rewrite existsb_exists. unfold eq_val. split; intros (y & Hy & H); exists y; split; auto.
  - apply Z.eqb_eq in H. apply E_sym; auto. apply E_ok; auto.
  - apply Z.eqb_eq. apply E_ok; auto. apply E_sym; auto.
Qed.
Lemma existsb_among' v l : Forall D l -> D v -> (existsb (fun x => eq_val c v x) l = true <-> among E l v).
Proof.
  intros Hl Hv. rewrite Forall_forall in Hl. rewrite existsb_exists. unfold eq_val. split; intros (y & Hy & H); exists y; split; auto.
  - apply Z.eqb_eq in H. apply E_ok; auto.
  - apply Z.eqb_eq. apply E_ok; auto.
Qed.
Lemma among_one u x : among E [u] x <-> E x u.
Proof. split; [intros (y & [<-|[]] & H); auto|]. intros H. exists u. split; [now left|auto]. Qed.
Lemma eq_val_ok u v : D u -> D v -> (eq_val c u v = true <-> E u v).
Proof. intros. unfold eq_val. rewrite Z.eqb_eq. now apply E_ok. Qed.


Lemma scalar_data u : scalar u -> data_of u = [u] /\ is_mat u = false.
Proof. destruct u; cbn; easy. Qed.
Lemma kinds u : is_mat u = false -> scalar u \/ exists l, u = VVec l.
Proof. destruct u; cbn; intros; try discriminate; eauto. Qed.
Lemma union_ss u v : scalar u -> scalar v -> op_union srt c u v = Ok (if eq_val c u v then u else VVec [u; v]).
Proof. destruct u, v; intros [] []; reflexivity. Qed.
Lemma union_sv u vv : scalar u -> op_union srt c u (VVec vv) = Ok (VVec (u :: filter (fun x => negb (eq_val c u x)) vv)).
Proof. destruct u; intros []; reflexivity. Qed.
Lemma union_vs uu v : scalar v -> op_union srt c (VVec uu) v = Ok (if existsb (fun x => eq_val c x v) uu then VVec uu else VVec (uu ++ [v])).
Proof. destruct v; intros []; reflexivity. Qed.
Lemma inter_ss u v : scalar u -> scalar v -> op_intersect srt c u v = Ok (if eq_val c u v then u else VVec []).
Proof. destruct u, v; intros [] []; reflexivity. Qed.
Lemma inter_sv u vv : scalar u -> op_intersect srt c u (VVec vv) = Ok (VVec (if existsb (fun x => eq_val c u x) vv then [u] else [])).
Proof. destruct u; intros []; reflexivity. Qed.
Lemma inter_vs uu v : scalar v -> op_intersect srt c (VVec uu) v = Ok (VVec (filter (fun x => eq_val c x v) uu)).
Proof. destruct v; intros []; reflexivity. Qed.

Lemma union_ok u v : is_mat u = false -> is_mat v = false -> Forall D (data_of u) -> Forall D (data_of v) ->
  exists w r, op_union srt c u v = Ok w /\ is_mat w = false /\ data_of w = data_of u ++ r /\ keeps (fun x => ~ among E (data_of u) x) (data_of v) r.
Proof.
  intros Hu Hv Du Dv. destruct (kinds u Hu) as [Su|[uu ->]], (kinds v Hv) as [Sv|[vv ->]].
  - destruct (scalar_data u Su) as [Eu _], (scalar_data v Sv) as [Ev _]. rewrite Eu in *. rewrite Ev in *.
    apply Forall_inv in Du, Dv. rewrite union_ss by auto. pose proof (eq_val_ok u v Du Dv) as Q. destruct (eq_val c u v).
    + exists u, []. rewrite Eu. repeat split; auto. apply keeps_no; [|constructor]. rewrite among_one. intros H. apply H, E_sym; auto. now apply Q.
    + exists (VVec [u; v]), [v]. repeat split; auto. apply keeps_yes; [|constructor]. rewrite among_one. intros H. apply E_sym in H; auto. apply Q in H. discriminate.
  - destruct (scalar_data u Su) as [Eu _]. rewrite Eu in *. apply Forall_inv in Du. cbn [data_of] in *. rewrite union_sv by auto.
    eexists _, _. repeat split. rewrite Forall_forall in Dv. apply keeps_filter. intros x Hx. specialize (Dv x Hx).
    rewrite among_one, negb_true_iff. pose proof (eq_val_ok u x Du Dv) as Q. destruct (eq_val c u x); split; intros H; try easy.
    + exfalso. apply H, E_sym; auto. now apply Q.
    + intros H'. apply E_sym in H'; auto. apply Q in H'. discriminate.
  - destruct (scalar_data v Sv) as [Ev _]. rewrite Ev in *. apply Forall_inv in Dv. cbn [data_of] in *. rewrite union_vs by auto.
    pose proof (existsb_among v uu Du Dv) as Q. destruct (existsb _ uu).
    + exists (VVec uu), []. rewrite app_nil_r. repeat split. apply keeps_no; [|constructor]. intros H. now apply H, Q.
    + exists (VVec (uu ++ [v])), [v]. repeat split. apply keeps_yes; [|constructor]. intros H. apply Q in H. discriminate.
  - cbn [data_of] in *. cbn [op_union]. eexists _, _. repeat split. apply pick_false. now apply membership_ok.
Qed.
Lemma intersect_ok u v : is_mat u = false -> is_mat v = false -> Forall D (data_of u) -> Forall D (data_of v) ->
  exists w, op_intersect srt c u v = Ok w /\ is_mat w = false /\ keeps (among E (data_of v)) (data_of u) (data_of w).
Proof.
  intros Hu Hv Du Dv. destruct (kinds u Hu) as [Su|[uu ->]], (kinds v Hv) as [Sv|[vv ->]].
  - destruct (scalar_data u Su) as [Eu _], (scalar_data v Sv) as [Ev _]. rewrite Eu in *. rewrite Ev in *.
    apply Forall_inv in Du, Dv. rewrite inter_ss by auto. pose proof (eq_val_ok u v Du Dv) as Q. destruct (eq_val c u v).
    + exists u. rewrite Eu. repeat split; auto. apply keeps_yes; [|constructor]. rewrite among_one. now apply Q.
    + exists (VVec []). repeat split. apply keeps_no; [|constructor]. rewrite among_one. intros H. apply Q in H. discriminate.
  - destruct (scalar_data u Su) as [Eu _]. rewrite Eu in *. apply Forall_inv in Du. cbn [data_of] in *. rewrite inter_sv by auto.
    eexists. repeat split. pose proof (existsb_among' u vv Dv Du) as Q. cbn [data_of]. destruct (existsb _ vv).
    + apply keeps_yes; [now apply Q|constructor].
    + apply keeps_no; [|constructor]. intros H. apply Q in H. discriminate.
  - destruct (scalar_data v Sv) as [Ev _]. rewrite Ev in *. apply Forall_inv in Dv. cbn [data_of] in *. rewrite inter_vs by auto.
    eexists. repeat split. cbn [data_of]. apply keeps_filter. intros x Hx. rewrite Forall_forall in Du. rewrite among_one. apply eq_val_ok; auto.
  - cbn [data_of] in *. cbn [op_intersect]. eexists. repeat split. cbn [data_of]. apply pick_true. now apply membership_ok.
Qed.

(* ---- stability ---- *)
Lemma filter_head {A} (f : A -> bool) s k a : nth_error s k = Some a -> f a = true ->
  (forall j y, j < k -> nth_error s j = Some y -> f y = false) -> exists t, filter f s = a :: t.
Proof.
  revert s. induction k as [|k IH]; intros [|x s] H Hf Hb; try discriminate; cbn [filter].
  - injection H as ->. rewrite Hf. eauto.
  - rewrite (Hb 0 x) by (auto; lia). apply IH; auto. intros j y Hj Hy. apply (Hb (S j)); auto; lia.
Qed.
Lemma head_filter {A} (f : A -> bool) l a t : filter f l = a :: t ->
  exists i, nth_error l i = Some a /\ forall j y, j < i -> nth_error l j = Some y -> f y = false.
Proof.
  induction l as [|x l IH]; cbn [filter]; [discriminate|]. destruct (f x) eqn:Ex.
  - injection 1 as -> _. exists 0. split; auto; intros; lia.
  - intros H. destruct (IH H) as (i & Hi & Hb). exists (S i). split; auto. intros [|j] y Hj Hy; cbn in Hy; [congruence|]. apply (Hb j); auto; lia.
Qed.
Lemma stable_first {A} (less : A -> A -> bool) s l k a : filter (tied less a) s = filter (tied less a) l ->
  nth_error s k = Some a -> less a a = false -> (forall j y, j < k -> nth_error s j = Some y -> less y a = true) ->
  exists i, nth_error l i = Some a /\ forall j y, j < i -> nth_error l j = Some y -> tied less a y = false.
Proof.
  intros Hs Ha Hr Hb. destruct (filter_head (tied less a) s k a Ha) as [t Ht].
  - unfold tied. now rewrite Hr.
  - intros j y Hj Hy. unfold tied. rewrite (Hb j y Hj Hy). now rewrite andb_false_r.
  - rewrite Hs in Ht. eapply head_filter; eauto.
Qed.
Lemma weak_order_pre {A B} (g : A -> B) (lessA : A -> A -> bool) (lessB : B -> B -> bool) (P : A -> Prop) (Q : B -> Prop) :
  (forall x, P x -> Q (g x)) -> (forall x y, P x -> P y -> lessA x y = lessB (g x) (g y)) -> weak_order lessB Q -> weak_order lessA P.
Proof.
  intros Hg He (H1 & H2 & H3). repeat split.
  - intros x Hx. rewrite He by auto. auto.
  - intros x y z Hx Hy Hz. rewrite !He by auto. apply H2; auto.
  - intros x y z Hx Hy Hz. rewrite !He by auto. apply H3; auto.
Qed.

(* ---- index-of ---- *)
Lemma nth_combine (A : list value) i y k a : nth_error (combine A (seq a (length A))) i = Some (y, k) <-> nth_error A i = Some y /\ k = a + i.
Proof.
  revert i a. induction A as [|x A IH]; intros [|i] a; cbn; try (split; [|intros []]; discriminate).
  - rewrite Nat.add_0_r. split; [intros [= <- <-]; auto|]. intros [H ->]. congruence.
  - rewrite IH. replace (S a + i) with (a + S i) by lia. reflexivity.
Qed.
Lemma in_combine_iff (A : list value) y k : In (y, k) (combine A (seq 0 (length A))) <-> nth_error A k = Some y.
Proof.
  split.
  - intros H. apply In_nth_error in H. destruct H as [i H]. apply nth_combine in H. destruct H as [H ->]. auto.
  - intros H. apply (nth_error_In _ k). now apply nth_combine.
Qed.
Lemma in_map_fst {A B} (x : A) (s : list (A * B)) : In x (map fst s) -> exists y, In (x, y) s.
Proof. intros H. apply in_map_iff in H. destruct H as ([a b] & <- & H). eauto. Qed.

Section Stable.
Variable stb : sort_fn.
Hypothesis stb_ok : a_stable_sort stb.

Lemma find_ok A b : Forall D A -> D b ->
  first_index E (origin c) A b (find_index c (stb (value * nat)%type (pair_less c) (combine A (seq 0 (length A)))) b).
Proof.
  intros HA Hb. set (l := combine A (seq 0 (length A))).
  assert (W : weak_order (pair_less c) (fun x => In x l)).
  { apply (weak_order_pre fst (pair_less c) (less c) _ D).
    - intros [y k] H. apply in_combine_iff in H. rewrite Forall_forall in HA. eapply HA, nth_error_In; eauto.
    - reflexivity.
    - now apply less_order. }
  destruct stb_ok as [SO ST]. destruct (SO _ (pair_less c) l) as [P S]. specialize (S W). specialize (ST _ (pair_less c) l W).
  set (s := stb _ _ l) in *. clearbody s.
  assert (Dl : forall y k, In (y, k) s -> D y /\ nth_error A k = Some y).
  { intros y k H. rewrite <-P in H. apply in_combine_iff in H. split; auto. rewrite Forall_forall in HA. eapply HA, nth_error_In; eauto. }
  assert (Ds : Forall D (map fst s)).
  { apply Forall_forall. intros x Hx. apply in_map_fst in Hx. destruct Hx as [k Hk]. now apply (Dl x k). }
  assert (Sf : sorted (less c) (map fst s)).
  { apply sorted_nth. intros i j x y Hij Hx Hy. rewrite nth_error_map in Hx, Hy.
    destruct (nth_error s i) as [[x' k]|] eqn:Ex; [|discriminate]. destruct (nth_error s j) as [[y' k']|] eqn:Ey; [|discriminate].
    cbn in Hx, Hy. injection Hx as ->. injection Hy as ->. apply (proj1 (sorted_nth _ _) S i j (x, k) (y, k') Hij Ex Ey). }
  unfold find_index. destruct (search_sorted (map fst s) b Ds Hb Sf) as (_ & H2 & H3). rewrite map_length in H2, H3. set (r := search _ _) in *. clearbody r.
  assert (None_ : (forall k y, r <= k -> nth_error (map fst s) k = Some y -> oc y b <> 0%Z) -> ~ (exists x, In x A /\ E x b)).
  { intros Hn (x & Hx & Hxb). apply In_nth_error in Hx. destruct Hx as [k Hk].
    assert (Hin : In (x, k) s) by (rewrite <-P; now apply in_combine_iff). assert (Dx : D x) by (now apply (Dl x k)).
    apply E_ok in Hxb; auto. apply In_nth_error in Hin. destruct Hin as [q Hq].
    assert (Hq' : nth_error (map fst s) q = Some x) by (rewrite nth_error_map, Hq; reflexivity).
    destruct (Nat.le_gt_cases r q) as [Hrq|Hrq]; [now apply (Hn q x)|]. specialize (H2 q x Hrq Hq'). lia. }
  destruct (nth_error s r) as [[y i]|] eqn:Er.
  - assert (Er' : nth_error (map fst s) r = Some y) by (rewrite nth_error_map, Er; reflexivity).
    destruct (Dl y i (nth_error_In _ _ Er)) as [Dy Hyi]. destruct (Z.eqb_spec (oc y b) 0) as [Hyb|Hyb].
    + left. exists i, y. split; [auto|]. split; [now apply E_ok|]. split; [|reflexivity].
      assert (In (y, i) l) by (apply in_combine_iff; auto).
      destruct (stable_first (pair_less c) s l r (y, i)) as (i' & Hi' & Hf).
      * apply ST; auto.
      * auto.
      * destruct W as (W & _). apply W; auto.
      * intros j [z k] Hj Hz. assert (Hz' : nth_error (map fst s) j = Some z) by (rewrite nth_error_map, Hz; reflexivity).
        specialize (H2 j z Hj Hz'). destruct (Dl z k (nth_error_In _ _ Hz)) as [Dz _]. unfold pair_less, less; cbn [fst]. apply Z.ltb_lt.
        pose proof (d_trans z b y Dz Hb Dy) as T. unfold trans_at in T. rewrite (d_opp y b) in T by auto. lia.
      * apply nth_combine in Hi'. destruct Hi' as [_ ->]. cbn in Hf. intros j z Hj Hz HE.
        specialize (Hf j (z, j) Hj). specialize (Hf (proj2 (nth_combine A j z j 0) (conj Hz eq_refl))).
        assert (Dz : D z) by (rewrite Forall_forall in HA; eapply HA, nth_error_In; eauto).
        assert (Hzy : oc z y = 0%Z) by (apply E_ok; auto; apply (E_trans z b y); auto; apply E_sym; auto; now apply E_ok).
        unfold tied, pair_less, less in Hf. cbn [fst] in Hf. rewrite (d_opp z y) in Hf by auto. rewrite Hzy in Hf. discriminate.
    + right. split; [|reflexivity]. apply None_. intros k z Hk Hz Hzb.
      assert (Dz : D z) by (rewrite Forall_forall in Ds; eapply Ds, nth_error_In; eauto).
      pose proof (H3 r y (le_n r) Er'). destruct (Nat.eq_dec r k) as [<-|Hne]; [congruence|].
      pose proof (proj1 (sorted_nth _ _) Sf r k y z ltac:(lia) Er' Hz) as Hzy. cbn beta in Hzy. apply Z.ltb_ge in Hzy.
      pose proof (d_trans y z b Dy Dz Hb) as T. unfold trans_at in T. rewrite (d_opp z y) in T by auto. lia.
  - right. split; [|reflexivity]. apply None_. intros k y Hk Hy. apply nth_error_None in Er.
    assert (k < length (map fst s)) by (apply nth_error_Some; congruence). rewrite map_length in *. lia.
Qed.
Lemma vec_iota_ok A B : Forall D A -> Forall D B -> Forall2 (first_index E (origin c) A) B (vec_iota stb c A B).
Proof.
  intros HA HB. unfold vec_iota. cbv zeta. induction HB as [|b B Hb HB IH]; cbn [map]; constructor; auto. now apply find_ok.
Qed.

(* ---- grade ---- *)
Lemma two_split {A} (l : list A) i j a b : i < j -> nth_error l i = Some a -> nth_error l j = Some b -> exists l1 l2 l3, l = l1 ++ a :: l2 ++ b :: l3.
Proof.
  intros Hij Ha Hb. destruct (nth_error_split l i Ha) as (l1 & l2 & -> & HL). rewrite nth_error_app2 in Hb by lia.
  destruct (j - length l1) as [|k] eqn:Ek; [lia|]. cbn in Hb. apply nth_error_split in Hb. destruct Hb as (l3 & l4 & -> & _). eauto.
Qed.
Lemma ss_two {A} (R : A -> A -> Prop) l1 a l2 b l3 : StronglySorted R (l1 ++ a :: l2 ++ b :: l3) -> R a b.
Proof.
  induction l1 as [|x l1 IH]; cbn [app]; intros H; apply StronglySorted_inv in H; destruct H as [H1 H2]; auto.
  rewrite Forall_forall in H2. apply H2. rewrite in_app_iff. right. now left.
Qed.
Lemma filter_ss {A} (R : A -> A -> Prop) f l : StronglySorted R l -> StronglySorted R (filter f l).
Proof.
  induction 1 as [|x l H IH HF]; cbn [filter]; [constructor|]. destruct (f x); auto. constructor; auto.
  rewrite Forall_forall in *. intros y Hy. apply filter_In in Hy. now apply HF.
Qed.
Lemma seq_ss a n : StronglySorted lt (seq a n).
Proof. revert a. induction n as [|n IH]; intros a; cbn; constructor; auto. apply Forall_forall. intros x Hx. apply in_seq in Hx. lia. Qed.
Lemma vals_less_order l : Forall D l -> weak_order (vals_less c l) (fun x => In x (seq 0 (length l))).
Proof.
  intros Hl. apply (weak_order_pre (fun i => nth i l (VInt 0)) (vals_less c l) (less c) _ D).
  - intros i Hi. apply in_seq in Hi. rewrite Forall_forall in Hl. apply Hl, nth_In. lia.
  - intros i j Hi Hj. apply in_seq in Hi, Hj. unfold vals_less. rewrite !(nth_error_nth' l (VInt 0)) by lia. reflexivity.
  - now apply less_order.
Qed.
Lemma grade_ok l : Forall D l -> exists p, vec_grade stb c l = map (fun i => VInt (Z.of_nat i + origin c)) p /\ arranges (length l) (nth_error l) (ahead c E) p.
Proof.
  intros Hl. pose proof (vals_less_order l Hl) as W. destruct stb_ok as [SO ST].
  destruct (SO _ (vals_less c l) (seq 0 (length l))) as [P S]. specialize (S W). specialize (ST _ (vals_less c l) _ W).
  unfold vec_grade. set (p := stb _ _ _) in *. clearbody p. exists p. split; [reflexivity|]. split; [auto|].
  intros i j a b x y Hij Ha Hb Hx Hy. unfold ahead. cbn [fst snd].
  pose proof (proj1 (sorted_nth _ _) S i j a b Hij Ha Hb) as Hs. cbn beta in Hs. unfold vals_less in Hs. rewrite Hx, Hy in Hs. apply Z.ltb_ge in Hs.
  rewrite Forall_forall in Hl. assert (Dx : D x) by (eapply Hl, nth_error_In; eauto). assert (Dy : D y) by (eapply Hl, nth_error_In; eauto).
  rewrite (d_opp x y) in Hs by auto. destruct (Z.eq_dec (oc x y) 0) as [H0|H0]; [|left; lia]. right. split; [now apply E_ok|].
  assert (In a (seq 0 (length l))) by (rewrite P; eapply nth_error_In; eauto). specialize (ST a ltac:(auto)).
  destruct (two_split p i j a b Hij Ha Hb) as (l1 & l2 & l3 & ->).
  assert (T : StronglySorted lt (filter (tied (vals_less c l) a) (l1 ++ a :: l2 ++ b :: l3))) by (rewrite ST; apply filter_ss, seq_ss).
  rewrite filter_app in T. cbn [filter] in T. rewrite filter_app in T. cbn [filter] in T.
  assert (Ta : tied (vals_less c l) a a = true).
  { unfold tied, vals_less. rewrite Hx. unfold less. rewrite oc_refl by auto. reflexivity. }
  assert (Tb : tied (vals_less c l) a b = true).
  { unfold tied, vals_less. rewrite Hx, Hy. unfold less. rewrite (d_opp x y), H0 by auto. reflexivity. }
  rewrite Ta, Tb in T. now apply ss_two in T.
Qed.
Lemma arranges_rev {A} n (at_pos : nat -> option A) R p : arranges n at_pos R p -> arranges n at_pos (fun x y => R y x) (rev p).
Proof.
  intros [P H]. split; [now rewrite <-Permutation_rev|]. intros i j a b x y Hij Ha Hb Hx Hy.
  assert (Li : j < length p) by (rewrite <-rev_length; apply nth_error_Some; congruence).
  assert (R1 : forall k q, k < length p -> nth_error (rev p) k = Some q -> nth_error p (length p - S k) = Some q).
  { intros k q Hk Hq. rewrite (nth_error_nth' p 0) by lia. rewrite <-(rev_nth p 0 Hk). f_equal. now apply nth_error_nth. }
  apply (H (length p - S j) (length p - S i)); auto; try lia; apply R1; auto; lia.
Qed.

(* ---- unique ---- *)
Lemma nth_combine' (A : list value) i y k a : nth_error (combine (seq a (length A)) A) i = Some (k, y) <-> nth_error A i = Some y /\ k = a + i.
Proof.
  revert i a. induction A as [|x A IH]; intros [|i] a; cbn; try (split; [|intros []]; discriminate).
  - rewrite Nat.add_0_r. split; [intros [= <- <-]; auto|]. intros [H ->]. congruence.
  - rewrite IH. replace (S a + i) with (a + S i) by lia. reflexivity.
Qed.
End Stable.
Lemma in_combine_iff' (A : list value) y k : In (k, y) (combine (seq 0 (length A)) A) <-> nth_error A k = Some y.
Proof.
  split.
  - intros H. apply In_nth_error in H. destruct H as [i H]. apply nth_combine' in H. destruct H as [H ->]. auto.
  - intros H. apply (nth_error_In _ k). now apply nth_combine'.
Qed.
Definition ucmp (a b : nat * value) : Z :=
  let s := oc (snd a) (snd b) in if (s =? 0)%Z then (rank_ty (ty (snd a)) - rank_ty (ty (snd b)))%Z else s.
Lemma unique_order (P : nat * value -> Prop) : (forall x, P x -> D (snd x)) -> weak_order (unique_less c) P.
Proof.
  intros H. apply (weak_order_pre (fun x => x) _ (fun x y => ucmp x y <? 0)%Z P P); auto.
  - intros x y _ _. unfold unique_less, ucmp. cbv zeta. destruct (Z.eqb_spec (oc (snd x) (snd y)) 0); auto.
    destruct (Z.ltb_spec (rank_ty (ty (snd x))) (rank_ty (ty (snd y)))), (Z.ltb_spec (rank_ty (ty (snd x)) - rank_ty (ty (snd y))) 0); auto; lia.
  - apply by_cmp_order.
    + intros x y Hx Hy. unfold ucmp. cbv zeta. rewrite (d_opp (snd x) (snd y)) by auto.
      destruct (Z.eqb_spec (oc (snd x) (snd y)) 0), (Z.eqb_spec (- oc (snd x) (snd y)) 0); lia.
    + intros x y z Hx Hy Hz. unfold ucmp. cbv zeta. pose proof (d_trans (snd x) (snd y) (snd z) (H _ Hx) (H _ Hy) (H _ Hz)) as T.
      pose proof (d_trans (snd z) (snd y) (snd x) (H _ Hz) (H _ Hy) (H _ Hx)) as T'. unfold trans_at in *.
      rewrite (d_opp (snd y) (snd z)), (d_opp (snd x) (snd y)), (d_opp (snd x) (snd z)) in T' by auto.
      destruct (Z.eqb_spec (oc (snd x) (snd y)) 0), (Z.eqb_spec (oc (snd y) (snd z)) 0), (Z.eqb_spec (oc (snd x) (snd z)) 0); lia.
Qed.
Lemma unique_sorted_le l : Forall (fun x => D (snd x)) l -> sorted (unique_less c) l ->
  StronglySorted (fun x y => (oc (snd x) (snd y) <= 0)%Z) l.
Proof.
  intros Hl Hs. rewrite sorted_nth. intros i j x y Hij Hx Hy. pose proof (proj1 (sorted_nth _ _) Hs i j x y Hij Hx Hy) as H. cbn beta in H.
  rewrite Forall_forall in Hl. assert (Dx : D (snd x)) by (eapply Hl, nth_error_In; eauto). assert (Dy : D (snd y)) by (eapply Hl, nth_error_In; eauto).
  unfold unique_less in H. cbv zeta in H. rewrite (d_opp (snd x) (snd y)) in H by auto.
  destruct (Z.eqb_spec (- oc (snd x) (snd y)) 0); [lia|]. apply Z.ltb_ge in H. lia.
Qed.
Lemma dedup_in prev l x : In x (dedup c prev l) -> In x l.
Proof.
  revert prev. induction l as [|y l IH]; intros prev; cbn [dedup]; [easy|]. destruct (negb _).
  - intros [<-|H]; [now left|right; eauto].
  - intros H. right. eauto.
Qed.
Notation ole := (fun x y : nat * value => (oc (snd x) (snd y) <= 0)%Z).
Lemma dedup_split : forall l pre prev, Forall (fun x => D (snd x)) (pre ++ l) -> StronglySorted ole (pre ++ l) -> In prev pre ->
  (forall y, In y pre -> (oc (snd y) (snd prev) <= 0)%Z) ->
  forall x, In x (dedup c prev l) -> exists l1 l2, l = l1 ++ x :: l2 /\ forall y, In y (pre ++ l1) -> (oc (snd y) (snd x) < 0)%Z.
Proof.
  induction l as [|z l IH]; intros pre prev Hd Hs Hp Hle x Hx; cbn [dedup] in Hx; [easy|].
  assert (Hpz : (oc (snd prev) (snd z) <= 0)%Z).
  { apply In_nth_error in Hp. destruct Hp as [i Hi]. assert (i < length pre) by (apply nth_error_Some; congruence).
    apply (proj1 (sorted_nth _ _) Hs i (length pre)); auto.
    - rewrite nth_error_app1; auto.
    - rewrite nth_error_app2 by lia. now rewrite Nat.sub_diag. }
  assert (Hd' := Hd). rewrite Forall_forall in Hd'.
  assert (Dp : D (snd prev)) by (apply Hd', in_app_iff; auto). assert (Dz : D (snd z)) by (apply Hd', in_app_iff; right; now left).
  assert (Dy : forall y, In y pre -> D (snd y)) by (intros; apply Hd', in_app_iff; auto).
  assert (Shift : pre ++ z :: l = (pre ++ [z]) ++ l) by (now rewrite <-app_assoc).
  destruct (Z.eqb_spec (oc (snd prev) (snd z)) 0) as [E0|E0]; cbn [negb] in Hx.
  - destruct (IH (pre ++ [z]) prev) with (x := x) as (l1 & l2 & -> & H); auto; try (now rewrite <-Shift).
    + apply in_app_iff. now left.
    + intros y Hy. apply in_app_iff in Hy. destruct Hy as [Hy|[<-|[]]]; auto. rewrite (d_opp (snd prev)) by auto. lia.
    + exists (z :: l1), l2. split; auto. intros y Hy. apply H. rewrite <-app_assoc. exact Hy.
  - assert (Before : forall y, In y pre -> (oc (snd y) (snd z) < 0)%Z).
    { intros y Hy. pose proof (d_trans (snd y) (snd prev) (snd z) (Dy _ Hy) Dp Dz) as T. unfold trans_at in T. specialize (Hle y Hy). lia. }
    destruct Hx as [<-|Hx].
    + exists [], l. split; auto. intros y Hy. rewrite app_nil_r in Hy. auto.
    + destruct (IH (pre ++ [z]) z) with (x := x) as (l1 & l2 & -> & H); auto; try (now rewrite <-Shift).
      * apply in_app_iff. right. now left.
      * intros y Hy. apply in_app_iff in Hy. destruct Hy as [Hy|[<-|[]]]; [apply Before in Hy; lia|]. rewrite oc_refl by auto. lia.
      * exists (z :: l1), l2. split; auto. intros y Hy. apply H. rewrite <-app_assoc. exact Hy.
Qed.
Lemma dedup_covers : forall l prev, D (snd prev) -> Forall (fun x => D (snd x)) l -> forall x, In x l -> exists y, In y (prev :: dedup c prev l) /\ E (snd y) (snd x).
Proof.
  induction l as [|z l IH]; intros prev Hp Hl x Hx; [easy|]. assert (Hz := Forall_inv Hl). apply Forall_inv_tail in Hl. cbn [dedup].
  destruct (Z.eqb_spec (oc (snd prev) (snd z)) 0) as [E0|E0]; cbn [negb].
  - destruct Hx as [<-|Hx]; [|now apply IH]. exists prev. split; [now left|]. now apply E_ok.
  - destruct Hx as [<-|Hx].
    + exists z. split; [right; now left|]. now apply E_refl.
    + destruct (IH z Hz Hl x Hx) as (y & Hy & H). exists y. split; [now right|auto].
Qed.
Lemma dedup_strict : forall l prev, Forall (fun x => D (snd x)) (prev :: l) -> StronglySorted ole (prev :: l) ->
  StronglySorted (fun x y => (oc (snd x) (snd y) < 0)%Z) (prev :: dedup c prev l).
Proof.
  induction l as [|z l IH]; intros prev Hd Hs; cbn [dedup]; [now repeat constructor|].
  assert (Dp := Forall_inv Hd). assert (Dl := Forall_inv_tail Hd). assert (Dz := Forall_inv Dl).
  apply StronglySorted_inv in Hs. destruct Hs as [Hs Hpl]. rewrite Forall_forall in Hpl.
  destruct (Z.eqb_spec (oc (snd prev) (snd z)) 0) as [E0|E0]; cbn [negb].
  - apply IH; [constructor; auto; now apply Forall_inv_tail in Dl|]. apply StronglySorted_inv in Hs. constructor; [apply Hs|].
    apply Forall_forall. intros y Hy. apply Hpl. now right.
  - specialize (IH z Dl Hs). constructor; auto. apply Forall_forall. intros y Hy.
    assert (Hpz : (oc (snd prev) (snd z) <= 0)%Z) by (apply Hpl; now left).
    destruct Hy as [<-|Hy]; [lia|]. apply StronglySorted_inv in IH. destruct IH as [_ IH]. rewrite Forall_forall in IH. specialize (IH y Hy).
    apply dedup_in in Hy. assert (Dy : D (snd y)) by (rewrite Forall_forall in Dl; apply Dl; now right).
    pose proof (d_trans (snd prev) (snd z) (snd y) Dp Dz Dy) as T. unfold trans_at in T. lia.
Qed.
Lemma fop_perm {A} (R : A -> A -> Prop) l l' : (forall x y, In x l -> In y l -> R x y -> R y x) -> Permutation l l' -> ForallOrdPairs R l -> ForallOrdPairs R l'.
Proof.
  intros Hsym P. revert Hsym. induction P as [|x l l' P IH|x y l|l1 l2 l3 P1 IH1 P2 IH2]; intros Hsym H; auto.
  - inversion H as [|? ? H1 H2]; subst. constructor.
    + now rewrite <-P.
    + apply IH; auto. intros; apply Hsym; auto; now right.
  - inversion H as [|? ? H1 H2]; subst. inversion H2 as [|? ? H3 H4]; subst. assert (Hxy := Forall_inv H1). apply Forall_inv_tail in H1.
    constructor; [constructor; auto|constructor; auto]. apply Hsym; auto; [now left|right; now left].
  - apply IH2; [|now apply IH1]. intros x y Hx Hy. rewrite <-P1 in Hx, Hy. auto.
Qed.
Lemma ss_fop {A} (R : A -> A -> Prop) l : StronglySorted R l -> ForallOrdPairs R l.
Proof. induction 1; constructor; auto. Qed.
Lemma fop_impl {A} (R R' : A -> A -> Prop) l : (forall x y, In x l -> In y l -> R x y -> R' x y) -> ForallOrdPairs R l -> ForallOrdPairs R' l.
Proof.
  intros H. induction 1 as [|x l H1 H2 IH]; constructor.
  - rewrite Forall_forall in *. intros y Hy. apply H; auto; [now left|now right].
  - apply IH. intros; apply H; auto; now right.
Qed.
Lemma fop_map {A B} (g : A -> B) (R : B -> B -> Prop) l : ForallOrdPairs (fun x y => R (g x) (g y)) l -> ForallOrdPairs R (map g l).
Proof. induction 1 as [|x l H1 H2 IH]; cbn [map]; constructor; auto. rewrite Forall_map. exact H1. Qed.

Lemma unique_ok l : Forall D l -> exists r idx, op_unique srt c (VVec l) = Ok (VVec r) /\ chosen l idx r /\
  ForallOrdPairs (fun x y => ~ E x y) r /\ (forall x, In x l -> among E r x) /\
  (a_stable_sort srt -> (forall x y, In x l -> In y l -> E x y -> ty x = ty y) ->
    forall i x, nth_error l i = Some x -> (In i idx <-> first_time E l i x)).
Proof.
  intros Hl. destruct l as [|x0 l0] eqn:El.
  - exists [], []. cbn [op_unique]. split; [reflexivity|]. split; [split; constructor|]. split; [constructor|]. split; [easy|].
    intros _ _ [|i] x; discriminate.
  - rewrite <-El in *. set (ps := combine (seq 0 (length l)) l).
    assert (Lp : length ps = length l) by (unfold ps; rewrite combine_length, seq_length; lia).
    assert (Dps : forall i x, In (i, x) ps -> D x /\ nth_error l i = Some x).
    { intros i x H. apply in_combine_iff' in H. split; auto. rewrite Forall_forall in Hl. eapply Hl, nth_error_In; eauto. }
    assert (W : weak_order (unique_less c) (fun x => In x ps)) by (apply unique_order; intros [i x] H; now apply (Dps i x)).
    destruct (srt_ok _ (unique_less c) ps) as [P S]. specialize (S W).
    assert (Hop : op_unique srt c (VVec l) = match srt (nat * value)%type (unique_less c) ps with [] => Crash
       | p :: s => Ok (VVec (map snd (srt (nat * value)%type index_less (p :: dedup c p s)))) end) by (rewrite El at 1; cbn [op_unique]; rewrite <-El; reflexivity).
    destruct (srt (nat * value)%type (unique_less c) ps) as [|p s] eqn:Es.
    { apply Permutation_length in P. rewrite Lp, El in P. discriminate. }
    assert (Ds : forall i x, In (i, x) (p :: s) -> D x /\ nth_error l i = Some x) by (intros i x H; apply Dps; now rewrite P).
    assert (Ds' : Forall (fun x => D (snd x)) (p :: s)) by (apply Forall_forall; intros [i x] H; now apply (Ds i x)).
    pose proof (unique_sorted_le _ Ds' S) as So. set (t := p :: dedup c p s).
    assert (Ht : forall x, In x t -> In x (p :: s)) by (intros x [<-|Hx]; [now left|right; now apply dedup_in in Hx]).
    destruct (srt_ok _ index_less t) as [P2 S2]. fold t in Hop. set (u := srt _ index_less t) in *. clearbody u.
    assert (Strict : StronglySorted (fun x y => (oc (snd x) (snd y) < 0)%Z) t) by (now apply dedup_strict).
    assert (Wi : weak_order index_less (fun x => In x t)).
    { unfold index_less. repeat split.
      - intros x _. apply Nat.ltb_irrefl.
      - intros x y z _ _ _ H1 H2. apply Nat.ltb_lt in H1, H2. apply Nat.ltb_lt. lia.
      - intros x y z _ _ _ H1 H2. apply Nat.ltb_ge in H1, H2. apply Nat.ltb_ge. lia. }
    specialize (S2 Wi).
    assert (Dt : forall x, In x t -> D (snd x) /\ nth_error l (fst x) = Some (snd x)) by (intros [i x] H; apply Ds; auto).
    assert (Fop : ForallOrdPairs (fun x y => ~ E (snd x) (snd y)) u).
    { apply (fop_perm _ t); auto.
      - intros x y Hx Hy H HE. apply H. apply E_sym; auto; now apply Dt.
      - apply (fop_impl _ _ t) with (2 := ss_fop _ _ Strict). intros x y Hx Hy H HE. apply E_ok in HE; [lia| |]; now apply Dt. }
    exists (map snd u), (map fst u). split; [auto|]. split; [split|split; [|split]].
    + apply sorted_nth. intros i j a b Hij Ha Hb. rewrite nth_error_map in Ha, Hb.
      destruct (nth_error u i) as [x|] eqn:Ex; [|discriminate]. destruct (nth_error u j) as [y|] eqn:Ey; [|discriminate].
      cbn in Ha, Hb. injection Ha as <-. injection Hb as <-.
      pose proof (proj1 (sorted_nth _ _) S2 i j x y Hij Ex Ey) as H. cbn beta in H. apply Nat.ltb_ge in H.
      assert (Ix : In x t) by (rewrite P2; eapply nth_error_In; eauto). assert (Iy : In y t) by (rewrite P2; eapply nth_error_In; eauto).
      destruct (Nat.eq_dec (fst x) (fst y)) as [He|He]; [|lia]. exfalso.
      destruct (two_split u i j x y Hij Ex Ey) as (l1 & l2 & l3 & Hu).
      assert (HE : ~ E (snd x) (snd y)).
      { rewrite Hu in Fop. clear -Fop. induction l1 as [|z l1 IH]; cbn [app] in Fop; inversion Fop as [|? ? H1 H2]; subst; auto.
        rewrite Forall_forall in H1. apply H1. rewrite in_app_iff. right. now left. }
      apply HE. destruct (Dt x Ix) as [Dx Nx], (Dt y Iy) as [_ Ny]. rewrite He, Ny in Nx. injection Nx as Nx. rewrite Nx. now apply E_refl.
    + rewrite !map_map. apply map_ext_in. intros x Hx. rewrite <-P2 in Hx. now apply Dt.
    + now apply fop_map.
    + intros x Hx. apply In_nth_error in Hx. destruct Hx as [k Hk].
      assert (Hin : In (k, x) (p :: s)) by (rewrite <-P; now apply in_combine_iff').
      assert (Dp : D (snd p)) by (now apply Forall_inv in Ds'). assert (Dx : D x) by (now apply (Ds k x)).
      assert (Hc : exists y, In y t /\ E (snd y) x).
      { destruct Hin as [->|Hin]; [exists (k, x); split; [now left|now apply E_refl]|].
        exact (dedup_covers s p Dp (Forall_inv_tail Ds') (k, x) Hin). }
      destruct Hc as (y & Hy & HE). exists (snd y). split; [apply in_map; now rewrite <-P2|]. apply E_sym; auto. now apply Dt.
    + intros [_ ST] Hty. specialize (ST _ (unique_less c) ps W). rewrite Es in ST.
      assert (First : forall i x, In (i, x) t -> first_time E l i x).
      { intros i x Hix. destruct (Ds i x (Ht _ Hix)) as [Dx Nx].
        assert (Sp : exists l1 l2, p :: s = l1 ++ (i, x) :: l2 /\ forall y, In y l1 -> (oc (snd y) x < 0)%Z).
        { destruct Hix as [->|Hix]; [exists [], s; split; easy|].
          destruct (dedup_split s [p] p) with (x := (i, x)) as (l1 & l2 & -> & H); auto.
          - now left.
          - intros y [<-|[]]. rewrite oc_refl; [lia|]. apply D_exact. now apply Forall_inv in Ds'.
          - exists (p :: l1), l2. split; auto. }
        destruct Sp as (l1 & l2 & Hsp & Hlt).
        assert (Hps : In (i, x) ps) by (rewrite P; now apply Ht).
        destruct (stable_first (unique_less c) (p :: s) ps (length l1) (i, x)) as (i' & Hi' & Hf).
        - now apply ST.
        - rewrite Hsp, nth_error_app2, Nat.sub_diag by lia. reflexivity.
        - destruct W as [W _]. now apply W.
        - intros j y Hj Hy. rewrite Hsp, nth_error_app1 in Hy by lia. apply nth_error_In in Hy. specialize (Hlt y Hy).
          unfold unique_less. cbn [snd]. destruct (Z.eqb_spec (oc (snd y) x) 0); [lia|]. now apply Z.ltb_lt.
        - apply nth_combine' in Hi'. destruct Hi' as [_ ->]. cbn in Hf. intros j y Hj Hy HE.
          specialize (Hf j (j, y) Hj). specialize (Hf (proj2 (nth_combine' l j y j 0) (conj Hy eq_refl))).
          assert (Dy : D y) by (rewrite Forall_forall in Hl; eapply Hl, nth_error_In; eauto).
          assert (Tyx : ty y = ty x) by (apply Hty; auto; eapply nth_error_In; eauto).
          apply E_ok in HE; auto. unfold tied, unique_less in Hf. cbn [snd] in Hf. rewrite (d_opp y x), HE, Tyx, Z.ltb_irrefl in Hf by auto. discriminate. }
      intros i x Hix. split.
      * intros Hi. apply in_map_iff in Hi. destruct Hi as ([k y] & Hk & Hy). cbn in Hk. subst k. rewrite <-P2 in Hy.
        destruct (Dt _ Hy) as [_ Ny]. cbn in Ny. rewrite Hix in Ny. injection Ny as <-. now apply First.
      * intros Hft. assert (Dx : D x) by (rewrite Forall_forall in Hl; eapply Hl, nth_error_In; eauto).
        assert (Hin : In (i, x) (p :: s)) by (rewrite <-P; now apply in_combine_iff').
        assert (Hc : exists y, In y t /\ E (snd y) x).
        { destruct Hin as [->|Hin]; [exists (i, x); split; [now left|now apply E_refl]|].
          exact (dedup_covers s p (Forall_inv Ds') (Forall_inv_tail Ds') (i, x) Hin). }
        destruct Hc as ([k y] & Hy & HE). cbn in HE. destruct (Dt _ Hy) as [Dy Ny]. cbn in Dy, Ny.
        destruct (Nat.lt_trichotomy k i) as [Hlt|[->|Hlt]].
        -- exfalso. exact (Hft k y Hlt Ny HE).
        -- apply in_map_iff. exists (i, y). split; auto. now rewrite <-P2.
        -- exfalso. apply (First k y Hy i x Hlt Hix). now apply E_sym.
Qed.
End Ops.

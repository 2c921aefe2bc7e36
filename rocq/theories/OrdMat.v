(* Proofs: the set operators at the level of the operators, matrices, and sorts that
   keep the contract. *)
From Verif Require Import Value NumModel NumSpec ArrSpec ArrBase ArrRot ArrSel EvalSpec EvalProofs OrdModel OrdSpec OrdProofs OrdOps.
Open Scope nat_scope.

(* ---- sorts ---- *)
Lemma insert_before_perm {A} less (x : A) l : Permutation (x :: l) (insert_before less x l).
Proof. induction l as [|y l IH]; cbn; auto. destruct (less y x); auto. rewrite perm_swap. now constructor. Qed.
Lemma insert_after_perm {A} less (x : A) l : Permutation (x :: l) (insert_after less x l).
Proof. induction l as [|y l IH]; cbn; auto. destruct (less x y); auto. rewrite perm_swap. now constructor. Qed.
Section Insertion.
Context {A : Type} (less : A -> A -> bool) (P : A -> Prop).
Hypothesis W : weak_order less P.
Lemma w_asym x y : P x -> P y -> less x y = true -> less y x = false.
Proof.
  intros Hx Hy H. destruct (less y x) eqn:E; auto. destruct W as (W1 & W2 & _). rewrite <-(W1 x Hx). symmetry. now apply (W2 x y x).
Qed.
Lemma before_sorted x l : P x -> Forall P l -> sorted less l -> sorted less (insert_before less x l).
Proof.
  intros Hx Hl Hs. induction Hs as [|y l Hs IH HF]; cbn; [repeat constructor|]. assert (Hy := Forall_inv Hl). apply Forall_inv_tail in Hl.
  destruct (less y x) eqn:E.
  - constructor; [now apply IH|]. rewrite <-insert_before_perm. constructor; auto. now apply w_asym.
  - constructor; [now constructor|]. constructor; auto. rewrite Forall_forall in *. intros z Hz. destruct W as (_ & _ & W3).
    apply (W3 x y z); auto.
Qed.
Lemma after_sorted x l : P x -> Forall P l -> sorted less l -> sorted less (insert_after less x l).
Proof.
  intros Hx Hl Hs. induction Hs as [|y l Hs IH HF]; cbn; [repeat constructor|]. assert (Hy := Forall_inv Hl). apply Forall_inv_tail in Hl.
  destruct (less x y) eqn:E.
  - assert (Hyx : less y x = false) by (now apply w_asym).
    constructor; [now constructor|]. constructor; auto. rewrite Forall_forall in *. intros z Hz. destruct W as (_ & _ & W3).
    apply (W3 x y z); auto.
  - constructor; [now apply IH|]. rewrite <-insert_after_perm. constructor; auto.
Qed.
Lemma before_stable a x l : P a -> P x -> Forall P l -> filter (tied less a) (insert_before less x l) = filter (tied less a) (x :: l).
Proof.
  intros Ha Hx. induction 1 as [|y l Hy Hl IH]; cbn [insert_before]; [reflexivity|]. destruct (less y x) eqn:E; [|reflexivity].
  cbn [filter] in *. rewrite IH. destruct (tied less a x) eqn:Tx, (tied less a y) eqn:Ty; try reflexivity.
  unfold tied in Tx, Ty. apply andb_true_iff in Tx, Ty. rewrite !negb_true_iff in Tx, Ty. destruct W as (_ & _ & W3).
  rewrite (W3 x a y) in E; [discriminate|..]; tauto.
Qed.
End Insertion.
Lemma insertion_perm {A} less (l : list A) : Permutation l (insertion_sort A less l).
Proof. induction l as [|x l IH]; cbn; auto. rewrite <-insert_before_perm. now constructor. Qed.
Lemma weak_sub {A} (less : A -> A -> bool) (P Q : A -> Prop) : (forall x, P x -> Q x) -> weak_order less Q -> weak_order less P.
Proof. intros H. apply (weak_order_pre (fun x => x)); auto. Qed.
Lemma insertion_sorts : a_sort insertion_sort.
Proof.
  intros A less l. split; [apply insertion_perm|]. intros W.
  assert (G : forall k, (forall x, In x k -> In x l) -> sorted less (insertion_sort A less k)).
  { induction k as [|x k IH]; intros Hk; [constructor|]. cbn. apply (before_sorted less _ W).
    - apply Hk. now left.
    - change (fold_right (insert_before less) [] k) with (insertion_sort A less k).
      rewrite <-insertion_perm. apply Forall_forall. intros y Hy. apply Hk. now right.
    - apply IH. intros y Hy. apply Hk. now right. }
  now apply G.
Qed.
Lemma insertion_stable : a_stable_sort insertion_sort.
Proof.
  split; [apply insertion_sorts|]. intros A less l W a Ha.
  assert (G : forall k, (forall x, In x k -> In x l) -> filter (tied less a) (insertion_sort A less k) = filter (tied less a) k).
  { induction k as [|x k IH]; intros Hk; [reflexivity|]. cbn [insertion_sort fold_right]. change (fold_right (insert_before less) [] k) with (insertion_sort A less k).
    rewrite (before_stable less _ W) ; auto.
    - cbn [filter]. rewrite IH; auto. intros y Hy. apply Hk. now right.
    - apply Hk. now left.
    - rewrite <-insertion_perm. apply Forall_forall. intros y Hy. apply Hk. now right. }
  now apply G.
Qed.
Lemma reversing_perm {A} less (l : list A) : Permutation l (tie_reversing_sort A less l).
Proof. induction l as [|x l IH]; cbn; auto. rewrite <-insert_after_perm. now constructor. Qed.
Lemma reversing_sorts : a_sort tie_reversing_sort.
Proof.
  intros A less l. split; [apply reversing_perm|]. intros W.
  assert (G : forall k, (forall x, In x k -> In x l) -> sorted less (tie_reversing_sort A less k)).
  { induction k as [|x k IH]; intros Hk; [constructor|]. cbn. apply (after_sorted less _ W).
    - apply Hk. now left.
    - change (fold_right (insert_after less) [] k) with (tie_reversing_sort A less k).
      rewrite <-reversing_perm. apply Forall_forall. intros y Hy. apply Hk. now right.
    - apply IH. intros y Hy. apply Hk. now right. }
  now apply G.
Qed.

(* ---- reversal ---- *)
Lemma list_nth_ext {A} (l l' : list A) : (forall i, nth_error l i = nth_error l' i) -> l = l'.
Proof.
  revert l'. induction l as [|x l IH]; intros [|y l'] H; auto; try (specialize (H 0); discriminate).
  f_equal; [specialize (H 0); now injection H|]. apply IH. intros i. apply (H (S i)).
Qed.
Lemma vec_reverse_rev l : vec_reverse l = Ok (VVec (rev l)).
Proof.
  pose proof (vec_reverse_ok l) as (v & H & _ & Hs & He). rewrite H. f_equal.
  assert (exists r, v = VVec r) as [r ->].
  { unfold vec_reverse in H. destruct (reverse_in _ _ _); try discriminate. injection H as <-. eauto. }
  cbn [shape_of] in Hs. injection Hs as Hs. f_equal. apply list_nth_ext. intros i.
  destruct (Nat.lt_ge_cases i (length l)) as [Hi|Hi].
  - destruct (He [i]) as [He1 He2]; [repeat constructor; auto|].
    unfold elem in He1. cbn [data_of shape_of ravel vol] in He1. rewrite !Nat.mul_1_r, !Nat.add_0_r in He1. rewrite He1.
    unfold on_last, mirror. cbn [removelast last app ravel vol]. rewrite Nat.mul_1_r, Nat.add_0_r.
    rewrite (nth_error_nth' l (VInt 0)), (nth_error_nth' (rev l) (VInt 0)) by (rewrite ?rev_length; lia).
    rewrite rev_nth by lia. do 2 f_equal. lia.
  - transitivity (@None value); [|symmetry]; apply nth_error_None; rewrite ?rev_length; lia.
Qed.

Section Ops.
Variable c : conf.
Notation oc := (ordered_compare c).
Variable D : value -> Prop.
Variable E : value -> value -> Prop.
Hypothesis D_exact : forall x, D x -> exact x.
Hypothesis E_ok : forall x y, D x -> D y -> (oc x y = 0%Z <-> E x y).
Variable srt : sort_fn.
Hypothesis srt_ok : a_sort srt.

Lemma flags_scalar P l r : flags P l r -> data_of (shrink_vec r) = r /\ is_mat (shrink_vec r) = false.
Proof. intros H. destruct H as [|x f l r H1 [|y g l' r' H3 H4]]; try easy. destruct H1 as [[_ ->]|[_ ->]]; easy. Qed.
Lemma to_vec_data v : is_mat v = false -> to_vec v = Ok (data_of v).
Proof. destruct v; cbn; easy. Qed.
Lemma flags_length P l r : flags P l r -> length r = length l.
Proof. induction 1; cbn; auto. Qed.
Lemma in_ok u v : is_mat u = false -> is_mat v = false -> Forall D (data_of u) -> Forall D (data_of v) ->
  exists w, op_in srt c u v = Ok w /\ is_mat w = false /\ flags (among E (data_of v)) (data_of u) (data_of w).
Proof.
  intros Hu Hv Du Dv. unfold op_in, at_least_vector. rewrite Hu, Hv. cbn [orb]. rewrite !to_vec_data by auto. cbn [bind].
  pose proof (membership_ok c D E D_exact E_ok srt srt_ok _ _ Du Dv) as H. destruct (flags_scalar _ _ _ H) as [H1 H2].
  eexists. split; [reflexivity|]. split; auto. now rewrite H1.
Qed.
Lemma to_mat_data v : snd (to_mat v) = data_of v.
Proof. now destruct v. Qed.
Lemma in_matrix_ok s d v : wf (VMat s d) -> 2 <= length s -> Forall D d -> Forall D (data_of v) ->
  exists r, op_in srt c (VMat s d) v = Ok (VMat s r) /\ flags (among E (data_of v)) d r.
Proof.
  intros (Hs & Hd & Hl) H2 Du Dv. unfold op_in, at_least_vector. cbn [is_mat orb to_mat fst snd]. rewrite to_mat_data.
  destruct (Nat.leb_spec (length s) 1) as [?|_]; [lia|]. pose proof (membership_ok c D E D_exact E_ok srt srt_ok _ _ Du Dv) as H.
  exists (membership srt c d (data_of v)). split; auto.
  destruct (new_matrix_ok s (membership srt c d (data_of v)) Hs) as [[_ ->]|[A _]]; auto; [|easy].
  rewrite (flags_length _ _ _ H). auto.
Qed.
Lemma iota_ok stb u v : a_stable_sort stb -> is_mat u = false -> is_mat v = false -> Forall D (data_of u) -> Forall D (data_of v) ->
  exists r, op_iota2 stb c u v = Ok (VVec r) /\ Forall2 (first_index E (origin c) (data_of u)) (data_of v) r.
Proof.
  intros St Hu Hv Du Dv. unfold op_iota2, at_least_vector. rewrite Hu, Hv. cbn [orb]. rewrite !to_vec_data by auto. cbn [bind].
  eexists. split; [reflexivity|]. now apply (vec_iota_ok c D E).
Qed.

(* ---- grade ---- *)
Lemma up_ok stb l : a_stable_sort stb -> Forall D l ->
  exists p, op_up srt stb c (VVec l) = Ok (indexes (origin c) p) /\ arranges (length l) (nth_error l) (ahead c E) p.
Proof.
  intros St Hl. destruct (grade_ok c D E D_exact E_ok stb St l Hl) as (p & Hp & H). exists p. split; auto. cbn [op_up]. now rewrite Hp.
Qed.
Lemma down_ok stb l : a_stable_sort stb -> Forall D l ->
  exists p, op_down srt stb c (VVec l) = Ok (indexes (origin c) p) /\ arranges (length l) (nth_error l) (fun x y => ahead c E y x) p.
Proof.
  intros St Hl. destruct (grade_ok c D E D_exact E_ok stb St l Hl) as (p & Hp & H). exists (rev p). split; [|now apply arranges_rev].
  cbn [op_down]. rewrite Hp, vec_reverse_rev. unfold indexes. now rewrite map_rev.
Qed.
Lemma row_less_lex l l' : length l = length l' -> row_less c l l' = (lex oc l l' <? 0)%Z.
Proof.
  revert l'. induction l as [|x l IH]; intros [|y l'] HL; try discriminate; cbn [row_less lex]; auto. cbv zeta.
  destruct (oc x y =? 0)%Z; auto.
Qed.
Lemma lex_lexicographic l l' : Forall D l -> Forall D l' -> length l = length l' -> (lex oc l l' <= 0)%Z ->
  lexicographic (fun x y => (oc x y < 0)%Z) E l l'.
Proof.
  intros Hl. revert l'. induction Hl as [|x l Hx Hl IH]; intros [|y l'] Hl' HL H; try discriminate; [constructor|].
  cbn [lex] in H. cbv zeta in H. assert (Hy := Forall_inv Hl'). apply Forall_inv_tail in Hl'. injection HL as HL.
  destruct (Z.eqb_spec (oc x y) 0) as [E0|E0]; [|apply lex_less; auto; lia]. apply lex_eq; auto. now apply E_ok.
Qed.
Lemma item_length n d i k : length d = k * n -> i < k -> length (item n d i) = n.
Proof. intros H Hi. unfold item. rewrite firstn_length, skipn_length. nia. Qed.
Lemma item_D n d i : Forall D d -> Forall D (item n d i).
Proof.
  intros H. unfold item. rewrite <-(firstn_skipn (i * n) d) in H. apply Forall_app in H. destruct H as [_ H].
  rewrite <-(firstn_skipn n (skipn _ d)) in H. now apply Forall_app in H.
Qed.
Lemma rows_order d s0 n : Forall D d -> length d = s0 * n ->
  weak_order (fun i j => row_less c (row d n i) (row d n j)) (fun i => In i (seq 0 s0)).
Proof.
  intros Hd HL. apply (weak_order_pre (item n d) _ (fun x y => lex oc x y <? 0)%Z _ (fun l => Forall D l /\ length l = n)).
  - intros i Hi. apply in_seq in Hi. split; [now apply item_D|]. apply (item_length n d i s0); auto; lia.
  - intros i j Hi Hj. apply in_seq in Hi, Hj. change (row d n) with (item n d). apply row_less_lex.
    rewrite !(item_length n d _ s0) by (auto; lia). reflexivity.
  - apply by_cmp_order; auto.
    + intros x y [Hx Lx] [Hy Ly]. rewrite Forall_forall in Hx, Hy. apply lex_opp; [|congruence]. intros a b Ha Hb. apply (d_opp c D); auto.
    + intros x y z [Hx Lx] [Hy Ly] [Hz Lz]. rewrite Forall_forall in Hx, Hy, Hz. apply lex_trans; try congruence. intros. apply (d_trans c D); auto.
Qed.
Lemma mat_grade_ok s0 s d : s0 <> 0 -> length d = s0 * vol s -> Forall D d ->
  exists p, mat_grade srt c (s0 :: s) d = Ok (map (fun i => VInt (Z.of_nat i + origin c)) p) /\
    arranges s0 (fun i => Some (item (vol s) d i)) (fun x y => lexicographic (fun x y => (oc x y < 0)%Z) E (snd x) (snd y)) p.
Proof.
  intros Hs HL Hd. unfold mat_grade. destruct (Nat.eqb_spec s0 0); [easy|]. cbv zeta.
  replace (length d / s0) with (vol s) by (rewrite HL, Nat.mul_comm, Nat.div_mul; auto).
  destruct (srt_ok _ (fun i j => row_less c (row d (vol s) i) (row d (vol s) j)) (seq 0 s0)) as [P S]. specialize (S (rows_order d s0 (vol s) Hd HL)).
  set (p := srt _ _ _) in *. clearbody p. exists p. split; [reflexivity|]. split; auto.
  intros i j a b x y Hij Ha Hb [= <-] [= <-]. cbn [snd].
  assert (Ia : In a (seq 0 s0)) by (rewrite P; eapply nth_error_In; eauto). assert (Ib : In b (seq 0 s0)) by (rewrite P; eapply nth_error_In; eauto).
  apply in_seq in Ia, Ib.
  pose proof (proj1 (sorted_nth _ _) S i j a b Hij Ha Hb) as H. cbn beta in H. change (row d (vol s)) with (item (vol s) d) in H.
  rewrite row_less_lex in H by (rewrite !(item_length _ d _ s0) by (auto; lia); reflexivity). apply Z.ltb_ge in H.
  apply lex_lexicographic; [now apply item_D|now apply item_D|rewrite !(item_length _ d _ s0) by (auto; lia); reflexivity|].
  rewrite (lex_opp oc (item (vol s) d b) (item (vol s) d a)); [lia| |rewrite !(item_length _ d _ s0) by (auto; lia); reflexivity].
  pose proof (item_D (vol s) d a Hd) as Da. pose proof (item_D (vol s) d b Hd) as Db. rewrite Forall_forall in Da, Db.
  intros. apply (d_opp c D); auto.
Qed.
Lemma up_matrix_ok stb s0 s d : s0 <> 0 -> length d = s0 * vol s -> Forall D d ->
  exists p, op_up srt stb c (VMat (s0 :: s) d) = Ok (indexes (origin c) p) /\
    arranges s0 (fun i => Some (item (vol s) d i)) (fun x y => lexicographic (fun x y => (oc x y < 0)%Z) E (snd x) (snd y)) p.
Proof. intros Hs HL Hd. destruct (mat_grade_ok s0 s d Hs HL Hd) as (p & Hp & H). exists p. split; auto. cbn [op_up]. now rewrite Hp. Qed.
Lemma down_matrix_ok stb s0 s d : s0 <> 0 -> length d = s0 * vol s -> Forall D d ->
  exists p, op_down srt stb c (VMat (s0 :: s) d) = Ok (indexes (origin c) p) /\
    arranges s0 (fun i => Some (item (vol s) d i)) (fun x y => lexicographic (fun x y => (oc x y < 0)%Z) E (snd y) (snd x)) p.
Proof.
  intros Hs HL Hd. destruct (mat_grade_ok s0 s d Hs HL Hd) as (p & Hp & H). exists (rev p). split.
  - cbn [op_down]. rewrite Hp. cbn [bind]. rewrite vec_reverse_rev. unfold indexes. now rewrite map_rev.
  - now apply arranges_rev in H.
Qed.

(* ---- index-of on arrays ---- *)
Lemma Forall2_nth_error {A B} (R : A -> B -> Prop) l l' : length l = length l' /\
  (forall i x y, nth_error l i = Some x -> nth_error l' i = Some y -> R x y) -> Forall2 R l l'.
Proof.
  revert l'. induction l as [|x l IH]; intros [|y l'] [HL H]; try discriminate; constructor.
  - apply (H 0); auto.
  - apply IH. split; [now injection HL|]. intros i. apply (H (S i)).
Qed.
Lemma skipn_cons {A} (l : list A) i x : nth_error l i = Some x -> skipn i l = x :: skipn (S i) l.
Proof. revert i. induction l as [|y l IH]; intros [|i] H; try discriminate; cbn in *; [congruence|]. now apply IH. Qed.
Lemma all_equal_ok x y : Forall D x -> Forall D y -> forall n i j, i + n <= length x -> j + n <= length y ->
  exists b, all_equal c x y i j n = Ok b /\ (b = true <-> Forall2 E (firstn n (skipn i x)) (firstn n (skipn j y))).
Proof.
  intros Hx Hy. induction n as [|n IH]; intros i j Hi Hj; cbn [all_equal].
  - exists true. split; auto. cbn. split; auto.
  - unfold at_. destruct (nth_error x i) as [a|] eqn:Ea; [|apply nth_error_None in Ea; lia].
    destruct (nth_error y j) as [b|] eqn:Eb; [|apply nth_error_None in Eb; lia]. cbn [bind].
    rewrite (skipn_cons x i a Ea), (skipn_cons y j b Eb). cbn [firstn].
    rewrite Forall_forall in Hx, Hy. assert (Da : D a) by (eapply Hx, nth_error_In; eauto). assert (Db : D b) by (eapply Hy, nth_error_In; eauto).
    destruct (Z.eqb_spec (oc a b) 0) as [H0|H0]; cbn [negb].
    + destruct (IH (S i) (S j)) as (r & Hr & H); [lia|lia|]. exists r. split; auto. rewrite H. split.
      * intros; constructor; auto. now apply E_ok.
      * now inversion 1.
    + exists false. split; auto. split; [easy|]. inversion 1; subst. exfalso. apply H0. now apply E_ok.
Qed.
Lemma first_equal_ok x y n ylo : Forall D x -> Forall D y -> ylo + n <= length y ->
  forall rows j, (j + rows) * n <= length x ->
  exists r, first_equal c x y ylo n rows j = Ok r /\
   ((exists i, j <= i < j + rows /\ Forall2 E (item n x i) (firstn n (skipn ylo y)) /\
      (forall k, j <= k < i -> ~ Forall2 E (item n x k) (firstn n (skipn ylo y))) /\ r = VInt (Z.of_nat i + origin c)) \/
    ((forall k, j <= k < j + rows -> ~ Forall2 E (item n x k) (firstn n (skipn ylo y))) /\ r = VInt (origin c - 1))).
Proof.
  intros Hx Hy Hn. induction rows as [|rows IH]; intros j HL; cbn [first_equal].
  - eexists. split; [reflexivity|]. right. split; auto. intros; lia.
  - destruct (all_equal_ok x y Hx Hy n (j * n) ylo) as (b & -> & Hb); [nia|lia|]. cbn [bind]. fold (item n x j) in Hb. destruct b.
    + eexists. split; [reflexivity|]. left. exists j. split; [lia|]. split; [now apply Hb|]. split; [intros; lia|auto].
    + destruct (IH (S j)) as (r & Hr & H); [nia|]. exists r. split; auto.
      assert (Hj : ~ Forall2 E (item n x j) (firstn n (skipn ylo y))) by (intros H'; apply Hb in H'; discriminate).
      destruct H as [(i & Hi & H1 & H2 & ->)|[H ->]].
      * left. exists i. split; [lia|]. split; auto. split; auto. intros k Hk. destruct (Nat.eq_dec k j) as [->|]; auto. apply H2. lia.
      * right. split; auto. intros k Hk. destruct (Nat.eq_dec k j) as [->|]; auto. apply H. lia.
Qed.
Lemma nth_items n d k i : i < k -> nth_error (items n d k) i = Some (item n d i).
Proof. intros H. unfold items. rewrite nth_error_map, (nth_error_nth' _ 0), seq_nth by (rewrite ?seq_length; lia). reflexivity. Qed.
Lemma legal_prefix s t : legal (s ++ t) -> legal s.
Proof.
  intros H k Hk. specialize (H k). rewrite app_length in H. rewrite firstn_app in H. replace (k - length s) with 0 in H by lia. cbn [firstn] in H.
  rewrite app_nil_r in H. apply H. lia.
Qed.
Lemma mat_iota_ok s0 sa da sp db : s0 <> 0 -> vol sa <> 0 -> length da = vol (s0 :: sa) -> length db = vol (sp ++ sa) -> legal (sp ++ sa) ->
  Forall D da -> Forall D db ->
  exists r, mat_iota c (s0 :: sa, da) (sp ++ sa, db) = Ok (match sp with [] | [_] => VVec r | _ => VMat sp r end) /\
    Forall2 (first_index (Forall2 E) (origin c) (items (vol sa) da s0)) (items (vol sa) db (vol sp)) r.
Proof.
  intros H0 Hn La Lb Leg Da Db. unfold mat_iota. rewrite app_length.
  destruct (Nat.ltb_spec (length sp + length sa) (length sa)) as [?|_]; [lia|]. cbn [orb].
  replace (length sp + length sa - length sa) with (length sp) by lia. rewrite skipn_app, skipn_all, Nat.sub_diag. cbn [skipn app].
  rewrite firstn_app, firstn_all, Nat.sub_diag. cbn [firstn]. rewrite app_nil_r.
  unfold shape_eqb. destruct (list_eq_dec Nat.eq_dec sa sa) as [_|N]; [|easy]. cbn [negb]. cbv zeta.
  destruct (Nat.eqb_spec s0 0) as [?|_]; [easy|]. cbn [vol] in La.
  replace (length da / s0) with (vol sa) by (rewrite La, Nat.mul_comm, Nat.div_mul; auto).
  destruct (Nat.eqb_spec (vol sa) 0) as [?|_]; [easy|]. rewrite vol_app in Lb.
  replace (length da / vol sa) with s0 by (rewrite La, Nat.div_mul; auto).
  replace (length db / vol sa) with (vol sp) by (rewrite Lb, Nat.div_mul; auto).
  set (n := vol sa) in *.
  assert (F : forall i, i < vol sp -> exists r, first_equal c da db (i * n) n s0 0 = Ok r /\ first_index (Forall2 E) (origin c) (items n da s0) (item n db i) r).
  { intros i Hi. destruct (first_equal_ok da db n (i * n) Da Db) with (rows := s0) (j := 0) as (r & Hr & H); [nia|nia|].
    exists r. split; auto. destruct H as [(k & Hk & H1 & H2 & ->)|[H ->]].
    - left. exists k, (item n da k). rewrite nth_items by lia. repeat split; auto. intros j y Hj Hy. rewrite nth_items in Hy by lia. injection Hy as <-. apply H2. lia.
    - right. split; auto. intros (x & Hx & Hxb). unfold items in Hx. apply in_map_iff in Hx. destruct Hx as (k & <- & Hk). apply in_seq in Hk. apply (H k); auto; lia. }
  assert (G : forall m, m <= vol sp -> exists r, build m (fun i => first_equal c da db (i * n) n s0 0) = Ok r /\
     Forall2 (first_index (Forall2 E) (origin c) (items n da s0)) (items n db m) r).
  { intros m Hm. destruct (build_cases m (fun i => first_equal c da db (i * n) n s0 0)) as [(r & Hr & Lr & H)|(i & Hi & HF)].
    - exists r. split; auto. apply Forall2_nth_error. unfold items. split; [rewrite map_length, seq_length; auto|].
      intros i x y Hx Hy. assert (Hi : i < m) by (rewrite <-Lr; apply nth_error_Some; congruence).
      fold (items n db m) in Hx. rewrite nth_items in Hx by auto. injection Hx as <-.
      destruct (H i Hi) as (z & Hz & Hf). rewrite Hy in Hz. injection Hz as <-. destruct (F i) as (r' & Hr' & H'); [lia|]. cbn beta in Hf. rewrite Hr' in Hf. injection Hf as <-. exact H'.
    - destruct (F i) as (r' & Hr' & H'); [lia|]. rewrite Hr' in HF. inversion HF. }
  destruct (G (vol sp) (le_n _)) as (r & Hr & H). exists r. split; auto. rewrite Hr. cbn [bind].
  destruct sp as [|a [|b sp]]; auto. assert (Lr : length r = vol (a :: b :: sp)).
  { apply Forall2_len in H. rewrite <-H. unfold items. now rewrite map_length, seq_length. }
  destruct (new_matrix_ok (a :: b :: sp) r) as [[_ ->]|[A _]]; auto; [discriminate|]. exfalso. apply A. now apply legal_prefix in Leg.
Qed.
End Ops.

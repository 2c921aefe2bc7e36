(* Laws relating the operators. *)
From Verif Require Import Value NumModel ArrModel ArrSpec ArrBase ArrRot ArrTake ArrTransp ArrCat ArrSel ArrMix.
From Coq Require Import Arith ZifyBool ZifyNat.
Open Scope nat_scope.

Lemma rotl_lt k n j : n <> 0 -> rotl k n j < n.
Proof. intros H. unfold rotl. pose proof (Z.mod_pos_bound (Z.of_nat j + k) (Z.of_nat n) ltac:(lia)). lia. Qed.
Lemma rotl_comp a b n j : n <> 0 -> rotl a n (rotl b n j) = rotl (b + a) n j.
Proof.
  intros H. unfold rotl. pose proof (Z.mod_pos_bound (Z.of_nat j + b) (Z.of_nat n) ltac:(lia)).
  rewrite Z2Nat.id by lia. f_equal. rewrite Z.add_mod_idemp_l by lia. f_equal. lia.
Qed.
Lemma on_last_comp f g c : on_last f (on_last g c) = on_last (fun j => f (g j)) c.
Proof. unfold on_last. rewrite removelast_last, last_last. reflexivity. Qed.
Lemma on_first_comp f g c : on_first f (on_first g c) = on_first (fun j => f (g j)) c.
Proof. destruct c; reflexivity. Qed.
Lemma inb_on_last s n c f : (forall j, j < n -> f j < n) -> inb (s ++ [n]) c -> inb (s ++ [n]) (on_last f c).
Proof.
  intros F I. destruct (inb_snoc _ _ _ I) as (c' & j & -> & I' & J). unfold on_last. rewrite removelast_last, last_last.
  apply inb_app; [apply inb_len; auto|]. split; auto. repeat constructor; auto.
Qed.
Lemma inb_on_first n s c f : (forall j, j < n -> f j < n) -> inb (n :: s) c -> inb (n :: s) (on_first f c).
Proof. intros F I. destruct c as [|j c]; [inversion I|]. apply inb_cons in I. simpl. apply inb_cons. destruct I. auto. Qed.
Lemma on_last_ext f g c s n : (forall j, j < n -> f j = g j) -> inb (s ++ [n]) c -> on_last f c = on_last g c.
Proof.
  intros F I. destruct (inb_snoc _ _ _ I) as (c' & j & -> & I' & J). unfold on_last. rewrite removelast_last, last_last. rewrite F; auto.
Qed.
Lemma on_last_id c s n : inb (s ++ [n]) c -> on_last (fun j => j) c = c.
Proof. intros I. destruct (inb_snoc _ _ _ I) as (c' & j & -> & I' & J). unfold on_last. rewrite removelast_last, last_last. auto. Qed.

Lemma rot_rot v s n a b : wf v -> shape_of v = s ++ [n] -> n <> 0 -> s ++ [n] <> [1] ->
  is_array (bind (op_rot (VInt a) v) (op_rot (VInt b))) (s ++ [n]) (fun c => elem v (on_last (rotl (a + b) n) c)).
Proof.
  intros W S N N1. destruct (op_rot_ok (VInt a) v a s n) as (w & E & WW & SW & EL); auto; [left; auto|intros x ->; simpl in S; congruence|].
  rewrite E. cbn [bind]. eapply is_array_ext; [|apply op_rot_ok with (k := b); auto; [left; auto|intros x ->; simpl in SW; congruence]].
  intros c I. cbv beta. destruct (EL (on_last (rotl b n) c)) as [-> _]; [apply inb_on_last; auto; intros; apply rotl_lt; auto|].
  rewrite on_last_comp. f_equal. eapply on_last_ext; [|exact I]. intros j J. rewrite rotl_comp by auto. f_equal. lia.
Qed.
Lemma flip_flip v n s a b : wf v -> shape_of v = n :: s -> vol (n :: s) <> 0 -> s <> [] ->
  is_array (bind (op_flip (VInt a) v) (op_flip (VInt b))) (n :: s) (fun c => elem v (on_first (rotl (a + b) n) c)).
Proof.
  intros W S N SN. assert (n <> 0) as NZ by (intros ->; apply N; reflexivity).
  destruct (op_flip_ok (VInt a) v a n s) as (w & E & WW & SW & EL); auto; [left; auto|intros x ->; simpl in S; congruence|tauto|].
  rewrite E. cbn [bind].
  eapply is_array_ext; [|apply op_flip_ok with (k := b); auto; [left; auto|intros x ->; simpl in SW; congruence|tauto]].
  intros c I. cbv beta. destruct (EL (on_first (rotl b n) c)) as [-> _]; [apply inb_on_first; auto; intros; apply rotl_lt; auto|].
  rewrite on_first_comp. f_equal. destruct c; auto. simpl. rewrite rotl_comp by auto. f_equal. f_equal. lia.
Qed.
Lemma mirror_mirror n j : j < n -> mirror n (mirror n j) = j.
Proof. unfold mirror. lia. Qed.
Lemma reverse_reverse v s n : wf v -> shape_of v = s ++ [n] -> n <> 0 -> s <> [] ->
  is_array (bind (op_rot1 v) op_rot1) (s ++ [n]) (elem v).
Proof.
  intros W S N SN. destruct (op_rot1_ok v s n) as (w & E & WW & SW & EL); auto.
  rewrite E. cbn [bind]. eapply is_array_ext; [|apply op_rot1_ok; auto].
  intros c I. cbv beta. destruct (EL (on_last (mirror n) c)) as [-> _]; [apply inb_on_last; auto; unfold mirror; lia|].
  rewrite on_last_comp. f_equal. rewrite <-(on_last_id c s n I) at 2. eapply on_last_ext; [|exact I]. intros j J. apply mirror_mirror; auto.
Qed.
Lemma reverse_reverse_vec l : bind (op_rot1 (VVec l)) op_rot1 = Ok (VVec l).
Proof.
  destruct l as [|x l]; [reflexivity|]. destruct (op_rot1_ok (VVec (x :: l)) [] (length (x :: l))) as (w & E & WW & SW & EL); auto; try discriminate; try exact Logic.I.
  rewrite E. cbn [bind]. assert (exists l', w = VVec l') as [l' ->].
  { clear -E. cbn in E. unfold vec_reverse in E. destruct (reverse_in _ _ _); try discriminate. injection E as <-. eauto. }
  destruct (op_rot1_ok (VVec l') [] (length (x :: l))) as (w & E' & WW' & SW' & EL'); auto; try discriminate; try exact Logic.I.
  rewrite E'. f_equal. assert (exists l'', w = VVec l'') as [l'' ->].
  { clear -E'. cbn in E'. unfold vec_reverse in E'. destruct (reverse_in _ _ _); try discriminate. injection E' as <-. eauto. }
  f_equal. change l'' with (data_of (VVec l'')). eapply (array_data (VVec l'') [length (x :: l)]); [exists (VVec l''); split; [reflexivity|]; split; [exact Logic.I|]; split; [exact SW'|exact EL']|discriminate|simpl; lia|].
  intros c I. cbv beta. cbn [app] in EL. destruct (EL (on_last (mirror (length (x :: l))) c)) as [-> _].
  { apply (inb_on_last []); auto. unfold mirror. simpl. lia. }
  rewrite on_last_comp. unfold elem. cbn [shape_of data_of]. f_equal. f_equal. rewrite <-(on_last_id c [] _ I) at 2. eapply (on_last_ext _ _ _ []); [|exact I]. intros j J. apply mirror_mirror; auto.
Qed.
Lemma flip1_flip1 v n s : wf v -> shape_of v = n :: s -> s <> [] ->
  is_array (bind (op_flip1 v) op_flip1) (n :: s) (elem v).
Proof.
  intros W S SN. destruct (op_flip1_ok v n s) as (w & E & WW & SW & EL); auto.
  rewrite E. cbn [bind]. eapply is_array_ext; [|apply op_flip1_ok; auto].
  intros c I. cbv beta. destruct (EL (on_first (mirror n) c)) as [-> _]; [apply inb_on_first; auto; unfold mirror; lia|].
  rewrite on_first_comp. f_equal. destruct c as [|j c]; [inversion I|]. simpl. f_equal. apply inb_cons in I. apply mirror_mirror. apply I.
Qed.
Lemma inb_rev s c : inb (rev s) c -> inb s (rev c).
Proof.
  revert c. induction s as [|n s IH]; intros c I; [inversion I; constructor|]. cbn [rev] in I.
  destruct (inb_snoc _ _ _ I) as (c' & j & -> & I' & J). rewrite rev_unit. apply inb_cons. auto.
Qed.
Lemma transp_transp c v : wf v -> 2 <= rank_of v -> (forall x, shape_of v <> [x; 0]) -> (forall x, shape_of v <> [0; x]) -> legal (rev (shape_of v)) ->
  is_array (bind (op_transp1 c v) (op_transp1 c)) (shape_of v) (elem v).
Proof.
  intros W R N1 N2 L. assert (wf v) as W' by auto. assert (rank_of v <> 0) as R0 by lia. destruct (to_mat_arr v W R0) as (_ & _ & LG).
  destruct (array_legal _ _ _ L (op_transp1_ok c v W R N1)) as (w & E & WW & SW & EL). rewrite E. cbn [bind].
  assert (2 <= rank_of w) as RW by (unfold rank_of in *; rewrite SW, rev_length; auto).
  assert (forall x, shape_of w <> [x; 0]) as NW.
  { intros x Z. rewrite SW in Z. apply (N2 x). rewrite <-(rev_involutive (shape_of v)), Z. reflexivity. }
  pose proof (op_transp1_ok c w WW RW NW) as H. rewrite SW, rev_involutive in H. apply array_legal in H; auto.
  eapply is_array_ext; [|exact H]. intros k I. cbv beta. destruct (EL (rev k)) as [-> _].
  { apply inb_rev. rewrite rev_involutive. auto. }
  rewrite rev_involutive. reflexivity.
Qed.
Lemma take_drop_cat l n : Forall wf l -> n <= length l ->
  is_array (let! a := op_take (VInt (Z.of_nat n)) (VVec l) in let! b := op_drop (VInt (Z.of_nat n)) (VVec l) in op_cat a b) [length l] (elem (VVec l)).
Proof.
  intros F N. cbn [op_take op_drop to_vec bind as_int].
  destruct (vec_take_ok l (Z.of_nat n) F) as (a & -> & WA & SA & EA). destruct (vec_drop_ok l (Z.of_nat n)) as (b & -> & WB & SB & EB). cbn [bind].
  assert (Z.to_nat (Z.abs (Z.of_nat n)) = n) as ZN by lia. rewrite ZN in *.
  pose proof (op_cat_ll a b [] n (length l - n) WA WB SA SB) as H. cbn [app] in H. replace (n + (length l - n)) with (length l) in H by lia.
  apply array_legal in H; [|apply legal_short; auto]. eapply is_array_ext; [|exact H].
  intros c I. cbv beta. apply inb1 in I. destruct I as (i & -> & I). cbn [last]. unfold elem at 3. cbn [data_of shape_of ravel vol]. rewrite Nat.mul_1_r, Nat.add_0_r.
  destruct (Nat.ltb_spec i n) as [J|J].
  - destruct (EA [i]) as [-> _]; [constructor; auto; constructor|]. cbn [take_coord]. unfold take_from. destruct (Z.ltb_spec (Z.of_nat n) 0); [lia|].
    destruct (Z.leb_spec 0 (Z.of_nat i)); [|lia]. destruct (Z.ltb_spec (Z.of_nat i) (Z.of_nat (length l))); [|lia]. cbn [andb ravel vol]. f_equal. lia.
  - unfold on_last. cbn [removelast last app]. destruct (EB [i - n]) as [-> _]; [constructor; [lia|]; constructor|]. f_equal.
    cbn. lia.
Qed.
(* splitting a vector of equally long vectors that have been mixed *)
Lemma split_mix n ls : ls <> [] -> Forall (fun l => length l = n /\ Forall wf l) ls -> legal [length ls; n] ->
  bind (op_mix (VVec (map VVec ls))) op_split = Ok (VVec (map VVec ls)).
Proof.
  intros LN F LG. set (v := VVec (map VVec ls)).
  assert (common 1 (data_of v) = [n]) as CM.
  { unfold common. cbn [seq map data_of v]. f_equal. rewrite map_map. cbn [as_list shape_of nth]. apply Nat.le_antisymm.
    - apply list_max_le. apply Forall_forall. intros x I. apply in_map_iff in I. destruct I as (e & <- & I). rewrite Forall_forall in F. destruct (F e I) as [-> _]. auto.
    - destruct ls as [|l ls]; [congruence|]. inversion F as [|? ? [E _]]; subst. cbn. lia. }
  assert (gives_array (op_mix v) [length ls; n] (fun c => match elem v (firstn (rank_of v) c) with Some e => padded (as_list e) (skipn (rank_of v) c) | None => None end)) as H.
  { replace [length ls; n] with (shape_of v ++ common 1 (data_of v)) by (rewrite CM; cbn; rewrite map_length; reflexivity).
    apply op_mix_ok; auto; try exact Logic.I.
    - cbn; discriminate.
    - cbn. destruct ls; [congruence|discriminate].
    - cbn. destruct ls; [congruence|]. intros FS. inversion FS; subst. cbn in *. auto.
    - apply Forall_forall. intros e I. cbn in I. apply in_map_iff in I. destruct I as (l & <- & I). rewrite Forall_forall in F. destruct (F l I) as [E FW].
      split; [exact Logic.I|]. split; auto. split; [reflexivity|discriminate]. }
  apply array_legal in H; auto. destruct H as (m & -> & WM & SM & EM). cbn [bind].
  destruct m as [| | | | |k|s d]; cbn [shape_of] in SM; try discriminate. subst s.
  destruct (WM) as (_ & LD & _). unfold op_split. destruct (mat_split_ok [length ls] n d) as (w & E & WW & SW & EW); auto; [discriminate|].
  cbn [app] in E. rewrite E. f_equal.
  assert (exists l', w = VVec l') as [l' ->].
  { clear -E. unfold mat_split in E. destruct (mapM _ _); try discriminate. cbn [bind init_ removelast] in E. unfold new_matrix in E.
    destruct (too_large _); try discriminate. destruct (_ =? _); try discriminate. cbn in E. injection E as <-. eauto. }
  unfold v. f_equal. change l' with (data_of (VVec l')).
  eapply (array_data (VVec l') [length ls]); [exists (VVec l'); split; [reflexivity|]; split; [exact Logic.I|]; split; [exact SW|exact EW]|discriminate|rewrite map_length; simpl; lia|].
  intros c I. apply inb1 in I. destruct I as (i & -> & I). cbn [ravel vol]. rewrite Nat.mul_1_r, Nat.add_0_r.
  rewrite nth_error_map, (nth_error_nth' _ []) by auto. cbn [option_map]. f_equal. f_equal.
  set (l := nth i ls []). assert (In l ls) as IL by (apply nth_In; auto). rewrite Forall_forall in F. destruct (F l IL) as [LL _].
  unfold row. rewrite <-(map_nth_seq l dflt n LL) at 1. apply map_ext_in. intros j J. apply in_seq in J.
  cbn [app]; destruct (EM [i; j]) as [-> _]; [constructor; auto; constructor; [lia|]; constructor|]. change (rank_of v) with 1. cbn [firstn skipn].
  unfold elem at 1. cbn [shape_of data_of v ravel vol]. rewrite Nat.mul_1_r, Nat.add_0_r.
  rewrite nth_error_map, (nth_error_nth' _ []) by auto. cbn [option_map as_list]. fold l. unfold padded. cbn [shape_of inbb]. rewrite LL. destruct (Nat.ltb_spec j n); [|lia]. cbn [andb].
  unfold elem. cbn [shape_of data_of ravel vol]. rewrite Nat.mul_1_r, Nat.add_0_r. rewrite (nth_error_nth' _ dflt) by lia. reflexivity.
Qed.

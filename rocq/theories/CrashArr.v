(* C47: the structural operators. *)
From Verif Require Import Value NumModel ArrModel ArrSpec ArrBase ArrSel CrashSpec CrashBase.
From Coq Require Import ZifyBool ZifyNat.
Open Scope nat_scope.

Definition sounds := Forall sound.
Lemma concat_sound rows : Forall (Forall sound) rows -> Forall sound (concat rows).
Proof. induction 1; cbn [concat]; [constructor|]. now apply Forall_app. Qed.
(* A loop that builds rows, put together. *)
Lemma fine_rows {A B} (P : A -> Prop) (f : B -> res (list value)) l k : fine P k -> 
  (forall x, In x l -> fine (Forall sound) (f x)) -> forall Q (g : list (list value) -> res Q) R,
  (forall rows, Forall (Forall sound) rows -> length rows = length l -> fine R (g rows)) -> fine R (let! rows := mapM f l in g rows).
Proof.
  intros _ H Q g R G. eapply fine_bind; [apply fine_mapM, H|]. intros rows _ [L F]. now apply G.
Qed.
Lemma repeat_sound x n : sound x -> Forall sound (repeat x n).
Proof. intros H. induction n; cbn; constructor; auto. Qed.
Lemma firstn_sound n l : Forall sound l -> Forall sound (firstn n l).
Proof. intros H. revert n. induction H; intros [|n]; cbn; constructor; auto. Qed.
Lemma skipn_sound n l : Forall sound l -> Forall sound (skipn n l).
Proof. intros H. revert n. induction H; intros [|n]; cbn; auto. Qed.
Lemma vec_fine l : Forall sound l -> fine sound (Ok (VVec l)).
Proof. intros H. apply sound_vec, H. Qed.

(* Facts about shapes. *)
Lemma vol_last s : s <> [] -> vol s = vol (init_ s) * last_ s.
Proof.
  intros H. unfold init_, last_. pose proof (app_removelast_last 0 H) as E. rewrite E at 1. rewrite vol_app. cbn [vol]. lia.
Qed.
Lemma init_last (s : list nat) : s <> [] -> s = init_ s ++ [last_ s].
Proof. intros H. exact (app_removelast_last 0 H). Qed.
Lemma in_init (s : list nat) x : In x (init_ s) -> In x s.
Proof. intros H. destruct s as [|d s']; [destruct H|]. rewrite (init_last (d :: s')) by discriminate. apply in_or_app. now left. Qed.
Lemma in_last s : s <> [] -> In (last_ s) s.
Proof. intros H. rewrite (init_last s H) at 2. apply in_or_app. right. now left. Qed.
Lemma vol_filled s : ~ In 0 s -> vol s <> 0.
Proof. intros H E. now apply H, vol_zero. Qed.

(* ---- rho ---- *)
Lemma fine_shape l : forall n, fine (fun s => length s = length l) (shape_of_vec n l).
Proof.
  induction l as [|x l IH]; intros n; cbn [shape_of_vec]; [reflexivity|].
  destruct x; try exact Logic.I. destruct (_ || _); [exact Logic.I|]. cbv zeta. destruct (_ <? _)%Z; [exact Logic.I|].
  eapply fine_bind; [apply IH|]. intros s _ L. unfold fine. cbn [length]. congruence.
Qed.
Lemma fine_replicate fuel : forall i blen n t, 0 < blen -> blen <= i -> (i < n -> length t = i) -> Forall sound t ->
  fine (Forall sound) (replicate_from fuel i blen n t).
Proof.
  induction fuel as [|f IH]; intros i blen n t B I L F; cbn [replicate_from]; [exact F|].
  destruct (Nat.ltb_spec i n) as [H|H]; [|exact F].
  eapply fine_bind; [apply fine_at; [exact F|rewrite (L H); lia]|]. intros x _ Sx. apply IH; auto; try lia.
  - intros H2. rewrite app_length, (L H). cbn. lia.
  - apply Forall_app. split; [exact F|]. now constructor.
Qed.
Lemma fine_reshape A B : Forall sound B -> fine sound (reshape A B).
Proof.
  intros FB. unfold reshape.
  set (B' := match B with [] => [vzero] | _ => B end).
  assert (Forall sound B' /\ 0 < length B') as [FB' LB].
  { destruct B; cbn; split; try lia; try (constructor; [exact Logic.I|constructor]). exact FB. }
  clearbody B'. destruct A as [|a A]; [exact Logic.I|].
  eapply fine_bind; [apply fine_shape|]. intros s _ L. cbv zeta.
  eapply fine_bind with (P := Forall sound).
  { apply fine_replicate; auto; [intros H; rewrite firstn_length; lia|]. now apply firstn_sound. }
  intros t _ Ft. destruct A as [|a2 A]; [now apply vec_fine|]. apply fine_new_matrix; [|exact Ft].
  intros ->. discriminate.
Qed.
Lemma fine_rho u v : sound u -> sound v -> fine sound (op_rho u v).
Proof.
  intros Su Sv. unfold op_rho. apply fine_alv; auto.
  - intros. now apply fine_reshape.
  - intros _ _ (_ & _ & _ & F). destruct (fst (to_mat u)) as [|n [|m s]]; try exact Logic.I. now apply fine_reshape.
Qed.

(* ---- rot, flip ---- *)
Lemma rot_count_lt n len : len <> 0 -> rot_count n len < len.
Proof.
  intros H. unfold rot_count. cbv zeta. pose proof (Z.rem_bound_abs n (Z.of_nat len) ltac:(lia)).
  destruct (_ <? _)%Z eqn:E; lia.
Qed.
Lemma fine_do_rotate n src j off : Forall sound src -> j + n <= length src -> fine (fun r => length r = n /\ Forall sound r) (do_rotate n src j off).
Proof.
  intros F L. unfold do_rotate. apply fine_build. intros k K. apply fine_at; [exact F|].
  pose proof (Nat.mod_upper_bound (off + k) n ltac:(lia)). lia.
Qed.
Lemma fine_vec_rotate l n : Forall sound l -> fine sound (vec_rotate l n).
Proof.
  intros F. unfold vec_rotate. destruct l as [|x [|y l]]; [exact Logic.I|inversion F; assumption|].
  eapply fine_bind; [apply fine_do_rotate; [exact F|cbn; lia]|]. intros r _ [_ Fr]. now apply vec_fine.
Qed.
Lemma row_bound i n len : n <> 0 -> i < len / n -> i * n + n <= len.
Proof. intros N H. pose proof (Nat.mul_div_le len n N). nia. Qed.
Lemma fine_mat_rotate s d n : s <> [] -> Forall sound d -> last_ s <> 0 -> fine sound (mat_rotate s d n).
Proof.
  intros Ns F N. unfold mat_rotate. destruct s as [|s0 s']; [congruence|]. cbv zeta.
  destruct (Nat.eqb_spec (last_ (s0 :: s')) 0) as [|_]; [contradiction|].
  eapply (fine_rows (fun _ : unit => True) _ _ (Ok tt)); [exact Logic.I| |].
  - intros i I. apply in_seq in I. eapply fine_weak; [|apply fine_do_rotate; [exact F|]]; [tauto|]. apply row_bound; [exact N|lia].
  - intros rows FR _. apply fine_new_matrix; [exact Ns|]. now apply concat_sound.
Qed.
Lemma rot_count_mul n a b : a <> 0 -> b <> 0 -> rot_count (n * Z.of_nat b) (a * b) = rot_count n a * b.
Proof.
  intros A B. unfold rot_count. cbv zeta. rewrite Nat2Z.inj_mul, Z.mul_rem_distr_r by lia.
  pose proof (Z.rem_bound_abs n (Z.of_nat a) ltac:(lia)) as R.
  destruct (Z.ltb_spec (Z.rem n (Z.of_nat a)) 0) as [H|H];
    destruct (Z.ltb_spec (Z.rem n (Z.of_nat a) * Z.of_nat b) 0) as [H2|H2]; nia.
Qed.
Lemma fine_mat_vrotate s d n : s <> [] -> length d = vol s -> Forall sound d -> legal s -> ~ In 0 s -> fine sound (mat_vrotate s d n).
Proof.
  intros Ns L F LG N. unfold mat_vrotate. destruct s as [|s0 [|s1 s']]; [congruence| |].
  - unfold fine. apply sound_mat. auto.
  - set (s := s1 :: s') in *. assert (s0 <> 0) as N0 by (intros ->; apply N; now left).
    assert (vol s <> 0) as NV by (apply vol_filled; intros H; apply N; now right).
    assert (length d = s0 * vol s) as LD by exact L.
    assert (length d / s0 = vol s) as DV by (rewrite LD, Nat.mul_comm; apply Nat.div_mul; exact N0).
    destruct (Nat.eqb_spec s0 0); [contradiction|]. cbv zeta. rewrite DV.
    destruct (Nat.eqb_spec (length d) 0) as [Z|_]; [exfalso; rewrite LD in Z; nia|].
    destruct (Nat.eqb_spec (vol s) 0); [contradiction|].
    eapply (fine_rows (fun _ : unit => True) _ _ (Ok tt)); [exact Logic.I| |].
    + intros i I. apply in_seq in I. eapply fine_weak; [|apply (fine_build sound)]; [tauto|].
      intros k K. apply fine_at; [exact F|]. rewrite LD, (rot_count_mul n s0 (vol s)) by assumption.
      rewrite <-Nat.mul_add_distr_r, Nat.mul_mod_distr_r by assumption.
      pose proof (Nat.mod_upper_bound (rot_count n s0 + i) s0 N0). nia.
    + intros rows FR _. apply fine_new_matrix; [discriminate|]. now apply concat_sound.
Qed.
Lemma fine_count l : fine (fun _ => True) (count_of l).
Proof. destruct l as [|x [|y l]]; try exact Logic.I. now destruct x. Qed.
Lemma fine_mat_count a : fine (fun _ => True) (mat_count a).
Proof. unfold mat_count. destruct (fst a) as [|x [|y l]]; try exact Logic.I. apply fine_count. Qed.
Lemma not_empty_mat v : ~ empty_axis v -> ~ In 0 (fst (to_mat v)).
Proof. intros H E. now apply H, empty_to_mat. Qed.
(* Either no matrix is involved, or no empty axis. *)
Lemma fine_rot u v : sound u -> sound v -> clear u v -> fine sound (op_rot u v).
Proof.
  intros Su Sv C. unfold op_rot. apply fine_alv; auto.
  - intros a b Fa Fb _ _ _ _. eapply fine_bind; [apply fine_count|]. intros n _ _. now apply fine_vec_rotate.
  - intros M _ (Nb & _ & _ & F). eapply fine_bind; [apply fine_mat_count|]. intros n _ _. apply fine_mat_rotate; auto.
    intros E. apply (not_empty_mat v); [apply C, M|]. rewrite <-E. now apply in_last.
Qed.
Lemma fine_flip u v : sound u -> sound v -> clear u v -> fine sound (op_flip u v).
Proof.
  intros Su Sv C. unfold op_flip. apply fine_alv; auto.
  - intros a b Fa Fb _ _ _ _. eapply fine_bind; [apply fine_count|]. intros n _ _. now apply fine_vec_rotate.
  - intros M _ (Nb & L & LG & F). eapply fine_bind; [apply fine_mat_count|]. intros n _ _. apply fine_mat_vrotate; auto.
    apply not_empty_mat, C, M.
Qed.

(* ---- reversal ---- *)
Definition kept (n : nat) (l : list value) : Prop := length l = n /\ Forall sound l.
Lemma upd_sound l : forall i x r, upd l i x = Some r -> Forall sound l -> sound x -> Forall sound r.
Proof.
  induction l as [|y l IH]; intros i x r E F S; [destruct i; discriminate|]. inversion F; subst.
  destruct i; cbn in E; [injection E as <-; now constructor|]. destruct (upd l i x) eqn:E2; [|discriminate].
  injection E as <-. constructor; [assumption|]. eapply IH; eauto.
Qed.
Lemma fine_set_at l n i x : kept n l -> sound x -> i < n -> fine (kept n) (set_at l i x).
Proof.
  intros [L F] S I. unfold set_at. destruct (upd_ok l i x ltac:(lia)) as (r & E & LR & _). rewrite E.
  split; [congruence|]. eapply upd_sound; eauto.
Qed.
Lemma fine_swap l n i j : kept n l -> i < n -> j < n -> fine (kept n) (swap l i j).
Proof.
  intros K I J. destruct K as [L F]. unfold swap.
  eapply fine_bind; [apply (fine_at sound); [exact F|lia]|]. intros x _ Sx.
  eapply fine_bind; [apply (fine_at sound); [exact F|lia]|]. intros y _ Sy.
  eapply fine_bind; [apply (fine_set_at l n i y); [split; assumption|exact Sy|exact I]|]. intros l1 _ K1.
  apply fine_set_at; auto.
Qed.
Lemma fine_reverse_in l n off k : kept n l -> off + k <= n -> fine (kept n) (reverse_in l off k).
Proof.
  intros K B. unfold reverse_in. apply fine_foldM; [exact K|]. intros a i Ka I. apply in_seq in I.
  pose proof (Nat.div_le_mono (k) k 2). pose proof (Nat.mul_div_le k 2). apply fine_swap; auto; lia.
Qed.
Lemma fine_vec_reverse l : Forall sound l -> fine sound (vec_reverse l).
Proof.
  intros F. unfold vec_reverse. eapply fine_bind; [apply (fine_reverse_in l (length l)); [split; auto|lia]|].
  intros r _ [_ Fr]. now apply vec_fine.
Qed.
Lemma fine_rot1 v : sound v -> ~ (matrix v /\ empty_axis v) -> fine sound (op_rot1 v).
Proof.
  intros S N. destruct v as [z|z|z|q|a b|l|s d]; cbn [op_rot1]; try exact S; [now apply fine_vec_reverse, sound_vec|].
  apply sound_mat in S. destruct S as ((Ns & L & LG) & F). unfold mat_reverse. destruct s as [|s0 [|s1 s']]; [congruence|exact Logic.I|].
  cbv zeta. set (s := s0 :: s1 :: s') in *. assert (last_ s <> 0) as NL.
  { intros E. apply N. split; [exact Logic.I|]. cbn [empty_axis shape_of]. unfold empty_axis. cbn [shape_of]. rewrite <-E. now apply in_last. }
  destruct (Nat.eqb_spec (last_ s) 0); [contradiction|].
  eapply fine_bind with (P := kept (length d)).
  - apply fine_foldM; [split; auto|]. intros x i K I. apply in_seq in I. apply fine_reverse_in; [exact K|].
    apply row_bound; [exact NL|]. rewrite L. change (vol s) with (size s). lia.
  - intros r _ [Lr Fr]. unfold fine. apply sound_mat. split; [split; [exact Ns|split; [congruence|exact LG]]|exact Fr].
Qed.
Lemma fine_flip1 v : sound v -> fine sound (op_flip1 v).
Proof.
  intros S. destruct v as [z|z|z|q|a b|l|s d]; cbn [op_flip1]; try exact S; [now apply fine_vec_reverse, sound_vec|].
  apply sound_mat in S. destruct S as ((Ns & L & LG) & F). unfold mat_flip1. destruct s as [|s0 [|s1 s']]; [congruence|exact Logic.I|].
  cbv zeta. set (s := s1 :: s') in *.
  eapply fine_bind with (P := kept (length d)).
  - apply fine_foldM; [split; auto|]. intros x r K R. apply in_seq in R. apply fine_foldM; [exact K|]. intros y i K2 I. apply in_seq in I.
    change (size s) with (vol s) in *. assert (length d = s0 * vol s) as LD by exact L. pose proof (Nat.mul_div_le s0 2).
    apply fine_swap; [exact K2| |]; rewrite LD; nia.
  - intros r _ [Lr Fr]. unfold fine. apply sound_mat. split; [split; [exact Ns|split; [congruence|exact LG]]|exact Fr].
Qed.

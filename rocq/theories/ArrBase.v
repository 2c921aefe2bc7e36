(* Lemmas on coordinates, odometers and loops. *)
From Verif Require Import Value NumModel ArrModel ArrSpec.
From Coq Require Import Arith ZifyBool ZifyNat.
Open Scope nat_scope.
Ltac Zify.zify_post_hook ::= Z.div_mod_to_equations.

Lemma size_vol s : size s = vol s. Proof. reflexivity. Qed.
Lemma vol_app s t : vol (s ++ t) = vol s * vol t.
Proof. induction s as [|d s IH]; simpl; [lia|]. rewrite IH. lia. Qed.
Lemma vol_rev s : vol (rev s) = vol s.
Proof. induction s as [|d s IH]; simpl; auto. rewrite vol_app, IH. simpl. lia. Qed.
Lemma vol_ones n : vol (repeat 1 n) = 1.
Proof. induction n; simpl; lia. Qed.
Lemma vol_zero s : vol s = 0 <-> In 0 s.
Proof. induction s as [|d s IH]; simpl; [lia|]. rewrite Nat.mul_eq_0, IH. intuition. Qed.
Lemma inb_vol s c : inb s c -> vol s <> 0.
Proof. induction 1; simpl; [lia|]. apply Nat.neq_mul_0. lia. Qed.
Lemma inb_len s c : inb s c -> length c = length s.
Proof. induction 1; simpl; auto. Qed.
Lemma inb_nil : inb [] []. Proof. constructor. Qed.
Lemma inb_cons d s x c : inb (d :: s) (x :: c) <-> x < d /\ inb s c.
Proof. split; [intros H; inversion H; auto | intros []; constructor; auto]. Qed.
Lemma inb_app s t c e : length c = length s -> (inb (s ++ t) (c ++ e) <-> inb s c /\ inb t e).
Proof.
  revert c. induction s as [|d s IH]; intros [|x c] L; simpl in *; try lia.
  - split; [intros H; split; [constructor|auto] | intros []; auto].
  - rewrite !inb_cons, IH by lia. tauto.
Qed.
Lemma ravel_lt s c : inb s c -> ravel s c < vol s.
Proof. induction 1; simpl; [lia|]. nia. Qed.
Lemma unravel_ravel s c : inb s c -> unravel s (ravel s c) = c.
Proof.
  induction 1 as [|x d c s Hx H IH]; simpl; auto.
  pose proof (ravel_lt _ _ H) as L.
  rewrite Nat.div_add_l, (Nat.div_small (ravel s c)), Nat.add_0_r by lia.
  f_equal. rewrite Nat.add_comm, Nat.mod_add, Nat.mod_small by lia. exact IH.
Qed.
Lemma ravel_unravel s i : i < vol s -> ravel s (unravel s i) = i.
Proof.
  revert i. induction s as [|d s IH]; simpl; intros i H; [lia|].
  assert (vol s <> 0) by (destruct (vol s); lia).
  rewrite IH by (apply Nat.mod_upper_bound; lia).
  pose proof (Nat.div_mod i (vol s)). lia.
Qed.
Lemma unravel_inb s i : i < vol s -> inb s (unravel s i).
Proof.
  revert i. induction s as [|d s IH]; simpl; intros i H; [constructor|].
  assert (vol s <> 0) by (destruct (vol s); lia).
  constructor; [apply Nat.div_lt_upper_bound; lia|]. apply IH, Nat.mod_upper_bound; lia.
Qed.
Lemma unravel_len s i : length (unravel s i) = length s.
Proof. revert i; induction s; simpl; auto. Qed.
Lemma ravel_inj s c e : inb s c -> inb s e -> ravel s c = ravel s e -> c = e.
Proof. intros A B E. rewrite <-(unravel_ravel s c A), <-(unravel_ravel s e B), E. reflexivity. Qed.
Lemma ravel_app s t c e : length c = length s -> ravel (s ++ t) (c ++ e) = ravel s c * vol t + ravel t e.
Proof.
  revert c. induction s as [|d s IH]; intros [|x c] L; simpl in *; try lia.
  rewrite IH, vol_app by lia. lia.
Qed.
Lemma unravel_app s t i : i < vol (s ++ t) -> unravel (s ++ t) i = unravel s (i / vol t) ++ unravel t (i mod vol t).
Proof.
  intros H. rewrite vol_app in H. assert (vol t <> 0) by (destruct (vol t); lia).
  apply (ravel_inj (s ++ t)).
  - apply unravel_inb. rewrite vol_app; auto.
  - apply inb_app; [apply unravel_len|]. split; apply unravel_inb.
    + apply Nat.div_lt_upper_bound; lia.
    + apply Nat.mod_upper_bound; lia.
  - rewrite ravel_unravel by (rewrite vol_app; auto).
    rewrite ravel_app by apply unravel_len.
    rewrite !ravel_unravel by (try apply Nat.mod_upper_bound; try apply Nat.div_lt_upper_bound; lia).
    pose proof (Nat.div_mod i (vol t)). lia.
Qed.
Lemma ravel_ones s c : inb s c -> forall n, ravel (repeat 1 n ++ s) (repeat 0 n ++ c) = ravel s c.
Proof. intros H. induction n; simpl; auto. Qed.
Lemma ravel_zeros s : ravel s (repeat 0 (length s)) = 0.
Proof. induction s; simpl; auto. Qed.
Lemma unravel_0 s : unravel s 0 = repeat 0 (length s).
Proof.
  induction s as [|d s IH]; simpl; auto. f_equal; [destruct (vol s); reflexivity|].
  rewrite <-IH. destruct (vol s); [reflexivity|]. rewrite Nat.mod_0_l by lia. reflexivity.
Qed.

(* ---- odometer ---- *)
Lemma odo_ravel s c : inb s c ->
  (snd (odo s c) = false /\ inb s (fst (odo s c)) /\ ravel s (fst (odo s c)) = S (ravel s c)) \/
  (snd (odo s c) = true /\ fst (odo s c) = repeat 0 (length s) /\ S (ravel s c) = vol s).
Proof.
  induction 1 as [|x d c s Hx H IH]; simpl; [right; auto|].
  destruct (odo s c) as [r k] eqn:E. simpl in IH.
  destruct IH as [(-> & I & R)|(-> & I & R)]; simpl.
  - left. split; auto. split; [apply inb_cons; auto|]. lia.
  - destruct (Nat.ltb_spec (S x) d); simpl; subst r.
    + left. split; auto. split.
      * apply inb_cons. split; auto. rewrite <-unravel_0. apply unravel_inb. lia.
      * rewrite ravel_zeros. lia.
    + right. split; auto. split; auto. assert (x = d - 1) by lia. subst x. nia.
Qed.
Lemma odo_next_unravel s i : S i < vol s -> odo_next s (unravel s i) = unravel s (S i).
Proof.
  intros H. assert (i < vol s) by lia.
  pose proof (odo_ravel s (unravel s i) (unravel_inb s i ltac:(lia))) as O.
  rewrite ravel_unravel in O by lia. unfold odo_next.
  destruct O as [(_ & I & R)|(_ & _ & R)]; [|lia].
  apply (ravel_inj s); auto; [apply unravel_inb; lia|]. rewrite ravel_unravel; lia.
Qed.
Lemma odo_run_unravel n : forall s k, k + n <= vol s -> odo_run n s (unravel s k) = map (unravel s) (seq k n).
Proof.
  induction n as [|n IH]; intros s k H; simpl; auto. f_equal.
  destruct n; [reflexivity|]. rewrite odo_next_unravel by lia. apply IH. lia.
Qed.
Lemma odo_run_all s : odo_run (vol s) s (repeat 0 (length s)) = map (unravel s) (seq 0 (vol s)).
Proof. rewrite <-unravel_0. apply odo_run_unravel. lia. Qed.
Lemma odo_start_unravel s : forall i, i < vol s * S (vol s) -> vol s <> 0 ->
  odo_start s i = (unravel s (i mod vol s), i / vol s).
Proof.
  assert (forall i, vol s <> 0 -> odo_start s i = (unravel s (i mod vol s), i / vol s)) as G.
  { induction s as [|d s IH]; intros i H; cbn [odo_start unravel vol].
    - rewrite Nat.div_1_r. reflexivity.
    - cbn [vol] in H. assert (d <> 0 /\ vol s <> 0) as [Hd Hs] by (apply Nat.neq_mul_0; auto).
      rewrite IH by auto. destruct (Nat.ltb_spec 0 d); [|lia].
      rewrite (Nat.mul_comm d). f_equal; [|rewrite Nat.div_div by auto; reflexivity].
      f_equal.
      + rewrite Nat.mod_mul_r by auto. rewrite Nat.add_comm, Nat.mul_comm, Nat.div_add_l by auto.
        rewrite (Nat.div_small (i mod vol s)); [lia|]. apply Nat.mod_upper_bound; auto.
      + f_equal. rewrite Nat.mod_mul_r by auto. rewrite Nat.mul_comm, Nat.mod_add, Nat.mod_mod by auto. reflexivity. }
  intros; auto.
Qed.
Lemma odo_start_lt s i : i < vol s -> fst (odo_start s i) = unravel s i.
Proof. intros H. rewrite odo_start_unravel by nia. simpl. rewrite Nat.mod_small; auto. Qed.

(* ---- loops ---- *)
Lemma mapM_ok {A B} (f : A -> res B) (g : A -> B) l : (forall x, In x l -> f x = Ok (g x)) -> mapM f l = Ok (map g l).
Proof.
  induction l as [|x l IH]; intros H; simpl; auto.
  rewrite H by (left; auto). simpl. rewrite IH by (intros; apply H; right; auto). reflexivity.
Qed.
Lemma mapM_Ok_len {A B} (f : A -> res B) l r : mapM f l = Ok r -> length r = length l.
Proof.
  revert r. induction l as [|x l IH]; simpl; intros r H; [injection H as <-; auto|].
  destruct (f x); try discriminate. simpl in H. destruct (mapM f l); try discriminate.
  simpl in H. injection H as <-. simpl. f_equal. auto.
Qed.
Lemma mapM_Ok_nth {A B} (f : A -> res B) l r : mapM f l = Ok r ->
  forall i x, nth_error l i = Some x -> exists y, nth_error r i = Some y /\ f x = Ok y.
Proof.
  revert r. induction l as [|x l IH]; simpl; intros r H i y N; [destruct i; discriminate|].
  destruct (f x) eqn:F; try discriminate. simpl in H. destruct (mapM f l) eqn:M; try discriminate.
  simpl in H. injection H as <-. destruct i; simpl in *; [injection N as <-; eauto|]. eapply IH; eauto.
Qed.
Lemma mapM_app {A B} (f : A -> res B) l k : mapM f (l ++ k) = (let! a := mapM f l in let! b := mapM f k in Ok (a ++ b)).
Proof.
  induction l as [|x l IH]; simpl; [destruct (mapM f k); reflexivity|].
  destruct (f x); simpl; auto. rewrite IH. destruct (mapM f l); simpl; auto. destruct (mapM f k); reflexivity.
Qed.
Lemma mapM_map {A B C} (f : B -> res C) (g : A -> B) l : mapM f (map g l) = mapM (fun x => f (g x)) l.
Proof. induction l as [|x l IH]; simpl; auto. rewrite IH. reflexivity. Qed.
Lemma mapM_ext {A B} (f g : A -> res B) l : (forall x, In x l -> f x = g x) -> mapM f l = mapM g l.
Proof.
  induction l as [|x l IH]; intros H; simpl; auto. rewrite H by (left; auto).
  destruct (g x); simpl; auto. rewrite IH by (intros; apply H; right; auto). reflexivity.
Qed.

Definition dflt : value := VInt 0.
Lemma at_nth l i : i < length l -> at_ l i = Ok (nth i l dflt).
Proof. intros H. unfold at_. rewrite (nth_error_nth' l dflt H). reflexivity. Qed.
Lemma build_ok n f g : (forall i, i < n -> f i = Ok (g i)) -> build n f = Ok (map g (seq 0 n)).
Proof. intros H. apply mapM_ok. intros i I. apply in_seq in I. apply H. lia. Qed.
Lemma nth_map_seq {A} (g : nat -> A) n i d : i < n -> nth i (map g (seq 0 n)) d = g i.
Proof. intros H. rewrite nth_indep with (d' := g 0) by (rewrite map_length, seq_length; auto).
  rewrite map_nth, seq_nth by auto. reflexivity. Qed.
Lemma nth_error_map_seq {A} (g : nat -> A) n i : i < n -> nth_error (map g (seq 0 n)) i = Some (g i).
Proof. intros H. rewrite (nth_error_nth' _ (g 0)) by (rewrite map_length, seq_length; auto). f_equal. apply nth_map_seq; auto. Qed.
Lemma map_nth_seq {A} (l : list A) d n : length l = n -> map (fun i => nth i l d) (seq 0 n) = l.
Proof.
  intros <-. apply nth_ext with (d := d) (d' := d); [rewrite map_length, seq_length; auto|].
  intros i H. rewrite map_length, seq_length in H. apply (nth_map_seq (fun i => nth i l d)); auto.
Qed.
Lemma map_seq_shift {A} (f : nat -> A) m k : map f (seq m k) = map (fun i => f (m + i)) (seq 0 k).
Proof.
  revert m. induction k as [|k IH]; intros m; simpl; auto. rewrite Nat.add_0_r. f_equal.
  rewrite (IH (S m)), <-seq_shift, map_map. apply map_ext. intros; f_equal; lia.
Qed.
(* concatenation of n rows of k elements *)
Lemma concat_rows {A} (g : nat -> nat -> A) n k :
  concat (map (fun i => map (g i) (seq 0 k)) (seq 0 n)) = map (fun p => g (p / k) (p mod k)) (seq 0 (n * k)).
Proof.
  destruct k as [|k].
  { rewrite Nat.mul_0_r. simpl. induction (seq 0 n); simpl; auto. }
  induction n as [|n IH]; [reflexivity|].
  rewrite (seq_S n 0), map_app, concat_app, IH. cbn [plus].
  replace (S n * S k) with (n * S k + S k) by lia.
  rewrite seq_app, map_app. f_equal. cbn [map concat]. rewrite app_nil_r.
  rewrite (map_seq_shift _ (0 + n * S k)). apply map_ext_in. intros i H. apply in_seq in H.
  rewrite Nat.add_0_l, Nat.div_add_l, (Nat.div_small i), Nat.add_0_r by lia.
  rewrite Nat.add_comm, Nat.mod_add, Nat.mod_small by lia. reflexivity.
Qed.

(* ---- upd ---- *)
Lemma upd_ok l i x : i < length l -> exists r, upd l i x = Some r /\ length r = length l /\
  (forall j, nth_error r j = if j =? i then Some x else nth_error l j).
Proof.
  revert i. induction l as [|y l IH]; simpl; intros i H; [lia|].
  destruct i as [|i].
  - exists (x :: l). repeat split; auto. intros [|j]; reflexivity.
  - destruct (IH i ltac:(lia)) as (r & -> & L & N). exists (y :: r). repeat split; simpl; auto.
    intros [|j]; simpl; auto.
Qed.
Lemma set_at_ok l i x : i < length l -> exists r, set_at l i x = Ok r /\ length r = length l /\
  (forall j, nth_error r j = if j =? i then Some x else nth_error l j).
Proof. intros H. unfold set_at. destruct (upd_ok l i x H) as (r & -> & ?). eauto. Qed.

(* ---- new_matrix ---- *)
Lemma too_large_from_spec n s : too_large_from n s = false <->
  forall k, 1 <= k <= length s -> (n * Z.of_nat (vol (firstn k s)) <= maxInt)%Z.
Proof.
  revert n. induction s as [|d s IH]; intros n; simpl; [split; intros; [lia|auto]|].
  rewrite orb_false_iff, IH. split.
  - intros [A B] k Hk. destruct k as [|k]; [lia|]. cbn [firstn vol].
    destruct k as [|k]; [cbn [firstn vol]; lia|]. specialize (B (S k) ltac:(lia)). rewrite Nat2Z.inj_mul. lia.
  - intros H. split.
    + specialize (H 1 ltac:(lia)). cbn [firstn vol] in H. lia.
    + intros k Hk. specialize (H (S k) ltac:(lia)). cbn [firstn vol] in H. rewrite Nat2Z.inj_mul in H. lia.
Qed.
Lemma too_large_legal s : too_large s = false <-> legal s.
Proof.
  unfold legal. change (2 ^ 31 - 1)%Z with maxInt. destruct s as [|d s]; simpl; [split; intros; [lia|auto]|].
  rewrite too_large_from_spec. split.
  - intros H k Hk. destruct k as [|k]; [lia|]. cbn [firstn vol]. rewrite Nat2Z.inj_mul. apply H. lia.
  - intros H k Hk. specialize (H (S k) ltac:(lia)). cbn [firstn vol] in H. rewrite Nat2Z.inj_mul in H. auto.
Qed.
Lemma legal_dec s : legal s \/ ~ legal s.
Proof. rewrite <-too_large_legal. destruct (too_large s); [right; discriminate|auto]. Qed.
Lemma new_matrix_ok s d : s <> [] -> length d = vol s ->
  (legal s /\ new_matrix s d = Ok (VMat s d)) \/ (~ legal s /\ new_matrix s d = Err).
Proof.
  intros Hs L. unfold new_matrix. rewrite <-too_large_legal. destruct (too_large s); [right; split; auto; discriminate|].
  left. split; auto. destruct s; [congruence|]. rewrite size_vol, L, Nat.eqb_refl. reflexivity.
Qed.
Lemma new_matrix_array s d f : s <> [] -> length d = vol s ->
  (forall c, inb s c -> nth_error d (ravel s c) = f c) -> gives_array (new_matrix s d) s f.
Proof.
  intros Hs L H. destruct (new_matrix_ok s d Hs L) as [[A ->]|[A ->]]; [left|right; auto].
  split; auto. exists (VMat s d). split; [auto|]. split; [simpl; auto|]. split; [auto|].
  intros c I. split; [apply H; auto|]. apply nth_error_Some. simpl. rewrite L. apply ravel_lt; auto.
Qed.
Lemma new_matrix_build s g f : s <> [] ->
  (forall c, inb s c -> f c = Some (g (ravel s c))) -> gives_array (new_matrix s (map g (seq 0 (vol s)))) s f.
Proof.
  intros Hs H. apply new_matrix_array; auto; [rewrite map_length, seq_length; auto|].
  intros c I. rewrite H by auto. apply nth_error_map_seq. apply ravel_lt; auto.
Qed.
Lemma legal_short s : length s <= 1 -> legal s.
Proof. intros H k Hk. lia. Qed.
Lemma inb1 n c : inb [n] c -> exists i, c = [i] /\ i < n.
Proof. intros H. inversion H as [|x d c' s' Hx H']. inversion H'. subst. eauto. Qed.
Lemma vec_array l s f : s = [length l] -> (forall i, i < length l -> f [i] = nth_error l i) ->
  gives_array (Ok (VVec l)) s f.
Proof.
  intros -> H. left. split; [apply legal_short; auto|]. exists (VVec l). split; [auto|]. split; [exact I|]. split; [auto|].
  intros c J. split.
  - destruct (inb1 _ _ J) as (i & -> & K). unfold elem; simpl. rewrite Nat.mul_1_r, Nat.add_0_r. symmetry. auto.
  - apply nth_error_Some. apply ravel_lt in J. simpl in *. lia.
Qed.
Lemma dm_div q n j : j < n -> (q * n + j) / n = q.
Proof. intros H. rewrite Nat.div_add_l, Nat.div_small by lia. lia. Qed.
Lemma dm_mod q n j : j < n -> (q * n + j) mod n = j.
Proof. intros H. rewrite Nat.add_comm, Nat.mod_add, Nat.mod_small by lia. lia. Qed.

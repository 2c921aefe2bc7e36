(* Rotation and reversal. *)
From Verif Require Import Value NumModel ArrModel ArrSpec ArrBase.
From Coq Require Import Arith ZifyBool ZifyNat FinFun.
Open Scope nat_scope.
Ltac Zify.zify_post_hook ::= idtac.
(* lia with quotients and remainders as opaque numbers *)
Ltac olia := repeat match goal with
  | |- context [?a / ?b] => let q := fresh "q" in set (q := a / b) in *; clearbody q
  | H : context [?a / ?b] |- _ => let q := fresh "q" in set (q := a / b) in *; clearbody q
  | |- context [?a mod ?b] => let q := fresh "q" in set (q := a mod b) in *; clearbody q
  | H : context [?a mod ?b] |- _ => let q := fresh "q" in set (q := a mod b) in *; clearbody q
  end; lia.
Ltac onia := repeat match goal with
  | |- context [?a / ?b] => let q := fresh "q" in set (q := a / b) in *; clearbody q
  | H : context [?a / ?b] |- _ => let q := fresh "q" in set (q := a / b) in *; clearbody q
  | |- context [?a mod ?b] => let q := fresh "q" in set (q := a mod b) in *; clearbody q
  | H : context [?a mod ?b] |- _ => let q := fresh "q" in set (q := a mod b) in *; clearbody q
  end; nia.

Lemma inb_snoc s n c : inb (s ++ [n]) c -> exists c' j, c = c' ++ [j] /\ inb s c' /\ j < n.
Proof.
  intros H. pose proof (inb_len _ _ H) as L. rewrite app_length in L. simpl in L.
  destruct (exists_last (l := c)) as (c' & j & ->); [destruct c; simpl in *; [lia|congruence]|].
  exists c', j. rewrite app_length in L. simpl in L. apply inb_app in H; [|lia].
  destruct H as [A B]. inversion B; subst. auto.
Qed.
Lemma on_last_snoc f c j : on_last f (c ++ [j]) = c ++ [f j].
Proof. unfold on_last. rewrite removelast_last, last_last. reflexivity. Qed.
Lemma last_snoc s n : last_ (s ++ [n]) = n.
Proof. unfold last_. apply last_last. Qed.
Lemma init_snoc {A} (s : list A) n : init_ (s ++ [n]) = s.
Proof. unfold init_. apply removelast_last. Qed.
Lemma ravel_snoc s n c j : length c = length s -> ravel (s ++ [n]) (c ++ [j]) = ravel s c * n + j.
Proof. intros H. rewrite ravel_app by auto. simpl. lia. Qed.
Lemma vol_snoc s n : vol (s ++ [n]) = vol s * n.
Proof. rewrite vol_app. simpl. lia. Qed.
Lemma snoc_nonnil {A} (s : list A) n : s ++ [n] <> [].
Proof. destruct s; discriminate. Qed.
Lemma match_nonnil {A B} (l : list A) (x y : B) : l <> [] -> (match l with [] => x | _ => y end) = y.
Proof. destruct l; congruence. Qed.

Lemma rot_count_spec z n : n <> 0 -> rot_count z n = Z.to_nat (z mod Z.of_nat n).
Proof.
  intros H. unfold rot_count. pose proof (Z.quot_rem' z (Z.of_nat n)) as D.
  assert (- Z.of_nat n < Z.rem z (Z.of_nat n) < Z.of_nat n)%Z as B.
  { pose proof (Z.rem_bound_abs z (Z.of_nat n)). lia. }
  set (q := Z.quot z (Z.of_nat n)) in *. set (r := Z.rem z (Z.of_nat n)) in *. clearbody q r. f_equal.
  destruct (Z.ltb_spec r 0).
  - apply (Z.mod_unique _ _ (q - 1)%Z); [left; lia|nia].
  - apply (Z.mod_unique _ _ q); [left; lia|nia].
Qed.
Lemma rotl_spec z n j : n <> 0 -> (rot_count z n + j) mod n = rotl z n j.
Proof.
  intros H. rewrite rot_count_spec by auto. unfold rotl.
  pose proof (Z.mod_pos_bound z (Z.of_nat n)).
  apply Nat2Z.inj. rewrite Nat2Z.inj_mod, Nat2Z.inj_add, !Z2Nat.id by (try (apply Z.mod_pos_bound); lia).
  rewrite Z.add_mod_idemp_l by lia. f_equal. lia.
Qed.
Lemma rotl_lt z n j : n <> 0 -> rotl z n j < n.
Proof. intros H. unfold rotl. pose proof (Z.mod_pos_bound (Z.of_nat j + z) (Z.of_nat n)). lia. Qed.

Lemma do_rotate_ok n d j z : n <> 0 -> j + n <= length d ->
  do_rotate n d j (rot_count z n) = Ok (map (fun k => nth (j + rotl z n k) d dflt) (seq 0 n)).
Proof.
  intros Hn H. unfold do_rotate. apply build_ok. intros i I. rewrite rotl_spec by auto. apply at_nth.
  pose proof (rotl_lt z n i Hn). lia.
Qed.

Lemma array_legal r s f : legal s -> gives_array r s f -> is_array r s f.
Proof. intros L [[_ H]|[H _]]; tauto. Qed.

(* A matrix whose element p is taken from position g p of d. *)
Lemma gather_array s d g f : s <> [] -> length d = vol s ->
  (forall c, inb s c -> g (ravel s c) < length d /\ f c = nth_error d (g (ravel s c))) ->
  gives_array (new_matrix s (map (fun p => nth (g p) d dflt) (seq 0 (vol s)))) s f.
Proof.
  intros Hs L H. apply new_matrix_build; auto. intros c I. destruct (H c I) as [A ->].
  apply nth_error_nth'. auto.
Qed.

Lemma mat_rotate_ok s n d k : n <> 0 -> length d = vol (s ++ [n]) -> legal (s ++ [n]) ->
  is_array (mat_rotate (s ++ [n]) d k) (s ++ [n]) (fun c => nth_error d (ravel (s ++ [n]) (on_last (rotl k n) c))).
Proof.
  intros Hn L Hl. apply array_legal; auto. rewrite vol_snoc in L.
  unfold mat_rotate. rewrite last_snoc. destruct (s ++ [n]) as [|x t] eqn:E; [destruct s; discriminate|].
  rewrite <-E. destruct (Nat.eqb_spec n 0); [congruence|]. rewrite L, Nat.div_mul by auto.
  rewrite mapM_ok with (g := fun i => map (fun k0 => nth (i * n + rotl k n k0) d dflt) (seq 0 n)).
  2: { intros i I. apply in_seq in I. apply do_rotate_ok; auto. nia. }
  cbn [bind]. rewrite concat_rows. rewrite <-vol_snoc.
  apply gather_array with (g := fun p => p / n * n + rotl k n (p mod n)); [apply snoc_nonnil | rewrite vol_snoc; auto|].
  intros c I. destruct (inb_snoc _ _ _ I) as (c' & j & -> & I' & J).
  pose proof (inb_len _ _ I') as LC. pose proof (ravel_lt _ _ I') as RL. pose proof (rotl_lt k n j n0) as Rj.
  rewrite on_last_snoc, !ravel_snoc by auto.
  rewrite dm_div, dm_mod by auto.
  split; [nia|auto].
Qed.

Lemma vec_rotate_ok l k : 2 <= length l ->
  is_array (vec_rotate l k) [length l] (fun c => nth_error l (ravel [length l] (on_last (rotl k (length l)) c))).
Proof.
  intros H. apply array_legal; [apply legal_short; auto|].
  unfold vec_rotate. destruct l as [|x [|y l]]; simpl in H; try lia.
  set (L := x :: y :: l) in *. rewrite do_rotate_ok by (simpl; lia). cbn [bind].
  apply vec_array; [rewrite map_length, seq_length; auto|].
  intros i I. rewrite map_length, seq_length in I. rewrite nth_error_map_seq by auto.
  change (on_last (rotl k (length L)) [i]) with ([] ++ [rotl k (length L) i]). simpl ravel. rewrite Nat.mul_1_r, Nat.add_0_r.
  symmetry. symmetry. apply nth_error_nth'. apply rotl_lt. simpl; lia.
Qed.

Lemma one_int_vec u k : one_int u k -> is_mat u = false -> to_vec u = Ok [VInt k].
Proof. intros [->|[->| ->]]; simpl; auto; discriminate. Qed.
Lemma one_int_mat u k : one_int u k -> to_mat u = ([1], [VInt k]).
Proof. intros [->|[->| ->]]; reflexivity. Qed.
Lemma to_mat_arr v : wf v -> rank_of v <> 0 ->
  to_mat v = (shape_of v, data_of v) /\ length (data_of v) = vol (shape_of v) /\ legal (shape_of v).
Proof.
  unfold rank_of. destruct v; simpl; try lia; intros W R.
  - split; auto. split; [lia|]. apply legal_short; auto.
  - tauto.
Qed.
Lemma to_vec_arr v : is_mat v = false -> rank_of v <> 0 -> exists l, v = VVec l.
Proof. destruct v; simpl; try (unfold rank_of; simpl; lia); try discriminate; eauto. Qed.

Lemma op_rot_ok u v k s n : one_int u k -> wf v -> shape_of v = s ++ [n] -> n <> 0 -> (forall x, v <> VVec [x]) ->
  is_array (op_rot u v) (s ++ [n]) (fun c => elem v (on_last (rotl k n) c)).
Proof.
  intros Hu W S Hn H1.
  assert (rank_of v <> 0) as R by (unfold rank_of; rewrite S, app_length; simpl; lia).
  destruct (to_mat_arr v W R) as (TM & LD & LG). unfold op_rot, at_least_vector, elem. rewrite S in *.
  destruct (is_mat u || is_mat v) eqn:E.
  - rewrite (one_int_mat u k Hu), TM. simpl. apply mat_rotate_ok; auto.
  - apply orb_false_iff in E. destruct E as [Eu Ev].
    rewrite (one_int_vec u k Hu Eu). destruct (to_vec_arr v Ev R) as [l ->]. simpl in S.
    destruct s as [|? [|? ?]]; simpl in S; try discriminate; injection S as <-.
    cbn [app to_vec bind count_of as_int data_of]. apply vec_rotate_ok.
    destruct l as [|x [|y l]]; simpl in *; try lia. exfalso; apply (H1 x); auto.
Qed.

(* ---- flip ---- *)
Lemma rot_scaled k s0 e : s0 <> 0 -> e <> 0 -> rot_count (k * Z.of_nat e) (s0 * e) = rot_count k s0 * e.
Proof.
  intros Hs He. rewrite !rot_count_spec by lia. rewrite Nat2Z.inj_mul, Z.mul_mod_distr_r by lia.
  pose proof (Z.mod_pos_bound k (Z.of_nat s0)). rewrite Z2Nat.inj_mul, Nat2Z.id by lia. reflexivity.
Qed.
Lemma mat_vrotate_ok s0 s d k : s <> [] -> vol (s0 :: s) <> 0 -> length d = vol (s0 :: s) -> legal (s0 :: s) ->
  is_array (mat_vrotate (s0 :: s) d k) (s0 :: s) (fun c => nth_error d (ravel (s0 :: s) (on_first (rotl k s0) c))).
Proof.
  intros Hs Hv L Hl. apply array_legal; auto. cbn [vol] in Hv, L.
  assert (s0 <> 0 /\ vol s <> 0) as [H0 H1] by (apply Nat.neq_mul_0; auto).
  unfold mat_vrotate. destruct s as [|s1 s']; [congruence|]. set (s := s1 :: s') in *.
  destruct (Nat.eqb_spec s0 0); [congruence|].
  destruct (Nat.eqb_spec (length d) 0); [lia|].
  assert (length d / s0 = vol s) as -> by (rewrite L, Nat.mul_comm, Nat.div_mul; auto).
  destruct (Nat.eqb_spec (vol s) 0); [congruence|].
  rewrite L, rot_scaled, Nat.div_mul by auto.
  rewrite mapM_ok with (g := fun i => map (fun j => nth (rotl k s0 i * vol s + j) d dflt) (seq 0 (vol s))).
  2: { intros i I. apply in_seq in I. rewrite <-Nat.mul_add_distr_r, Nat.mul_mod_distr_r, rotl_spec by auto.
       apply build_ok. intros j J. apply at_nth. pose proof (rotl_lt k s0 i H0). nia. }
  cbn [bind]. rewrite concat_rows. change (s0 * vol s) with (vol (s0 :: s)).
  apply gather_array with (g := fun p => rotl k s0 (p / vol s) * vol s + p mod vol s); [discriminate|auto|].
  intros [|x c] I; [inversion I|]. apply inb_cons in I. destruct I as [X I]. pose proof (ravel_lt _ _ I).
  pose proof (rotl_lt k s0 x H0). cbn [ravel on_first]. rewrite dm_div, dm_mod by auto. split; [nia|auto].
Qed.

Lemma on_first1 f i : on_first f [i] = on_last f [i]. Proof. reflexivity. Qed.
Lemma is_array_ext r s f g : (forall c, inb s c -> f c = g c) -> is_array r s f -> is_array r s g.
Proof. intros E (v & A & B & C & D). exists v. repeat split; auto; intros; [rewrite <-E by auto|]; apply D; auto. Qed.
(* A rank-1 matrix is not rotated by flip (matrix.go:478 returns m). *)
Lemma op_flip_ok u v k s0 s : one_int u k -> wf v -> shape_of v = s0 :: s -> vol (s0 :: s) <> 0 ->
  (forall x, v <> VVec [x]) -> (s = [] -> is_mat u = false /\ is_mat v = false) ->
  is_array (op_flip u v) (s0 :: s) (fun c => elem v (on_first (rotl k s0) c)).
Proof.
  intros Hu W S Hn H1 H2.
  assert (rank_of v <> 0) as R by (unfold rank_of; rewrite S; simpl; lia).
  destruct (to_mat_arr v W R) as (TM & LD & LG). unfold op_flip, at_least_vector, elem. rewrite S in *.
  destruct (is_mat u || is_mat v) eqn:E.
  - rewrite (one_int_mat u k Hu), TM. cbn [fst snd mat_count count_of as_int bind]. apply mat_vrotate_ok; auto.
    intros ->. destruct (H2 eq_refl) as [A B]. rewrite A, B in E. discriminate.
  - apply orb_false_iff in E. destruct E as [Eu Ev].
    rewrite (one_int_vec u k Hu Eu). destruct (to_vec_arr v Ev R) as [l ->]. cbn [shape_of] in S. injection S as <- <-.
    cbn [app to_vec bind count_of as_int data_of].
    eapply is_array_ext; [|apply vec_rotate_ok].
    + intros c I. destruct (inb1 _ _ I) as (i & -> & _). reflexivity.
    + destruct l as [|x [|y l]]; simpl in *; try lia. exfalso; apply (H1 x); auto.
Qed.

(* ---- reversal by swaps ---- *)
Lemma foldM_app {A B} (f : A -> B -> res A) l k a : foldM f (l ++ k) a = (let! x := foldM f l a in foldM f k x).
Proof. revert a. induction l as [|y l IH]; intros a; simpl; auto. destruct (f a y); simpl; auto. Qed.
Lemma foldM_map {A B C} (f : A -> B -> res A) (g : C -> B) l a : foldM f (map g l) a = foldM (fun x c => f x (g c)) l a.
Proof. revert a. induction l as [|y l IH]; intros a; simpl; auto. destruct (f a (g y)); simpl; auto. Qed.
Lemma foldM_ext {A B} (f g : A -> B -> res A) l a : (forall x y, In y l -> f x y = g x y) -> foldM f l a = foldM g l a.
Proof.
  revert a. induction l as [|y l IH]; intros a H; simpl; auto. rewrite H by (left; auto).
  destruct (g a y); simpl; auto. apply IH. intros; apply H; right; auto.
Qed.
Lemma foldM_nest {A B C} (f : A -> C -> res A) (g : B -> list C) l a :
  foldM (fun x r => foldM f (g r) x) l a = foldM f (flat_map g l) a.
Proof.
  revert a. induction l as [|y l IH]; intros a; simpl; auto. rewrite foldM_app.
  destruct (foldM f (g y) a); simpl; auto.
Qed.
Lemma swap_ok l i j : i < length l -> j < length l -> exists r, swap l i j = Ok r /\ length r = length l /\
  forall p, nth_error r p = if p =? i then nth_error l j else if p =? j then nth_error l i else nth_error l p.
Proof.
  intros I J. unfold swap. rewrite !at_nth by auto. cbn [bind].
  destruct (set_at_ok l i (nth j l dflt) I) as (l1 & -> & L1 & N1). cbn [bind].
  destruct (set_at_ok l1 j (nth i l dflt) ltac:(lia)) as (r & -> & L2 & N2).
  exists r. repeat split; [lia|]. intros p. rewrite N2, N1.
  rewrite <-(nth_error_nth' l dflt I), <-(nth_error_nth' l dflt J).
  destruct (Nat.eqb_spec p i), (Nat.eqb_spec p j); subst; auto.
Qed.
(* Swapping each a in L with its mirror phi a. *)
Lemma swaps_ok phi L : forall l, NoDup L -> (forall a, In a L -> a < length l /\ phi a < length l /\ phi (phi a) = a) ->
  (forall a b, In a L -> In b L -> phi a = b -> a = b) ->
  exists r, foldM (fun x a => swap x a (phi a)) L l = Ok r /\ length r = length l /\
  forall p, phi (phi p) = p ->
    ((In p L \/ In (phi p) L) -> nth_error r p = nth_error l (phi p)) /\
    ((~ In p L /\ ~ In (phi p) L) -> nth_error r p = nth_error l p).
Proof.
  induction L as [|a L IH]; intros l N B D.
  { exists l. simpl. repeat split; auto. tauto. }
  simpl. destruct (B a (or_introl eq_refl)) as (Ba & Bp & Bi).
  destruct (swap_ok l a (phi a) Ba Bp) as (l1 & -> & L1 & N1). cbn [bind].
  inversion N as [|? ? Na N']; subst.
  destruct (IH l1) as (r & -> & Lr & Nr); auto.
  { intros b Hb. rewrite L1. apply B. right; auto. }
  { intros x y X Y. apply D; right; auto. }
  exists r. split; auto. split; [lia|]. intros p P. specialize (Nr p P) as [R1 R2]. split.
  - intros H. destruct (in_dec Nat.eq_dec p L) as [I|I]; [|destruct (in_dec Nat.eq_dec (phi p) L) as [J|J]].
    + rewrite R1 by auto. rewrite N1.
      destruct (Nat.eqb_spec (phi p) a) as [E|E].
      * exfalso. apply Na. rewrite <-(D p a); auto; [right; auto|left; auto].
      * destruct (Nat.eqb_spec (phi p) (phi a)) as [E'|E']; auto.
        exfalso. apply Na. rewrite <-Bi, <-E', P. auto.
    + rewrite R1 by auto. rewrite N1.
      destruct (Nat.eqb_spec (phi p) a) as [E|E]; [subst a; tauto|].
      destruct (Nat.eqb_spec (phi p) (phi a)) as [E'|E']; auto.
      exfalso. assert (p = a) by (rewrite <-P, E', Bi; auto). subst p.
      apply Na. rewrite (D a (phi a)); auto; [left; auto|right; auto].
    + rewrite R2 by auto. rewrite N1.
      destruct (Nat.eqb_spec p a) as [E|E]; [subst; auto|].
      destruct (Nat.eqb_spec p (phi a)) as [E'|E']; [subst p; rewrite Bi; auto|].
      exfalso. destruct H as [[H|H]|[H|H]]; auto. apply E'. rewrite H, P. auto.
  - intros [H1 H2]. rewrite R2 by tauto. rewrite N1.
    destruct (Nat.eqb_spec p a) as [E|E]; [subst; tauto|].
    destruct (Nat.eqb_spec p (phi a)) as [E'|E']; [subst p; rewrite Bi in H2; tauto|auto].
Qed.

(* Mirror image of position p in rows of length n. *)
Definition rowmir (n p : nat) : nat := p / n * n + (n - 1 - p mod n).
Lemma rowmir_inv n p : n <> 0 -> rowmir n (rowmir n p) = p.
Proof.
  intros H. unfold rowmir. pose proof (Nat.mod_upper_bound p n H). rewrite dm_div, dm_mod by lia.
  pose proof (Nat.div_mod p n H). lia.
Qed.
Lemma rows_list h n rows : h <= n ->
  flat_map (fun r => map (fun i => r * n + i) (seq 0 h)) (seq 0 rows) = map (fun q => q / h * n + q mod h) (seq 0 (rows * h)).
Proof. intros _. rewrite flat_map_concat_map. apply concat_rows. Qed.
Lemma in_rows h n rows p : h <= n -> n <> 0 ->
  (In p (flat_map (fun r => map (fun i => r * n + i) (seq 0 h)) (seq 0 rows)) <-> p / n < rows /\ p mod n < h).
Proof.
  intros H Hn. rewrite in_flat_map. split.
  - intros (r & R & I). apply in_seq in R. apply in_map_iff in I. destruct I as (i & <- & I). apply in_seq in I.
    rewrite dm_div, dm_mod by olia. olia.
  - intros [A B]. exists (p / n). split; [apply in_seq; olia|]. apply in_map_iff. exists (p mod n).
    split; [pose proof (Nat.div_mod p n); olia|apply in_seq; olia].
Qed.
Lemma nodup_rows h n rows : h <= n -> n <> 0 -> NoDup (flat_map (fun r => map (fun i => r * n + i) (seq 0 h)) (seq 0 rows)).
Proof.
  intros H Hn. destruct h as [|h].
  { simpl. induction (seq 0 rows); simpl; auto. constructor. }
  rewrite rows_list by auto. apply FinFun.Injective_map_NoDup; [|apply seq_NoDup].
  intros x y E. pose proof (Nat.mod_upper_bound x (S h)). pose proof (Nat.mod_upper_bound y (S h)).
  rewrite (Nat.div_mod x (S h)), (Nat.div_mod y (S h)) by auto.
  assert (x / S h = y / S h) as E1.
  { rewrite <-(dm_div (x / S h) n (x mod S h)), E, dm_div by olia. auto. }
  rewrite E1 in *. f_equal. olia.
Qed.
Lemma half n : 2 * (n / 2) <= n < 2 * (n / 2) + 2.
Proof. pose proof (Nat.div_mod n 2 ltac:(discriminate)). pose proof (Nat.mod_upper_bound n 2 ltac:(discriminate)). olia. Qed.
Lemma reverse_rows rows n d : n <> 0 -> length d = rows * n ->
  exists r, foldM (fun x i => reverse_in x (i * n) n) (seq 0 rows) d = Ok r /\ length r = length d /\
  forall p, p < length d -> nth_error r p = nth_error d (rowmir n p).
Proof.
  intros Hn L. unfold reverse_in.
  set (P := flat_map (fun r => map (fun i => r * n + i) (seq 0 (n / 2))) (seq 0 rows)).
  pose proof (half n) as H2. assert (n / 2 <= n) as Hh by olia.
  assert (forall p, In p P <-> p / n < rows /\ p mod n < n / 2) as IP by (intros; apply in_rows; auto).
  assert (foldM (fun x i => foldM (fun x i0 => swap x (i * n + i0) (i * n + (n - 1 - i0))) (seq 0 (n / 2)) x) (seq 0 rows) d
          = foldM (fun x a => swap x a (rowmir n a)) P d) as ->.
  { unfold P. rewrite <-foldM_nest. apply foldM_ext. intros x r _. rewrite foldM_map. apply foldM_ext.
    intros y i I. apply in_seq in I. unfold rowmir. rewrite dm_div, dm_mod by olia. reflexivity. }
  assert (forall p, p / n < rows <-> p < length d) as LT.
  { intros p. rewrite L. split; intros; [|apply Nat.div_lt_upper_bound; olia].
    pose proof (Nat.div_mod p n Hn). pose proof (Nat.mod_upper_bound p n Hn). onia. }
  destruct (swaps_ok (rowmir n) P d) as (r & -> & Lr & Nr).
  - apply nodup_rows; auto.
  - intros a A. apply IP in A. repeat split; [apply LT; tauto|apply LT|apply rowmir_inv; auto].
    unfold rowmir. rewrite dm_div; [tauto|]. olia.
  - intros a b A B E. apply IP in A, B. subst b. unfold rowmir in B. rewrite dm_div, dm_mod in B by olia. olia.
  - exists r. repeat split; auto. intros p Hp. destruct (Nr p (rowmir_inv n p Hn)) as [A B].
    destruct (in_dec Nat.eq_dec p P) as [I|I]; [auto|]. destruct (in_dec Nat.eq_dec (rowmir n p) P) as [J|J]; [auto|].
    rewrite B by auto. rewrite IP in I, J. unfold rowmir in J.
    pose proof (Nat.mod_upper_bound p n Hn). rewrite dm_div, dm_mod in J by olia. apply LT in Hp.
    f_equal. unfold rowmir. pose proof (Nat.div_mod p n Hn). olia.
Qed.

Lemma mat_reverse_ok s n d : s <> [] -> n <> 0 -> length d = vol (s ++ [n]) -> legal (s ++ [n]) ->
  is_array (mat_reverse (s ++ [n]) d) (s ++ [n]) (fun c => nth_error d (ravel (s ++ [n]) (on_last (mirror n) c))).
Proof.
  intros Hs Hn L Hl. rewrite vol_snoc in L. unfold mat_reverse. rewrite last_snoc, size_vol, vol_snoc, Nat.div_mul by auto.
  destruct (Nat.eqb_spec n 0); [congruence|].
  destruct (reverse_rows (vol s) n d Hn L) as (r & -> & Lr & Nr). cbn [bind].
  destruct (s ++ [n]) as [|x [|y t]] eqn:E; [destruct s; discriminate|destruct s as [|? [|]]; try discriminate; congruence|].
  rewrite <-E in *.
  exists (VMat (s ++ [n]) r). split; auto. split; [|split; auto].
  { simpl. split; [apply snoc_nonnil|]. split; auto. rewrite vol_snoc. olia. }
  intros c I. unfold elem. simpl. split.
  - rewrite Nr by (pose proof (ravel_lt _ _ I); rewrite vol_snoc in *; olia).
    destruct (inb_snoc _ _ _ I) as (c' & j & -> & I' & J). pose proof (inb_len _ _ I').
    rewrite on_last_snoc, !ravel_snoc by auto. unfold rowmir. rewrite dm_div, dm_mod by auto. reflexivity.
  - apply nth_error_Some. pose proof (ravel_lt _ _ I). rewrite vol_snoc in *. olia.
Qed.
Lemma vec_reverse_ok l : is_array (vec_reverse l) [length l] (fun c => nth_error l (ravel [length l] (on_last (mirror (length l)) c))).
Proof.
  apply array_legal; [apply legal_short; auto|]. unfold vec_reverse.
  destruct l as [|x l0] eqn:El.
  { apply vec_array; auto. simpl; olia. }
  rewrite <-El. destruct (reverse_rows 1 (length l) l) as (r & E & Lr & Nr); [subst; simpl; olia|olia|].
  simpl in E. destruct (reverse_in l 0 (length l)) eqn:R; simpl in E; try discriminate. injection E as ->. cbn [bind].
  apply vec_array; [rewrite Lr; auto|]. intros i I.
  change (on_last (mirror (length l)) [i]) with ([] ++ [mirror (length l) i]). simpl ravel. rewrite Nat.mul_1_r, Nat.add_0_r.
  rewrite Nr by olia. f_equal. unfold rowmir, mirror. rewrite Nat.div_small, Nat.mod_small by olia. reflexivity.
Qed.
Lemma op_rot1_ok v s n : wf v -> shape_of v = s ++ [n] -> n <> 0 -> (is_mat v = true -> s <> []) ->
  is_array (op_rot1 v) (s ++ [n]) (fun c => elem v (on_last (mirror n) c)).
Proof.
  intros W S Hn Hs. unfold elem. destruct v; simpl in S; try (destruct s; discriminate).
  - destruct s as [|? [|? ?]]; simpl in S; try discriminate; injection S as <-. apply vec_reverse_ok.
  - subst shape. simpl in *. apply mat_reverse_ok; tauto.
Qed.
Lemma op_rot1_empty : op_rot1 (VVec []) = Ok (VVec []).
Proof. reflexivity. Qed.

(* unary flip *)
Definition blockmir (m e p : nat) : nat := (m - 1 - p / e) * e + p mod e.
Lemma blockmir_inv m e p : e <> 0 -> p < m * e -> blockmir m e (blockmir m e p) = p.
Proof.
  intros H P. unfold blockmir. pose proof (Nat.mod_upper_bound p e H). rewrite dm_div, dm_mod by olia.
  pose proof (Nat.div_mod p e H). assert (p / e < m) by (apply Nat.div_lt_upper_bound; olia).
  replace (m - 1 - (m - 1 - p / e)) with (p / e) by olia. olia.
Qed.
Lemma mat_flip1_ok s0 s d : s <> [] -> length d = vol (s0 :: s) -> legal (s0 :: s) ->
  is_array (mat_flip1 (s0 :: s) d) (s0 :: s) (fun c => nth_error d (ravel (s0 :: s) (on_first (mirror s0) c))).
Proof.
  intros Hs L Hl. cbn [vol] in L. unfold mat_flip1. destruct s as [|s1 s']; [congruence|]. set (s := s1 :: s') in *.
  rewrite size_vol. destruct (Nat.eq_dec (vol s) 0) as [E0|E0].
  { rewrite E0 in *. assert (foldM (fun x r => foldM (fun x0 i => swap x0 (r * 0 + i) ((s0 - 1 - r) * 0 + i)) (seq 0 0) x)
      (seq 0 (s0 / 2)) d = Ok d) as -> by (induction (seq 0 (s0 / 2)); simpl; auto).
    cbn [bind]. exists (VMat (s0 :: s) d). split; auto. split; [split; [discriminate|split; auto; cbn [vol]; rewrite L, E0; olia]|split; auto].
    intros c I. apply inb_vol in I. cbn [vol] in I. olia. }
  set (e := vol s) in *.
  set (phi := fun p => if p <? s0 * e then blockmir s0 e p else p).
  assert (foldM (fun x r => foldM (fun x0 i => swap x0 (r * e + i) ((s0 - 1 - r) * e + i)) (seq 0 e) x) (seq 0 (s0 / 2)) d
          = foldM (fun x a => swap x a (phi a)) (seq 0 (s0 / 2 * e)) d) as ->.
  { replace (seq 0 (s0 / 2 * e)) with (flat_map (fun r => map (fun i => r * e + i) (seq 0 e)) (seq 0 (s0 / 2))).
    - rewrite <-foldM_nest. apply foldM_ext. intros x r Hr. rewrite foldM_map. apply foldM_ext.
      intros y i I. apply in_seq in I. apply in_seq in Hr. unfold phi.
      destruct (Nat.ltb_spec (r * e + i) (s0 * e)) as [A|A].
      + unfold blockmir. rewrite dm_div, dm_mod by olia. reflexivity.
      + assert (s0 / 2 <= s0) by (apply Nat.div_le_upper_bound; olia). onia.
    - rewrite rows_list by olia. rewrite <-(map_id (seq 0 (s0 / 2 * e))) at 2. apply map_ext.
      intros q. pose proof (Nat.div_mod q e). olia. }
  pose proof (half s0) as H2. assert (s0 / 2 <= s0) as Hh by olia.
  assert (forall p, phi (phi p) = p) as PP.
  { intros p. unfold phi. destruct (Nat.ltb_spec p (s0 * e)) as [A|A].
    - assert (blockmir s0 e p < s0 * e) as B.
      { unfold blockmir. pose proof (Nat.mod_upper_bound p e E0). assert (p / e < s0) by (apply Nat.div_lt_upper_bound; olia). onia. }
      destruct (Nat.ltb_spec (blockmir s0 e p) (s0 * e)); [|olia]. apply blockmir_inv; auto.
    - destruct (Nat.ltb_spec p (s0 * e)); [olia|auto]. }
  assert (forall p, p < s0 * e -> phi p = blockmir s0 e p /\ phi p < s0 * e) as PB.
  { intros p A. unfold phi. destruct (Nat.ltb_spec p (s0 * e)); [|olia]. split; auto.
    unfold blockmir. pose proof (Nat.mod_upper_bound p e E0). assert (p / e < s0) by (apply Nat.div_lt_upper_bound; olia). onia. }
  assert (forall p, p < s0 * e -> (p < s0 / 2 * e <-> p / e < s0 / 2)) as HB.
  { intros p A. pose proof (Nat.div_mod p e E0). pose proof (Nat.mod_upper_bound p e E0). split; intros; [apply Nat.div_lt_upper_bound; olia|onia]. }
  destruct (swaps_ok phi (seq 0 (s0 / 2 * e)) d) as (r & -> & Lr & Nr).
  - apply seq_NoDup.
  - intros a A. apply in_seq in A. assert (a < s0 * e) as A' by onia. destruct (PB a A'). repeat split; auto; olia.
  - intros a b A B E. apply in_seq in A, B. subst b. assert (a < s0 * e) as A' by onia. destruct (PB a A') as [P1 P2].
    assert (a / e < s0 / 2) by (apply HB; olia). assert (phi a / e < s0 / 2) as C by (apply HB; olia).
    rewrite P1 in C. unfold blockmir in C. pose proof (Nat.mod_upper_bound a e E0). rewrite dm_div in C by olia. olia.
  - cbn [bind]. exists (VMat (s0 :: s) r). split; auto.
    split; [split; [discriminate|split; auto; rewrite Lr, L; auto]|split; auto].
    intros c I. unfold elem. simpl shape_of. simpl data_of. split.
    + set (p := ravel (s0 :: s) c). assert (p < s0 * e) as Hp by (unfold p; apply (ravel_lt _ _ I)).
      assert (nth_error r p = nth_error d (phi p)) as ->.
      { destruct (Nr p (PP p)) as [A B].
        destruct (in_dec Nat.eq_dec p (seq 0 (s0 / 2 * e))) as [J|J]; [auto|].
        destruct (in_dec Nat.eq_dec (phi p) (seq 0 (s0 / 2 * e))) as [K|K]; [auto|]. rewrite B by auto.
        rewrite in_seq in J, K. destruct (PB p Hp) as [P1 P2].
        assert (~ p / e < s0 / 2) by (rewrite <-HB; olia). assert (~ phi p / e < s0 / 2) as C by (rewrite <-HB; olia).
        f_equal. rewrite P1 in *. pose proof (Nat.mod_upper_bound p e E0). pose proof (Nat.div_mod p e E0).
        unfold blockmir in C |- *. rewrite dm_div in C by olia.
        assert (p / e < s0) by (apply Nat.div_lt_upper_bound; olia).
        replace (s0 - 1 - p / e) with (p / e) by olia. olia. }
      destruct c as [|x c]; [inversion I|]. apply inb_cons in I. destruct I as [X I].
      destruct (PB p Hp) as [-> _]. unfold p. cbn [ravel on_first]. fold e. pose proof (ravel_lt _ _ I).
      unfold blockmir, mirror. rewrite dm_div, dm_mod by auto. reflexivity.
    + apply nth_error_Some. pose proof (ravel_lt _ _ I) as Q. cbn [vol] in Q. olia.
Qed.
Lemma op_flip1_ok v s0 s : wf v -> shape_of v = s0 :: s -> (is_mat v = true -> s <> []) ->
  is_array (op_flip1 v) (s0 :: s) (fun c => elem v (on_first (mirror s0) c)).
Proof.
  intros W S Hs. unfold elem. destruct v; cbn [shape_of] in S; try discriminate.
  - injection S as <- <-. eapply is_array_ext; [|apply vec_reverse_ok].
    intros c I. destruct (inb1 _ _ I) as (i & -> & _). reflexivity.
  - subst shape. simpl in W, Hs. apply mat_flip1_ok; tauto.
Qed.

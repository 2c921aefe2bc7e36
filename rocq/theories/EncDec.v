(* decode, and decoding what was encoded. *)
From Coq Require Import QArith Qabs Lqa Lia ZArith.
From Verif Require Import Value NumModel NumSpec NumProofs NumArith ArrModel ArrSpec ArrBase EvalProofs EncModel EncSpec EncProofs EncOps.
Open Scope nat_scope.

Lemma skipn_nth {X} (l : list X) d i : i < length l -> skipn i l = nth i l d :: skipn (S i) l.
Proof. revert i. induction l as [|x l IH]; intros [|i] H; cbn in *; try lia; auto. apply IH. lia. Qed.

Lemma nth_error_list {X} (d : X) (P : nat -> X -> Prop) (n : nat) : (forall j, j < n -> exists x, P j x) -> exists f, forall j, j < n -> P j (f j).
Proof.
  induction n as [|n IH]; intros H; [exists (fun _ => d); lia|].
  destruct IH as [f Hf]; [intros j Hj; apply H; lia|]. destruct (H n ltac:(lia)) as [x Hx].
  exists (fun j => if j =? n then x else f j). intros j Hj. destruct (Nat.eqb_spec j n) as [->|N]; [exact Hx|]. apply Hf. lia.
Qed.
Section Decode.
Variable c : conf.
Notation add := (eval_scalar c BAdd).
Notation mul := (eval_scalar c BMul).
Definition result (r : res value) (q : Q) : Prop := gives r q \/ (r = Err /\ maxbits c <> 0%Z).

Lemma add_number a b x y : number a x -> number b y -> (exists v, add a b = Ok v /\ number v (x + y)%Q) \/ (add a b = Err /\ maxbits c <> 0%Z).
Proof.
  intros (Va & x' & Na & Ea) (Vb & y' & Nb & Eb). destruct (add_exact c a b x' y' Va Vb Na Nb) as [H|(H & M & _)]; [left|right; auto].
  apply number_gives in H as (v & E & N). exists v. split; [auto|]. eapply number_eq; [exact N|]. now rewrite Ea, Eb.
Qed.
Lemma mul_number a b x y : number a x -> number b y -> (exists v, mul a b = Ok v /\ number v (x * y)%Q) \/ (mul a b = Err /\ maxbits c <> 0%Z).
Proof.
  intros (Va & x' & Na & Ea) (Vb & y' & Nb & Eb). destruct (mul_exact c a b x' y' Va Vb Na Nb) as [H|(H & M & _)]; [left|right; auto].
  apply number_gives in H as (v & E & N). exists v. split; [auto|]. eapply number_eq; [exact N|]. now rewrite Ea, Eb.
Qed.

Lemma decode_from_ok fa fb as_ bs n : length as_ = n -> length bs = n ->
  (forall i, i < n -> exists v, fa i = Ok v /\ number v (nth i as_ 0%Q)) ->
  (forall i, i < n -> exists v, fb i = Ok v /\ number v (nth i bs 0%Q)) ->
  forall i r p, i <= n -> number r (radix (skipn i as_) (skipn i bs)) -> number p (product (skipn i as_)) ->
  result (decode_from add mul fa fb i r p) (radix as_ bs).
Proof.
  intros La Lb Ha Hb. induction i as [|i IH]; intros r p Hi Hr Hp; cbn [decode_from].
  - left. apply number_gives. eauto.
  - destruct (Hb i ltac:(lia)) as (b & -> & Nb). destruct (Ha i ltac:(lia)) as (a & -> & Na). cbn [bind].
    destruct (mul_number p b _ _ Hp Nb) as [(t & -> & Nt)|[-> M]]; [|right; auto]. cbn [bind].
    destruct (add_number r t _ _ Hr Nt) as [(r' & -> & Nr)|[-> M]]; [|right; auto]. cbn [bind].
    destruct (mul_number p a _ _ Hp Na) as [(p' & -> & Np)|[-> M]]; [|right; auto]. cbn [bind].
    apply IH; [lia| |].
    + eapply number_eq; [exact Nr|]. rewrite (skipn_nth as_ 0%Q i), (skipn_nth bs 0%Q i) by lia. cbn [radix]. ring.
    + eapply number_eq; [exact Np|]. rewrite (skipn_nth as_ 0%Q i) by lia. rewrite product_cons. ring.
Qed.
Lemma decode_all fa fb as_ bs n : length as_ = n -> length bs = n ->
  (forall i, i < n -> exists v, fa i = Ok v /\ number v (nth i as_ 0%Q)) ->
  (forall i, i < n -> exists v, fb i = Ok v /\ number v (nth i bs 0%Q)) ->
  result (decode_from add mul fa fb n vzero vone) (radix as_ bs).
Proof.
  intros La Lb Ha Hb. apply (decode_from_ok fa fb as_ bs n); auto.
  - rewrite !skipn_all2 by lia. exact number_zero.
  - rewrite skipn_all2 by lia. exact number_one.
Qed.

Lemma extend_len n l : l <> [] -> length l = 1 \/ length l = n -> length (extend n l) = n.
Proof. destruct l as [|x [|y l]]; cbn; intros H [E|E]; try congruence; try lia; apply repeat_length. Qed.
Lemma get_number A as_ n i : Forall2 number A as_ -> A <> [] -> length A = 1 \/ length A = n -> i < n ->
  exists v, get A i = Ok v /\ number v (nth i (extend n as_) 0%Q).
Proof.
  intros F NA L Hi. unfold get. destruct (Nat.eqb_spec (length A) 1) as [E|E].
  - destruct F as [|a q A as_ Ha F]; [congruence|]. destruct F; [|cbn in E; lia]. exists a. split; [reflexivity|].
    cbn [extend]. rewrite nth_indep with (d' := q) by (rewrite repeat_length; auto). rewrite nth_repeat. exact Ha.
  - assert (LA : length A = n) by tauto. pose proof (forall2_length _ _ _ F) as L2.
    assert (X : extend n as_ = as_). { destruct as_ as [|x [|y l]]; try reflexivity. cbn in L2. lia. }
    rewrite X. destruct (nth_error as_ i) as [q|] eqn:Eq; [|apply nth_error_None in Eq; lia].
    destruct (forall2_nth _ _ _ F i q Eq) as (v & Hv & Nv). exists v. unfold at_. rewrite Hv. split; [reflexivity|].
    now rewrite (nth_error_nth _ _ _ Eq).
Qed.

Lemma data_vector v B : vector_like v B -> (forall s d, v <> VMat s d) /\ to_vec v = Ok B.
Proof. intros H. split; [|now apply vector_like_to]. intros s d ->. destruct H as [H|[H _]]; [discriminate|exact H]. Qed.
Lemma op_decode_vec u v A B : vector_like u A -> vector_like v B -> op_decode add mul u v = decode_vec add mul A B.
Proof.
  intros Hu Hv. unfold op_decode. rewrite (vector_like_to _ _ Hu). cbn [bind]. destruct (data_vector _ _ Hv) as [NM ->]. cbn [bind].
  destruct v; try reflexivity. exfalso. eapply NM. reflexivity.
Qed.

Lemma decode_vectors u v A B as_ bs : vector_like u A -> vector_like v B -> Forall2 number A as_ -> Forall2 number B bs ->
  let n := Nat.max (length A) (length B) in
  (A = [] \/ B = [] -> op_decode add mul u v = Ok (VInt 0)) /\
  (A <> [] -> B <> [] -> length A = 1 \/ length B = 1 \/ length A = length B ->
     result (op_decode add mul u v) (radix (extend n as_) (extend n bs))) /\
  (A <> [] -> B <> [] -> length A <> 1 -> length B <> 1 -> length A <> length B -> op_decode add mul u v = Err).
Proof.
  intros Hu Hv HA HB n. rewrite (op_decode_vec _ _ _ _ Hu Hv). unfold decode_vec. split; [|split].
  - intros [-> | ->]; [reflexivity|]. now rewrite orb_true_r.
  - intros NA NB L. destruct (Nat.eqb_spec (length A) 0) as [E|_]; [destruct A; easy|]. destruct (Nat.eqb_spec (length B) 0) as [E|_]; [destruct B; easy|].
    cbn [orb]. rewrite (numbers_not_chars _ _ HA NA).
    replace ((length A =? 1) || (length B =? 1) || (length A =? length B)) with true.
    2:{ symmetry. rewrite !orb_true_iff, !Nat.eqb_eq. tauto. }
    assert (1 <= length A) by (destruct A; [congruence|cbn; lia]). assert (1 <= length B) by (destruct B; [congruence|cbn; lia]).
    pose proof (forall2_length _ _ _ HA). pose proof (forall2_length _ _ _ HB).
    apply decode_all.
    + apply extend_len; [intros ->; cbn in *; lia|lia].
    + apply extend_len; [intros ->; cbn in *; lia|lia].
    + intros i Hi. apply get_number; auto. lia.
    + intros i Hi. apply get_number; auto. lia.
  - intros NA NB L1 L2 L3. destruct (Nat.eqb_spec (length A) 0) as [E|_]; [destruct A; easy|]. destruct (Nat.eqb_spec (length B) 0) as [E|_]; [destruct B; easy|].
    cbn [orb]. rewrite (numbers_not_chars _ _ HA NA).
    destruct (Nat.eqb_spec (length A) 1); [easy|]. destruct (Nat.eqb_spec (length B) 1); [easy|]. destruct (Nat.eqb_spec (length A) (length B)); easy.
Qed.

(* ---- a matrix of digits ---- *)
(* The digits along the first axis at the rest ix of the coordinate; p is its position. *)
Definition column_values (bs : list Q) (s0 len p : nat) : list Q := map (fun i => nth (i * len + p) bs 0%Q) (seq 0 s0).

Definition digits_at (d : list value) (s0 len p : nat) (cs : list Q) : Prop :=
  length cs = s0 /\ forall k, k < s0 -> exists v, nth_error d (k * len + p) = Some v /\ number v (nth k cs 0%Q).
Lemma decode_cell_ok A as_ d cs s0 len p : Forall2 number A as_ -> A <> [] -> digits_at d s0 len p cs -> s0 <> 0 ->
  length A = 1 \/ s0 = 1 \/ length A = s0 ->
  let n := Nat.max (length A) s0 in
  result (decode_cell add mul A d s0 len n p) (radix (extend n as_) (extend n cs)).
Proof.
  intros HA NA [LC G0] N0 Lx n. pose proof (forall2_length _ _ _ HA) as La.
  assert (1 <= length A) by (destruct A; [congruence|cbn; lia]).
  assert (G : forall k, k < s0 -> exists v, at_ d (k * len + p) = Ok v /\ number v (nth k cs 0%Q)).
  { intros k Hk. destruct (G0 k Hk) as (v & Hv & Nv). exists v. unfold at_. now rewrite Hv. }
  apply decode_all.
  - apply extend_len; [intros ->; cbn in *; lia|lia].
  - apply extend_len; [intros E; rewrite E in LC; cbn in LC; lia|lia].
  - intros i Hi. apply get_number; auto. lia.
  - intros i Hi.
    destruct (Nat.ltb_spec 1 s0) as [E|E].
    + assert (n = s0) as En by (unfold n; lia). rewrite Nat.add_comm.
      replace (extend n cs) with cs.
      * apply G. lia.
      * unfold extend. destruct cs as [|x [|y l]]; try reflexivity. cbn in LC. lia.
    + destruct (G 0 ltac:(lia)) as (v & Hv & Nv). exists v. split; [exact Hv|].
      destruct cs as [|x [|y l]]; cbn in LC; try lia. cbn [extend nth] in *.
      rewrite nth_indep with (d' := x) by (rewrite repeat_length; auto). now rewrite nth_repeat.
Qed.
Lemma column_values_at d bs s0 len p : Forall2 number d bs -> length d = s0 * len -> p < len -> digits_at d s0 len p (column_values bs s0 len p).
Proof.
  intros HB L Hp. pose proof (forall2_length _ _ _ HB) as Lb. split; [unfold column_values; now rewrite map_length, seq_length|].
  intros k Hk. unfold column_values. rewrite nth_map_seq by auto.
  destruct (nth_error bs (k * len + p)) as [q|] eqn:Eq; [|apply nth_error_None in Eq; nia].
  destruct (forall2_nth _ _ _ HB _ q Eq) as (v & Hv & Nv). exists v. rewrite Hv. split; [reflexivity|].
  now rewrite (nth_error_nth _ _ _ Eq).
Qed.

Lemma legal_tail s0 s : s0 <> 0 -> legal (s0 :: s) -> legal s.
Proof.
  intros H L k Hk. specialize (L (S k) ltac:(cbn; lia)). cbn [firstn vol] in L.
  assert (vol (firstn k s) <= s0 * vol (firstn k s)) by nia. lia.
Qed.

Lemma decode_matrix_gen u A as_ s0 s d cs : vector_like u A -> Forall2 number A as_ -> A <> [] -> wf (VMat (s0 :: s) d) -> s <> [] -> s0 <> 0 ->
  (forall p, p < vol s -> digits_at d s0 (vol s) p (cs p)) -> length A = 1 \/ s0 = 1 \/ length A = s0 ->
  let n := Nat.max (length A) s0 in
  (exists r, op_decode add mul u (VMat (s0 :: s) d) = Ok r /\ wf r /\ shape_of r = s /\
     forall p, p < vol s -> exists e, nth_error (data_of r) p = Some e /\
       number e (radix (extend n as_) (extend n (cs p)))) \/
  (op_decode add mul u (VMat (s0 :: s) d) = Err /\ maxbits c <> 0%Z).
Proof.
  intros Hu HA NA (_ & LD & Lg) Hs N0 HB L n. cbn [vol] in LD.
  unfold op_decode. rewrite (vector_like_to _ _ Hu). cbn [bind]. unfold decode_mat.
  replace (negb (length A =? 1) && negb (s0 =? 1) && negb (length A =? s0)) with false.
  2:{ symmetry. destruct (Nat.eqb_spec (length A) 1), (Nat.eqb_spec s0 1), (Nat.eqb_spec (length A) s0); try reflexivity. lia. }
  destruct (Nat.eqb_spec s0 0); [easy|].
  assert (EL : length d / s0 = vol s) by (rewrite LD, Nat.mul_comm, Nat.div_mul; auto). rewrite EL. fold n.
  pose proof (fun p Hp => decode_cell_ok A as_ d (cs p) s0 (vol s) p HA NA (HB p Hp) N0 L) as C.
  destruct (build_cases (vol s) (decode_cell add mul A d s0 (vol s) n)) as [(r & Er & Lr & Hr)|(p & Hp & F)].
  - rewrite Er. cbn [bind]. left.
    assert (G : forall p, p < vol s -> exists e, nth_error r p = Some e /\ number e (radix (extend n as_) (extend n (cs p)))).
    { intros p Hp. destruct (Hr p Hp) as (e & He & Ee). exists e. split; [auto|]. destruct (C p Hp) as [H|[H _]].
      - apply number_gives in H as (v & Ev & Nv). fold n in Ev. assert (e = v) by congruence. subst e. exact Nv.
      - fold n in H. congruence. }
    destruct (Nat.eqb_spec (length s) 1) as [E1|E1].
    + exists (VVec r). split; [reflexivity|]. split; [exact I|]. split; [|exact G].
      destruct s as [|s1 [|]]; cbn in E1; try lia. cbn in *. f_equal. lia.
    + destruct (new_matrix_ok s r Hs Lr) as [[Ls ->]|[Ls _]].
      * exists (VMat s r). split; [reflexivity|]. split; [cbn; auto|]. split; [reflexivity|exact G].
      * exfalso. apply Ls. eapply legal_tail; eauto.
  - right. destruct (C p Hp) as [H|[H M]]; fold n in H.
    + apply number_gives in H as (v & Ev & _). rewrite Ev in F. contradiction.
    + rewrite H in F. cbn in F. rewrite F. auto.
Qed.
Lemma decode_matrix u A as_ s0 s d bs : vector_like u A -> Forall2 number A as_ -> A <> [] -> wf (VMat (s0 :: s) d) -> s <> [] -> s0 <> 0 ->
  Forall2 number d bs -> length A = 1 \/ s0 = 1 \/ length A = s0 ->
  let n := Nat.max (length A) s0 in
  (exists r, op_decode add mul u (VMat (s0 :: s) d) = Ok r /\ wf r /\ shape_of r = s /\
     forall p, p < vol s -> exists e, nth_error (data_of r) p = Some e /\
       number e (radix (extend n as_) (extend n (column_values bs s0 (vol s) p)))) \/
  (op_decode add mul u (VMat (s0 :: s) d) = Err /\ maxbits c <> 0%Z).
Proof.
  intros Hu HA NA W Hs N0 HB L. apply decode_matrix_gen; auto.
  intros p Hp. apply column_values_at; auto. apply W.
Qed.
Lemma extend_self n l : length l = n -> extend n l = l.
Proof. destruct l as [|x [|y l]]; try reflexivity. intros <-. reflexivity. Qed.

(* ---- encode, then decode ---- *)
Lemma round_trip u v A as_ bs : vector_like u A -> A <> [] -> Forall2 number A as_ -> positive as_ ->
  wf v -> Forall2 number (data_of v) bs -> legal (encode_shape (length A) v) ->
  (length A <> 1 \/ length (data_of v) = 1 \/ exists s d, v = VMat s d) ->
  exists r, op_encode u v = Ok r /\
  ((exists w, op_decode add mul u r = Ok w /\ wf w /\ shape_of w = decoded_shape v /\
     forall j x, nth_error bs j = Some x -> exists e y, nth_error (data_of w) j = Some e /\ number e y /\ congruent x y (product as_) /\
       ((exists zs, as_ = map inject_Z zs) -> 0 <= y /\ y < product as_)%Q) \/
   (op_decode add mul u r = Err /\ maxbits c <> 0%Z)).
Proof.
  intros Hu NA HA HP W HB Lg Hcase.
  destruct (encode_ok u v A as_ bs Hu NA HA HP W HB) as [[_ (r & E & Wr & Sr & NMr & Enc)]|[H _]]; [|contradiction].
  exists r. split; [exact E|].
  pose proof (forall2_length _ _ _ HA) as La. pose proof (forall2_length _ _ _ HB) as Lb.
  assert (1 <= length A) as LA1 by (destruct A; [congruence|cbn; lia]).
  (* a matrix of digits *)
  assert (M : forall s, shape_of r = length A :: s -> s <> [] -> vol s = length bs -> s = decoded_shape v ->
    (exists w, op_decode add mul u r = Ok w /\ wf w /\ shape_of w = decoded_shape v /\
     forall j x, nth_error bs j = Some x -> exists e y, nth_error (data_of w) j = Some e /\ number e y /\ congruent x y (product as_) /\
       ((exists zs, as_ = map inject_Z zs) -> 0 <= y /\ y < product as_)%Q) \/
   (op_decode add mul u r = Err /\ maxbits c <> 0%Z)).
  { intros s Hs Ns Vs Es.
    assert (exists d, r = VMat (length A :: s) d) as [d ->].
    { destruct r; cbn in Hs; try discriminate; [injection Hs as _ X; congruence|]. subst. eauto. }
    destruct (nth_error_list [] (fun j ds => forall x, nth_error bs j = Some x -> column (VMat (length A :: s) d) (length A) (length bs) j ds /\
       congruent x (radix as_ ds) (product as_) /\ ((exists zs, as_ = map inject_Z zs) -> 0 <= radix as_ ds /\ radix as_ ds < product as_)%Q) (length bs)) as (f & Hf).
    { intros j Hj. destruct (nth_error bs j) as [x|] eqn:Ex; [|apply nth_error_None in Ex; lia].
      destruct (Enc j x Ex) as (ds & Cl & _ & Cg & Ri). exists ds. intros x' Hx'. injection Hx' as <-. auto. }
    assert (C : forall p, p < vol s -> digits_at d (length A) (vol s) p (f p)).
    { intros p Hp. rewrite Vs in *. destruct (nth_error bs p) as [x|] eqn:Ex; [|apply nth_error_None in Ex; lia].
      destruct (Hf p Hp x Ex) as ((Ld & Cd) & _). split; [exact Ld|]. intros k Hk.
      destruct (nth_error (f p) k) as [q|] eqn:Eq; [|apply nth_error_None in Eq; lia].
      destruct (Cd k q Eq) as (e & He & Ne). exists e. split; [exact He|]. now rewrite (nth_error_nth _ _ _ Eq). }
    destruct (decode_matrix_gen u A as_ (length A) s d f Hu HA NA Wr Ns ltac:(lia) C ltac:(auto)) as [(w & Ew & Ww & Sw & Hw)|H]; [left|right; exact H].
    exists w. split; [exact Ew|]. split; [exact Ww|]. split; [congruence|]. intros j x Hx.
    assert (Hj : j < vol s) by (rewrite Vs; apply nth_error_Some; congruence).
    destruct (Hw j Hj) as (e & He & Ne). rewrite Nat.max_id in Ne. destruct (Hf j ltac:(lia) x Hx) as ((Ld & _) & Cg & Ri).
    rewrite !extend_self in Ne by lia. eauto 8. }
  (* one number *)
  assert (S1 : forall x, bs = [x] -> (forall s d, v <> VMat s d) ->
    (exists w, op_decode add mul u r = Ok w /\ wf w /\ shape_of w = decoded_shape v /\
     forall j x, nth_error bs j = Some x -> exists e y, nth_error (data_of w) j = Some e /\ number e y /\ congruent x y (product as_) /\
       ((exists zs, as_ = map inject_Z zs) -> 0 <= y /\ y < product as_)%Q) \/
   (op_decode add mul u r = Err /\ maxbits c <> 0%Z)).
  { intros x Ex NM. destruct (Enc 0 x) as (ds & (Ld & Cl) & _ & Cg & Ri); [now rewrite Ex|]. rewrite Ex in Cl. cbn [length] in Cl.
    assert (Sh : shape_of r = if length A =? 1 then [] else [length A]).
    { rewrite Sr. rewrite Ex in Lb. cbn in Lb. unfold encode_shape. rewrite Lb. cbn [Nat.eqb].
      destruct v; try (now rewrite app_nil_r). exfalso. eapply NM. reflexivity. }
    assert (Hr : vector_like r (data_of r) /\ length (data_of r) = length A).
    { assert (NM' : forall s d, r <> VMat s d) by (apply NMr; rewrite Sh; destruct (_ =? _); cbn; lia).
      destruct r; try (split; [right; cbn; auto|]; destruct (Nat.eqb_spec (length A) 1); [cbn; lia|discriminate]).
      - split; [left; reflexivity|]. cbn in *. destruct (Nat.eqb_spec (length A) 1); [discriminate|]. congruence.
      - exfalso. eapply NM'. reflexivity. }
    destruct Hr as [Hr Lr].
    assert (F : Forall2 number (data_of r) ds).
    { assert (G : forall k i e, nth_error ds i = Some k -> nth_error (data_of r) i = Some e -> number e k).
      { intros k i e Hk He. destruct (Cl i k Hk) as (e' & He' & Ne'). rewrite Nat.mul_1_r, Nat.add_0_r in He'. congruence. }
      clear -G Lr Ld. revert G. rewrite <-Ld in Lr. revert Lr. clear Ld. generalize (data_of r) as l. induction ds as [|d ds IH]; intros [|e l] L G; cbn in L; try lia; constructor.
      - apply (G d 0 e); reflexivity.
      - apply IH; [lia|]. intros k i e' Hk He. apply (G k (S i) e'); auto. }
    destruct (decode_vectors u r A (data_of r) as_ ds Hu Hr HA F) as (_ & D & _).
    assert (data_of r <> []) by (intros N; rewrite N in Lr; cbn in Lr; lia).
    specialize (D NA H ltac:(lia)). rewrite Lr, Nat.max_id, !extend_self in D by lia. destruct D as [D|D]; [left|right; exact D].
    apply number_gives in D as (w & Ew & Nw). exists w. split; [exact Ew|].
    pose proof (number_scalar _ _ Nw) as Sw. split; [destruct w; cbn in *; easy|]. split.
    - unfold decoded_shape. destruct v as [| | | | |l|]; try (destruct w; cbn in *; easy).
      + rewrite Ex in Lb. cbn in Lb. destruct l as [|? [|]]; cbn in Lb; try lia. destruct w; cbn in *; easy.
      + exfalso. eapply NM. reflexivity.
    - intros j x' Hj. rewrite Ex in Hj. destruct j as [|j]; [|destruct j; discriminate]. cbn in Hj. injection Hj as <-.
      exists w. exists (radix as_ ds). split; [destruct w; cbn in *; easy|]. auto. }
  destruct v as [z|z|z|q|p q|l|s d] eqn:Ev; cbn [data_of] in *;
    try (destruct bs as [|x [|]]; cbn in Lb; try lia; apply (S1 x eq_refl); intros ? ?; discriminate).
  - destruct (Nat.eq_dec (length l) 1) as [L1|L1].
    + destruct bs as [|x [|]]; cbn in Lb; try lia. apply (S1 x eq_refl). intros ? ?; discriminate.
    + apply (M [length l]); [|discriminate|cbn; lia|].
      * rewrite Sr. cbn [encode_shape data_of]. destruct (Nat.eqb_spec (length A) 1) as [LA|_].
        -- exfalso. destruct Hcase as [H|[H|(? & ? & H)]]; [lia|lia|discriminate].
        -- destruct (Nat.eqb_spec (length l) 1); [lia|reflexivity].
      * cbn. destruct l as [|? [|]]; try reflexivity. cbn in L1. lia.
  - destruct W as (Hs & LD & _). apply (M s); [exact Sr|exact Hs|lia|reflexivity].
Qed.
End Decode.

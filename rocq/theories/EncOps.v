(* encode on vectors and matrices; decode; decoding what was encoded. *)
From Coq Require Import QArith Qabs Lqa Lia ZArith.
From Verif Require Import Value NumModel NumSpec NumProofs NumArith ArrModel ArrSpec ArrBase EvalProofs EncModel EncSpec EncProofs.
Open Scope nat_scope.

Lemma vector_like_to u A : vector_like u A -> to_vec u = Ok A.
Proof. intros [->|[H ->]]; [reflexivity|]. destruct u; cbn in *; easy. Qed.
Lemma number_scalar v q : number v q -> scalar v.
Proof. intros H. apply number_real in H. tauto. Qed.
Lemma numbers_not_chars A bs : Forall2 number A bs -> A <> [] -> forallb is_char A = false.
Proof. intros H N. destruct H as [|a q A bs Ha]; [congruence|]. cbn. apply number_real in Ha as [-> _]. reflexivity. Qed.

(* ---- encode ---- *)
Section Encode.
Variables (A : list value) (v : value) (cols : list (list value)).
Let B := data_of v.
Hypotheses (HA : A <> []) (HC : forallb is_char A = false) (W : wf v)
  (Cols : mapM (digits A) B = Ok cols) (Scal : forall col e, In col cols -> In e col -> scalar e).
Definition encoded (r : value) : Prop :=
  wf r /\ shape_of r = encode_shape (length A) v /\ (length (shape_of r) <= 1 -> forall s d, r <> VMat s d) /\
  forall j col, nth_error cols j = Some col -> forall i e, nth_error col i = Some e -> nth_error (data_of r) (i * length B + j) = Some e.

Lemma cols_len : length cols = length B.
Proof. now apply mapM_Ok_len in Cols. Qed.
Lemma col_len j col : nth_error cols j = Some col -> length col = length A.
Proof.
  intros H. destruct (nth_error B j) as [b|] eqn:Eb.
  - destruct (mapM_Ok_nth _ _ _ Cols j b Eb) as (y & Hy & D). rewrite H in Hy. injection Hy as <-. now apply digits_len in D.
  - apply nth_error_None in Eb. assert (nth_error cols j = None) by (apply nth_error_None; rewrite cols_len; lia). congruence.
Qed.
Lemma cells_of d : (forall x, nth_error d x = match nth_error cols (x mod length B) with Some col => nth_error col (x / length B) | None => None end) ->
  forall j col, nth_error cols j = Some col -> forall i e, nth_error col i = Some e -> nth_error d (i * length B + j) = Some e.
Proof.
  intros H j col Hj i e Hi. assert (j < length B) by (rewrite <-cols_len; apply nth_error_Some; congruence).
  rewrite H. rewrite Nat.add_comm, Nat.mod_add, Nat.mod_small, Hj, Nat.div_add, Nat.div_small by lia. exact Hi.
Qed.
Lemma encode_matrix_ok s : 2 <= length s -> vol s = length A * length B -> s = encode_shape (length A) v ->
  (legal s /\ exists r, (let! elems := encode_columns A B in new_matrix s elems) = Ok r /\ encoded r) \/
  (~ legal s /\ (let! elems := encode_columns A B in new_matrix s elems) = Err).
Proof.
  intros Hs Hv Es. destruct (columns_data A B cols Cols) as (l & E & L & N). rewrite E. cbn [bind].
  assert (Hs' : s <> []) by (intros ->; cbn in Hs; lia). destruct (new_matrix_ok s l Hs' ltac:(lia)) as [[Lg ->]|[Lg ->]]; [left|right; auto].
  split; [auto|]. eexists. split; [reflexivity|]. split; [cbn; repeat split; auto; lia|]. split; [exact Es|]. split; [cbn; lia|].
  cbn [data_of]. now apply cells_of.
Qed.

Lemma digits1 a b : digits [a] b = let! p := quorem b a in Ok [snd p].
Proof. unfold digits. cbn. destruct (quorem b a); reflexivity. Qed.
Lemma mapM_first a l : forall cs, mapM (digits [a]) l = Ok cs ->
  exists k, mapM (fun b => let! p := quorem b a in Ok (snd p)) l = Ok k /\ cs = map (fun x => [x]) k.
Proof.
  induction l as [|b l IH]; intros cs H; cbn in *.
  - injection H as <-. exists []. auto.
  - rewrite digits1 in H. destruct (quorem b a) as [p| | |]; try discriminate. cbn in *.
    destruct (mapM (digits [a]) l) eqn:E; try discriminate. cbn in H. injection H as <-.
    destruct (IH _ eq_refl) as (k & -> & ->). cbn. eauto.
Qed.

Lemma encode_vec_ok : (forall s d, v <> VMat s d) ->
  (legal (encode_shape (length A) v) /\ exists r, encode_vec A B = Ok r /\ encoded r) \/
  (~ legal (encode_shape (length A) v) /\ encode_vec A B = Err).
Proof.
  intros NM. assert (Sh : encode_shape (length A) v = (if length A =? 1 then [] else [length A]) ++ (if length B =? 1 then [] else [length B])).
  { unfold encode_shape. destruct v; try reflexivity. exfalso. eapply NM. reflexivity. }
  unfold encode_vec. rewrite HC.
  assert (M : length A <> 1 -> length B <> 1 ->
    (legal (encode_shape (length A) v) /\ exists r, (let! elems := encode_columns A B in new_matrix [length A; length B] elems) = Ok r /\ encoded r) \/
    (~ legal (encode_shape (length A) v) /\ (let! elems := encode_columns A B in new_matrix [length A; length B] elems) = Err)).
  { intros N1 N2. destruct (encode_matrix_ok [length A; length B]) as [[L H]|[L H]]; try easy.
    - cbn. lia.
    - rewrite Sh. destruct (Nat.eqb_spec (length A) 1); [easy|]. destruct (Nat.eqb_spec (length B) 1); [easy|]. reflexivity.
    - left. split; [|exact H]. rewrite Sh. destruct (Nat.eqb_spec (length A) 1); [easy|]. destruct (Nat.eqb_spec (length B) 1); easy.
    - right. split; [|exact H]. rewrite Sh. destruct (Nat.eqb_spec (length A) 1); [easy|]. destruct (Nat.eqb_spec (length B) 1); easy. }
  assert (V : forall a, A = [a] -> length B <> 1 ->
    (legal (encode_shape (length A) v) /\ exists r, (let! l := mapM (fun b => let! p := quorem b a in Ok (snd p)) B in Ok (VVec l)) = Ok r /\ encoded r)).
  { intros a Ea NB. destruct (mapM_first a B cols) as (k & Hk & Ec); [rewrite <-Ea; exact Cols|]. rewrite Hk. cbn [bind].
    assert (length k = length B) as Lk by (now apply mapM_Ok_len in Hk).
    rewrite Sh, Ea. cbn [length Nat.eqb app]. destruct (Nat.eqb_spec (length B) 1); [easy|].
    split; [apply legal_short; cbn; lia|]. eexists. split; [reflexivity|]. split; [exact I|].
    split; [rewrite Sh, Ea; cbn; destruct (Nat.eqb_spec (length B) 1); [easy|now rewrite Lk]|]. split; [intros _ ? ?; discriminate|].
    intros j col Hj i e Hi. rewrite Ec, nth_error_map in Hj. destruct (nth_error k j) eqn:Ej; [|discriminate]. cbn in Hj. injection Hj as <-.
    destruct i as [|i]; [|destruct i; discriminate]. cbn in Hi. injection Hi as <-. exact Ej. }
  assert (D : forall b, B = [b] -> length A <> 1 ->
    (legal (encode_shape (length A) v) /\ exists r, (let! ds := digits A b in Ok (VVec ds)) = Ok r /\ encoded r)).
  { intros b Eb NA. pose proof Cols as C. rewrite Eb in C. cbn in C. destruct (digits A b) as [ds| | |] eqn:Ed; try discriminate.
    cbn in C. injection C as C. cbn [bind]. rewrite Sh, Eb. cbn [length Nat.eqb]. destruct (Nat.eqb_spec (length A) 1); [easy|].
    split; [apply legal_short; cbn; lia|]. eexists. split; [reflexivity|]. split; [exact I|].
    split; [rewrite Sh, Eb; cbn; destruct (Nat.eqb_spec (length A) 1); [easy|]; cbn; f_equal; now apply digits_len in Ed|]. split; [intros _ ? ?; discriminate|].
    intros j col Hj i e Hi. rewrite <-C in Hj. destruct j as [|j]; [|destruct j; discriminate]. cbn in Hj. injection Hj as <-.
    rewrite Eb. cbn [length data_of]. now replace (i * 1 + 0) with i by lia. }
  destruct A as [|a [|a2 A']] eqn:EA; [congruence| |].
  - destruct B as [|b [|b2 B']] eqn:EB.
    + left. apply (V a eq_refl). discriminate.
    + left. cbn in Cols. rewrite digits1 in Cols. destruct (quorem b a) as [p| | |] eqn:Ep; try discriminate. cbn in Cols. injection Cols as C.
      cbn [bind]. split; [rewrite Sh; apply legal_short; cbn; lia|]. eexists. split; [reflexivity|].
      assert (Sp : scalar (snd p)) by (apply (Scal [snd p]); [rewrite <-C; left; auto|left; auto]).
      assert (Dp : data_of (snd p) = [snd p] /\ shape_of (snd p) = [] /\ wf (snd p)) by (destruct (snd p); cbn in *; easy).
      destruct Dp as (Dp & Hp & Wp). split; [exact Wp|]. split; [rewrite Hp, EA, Sh; reflexivity|]. split; [intros _ ? ? Ep'; rewrite Ep' in Sp; exact Sp|].
      intros j col Hj i e Hi. rewrite <-C in Hj. destruct j as [|j]; [|destruct j; discriminate]. cbn in Hj. injection Hj as <-.
      destruct i as [|i]; [|destruct i; discriminate]. cbn in Hi. injection Hi as <-. rewrite Dp. reflexivity.
    + left. apply (V a eq_refl). discriminate.
  - destruct B as [|b [|b2 B']] eqn:EB; [apply M; discriminate| |apply M; discriminate].
    left. apply (D b eq_refl). discriminate.
Qed.

Lemma encode_core u : vector_like u A ->
  (legal (encode_shape (length A) v) /\ exists r, op_encode u v = Ok r /\ encoded r) \/
  (~ legal (encode_shape (length A) v) /\ op_encode u v = Err).
Proof.
  intros Hu. unfold op_encode. rewrite (vector_like_to u A Hu). cbn [bind].
  assert ((exists s d, v = VMat s d) \/ ((forall s d, v <> VMat s d) /\ to_vec v = Ok B)) as [(s & d & Ev)|[NM E]].
  { unfold B. destruct v; try (right; split; [intros ? ?; discriminate|reflexivity]). left. eauto. }
  - assert (EB : B = d) by (unfold B; now rewrite Ev). 
    replace (match v with VMat s d => encode_mat A s d | _ => let! B := to_vec v in encode_vec A B end)
      with (let! elems := encode_columns A B in new_matrix (length A :: s) elems) by (rewrite EB, Ev; reflexivity).
    pose proof W as W'. rewrite Ev in W'. destruct W' as (Hs & HL & _).
    assert (ES : encode_shape (length A) v = length A :: s) by (now rewrite Ev). rewrite ES.
    apply encode_matrix_ok; [destruct s; [congruence|cbn; lia]| |now symmetry]. cbn. rewrite <-HL, EB. reflexivity.
  - assert (EV : match v with VMat s d => encode_mat A s d | _ => let! B := to_vec v in encode_vec A B end = encode_vec A B).
    { rewrite E. cbn [bind]. clear -NM. destruct v; try reflexivity. exfalso. eapply NM. reflexivity. }
    rewrite EV. now apply encode_vec_ok.
Qed.
End Encode.

Lemma forall2_build {X Y Z} (R : X -> Y -> Prop) (P : X -> Z -> Prop) : 
  (forall x y, R x y -> exists z, P x z) -> forall l k, Forall2 R l k -> exists m, Forall2 P l m.
Proof.
  intros H l k F. induction F as [|x y l k Hxy F (m & IH)]; [exists []; constructor|].
  destruct (H x y Hxy) as [z Hz]. exists (z :: m). now constructor.
Qed.
Lemma forall2_mapM {X Y} (f : X -> res Y) l k : Forall2 (fun x y => f x = Ok y) l k -> mapM f l = Ok k.
Proof. induction 1 as [|x y l k E F IH]; cbn; [reflexivity|]. rewrite E. cbn. rewrite IH. reflexivity. Qed.

Definition encodes (A : list value) (as_ : list Q) (v : value) (bs : list Q) (r : value) : Prop :=
  forall j x, nth_error bs j = Some x -> exists ds,
    column r (length A) (length bs) j ds /\ in_range as_ ds /\ congruent x (radix as_ ds) (product as_) /\
    ((exists zs, as_ = map inject_Z zs) -> 0 <= radix as_ ds /\ radix as_ ds < product as_)%Q.

Lemma column_of A v r cols j col ds bs : encoded A v cols r -> Forall2 number (data_of v) bs ->
  nth_error cols j = Some col -> Forall2 number col ds -> length ds = length A -> column r (length A) (length bs) j ds.
Proof.
  intros (_ & _ & _ & H) HB Hj F L. split; [exact L|]. intros i d Hd. destruct (forall2_nth _ _ _ F i d Hd) as (e & He & Ne).
  exists e. split; [|exact Ne]. rewrite <-(forall2_length _ _ _ HB). eapply H; eauto.
Qed.

Lemma encode_ok u v A as_ bs : vector_like u A -> A <> [] -> Forall2 number A as_ -> positive as_ ->
  wf v -> Forall2 number (data_of v) bs ->
  (legal (encode_shape (length A) v) /\
   exists r, op_encode u v = Ok r /\ wf r /\ shape_of r = encode_shape (length A) v /\ (length (shape_of r) <= 1 -> forall s d, r <> VMat s d) /\ encodes A as_ v bs r) \/
  (~ legal (encode_shape (length A) v) /\ op_encode u v = Err).
Proof.
  intros Hu NA HA HP W HB.
  assert (NAs : as_ <> []) by (intros ->; inversion HA; subst; congruence).
  assert (D : forall b x, number b x -> exists col, digits A b = Ok col /\ (exists ds, Forall2 number col ds)).
  { intros b x Hb. destruct (digits_ok A as_ b x HA HP NAs Hb) as (l & ds & E & F & _). eauto. }
  destruct (forall2_build number _ D _ _ HB) as [cols HC].
  assert (Cols : mapM (digits A) (data_of v) = Ok cols).
  { apply forall2_mapM. clear -HC. induction HC as [|? ? ? ? [E _]]; constructor; auto. }
  assert (Scal : forall col e, In col cols -> In e col -> scalar e).
  { intros col e Hc He. apply In_nth_error in Hc as [j Hc]. destruct (forall2_nth _ _ _ HC j col Hc) as (b & _ & _ & ds & F).
    apply In_nth_error in He as [i He]. destruct (forall2_nth_l _ _ _ F i e He) as (q & _ & Hq). eapply number_scalar, Hq. }
  destruct (encode_core A v cols NA (numbers_not_chars A as_ HA NA) W Cols Scal u Hu) as [[L (r & E & Enc)]|H]; [left|right; exact H].
  split; [exact L|]. exists r. split; [exact E|]. pose proof Enc as (Wr & Sr & NM & _). split; [exact Wr|]. split; [exact Sr|]. split; [exact NM|].
  intros j x Hx. destruct (forall2_nth _ _ _ HB j x Hx) as (b & Hb & Nb).
  destruct (digits_ok A as_ b x HA HP NAs Nb) as (l & ds & El & F & Rg & Cg & Ri).
  destruct (mapM_Ok_nth _ _ _ Cols j b Hb) as (col & Hcol & Ed). rewrite El in Ed. injection Ed as <-.
  exists ds. split; [|auto]. eapply column_of; eauto. apply digits_len in El. rewrite <-El. symmetry. eapply forall2_length, F.
Qed.

Lemma encode_int_ok u v A zs xs : vector_like u A -> A <> [] -> Forall2 number A (map inject_Z zs) -> Forall (fun a => 0 < a)%Z zs ->
  wf v -> Forall2 number (data_of v) (map inject_Z xs) -> legal (encode_shape (length A) v) ->
   exists r, op_encode u v = Ok r /\ wf r /\ shape_of r = encode_shape (length A) v /\
   forall j x, nth_error xs j = Some x -> 
     column r (length zs) (length xs) j (map (fun i => inject_Z (digit zs x i)) (seq 0 (length zs))).
Proof.
  intros Hu NA HA HP W HB HL.
  assert (LA : length A = length zs) by (apply forall2_length in HA; now rewrite map_length in HA).
  assert (D : forall b x, (exists z, number b (inject_Z z) /\ x = inject_Z z) -> exists col, digits A b = Ok col /\ (exists ds, Forall2 number col ds)).
  { intros b x (z & Hb & _). destruct (digits_int A zs b z HA HP Hb) as (l & E & F). eauto. }
  assert (HB' : Forall2 (fun b x => exists z, number b (inject_Z z) /\ x = inject_Z z) (data_of v) (map inject_Z xs)).
  { clear -HB. revert HB. generalize (data_of v) as l. induction xs as [|x xs IH]; intros l H; inversion H; subst; constructor; eauto. }
  destruct (forall2_build _ _ D _ _ HB') as [cols HC].
  assert (Cols : mapM (digits A) (data_of v) = Ok cols).
  { apply forall2_mapM. clear -HC. induction HC as [|? ? ? ? [E _]]; constructor; auto. }
  assert (Scal : forall col e, In col cols -> In e col -> scalar e).
  { intros col e Hc He. apply In_nth_error in Hc as [j Hc]. destruct (forall2_nth _ _ _ HC j col Hc) as (b & _ & _ & ds & F).
    apply In_nth_error in He as [i He]. destruct (forall2_nth_l _ _ _ F i e He) as (q & _ & Hq). eapply number_scalar, Hq. }
  destruct (encode_core A v cols NA (numbers_not_chars A _ HA NA) W Cols Scal u Hu) as [[L (r & E & Enc)]|[H _]]; [|contradiction].
  exists r. split; [exact E|]. pose proof Enc as (Wr & Sr & _). split; [exact Wr|]. split; [exact Sr|].
  intros j x Hx. destruct (forall2_nth _ _ _ HB j (inject_Z x)) as (b & Hb & Nb); [now apply map_nth_error|].
  destruct (digits_int A zs b x HA HP Nb) as (l & El & F).
  destruct (mapM_Ok_nth _ _ _ Cols j b Hb) as (col & Hcol & Ed). rewrite El in Ed. injection Ed as <-.
  rewrite <-LA. rewrite <-(map_length inject_Z xs). eapply column_of; eauto. 
  - rewrite LA. exact F.
  - now rewrite map_length, seq_length.
Qed.

(* encode and decode: quotients and remainders, numerals, columns. *)
From Coq Require Import QArith Qabs Lqa Lia ZArith.
From Verif Require Import Value NumModel NumSpec NumProofs NumArith ArrModel ArrSpec ArrBase EvalProofs EncModel EncSpec.
Open Scope nat_scope.

Lemma forall2_length {A B} (R : A -> B -> Prop) l k : Forall2 R l k -> length l = length k.
Proof. induction 1; cbn; auto. Qed.
Lemma forall2_rev {A B} (R : A -> B -> Prop) l k : Forall2 R l k -> Forall2 R (rev l) (rev k).
Proof. induction 1; cbn; [constructor|]. apply Forall2_app; auto. Qed.
Lemma forall2_nth {A B} (R : A -> B -> Prop) l k : Forall2 R l k -> forall i y, nth_error k i = Some y -> exists x, nth_error l i = Some x /\ R x y.
Proof. induction 1 as [|x y l k H HL IH]; intros [|i] z E; cbn in *; try discriminate; [injection E as <-; eauto|auto]. Qed.
Lemma forall2_nth_l {A B} (R : A -> B -> Prop) l k : Forall2 R l k -> forall i x, nth_error l i = Some x -> exists y, nth_error k i = Some y /\ R x y.
Proof. induction 1 as [|x y l k H HL IH]; intros [|i] z E; cbn in *; try discriminate; [injection E as <-; eauto|auto]. Qed.

(* ---- numbers ---- *)
Lemma number_gives r q : gives r q <-> exists v, r = Ok v /\ number v q.
Proof.
  unfold gives, number. split.
  - intros (v & x & E & V & N & Q). exists v. eauto.
  - intros (v & E & V & x & N & Q). eauto 6.
Qed.
Lemma number_eq v p q : number v p -> (p == q)%Q -> number v q.
Proof. intros (V & x & N & E) H. split; [auto|]. exists x. split; [auto|]. now rewrite E. Qed.
Lemma number_real v q : number v q -> is_char v = false /\ scalar v.
Proof. intros (V & _). destruct v; cbn in *; try easy. Qed.
Lemma number_big k : number (shrink_big k) (inject_Z k).
Proof. split; [apply shrink_big_valid|]. exists (inject_Z k). split; [apply shrink_big_val|reflexivity]. Qed.
Lemma number_int k : (- 2 ^ 31 <= k <= 2 ^ 31)%Z -> number (VInt k) (inject_Z k).
Proof. intros H. split; [exact H|]. exists (inject_Z k). split; reflexivity. Qed.
Lemma number_zero : number vzero 0%Q.
Proof. apply (number_int 0). lia. Qed.
Lemma number_one : number vone 1%Q.
Proof. apply (number_int 1). lia. Qed.

Lemma euclid_q_eq x y x' y' k r : (x == x')%Q -> (y == y')%Q -> euclid_q x y k r -> euclid_q x' y' k r.
Proof. unfold euclid_q. intros E E' H. now rewrite <-E, <-E'. Qed.
Lemma euclid_q_unique x y k r k' r' : (0 < y)%Q -> euclid_q x y k r -> euclid_q x y k' r' -> k = k' /\ (r == r')%Q.
Proof.
  intros Hy (E & R0 & R1) (E' & R0' & R1'). rewrite Qabs_pos in R1, R1' by lra.
  assert (G : forall a b ra rb, (x == inject_Z a * y + ra)%Q -> (x == inject_Z b * y + rb)%Q ->
                (0 <= ra)%Q -> (rb < y)%Q -> (a <= b)%Z).
  { intros a b ra rb Ea Eb Ha Hb. destruct (Z.le_gt_cases a b) as [|L]; [auto|]. exfalso.
    assert (inject_Z b + 1 <= inject_Z a)%Q as L'.
    { change 1%Q with (inject_Z 1). rewrite <-inject_Z_plus, <-Zle_Qle. lia. }
    pose proof (Qmult_le_compat_r _ _ y L' ltac:(lra)) as L2. lra. }
  assert (k = k').
  { pose proof (G k k' r r' E E' R0 R1'). pose proof (G k' k r' r E' E R0' R1). lia. }
  subst k'. split; [reflexivity|]. lra.
Qed.

Lemma quorem_number a b x y : number a x -> number b y -> ~ (y == 0)%Q ->
  exists q r k rq, quorem a b = Ok (q, r) /\ number q (inject_Z k) /\ number r rq /\ euclid_q x y k rq.
Proof.
  intros (Va & x' & Na & Ea) (Vb & y' & Nb & Eb) NZ0. assert (NZ : ~ (y' == 0)%Q) by (rewrite Eb; exact NZ0).
  enough (exists q r k rq, quorem a b = Ok (q, r) /\ number q (inject_Z k) /\ number r rq /\ euclid_q x' y' k rq) as
    (q & r & k & rq & E & Nq & Nr & H).
  { exists q, r, k, rq. repeat (split; [assumption|]). eapply euclid_q_eq; eauto. }
  pose proof (shrink_real_zero b y' Nb Vb) as SZ.
  assert (QT : quorem a b = match arith_type (ty a) (ty b) with
    | TInt => match a, b with VInt x, VInt y => Ok (quorem_int x y) | _, _ => Err end
    | TBig => let! a' := to_type TBig a in let! b' := to_type TBig b in
              match a', b' with
              | VBig x, VBig y => Ok (shrink_big (euclid_div x y), shrink_big (euclid_mod x y))
              | _, _ => Err end
    | TRat => let! a' := to_type TRat a in let! b' := to_type TRat b in
              match a', b' with VRat x, VRat y => Ok (quorem_rat x y) | _, _ => Err end
    | _ => Err
    end).
  { unfold quorem. destruct (shrink_real b) as [[| |]| | | | | |]; try reflexivity. exfalso. apply NZ, SZ. reflexivity. }
  assert (GB : forall x y, y <> 0%Z -> exists q r k rq, Ok (shrink_big (euclid_div x y), shrink_big (euclid_mod x y)) = Ok (q, r) /\
     number q (inject_Z k) /\ number r rq /\ euclid_q (inject_Z x) (inject_Z y) k rq).
  { intros u v Hv. do 2 eexists. exists (euclid_div u v), (inject_Z (euclid_mod u v)). split; [reflexivity|].
    split; [apply number_big|]. split; [apply number_big|]. now apply euclid_q_int. }
  assert (GR : forall x y, ~ (y == 0)%Q -> exists q r k rq, Ok (quorem_rat x y) = Ok (q, r) /\
     number q (inject_Z k) /\ number r rq /\ euclid_q x y k rq).
  { intros u v Hv. destruct (quorem_rat_spec u v Hv) as (k & r & E & Rr & EQ). rewrite E. do 2 eexists. exists k, r.
    split; [reflexivity|]. split; [apply number_big|]. split; [|assumption].
    split; [apply near_valid, shrink_rat_near, Rr|]. exists r. split; [apply shrink_rat_val|reflexivity]. }
  rewrite QT. clear QT SZ.
  destruct (numval_cases _ _ Na Va) as [(x0 & -> & -> & Bx)|[(x0 & -> & ->)|(-> & Ra & Da)]];
  destruct (numval_cases _ _ Nb Vb) as [(y0 & -> & -> & By)|[(y0 & -> & ->)|(-> & Rb & Db)]];
    try (exact (GR _ _ NZ));
    (assert (y0 <> 0%Z) as NZ' by (intros ->; apply NZ; reflexivity)); try (exact (GB _ _ NZ')).
  destruct (quorem_int_spec x0 y0) as (E & B1 & B2); [assumption..|]. cbn. rewrite E.
  do 2 eexists. exists (euclid_div x0 y0), (inject_Z (euclid_mod x0 y0)). split; [reflexivity|].
  split; [now apply number_int|]. split; [now apply number_int|]. now apply euclid_q_int.
Qed.

(* ---- numerals ---- *)
Lemma product_cons x l : product (x :: l) = (x * product l)%Q.
Proof. reflexivity. Qed.
Lemma product_nil : product [] = 1%Q.
Proof. reflexivity. Qed.
Lemma product_app l k : (product (l ++ k) == product l * product k)%Q.
Proof. induction l as [|x l IH]; cbn [app]; rewrite ?product_cons, ?product_nil; [ring|]. rewrite IH. ring. Qed.
Lemma product_rev l : (product (rev l) == product l)%Q.
Proof. induction l as [|x l IH]; [reflexivity|]. cbn [rev]. rewrite product_app, IH, !product_cons, product_nil. ring. Qed.
Lemma radix_snoc : forall bs ds b d, length bs = length ds ->
  (radix (bs ++ [b]) (ds ++ [d]) == radix bs ds * b + d)%Q.
Proof.
  induction bs as [|a bs IH]; intros [|e ds] b d H; try discriminate; cbn [app radix]; rewrite ?product_nil; [ring|].
  rewrite IH by (cbn in H; lia). rewrite product_app, product_cons, product_nil. ring.
Qed.
Lemma product_pos l : positive l -> (0 < product l)%Q.
Proof.
  induction 1 as [|x l Hx Hl IH]; [reflexivity|]. rewrite product_cons.
  setoid_replace 0%Q with (0 * product l)%Q by ring. now apply Qmult_lt_compat_r.
Qed.

Lemma product_int zs : (product (map inject_Z zs) == inject_Z (product_z zs))%Q.
Proof.
  induction zs as [|z zs IH]; [reflexivity|]. cbn [map]. rewrite product_cons, IH, <-inject_Z_mult. reflexivity.
Qed.
Lemma digits_from_ok : forall ra ras b x, Forall2 number ra ras -> positive ras -> number b x ->
  exists l ds q, digits_from ra b = Ok l /\ Forall2 number l ds /\ in_range ras ds /\
    (x == radix (rev ras) (rev ds) + q * product ras)%Q /\
    (ras <> [] \/ (exists z, x == inject_Z z)%Q -> exists k, (q == inject_Z k)%Q) /\
    ((exists zs, ras = map inject_Z zs) -> 0 <= radix (rev ras) (rev ds) /\ radix (rev ras) (rev ds) < product ras)%Q.
Proof.
  induction ra as [|a ra IH]; intros ras b x HA HP Hb; inversion HA as [|? y ? ras' Ha HA']; subst.
  - exists [], [], x. split; [reflexivity|]. split; [constructor|]. split; [constructor|].
    split; [cbn [rev radix]; rewrite product_nil; ring|]. split; [intros [H|H]; [congruence|exact H]|].
    intros _. cbn [rev radix]. rewrite product_nil. lra.
  - inversion HP as [|? ? Hy HP']; subst.
    destruct (quorem_number b a x y Hb Ha) as (q & r & k & rq & E & Nq & Nr & (D & R0 & R1)); [lra|].
    destruct (IH ras' q (inject_Z k) HA' HP' Nq) as (l & ds & q' & E' & Nl & Rg & D' & Hk & Hr).
    exists (r :: l), (rq :: ds), q'. cbn [digits_from]. rewrite E. cbn [bind fst snd]. rewrite E'. split; [reflexivity|].
    split; [now constructor|]. rewrite Qabs_pos in R1 by lra. split; [now constructor|].
    assert (RS : (radix (rev (y :: ras')) (rev (rq :: ds)) == radix (rev ras') (rev ds) * y + rq)%Q).
    { cbn [rev]. apply radix_snoc. rewrite !rev_length. eapply forall2_length, Rg. }
    split; [rewrite RS, product_cons, D, D'; ring|]. split; [intros _; apply Hk; right; exists k; reflexivity|].
    intros [[|z zs] Hz]; [discriminate|]. cbn [map] in Hz. injection Hz as Hz Hzs.
    destruct (Hr (ex_intro _ zs Hzs)) as [L0 L1]. rewrite RS, product_cons.
    destruct (Hk (or_intror (ex_intro _ k (Qeq_refl _)))) as [k' Hk'].
    assert (PI : (product ras' == inject_Z (product_z zs))%Q) by (rewrite Hzs; apply product_int).
    assert (RI : (radix (rev ras') (rev ds) == inject_Z (k - k' * product_z zs))%Q).
    { unfold Z.sub. rewrite inject_Z_plus, inject_Z_opp, inject_Z_mult, <-PI, <-Hk'. rewrite D'. ring. }
    assert (L2 : (radix (rev ras') (rev ds) + 1 <= product ras')%Q).
    { rewrite RI, PI in L1 |- *. change 1%Q with (inject_Z 1). rewrite <-inject_Z_plus, <-Zle_Qle. rewrite <-Zlt_Qlt in L1. lia. }
    split.
    + assert (0 <= radix (rev ras') (rev ds) * y)%Q by (apply Qmult_le_0_compat; lra). lra.
    + pose proof (Qmult_le_compat_r _ _ y L2 ltac:(lra)) as M. lra.
Qed.

(* The digits of x in the bases A. *)
Lemma digits_ok A bs b x : Forall2 number A bs -> positive bs -> bs <> [] -> number b x ->
  exists l ds, digits A b = Ok l /\ Forall2 number l ds /\ in_range bs ds /\ congruent x (radix bs ds) (product bs) /\
    ((exists zs, bs = map inject_Z zs) -> 0 <= radix bs ds /\ radix bs ds < product bs)%Q.
Proof.
  intros HA HP HN Hb.
  destruct (digits_from_ok (rev A) (rev bs) b x) as (l & ds & q & E & Nl & Rg & D & Hk & Hr).
  - now apply forall2_rev.
  - now apply Forall_rev.
  - exact Hb.
  - exists (rev l), (rev ds). unfold digits. rewrite E. split; [reflexivity|]. split; [now apply forall2_rev|].
    split; [apply forall2_rev in Rg; now rewrite rev_involutive in Rg|].
    rewrite rev_involutive, product_rev in D. rewrite rev_involutive, product_rev in Hr. split.
    + destruct Hk as [k Hk]; [left; intros N; apply HN; rewrite <-(rev_involutive bs), N; reflexivity|].
      exists k. now rewrite D, Hk.
    + intros [zs ->]. apply Hr. exists (rev zs). now rewrite map_rev.
Qed.

(* ... when everything is an integer. *)
Fixpoint digs (ra : list Z) (z : Z) : list Z :=
  match ra with [] => [] | a :: ra' => (z mod a)%Z :: digs ra' (z / a)%Z end.
Lemma euclid_mod_div z a k r : (0 < a)%Z -> euclid_q (inject_Z z) (inject_Z a) k r -> k = (z / a)%Z /\ (r == inject_Z (z mod a))%Q.
Proof.
  intros Ha H. pose proof (euclid_q_int z a ltac:(lia)) as H'. unfold euclid_div, euclid_mod in H'.
  replace (0 <? a)%Z with true in H' by lia. rewrite Z.abs_eq in H' by lia.
  eapply euclid_q_unique; eauto. change 0%Q with (inject_Z 0). now rewrite <-Zlt_Qlt.
Qed.
Lemma digits_from_int : forall ra zs b z, Forall2 number ra (map inject_Z zs) -> Forall (fun a => 0 < a)%Z zs -> number b (inject_Z z) ->
  exists l, digits_from ra b = Ok l /\ Forall2 number l (map inject_Z (digs zs z)).
Proof.
  induction ra as [|a ra IH]; intros [|y zs] b z HA HP Hb; inversion HA as [|? ? ? ? Ha HA']; subst.
  - exists []. split; [reflexivity|constructor].
  - inversion HP as [|? ? Hy HP']; subst.
    destruct (quorem_number b a _ _ Hb Ha) as (q & r & k & rq & E & Nq & Nr & D).
    { intros H. change 0%Q with (inject_Z 0) in H. apply (proj1 (inject_Z_injective _ _)) in H. lia. }
    apply (euclid_mod_div z y k rq Hy) in D as [-> D].
    destruct (IH zs q _ HA' HP' Nq) as (l & E' & Nl). exists (r :: l). cbn [digits_from]. rewrite E. cbn [bind fst snd]. rewrite E'.
    split; [reflexivity|]. cbn [digs map]. constructor; [|auto]. eapply number_eq; eauto.
Qed.
Lemma digs_nth : forall zs z i, Forall (fun a => 0 < a)%Z zs -> (i < length zs) ->
  nth_error (digs zs z) i = Some ((z / product_z (firstn i zs)) mod nth i zs 1)%Z.
Proof.
  induction zs as [|a zs IH]; intros z i HP Hi; cbn in Hi; [lia|]. inversion HP as [|? ? Ha HP']; subst.
  destruct i as [|i]; cbn [digs nth_error firstn nth]; [cbn; now rewrite Z.div_1_r|].
  rewrite IH by (auto; lia). f_equal. f_equal. change (product_z (a :: firstn i zs)) with (a * product_z (firstn i zs))%Z.
  rewrite Z.div_div; [reflexivity|lia|].
  assert (G : forall l, Forall (fun a => 0 < a)%Z l -> (0 < product_z l)%Z).
  { induction 1; cbn; [lia|]. fold (product_z l). lia. }
  apply G. clear -HP'. revert i. induction HP'; intros [|i]; cbn; constructor; auto.
Qed.
Lemma product_z_app l k : product_z (l ++ k) = (product_z l * product_z k)%Z.
Proof. induction l as [|x l IH]; cbn [app]; [change (product_z k = 1 * product_z k)%Z; lia|]. change (x * product_z (l ++ k) = x * product_z l * product_z k)%Z. rewrite IH. lia. Qed.
Lemma product_z_rev l : product_z (rev l) = product_z l.
Proof. induction l as [|x l IH]; [reflexivity|]. cbn [rev]. rewrite product_z_app, IH. change (product_z l * (x * 1) = x * product_z l)%Z. lia. Qed.
Lemma digs_len : forall zs z, length (digs zs z) = length zs.
Proof. induction zs; intros; cbn; auto. Qed.
Lemma digits_int A zs b z : Forall2 number A (map inject_Z zs) -> Forall (fun a => 0 < a)%Z zs -> number b (inject_Z z) ->
  exists l, digits A b = Ok l /\ Forall2 number l (map (fun i => inject_Z (digit zs z i)) (seq 0 (length zs))).
Proof.
  intros HA HP Hb. destruct (digits_from_int (rev A) (rev zs) b z) as (l & E & Nl).
  - rewrite map_rev. now apply forall2_rev.
  - now apply Forall_rev.
  - exact Hb.
  - exists (rev l). unfold digits. rewrite E. split; [reflexivity|]. apply forall2_rev in Nl.
    replace (map (fun i => inject_Z (digit zs z i)) (seq 0 (length zs))) with (rev (map inject_Z (digs (rev zs) z))); [exact Nl|].
    rewrite <-map_rev, <-(map_map (digit zs z) inject_Z). f_equal. apply (nth_ext _ _ 0%Z 0%Z).
    { now rewrite rev_length, digs_len, map_length, seq_length, rev_length. }
    intros i Hi. rewrite rev_length, digs_len, rev_length in Hi. rewrite nth_map_seq by auto.
    rewrite rev_nth by (rewrite digs_len, rev_length; auto). rewrite digs_len, rev_length.
    erewrite nth_error_nth; [|apply digs_nth; [now apply Forall_rev|rewrite rev_length; lia]].
    unfold digit. f_equal; [f_equal|].
    + rewrite firstn_rev. rewrite product_z_rev. f_equal. f_equal. lia.
    + rewrite rev_nth by lia. f_equal. lia.
Qed.

(* ---- columns ---- *)
Lemma digits_from_len : forall A b l, digits_from A b = Ok l -> length l = length A.
Proof.
  induction A as [|a A IH]; cbn; intros b l H; [now injection H as <-|].
  destruct (quorem b a) as [[q r]| | |]; try discriminate. cbn in H. destruct (digits_from A q) eqn:E; try discriminate.
  cbn in H. injection H as <-. cbn. f_equal. eauto.
Qed.
Lemma digits_len A b l : digits A b = Ok l -> length l = length A.
Proof.
  unfold digits. destruct (digits_from (rev A) b) eqn:E; try discriminate. cbn. intros H. injection H as <-.
  apply digits_from_len in E. rewrite rev_length in *. lia.
Qed.
Lemma columns_data A B cols : mapM (digits A) B = Ok cols ->
  exists l, encode_columns A B = Ok l /\ length l = length A * length B /\
  forall x, nth_error l x = match nth_error cols (x mod length B) with Some col => nth_error col (x / length B) | None => None end.
Proof.
  intros E. unfold encode_columns. rewrite E. cbn [bind]. eexists. split; [reflexivity|].
  pose proof (mapM_Ok_len _ _ _ E) as L.
  assert (CL : forall j col, nth_error cols j = Some col -> length col = length A).
  { intros j col H. destruct (nth_error B j) as [b|] eqn:Eb.
    - destruct (mapM_Ok_nth _ _ _ E j b Eb) as (y & Hy & D). rewrite H in Hy. injection Hy as <-. now apply digits_len in D.
    - apply nth_error_None in Eb. assert (nth_error cols j = None) by (apply nth_error_None; lia). congruence. }
  replace (map (fun i => map (fun col => nth i col vzero) cols) (seq 0 (length A)))
    with (map (fun i => map ((fun i j => nth i (nth j cols []) vzero) i) (seq 0 (length B))) (seq 0 (length A))).
  2:{ apply map_ext. intros i. rewrite <-L. rewrite <-(map_nth_seq cols [] (length cols) eq_refl) at 2. now rewrite map_map. }
  rewrite concat_rows, map_length, seq_length. split; [reflexivity|].
  intros x. destruct (Nat.lt_ge_cases x (length A * length B)) as [H|H].
  - assert (length B <> 0) by nia. assert (x mod length B < length B) by (apply Nat.mod_upper_bound; auto).
    rewrite nth_error_map_seq by auto.
    destruct (nth_error cols (x mod length B)) as [col|] eqn:Ec; [|apply nth_error_None in Ec; lia].
    rewrite (nth_error_nth cols _ [] Ec). symmetry. apply nth_error_nth'. rewrite (CL _ _ Ec).
    apply Nat.div_lt_upper_bound; lia.
  - transitivity (@None value); [apply nth_error_None; rewrite map_length, seq_length; auto|].
    destruct (nth_error cols (x mod length B)) as [col|] eqn:Ec; [|reflexivity]. symmetry. apply nth_error_None.
    rewrite (CL _ _ Ec). destruct (Nat.eq_dec (length B) 0) as [Z|NZ].
    + destruct cols; [|cbn in L; lia]. destruct (x mod length B); discriminate.
    + apply Nat.div_le_lower_bound; lia.
Qed.

(* Proofs for P_Cplx.v. *)
From Coq Require Import QArith Qabs Qreduction Lqa Lia ZifyBool.
From Verif Require Import Value NumModel NumSpec NumProofs NumArith NumMore NumTree NumCplx QuoRemHeap QuoRemProofs CplxModel CplxSpec.
Open Scope list_scope.
Open Scope Z_scope.

(* ---- McDonnell's floor ---- *)
Lemma floor_unique' x k l : floor_of x k -> floor_of x l -> k = l.
Proof.
  intros [A B] [C D].
  assert (inject_Z k < inject_Z (l + 1))%Q by (rewrite inject_Z_plus; change (inject_Z 1) with 1%Q; lra).
  assert (inject_Z l < inject_Z (k + 1))%Q by (rewrite inject_Z_plus; change (inject_Z 1) with 1%Q; lra).
  rewrite <-!Zlt_Qlt in *. lia.
Qed.

Lemma mc_unique z g g' : mcdonnell z g -> mcdonnell z g' -> g = g'.
Proof.
  intros (k & l & K & L & H) (k' & l' & K' & L' & H').
  rewrite (floor_unique' _ _ _ K' K), (floor_unique' _ _ _ L' L) in H'. cbv zeta in H, H'.
  destruct H as [(H & ->)|[(H & I & ->)|(H & I & ->)]], H' as [(H' & ->)|[(H' & I' & ->)|(H' & I' & ->)]];
    try reflexivity; lra.
Qed.

Lemma mc_close z g : mcdonnell z g -> (dist2 z (gauss g) < 1)%Q.
Proof.
  intros (k & l & [K K'] & [L L'] & H). cbv zeta in H. unfold dist2, gauss.
  destruct z as [x y]. cbn [fst snd] in *.
  set (fx := (x - inject_Z k)%Q) in *. set (fy := (y - inject_Z l)%Q) in *.
  assert (0 <= fx)%Q by (unfold fx; lra). assert (fx < 1)%Q by (unfold fx; lra).
  assert (0 <= fy)%Q by (unfold fy; lra). assert (fy < 1)%Q by (unfold fy; lra).
  destruct H as [(H & ->)|[(H & I & ->)|(H & I & ->)]]; cbn [fst snd].
  - fold fx fy. assert (fx * fx + fy * fy <= (fx + fy) * (fx + fy))%Q.
    { assert (0 <= fx * fy)%Q by (apply Qmult_le_0_compat; assumption). lra. }
    assert ((fx + fy) * (fx + fy) <= fx + fy)%Q.
    { setoid_replace (fx + fy)%Q with (1 * (fx + fy))%Q at 3 by ring. apply Qmult_le_compat_r; lra. }
    lra.
  - rewrite inject_Z_plus. change (inject_Z 1) with 1%Q. fold fy.
    setoid_replace (x - (inject_Z k + 1))%Q with (fx - 1)%Q by (unfold fx; ring).
    assert (fy * fy <= fx * fx)%Q.
    { apply Qle_trans with (fx * fy)%Q; [apply Qmult_le_compat_r; assumption|].
      rewrite (Qmult_comm fx fy). apply Qmult_le_compat_r; assumption. }
    assert (0 < fx * (1 - fx))%Q by (apply Qmult_lt_0_compat; lra).
    assert ((fx - 1) * (fx - 1) + fx * fx == 1 - 2 * (fx * (1 - fx)))%Q by ring. lra.
  - rewrite inject_Z_plus. change (inject_Z 1) with 1%Q. fold fx.
    setoid_replace (y - (inject_Z l + 1))%Q with (fy - 1)%Q by (unfold fy; ring).
    assert (fx * fx <= fy * fy)%Q.
    { apply Qle_trans with (fy * fx)%Q; [apply Qmult_le_compat_r; lra|].
      rewrite (Qmult_comm fy fx). apply Qmult_le_compat_r; lra. }
    assert (0 < fy * (1 - fy))%Q by (apply Qmult_lt_0_compat; lra).
    assert ((fy - 1) * (fy - 1) + fy * fy == 1 - 2 * (fy * (1 - fy)))%Q by ring. lra.
Qed.

Lemma mc_sum z g : mcdonnell z g -> floor_of (fst z + snd z) (fst g + snd g).
Proof.
  intros (k & l & [K K'] & [L L'] & H). cbv zeta in H. destruct z as [x y]. cbn [fst snd] in *.
  unfold floor_of. destruct H as [(H & ->)|[(H & I & ->)|(H & I & ->)]]; cbn [fst snd];
    rewrite !inject_Z_plus; change (inject_Z 1) with 1%Q; lra.
Qed.

Lemma floor_shift x k m x' : (x' == x + inject_Z m)%Q -> floor_of x k -> floor_of x' (k + m).
Proof. unfold floor_of. intros E [A B]. rewrite inject_Z_plus. lra. Qed.

Lemma mc_shift z g w d : ceq w (fst z + inject_Z (fst d), snd z + inject_Z (snd d))%Q -> mcdonnell z g ->
  mcdonnell w (fst g + fst d, snd g + snd d).
Proof.
  intros [E F] (k & l & K & L & H). cbn [fst snd] in E, F. cbv zeta in H.
  exists (k + fst d), (l + snd d). split; [eapply floor_shift; eauto|]. split; [eapply floor_shift; eauto|].
  cbv zeta. rewrite !inject_Z_plus.
  destruct H as [(H & ->)|[(H & I & ->)|(H & I & ->)]]; cbn [fst snd].
  - left. split; [lra|reflexivity].
  - right. left. split; [lra|]. split; [lra|]. f_equal; lia.
  - right. right. split; [lra|]. split; [lra|]. f_equal; lia.
Qed.

Lemma mc_compat z w g : ceq z w -> mcdonnell z g -> mcdonnell w g.
Proof.
  intros [E F] M. replace g with (fst g + 0, snd g + 0) by (destruct g; cbn; f_equal; lia).
  apply (mc_shift z g w (0, 0)); [|exact M]. cbn [fst snd]. split; cbn [fst snd]; change (inject_Z 0) with 0%Q; lra.
Qed.

Lemma mc_exists z : exists g, mcdonnell z g.
Proof.
  assert (forall x, exists k, floor_of x k) as F.
  { intros x. exists (Qround.Qfloor x). split; [apply Qround.Qfloor_le|].
    pose proof (Qround.Qlt_floor x) as G. rewrite inject_Z_plus in G. exact G. }
  destruct (F (fst z)) as [k K], (F (snd z)) as [l L].
  destruct (Qlt_le_dec ((fst z - inject_Z k) + (snd z - inject_Z l)) 1) as [A|A].
  - exists (k, l), k, l. auto.
  - destruct (Qlt_le_dec (fst z - inject_Z k) (snd z - inject_Z l)) as [B|B].
    + exists (k, l + 1), k, l. split; [exact K|]. split; [exact L|]. right. right. auto.
    + exists (k + 1, l), k, l. split; [exact K|]. split; [exact L|]. right. left. auto.
Qed.

Lemma mc_gauss g : mcdonnell (gauss g) g.
Proof.
  destruct g as [m n]. exists m, n. unfold gauss, floor_of. cbn [fst snd].
  split; [lra|]. split; [lra|]. left. split; [lra|reflexivity].
Qed.

(* ---- the code ---- *)
Lemma gives_parts r q : gives r q -> exists v x, r = Ok v /\ valid v /\ numval v = Some x /\ (x == q)%Q.
Proof. exact (fun H => H). Qed.

Section Conf.
Variable c : conf.

Lemma mod_one_ok h p x : part_ok h p -> numval (part_val h p) = Some x ->
  exists r y k, mod_one c h p = r /\ snd r = Ok y /\ valid y /\ floor_of x k /\
    (exists f, numval y = Some f /\ (f == x - inject_Z k)%Q) /\
    (length h <= length (fst r))%nat /\
    (forall j, (j < length h)%nat -> cell (fst r) j = match p with PRat a => if Nat.eqb j a then Qabs (cell h j) else cell h j | _ => cell h j end).
Proof.
  intros [V A] N.
  assert (exists k f y, eval_scalar c BMod (part_val h p) vone = Ok y /\ valid y /\ floor_of x k /\ numval y = Some f /\
    (f == x - inject_Z k)%Q) as (k & f & y & Ey & Vy & Fk & Nf & Ef).
  { destruct (mod_exact c (part_val h p) vone x 1%Q V) as [(Z0 & _)|(_ & k & r & (y & f & E & Vy & Nf & Ef) & E1 & E2 & E3)];
      [simpl; lia|exact N|reflexivity|discriminate|].
    change (Qabs 1) with 1%Q in E3. exists k, f, y. split; [exact E|]. split; [exact Vy|].
    split; [split; lra|]. split; [exact Nf|]. lra. }
  eexists _, y, k. split; [reflexivity|]. destruct p as [v|a]; unfold mod_one; cbn [fst snd part_val] in *.
  - split; [exact Ey|]. split; [exact Vy|]. split; [exact Fk|]. split; [eauto|]. split; [lia|]. reflexivity.
  - destruct (quorem_heap_effect (h ++ [1%Q]) a (length h)) as (Q1 & Q2 & Q3 & Q4); try (rewrite app_length; simpl; lia); [lia|].
    rewrite Q1, (cell_app h [1%Q] a A) in *. unfold cell at 2. rewrite app_nth2, Nat.sub_diag by lia. cbn [nth].
    split; [|split; [exact Vy|split; [exact Fk|split; [eauto|split]]]].
    + rewrite <-Ey. reflexivity.
    + rewrite length_quorem, app_length. lia.
    + intros j J. destruct (Nat.eqb_spec j a) as [-> |D]; [exact Q2|].
      rewrite Q4 by lia. apply cell_app, J.
Qed.

Lemma holds_true r P : truth r P -> exists v, r = Ok v /\ (holds v = true <-> P).
Proof. intros [[H ->]|[H ->]]; eexists; (split; [reflexivity|]); simpl; intuition discriminate. Qed.

Lemma floor_parts_ok h r i z g : denotes h r i z -> apart r i -> mcdonnell z g ->
  parts (snd (floor_parts c h r i)) c (gauss g) /\
  (length h <= length (fst (floor_parts c h r i)))%nat /\
  (forall j, (j < length h)%nat -> cell (fst (floor_parts c h r i)) j =
     if (match r with PRat a => Nat.eqb j a | _ => false end) || (match i with PRat a => Nat.eqb j a | _ => false end)
     then Qabs (cell h j) else cell h j).
Proof.
  intros (Pr & Pi & Nr & Ni) Ap M.
  destruct (floor_exact c (part_val h r) (fst z)) as (k & (fr & qr & Er & Vr & Nfr & Eqr) & K1 & K2); [apply Pr|exact Nr|].
  destruct (floor_exact c (part_val h i) (snd z)) as (l & (fi & qi & Ei & Vi & Nfi & Eqi) & L1 & L2); [apply Pi|exact Ni|].
  destruct (mod_one_ok h r (fst z) Pr Nr) as (mr & x & k' & Emr & Ex & Vx & Fk & (fx & Nx & Efx) & Len & Cells).
  assert (part_val (fst mr) i = part_val h i) as Same.
  { destruct i as [v|b]; [reflexivity|]. destruct Pi as [_ Pb]. cbn [part_val]. f_equal. rewrite Cells by exact Pb.
    destruct r as [v|a]; [reflexivity|]. destruct (Nat.eqb_spec b a); [subst; contradiction Ap; reflexivity|reflexivity]. }
  assert (part_ok (fst mr) i) as Pi'.
  { destruct Pi as [V A]. split; [rewrite Same; exact V|]. destruct i; [exact A|]. lia. }
  destruct (mod_one_ok (fst mr) i (snd z) Pi') as (mi & y & l' & Emi & Ey & Vy & Fl & (fy & Ny & Efy) & Len' & Cells');
    [rewrite Same; exact Ni|].
  assert (k' = k) by (eapply floor_unique'; [exact Fk|split; assumption]). subst k'.
  assert (l' = l) by (eapply floor_unique'; [exact Fl|split; assumption]). subst l'.
  unfold floor_parts. rewrite Emr. cbv zeta. rewrite Emi. cbn [fst snd].
  split; [|split; [lia|]].
  - rewrite Er, Ei, Ex, Ey. cbn [bind]. rewrite (new_cplx_ok fr fi qr qi Nfr Nfi). cbn [bind fst snd].
    assert (mcdonnell z g) as M' by exact M. destruct M' as (k' & l' & K' & L' & H).
    assert (k' = k) by (eapply floor_unique'; [exact K'|split; assumption]). subst k'.
    assert (l' = l) by (eapply floor_unique'; [exact L'|split; assumption]). subst l'. cbv zeta in H.
    destruct (add_exact c x y fx fy Vx Vy Nx Ny) as [(s & qs & Es & Vs & Ns & Eqs)|(Es & Mb & _)];
      [|rewrite Es; right; split; [reflexivity|exact Mb]].
    rewrite Es. cbn [bind].
    destruct (holds_true _ _ (cmp_exact c BGt vone s 1%Q qs I ltac:(simpl; lia) Vs eq_refl Ns)) as (t & Et & Ht).
    rewrite Et. cbn [bind]. cbn [cmp_rel] in Ht.
    destruct (holds_true _ _ (cmp_exact c BGe x y fx fy I Vx Vy Nx Ny)) as (t2 & Et2 & Ht2). cbn [cmp_rel] in Ht2.
    destruct (holds t) eqn:T.
    + assert (qs < 1)%Q by (apply Ht; reflexivity).
      destruct H as [(H & ->)|[(H & J & ->)|(H & J & ->)]]; [|lra|lra].
      left. exists fr, fi, qr, qi. unfold gauss. cbn [fst snd]. split; [reflexivity|auto 10].
    + assert (~ (qs < 1)%Q) by (intros Y; apply Ht in Y; discriminate).
      rewrite Et2. cbn [bind]. destruct (holds t2) eqn:T2.
      * assert (fy <= fx)%Q by (apply Ht2; reflexivity).
        destruct H as [(H & ->)|[(H & J & ->)|(H & J & ->)]]; [lra| |lra].
        unfold gauss. cbn [fst snd].
        assert (parts (cplx_addsub c BAdd fr fi vone vzero) c (qr + 1, qi + 0)%Q) as Pp.
        { eapply (cplx_add_parts c BAdd fr fi vone vzero qr qi 1%Q 0%Q); eauto; simpl; lia. }
        destruct Pp as [(a & b & u & w & E & Va & Vb & Na & Nb & Eu & Ew)|R]; [left|right; exact R].
        cbn [fst snd] in Eu, Ew. exists a, b, u, w. split; [exact E|]. cbn [fst snd].
        rewrite inject_Z_plus. change (inject_Z 1) with 1%Q.
        split; [exact Va|]. split; [exact Vb|]. split; [exact Na|]. split; [exact Nb|]. split; lra.
      * assert (~ (fy <= fx)%Q) by (intros Y; apply Ht2 in Y; discriminate).
        destruct H as [(H & ->)|[(H & J & ->)|(H & J & ->)]]; [lra|lra|].
        unfold gauss. cbn [fst snd].
        assert (parts (cplx_addsub c BAdd fr fi vzero vone) c (qr + 0, qi + 1)%Q) as Pp.
        { eapply (cplx_add_parts c BAdd fr fi vzero vone qr qi 0%Q 1%Q); eauto; simpl; lia. }
        destruct Pp as [(a & b & u & w & E & Va & Vb & Na & Nb & Eu & Ew)|R]; [left|right; exact R].
        cbn [fst snd] in Eu, Ew. exists a, b, u, w. split; [exact E|]. cbn [fst snd].
        rewrite inject_Z_plus. change (inject_Z 1) with 1%Q.
        split; [exact Va|]. split; [exact Vb|]. split; [exact Na|]. split; [exact Nb|]. split; lra.
  - intros j J. rewrite Cells' by lia. rewrite Cells by exact J.
    destruct r as [v|a], i as [w|b]; try reflexivity.
    + rewrite orb_false_r. reflexivity.
    + destruct (Nat.eqb_spec j a), (Nat.eqb_spec j b); try reflexivity.
      subst. contradiction Ap. reflexivity.
Qed.

Lemma shrink_limited r p : parts r c p -> limited c (let! q := r in Ok (shrink_cplx (fst q) (snd q)))
  (cgives (let! q := r in Ok (shrink_cplx (fst q) (snd q))) p).
Proof. intros H. exact (shrink_parts c r p H). Qed.

Lemma floor_ok h r i z g : denotes h r i z -> apart r i -> mcdonnell z g ->
  let f := complex_floor c h r i in
  limited c (snd f) (cgives (snd f) (gauss g)) /\
  (forall j, (j < length h)%nat -> cell (fst f) j =
     if (match r with PRat a => Nat.eqb j a | _ => false end) || (match i with PRat a => Nat.eqb j a | _ => false end)
     then Qabs (cell h j) else cell h j).
Proof.
  intros D A M. destruct (floor_parts_ok h r i z g D A M) as (P & _ & C). split; [|exact C].
  apply shrink_limited, P.
Qed.

Lemma neg_ok v x : valid v -> numval v = Some x -> exists w y, eval_unary_scalar c UNeg v = Ok w /\ valid w /\ numval w = Some y /\ (y == - x)%Q.
Proof. intros V N. exact (neg_exact c v x V N). Qed.

Lemma part_is_val h v : valid v -> let s := store h v in part_val (fst s) (snd s) = v /\ part_ok (fst s) (snd s) /\
  (length h <= length (fst s))%nat /\ (forall j, (j < length h)%nat -> cell (fst s) j = cell h j) /\
  match snd s with PRat a => a = length h | _ => True end.
Proof.
  intros V. destruct v; try contradiction; cbn [store fst snd part_val].
  1-2: (split; [reflexivity|]; split; [split; [exact V|exact I]|]; split; [lia|]; split; [reflexivity|exact I]).
  assert (cell (h ++ [q]) (length h) = q) as E by (unfold cell; rewrite app_nth2, Nat.sub_diag by lia; reflexivity).
  unfold part_ok. cbn [part_val]. rewrite E, app_length. split; [reflexivity|]. split; [split; [exact V|simpl; lia]|].
  split; [simpl; lia|]. split; [|reflexivity]. intros j J. apply cell_app, J.
Qed.

Lemma ceil_ok h r i z g : denotes h r i z -> mcdonnell (copp z) g ->
  let f := complex_ceil c h r i in
  limited c (snd f) (cgives (snd f) (copp (gauss g))) /\
  (forall j, (j < length h)%nat -> cell (fst f) j = cell h j).
Proof.
  intros (Pr & Pi & Nr & Ni) M. cbv zeta. unfold complex_ceil.
  destruct (neg_ok _ _ (proj1 Pr) Nr) as (nr & xr & Er & Vr & Nnr & Exr).
  destruct (neg_ok _ _ (proj1 Pi) Ni) as (ni & xi & Ei & Vi & Nni & Exi).
  rewrite Er, Ei. destruct (part_is_val h nr Vr) as (S1 & S2 & S3 & S4 & S5).
  destruct (part_is_val (fst (store h nr)) ni Vi) as (T1 & T2 & T3 & T4 & T5).
  set (s := store h nr) in *. set (t := store (fst s) ni) in *. cbv zeta.
  assert (part_ok (fst t) (snd s) /\ part_val (fst t) (snd s) = nr) as [S2' S1'].
  { destruct (snd s) as [v|a] eqn:Es; cbn [part_val] in *.
    - split; [exact S2|exact S1].
    - destruct S2 as [Q1 Q2]. unfold part_ok. cbn [part_val] in *. rewrite T4 by exact Q2. split; [split; [exact Q1|lia]|exact S1]. }
  assert (apart (snd s) (snd t)) as Ap.
  { destruct (snd s) as [v|a]; [exact I|]. destruct (snd t) as [v|b]; [exact I|]. cbn [apart]. destruct S2 as [_ S2]. lia. }
  destruct (floor_parts_ok (fst t) (snd s) (snd t) (xr, xi) g) as (P & L & C).
  { unfold denotes. rewrite S1', T1. auto. }
  { exact Ap. }
  { eapply mc_compat; [|exact M]. unfold copp. split; cbn [fst snd]; lra. }
  cbn [fst snd]. split.
  - destruct P as [(a & b & u & w & E & Va & Vb & Na & Nb & Eu & Ew)|(E & Mb)]; rewrite E; cbn [bind fst snd]; [|right; auto].
    destruct (neg_ok a u Va Na) as (a' & u' & Ea & Va' & Na' & Eu').
    destruct (neg_ok b w Vb Nb) as (b' & w' & Eb & Vb' & Nb' & Ew').
    rewrite Ea, Eb. cbn [bind]. apply shrink_limited. eapply parts_new; eauto; unfold copp; cbn [fst snd]; lra.
  - intros j J. rewrite C by lia.
    assert ((match snd s with PRat a => Nat.eqb j a | _ => false end) || (match snd t with PRat a => Nat.eqb j a | _ => false end) = false) as ->.
    { destruct (snd s), (snd t); cbn [orb]; rewrite ?orb_false_r; try reflexivity; lia. }
    rewrite T4 by lia. apply S4, J.
Qed.

End Conf.

(* ---- equality and construction ---- *)
Lemma real_or_cplx v p : cvalid v -> cval v = Some p -> is_cplx v = false -> valid v /\ exists x, numval v = Some x /\ p = (x, 0%Q).
Proof. destruct v; simpl; intros V N C; try contradiction; try discriminate; inversion N; eauto. Qed.

Lemma real_cmp c o a b x y : is_cmp o -> valid a -> valid b -> numval a = Some x -> numval b = Some y ->
  truth (eval_real c o a b) (cmp_rel o x y).
Proof. intros. rewrite (real_eval c o a b x y) by assumption. apply cmp_exact; assumption. Qed.

Lemma eq_type o u v p q : (o = BEq \/ o = BNe) -> cval u = Some p -> cval v = Some q -> is_cplx u || is_cplx v = true ->
  which_type o (ty u) (ty v) = TCplx /\ char_equal o u v = None.
Proof.
  intros [-> | ->] Hu Hv C; destruct u; try discriminate; destruct v; try discriminate; split; reflexivity.
Qed.

Lemma complex_eq_ok c u v p q : cvalid u -> cvalid v -> cval u = Some p -> cval v = Some q ->
  truth (eval_scalar c BEq u v) (ceq p q) /\ truth (eval_scalar c BNe u v) (~ ceq p q).
Proof.
  intros Vu Vv Nu Nv. destruct (is_cplx u || is_cplx v) eqn:C.
  - destruct (cparts u p Vu Nu) as (a & b & Tu & Va & Vb & Na & Nb).
    destruct (cparts v q Vv Nv) as (d & e & Tv & Vd & Ve & Nd & Ne).
    split.
    + destruct (eq_type BEq u v p q (or_introl eq_refl) Nu Nv C) as [T CE].
      unfold eval_scalar. rewrite CE. cbv zeta. rewrite T, Tu, Tv. cbn [bind fn_cplx].
      destruct (real_cmp c BEq a d _ _ I Va Vd Na Nd) as [[H ->]|[H ->]]; cbn [bind cmp_rel] in *.
      * destruct (real_cmp c BEq b e _ _ I Vb Ve Nb Ne) as [[H' ->]|[H' ->]]; cbn [cmp_rel] in *; [left|right]; split; auto.
        -- split; assumption.
        -- intros [_ F]. contradiction.
      * right. split; [intros [F _]; contradiction|reflexivity].
    + destruct (eq_type BNe u v p q (or_intror eq_refl) Nu Nv C) as [T CE].
      unfold eval_scalar. rewrite CE. cbv zeta. rewrite T, Tu, Tv. cbn [bind fn_cplx].
      destruct (real_cmp c BNe a d _ _ I Va Vd Na Nd) as [[H ->]|[H ->]]; cbn [bind cmp_rel] in *.
      * left. split; [intros [F _]; contradiction|reflexivity].
      * destruct (Qeq_dec (fst p) (fst q)) as [E|E]; [|contradiction].
        destruct (real_cmp c BNe b e _ _ I Vb Ve Nb Ne) as [[H' ->]|[H' ->]]; cbn [cmp_rel] in *; [left|right]; split; auto.
        -- intros [_ F]. contradiction.
        -- intros F. apply H'. intros F'. apply F. split; assumption.
  - apply orb_false_iff in C. destruct C as [Cu Cv].
    destruct (real_or_cplx u p Vu Nu Cu) as (Vu' & x & Nx & ->). destruct (real_or_cplx v q Vv Nv Cv) as (Vv' & y & Ny & ->).
    pose proof (cmp_exact c BEq u v x y I Vu' Vv' Nx Ny) as [[H ->]|[H ->]];
    pose proof (cmp_exact c BNe u v x y I Vu' Vv' Nx Ny) as [[H' ->]|[H' ->]]; cbn [cmp_rel] in *; unfold ceq; cbn [fst snd];
      split; try (left; split; [|reflexivity]; solve [intuition lra | split; [assumption|reflexivity]]);
      try (right; split; [|reflexivity]; intuition lra).
Qed.

Lemma complex_cmp_err c o u v p q : (o = BLt \/ o = BLe \/ o = BGt \/ o = BGe) -> cvalid u -> cvalid v ->
  cval u = Some p -> cval v = Some q -> is_cplx u || is_cplx v = true -> eval_scalar c o u v = Err.
Proof.
  intros Ho Vu Vv Nu Nv C.
  destruct (cparts u p Vu Nu) as (a & b & Tu & _). destruct (cparts v q Vv Nv) as (d & e & Tv & _).
  assert (which_type o (ty u) (ty v) = TCplx /\ char_equal o u v = None) as [T CE].
  { destruct Ho as [-> |[-> |[-> | ->]]]; destruct u; try discriminate; destruct v; try discriminate; split; reflexivity. }
  unfold eval_scalar. rewrite CE. cbv zeta. rewrite T, Tu, Tv.
  destruct Ho as [-> |[-> |[-> | ->]]]; reflexivity.
Qed.

(* what shrink needs of a part *)
Definition weak (v : value) : Prop :=
  match v with VInt z => - 2 ^ 31 <= z <= 2 ^ 31 | VBig _ => True | VRat q => Qred q = q | _ => False end.
Lemma weak_shrink a x : weak a -> numval a = Some x -> valid (shrink_real a) /\ exists y, numval (shrink_real a) = Some y /\ (y == x)%Q.
Proof.
  destruct a; intros V N; try contradiction; inversion N; subst; cbn [shrink_real].
  - split; [exact V|]. eexists. split; reflexivity.
  - split; [apply shrink_big_valid|]. eexists. split; [apply shrink_big_val|reflexivity].
  - split; [apply near_valid, shrink_rat_near, V|]. eexists. split; [apply shrink_rat_val|reflexivity].
Qed.
Lemma weak_cplx a b x y : weak a -> weak b -> numval a = Some x -> numval b = Some y ->
  cgives (Ok (shrink_cplx a b)) (x, y).
Proof.
  intros Wa Wb Na Nb.
  destruct (weak_shrink a x Wa Na) as (Va & x' & Na' & Ex). destruct (weak_shrink b y Wb Nb) as (Vb & y' & Nb' & Ey).
  unfold shrink_cplx. rewrite (isZero_val _ _ Nb'). destruct (Qeq_bool y' 0) eqn:E.
  - apply Qeq_bool_iff in E. exists (shrink_real a), (x', 0%Q). split; [reflexivity|].
    assert (cvalid (shrink_real a) /\ cval (shrink_real a) = Some (x', 0%Q)) as [A B].
    { destruct (shrink_real a); simpl in *; try contradiction; inversion Na'; subst; auto. }
    split; [exact A|]. split; [exact B|]. split; cbn [fst snd]; lra.
  - exists (VCplx (shrink_real a) (shrink_real b)), (x', y'). split; [reflexivity|].
    split; [|split].
    + simpl. split; [exact Va|split; [exact Vb|]]. exists y'. split; [exact Nb'|].
      rewrite <-Qeq_bool_iff. congruence.
    + simpl. rewrite Na', Nb'. reflexivity.
    + split; cbn [fst snd]; assumption.
Qed.

Lemma valid_weak v : valid v -> weak v.
Proof. destruct v; simpl; intuition. Qed.

Lemma build_ok c u v x y : valid u -> valid v -> numval u = Some x -> numval v = Some y ->
  cgives (eval_scalar c BJ u v) (x, y).
Proof.
  intros Vu Vv Nu Nv.
  destruct u; try contradiction; destruct v; try contradiction; inversion Nu; inversion Nv; subst;
    (eapply weak_cplx; [|  |reflexivity|reflexivity]; cbn [weak valid fst snd] in *; try solve [exact Logic.I|apply red_inject|tauto|lia]).
Qed.

Lemma times_i_ok c u p : cvalid u -> cval u = Some p -> cgives (eval_unary_scalar c UJ u) (- snd p, fst p)%Q.
Proof.
  intros Vu Nu. destruct u as [z|z|z|q|a b|l|s l]; simpl in Vu; try contradiction; try discriminate.
  1-3: (simpl in Nu; inversion Nu; subst; cbn [fst snd];
    apply (weak_cplx vzero _ 0%Q); [simpl; lia|apply valid_weak; exact Vu|reflexivity|reflexivity]).
  simpl in Nu. destruct (numval a) as [x|] eqn:Na; [|discriminate]. destruct (numval b) as [y|] eqn:Nb; [|discriminate].
  inversion Nu; subst. destruct Vu as (Va & Vb & _). cbn [fst snd].
  destruct (neg_ok c b y Vb Nb) as (w & t & Ew & Vw & Nw & Et).
  assert (eval_unary_real UNeg b = Ok w) as E by (destruct b; try discriminate; exact Ew).
  cbn [eval_unary_scalar]. rewrite E. cbn [bind]. rewrite (new_cplx_ok w a t x Nw Na). cbn [bind fst snd].
  destruct (weak_cplx w a t x) as (r & s & A & B & C & D); [apply valid_weak, Vw|apply valid_weak, Va|exact Nw|exact Na|].
  exists r, s. split; [exact A|]. split; [exact B|]. split; [exact C|]. destruct D as [D1 D2]. cbn [fst snd] in *. split; cbn [fst snd]; lra.
Qed.

Lemma cinv_ok c u p : cvalid u -> cval u = Some p ->
  (ceq p (0, 0)%Q /\ eval_unary_scalar c UInv u = Err) \/
  (~ ceq p (0, 0)%Q /\ limited c (eval_unary_scalar c UInv u)
     (cgives (eval_unary_scalar c UInv u) (fst p / (fst p * fst p + snd p * snd p), - snd p / (fst p * fst p + snd p * snd p))%Q)).
Proof.
  intros Vu Nu. destruct (is_cplx u) eqn:C.
  - destruct u as [z|z|z|q|a b|l|s l]; try discriminate.
    simpl in Nu. destruct (numval a) as [x|] eqn:Na; [|discriminate]. destruct (numval b) as [y|] eqn:Nb; [|discriminate].
    inversion Nu; subst. destruct Vu as (Va & Vb & y' & Ny & NZ). assert (y' = y) by congruence. subst y'. cbn [fst snd].
    right. split; [intros [_ E]; cbn [snd] in E; contradiction|].
    assert (~ (x * x + y * y == 0)%Q) as Nz by (apply sumsq_nz; intros [_ E]; contradiction).
    cbn [eval_unary_scalar]. rewrite (isZero_val a x Na), (isZero_val b y Nb).
    replace (Qeq_bool y 0) with false by (symmetry; apply not_true_iff_false; rewrite Qeq_bool_iff; exact NZ).
    rewrite andb_false_r.
    eapply (err_bind c _ _ _ (fun r => limited c r (cgives r _)));
      [eapply (real_arith c BMul a a); [exact I|exact Va|exact Va|exact Na|exact Na|reflexivity]|intros v1 q1 V1 N1 E1|right; auto].
    eapply (err_bind c _ _ _ (fun r => limited c r (cgives r _)));
      [eapply (real_arith c BMul b b); [exact I|exact Vb|exact Vb|exact Nb|exact Nb|reflexivity]|intros v2 q2 V2 N2 E2|right; auto].
    eapply (err_bind c _ _ _ (fun r => limited c r (cgives r _)));
      [eapply (real_arith c BAdd v1 v2); [exact I|exact V1|exact V2|exact N1|exact N2|reflexivity]|intros v3 q3 V3 N3 E3|right; auto].
    assert (~ (q3 == 0)%Q) as Nz3 by (rewrite E3, E1, E2; exact Nz).
    eapply (err_bind c _ _ _ (fun r => limited c r (cgives r _)));
      [eapply (real_arith c BQuo a v3); [exact I|exact Va|exact V3|exact Na|exact N3|apply sem_quo, Nz3]|intros v4 q4 V4 N4 E4|right; auto].
    eapply (err_bind c _ _ _ (fun r => limited c r (cgives r _)));
      [eapply (real_arith c BQuo b v3); [exact I|exact Vb|exact V3|exact Nb|exact N3|apply sem_quo, Nz3]|intros v5 q5 V5 N5 E5|right; auto].
    destruct (neg_ok c v5 q5 V5 N5) as (w & t & Ew & Vw & Nw & Et).
    assert (eval_unary_real UNeg v5 = Ok w) as -> by (destruct v5; try discriminate; exact Ew).
    cbn [bind]. rewrite (new_cplx_ok v4 w q4 t N4 Nw). cbn [bind fst snd]. left.
    destruct (weak_cplx v4 w q4 t) as (r & s & A & B & D & F); [apply valid_weak, V4|apply valid_weak, Vw|exact N4|exact Nw|].
    exists r, s. split; [exact A|]. split; [exact B|]. split; [exact D|]. destruct F as [F1 F2]. cbn [fst snd] in *.
    split; cbn [fst snd].
    + rewrite F1, E4, E3, E1, E2. reflexivity.
    + rewrite F2, Et, E5, E3, E1, E2. field. exact Nz.
  - destruct (real_or_cplx u p Vu Nu C) as (Vu' & x & Nx & ->). cbn [fst snd].
    destruct (inv_exact c u x Vu' Nx) as [(Z0 & E)|(NZ & (w & y & E & Vw & Nw & Ey))].
    + left. split; [split; [exact Z0|reflexivity]|exact E].
    + right. split; [intros [F _]; cbn [fst] in F; contradiction|]. left. exists w, (y, 0%Q). split; [exact E|].
      assert (cvalid w /\ cval w = Some (y, 0%Q)) as [A1 A2].
      { destruct w; simpl in *; try contradiction; inversion Nw; subst; auto. }
      split; [exact A1|]. split; [exact A2|]. split; cbn [fst snd].
      * rewrite Ey. field. exact NZ.
      * field. intros F. assert (x * x == 0)%Q as F' by lra. apply Qmult_integral in F'. tauto.
Qed.

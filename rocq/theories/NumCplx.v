(* Complex arithmetic with exact parts. *)
From Verif Require Import Value NumModel NumSpec NumProofs NumArith NumMore NumTree.
From Coq Require Import QArith Qreduction Qabs ZifyBool Lqa.
Open Scope Z_scope.
Ltac Zify.zify_post_hook ::= Z.div_mod_to_equations.

Lemma isZero_val v x : numval v = Some x -> isZero v = Qeq_bool x 0.
Proof.
  intros H. apply eq_true_iff_eq. rewrite Qeq_bool_iff. destruct v; inversion H; subst; simpl.
  - rewrite Z.eqb_eq. symmetry. apply injq_eq.
  - rewrite Z.eqb_eq. symmetry. apply injq_eq.
  - apply Qnum0.
Qed.

Lemma real_eval c o a b x y : numval a = Some x -> numval b = Some y -> eval_real c o a b = eval_scalar c o a b.
Proof.
  intros Ha Hb. unfold eval_scalar. destruct (char_equal o a b) eqn:E; [unfold eval_real; rewrite E; reflexivity|].
  destruct a; try discriminate; destruct b; try discriminate; destruct o; reflexivity.
Qed.

Lemma real_arith c o a b x y q : arith_bop o -> valid a -> valid b -> numval a = Some x -> numval b = Some y ->
  sem_bop o x y = Some q -> err_or c (eval_real c o a b) q.
Proof.
  intros Ho Va Vb Ha Hb S. rewrite (real_eval c o a b x y Ha Hb).
  pose proof (bop_exact c o a b x y Ho Va Vb Ha Hb) as B. rewrite S in B. exact B.
Qed.

(* ok to run a continuation on an exact real *)
Lemma err_bind {B} c r q (k : value -> res B) (P : res B -> Prop) :
  err_or c r q -> (forall v x, valid v -> numval v = Some x -> (x == q)%Q -> P (k v)) ->
  (maxbits c <> 0 -> P Err) -> P (bind r k).
Proof.
  intros [(v & x & -> & V & N & E)|(-> & M)] H1 H2; simpl; [eapply H1; eauto|auto].
Qed.

Definition cerr_or (c : conf) (r : res value) (p : Q * Q) : Prop := cgives r p \/ (r = Err /\ maxbits c <> 0).
Definition parts (r : res (value * value)) (c : conf) (p : Q * Q) : Prop :=
  (exists a b x y, r = Ok (a, b) /\ valid a /\ valid b /\ numval a = Some x /\ numval b = Some y /\ (x == fst p)%Q /\ (y == snd p)%Q)
  \/ (r = Err /\ maxbits c <> 0).

Lemma new_cplx_ok a b x y : numval a = Some x -> numval b = Some y -> new_cplx a b = Ok (a, b).
Proof. destruct a; try discriminate; destruct b; try discriminate; reflexivity. Qed.

Lemma shrink_real_ok a x : valid a -> numval a = Some x -> valid (shrink_real a) /\ numval (shrink_real a) = Some x.
Proof.
  destruct a; intros V N; try contradiction; inversion N; subst; simpl.
  - auto.
  - split; [apply shrink_big_valid|apply shrink_big_val].
  - destruct V as [R D]. split; [apply near_valid, shrink_rat_near, R|apply shrink_rat_val].
Qed.

Lemma shrink_parts c r p : parts r c p -> cerr_or c (let! q := r in Ok (shrink_cplx (fst q) (snd q))) p.
Proof.
  intros [(a & b & x & y & -> & Va & Vb & Na & Nb & Ex & Ey)|(-> & M)]; [left|right; auto].
  cbn [bind fst snd]. unfold shrink_cplx.
  destruct (shrink_real_ok a x Va Na) as [Va' Na']. destruct (shrink_real_ok b y Vb Nb) as [Vb' Nb'].
  rewrite (isZero_val _ _ Nb'). destruct (Qeq_bool y 0) eqn:E.
  - apply Qeq_bool_iff in E. exists (shrink_real a), (x, 0%Q). split; [reflexivity|].
    assert (cvalid (shrink_real a) /\ cval (shrink_real a) = Some (x, 0%Q)) as [A B].
    { destruct (shrink_real a); simpl in *; try contradiction; inversion Na'; subst; auto. }
    split; [exact A|]. split; [exact B|]. split; simpl; lra.
  - exists (VCplx (shrink_real a) (shrink_real b)), (x, y). split; [reflexivity|].
    split; [|split].
    + simpl. split; [exact Va'|split; [exact Vb'|]]. exists y. split; [exact Nb'|].
      rewrite <-Qeq_bool_iff. congruence.
    + simpl. rewrite Na', Nb'. reflexivity.
    + split; simpl; assumption.
Qed.

Ltac rstep Ho :=
  match goal with
  | |- parts (bind (eval_real ?c ?o ?a ?b) _) _ _ =>
    let v := fresh "v" in let z := fresh "z" in
    eapply (err_bind c _ _ _ (fun r => parts r c _));
      [eapply (real_arith c o a b); [exact I|eassumption|eassumption|eassumption|eassumption|try reflexivity]
      |intros v z ? ? ?|intros; right; auto]
  end.

Lemma parts_new c a b x y p : valid a -> valid b -> numval a = Some x -> numval b = Some y ->
  (x == fst p)%Q -> (y == snd p)%Q -> parts (new_cplx a b) c p.
Proof.
  intros. left. exists a, b, x, y. rewrite (new_cplx_ok a b x y) by assumption. repeat split; assumption.
Qed.

Lemma cplx_add_parts c o a b d e x y z w p : (o = BAdd \/ o = BSub) ->
  valid a -> valid b -> valid d -> valid e ->
  numval a = Some x -> numval b = Some y -> numval d = Some z -> numval e = Some w ->
  c_bop o (x, y) (z, w) = Some p -> parts (cplx_addsub c o a b d e) c p.
Proof.
  intros [-> | ->] Va Vb Vd Ve Na Nb Nd Ne E; simpl in E; inversion E; subst; unfold cplx_addsub.
  - rstep I. rstep I. eapply parts_new; eauto.
  - rstep I. rstep I. eapply parts_new; eauto.
Qed.

Lemma cplx_mul_parts c a b d e x y z w :
  valid a -> valid b -> valid d -> valid e ->
  numval a = Some x -> numval b = Some y -> numval d = Some z -> numval e = Some w ->
  parts (cplx_mul c a b d e) c (x * z - y * w, x * w + y * z)%Q.
Proof.
  intros Va Vb Vd Ve Na Nb Nd Ne. unfold cplx_mul.
  rstep I. rstep I. rstep I. rstep I. rstep I. rstep I.
  eapply parts_new; eauto; simpl; lra.
Qed.

Lemma sem_quo x y : ~ (y == 0)%Q -> sem_bop BQuo x y = Some (x / y)%Q.
Proof. intros H. simpl. destruct (Qeq_bool y 0) eqn:E; [apply Qeq_bool_iff in E; contradiction|reflexivity]. Qed.
Lemma sumsq_nz z w : ~ ((z == 0)%Q /\ (w == 0)%Q) -> ~ (z * z + w * w == 0)%Q.
Proof.
  intros N E. apply N. assert (0 <= z * z)%Q by (apply Qsqr_nonneg || (destruct (Qlt_le_dec z 0); nra)).
  assert (0 <= w * w)%Q by (destruct (Qlt_le_dec w 0); nra).
  assert (z * z == 0)%Q by lra. assert (w * w == 0)%Q by lra.
  split; [destruct (Qmult_integral _ _ H1)|destruct (Qmult_integral _ _ H2)]; assumption.
Qed.

Lemma cplx_div_parts c a b d e x y z w :
  valid a -> valid b -> valid d -> valid e ->
  numval a = Some x -> numval b = Some y -> numval d = Some z -> numval e = Some w ->
  ~ ((z == 0)%Q /\ (w == 0)%Q) ->
  parts (cplx_div c a b d e) c ((x * z + y * w) / (z * z + w * w), (y * z - x * w) / (z * z + w * w))%Q.
Proof.
  intros Va Vb Vd Ve Na Nb Nd Ne NZ. unfold cplx_div.
  pose proof (sumsq_nz z w NZ) as SN.
  rewrite (isZero_val d z Nd), (isZero_val e w Ne).
  destruct (Qeq_bool z 0 && Qeq_bool w 0) eqn:E0.
  { exfalso. apply NZ. apply andb_true_iff in E0. rewrite <-!Qeq_bool_iff. exact E0. }
  destruct (Qeq_bool w 0) eqn:W0.
  - apply Qeq_bool_iff in W0.
    assert (~ (z == 0)%Q) as Z0 by (intros E; apply NZ; split; assumption).
    eapply (err_bind c _ _ _ (fun r => parts r c _)); [eapply (real_arith c BMul d d); [exact I|eassumption|eassumption|eassumption|eassumption|reflexivity]| |intros; right; auto].
    intros den zd Vden Nden Eden.
    assert (~ (zd == 0)%Q) as DN by (rewrite Eden; intros E; apply SN; rewrite W0; lra).
    eapply (err_bind c _ _ _ (fun r => parts r c _)); [eapply (real_arith c BMul a d); [exact I|eassumption|eassumption|eassumption|eassumption|reflexivity]| |intros; right; auto].
    intros v1 z1 V1 N1 E1.
    eapply (err_bind c _ _ _ (fun r => parts r c _)); [eapply (real_arith c BQuo v1 den _ _ _ I V1 Vden N1 Nden (sem_quo _ _ DN))| |intros; right; auto].
    intros v2 z2 V2 N2 E2.
    eapply (err_bind c _ _ _ (fun r => parts r c _)); [eapply (real_arith c BMul b d); [exact I|eassumption|eassumption|eassumption|eassumption|reflexivity]| |intros; right; auto].
    intros v3 z3 V3 N3 E3.
    eapply (err_bind c _ _ _ (fun r => parts r c _)); [eapply (real_arith c BQuo v3 den _ _ _ I V3 Vden N3 Nden (sem_quo _ _ DN))| |intros; right; auto].
    intros v4 z4 V4 N4 E4.
    eapply parts_new; eauto; cbn [fst snd].
    + rewrite E2, E1, Eden, W0. field. exact Z0.
    + rewrite E4, E3, Eden, W0. field. exact Z0.
  - eapply (err_bind c _ _ _ (fun r => parts r c _)); [eapply (real_arith c BMul d d); [exact I|eassumption|eassumption|eassumption|eassumption|reflexivity]| |intros; right; auto].
    intros t1 q1 T1 M1 F1.
    eapply (err_bind c _ _ _ (fun r => parts r c _)); [eapply (real_arith c BMul e e); [exact I|eassumption|eassumption|eassumption|eassumption|reflexivity]| |intros; right; auto].
    intros t2 q2 T2 M2 F2.
    eapply (err_bind c _ _ _ (fun r => parts r c _)); [eapply (real_arith c BAdd t1 t2); [exact I|eassumption|eassumption|eassumption|eassumption|reflexivity]| |intros; right; auto].
    intros den zd Vden Nden Eden.
    assert (zd == z * z + w * w)%Q as Eden' by (rewrite Eden, F1, F2; reflexivity).
    assert (~ (zd == 0)%Q) as DN by (rewrite Eden'; exact SN).
    eapply (err_bind c _ _ _ (fun r => parts r c _)); [eapply (real_arith c BMul a d); [exact I|eassumption|eassumption|eassumption|eassumption|reflexivity]| |intros; right; auto].
    intros t3 q3 T3 M3 F3.
    eapply (err_bind c _ _ _ (fun r => parts r c _)); [eapply (real_arith c BMul b e); [exact I|eassumption|eassumption|eassumption|eassumption|reflexivity]| |intros; right; auto].
    intros t4 q4 T4 M4 F4.
    eapply (err_bind c _ _ _ (fun r => parts r c _)); [eapply (real_arith c BAdd t3 t4); [exact I|eassumption|eassumption|eassumption|eassumption|reflexivity]| |intros; right; auto].
    intros t5 q5 T5 M5 F5.
    eapply (err_bind c _ _ _ (fun r => parts r c _)); [eapply (real_arith c BQuo t5 den _ _ _ I T5 Vden M5 Nden (sem_quo _ _ DN))| |intros; right; auto].
    intros t6 q6 T6 M6 F6.
    eapply (err_bind c _ _ _ (fun r => parts r c _)); [eapply (real_arith c BMul b d); [exact I|eassumption|eassumption|eassumption|eassumption|reflexivity]| |intros; right; auto].
    intros t7 q7 T7 M7 F7.
    eapply (err_bind c _ _ _ (fun r => parts r c _)); [eapply (real_arith c BMul a e); [exact I|eassumption|eassumption|eassumption|eassumption|reflexivity]| |intros; right; auto].
    intros t8 q8 T8 M8 F8.
    eapply (err_bind c _ _ _ (fun r => parts r c _)); [eapply (real_arith c BSub t7 t8); [exact I|eassumption|eassumption|eassumption|eassumption|reflexivity]| |intros; right; auto].
    intros t9 q9 T9 M9 F9.
    eapply (err_bind c _ _ _ (fun r => parts r c _)); [eapply (real_arith c BQuo t9 den _ _ _ I T9 Vden M9 Nden (sem_quo _ _ DN))| |intros; right; auto].
    intros t10 q10 T10 M10 F10.
    eapply parts_new; eauto; cbn [fst snd].
    + rewrite F6, F5, F3, F4, Eden'. reflexivity.
    + rewrite F10, F9, F7, F8, Eden'. reflexivity.
Qed.

(* Every complex operand, real or not, seen as a pair of exact parts. *)
Lemma cparts v p : cvalid v -> cval v = Some p ->
  exists a b, to_type TCplx v = Ok (VCplx a b) /\ valid a /\ valid b /\ numval a = Some (fst p) /\ numval b = Some (snd p).
Proof.
  destruct v; simpl; intros V N; try contradiction; try discriminate.
  - inversion N; subst. exists (VInt z), vzero. repeat split; simpl; try lia; auto.
  - inversion N; subst. exists (VBig z), vzero. repeat split; simpl; try lia; auto.
  - inversion N; subst. exists (VRat q), vzero. destruct V. repeat split; simpl; try lia; auto.
  - destruct (numval v1) eqn:N1; [|discriminate]. destruct (numval v2) eqn:N2; [|discriminate].
    inversion N; subst. destruct V as (V1 & V2 & _). exists v1, v2. repeat split; auto.
Qed.

Definition is_cplx (v : value) : bool := match v with VCplx _ _ => true | _ => false end.

Lemma cplx_type o u v p q : c_arith o -> cval u = Some p -> cval v = Some q -> is_cplx u || is_cplx v = true ->
  which_type o (ty u) (ty v) = TCplx /\ char_equal o u v = None.
Proof.
  intros Ho Hu Hv C. destruct u; try discriminate; destruct v; try discriminate; destruct o; try contradiction; split; reflexivity.
Qed.

Lemma fn_cplx_exact c o a b d e x y z w : c_arith o ->
  valid a -> valid b -> valid d -> valid e ->
  numval a = Some x -> numval b = Some y -> numval d = Some z -> numval e = Some w ->
  match c_bop o (x, y) (z, w) with
  | Some p => cerr_or c (fn_cplx c o a b d e) p
  | None => fn_cplx c o a b d e = Err
  end.
Proof.
  intros Ho Va Vb Vd Ve Na Nb Nd Ne. destruct o; try contradiction; cbn [fn_cplx].
  - cbn [c_bop]. apply shrink_parts. eapply cplx_add_parts; eauto.
  - cbn [c_bop]. apply shrink_parts. eapply cplx_add_parts; eauto.
  - cbn [c_bop]. apply shrink_parts. eapply cplx_mul_parts; eauto.
  - unfold c_bop. destruct (Qeq_bool z 0 && Qeq_bool w 0) eqn:E0.
    + unfold cplx_div. rewrite (isZero_val d z Nd), (isZero_val e w Ne), E0. reflexivity.
    + apply shrink_parts. eapply cplx_div_parts; eauto.
      rewrite <-!Qeq_bool_iff. intros [H1 H2]. rewrite H1, H2 in E0. discriminate.
Qed.

Lemma cplx_exact c o u v p q : c_arith o -> cvalid u -> cvalid v -> cval u = Some p -> cval v = Some q ->
  match c_bop o p q with
  | Some r => cerr_or c (eval_scalar c o u v) r
  | None => eval_scalar c o u v = Err
  end.
Proof.
  intros Ho Vu Vv Nu Nv. destruct (is_cplx u || is_cplx v) eqn:C.
  - destruct (cplx_type o u v p q Ho Nu Nv C) as [T CE].
    destruct (cparts u p Vu Nu) as (a & b & Tu & Va & Vb & Na & Nb).
    destruct (cparts v q Vv Nv) as (d & e & Tv & Vd & Ve & Nd & Ne).
    unfold eval_scalar. rewrite CE. cbv zeta. rewrite T, Tu, Tv. cbn [bind].
    rewrite (surjective_pairing p), (surjective_pairing q). apply fn_cplx_exact; assumption.
  - assert (exists x, numval u = Some x /\ p = (x, 0%Q) /\ valid u) as (x & Nx & -> & Vx).
    { destruct u; simpl in *; try discriminate; inversion Nu; eauto. }
    assert (exists y, numval v = Some y /\ q = (y, 0%Q) /\ valid v) as (y & Ny & -> & Vy).
    { destruct v; simpl in *; try discriminate; try (rewrite orb_true_r in C; discriminate); inversion Nv; eauto. }
    assert (arith_bop o) as Ao by (destruct o; try contradiction; exact I).
    pose proof (bop_exact c o u v x y Ao Vx Vy Nx Ny) as B.
    assert (forall r s, err_or c r s -> forall t, (s == fst t)%Q -> (snd t == 0)%Q -> cerr_or c r t) as L.
    { intros r s [(w & xw & -> & Vw & Nw & Ew)|(-> & M)] t Et Ez; [left|right; auto].
      exists w, (xw, 0%Q). split; [reflexivity|].
      assert (cvalid w /\ cval w = Some (xw, 0%Q)) as [A1 A2].
      { destruct w; simpl in *; try contradiction; inversion Nw; subst; auto. }
      split; [exact A1|]. split; [exact A2|]. split; simpl; [rewrite Ew; exact Et|lra]. }
    destruct o; try contradiction; cbn [c_bop sem_bop] in *.
    + eapply L; [exact B| |]; simpl; lra.
    + eapply L; [exact B| |]; simpl; lra.
    + eapply L; [exact B| |]; simpl; lra.
    + replace (Qeq_bool 0 0) with true by reflexivity. rewrite andb_true_r.
      destruct (Qeq_bool y 0) eqn:Y0; [exact B|].
      assert (~ (y == 0)%Q) by (rewrite <-Qeq_bool_iff; congruence).
      eapply L; [exact B| |]; simpl; field; assumption.
Qed.

(* conjugate, real and imaginary parts, negation *)
Lemma cplx_conj c u p : cvalid u -> cval u = Some p ->
  cgives (eval_unary_scalar c UConj u) (fst p, - snd p)%Q /\
  cgives (eval_unary_scalar c UNeg u) (- fst p, - snd p)%Q /\
  gives (eval_unary_scalar c UReal u) (fst p) /\ gives (eval_unary_scalar c UImag u) (snd p).
Proof.
  intros Vu Nu.
  assert (forall r x, gives r x -> forall y, (y == 0)%Q -> cgives r (x, y)) as L.
  { intros r s (w & xw & -> & Vw & Nw & Ew) t Et.
    exists w, (xw, 0%Q). split; [reflexivity|].
    assert (cvalid w /\ cval w = Some (xw, 0%Q)) as [A1 A2].
    { destruct w; simpl in *; try contradiction; inversion Nw; subst; auto. }
    split; [exact A1|]. split; [exact A2|]. split; simpl; [exact Ew|lra]. }
  destruct u as [z|z|z|q|a b|l|s l]; simpl in Vu; try contradiction; try discriminate.
  1-3: (simpl in Nu; inversion Nu; subst; cbn [fst snd]; repeat split;
    [apply L; [apply gives_self; [exact Vu|reflexivity]|lra]
    |apply L; [apply neg_exact; [exact Vu|reflexivity]|lra]
    |apply gives_self; [exact Vu|reflexivity]|apply (gives_int_v 0); lia]).
  simpl in Nu. destruct (numval a) as [x|] eqn:Na; [|discriminate]. destruct (numval b) as [y|] eqn:Nb; [|discriminate].
  inversion Nu; subst. destruct Vu as (Va & Vb & y' & Ny & NZ). assert (y' = y) by congruence. subst y'. cbn [fst snd].
  assert (gives (eval_unary_real UNeg b) (- y)) as (nb & z & Eb & Vnb & Nnb & Zb).
  { pose proof (neg_exact c b y Vb Nb) as G. destruct b; try discriminate; exact G. }
  assert (gives (eval_unary_real UNeg a) (- x)) as (na & z' & Ea & Vna & Nna & Za).
  { pose proof (neg_exact c a x Va Na) as G. destruct a; try discriminate; exact G. }
  assert (forall r p, parts r (mkConf 0 0) p -> cgives (let! q := r in Ok (shrink_cplx (fst q) (snd q))) p) as SP.
  { intros r p H. destruct (shrink_parts _ _ _ H) as [G|[_ M]]; [exact G|contradiction M; reflexivity]. }
  cbn [eval_unary_scalar]. rewrite Ea, Eb. cbn [bind].
  split; [|split; [|split]].
  - apply SP. eapply parts_new; eauto. reflexivity.
  - apply SP. eapply parts_new; eauto.
  - apply gives_self; assumption.
  - apply gives_self; assumption.
Qed.

(* Scalar operators, continued: combinations, canonical results, expressions,
   complex numbers. *)
From Verif Require Import Value NumModel NumSpec NumProofs NumArith NumMore FacModel.
From Verif Require FacProofs.
From Coq Require Import QArith Qreduction Qround Qabs Qpower ZifyBool ZifyNat Lqa.
Open Scope Z_scope.
Ltac Zify.zify_post_hook ::= Z.div_mod_to_equations.

(* ---- factorial and combinations ---- *)
Lemma factorial_ok n : 0 <= n -> factorial n = Ok (fact_z (Z.to_nat n)).
Proof.
  intros H. unfold factorial. destruct (n <? 0) eqn:E; [lia|]. rewrite FacProofs.fact_swing_fact. reflexivity.
Qed.
Lemma factorial_exact c z :
  (0 <= z /\ gives (eval_unary_scalar c UBang (VInt z)) (inject_Z (fact_z (Z.to_nat z)))) \/
  (z < 0 /\ eval_unary_scalar c UBang (VInt z) = Err).
Proof.
  destruct (Z.lt_ge_cases z 0) as [L|L]; [right|left]; (split; [lia|]).
  - unfold eval_unary_scalar, eval_unary_real, factorial. destruct (z <? 0) eqn:E; [reflexivity|lia].
  - unfold eval_unary_scalar, eval_unary_real. rewrite factorial_ok by lia. apply gives_big.
Qed.
Lemma fact_z_pos n : 0 < fact_z n.
Proof. induction n as [|n IH]; cbn [fact_z]; [lia|nia]. Qed.
Lemma choose_zero n k : (n < k)%nat -> choose n k = 0.
Proof.
  revert k. induction n as [|n IH]; intros [|k] H; cbn [choose]; try lia.
  rewrite !IH by lia. reflexivity.
Qed.
Lemma choose_fact n k : (k <= n)%nat -> choose n k * (fact_z k * fact_z (n - k)) = fact_z n.
Proof.
  revert k. induction n as [|n IH]; intros [|k] H.
  - reflexivity.
  - lia.
  - cbn [choose]. replace (S n - 0)%nat with (S n) by lia. change (fact_z 0) with 1. lia.
  - cbn [choose]. replace (S n - S k)%nat with (n - k)%nat by lia.
    destruct (Nat.eq_dec k n) as [->|N].
    + rewrite (choose_zero n (S n)) by lia. pose proof (IH n ltac:(lia)) as I.
      rewrite Nat.sub_diag in *. change (fact_z 0) with 1 in *. cbn [fact_z]. nia.
    + pose proof (IH k ltac:(lia)) as I1. pose proof (IH (S k) ltac:(lia)) as I2.
      assert (fact_z (n - k) = Z.of_nat (n - k) * fact_z (n - S k)) as E.
      { replace (n - k)%nat with (S (n - S k)) at 1 2 by lia. reflexivity. }
      assert (fact_z (S k) = Z.of_nat (S k) * fact_z k) as E2 by reflexivity.
      assert (fact_z (S n) = Z.of_nat (S n) * fact_z n) as E3 by reflexivity.
      rewrite E3. rewrite Z.mul_add_distr_r.
      replace (choose n k * (fact_z (S k) * fact_z (n - k))) with (Z.of_nat (S k) * fact_z n) by (rewrite E2, <-I1; ring).
      replace (choose n (S k) * (fact_z (S k) * fact_z (n - k))) with (Z.of_nat (n - k) * fact_z n) by (rewrite E, <-I2; ring).
      rewrite <-Z.mul_add_distr_r. f_equal. lia.
Qed.

Lemma euclid_div_exact a b : 0 < b -> euclid_div (a * b) b = a.
Proof. intros H. unfold euclid_div. destruct (0 <? b) eqn:E; [|lia]. apply Z.div_mul. lia. Qed.

Lemma bang_exact c a b : 0 <= a -> 0 <= b -> (b <> 0 \/ a = 0) ->
  gives (eval_scalar c BBang (VInt a) (VInt b)) (inject_Z (choose (Z.to_nat b) (Z.to_nat a))).
Proof.
  intros Ha Hb Hz.
  change (eval_scalar c BBang (VInt a) (VInt b)) with (fn_int c BBang a b). unfold fn_int.
  destruct ((a =? 0) || (b =? 0) || (a =? b)) eqn:E1.
  - assert (choose (Z.to_nat b) (Z.to_nat a) = 1) as ->; [|apply (gives_int_v 1); lia].
    assert (a = 0 \/ a = b) as [-> | ->] by lia.
    + destruct (Z.to_nat b); reflexivity.
    + pose proof (choose_fact (Z.to_nat b) (Z.to_nat b) ltac:(lia)) as I.
      rewrite Nat.sub_diag in I. change (fact_z 0) with 1 in I. pose proof (fact_z_pos (Z.to_nat b)). nia.
  - destruct ((a <? 0) || (b <? 0) || (b <? a)) eqn:E2.
    + rewrite choose_zero by lia. apply (gives_int_v 0). lia.
    + rewrite !factorial_ok by lia. simpl.
      pose proof (choose_fact (Z.to_nat b) (Z.to_nat a) ltac:(lia)) as I.
      replace (Z.to_nat (b - a)) with (Z.to_nat b - Z.to_nat a)%nat by lia.
      pose proof (fact_z_pos (Z.to_nat a)). pose proof (fact_z_pos (Z.to_nat b - Z.to_nat a)).
      rewrite <-I.
      replace (choose (Z.to_nat b) (Z.to_nat a) * (fact_z (Z.to_nat a) * fact_z (Z.to_nat b - Z.to_nat a)))
        with (choose (Z.to_nat b) (Z.to_nat a) * fact_z (Z.to_nat b - Z.to_nat a) * fact_z (Z.to_nat a)) by ring.
      rewrite !euclid_div_exact by assumption. apply gives_big.
Qed.

(* ---- results are canonical up to the boundary ---- *)
Definition closed_bop (o : bop) : Prop :=
  match o with
  | BAdd | BSub | BMul | BQuo | BIdiv | BImod | BDiv | BMod | BLsh | BRsh | BMin | BBang
  | BEq | BNe | BLt | BLe | BGt | BGe | LAnd | LOr | LXor | LNand | LNor => True
  | _ => False
  end.
Lemma near_int z : - 2 ^ 31 <= z <= 2 ^ 31 -> near_canonical (VInt z).
Proof. auto. Qed.
Lemma near_bool b : near_canonical (to_int b).
Proof. destruct b; simpl; lia. Qed.
Lemma near_cases v : near_canonical v ->
  (exists z, v = VInt z /\ - 2 ^ 31 <= z <= 2 ^ 31) \/ (exists z, v = VBig z /\ ~ (- 2 ^ 31 < z < 2 ^ 31)) \/
  (exists q, v = VRat q /\ Qred q = q /\ Qden q <> 1%positive).
Proof. destruct v; simpl; intros H; try contradiction; [left|right; left|right; right]; eauto. Qed.

Lemma near_red q : near_canonical (shrink_rat (Qred q)).
Proof. apply shrink_rat_near, red_red. Qed.

Lemma Ok_inj {A} (a b : A) : Ok a = Ok b -> a = b.
Proof. congruence. Qed.
Ltac near_res :=
  match goal with
  | H : Ok _ = Ok _ |- _ => apply Ok_inj in H; rewrite <-H
  end;
  first [apply shrink_big_near | apply near_red | apply near_bool | apply canonical_near, maybe_big_canonical
        | assumption | (simpl; lia)].

Lemma near_fn_big c o x y v : closed_bop o -> o <> BMod -> fn_big c o x y = Ok v -> near_canonical v.
Proof.
  intros Ho Nm E. destruct o; try contradiction; unfold fn_big, logical in E; simpl in E;
    repeat match type of E with
    | bind ?m _ = _ => destruct m; simpl in E; try discriminate
    | (if ?b then _ else _) = _ => destruct b; try discriminate
    end; try discriminate; try near_res.
  injection E as <-. destruct (x <? y); apply shrink_big_near.
Qed.
Lemma near_fn_rat c o x y v : closed_bop o -> o <> BMod -> Qred x = x -> Qred y = y ->
  fn_rat c o x y = Ok v -> near_canonical v.
Proof.
  intros Ho Nm Rx Ry E. destruct o; try contradiction; unfold fn_rat, logical in E; cbn [bind to_bool] in E;
    repeat match type of E with
    | (if ?b then _ else _) = _ => destruct b; try discriminate
    end; try discriminate; try near_res.
  injection E as <-. destruct (q_cmp x y); apply shrink_rat_near; assumption.
Qed.
Lemma near_fn_int c o x y v : closed_bop o -> o <> BMod ->
  - 2 ^ 31 <= x <= 2 ^ 31 -> - 2 ^ 31 <= y <= 2 ^ 31 ->
  fn_int c o x y = Ok v -> near_canonical v.
Proof.
  intros Ho Nm Bx By E. destruct o; try contradiction; try discriminate; unfold fn_int, logical in E; cbn [to_bool bind] in E.
  - injection E as <-. destruct (x =? 0); [simpl; lia|]. destruct (y =? 0); [simpl; lia|]. apply canonical_near, maybe_big_canonical.
  - injection E as <-. destruct (y =? 0); [simpl; lia|]. apply canonical_near, maybe_big_canonical.
  - injection E as <-. destruct (_ || _); [simpl; lia|]. destruct (_ || _); [simpl; lia|]. apply canonical_near, maybe_big_canonical.
  - destruct (Z.eqb_spec y 0); [discriminate|]. injection E as <-. pose proof (quot_bound x y ltac:(assumption)).
    rewrite wrap64_id by lia. simpl. lia.
  - destruct (Z.eqb_spec y 0); [discriminate|]. injection E as <-. pose proof (Z.rem_bound_abs x y ltac:(assumption)). simpl. lia.
  - destruct (_ || _); [injection E as <-; simpl; lia|]. destruct (_ || _); [injection E as <-; simpl; lia|].
    destruct (factorial x); try discriminate. destruct (factorial y); try discriminate.
    destruct (factorial (y - x)); try discriminate. simpl in E. near_res.
  - near_res.
  - near_res.
  - near_res.
  - near_res.
  - near_res.
  - near_res.
  - near_res.
  - near_res.
  - near_res.
  - near_res.
  - near_res.
  - injection E as <-. destruct (x <? y); simpl; lia.
Qed.

Lemma quorem_nz a b : (forall z, shrink_real b <> VInt z \/ z <> 0) ->
  quorem a b =
    match arith_type (ty a) (ty b) with
    | TInt => match a, b with VInt x, VInt y => Ok (quorem_int x y) | _, _ => Err end
    | TBig => let! a' := to_type TBig a in let! b' := to_type TBig b in
              match a', b' with
              | VBig x, VBig y => Ok (shrink_big (euclid_div x y), shrink_big (euclid_mod x y))
              | _, _ => Err end
    | TRat => let! a' := to_type TRat a in let! b' := to_type TRat b in
              match a', b' with VRat x, VRat y => Ok (quorem_rat x y) | _, _ => Err end
    | _ => Err
    end.
Proof.
  intros H. unfold quorem. destruct (shrink_real b) as [[| |]| | | | | |]; try reflexivity.
  destruct (H 0); congruence.
Qed.
Lemma quorem_z a b : shrink_real b = VInt 0 -> quorem a b = Ok (vzero, a).
Proof. intros H. unfold quorem. rewrite H. reflexivity. Qed.

Lemma near_mod_big x y v : (y = 0 -> near_canonical (VBig x)) -> fn_big (mkConf 0 0) BMod x y = Ok v -> near_canonical v.
Proof.
  intros N E. cbn [fn_big] in E. destruct (Z.eq_dec y 0) as [->|NZ].
  - rewrite quorem_z in E by reflexivity. injection E as <-. auto.
  - rewrite quorem_nz in E.
    + injection E as <-. apply shrink_big_near.
    + intros z. simpl. unfold shrink_big. destruct (_ <? _); [|left; discriminate].
      destruct (Z.eq_dec z 0) as [->|]; [left; congruence|right; assumption].
Qed.
Lemma near_mod_rat x y v : (y = inject_Z 0 -> near_canonical (VRat x)) -> Qred y = y -> fn_rat (mkConf 0 0) BMod x y = Ok v -> near_canonical v.
Proof.
  intros N R E. cbn [fn_rat] in E. destruct (Qeq_dec y 0) as [Z0|NZ].
  - apply Qnum0 in Z0. assert (Qnum y = 0) as Q0 by lia. apply red_num0 in Q0; [|assumption]. subst y.
    rewrite quorem_z in E by reflexivity. injection E as <-. auto.
  - destruct (quorem_rat_spec x y NZ) as (k & r & Eq & Rr & _).
    rewrite quorem_nz in E.
    + cbn [arith_type ty rank_ty Z.ltb Z.compare to_type bind Pos.compare Pos.compare_cont] in E. rewrite Eq in E. injection E as <-.
      apply shrink_rat_near, Rr.
    + intros z. simpl. unfold shrink_rat. destruct (Pos.eqb (Qden y) 1) eqn:D; [|left; discriminate].
      unfold shrink_big. destruct (_ <? _); [|left; discriminate].
      destruct (Z.eq_dec z 0) as [->|]; [left|right; assumption].
      intros H. apply NZ. apply Qnum0. injection H. lia.
Qed.
Lemma near_ok c o a b v : closed_bop o -> near_canonical a -> near_canonical b ->
  eval_scalar c o a b = Ok v -> near_canonical v.
Proof.
  intros Ho Na Nb E.
  assert (o = BMod \/ o <> BMod) as [-> | Nm] by (destruct o; auto; right; discriminate).
  - destruct (near_cases a Na) as [(x & -> & Bx)|[(x & -> & Bx)|(x & -> & Rx & Dx)]];
    destruct (near_cases b Nb) as [(y & -> & By)|[(y & -> & By)|(y & -> & Ry & Dy)]].
    + change ((let! p := quorem (VInt x) (VInt y) in Ok (snd p)) = Ok v) in E.
      destruct (Z.eq_dec y 0) as [->|NZ]; [injection E as <-; assumption|].
      rewrite quorem_nz in E by (intros z; simpl; destruct (Z.eq_dec z 0) as [->|]; [left; congruence|right; assumption]).
      cbn [arith_type ty rank_ty Z.ltb Z.compare bind] in E.
      destruct (quorem_int_spec x y) as (E2 & _ & B); [assumption..|]. rewrite E2 in E. injection E as <-. exact B.
    + apply (near_mod_big x y v); [intros ->; lia|exact E].
    + apply (near_mod_rat (inject_Z x) y v); [intros ->; contradiction|assumption|exact E].
    + apply (near_mod_big x y v); [intros; exact Na|exact E].
    + apply (near_mod_big x y v); [intros ->; lia|exact E].
    + apply (near_mod_rat (inject_Z x) y v); [intros ->; contradiction|assumption|exact E].
    + apply (near_mod_rat x (inject_Z y) v); [intros; exact Na|apply red_inject|exact E].
    + apply (near_mod_rat x (inject_Z y) v); [intros; exact Na|apply red_inject|exact E].
    + apply (near_mod_rat x y v); [intros; exact Na|assumption|exact E].
  - destruct (near_cases a Na) as [(x & -> & Bx)|[(x & -> & Bx)|(x & -> & Rx & Dx)]];
    destruct (near_cases b Nb) as [(y & -> & By)|[(y & -> & By)|(y & -> & Ry & Dy)]].
    + destruct o; try contradiction;
        first [ eapply (near_fn_int c _ x y v Ho Nm Bx By E)
              | eapply (near_fn_big c _ x y v Ho Nm E)
              | eapply (near_fn_rat c _ (inject_Z x) (inject_Z y) v Ho Nm (red_inject x) (red_inject y) E) ].
    + destruct o; try contradiction;
        first [ eapply (near_fn_big c _ x y v Ho Nm E)
              | eapply (near_fn_rat c _ (inject_Z x) (inject_Z y) v Ho Nm (red_inject x) (red_inject y) E) ].
    + destruct o; try contradiction; try discriminate;
      eapply (near_fn_rat c _ (inject_Z x) y v Ho Nm (red_inject x) Ry E).
    + destruct o; try contradiction;
        first [ eapply (near_fn_big c _ x y v Ho Nm E)
              | eapply (near_fn_rat c _ (inject_Z x) (inject_Z y) v Ho Nm (red_inject x) (red_inject y) E) ].
    + destruct o; try contradiction;
        first [ eapply (near_fn_big c _ x y v Ho Nm E)
              | eapply (near_fn_rat c _ (inject_Z x) (inject_Z y) v Ho Nm (red_inject x) (red_inject y) E) ].
    + destruct o; try contradiction; try discriminate;
      eapply (near_fn_rat c _ (inject_Z x) y v Ho Nm (red_inject x) Ry E).
    + destruct o; try contradiction; try discriminate;
      eapply (near_fn_rat c _ x (inject_Z y) v Ho Nm Rx (red_inject y) E).
    + destruct o; try contradiction; try discriminate;
      eapply (near_fn_rat c _ x (inject_Z y) v Ho Nm Rx (red_inject y) E).
    + destruct o; try contradiction; try discriminate;
      eapply (near_fn_rat c _ x y v Ho Nm Rx Ry E).
Qed.

(* ---- whole expressions ---- *)
Lemma canonical_valid v : canonical v -> valid v.
Proof. intros H. apply near_valid, canonical_near, H. Qed.

Lemma floor_unique x k : (inject_Z k <= x)%Q -> (x < inject_Z k + 1)%Q -> Qfloor x = k.
Proof.
  intros H1 H2. pose proof (Qfloor_le x) as F1. pose proof (Qlt_floor x) as F2.
  assert (inject_Z k < inject_Z (Qfloor x + 1))%Q as A by lra.
  assert (inject_Z (Qfloor x) < inject_Z (k + 1))%Q as B.
  { rewrite inject_Z_plus. change (inject_Z 1) with 1%Q. lra. }
  rewrite <-Zlt_Qlt in A, B. lia.
Qed.
Lemma ceil_unique x k : (x <= inject_Z k)%Q -> (inject_Z k - 1 < x)%Q -> Qceiling x = k.
Proof.
  intros H1 H2. pose proof (Qle_ceiling x) as F1. pose proof (Qceiling_lt x) as F2.
  assert (inject_Z (Qceiling x - 1) < inject_Z k)%Q as A by lra.
  assert (inject_Z (k - 1) < inject_Z (Qceiling x))%Q as B.
  { unfold Z.sub. rewrite inject_Z_plus. change (inject_Z (- (1))) with (-(1))%Q. lra. }
  rewrite <-Zlt_Qlt in A, B. lia.
Qed.

Lemma gives_val r q v x : gives r q -> r = Ok v -> numval v = Some x -> (x == q)%Q.
Proof. intros (v' & x' & E & _ & N & Q) E' N'. congruence. Qed.

Definition err_or (c : conf) (r : res value) (q : Q) : Prop := gives r q \/ (r = Err /\ maxbits c <> 0).

Lemma bop_exact c o a b x y : arith_bop o -> valid a -> valid b -> numval a = Some x -> numval b = Some y ->
  match sem_bop o x y with
  | Some q => err_or c (eval_scalar c o a b) q
  | None => eval_scalar c o a b = Err
  end.
Proof.
  intros Ho Va Vb Ha Hb. destruct o; try contradiction; cbn [sem_bop].
  - destruct (add_exact c a b x y Va Vb Ha Hb) as [G|(E & M & _)]; [left|right]; auto.
  - destruct (sub_exact c a b x y Va Vb Ha Hb) as [G|(E & M & _)]; [left|right]; auto.
  - destruct (mul_exact c a b x y Va Vb Ha Hb) as [G|(E & M & _)]; [left|right]; auto.
  - destruct (quo_exact c a b x y Va Vb Ha Hb) as [(N & G)|(Z0 & E)].
    + destruct (Qeq_bool y 0) eqn:B; [apply Qeq_bool_iff in B; contradiction|]. left. exact G.
    + apply Qeq_bool_iff in Z0. rewrite Z0. exact E.
  - left. destruct (min_exact c a b x y Va Vb Ha Hb) as (z & G & D & L).
    eapply gives_eq; [exact G|]. destruct (Qle_bool x y) eqn:B.
    + apply Qle_bool_iff in B. lra.
    + assert (~ (x <= y)%Q) by (rewrite <-Qle_bool_iff; congruence). lra.
  - left. destruct (max_exact c a b x y Va Vb Ha Hb) as (z & G & D & L).
    eapply gives_eq; [exact G|]. destruct (Qle_bool x y) eqn:B.
    + apply Qle_bool_iff in B. lra.
    + assert (~ (x <= y)%Q) by (rewrite <-Qle_bool_iff; congruence). lra.
Qed.

Lemma uop_exact c o a x : arith_uop o -> valid a -> numval a = Some x ->
  match sem_uop o x with
  | Some q => gives (eval_unary_scalar c o a) q
  | None => eval_unary_scalar c o a = Err
  end.
Proof.
  intros Ho Va Ha. destruct o; try contradiction; cbn [sem_uop].
  - assert (eval_unary_scalar c UPlus a = Ok a) as -> by (onecase Ha Va; reflexivity). apply gives_self; assumption.
  - apply neg_exact; assumption.
  - destruct (inv_exact c a x Va Ha) as [(Z0 & E)|(N & G)].
    + apply Qeq_bool_iff in Z0. rewrite Z0. exact E.
    + destruct (Qeq_bool x 0) eqn:B; [apply Qeq_bool_iff in B; contradiction|]. exact G.
  - destruct (sgn_exact c a x Va Ha) as [(L & E)|[(L & E)|(L & E)]]; rewrite E;
      [apply Qnum_lt in L; replace (Z.sgn (Qnum x)) with (-1) by lia; apply (gives_int_v (-1)); lia
      |apply Qnum0 in L; replace (Z.sgn (Qnum x)) with 0 by lia; apply (gives_int_v 0); lia
      |replace (Z.sgn (Qnum x)) with 1; [apply (gives_int_v 1); lia|unfold Qlt in L; simpl in L; lia]].
  - apply abs_exact; assumption.
  - destruct (floor_exact c a x Va Ha) as (k & G & A & B). rewrite (floor_unique x k A B). exact G.
  - destruct (ceil_exact c a x Va Ha) as (k & G & A & B). rewrite (ceil_unique x k A B). exact G.
Qed.

Lemma Qeq_bool_comp x y x' y' : (x == x')%Q -> (y == y')%Q -> Qeq_bool x y = Qeq_bool x' y'.
Proof. intros Hx Hy. apply eq_true_iff_eq. rewrite !Qeq_bool_iff, Hx, Hy. reflexivity. Qed.
Lemma Qle_bool_comp' x y x' y' : (x == x')%Q -> (y == y')%Q -> Qle_bool x y = Qle_bool x' y'.
Proof. intros Hx Hy. apply eq_true_iff_eq. rewrite !Qle_bool_iff, Hx, Hy. reflexivity. Qed.
Lemma sem_bop_comp o x y x' y' : (x == x')%Q -> (y == y')%Q ->
  match sem_bop o x y, sem_bop o x' y' with
  | Some p, Some q => (p == q)%Q | None, None => True | _, _ => False end.
Proof.
  intros Hx Hy. destruct o; simpl; try exact I; try (rewrite Hx, Hy; reflexivity).
  - rewrite (Qeq_bool_comp y 0 y' 0 Hy (Qeq_refl _)). destruct (Qeq_bool y' 0); [exact I|]. rewrite Hx, Hy. reflexivity.
  - rewrite (Qle_bool_comp' x y x' y' Hx Hy). destruct (Qle_bool x' y'); assumption.
  - rewrite (Qle_bool_comp' x y x' y' Hx Hy). destruct (Qle_bool x' y'); assumption.
Qed.
Lemma sem_uop_comp o x x' : (x == x')%Q ->
  match sem_uop o x, sem_uop o x' with
  | Some p, Some q => (p == q)%Q | None, None => True | _, _ => False end.
Proof.
  intros Hx. destruct o; simpl; try exact I; try (rewrite Hx; reflexivity).
  - rewrite (Qeq_bool_comp x 0 x' 0 Hx (Qeq_refl _)). destruct (Qeq_bool x' 0); [exact I|]. rewrite Hx. reflexivity.
  - unfold Qeq in Hx. assert (Z.sgn (Qnum x) = Z.sgn (Qnum x')) as ->; [|reflexivity]. nia.
Qed.

Lemma run_aexp_exact c e : arith_aexp e ->
  match sem_aexp e with
  | Some q => err_or c (run_aexp c e) q
  | None => run_aexp c e = Err
  end.
Proof.
  induction e as [v|o a IHa b IHb|o a IHa]; cbn [arith_aexp sem_aexp run_aexp].
  - intros H. pose proof (canonical_valid v H) as V. destruct v; try contradiction; left; apply gives_self; auto.
  - intros (Ho & Ha & Hb). specialize (IHa Ha). specialize (IHb Hb).
    destruct (sem_aexp a) as [x|], (sem_aexp b) as [y|].
    + destruct IHb as [(vb & yb & -> & Vb & Nb & Eb)|(-> & M)]; cbn [bind].
      2:{ destruct (sem_bop o x y); [right; auto|reflexivity]. }
      destruct IHa as [(va & xa & -> & Va & Na & Ea)|(-> & M)]; cbn [bind].
      2:{ destruct (sem_bop o x y); [right; auto|reflexivity]. }
      pose proof (bop_exact c o va vb xa yb Ho Va Vb Na Nb) as B.
      pose proof (sem_bop_comp o xa yb x y Ea Eb) as C.
      destruct (sem_bop o xa yb), (sem_bop o x y); try contradiction; [|exact B].
      destruct B as [B|B]; [left; eapply gives_eq; eassumption|right; exact B].
    + rewrite IHb. reflexivity.
    + destruct IHb as [(vb & yb & -> & _)|(-> & _)]; cbn [bind]; [rewrite IHa|]; reflexivity.
    + rewrite IHb. reflexivity.
  - intros (Ho & Ha). specialize (IHa Ha). destruct (sem_aexp a) as [x|].
    + destruct IHa as [(va & xa & -> & Va & Na & Ea)|(-> & M)]; cbn [bind].
      2:{ destruct (sem_uop o x); [right; auto|reflexivity]. }
      pose proof (uop_exact c o va xa Ho Va Na) as B. pose proof (sem_uop_comp o xa x Ea) as C.
      destruct (sem_uop o xa), (sem_uop o x); try contradiction; [|exact B].
      left. eapply gives_eq; eassumption.
    + rewrite IHa. reflexivity.
Qed.

(* Proofs about the scalar operators, continued: division, rounding, order. *)
From Verif Require Import Value NumModel NumSpec NumProofs.
From Coq Require Import QArith Qreduction Qround Qabs ZifyBool Lqa.
Open Scope Z_scope.
Ltac Zify.zify_post_hook ::= Z.div_mod_to_equations.

Lemma gives_int_gives r z : gives r (inject_Z z) -> exists v, r = Ok v /\ numval v <> None.
Proof. intros (v & x & -> & _ & H & _). exists v. split; [reflexivity|congruence]. Qed.

(* ---- integer quotients ---- *)
Lemma euclid_div_spec x y : y <> 0 -> x = euclid_div x y * y + euclid_mod x y /\ 0 <= euclid_mod x y < Z.abs y.
Proof. intros H. unfold euclid_div, euclid_mod. destruct (0 <? y) eqn:E; [replace (Z.abs y) with y by lia|replace (Z.abs y) with (- y) by lia]; nia. Qed.

Lemma euclid_unique x y q r q' r' : y <> 0 -> x = q * y + r -> 0 <= r < Z.abs y ->
  x = q' * y + r' -> 0 <= r' < Z.abs y -> q = q' /\ r = r'.
Proof.
  intros Hy H1 H2 H3 H4. assert ((q - q') * y = r' - r) as E by lia.
  assert (q - q' = 0) as D; [|split; [lia|]].
  - destruct (Z.eq_dec (q - q') 0) as [|N]; [assumption|exfalso].
    assert (Z.abs y <= Z.abs ((q - q') * y)); [|lia]. rewrite Z.abs_mul. nia.
  - rewrite D in E. lia.
Qed.

Lemma quorem_int_spec x y : y <> 0 -> - 2 ^ 31 <= x <= 2 ^ 31 -> - 2 ^ 31 <= y <= 2 ^ 31 ->
  quorem_int x y = (VInt (euclid_div x y), VInt (euclid_mod x y)) /\
  - 2 ^ 31 <= euclid_div x y <= 2 ^ 31 /\ - 2 ^ 31 <= euclid_mod x y <= 2 ^ 31.
Proof.
  intros Hy Bx By. destruct (euclid_div_spec x y Hy) as [E1 E2].
  set (q := euclid_div x y) in *. set (r := euclid_mod x y) in *.
  assert (- 2 ^ 31 <= q <= 2 ^ 31) as Bq.
  { assert (Z.abs q <= 2 ^ 31); [|lia].
    assert (Z.abs (q * y) <= Z.abs x + Z.abs r) by lia.
    destruct (Z.eq_dec q 0); [lia|].
    rewrite Z.abs_mul in *. destruct (Z.eq_dec (Z.abs y) 1); [nia|].
    assert (2 <= Z.abs y) by lia. nia. }
  split; [|split; [exact Bq|lia]].
  unfold quorem_int.
  set (X := if x <? 0 then - x else x). set (Y := if y <? 0 then - y else y).
  assert (X = Z.abs x) as HX by (unfold X; destruct (x <? 0) eqn:?; lia).
  assert (Y = Z.abs y) as HY by (unfold Y; destruct (y <? 0) eqn:?; lia).
  rewrite HX, HY. clear X Y HX HY.
  rewrite Z.quot_div_nonneg, Z.rem_mod_nonneg by lia.
  pose proof (Z.div_mod (Z.abs x) (Z.abs y) ltac:(lia)) as D.
  pose proof (Z.mod_pos_bound (Z.abs x) (Z.abs y) ltac:(lia)) as M.
  set (d := Z.abs x / Z.abs y) in *. set (m := Z.abs x mod Z.abs y) in *.
  destruct (x <? 0) eqn:Ex; simpl.
  - destruct (m =? 0) eqn:Em; simpl; destruct (y <? 0) eqn:Ey; simpl;
      match goal with |- (VInt ?a, VInt ?b) = _ =>
        destruct (euclid_unique x y a b q r Hy) as [-> ->]; try reflexivity; try lia end;
      rewrite (Z.abs_neq x) in D by lia;
      rewrite ?(Z.abs_neq y) in * by lia; rewrite ?(Z.abs_eq y) in * by lia; lia.
  - destruct (y <? 0) eqn:Ey; simpl;
      match goal with |- (VInt ?a, VInt ?b) = _ =>
        destruct (euclid_unique x y a b q r Hy) as [-> ->]; try reflexivity; try lia end;
      rewrite (Z.abs_eq x) in D by lia;
      rewrite ?(Z.abs_neq y) in * by lia; rewrite ?(Z.abs_eq y) in * by lia; lia.
Qed.

(* x div y for integers. *)
Lemma div_int c a b x y : valid a -> valid b -> intval a = Some x -> intval b = Some y ->
  (y = 0 /\ eval_scalar c BDiv a b = Err) \/
  (y <> 0 /\ exists q r, gives (eval_scalar c BDiv a b) (inject_Z q) /\ x = q * y + r /\ 0 <= r < Z.abs y).
Proof.
  intros Va Vb Ha Hb.
  assert (eval_scalar c BDiv a b = if y =? 0 then Err else Ok (shrink_big (euclid_div x y))) as ->.
  { destruct a, b; inversion Ha; inversion Hb; subst; reflexivity. }
  destruct (y =? 0) eqn:E; [left|right]; (split; [lia|]); [reflexivity|].
  exists (euclid_div x y), (euclid_mod x y). split; [apply gives_big|]. apply euclid_div_spec. lia.
Qed.

(* ---- rational quotient and remainder ---- *)
Lemma frac_split q : exists f, (q == inject_Z (Z.quot (Qnum q) (Zpos (Qden q))) + f)%Q /\
  (0 <= Qnum q -> (0 <= f)%Q /\ (f < 1)%Q).
Proof.
  destruct q as [n d]. simpl. exists ((Z.rem n (Zpos d)) # d). split.
  - unfold Qeq, inject_Z, Qplus. simpl. rewrite !Z.mul_1_r.
    pose proof (Z.quot_rem' n (Zpos d)) as E.
    revert E. generalize (Z.quot n (Zpos d)) (Z.rem n (Zpos d)). intros q r E. rewrite E. ring.
  - intros Hn. pose proof (Z.rem_bound_pos n (Zpos d) Hn ltac:(lia)). unfold Qle, Qlt. simpl. lia.
Qed.

Lemma Qnum_lt q : (Qnum q <? 0) = true <-> (q < 0)%Q.
Proof. unfold Qlt. simpl. split; intros; lia. Qed.
Lemma Qnum_nlt q : (Qnum q <? 0) = false <-> (0 <= q)%Q.
Proof. unfold Qle. simpl. split; intros; lia. Qed.


Lemma quorem_rat_spec x y : ~ (y == 0)%Q ->
  exists k r, quorem_rat x y = (shrink_big k, shrink_rat r) /\ Qred r = r /\ euclid_q x y k r.
Proof.
  intros Hy. unfold quorem_rat.
  set (X := if Qnum x <? 0 then Qopp x else x). set (Y := if Qnum y <? 0 then Qopp y else y).
  assert (0 <= X)%Q as PX.
  { unfold X. destruct (Qnum x <? 0) eqn:E; [apply Qnum_lt in E|apply Qnum_nlt in E]; lra. }
  assert (0 < Y)%Q as PY.
  { unfold Y. destruct (Qnum y <? 0) eqn:E; [apply Qnum_lt in E|apply Qnum_nlt in E].
    - lra.
    - destruct (Qlt_le_dec 0 y); [assumption|]. exfalso. apply Hy. lra. }
  assert (Qabs y == Y)%Q as AY.
  { unfold Y. destruct (Qnum y <? 0) eqn:E; [apply Qnum_lt in E|apply Qnum_nlt in E].
    - rewrite Qabs_neg by lra. reflexivity.
    - rewrite Qabs_pos by lra. reflexivity. }
  set (quo := Qred (X / Y)). set (iq := Z.quot (Qnum quo) (Zpos (Qden quo))).
  destruct (frac_split quo) as (f & Ef & Bf). fold iq in Ef.
  assert (quo == X / Y)%Q as Hquo by apply Qred_correct.
  assert (X == quo * Y)%Q as HX. { rewrite Hquo. field. lra. }
  destruct Bf as [Bf1 Bf2].
  { assert (0 <= quo)%Q as P. { rewrite Hquo. apply Qle_shift_div_l; [assumption|]. lra. }
    unfold Qle in P. simpl in P. lia. }
  set (rem := Qred (Qred (quo - inject_Z iq) * Y)).
  assert (rem == f * Y)%Q as Hrem.
  { unfold rem. rewrite !Qred_correct. rewrite Ef. ring. }
  assert (0 <= f * Y)%Q as R0 by (apply Qmult_le_0_compat; lra).
  assert (f * Y < Y)%Q as R1.
  { setoid_replace Y with (1 * Y)%Q at 2 by ring. apply Qmult_lt_compat_r; lra. }
  assert (X == inject_Z iq * Y + rem)%Q as HX2. { rewrite HX, Ef, Hrem. ring. }
  destruct (Qnum x <? 0) eqn:Ex; simpl.
  - destruct (Qnum rem =? 0) eqn:Er; simpl.
    + exists (if xorb true (Qnum y <? 0) then - iq else iq), rem.
      split; [reflexivity|]. split; [apply red_red|].
      apply Qnum0 in Er. unfold euclid_q. rewrite AY. split; [|lra].
      unfold X in HX2. unfold Y in HX2.
      destruct (Qnum y <? 0) eqn:Ey; simpl; rewrite ?inject_Z_opp; lra.
    + exists (if xorb true (Qnum y <? 0) then - (iq + 1) else iq + 1), (Qred (Y - rem)).
      split; [reflexivity|]. split; [apply red_red|].
      assert (~ (rem == 0)%Q) as Er'. { rewrite <-Qnum0. congruence. }
      assert (0 < rem)%Q.
      { destruct (Qlt_le_dec 0 rem); [assumption|]. exfalso. apply Er'. lra. }
      unfold euclid_q. rewrite AY, Qred_correct. split; [|split; lra].
      unfold X in HX2. unfold Y in HX2 |- *.
      destruct (Qnum y <? 0) eqn:Ey; simpl; rewrite ?inject_Z_opp, ?inject_Z_plus; change (inject_Z 1) with 1%Q; lra.
  - exists (if xorb false (Qnum y <? 0) then - iq else iq), rem.
    split; [reflexivity|]. split; [apply red_red|].
    unfold euclid_q. rewrite AY. split; [|lra].
    unfold X in HX2. unfold Y in HX2.
    destruct (Qnum y <? 0) eqn:Ey; simpl; rewrite ?inject_Z_opp; lra.
Qed.

Lemma Qabs_inject z : (Qabs (inject_Z z) == inject_Z (Z.abs z))%Q.
Proof. reflexivity. Qed.
Lemma injq_le a b : a <= b -> (inject_Z a <= inject_Z b)%Q.
Proof. rewrite <-Zle_Qle. auto. Qed.
Lemma injq_lt a b : a < b -> (inject_Z a < inject_Z b)%Q.
Proof. rewrite <-Zlt_Qlt. auto. Qed.
Lemma injq_eq a b : (inject_Z a == inject_Z b)%Q <-> a = b.
Proof. apply inject_Z_injective. Qed.

Lemma euclid_q_int x y : y <> 0 -> euclid_q (inject_Z x) (inject_Z y) (euclid_div x y) (inject_Z (euclid_mod x y)).
Proof.
  intros H. destruct (euclid_div_spec x y H) as [E1 E2]. unfold euclid_q.
  rewrite Qabs_inject, <-inject_Z_mult, <-inject_Z_plus. split; [apply injq_eq; exact E1|].
  split; [change 0%Q with (inject_Z 0); apply injq_le; lia|apply injq_lt; lia].
Qed.

Lemma shrink_real_zero b y : numval b = Some y -> valid b ->
  (shrink_real b = VInt 0 <-> (y == 0)%Q).
Proof.
  intros Hb Vb. destruct (numval_cases _ _ Hb Vb) as [(z & -> & -> & _)|[(z & -> & ->)|(-> & R & D)]]; simpl.
  - change 0%Q with (inject_Z 0). rewrite injq_eq. split; [intros E; inversion E; reflexivity|intros ->; reflexivity].
  - change 0%Q with (inject_Z 0). rewrite injq_eq. unfold shrink_big. destruct (_ <? _) eqn:E.
    + split; [intros E'; inversion E'; reflexivity|intros ->; reflexivity].
    + split; [discriminate|]. intros ->. discriminate.
  - unfold shrink_rat. destruct (Pos.eqb_spec (Qden y) 1); [contradiction|].
    split; [discriminate|]. intros E. exfalso. apply D.
    assert (Qnum y = 0) by (apply Qnum0 in E; lia).
    apply red_num0 in H; [|assumption]. rewrite H. reflexivity.
Qed.

(* x mod y *)
Lemma mod_exact c a b x y : valid a -> valid b -> numval a = Some x -> numval b = Some y ->
  ((y == 0)%Q /\ gives (eval_scalar c BMod a b) x) \/
  (~ (y == 0)%Q /\ exists k r, gives (eval_scalar c BMod a b) r /\ euclid_q x y k r).
Proof.
  intros Va Vb Ha Hb.
  destruct (Qeq_dec y 0) as [Z0|NZ]; [left|right]; (split; [assumption|]).
  - destruct (numval_cases _ _ Ha Va) as [(x0 & -> & -> & ?)|[(x0 & -> & ->)|(-> & Ra & Da)]];
    destruct (numval_cases _ _ Hb Vb) as [(y0 & -> & -> & ?)|[(y0 & -> & ->)|(-> & Rb & Db)]];
      try (apply (proj1 (injq_eq _ 0)) in Z0; subst y0);
      try (exfalso; apply Db; apply Qnum0 in Z0;
           assert (Qnum y = 0) as N0 by lia; apply red_num0 in N0; [|assumption]; rewrite N0; reflexivity).
    + change (gives (Ok (VInt x0)) (inject_Z x0)). apply gives_int_v. assumption.
    + change (gives (Ok (VBig x0)) (inject_Z x0)). exists (VBig x0), (inject_Z x0). repeat split; reflexivity.
    + change (gives (Ok (VBig x0)) (inject_Z x0)). exists (VBig x0), (inject_Z x0). repeat split; reflexivity.
    + change (gives (Ok (VBig x0)) (inject_Z x0)). exists (VBig x0), (inject_Z x0). repeat split; reflexivity.
    + change (gives (Ok (VRat x)) x). exists (VRat x), x. repeat split; auto. 
    + change (gives (Ok (VRat x)) x). exists (VRat x), x. repeat split; auto. 
  - assert (forall x y, y <> 0 -> quorem (VBig x) (VBig y) = Ok (shrink_big (euclid_div x y), shrink_big (euclid_mod x y))) as QB.
    { intros x' y' Hy'. unfold quorem. destruct (shrink_real (VBig y')) as [[| |]| | | | | |] eqn:E; try reflexivity.
      exfalso. apply Hy'. pose proof (shrink_real_zero (VBig y') (inject_Z y') eq_refl I) as [S _].
      specialize (S E). apply (proj1 (injq_eq _ 0)) in S. assumption. }
    assert (forall x y, ~ (y == 0)%Q -> quorem (VRat x) (VRat y) = Ok (quorem_rat x y)) as QR.
    { intros x' y' Hy'. unfold quorem. destruct (shrink_real (VRat y')) as [[| |]| | | | | |] eqn:E; try reflexivity.
      exfalso. apply Hy'. simpl in E. unfold shrink_rat in E. destruct (Pos.eqb_spec (Qden y') 1) as [E1|]; [|discriminate].
      unfold shrink_big in E. destruct (_ <? _); [|discriminate]. injection E as E2.
      unfold Qeq. simpl. lia. }
    assert (forall x y, ~ (y == 0)%Q -> exists k r,
      gives (let! p := quorem (VRat x) (VRat y) in Ok (snd p)) r /\ euclid_q x y k r) as GR.
    { intros x' y' Hy'. rewrite QR by assumption. destruct (quorem_rat_spec x' y' Hy') as (k & r & E & Rr & EQ).
      exists k, r. rewrite E. split; [|assumption]. simpl.
      exists (shrink_rat r), r. split; [reflexivity|]. split; [apply near_valid, shrink_rat_near, Rr|].
      split; [apply shrink_rat_val|reflexivity]. }
    assert (forall x y, y <> 0 -> exists k r,
      gives (let! p := quorem (VBig x) (VBig y) in Ok (snd p)) r /\ euclid_q (inject_Z x) (inject_Z y) k r) as GB.
    { intros x' y' Hy'. rewrite QB by assumption. exists (euclid_div x' y'), (inject_Z (euclid_mod x' y')).
      split; [apply gives_big|]. apply euclid_q_int, Hy'. }
    destruct (numval_cases _ _ Ha Va) as [(x0 & -> & -> & ?)|[(x0 & -> & ->)|(-> & Ra & Da)]];
    destruct (numval_cases _ _ Hb Vb) as [(y0 & -> & -> & ?)|[(y0 & -> & ->)|(-> & Rb & Db)]];
      try (exact (GR _ _ NZ));
      try (assert (y0 <> 0) as NZ' by (intros ->; apply NZ; reflexivity); exact (GB _ _ NZ')).
    assert (y0 <> 0) as NZ' by (intros ->; apply NZ; reflexivity).
    destruct (quorem_int_spec x0 y0) as (E & B1 & B2); [assumption..|].
    exists (euclid_div x0 y0), (inject_Z (euclid_mod x0 y0)). split; [|apply euclid_q_int; assumption].
    change (gives (let! p := quorem (VInt x0) (VInt y0) in Ok (snd p)) (inject_Z (euclid_mod x0 y0))).
    assert (quorem (VInt x0) (VInt y0) = Ok (quorem_int x0 y0)) as ->.
    { unfold quorem. simpl. destruct y0; try reflexivity. contradiction. }
    rewrite E. simpl. apply gives_int_v. assumption.
Qed.

(* ---- truncated quotient and remainder ---- *)
Lemma trunc_quot x y : y <> 0 -> trunc x y (Z.quot x y) (Z.rem x y).
Proof.
  intros H. unfold trunc. pose proof (Z.quot_rem' x y). pose proof (Z.rem_bound_abs x y H).
  pose proof (Z.rem_sign_mul x y H). repeat split; try lia.
  rewrite Z.mul_comm, Z.abs_mul, Z.quot_abs, Z.mul_comm in * || idtac.
  assert (Z.abs (y * (x ÷ y)) <= Z.abs x); [|rewrite Z.mul_comm; assumption].
  destruct (Z.le_gt_cases 0 x).
  - pose proof (Z.mul_quot_le x y ltac:(lia) H). lia.
  - pose proof (Z.mul_quot_ge x y ltac:(lia) H). lia.
Qed.

Lemma quot_bound x y : y <> 0 -> Z.abs (Z.quot x y) <= Z.abs x.
Proof. intros H. destruct (trunc_quot x y H) as (_ & _ & _ & B). rewrite Z.abs_mul in B. nia. Qed.

Lemma idiv_exact c a b x y : valid a -> valid b -> intval a = Some x -> intval b = Some y ->
  (y = 0 /\ eval_scalar c BIdiv a b = Err /\ eval_scalar c BImod a b = Err) \/
  (y <> 0 /\ exists q r, gives (eval_scalar c BIdiv a b) (inject_Z q) /\
     gives (eval_scalar c BImod a b) (inject_Z r) /\ trunc x y q r).
Proof.
  intros Va Vb Ha Hb.
  destruct (Z.eq_dec y 0) as [->|Hy]; [left|right]; (split; [auto|]).
  - destruct a, b; inversion Ha; inversion Hb; subst; split; reflexivity.
  - exists (Z.quot x y), (Z.rem x y). apply Z.eqb_neq in Hy as Hy'.
    destruct a as [xa| |xa| | | |], b as [yb| |yb| | | |]; inversion Ha; inversion Hb; subst;
      (split; [|split; [|apply trunc_quot; assumption]]).
    + change (gives (if y =? 0 then Err else Ok (VInt (wrap64 (Z.quot x y)))) (inject_Z (Z.quot x y))).
      rewrite Hy'. simpl in Va, Vb. pose proof (quot_bound x y Hy).
      rewrite wrap64_id by lia. apply gives_int_v. lia.
    + change (gives (if y =? 0 then Err else Ok (VInt (Z.rem x y))) (inject_Z (Z.rem x y))).
      rewrite Hy'. apply gives_int_v. simpl in Va, Vb. pose proof (Z.rem_bound_abs x y Hy). lia.
    + change (gives (if y =? 0 then Err else Ok (shrink_big (Z.quot x y))) (inject_Z (Z.quot x y))).
      rewrite Hy'. apply gives_big.
    + change (gives (if y =? 0 then Err else Ok (shrink_big (Z.rem x y))) (inject_Z (Z.rem x y))).
      rewrite Hy'. apply gives_big.
    + change (gives (if y =? 0 then Err else Ok (shrink_big (Z.quot x y))) (inject_Z (Z.quot x y))).
      rewrite Hy'. apply gives_big.
    + change (gives (if y =? 0 then Err else Ok (shrink_big (Z.rem x y))) (inject_Z (Z.rem x y))).
      rewrite Hy'. apply gives_big.
    + change (gives (if y =? 0 then Err else Ok (shrink_big (Z.quot x y))) (inject_Z (Z.quot x y))).
      rewrite Hy'. apply gives_big.
    + change (gives (if y =? 0 then Err else Ok (shrink_big (Z.rem x y))) (inject_Z (Z.rem x y))).
      rewrite Hy'. apply gives_big.
Qed.

(* ---- comparisons ---- *)
Lemma cmp_truth o x y : is_cmp o -> truth (Ok (to_int (cmp_op o (q_cmp x y)))) (cmp_rel o x y).
Proof.
  intros Ho. unfold q_cmp, truth. destruct (Qcompare_spec x y) as [E|E|E]; destruct o; try contradiction; simpl;
    ((left; split; [lra|reflexivity]) || (right; split; [lra|reflexivity]) || idtac).
Qed.
Lemma z_cmp x y : Z.compare x y = q_cmp (inject_Z x) (inject_Z y).
Proof. unfold q_cmp, Qcompare. simpl. rewrite !Z.mul_1_r. reflexivity. Qed.

Lemma cmp_exact c o a b x y : is_cmp o -> valid a -> valid b -> numval a = Some x -> numval b = Some y ->
  truth (eval_scalar c o a b) (cmp_rel o x y).
Proof.
  intros Ho Va Vb Ha Hb.
  assert (eval_scalar c o a b = Ok (to_int (cmp_op o (q_cmp x y)))) as ->; [|apply cmp_truth, Ho].
  numcases Ha Hb Va Vb; rewrite <-?z_cmp; destruct o; try contradiction; reflexivity.
Qed.

(* ---- min and max ---- *)
Lemma min_exact c a b x y : valid a -> valid b -> numval a = Some x -> numval b = Some y ->
  exists z, gives (eval_scalar c BMin a b) z /\ (z == x \/ z == y)%Q /\ (z <= x /\ z <= y)%Q.
Proof.
  intros Va Vb Ha Hb.
  destruct (Qlt_le_dec x y) as [L|L]; [exists x|exists y]; (split; [|split; [|lra]; auto with qarith]).
  - assert (Qcompare x y = Lt) as L' by (apply Qlt_alt; exact L). numcases Ha Hb Va Vb; rewrite <-?z_cmp in *.
    1:{ change (gives (Ok (if x0 <? y0 then VInt x0 else VInt y0)) (inject_Z x0)).
        assert (x0 <? y0 = true) as -> by (rewrite <-Zlt_Qlt in L; lia).
        apply gives_int_v. assumption. }
    all: try (change (gives (Ok (if x0 <? y0 then shrink_big x0 else shrink_big y0)) (inject_Z x0));
        assert (x0 <? y0 = true) as -> by (rewrite <-Zlt_Qlt in L; lia);
        apply gives_big).
    all: match type of L' with context [Qcompare ?X ?Y] => match goal with |- gives _ ?p => change (gives (Ok (match Qcompare X Y with Lt => shrink_rat X | _ => shrink_rat Y end)) p); rewrite L';
           exists (shrink_rat p), p; split; [reflexivity|]; split; [apply near_valid, shrink_rat_near|split; [apply shrink_rat_val|reflexivity]];
           auto using red_inject end end.
  - assert (Qcompare x y <> Lt) as L' by (intros E; apply Qlt_alt in E; lra).
    numcases Ha Hb Va Vb; rewrite <-?z_cmp in *.
    1:{ change (gives (Ok (if x0 <? y0 then VInt x0 else VInt y0)) (inject_Z y0)).
        assert (x0 <? y0 = false) as -> by (rewrite <-Zle_Qle in L; lia).
        apply gives_int_v. assumption. }
    all: try (change (gives (Ok (if x0 <? y0 then shrink_big x0 else shrink_big y0)) (inject_Z y0));
        assert (x0 <? y0 = false) as -> by (rewrite <-Zle_Qle in L; lia);
        apply gives_big).
    all: match type of L' with context [Qcompare ?X ?Y] => match goal with |- gives _ ?p => change (gives (Ok (match Qcompare X Y with Lt => shrink_rat X | _ => shrink_rat Y end)) p);
           exists (shrink_rat p), p; split; [destruct (Qcompare X Y); [reflexivity|contradiction|reflexivity]|];
           split; [apply near_valid, shrink_rat_near|split; [apply shrink_rat_val|reflexivity]];
           auto using red_inject end end.
Qed.

Lemma max_exact c a b x y : valid a -> valid b -> numval a = Some x -> numval b = Some y ->
  exists z, gives (eval_scalar c BMax a b) z /\ (z == x \/ z == y)%Q /\ (x <= z /\ y <= z)%Q.
Proof.
  intros Va Vb Ha Hb.
  destruct (Qlt_le_dec y x) as [L|L]; [exists x|exists y]; (split; [|split; [|lra]; auto with qarith]).
  - assert (Qcompare x y = Gt) as L' by (apply Qgt_alt; exact L).
    numcases Ha Hb Va Vb; rewrite <-?z_cmp in *.
    1:{ change (gives (Ok (if y0 <? x0 then VInt x0 else VInt y0)) (inject_Z x0)).
        assert (y0 <? x0 = true) as -> by (rewrite <-Zlt_Qlt in L; lia).
        apply gives_int_v. assumption. }
    all: try (change (gives (Ok (if y0 <? x0 then VBig x0 else VBig y0)) (inject_Z x0));
        assert (y0 <? x0 = true) as -> by (rewrite <-Zlt_Qlt in L; lia);
        exists (VBig x0), (inject_Z x0); repeat split; reflexivity).
    all: match type of L' with context [Qcompare ?X ?Y] => match goal with |- gives _ ?p => change (gives (Ok (match Qcompare X Y with Gt => shrink_rat X | _ => shrink_rat Y end)) p); rewrite L';
           exists (shrink_rat p), p; split; [reflexivity|]; split; [apply near_valid, shrink_rat_near|split; [apply shrink_rat_val|reflexivity]];
           auto using red_inject end end.
  - assert (Qcompare x y <> Gt) as L' by (intros E; apply Qle_alt in L; contradiction).
    numcases Ha Hb Va Vb; rewrite <-?z_cmp in *.
    1:{ change (gives (Ok (if y0 <? x0 then VInt x0 else VInt y0)) (inject_Z y0)).
        assert (y0 <? x0 = false) as -> by (rewrite <-Zle_Qle in L; lia).
        apply gives_int_v. assumption. }
    all: try (change (gives (Ok (if y0 <? x0 then VBig x0 else VBig y0)) (inject_Z y0));
        assert (y0 <? x0 = false) as -> by (rewrite <-Zle_Qle in L; lia);
        exists (VBig y0), (inject_Z y0); repeat split; reflexivity).
    all: match type of L' with context [Qcompare ?X ?Y] => match goal with |- gives _ ?p => change (gives (Ok (match Qcompare X Y with Gt => shrink_rat X | _ => shrink_rat Y end)) p);
           exists (shrink_rat p), p; split; [destruct (Qcompare X Y); [reflexivity|reflexivity|contradiction]|];
           split; [apply near_valid, shrink_rat_near|split; [apply shrink_rat_val|reflexivity]];
           auto using red_inject end end.
Qed.

Lemma cmp_trichotomy c a b x y : valid a -> valid b -> numval a = Some x -> numval b = Some y ->
  exists l e g, eval_scalar c BLt a b = Ok (VInt l) /\ eval_scalar c BEq a b = Ok (VInt e) /\ eval_scalar c BGt a b = Ok (VInt g) /\
    l + e + g = 1 /\ 0 <= l /\ 0 <= e /\ 0 <= g.
Proof.
  intros Ha Hb Hx Hy.
  pose proof (cmp_exact c BLt a b x y I Ha Hb Hx Hy) as L.
  pose proof (cmp_exact c BEq a b x y I Ha Hb Hx Hy) as E.
  pose proof (cmp_exact c BGt a b x y I Ha Hb Hx Hy) as G.
  unfold truth, cmp_rel in *.
  destruct L as [[L1 L]|[L1 L]], E as [[E1 E]|[E1 E]], G as [[G1 G]|[G1 G]];
    rewrite L, E, G; try (do 3 eexists; split; [reflexivity|]; split; [reflexivity|]; split; [reflexivity|]; lia).
  all: exfalso; destruct (Q_dec x y) as [[?|?]|?]; try tauto; unfold Qlt, Qeq in *; lia.
Qed.

(* Rounding is symmetric, so that odd functions are odd to the last bit. *)
From Coq Require Import QArith Qabs Setoid Lqa.
From Verif Require Import Value FloatModel FloatProofs.
Open Scope Z_scope.

Lemma q_ext (a b : Q) : Qnum a = Qnum b -> Qden a = Qden b -> a = b.
Proof. destruct a, b. cbn. congruence. Qed.
Lemma qopp_opp (a : Q) : (- - a)%Q = a.
Proof. apply q_ext; [cbn; lia|reflexivity]. Qed.
Lemma qopp_mul_l (a b : Q) : (- a * b)%Q = (- (a * b))%Q.
Proof. apply q_ext; [cbn; lia|reflexivity]. Qed.
Lemma qopp_mul_r (a b : Q) : (a * - b)%Q = (- (a * b))%Q.
Proof. apply q_ext; [cbn; lia|reflexivity]. Qed.
Lemma qopp_add (a b : Q) : (- a + - b)%Q = (- (a + b))%Q.
Proof. apply q_ext; [cbn; lia|reflexivity]. Qed.
Lemma qopp_sub (a b : Q) : (- a - - b)%Q = (- (a - b))%Q.
Proof. unfold Qminus. apply qopp_add. Qed.
Lemma qopp_div (a b : Q) : (- a / b)%Q = (- (a / b))%Q.
Proof. unfold Qdiv. apply qopp_mul_l. Qed.
Lemma qabs_opp (a : Q) : Qabs (- a) = Qabs a.
Proof. destruct a. cbn. rewrite Z.abs_opp. reflexivity. Qed.
Lemma qnum_opp (a : Q) : Qnum (- a) = - Qnum a. Proof. reflexivity. Qed.

Lemma ilog2_opp q : ilog2 (- q) = ilog2 q.
Proof. unfold ilog2. rewrite qabs_opp, qnum_opp, Z.abs_opp. reflexivity. Qed.
Lemma rne_opp q : rne (- q) = - rne q.
Proof.
  destruct q as [n d]. unfold rne. cbn [Qnum Qden Qopp]. pose proof (Z.div_mod n (Zpos d) ltac:(lia)) as E1.
  pose proof (Z.mod_pos_bound n (Zpos d) ltac:(lia)) as B1. pose proof (Z.div_mod (- n) (Zpos d) ltac:(lia)) as E2.
  pose proof (Z.mod_pos_bound (- n) (Zpos d) ltac:(lia)) as B2.
  set (f := n / Zpos d) in *. set (r := n mod Zpos d) in *. set (f' := - n / Zpos d) in *. set (r' := - n mod Zpos d) in *.
  assert ((r = 0 /\ f' = - f /\ r' = 0) \/ (0 < r /\ f' = - f - 1 /\ r' = Zpos d - r)) as [(H1 & H2 & H3)|(H1 & H2 & H3)].
  { destruct (Z.eq_dec r 0) as [Hr|Hr]; [left|right].
    - split; [exact Hr|]. split; [apply Z.div_opp_l_z; [lia|exact Hr]|apply Z.mod_opp_l_z; [lia|exact Hr]].
    - split; [lia|]. split; [apply Z.div_opp_l_nz; [lia|exact Hr]|apply Z.mod_opp_l_nz; [lia|exact Hr]]. }
  - rewrite H1, H2, H3. rewrite Z.mul_0_r. cbn. reflexivity.
  - rewrite H2, H3. replace (2 * (Zpos d - r)) with (2 * Zpos d - 2 * r) by lia.
    destruct (Z.compare_spec (2 * r) (Zpos d)) as [C|C|C]; destruct (Z.compare_spec (2 * Zpos d - 2 * r) (Zpos d)) as [C'|C'|C']; try lia.
    replace (- f - 1) with (- (f + 1)) by lia. rewrite Z.even_opp. replace (Z.even (f + 1)) with (negb (Z.even f)).
    + destruct (Z.even f); cbn [negb]; lia.
    + rewrite Z.even_add. destruct (Z.even f); reflexivity.
Qed.
Lemma dyadic_opp m e : dyadic (- m) e = (- dyadic m e)%Q.
Proof.
  unfold dyadic. destruct (0 <=? e); [apply q_ext; [cbn [inject_Z Qnum Qopp]; lia|reflexivity]|].
  destruct m; cbn [Z.opp]; [reflexivity|reflexivity|]. rewrite qopp_opp. reflexivity.
Qed.
Theorem rnd_opp p q : rnd p (- q) = (- rnd p q)%Q.
Proof.
  unfold rnd. rewrite qnum_opp, ilog2_opp. destruct (Z.eqb_spec (- Qnum q) 0); destruct (Z.eqb_spec (Qnum q) 0); try lia; [reflexivity|].
  rewrite qopp_mul_l, rne_opp, dyadic_opp. reflexivity.
Qed.
Lemma eps_opp p z : eps p (- z) = eps p z.
Proof.
  unfold eps, mant_exp. rewrite qnum_opp, ilog2_opp.
  destruct (Z.eqb_spec (- Qnum z) 0); destruct (Z.eqb_spec (Qnum z) 0); try lia; reflexivity.
Qed.
Definition opp_loop (l : looper) : looper := mkLoop (l_i l) (l_max l) (- l_prev l)%Q.
Lemma qeq_bool_opp a : Qeq_bool (- a) 0 = Qeq_bool a 0.
Proof. destruct a as [n d]. unfold Qeq_bool, Zeq_bool. cbn. destruct n; reflexivity. Qed.
Lemma done_opp p l z : done (rnd p) p (opp_loop l) (- z) = match done (rnd p) p l z with More l' => More (opp_loop l') | v => v end.
Proof.
  unfold done. cbn [opp_loop l_i l_max l_prev]. rewrite qopp_sub, rnd_opp, qeq_bool_opp, qabs_opp, eps_opp.
  destruct (_ && _); [reflexivity|]. destruct (_ && _); [reflexivity|]. destruct (_ =? _); reflexivity.
Qed.
Lemma qopp_0 : (- 0)%Q = 0%Q. Proof. reflexivity. Qed.
Section Sym.
Variables (p : Z) (S : Type) (zof : S -> Q) (body body' : Z -> S -> res S) (next next' : Z -> S -> S) (neg : S -> S).
Hypothesis zof_neg : forall s, zof (neg s) = (- zof s)%Q.
Hypothesis body_neg : forall i s, body' i (neg s) = match body i s with Ok s' => Ok (neg s') | r => r end.
Hypothesis next_neg : forall i s, next' i (neg s) = neg (next i s).
Lemma series_neg : forall fuel l s,
  series (rnd p) p S zof body' next' fuel (opp_loop l) (neg s) =
  match series (rnd p) p S zof body next fuel l s with Some (Ok s') => Some (Ok (neg s')) | r => r end.
Proof.
  induction fuel as [|f IH]; intros l s; [reflexivity|]. cbn [series]. change (l_i (opp_loop l)) with (l_i l).
  rewrite body_neg. destruct (body (l_i l) s) as [s'| | |]; try reflexivity.
  rewrite zof_neg, done_opp. destruct (done (rnd p) p l (zof s')) as [| |l']; try reflexivity.
  change (l_i (opp_loop l')) with (l_i l'). rewrite next_neg. apply IH.
Qed.
Lemma result_neg fuel k s : result zof (series (rnd p) p S zof body' next' fuel (new_loop k p) (neg s)) =
  neg_res true (result zof (series (rnd p) p S zof body next fuel (new_loop k p) s)).
Proof.
  change (new_loop k p) with (opp_loop (new_loop k p)) at 1. rewrite series_neg.
  destruct (series _ _ _ _ _ _ _ _ _) as [[s'| | |]|]; cbn; try reflexivity. rewrite zof_neg. reflexivity.
Qed.
End Sym.
Definition pw_neg (s : pw) : pw := let '(z, xN, f) := s in ((- z)%Q, (- xN)%Q, f).
Lemma sinh_odd p fuel x : float_sinh (rnd p) p fuel (- x) = neg_res true (float_sinh (rnd p) p fuel x).
Proof.
  unfold float_sinh. rewrite <-(result_neg p pw pw_z (pw_body (rnd p)) (pw_body (rnd p)) (sinh_next (rnd p) x) (sinh_next (rnd p) (- x)) pw_neg).
  - reflexivity.
  - intros [[z xN] f]. reflexivity.
  - intros i [[z xN] f]. unfold pw_body, pw_neg, fquo. destruct (Qeq_bool f 0); [reflexivity|]. cbn [bind].
    unfold fadd. rewrite qopp_div, rnd_opp, qopp_add, rnd_opp. reflexivity.
  - intros i [[z xN] f]. unfold sinh_next, pw_neg, fmul. rewrite (qopp_mul_l xN (- x)), (qopp_mul_r xN x), qopp_opp, qopp_mul_r, rnd_opp. reflexivity.
Qed.
Definition at_neg (s : at_st) : at_st := let '(z, xN) := s in ((- z)%Q, (- xN)%Q).
Lemma atan_odd p fuel x : atan_small (rnd p) p fuel (- x) = neg_res true (atan_small (rnd p) p fuel x).
Proof.
  unfold atan_small. rewrite <-(result_neg p at_st fst (atan_body (rnd p)) (atan_body (rnd p)) (atan_next (rnd p) (fmul (rnd p) x x)) (atan_next (rnd p) (fmul (rnd p) (- x) (- x))) at_neg).
  - reflexivity.
  - intros [z xN]. reflexivity.
  - intros i [z xN]. unfold atan_body, at_neg, fquo. destruct (Qeq_bool _ 0); [reflexivity|]. cbn [bind].
    unfold fadd. rewrite qopp_div, rnd_opp, qopp_add, rnd_opp. reflexivity.
  - intros i [z xN]. unfold atan_next, at_neg, fmul. rewrite (qopp_mul_r (- x) x), (qopp_mul_l x x), qopp_opp, qopp_mul_l, rnd_opp. reflexivity.
Qed.
Lemma sin_odd p fuel pi x : (0 < x)%Q -> fst (float_sin (rnd p) p fuel pi (- x)) = neg_res true (fst (float_sin (rnd p) p fuel pi x)).
Proof.
  intros H. unfold float_sin. rewrite qnum_opp, qopp_opp. assert (0 < Qnum x) as Hx. { destruct x as [n d]. unfold Qlt in H. cbn in *. lia. }
  destruct (Z.ltb_spec (- Qnum x) 0); [|lia]. destruct (Z.ltb_spec (Qnum x) 0); [lia|].
  destruct (two_pi_reduce (rnd p) fuel pi x); reflexivity.
Qed.

(* Powers of complex numbers with exact parts. *)
From Coq Require Import QArith Lqa Lia.
From Verif Require Import Value NumModel NumSpec NumProofs NumArith NumCplx QuoRemHeap CplxModel CplxSpec CplxProofs.
Open Scope Z_scope.

Lemma ceq_refl p : ceq p p. Proof. split; reflexivity. Qed.
Lemma ceq_sym p q : ceq p q -> ceq q p. Proof. intros [A B]; split; symmetry; assumption. Qed.
Lemma ceq_trans p q r : ceq p q -> ceq q r -> ceq p r.
Proof. intros [A B] [C D]; split; etransitivity; eassumption. Qed.
Lemma ctimes_compat a b x y : ceq a b -> ceq x y -> ceq (ctimes a x) (ctimes b y).
Proof. intros [A B] [C D]; split; cbn [ctimes fst snd]; rewrite A, B, C, D; reflexivity. Qed.
Lemma ctimes_assoc a b d : ceq (ctimes a (ctimes b d)) (ctimes (ctimes a b) d).
Proof. split; cbn [ctimes fst snd]; ring. Qed.
Lemma ctimes_comm a b : ceq (ctimes a b) (ctimes b a).
Proof. split; cbn [ctimes fst snd]; ring. Qed.
Lemma ctimes_one a : ceq (ctimes (1, 0)%Q a) a.
Proof. split; cbn [ctimes fst snd]; ring. Qed.
Lemma cpow_add z m n : ceq (cpow z (m + n)) (ctimes (cpow z m) (cpow z n)).
Proof.
  induction m as [|m IH]; cbn [cpow Nat.add]; [apply ceq_sym, ctimes_one|].
  eapply ceq_trans; [apply ctimes_compat; [apply ceq_refl|exact IH]|apply ctimes_assoc].
Qed.
Lemma cpow_compat z w n : ceq z w -> ceq (cpow z n) (cpow w n).
Proof. intros H. induction n; cbn [cpow]; [apply ceq_refl|apply ctimes_compat; assumption]. Qed.
Lemma cpow_square z n : ceq (cpow (ctimes z z) n) (cpow z (n + n)).
Proof.
  induction n as [|n IH]; cbn [cpow Nat.add]; [apply ceq_refl|].
  replace (n + S n)%nat with (S (n + n)) by lia. cbn [cpow].
  eapply ceq_trans; [apply ctimes_compat; [apply ceq_refl|exact IH]|]. apply ceq_sym, ctimes_assoc.
Qed.
Definition norm2 (z : Q * Q) : Q := (fst z * fst z + snd z * snd z)%Q.
Lemma norm_times z w : (norm2 (ctimes z w) == norm2 z * norm2 w)%Q.
Proof. unfold norm2, ctimes; cbn [fst snd]; ring. Qed.
Lemma norm_pow z n : ~ (norm2 z == 0)%Q -> ~ (norm2 (cpow z n) == 0)%Q.
Proof.
  intros H. induction n as [|n IH]; cbn [cpow]; [discriminate|].
  rewrite norm_times. intros E. apply Qmult_integral in E as [E|E]; contradiction.
Qed.
Lemma norm_compat z w : ceq z w -> (norm2 z == norm2 w)%Q.
Proof. intros [A B]. unfold norm2. rewrite A, B. reflexivity. Qed.

(* the two parts denote z *)
Definition pair_of (v : value * value) (z : Q * Q) : Prop :=
  exists x y, valid (fst v) /\ valid (snd v) /\ numval (fst v) = Some x /\ numval (snd v) = Some y /\ ceq (x, y) z.
Lemma pair_compat v z w : ceq z w -> pair_of v z -> pair_of v w.
Proof. intros E (x & y & A & B & C & D & F). exists x, y. repeat (split; [assumption|]). eapply ceq_trans; eassumption. Qed.
Lemma mul_pair c v w z u : pair_of v z -> pair_of w u ->
  (exists r, cplx_mul c (fst v) (snd v) (fst w) (snd w) = Ok r /\ pair_of r (ctimes z u)) \/
  (cplx_mul c (fst v) (snd v) (fst w) (snd w) = Err /\ maxbits c <> 0).
Proof.
  intros (x & y & A & B & C & D & F) (x' & y' & A' & B' & C' & D' & F').
  destruct (cplx_mul_parts c _ _ _ _ _ _ _ _ A B A' B' C D C' D') as [(r & i & s & t & -> & Vr & Vi & Nr & Ni & Er & Ei)|E]; [left|right; exact E].
  exists (r, i). split; [reflexivity|]. exists s, t. repeat (split; [assumption|]).
  eapply ceq_trans; [|apply ctimes_compat; [exact F|exact F']].
  split; cbn [fst snd ctimes] in *; assumption.
Qed.
Lemma int_power_pair c fuel : forall v w e z y, pair_of v z -> pair_of w y -> 0 <= e < 2 ^ Z.of_nat fuel ->
  (exists r, cplx_int_power c fuel v w e = Ok r /\ pair_of r (ctimes z (cpow y (Z.to_nat e)))) \/
  (cplx_int_power c fuel v w e = Err /\ maxbits c <> 0).
Proof.
  induction fuel as [|f IH]; intros v w e z y Pv Pw He.
  - assert (e = 0) as -> by (change (2 ^ Z.of_nat 0) with 1 in He; lia). left. exists v. split; [reflexivity|].
    eapply pair_compat; [|exact Pv]. cbn [Z.to_nat cpow]. apply ceq_sym. eapply ceq_trans; [apply ctimes_comm|apply ctimes_one].
  - cbn [cplx_int_power]. destruct (Z.leb_spec e 0) as [L|L].
    + left. exists v. split; [reflexivity|]. replace e with 0 by lia.
      eapply pair_compat; [|exact Pv]. apply ceq_sym. eapply ceq_trans; [apply ctimes_comm|apply ctimes_one].
    + assert (0 <= e / 2 < 2 ^ Z.of_nat f) as He2.
      { split; [apply Z.div_pos; lia|]. apply Z.div_lt_upper_bound; [lia|].
        rewrite Nat2Z.inj_succ, Z.pow_succ_r in He by lia. lia. }
      assert (e = 2 * (e / 2) + Z.b2z (Z.odd e)) as Ee by (rewrite <- Z.div2_div; apply Z.div2_odd).
      assert (forall z', ceq z' (if Z.odd e then ctimes z y else z) ->
        ceq (ctimes z' (cpow (ctimes y y) (Z.to_nat (e / 2)))) (ctimes z (cpow y (Z.to_nat e)))) as Law.
      { intros z' Ez.
        eapply ceq_trans; [apply ctimes_compat; [exact Ez|apply cpow_square]|].
        replace (Z.to_nat e) with (Z.to_nat (Z.b2z (Z.odd e)) + (Z.to_nat (e / 2) + Z.to_nat (e / 2)))%nat by (destruct (Z.odd e); cbn [Z.b2z] in *; lia).
        destruct (Z.odd e); cbn [Z.b2z Z.to_nat].
        - change (Pos.to_nat 1) with 1%nat. cbn [Nat.add cpow]. apply ceq_sym, ctimes_assoc.
        - apply ceq_refl. }
      assert ((exists z', (if Z.odd e then cplx_mul c (fst v) (snd v) (fst w) (snd w) else Ok v) = Ok z' /\
                 pair_of z' (if Z.odd e then ctimes z y else z)) \/
              ((if Z.odd e then cplx_mul c (fst v) (snd v) (fst w) (snd w) else Ok v) = Err /\ maxbits c <> 0)) as [(v' & -> & Pv')|[-> M]].
      { destruct (Z.odd e); [apply mul_pair; assumption|left; eauto]. }
      2: { right. split; [reflexivity|exact M]. }
      cbn [bind].
      destruct (mul_pair c w w y y Pw Pw) as [(w' & -> & Pw')|[-> M]]; [|right; split; [reflexivity|exact M]].
      cbn [bind].
      destruct (IH v' w' (e / 2) _ _ Pv' Pw' He2) as [(r & -> & Pr)|E]; [left|right; exact E].
      exists r. split; [reflexivity|]. eapply pair_compat; [apply Law, ceq_refl|exact Pr].
Qed.

Lemma inverse_pair c v z : pair_of v z -> ~ (norm2 z == 0)%Q ->
  parts (cplx_inverse c (fst v) (snd v)) c (fst z / norm2 z, - snd z / norm2 z)%Q.
Proof.
  intros (x & y & Va & Vb & Na & Nb & Ex & Ey) Nz. cbn [fst snd] in Ex, Ey.
  assert (~ (x * x + y * y == 0)%Q) as N.
  { intros E. apply Nz. unfold norm2. rewrite <- Ex, <- Ey. exact E. }
  unfold cplx_inverse. rewrite (isZero_val _ _ Na), (isZero_val _ _ Nb).
  replace (Qeq_bool x 0 && Qeq_bool y 0) with false.
  2: { symmetry. apply andb_false_iff. rewrite <- !not_true_iff_false, !Qeq_bool_iff.
       destruct (Qeq_dec x 0) as [E|E]; [|left; exact E]. right. intros E'. apply N. rewrite E, E'. reflexivity. }
  rstep I. rstep I. rstep I.
  match goal with |- parts (bind (eval_real c BQuo _ ?d) _) _ _ => match goal with H : numval d = Some ?q |- _ => assert (~ (q == 0)%Q) as N3 end end.
  { rewrite H7, H4, H1. exact N. }
  eapply (err_bind c _ _ _ (fun r => parts r c _));
    [eapply (real_arith c BQuo); [exact I|exact Va|eassumption|exact Na|eassumption|apply sem_quo, N3]|intros v3 q3 V3 M3 E3|right; auto].
  eapply (err_bind c _ _ _ (fun r => parts r c _));
    [eapply (real_arith c BQuo); [exact I|exact Vb|eassumption|exact Nb|eassumption|apply sem_quo, N3]|intros v4 q4 V4 M4 E4|right; auto].
  destruct (neg_ok c v4 q4 V4 M4) as (w & t & Ew & Vw & Nw & Et).
  assert (eval_unary_real UNeg v4 = Ok w) as -> by (destruct v4; try discriminate; exact Ew).
  cbn [bind]. eapply parts_new; [exact V3|exact Vw|exact M3|exact Nw| |]; cbn [fst snd].
  - rewrite E3, H7, H4, H1. unfold norm2. rewrite <- Ex, <- Ey. reflexivity.
  - rewrite Et, E4, H7, H4, H1. unfold norm2. rewrite <- Ex, <- Ey. field. exact N.
Qed.
Lemma parts_pair v c z : pair_of v z -> parts (Ok v) c z.
Proof. intros (x & y & A & B & C & D & E & F). left. exists (fst v), (snd v), x, y. destruct v. repeat (split; [first [reflexivity|assumption]|]). assumption. Qed.
Lemma cerr_limited c r p w : ceq p w -> cerr_or c r p -> limited c r (exists v q, r = Ok v /\ cvalid v /\ cval v = Some q /\ ceq q w).
Proof.
  intros E [(v & q & H)|H]; [left|right; exact H]. exists v, q. destruct H as (A & B & C & D). repeat (split; [assumption|]).
  eapply ceq_trans; eassumption.
Qed.

Lemma complex_power_ok c a b n z : cvalid (VCplx a b) -> cval (VCplx a b) = Some z -> - 2 ^ 31 <= n <= 2 ^ 31 ->
  limited c (complex_power c a b (VInt n)) (exists v w, complex_power c a b (VInt n) = Ok v /\ cvalid v /\ cval v = Some w /\ is_power z n w).
Proof.
  intros V N Hn. cbn [cval] in N. destruct (numval a) as [x|] eqn:Na; [|discriminate]. destruct (numval b) as [y|] eqn:Nb; [|discriminate].
  inversion N; subst. destruct V as (Va & Vb & y' & Ny & NZ). assert (y' = y) by congruence. subst y'.
  assert (pair_of (a, b) (x, y)) as P by (exists x, y; repeat (split; [assumption|]); apply ceq_refl).
  assert (pair_of (vone, vzero) (1, 0)%Q) as P1.
  { exists 1%Q, 0%Q. split; [cbn; lia|]. split; [cbn; lia|]. split; [reflexivity|]. split; [reflexivity|]. apply ceq_refl. }
  assert (~ (norm2 (x, y) == 0)%Q) as Nz by (unfold norm2; cbn [fst snd]; apply sumsq_nz; intros [_ E]; contradiction).
  assert (complex_power c a b (VInt n) =
    if n =? 0 then Ok vone else if n =? 1 then Ok (shrink_cplx a b) else
    let! p := (if n <? 0 then let! p := cplx_int_power c 64 (vone, vzero) (a, b) (- n) in cplx_inverse c (fst p) (snd p)
               else cplx_int_power c 64 (vone, vzero) (a, b) n) in
    Ok (shrink_cplx (fst p) (snd p))) as Ec.
  { unfold complex_power. destruct (Z.eqb_spec n 0) as [->|]; [reflexivity|]. destruct (Z.eqb_spec n 1) as [->|]; [reflexivity|].
    destruct n as [|[| |]|]; try reflexivity; contradiction. }
  rewrite Ec. clear Ec. unfold is_power.
  destruct (Z.eqb_spec n 0) as [->|N0].
  { left. exists vone, (1, 0)%Q. split; [reflexivity|]. split; [cbn; lia|]. split; [reflexivity|]. apply ceq_refl. }
  destruct (Z.eqb_spec n 1) as [->|N1].
  { pose proof (shrink_parts c (Ok (a, b)) (x, y) (parts_pair _ c _ P)) as H. cbn [bind fst snd] in H.
    apply (cerr_limited c _ _ (cpow (x, y) 1)) in H; [|cbn [cpow]; apply ceq_sym; eapply ceq_trans; [apply ctimes_comm|apply ctimes_one]].
    exact H. }
  destruct (Z.ltb_spec n 0) as [L|L].
  - destruct (int_power_pair c 64 _ _ (- n) _ _ P1 P) as [(r & -> & Pr)|[-> M]]; [cbn; lia| |right; split; [reflexivity|exact M]].
    cbn [bind]. set (k := Z.to_nat (- n)) in *.
    assert (ceq (ctimes (1, 0)%Q (cpow (x, y) k)) (cpow (x, y) k)) as E1 by apply ctimes_one.
    apply (pair_compat _ _ _ E1) in Pr.
    pose proof (norm_pow (x, y) k Nz) as Nk.
    pose proof (shrink_parts c _ _ (inverse_pair c r _ Pr Nk)) as [(v & q & A & B & D & F)|H]; [left|right; exact H].
    exists v, q. split; [exact A|]. split; [exact B|]. split; [exact D|].
    eapply ceq_trans; [apply ctimes_compat; [exact F|apply ceq_refl]|].
    split; cbn [ctimes fst snd]; unfold norm2 in *; field; exact Nk.
  - destruct (int_power_pair c 64 _ _ n _ _ P1 P) as [(r & -> & Pr)|[-> M]]; [cbn; lia| |right; split; [reflexivity|exact M]].
    pose proof (shrink_parts c _ _ (parts_pair r c _ Pr)) as H.
    eapply cerr_limited; [apply ctimes_one|exact H].
Qed.

Lemma norm_zero z : (norm2 z == 0)%Q -> ceq z (0, 0)%Q.
Proof.
  intros H. unfold norm2 in H. pose proof (sumsq_nz (fst z) (snd z)) as S.
  destruct (Qeq_dec (fst z) 0) as [A|A].
  - destruct (Qeq_dec (snd z) 0) as [B|B]; [split; assumption|]. exfalso. apply S; [intros [_ E]; contradiction|exact H].
  - exfalso. apply S; [intros [E _]; contradiction|exact H].
Qed.
Lemma times_cancel a b d : ~ (norm2 d == 0)%Q -> ceq (ctimes a d) (ctimes b d) -> ceq a b.
Proof.
  intros N [A B]. cbn [ctimes fst snd] in *. unfold norm2 in N.
  assert ((fst a - fst b) * fst d == (snd a - snd b) * snd d)%Q as E1 by lra.
  assert ((fst a - fst b) * snd d == - ((snd a - snd b) * fst d))%Q as E2 by lra.
  split.
  - assert ((fst a - fst b) * (fst d * fst d + snd d * snd d) == 0)%Q as E.
    { transitivity (((fst a - fst b) * fst d) * fst d + ((fst a - fst b) * snd d) * snd d)%Q; [ring|]. rewrite E1, E2. ring. }
    apply Qmult_integral in E as [E|E]; [lra|contradiction].
  - assert ((snd a - snd b) * (fst d * fst d + snd d * snd d) == 0)%Q as E.
    { transitivity (((snd a - snd b) * snd d) * snd d + ((snd a - snd b) * fst d) * fst d)%Q; [ring|].
      rewrite <- E1. transitivity (((fst a - fst b) * snd d) * fst d + ((snd a - snd b) * fst d) * fst d)%Q; [ring|]. rewrite E2. ring. }
    apply Qmult_integral in E as [E|E]; [lra|contradiction].
Qed.
Lemma is_power_unique z n w w' : (n < 0 -> ~ ceq z (0, 0)%Q) -> is_power z n w -> is_power z n w' -> ceq w w'.
Proof.
  intros Nz. unfold is_power. destruct (Z.ltb_spec n 0) as [L|L]; intros A B.
  - eapply times_cancel; [apply norm_pow; intros E; apply (Nz L), norm_zero, E|]. eapply ceq_trans; [exact A|apply ceq_sym, B].
  - eapply ceq_trans; [exact A|apply ceq_sym, B].
Qed.
(* w is z ** n when w * z ** a = z ** b for some a and b with b - a = n *)
Lemma power_shift z n w a b : ~ ceq z (0, 0)%Q -> Z.of_nat b - Z.of_nat a = n ->
  is_power z n w <-> ceq (ctimes w (cpow z a)) (cpow z b).
Proof.
  intros Nz E. assert (forall k, ~ (norm2 (cpow z k) == 0)%Q) as N by (intros k; apply norm_pow; intros H; apply Nz, norm_zero, H).
  unfold is_power. destruct (Z.ltb_spec n 0) as [L|L].
  - set (k := Z.to_nat (- n)). assert (a = k + b)%nat as -> by lia. split; intros H.
    + eapply ceq_trans; [apply ctimes_compat; [apply ceq_refl|apply cpow_add]|]. eapply ceq_trans; [apply ctimes_assoc|].
      eapply ceq_trans; [apply ctimes_compat; [exact H|apply ceq_refl]|apply ctimes_one].
    + apply (times_cancel _ _ (cpow z b) (N b)). eapply ceq_trans; [apply ceq_sym, ctimes_assoc|].
      eapply ceq_trans; [apply ctimes_compat; [apply ceq_refl|apply ceq_sym, cpow_add]|].
      eapply ceq_trans; [exact H|apply ceq_sym, ctimes_one].
  - set (k := Z.to_nat n). assert (b = k + a)%nat as -> by lia. split; intros H.
    + eapply ceq_trans; [apply ctimes_compat; [exact H|apply ceq_refl]|apply ceq_sym, cpow_add].
    + apply (times_cancel _ _ (cpow z a) (N a)). eapply ceq_trans; [exact H|apply cpow_add].
Qed.
Lemma is_power_adds z m n w w' : ~ ceq z (0, 0)%Q -> is_power z m w -> is_power z n w' -> is_power z (m + n) (ctimes w w').
Proof.
  intros Nz. set (a := Z.to_nat (- m)). set (b := Z.to_nat m). set (a' := Z.to_nat (- n)). set (b' := Z.to_nat n).
  rewrite (power_shift z m w a b Nz) by lia. rewrite (power_shift z n w' a' b' Nz) by lia.
  rewrite (power_shift z (m + n) _ (a + a') (b + b') Nz) by lia. intros A B.
  eapply ceq_trans; [apply ctimes_compat; [apply ceq_refl|apply cpow_add]|].
  eapply ceq_trans; [|apply ceq_sym, cpow_add].
  eapply ceq_trans; [|apply ctimes_compat; [exact A|exact B]].
  split; cbn [ctimes fst snd]; ring.
Qed.

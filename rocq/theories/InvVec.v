From Coq Require Import QArith Setoid Ring Lqa.
From Verif Require Import Value NumModel NumSpec NumArith NumCplx ArrModel ArrSpec ArrBase EvalModel EvalSpec EvalProofs EvalReduce InvModel InvSpec InvProofs InvMat InvInner.
Open Scope nat_scope.
Add Ring cring4 : c_ring (setoid ceq_equiv c_ext).
#[export] Instance cconj_proper : Proper (ceq ==> ceq) cconj.
Proof. intros x y [H1 H2]. split; cbn [fst snd cconj]; rewrite ?H1, ?H2; reflexivity. Qed.

(* ---- the sum of the squared magnitudes ---- *)
Definition mag2 (x : cnumber) : cnumber := cmul x (cconj x).
Lemma mag2_nonneg x : (0 <= fst (mag2 x))%Q /\ (snd (mag2 x) == 0)%Q.
Proof. unfold mag2, cmul, cconj. cbn [fst snd]. split; [nra|ring]. Qed.
Lemma mag2_zero x : (fst (mag2 x) == 0)%Q -> ceq x c0.
Proof.
  unfold mag2, cmul, cconj. cbn [fst snd]. intros H.
  split; cbn [fst snd c0]; destruct (Qlt_le_dec 0 (fst x)), (Qlt_le_dec (fst x) 0), (Qlt_le_dec 0 (snd x)), (Qlt_le_dec (snd x) 0); nra.
Qed.
Lemma magsum n f : (0 <= fst (csum n (fun k => mag2 (f k))))%Q /\ (snd (csum n (fun k => mag2 (f k))) == 0)%Q /\
  ((fst (csum n (fun k => mag2 (f k))) == 0)%Q -> forall k, k < n -> ceq (f k) c0).
Proof.
  induction n as [|n (I1 & I2 & I3)]; cbn [csum].
  - cbn [fst snd c0]. split; [lra|]. split; [lra|]. intros; lia.
  - destruct (mag2_nonneg (f n)) as [N1 N2]. cbn [fst snd cadd]. split; [lra|]. split; [rewrite I2, N2; lra|].
    intros E k Hk. destruct (Nat.eq_dec k n) as [->|]; [apply mag2_zero; lra|apply I3; [lra|lia]].
Qed.
Lemma magsum_zero n f : ceq (csum n (fun k => mag2 (f k))) c0 <-> forall k, k < n -> ceq (f k) c0.
Proof.
  split.
  - intros [H _]. apply magsum, H.
  - intros H. apply csum_zero. intros k Hk. unfold mag2. rewrite (H k Hk). ring.
Qed.

Lemma conj_num c x : cvalid x ->
  okc c (match x with VCplx _ _ => ev1_std c UConj x | _ => Ok x end) (fun v => cvalid v /\ ceq (num v) (cconj (num x))).
Proof.
  intros Vx. destruct x as [z|z|z|q|a b|l|s d]; try contradiction.
  1-3: apply okc_ret; (split; [exact Vx|]); unfold num, num_of, cconj; cbn; (split; cbn [fst snd]; [reflexivity|ring]).
  destruct (cplx_conj c (VCplx a b) _ Vx (cvalid_val _ Vx)) as [(v & q & E & Vv & Nv & Eq) _].
  left. exists v. split; [exact E|]. split; [exact Vv|]. rewrite (cvalid_val v Vv) in Nv. injection Nv as <-. exact Eq.
Qed.
Lemma okc_mapl c (f : value -> res value) (P : value -> value -> Prop) : forall l,
  Forall (fun x => okc c (f x) (P x)) l ->
  okc c (mapM f l) (fun r => length r = length l /\ forall i, i < length l -> P (nth i l vd) (nth i r vd)).
Proof.
  induction l as [|x l IH]; intros H; cbn [mapM].
  - apply okc_ret. split; [reflexivity|]. intros i Hi. simpl in Hi. lia.
  - inversion H as [|? ? H1 H2]; subst. eapply okc_bind; [exact H1|]. intros v Hv. eapply okc_bind; [apply IH, H2|].
    intros r [Lr Hr]. apply okc_ret. split; [simpl; lia|]. intros [|i] Hi; [exact Hv|]. simpl in *. apply Hr. lia.
Qed.
Lemma okc_sum c : forall l k acc, length l = length k -> Forall cvalid l -> Forall cvalid k -> cvalid acc ->
  okc c (foldR (fun m p => let! q := ev_std c BMul (fst p) (snd p) in ev_std c BAdd m q) (combine l k) acc)
    (fun v => cvalid v /\ ceq (num v) (cadd (num acc) (csum (length l) (fun i => cmul (num (nth i l vd)) (num (nth i k vd)))))).
Proof.
  induction l as [|a l IH]; intros [|b k] acc L Fl Fk Va; try discriminate; cbn [combine foldR].
  - apply okc_ret. split; [exact Va|]. cbn [length csum]. ring.
  - inversion Fl; inversion Fk; subst. cbn [fst snd].
    assert (forall X (r : res value) (g : value -> res X) (h : X -> res value), bind (bind r g) h = bind r (fun x => bind (g x) h)) as BA by (intros X [ | | | ]; reflexivity).
    rewrite BA. eapply okc_bind; [apply (mul_num c a b); assumption|]. intros q [Vq Eq].
    eapply okc_bind; [apply (add_num c acc q); assumption|]. intros acc' [Va' Ea'].
    eapply okc_impl; [apply IH; auto|]. intros v [Vv Ev]. split; [exact Vv|].
    rewrite Ev, Ea', Eq. change (length (a :: l)) with (S (length l)). rewrite csum_head. cbn [nth]. ring.
Qed.

Lemma exact_vector_inv v n : exact_array v [n] -> (exists l, v = VVec l /\ length l = n /\ Forall cvalid l) \/ exists l, v = VMat [n] l /\ length l = n /\ Forall cvalid l.
Proof.
  intros (W & S & F). destruct v as [z|z|z|q|a b|l|s d]; try discriminate S.
  - left. exists l. injection S as <-. auto.
  - right. simpl in S. subst s. exists d. destruct W as (_ & L & _). repeat split; auto. rewrite L. unfold vol. simpl. lia.
Qed.
Lemma at1_nth l i : i < length l -> at_c (VVec l) [i] = num (nth i l vd).
Proof.
  intros H. unfold at_c, elem. cbn [data_of shape_of ravel]. unfold vol. simpl fold_right. rewrite Nat.mul_1_r, Nat.add_0_r.
  rewrite (nth_error_nth' l vd) by exact H. reflexivity.
Qed.
Lemma at1_nth_mat l i : i < length l -> at_c (VMat [length l] l) [i] = num (nth i l vd).
Proof. exact (at1_nth l i). Qed.

Lemma vec_inverse_num c l : 2 <= length l -> Forall cvalid l ->
  let N := csum (length l) (fun k => mag2 (num (nth k l vd))) in
  (ceq N c0 -> vec_inverse (ev_std c) (ev1_std c) l = Err) /\
  (~ ceq N c0 -> okc c (vec_inverse (ev_std c) (ev1_std c) l) (fun r => length r = length l /\ Forall cvalid r /\
     forall i, i < length l -> ceq (cmul (num (nth i r vd)) N) (cconj (num (nth i l vd))))).
Proof.
  intros L2 F N. unfold vec_inverse. destruct l as [|a [|b l0]]; [simpl in L2; lia|simpl in L2; lia|]. set (l := a :: b :: l0) in *.
  assert (okc c (mapM (fun x => if negb (is_scalar x) then Err else match x with VCplx _ _ => ev1_std c UConj x | _ => Ok x end) l)
    (fun r => length r = length l /\ forall i, i < length l -> cvalid (nth i r vd) /\ ceq (num (nth i r vd)) (cconj (num (nth i l vd))))) as H1.
  { apply okc_mapl with (P := fun x v => cvalid v /\ ceq (num v) (cconj (num x))). eapply Forall_impl; [|exact F].
    intros x Vx. rewrite (cvalid_scalar x Vx). cbn [negb]. apply conj_num, Vx. }
  assert (forall cs, length cs = length l /\ (forall i, i < length l -> cvalid (nth i cs vd) /\ ceq (num (nth i cs vd)) (cconj (num (nth i l vd)))) ->
    okc c (foldR (fun m p => let! q := ev_std c BMul (fst p) (snd p) in ev_std c BAdd m q) (combine l cs) vzero)
      (fun v => cvalid v /\ ceq (num v) N)) as H2.
  { intros cs [Lc Hc]. assert (Forall cvalid cs) as Fc by (apply Forall_nthv; rewrite Lc; intros i Hi; apply Hc, Hi).
    eapply okc_impl; [apply okc_sum; auto; exact cvalid_zero|]. intros v [Vv Ev]. split; [exact Vv|].
    rewrite Ev. change (num vzero) with c0. unfold N. rewrite (csum_ext _ _ (fun k => mag2 (num (nth k l vd)))); [ring|].
    intros k Hk. unfold mag2. rewrite (proj2 (Hc k Hk)). reflexivity. }
  split; intros HN.
  - destruct H1 as [(cs & -> & Hcs)|[-> _]]; [|reflexivity]. cbn [bind].
    destruct (H2 cs Hcs) as [(m & -> & Vm & Em)|[-> _]]; [|reflexivity]. cbn [bind].
    assert (isZero m = true) as -> by (apply isZero_num; [exact Vm|rewrite Em; exact HN]). reflexivity.
  - eapply okc_bind; [exact H1|]. intros cs Hcs. eapply okc_bind; [apply H2, Hcs|]. intros m [Vm Em].
    assert (~ ceq (num m) c0) as Zm by (rewrite Em; exact HN).
    destruct (isZero m) eqn:Ez; [exfalso; apply Zm, isZero_num; auto|].
    destruct Hcs as [Lc Hc].
    eapply okc_impl; [apply (okc_mapl c _ (fun x v => cvalid v /\ ceq (cmul (num v) N) (num x)))|].
    + apply Forall_nthv. rewrite Lc. intros i Hi. eapply okc_impl; [apply quo_num; [apply Hc, Hi|exact Vm|exact Zm]|].
      intros v [Vv Ev]. split; [exact Vv|]. rewrite <-Em. exact Ev.
    + intros r [Lr Hr]. rewrite Lc in *. split; [exact Lr|]. split.
      * apply Forall_nthv. rewrite Lr. intros i Hi. apply Hr, Hi.
      * intros i Hi. rewrite (proj2 (Hr i Hi)). apply Hc, Hi.
Qed.

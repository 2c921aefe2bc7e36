(* Proofs about OrderedCompare. *)
From Coq Require Import Lqa.
From Verif Require Import Value NumModel NumSpec ArrBase ArrSel EvalSpec OrdModel OrdSpec.
Open Scope nat_scope.

(* ---- the fuel suffices ---- *)
Lemma vsize_in x l : In x l -> vsize x <= fold_right (fun x n => vsize x + n) 0 l.
Proof. induction l as [|y l IH]; [easy|]. intros [->|H]; cbn; [lia|]. specialize (IH H). lia. Qed.
Lemma vsize_pos v : 1 <= vsize v.
Proof. destruct v; cbn; lia. Qed.
Lemma lex_ext f g l l' : (forall x y, In x l -> In y l' -> f x y = g x y) -> lex f l l' = lex g l l'.
Proof.
  revert l'. induction l as [|x l IH]; intros [|y l'] H; cbn [lex]; auto.
  rewrite (H x y) by (now left). rewrite IH by (intros; apply H; now right). reflexivity.
Qed.
Lemma cmp_lists_ext f g l l' : (forall x y, In x l -> In y l' -> f x y = g x y) -> cmp_lists f l l' = cmp_lists g l l'.
Proof. intros H. unfold cmp_lists. destruct (negb _); [reflexivity|]. now apply lex_ext. Qed.
Lemma body_ext f g c u v : (forall x y, vsize x + vsize y < vsize u + vsize v -> f x y = g x y) -> compare_body f c u v = compare_body g c u v.
Proof.
  intros H. destruct u as [a|a|a|a|a b|l|s l], v as [d|d|d|d|d e|l'|s' l']; cbn [compare_body is_real]; auto.
  all: repeat match goal with |- context [isZero ?x] => destruct (isZero x) end; auto.
  all: try (apply H; cbn [vsize]; try pose proof (vsize_pos b); try pose proof (vsize_pos e); lia).
  all: try (rewrite (H a d), (H b e) by (cbn [vsize]; lia); reflexivity).
  all: apply cmp_lists_ext; intros x y Hx Hy; apply H; cbn [vsize]; pose proof (vsize_in _ _ Hx); pose proof (vsize_in _ _ Hy); lia.
Qed.
Lemma fuel_ok c : forall n m u v, vsize u + vsize v <= n -> vsize u + vsize v <= m -> compare_fuel n c u v = compare_fuel m c u v.
Proof.
  induction n as [|n IH]; intros m u v Hn Hm; [pose proof (vsize_pos u); lia|].
  destruct m as [|m]; [pose proof (vsize_pos u); lia|]. cbn [compare_fuel]. apply body_ext.
  intros x y Hxy. apply IH; lia.
Qed.
Lemma compare_eq c u v : ordered_compare c u v = compare_body (ordered_compare c) c u v.
Proof.
  unfold ordered_compare at 1. destruct (vsize u + vsize v) as [|n] eqn:E; [pose proof (vsize_pos u); lia|].
  cbn [compare_fuel]. apply body_ext. intros x y Hxy. unfold ordered_compare. apply fuel_ok; lia.
Qed.

(* ---- numbers ---- *)
Lemma cmp_z_inj x y : (inject_Z x ?= inject_Z y)%Q = (x ?= y)%Z.
Proof. unfold Qcompare, inject_Z. cbn [Qnum Qden]. now rewrite !Z.mul_1_r. Qed.
Lemma sgn2_int_cmp a b : sgn2_int a b = cmp_z (a ?= b)%Z.
Proof.
  unfold sgn2_int. destruct (Z.compare_spec a b), (Z.ltb_spec a b), (Z.eqb_spec a b); cbn; auto; lia.
Qed.
Lemma sgn2_num c u v x y : ty u <> ty v -> numval u = Some x -> numval v = Some y -> sgn2 c u v = cmp_z (x ?= y)%Q.
Proof.
  destruct u, v; cbn [numval]; intros Ht Hx Hy; try discriminate; try congruence;
    injection Hx as <-; injection Hy as <-; unfold sgn2, eval_scalar, eval_real, char_equal;
    cbn [ty which_type arith_type rank_ty Z.ltb Z.compare Pos.compare Pos.compare_cont to_type bind fn_big fn_rat fn_int];
    unfold q_cmp; rewrite ?cmp_z_inj;
    match goal with |- context [cmp_op BLt ?r] => destruct r end; reflexivity.
Qed.
(* < and == do not fail where OrderedCompare calls them. *)
Lemma sgn2_defined c u v x y : numval u = Some x -> numval v = Some y ->
  exists a b, eval_scalar c BLt u v = Ok a /\ eval_scalar c BEq u v = Ok b.
Proof.
  destruct u, v; cbn [numval]; intros Hx Hy; try discriminate; do 2 eexists; split; reflexivity.
Qed.
Lemma compare_num c u v x y : numval u = Some x -> numval v = Some y -> ordered_compare c u v = cmp_z (x ?= y)%Q.
Proof.
  intros Hx Hy. rewrite compare_eq. destruct u, v; try discriminate; cbn [compare_body].
  all: try (eapply sgn2_num; eauto; cbn; discriminate).
  all: cbn in Hx, Hy; injection Hx as <-; injection Hy as <-; rewrite ?sgn2_int_cmp, ?cmp_z_inj; reflexivity.
Qed.
Lemma cmp_z_opp r : cmp_z (CompOpp r) = (- cmp_z r)%Z.
Proof. now destruct r. Qed.
Lemma cmp_z_eq x y : cmp_z (x ?= y)%Q = 0%Z <-> (x == y)%Q.
Proof. rewrite Qeq_alt. destruct (x ?= y)%Q; cbn; easy. Qed.
Lemma cmp_z_lt x y : (cmp_z (x ?= y)%Q < 0)%Z <-> (x < y)%Q.
Proof. rewrite Qlt_alt. destruct (x ?= y)%Q; cbn; split; intros; try lia; congruence. Qed.
Lemma cmp_z_le x y : (cmp_z (x ?= y)%Q <= 0)%Z <-> (x <= y)%Q.
Proof. rewrite Qle_alt. destruct (x ?= y)%Q; cbn; split; intros; try lia; congruence. Qed.

Lemma exact_vec l : exact (VVec l) <-> Forall exact l.
Proof. induction l as [|x l IH]; cbn in *; [split; auto; constructor|]. rewrite Forall_cons_iff, <-IH. reflexivity. Qed.
Lemma exact_mat s l : exact (VMat s l) <-> Forall exact l.
Proof. induction l as [|x l IH]; cbn in *; [split; auto; constructor|]. rewrite Forall_cons_iff, <-IH. reflexivity. Qed.

Lemma num_zero b y : numval b = Some y -> ~ (y == 0)%Q -> isZero b = false.
Proof.
  destruct b; cbn; intros H Hy; try discriminate; injection H as <-; apply Z.eqb_neq; intros E; apply Hy;
    unfold Qeq; cbn; lia.
Qed.
(* values of different classes *)
Lemma compare_class c u v : exact u -> exact v -> class u <> class v ->
  ordered_compare c u v = if class u <? class v then (-1)%Z else 1%Z.
Proof.
  intros Hu Hv Hc. rewrite compare_eq.
  destruct u, v; cbn [class] in Hc; try congruence; cbn [compare_body class Nat.ltb Nat.leb is_real]; auto.
  all: repeat match goal with H : exact (VCplx _ _) |- _ => let x := fresh in let y := fresh in let h := fresh in
    destruct H as (x & y & _ & h & ?); rewrite (num_zero _ _ h) by assumption end; reflexivity.
Qed.
Lemma compare_cplx c a b d e x y x' y' : numval a = Some x -> numval b = Some y -> numval d = Some x' -> numval e = Some y' ->
  ordered_compare c (VCplx a b) (VCplx d e) = let s := cmp_z (x ?= x')%Q in if (s =? 0)%Z then cmp_z (y ?= y')%Q else s.
Proof.
  intros H1 H2 H3 H4. rewrite compare_eq. cbn [compare_body].
  rewrite (compare_num _ _ _ _ _ H1 H3), (compare_num _ _ _ _ _ H2 H4). reflexivity.
Qed.
Lemma compare_vec c l l' : ordered_compare c (VVec l) (VVec l') = cmp_lists (ordered_compare c) l l'.
Proof. rewrite compare_eq. reflexivity. Qed.
Lemma compare_mat c s s' l l' : ordered_compare c (VMat s l) (VMat s' l') = cmp_lists (ordered_compare c) l l'.
Proof. rewrite compare_eq. reflexivity. Qed.
Lemma compare_char c a b : ordered_compare c (VChar a) (VChar b) = cmp_z (a ?= b)%Z.
Proof. rewrite compare_eq. cbn [compare_body]. apply sgn2_int_cmp. Qed.

(* A case analysis of two exact values of the same class. *)
Inductive same_class : value -> value -> Prop :=
| sc_char a b : same_class (VChar a) (VChar b)
| sc_num u v x y : numval u = Some x -> numval v = Some y -> same_class u v
| sc_cplx a b d e x y x' y' : numval a = Some x -> numval b = Some y -> numval d = Some x' -> numval e = Some y' ->
    same_class (VCplx a b) (VCplx d e)
| sc_vec l l' : Forall exact l -> Forall exact l' -> same_class (VVec l) (VVec l')
| sc_mat s s' l l' : Forall exact l -> Forall exact l' -> same_class (VMat s l) (VMat s' l').
Lemma classes u v : exact u -> exact v -> class u = class v -> same_class u v.
Proof.
  destruct u, v; intros Hu Hv Hc; try discriminate; try (now eapply sc_num; reflexivity); try now constructor.
  - destruct Hu as (x & y & H1 & H2 & _), Hv as (x' & y' & H3 & H4 & _). eapply sc_cplx; eauto.
  - apply sc_vec; now apply exact_vec.
  - apply sc_mat; eapply exact_mat; eassumption.
Qed.

(* ---- antisymmetry ---- *)
Lemma lex_opp f l l' : (forall x y, In x l -> In y l' -> f y x = (- f x y)%Z) -> length l = length l' -> lex f l' l = (- lex f l l')%Z.
Proof.
  revert l'. induction l as [|x l IH]; intros [|y l'] H HL; try discriminate; cbn [lex]; auto.
  rewrite (H x y) by (now left). destruct (Z.eqb_spec (f x y) 0) as [->|Hn].
  - cbn [Z.opp Z.eqb]. apply IH; [|now injection HL]. intros; apply H; now right.
  - destruct (Z.eqb_spec (- f x y) 0); [lia|reflexivity].
Qed.
Lemma cmp_lists_opp f l l' : (forall x y, In x l -> In y l' -> f y x = (- f x y)%Z) -> cmp_lists f l' l = (- cmp_lists f l l')%Z.
Proof.
  intros H. unfold cmp_lists. rewrite (Nat.eqb_sym (length l')). destruct (Nat.eqb_spec (length l) (length l')) as [E|E]; cbn [negb].
  - now apply lex_opp.
  - rewrite !sgn2_int_cmp, <-cmp_z_opp, <-Z.compare_antisym. reflexivity.
Qed.
Lemma q_cmp_opp x y : (y ?= x)%Q = CompOpp (x ?= y)%Q.
Proof. unfold Qcompare. apply Z.compare_antisym. Qed.
Lemma compare_opp c : forall n u v, vsize u <= n -> exact u -> exact v -> ordered_compare c v u = (- ordered_compare c u v)%Z.
Proof.
  induction n as [|n IH]; intros u v Hn Hu Hv; [pose proof (vsize_pos u); lia|].
  destruct (Nat.eq_dec (class u) (class v)) as [E|E].
  - destruct (classes u v Hu Hv E) as [a b|u v x y Hx Hy|a b d e x y x' y' H1 H2 H3 H4|l l' Hl Hl'|s s' l l' Hl Hl'].
    + rewrite !compare_char, <-cmp_z_opp, <-Z.compare_antisym. reflexivity.
    + rewrite (compare_num _ _ _ _ _ Hx Hy), (compare_num _ _ _ _ _ Hy Hx), q_cmp_opp, cmp_z_opp. reflexivity.
    + rewrite (compare_cplx c d e a b _ _ _ _ H3 H4 H1 H2), (compare_cplx c a b d e _ _ _ _ H1 H2 H3 H4). cbv zeta.
      rewrite (q_cmp_opp x x'), (q_cmp_opp y y'), !cmp_z_opp. destruct (x ?= x')%Q; cbn; auto.
    + rewrite !compare_vec. apply cmp_lists_opp. intros x y Hx Hy. rewrite Forall_forall in Hl, Hl'. apply IH; auto.
      cbn [vsize] in Hn. pose proof (vsize_in _ _ Hx). lia.
    + rewrite !compare_mat. apply cmp_lists_opp. intros x y Hx Hy. rewrite Forall_forall in Hl, Hl'. apply IH; auto.
      cbn [vsize] in Hn. pose proof (vsize_in _ _ Hx). lia.
  - rewrite !compare_class by auto. destruct (Nat.ltb_spec (class u) (class v)), (Nat.ltb_spec (class v) (class u)); lia.
Qed.

(* ---- transitivity ---- *)
Definition trans_at (f : value -> value -> Z) (u v w : value) : Prop :=
  (f u v <= 0)%Z -> (f v w <= 0)%Z -> (f u w <= 0)%Z /\ ((f u v < 0)%Z \/ (f v w < 0)%Z -> (f u w < 0)%Z).
Lemma lex_trans f : forall l1 l2 l3, length l1 = length l2 -> length l2 = length l3 ->
  (forall x y z, In x l1 -> In y l2 -> In z l3 -> trans_at f x y z) ->
  (lex f l1 l2 <= 0)%Z -> (lex f l2 l3 <= 0)%Z -> (lex f l1 l3 <= 0)%Z /\ ((lex f l1 l2 < 0)%Z \/ (lex f l2 l3 < 0)%Z -> (lex f l1 l3 < 0)%Z).
Proof.
  induction l1 as [|x l1 IH]; intros [|y l2] [|z l3] L1 L2 H; try discriminate; cbn [lex]; [lia|].
  assert (T : trans_at f x y z) by (apply H; now left). unfold trans_at in T.
  specialize (IH l2 l3 ltac:(now injection L1) ltac:(now injection L2) ltac:(intros; apply H; now right)).
  destruct (Z.eqb_spec (f x y) 0), (Z.eqb_spec (f y z) 0), (Z.eqb_spec (f x z) 0); lia.
Qed.
Lemma cmp_lists_trans f l1 l2 l3 : (forall x y z, In x l1 -> In y l2 -> In z l3 -> trans_at f x y z) ->
  (cmp_lists f l1 l2 <= 0)%Z -> (cmp_lists f l2 l3 <= 0)%Z ->
  (cmp_lists f l1 l3 <= 0)%Z /\ ((cmp_lists f l1 l2 < 0)%Z \/ (cmp_lists f l2 l3 < 0)%Z -> (cmp_lists f l1 l3 < 0)%Z).
Proof.
  intros H. unfold cmp_lists, sgn2_int.
  destruct (Nat.eqb_spec (length l1) (length l2)) as [E1|E1], (Nat.eqb_spec (length l2) (length l3)) as [E2|E2],
    (Nat.eqb_spec (length l1) (length l3)) as [E3|E3]; cbn [negb]; try lia.
  - now apply lex_trans.
  - destruct (Z.ltb_spec (Z.of_nat (length l2)) (Z.of_nat (length l3))), (Z.eqb_spec (Z.of_nat (length l2)) (Z.of_nat (length l3))),
      (Z.ltb_spec (Z.of_nat (length l1)) (Z.of_nat (length l3))), (Z.eqb_spec (Z.of_nat (length l1)) (Z.of_nat (length l3))); lia.
  - destruct (Z.ltb_spec (Z.of_nat (length l1)) (Z.of_nat (length l2))), (Z.eqb_spec (Z.of_nat (length l1)) (Z.of_nat (length l2))),
      (Z.ltb_spec (Z.of_nat (length l1)) (Z.of_nat (length l3))), (Z.eqb_spec (Z.of_nat (length l1)) (Z.of_nat (length l3))); lia.
  - destruct (Z.ltb_spec (Z.of_nat (length l1)) (Z.of_nat (length l2))), (Z.eqb_spec (Z.of_nat (length l1)) (Z.of_nat (length l2))),
      (Z.ltb_spec (Z.of_nat (length l2)) (Z.of_nat (length l3))), (Z.eqb_spec (Z.of_nat (length l2)) (Z.of_nat (length l3))); lia.
  - destruct (Z.ltb_spec (Z.of_nat (length l1)) (Z.of_nat (length l2))), (Z.eqb_spec (Z.of_nat (length l1)) (Z.of_nat (length l2))),
      (Z.ltb_spec (Z.of_nat (length l1)) (Z.of_nat (length l3))), (Z.eqb_spec (Z.of_nat (length l1)) (Z.of_nat (length l3))),
      (Z.ltb_spec (Z.of_nat (length l2)) (Z.of_nat (length l3))), (Z.eqb_spec (Z.of_nat (length l2)) (Z.of_nat (length l3))); lia.
Qed.
Lemma q_trans x y z : 
  (cmp_z (x ?= y)%Q <= 0)%Z -> (cmp_z (y ?= z)%Q <= 0)%Z -> (cmp_z (x ?= z)%Q <= 0)%Z /\
  ((cmp_z (x ?= y)%Q < 0)%Z \/ (cmp_z (y ?= z)%Q < 0)%Z -> (cmp_z (x ?= z)%Q < 0)%Z).
Proof. rewrite !cmp_z_le, !cmp_z_lt. intros H1 H2. split; [lra|]. intros [H|H]; lra. Qed.
Lemma z_trans x y z : 
  (cmp_z (x ?= y)%Z <= 0)%Z -> (cmp_z (y ?= z)%Z <= 0)%Z -> (cmp_z (x ?= z)%Z <= 0)%Z /\
  ((cmp_z (x ?= y)%Z < 0)%Z \/ (cmp_z (y ?= z)%Z < 0)%Z -> (cmp_z (x ?= z)%Z < 0)%Z).
Proof. destruct (Z.compare_spec x y), (Z.compare_spec y z), (Z.compare_spec x z); cbn; lia. Qed.
Lemma same_class_class u v : same_class u v -> class u = class v.
Proof. destruct 1 as [|u v x y Hx Hy| | |]; auto. destruct u, v; easy. Qed.
Lemma compare_trans c : forall n u v w, vsize u <= n -> exact u -> exact v -> exact w -> trans_at (ordered_compare c) u v w.
Proof.
  induction n as [|n IH]; intros u v w Hn Hu Hv Hw; [pose proof (vsize_pos u); lia|]. unfold trans_at.
  destruct (Nat.eq_dec (class u) (class v)) as [E|E], (Nat.eq_dec (class v) (class w)) as [E'|E'].
  - destruct (classes u v Hu Hv E) as [a b|u v x y Hx Hy|a b d e x y x' y' H1 H2 H3 H4|l l' Hl Hl'|s s' l l' Hl Hl'].
    + destruct w; try discriminate. rewrite !compare_char. apply z_trans.
    + assert (exists z, numval w = Some z) as [z Hz] by (destruct v, w; try discriminate; cbn; eauto).
      rewrite (compare_num _ _ _ _ _ Hx Hy), (compare_num _ _ _ _ _ Hx Hz), (compare_num _ _ _ _ _ Hy Hz). apply q_trans.
    + destruct w as [| | | |g h| |]; try discriminate. destruct Hw as (x3 & y3 & H5 & H6 & _).
      rewrite (compare_cplx c a b d e _ _ _ _ H1 H2 H3 H4), (compare_cplx c d e g h _ _ _ _ H3 H4 H5 H6), (compare_cplx c a b g h _ _ _ _ H1 H2 H5 H6).
      cbv zeta. pose proof (q_trans x x' x3) as A. pose proof (q_trans y y' y3) as B.
      destruct (x ?= x')%Q, (x' ?= x3)%Q, (x ?= x3)%Q; cbn [cmp_z Z.eqb] in *; lia.
    + destruct w; try discriminate. apply exact_vec in Hw. rewrite !compare_vec. apply cmp_lists_trans. intros x y z Hx Hy Hz.
      rewrite Forall_forall in Hl, Hl', Hw. apply IH; auto. cbn [vsize] in Hn. pose proof (vsize_in _ _ Hx). lia.
    + destruct w; try discriminate. apply exact_mat in Hw. rewrite !compare_mat. apply cmp_lists_trans. intros x y z Hx Hy Hz.
      rewrite Forall_forall in Hl, Hl', Hw. apply IH; auto. cbn [vsize] in Hn. pose proof (vsize_in _ _ Hx). lia.
  - rewrite (compare_class c v w), (compare_class c u w) by (auto; congruence). rewrite E. destruct (class v <? class w); lia.
  - rewrite (compare_class c u v), (compare_class c u w) by (auto; congruence). rewrite E'. destruct (class u <? class w); lia.
  - rewrite (compare_class c u v), (compare_class c v w) by auto.
    destruct (Nat.ltb_spec (class u) (class v)), (Nat.ltb_spec (class v) (class w)); try lia.
    rewrite (compare_class c u w) by (auto; lia). destruct (Nat.ltb_spec (class u) (class w)); lia.
Qed.

(* ---- equality ---- *)
Lemma lex_zero f l l' : length l = length l' -> (lex f l l' = 0%Z <-> Forall2 (fun x y => f x y = 0%Z) l l').
Proof.
  revert l'. induction l as [|x l IH]; intros [|y l'] HL; try discriminate; cbn [lex]; [split; [constructor|reflexivity]|].
  destruct (Z.eqb_spec (f x y) 0) as [E|E].
  - rewrite IH by (now injection HL). split; [intros; now constructor|now inversion 1].
  - split; [lia|]. inversion 1; lia.
Qed.
Lemma Forall2_len {A B} (R : A -> B -> Prop) l l' : Forall2 R l l' -> length l = length l'.
Proof. induction 1; cbn; auto. Qed.
Lemma cmp_lists_zero f l l' : cmp_lists f l l' = 0%Z <-> Forall2 (fun x y => f x y = 0%Z) l l'.
Proof.
  unfold cmp_lists. destruct (Nat.eqb_spec (length l) (length l')) as [E|E]; cbn [negb]; [now apply lex_zero|].
  unfold sgn2_int. split; [|intros H; now apply Forall2_len in H].
  destruct (Z.ltb_spec (Z.of_nat (length l)) (Z.of_nat (length l'))), (Z.eqb_spec (Z.of_nat (length l)) (Z.of_nat (length l'))); lia.
Qed.
Lemma Forall2_iff_in {A B} (P Q : A -> B -> Prop) l l' : (forall x y, In x l -> In y l' -> (P x y <-> Q x y)) -> Forall2 P l l' <-> Forall2 Q l l'.
Proof.
  revert l'. induction l as [|x l IH]; intros l' H; split; inversion 1; subst; constructor;
    try (apply H; [now left|now left|assumption]); (eapply IH; [|eassumption]); intros; rewrite (H x0 y0); try tauto; now right.
Qed.
Lemma compare_zero c : forall n u v, vsize u <= n -> exact u -> exact v -> (ordered_compare c u v = 0%Z <-> alike u v).
Proof.
  induction n as [|n IH]; intros u v Hn Hu Hv; [pose proof (vsize_pos u); lia|].
  destruct (Nat.eq_dec (class u) (class v)) as [E|E].
  - destruct (classes u v Hu Hv E) as [a b|u v x y Hx Hy|a b d e x y x' y' H1 H2 H3 H4|l l' Hl Hl'|s s' l l' Hl Hl'].
    + rewrite compare_char. split.
      * destruct (Z.compare_spec a b); try discriminate. subst. constructor.
      * inversion 1; subst; [now rewrite Z.compare_refl|discriminate].
    + rewrite (compare_num _ _ _ _ _ Hx Hy), cmp_z_eq. split; [intros; econstructor; eauto|].
      inversion 1; subst; try discriminate. congruence.
    + rewrite (compare_cplx c a b d e _ _ _ _ H1 H2 H3 H4). cbv zeta. split.
      * intros H. destruct (cmp_z (x ?= x')%Q =? 0)%Z eqn:Ex; [|apply Z.eqb_neq in Ex; lia]. apply Z.eqb_eq, cmp_z_eq in Ex. apply cmp_z_eq in H.
        constructor; eapply eu_num; eauto.
      * inversion 1; subst; [discriminate|].
        assert (G : forall p q r s, alike p q -> numval p = Some r -> numval q = Some s -> cmp_z (r ?= s)%Q = 0%Z).
        { intros p q r s Hpq Hp Hq. apply cmp_z_eq. inversion Hpq; subst; try discriminate; congruence. }
        rewrite (G a d x x') by assumption. cbn. eapply G; eauto.
    + rewrite compare_vec, cmp_lists_zero. rewrite (Forall2_iff_in _ alike).
      * split; [intros; now constructor|]. now inversion 1; subst.
      * intros x y Hx Hy. rewrite Forall_forall in Hl, Hl'. apply IH; auto. cbn [vsize] in Hn. pose proof (vsize_in _ _ Hx). lia.
    + rewrite compare_mat, cmp_lists_zero. rewrite (Forall2_iff_in _ alike).
      * split; [intros; now constructor|]. now inversion 1; subst.
      * intros x y Hx Hy. rewrite Forall_forall in Hl, Hl'. apply IH; auto. cbn [vsize] in Hn. pose proof (vsize_in _ _ Hx). lia.
  - rewrite compare_class by auto. split.
    + destruct (class u <? class v); lia.
    + inversion 1; subst; cbn in E; try congruence. destruct u, v; cbn in *; congruence.
Qed.

(* ---- summary on exact values ---- *)
Section Facts.
Variable c : conf.
Lemma oc_opp u v : exact u -> exact v -> ordered_compare c v u = (- ordered_compare c u v)%Z.
Proof. intros. eapply compare_opp; eauto. Qed.
Lemma oc_trans u v w : exact u -> exact v -> exact w -> trans_at (ordered_compare c) u v w.
Proof. intros. eapply compare_trans; eauto. Qed.
Lemma oc_zero u v : exact u -> exact v -> (ordered_compare c u v = 0%Z <-> alike u v).
Proof. intros. eapply compare_zero; eauto. Qed.
Lemma oc_refl u : exact u -> ordered_compare c u u = 0%Z.
Proof. intros H. pose proof (oc_opp u u H H). lia. Qed.
Lemma oc_range_body f u v : (forall x y, (-1 <= f x y <= 1)%Z) -> (-1 <= compare_body f c u v <= 1)%Z.
Proof.
  intros H. assert (L : forall l l', (-1 <= lex f l l' <= 1)%Z).
  { induction l as [|x l IH]; intros [|y l']; cbn [lex]; try lia. destruct (f x y =? 0)%Z; auto. }
  assert (S2 : forall a b, (-1 <= sgn2_int a b <= 1)%Z) by (intros; unfold sgn2_int; destruct (a <? b)%Z, (a =? b)%Z; lia).
  assert (C : forall l l', (-1 <= cmp_lists f l l' <= 1)%Z) by (intros; unfold cmp_lists; destruct (negb _); auto).
  assert (Z2 : forall r, (-1 <= cmp_z r <= 1)%Z) by (intros []; cbn; lia).
  destruct u, v; cbn [compare_body is_real]; auto; try lia.
  all: try (destruct (isZero _); auto; lia).
  all: try (unfold sgn2; repeat match goal with |- context [is_one ?r] => destruct (is_one r) end; lia).
  cbv zeta. match goal with |- context [(?r =? 0)%Z] => destruct (r =? 0)%Z end; auto.
Qed.
Lemma oc_range u v : (-1 <= ordered_compare c u v <= 1)%Z.
Proof.
  unfold ordered_compare. generalize (vsize u + vsize v). intros n. revert u v.
  induction n as [|n IH]; intros u v; cbn [compare_fuel]; apply oc_range_body; auto. intros; lia.
Qed.
End Facts.

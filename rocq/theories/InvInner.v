From Coq Require Import QArith Setoid Ring.
From Verif Require Import Value NumModel NumSpec ArrModel ArrSpec ArrBase EvalModel EvalSpec EvalProofs EvalReduce InvModel InvSpec InvProofs InvMat.
Open Scope nat_scope.
Add Ring cring3 : c_ring (setoid ceq_equiv c_ext).

Lemma csum_head n f : ceq (csum (S n) f) (cadd (f 0) (csum n (fun k => f (S k)))).
Proof. induction n as [|n IH]; [cbn [csum]; ring|]. cbn [csum] in *. rewrite IH. ring. Qed.

Lemma rinner_num c : forall l k, length l = length k -> l <> [] -> Forall cvalid l -> Forall cvalid k ->
  okc c (rinner (ev_std c BAdd) (ev_std c BMul) (combine l k))
    (fun v => cvalid v /\ ceq (num v) (csum (length l) (fun i => cmul (num (nth i l vd)) (num (nth i k vd))))).
Proof.
  induction l as [|a l IH]; intros [|b k] L N Fl Fk; try discriminate; [congruence|].
  inversion Fl as [|? ? Va Fl']; inversion Fk as [|? ? Vb Fk']; subst. destruct l as [|a' l], k as [|b' k]; try discriminate.
  - cbn [combine rinner]. eapply okc_impl; [apply mul_num; assumption|]. intros v [Vv Ev]. split; [exact Vv|]. rewrite Ev. cbn [length csum nth]. ring.
  - cbn [combine]. change (rinner (ev_std c BAdd) (ev_std c BMul) ((a, b) :: (a', b') :: combine l k)) with
      (let! r := rinner (ev_std c BAdd) (ev_std c BMul) (combine (a' :: l) (b' :: k)) in let! p := ev_std c BMul a b in ev_std c BAdd p r).
    eapply okc_bind; [apply IH; auto; discriminate|]. intros r [Vr Er]. eapply okc_bind; [apply (mul_num c a b); assumption|].
    intros p [Vp Ep]. eapply okc_impl; [apply add_num; assumption|]. intros v [Vv Ev]. split; [exact Vv|].
    rewrite Ev, Ep, Er. change (length (a :: a' :: l)) with (S (length (a' :: l))). rewrite csum_head. reflexivity.
Qed.

Lemma elem_some v c : wf v -> inb (shape_of v) c -> exists x, elem v c = Some x.
Proof.
  intros W I. unfold elem. pose proof (ravel_lt _ _ I) as R.
  assert (length (data_of v) = vol (shape_of v)) as L.
  { destruct v as [z|z|z|q|a b|l|s d]; try reflexivity; [cbn; unfold vol; simpl; lia|]. destruct W as (_ & L & _). exact L. }
  rewrite <-L in R. destruct (nth_error (data_of v) _) eqn:E; eauto. apply nth_error_None in E. lia.
Qed.
Lemma elem_cvalid v c x : Forall cvalid (data_of v) -> elem v c = Some x -> cvalid x.
Proof. intros F E. rewrite Forall_forall in F. apply F. unfold elem in E. eapply nth_error_In; eauto. Qed.

Lemma inner_num c u v s n t : exact_array u (s ++ [n]) -> exact_array v (n :: t) -> n <> 0 -> s ++ t <> [] ->
  (exists w, inner (ev_std c BAdd) (ev_std c BMul) u v = Ok w /\ exact_array w (s ++ t) /\
     forall e, inb (s ++ t) e -> ceq (at_c w e) (product_at n s u v e)) \/
  (legal (s ++ t) /\ inner (ev_std c BAdd) (ev_std c BMul) u v = Err /\ maxbits c <> 0%Z) \/
  (~ legal (s ++ t) /\ forall w, inner (ev_std c BAdd) (ev_std c BMul) u v <> Ok w).
Proof.
  intros (Wu & Su & Fu) (Wv & Sv & Fv) Hn Hst.
  destruct (inner_mat_ok (ev_std c BAdd) (ev_std c BMul) u v s n t Wu Wv Su Sv Hn Hst) as [H1 H2].
  destruct (legal_dec (s ++ t)) as [Lg|Lg]; [|right; right; split; [exact Lg|apply H2, Lg]].
  assert (forall e, inb (s ++ t) e -> okc c (rinner (ev_std c BAdd) (ev_std c BMul) (combine (row u n (firstn (length s) e)) (column v n (skipn (length s) e))))
    (fun x => cvalid x /\ ceq (num x) (product_at n s u v e))) as K.
  { intros e He. assert (inb s (firstn (length s) e) /\ inb t (skipn (length s) e)) as [I1 I2].
    { rewrite <-(firstn_skipn (length s) e) in He. apply inb_app in He; [exact He|]. rewrite firstn_length. apply inb_len in He.
      rewrite firstn_skipn, app_length in He. lia. }
    assert (forall k, k < n -> inb (s ++ [n]) (firstn (length s) e ++ [k])) as Iu.
    { intros k Hk. apply inb_app; [apply (inb_len _ _ I1)|]. split; [exact I1|]. apply inb_cons. split; [exact Hk|apply inb_nil]. }
    assert (forall k, k < n -> inb (n :: t) (k :: skipn (length s) e)) as Iv.
    { intros k Hk. apply inb_cons. auto. }
    eapply okc_impl; [apply rinner_num|].
    - unfold row, column. rewrite !map_length. reflexivity.
    - unfold row. destruct n; [lia|]. discriminate.
    - apply Forall_forall. intros x Hx. apply in_map_iff in Hx. destruct Hx as (k & <- & Hk). apply in_seq in Hk.
      destruct (elem_some u (firstn (length s) e ++ [k]) Wu) as [x E]; [rewrite Su; apply Iu; lia|]. rewrite E. exact (elem_cvalid _ _ _ Fu E).
    - apply Forall_forall. intros x Hx. apply in_map_iff in Hx. destruct Hx as (k & <- & Hk). apply in_seq in Hk.
      destruct (elem_some v (k :: skipn (length s) e) Wv) as [x E]; [rewrite Sv; apply Iv; lia|]. rewrite E. exact (elem_cvalid _ _ _ Fv E).
    - intros x [Vx Ex]. split; [exact Vx|]. rewrite Ex. unfold product_at. unfold row at 1. rewrite map_length, seq_length.
      apply csum_ext. intros k Hk. unfold row, column. rewrite !nth_map_seq by exact Hk.
      destruct (elem_some u (firstn (length s) e ++ [k]) Wu) as [x1 E1]; [rewrite Su; apply Iu; lia|].
      destruct (elem_some v (k :: skipn (length s) e) Wv) as [x2 E2]; [rewrite Sv; apply Iv; lia|].
      unfold at_c. rewrite E1, E2. reflexivity. }
  destruct (H1 Lg) as [(w & -> & Ww & Sw & Hw)|(e & He & Hf)].
  - left. exists w. split; [reflexivity|].
    assert (forall e, inb (s ++ t) e -> exists x, elem w e = Some x /\ cvalid x /\ ceq (num x) (product_at n s u v e)) as Q.
    { intros e He. destruct (Hw e He) as (x & Ex & Gx). exists x. split; [exact Ex|].
      destruct (K e He) as [(y & Gy & P)|[Gy _]]; [|congruence]. rewrite Gx in Gy. injection Gy as <-. exact P. }
    split; [split; [exact Ww|split; [exact Sw|]]|].
    + apply Forall_forall. intros x Hx. destruct (In_nth_error _ _ Hx) as [p Hp].
      assert (length (data_of w) = vol (shape_of w)) as L.
      { destruct w as [z|z|z|q|a b|l|s' d]; try reflexivity; [cbn; unfold vol; simpl; lia|]. destruct Ww as (_ & L & _). exact L. }
      assert (p < vol (s ++ t)) as Lp. { rewrite <-Sw, <-L. apply nth_error_Some. congruence. }
      destruct (Q (unravel (s ++ t) p)) as (y & Ey & Vy & _); [apply unravel_inb, Lp|].
      unfold elem in Ey. rewrite Sw, ravel_unravel in Ey by exact Lp. congruence.
    + intros e He. destruct (Q e He) as (x & Ex & _ & P). unfold at_c. rewrite Ex. exact P.
  - right; left. split; [exact Lg|]. destruct (K e He) as [(y & Gy & P)|[Gy Hm]]; rewrite Gy in Hf; cbn [fails] in Hf; [contradiction|auto].
Qed.

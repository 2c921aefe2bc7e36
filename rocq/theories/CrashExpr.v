(* C47: all operators, and expressions. *)
From Verif Require Import Value NumModel ArrModel ArrSpec ArrBase EvalModel OrdModel OrdSpec IdxModel EncModel InvModel
  CrashSpec CrashBase CrashArr CrashArr2 CrashEval CrashOrd.
Open Scope nat_scope.

Section Ops.
Variables (srt stable : sort_fn) (c : conf).
Hypothesis SRT : a_sort srt.
Set Default Proof Using "Type".
Lemma ok_arith b : ok2 (ev_std c b).
Proof. apply ok_elementwise. intros x y X Y. now apply fine_scalar. Qed.
Lemma ok_arith1 b : ok1 (ev1_std c b).
Proof. apply ok_elementwise1. intros x X. now apply fine_unary. Qed.
Lemma robust2_ok o : robust2 o = true -> ok2 (run2 srt stable c o).
Proof.
  induction o; intros H u v Su Sv; cbn [robust2 fragile2 negb andb] in H; try discriminate; cbn [run2].
  - now apply ok_arith.
  - now apply fine_rho.
  - now apply fine_transp.
  - now apply fine_cat_first.
  - now apply fine_take.
  - now apply fine_drop.
  - now apply fine_fill.
  - now apply fine_part.
  - apply sound_to_int.
  - apply sound_to_int.
  - now apply ok_in.
  - now apply ok_union.
  - now apply ok_intersect.
  - now apply ok_encode.
  - apply ok_outer; auto.
  - apply ok_each2_again; auto.
Qed.
Lemma clear_empty u : (matrix u /\ empty_axis u) \/ ~ (matrix u /\ empty_axis u).
Proof.
  unfold empty_axis. destruct (in_dec Nat.eq_dec 0 (shape_of u)); destruct u; cbn [matrix]; tauto.
Qed.
Lemma guarded2_ok o u v : guarded2 o = true -> sound u -> sound v -> clear u v \/ fragile2 o = false -> fine sound (run2 srt stable c o u v).
Proof.
  intros G Su Sv [CL|NF].
  - destruct o; try (now apply robust2_ok); cbn [run2 guarded2] in *.
    + now apply fine_rot.
    + now apply fine_flip.
    + now apply fine_cat.
    + now apply fine_sel.
    + now apply fine_iota2.
    + apply fine_decode; auto; apply ok_arith.
    + apply fine_mdiv; auto; intros; [apply ok_arith|apply ok_arith1].
    + apply andb_prop in G. destruct G. apply fine_inner; auto; now apply robust2_ok.
  - apply robust2_ok; auto. destruct o; cbn [robust2 guarded2 fragile2 negb andb] in *; auto; discriminate.
Qed.
Lemma robust1_ok o : robust1 o = true -> ok1 (run1 srt stable c o).
Proof using SRT.
  induction o; intros H v S; cbn [robust1 fragile1 negb andb] in H; try discriminate; cbn [run1].
  - now apply ok_arith1.
  - now apply fine_flip1.
  - now apply fine_iota1.
  - now apply fine_where.
  - apply sound_rho1.
  - apply sound_count.
  - now apply sound_ravel.
  - apply sound_vec, sound_flatten, S.
  - now apply fine_split.
  - now apply fine_mix.
  - now apply ok_unique.
  - apply ok_reduce; auto. now apply robust2_ok.
  - apply ok_reduce_first; auto. now apply robust2_ok.
  - apply ok_scan; auto. now apply robust2_ok.
  - apply ok_scan_first; auto. now apply robust2_ok.
  - apply ok_each_again; auto.
Qed.
Lemma guarded1_ok o v : guarded1 o = true -> sound v -> ~ (matrix v /\ empty_axis v) \/ fragile1 o = false -> fine sound (run1 srt stable c o v).
Proof using SRT.
  unfold guarded1. intros G S [NE|NF].
  - destruct (fragile1 o) eqn:F; [|now apply robust1_ok]. destruct o; try discriminate; cbn [run1].
    + now apply fine_rot1.
    + now apply fine_transp1.
    + now apply fine_up.
    + now apply fine_down.
    + apply fine_inverse; auto; intros; [apply ok_arith|apply ok_arith1].
  - rewrite NF in G. now apply robust1_ok.
Qed.

(* ---- expressions ---- *)
Lemma expr_ind' (P : expr -> Prop) :
  (forall v, P (Const v)) -> (forall o e, P e -> P (Un o e)) -> (forall o e e', P e -> P e' -> P (Bin o e e')) ->
  (forall e l, P e -> Forall (fun x => match x with Some y => P y | None => True end) l -> P (Ix e l)) -> forall e, P e.
Proof.
  intros HC HU HB HI. fix IH 1. intros [v|o e|o e e'|e l]; [apply HC|apply HU, IH|apply HB; apply IH|].
  apply HI; [apply IH|]. induction l as [|[x|] l IHl]; constructor; auto.
Qed.
Notation val := (value_of srt stable c).
Notation meets := (meets_empty srt stable c).
Fixpoint vals (l : list (option expr)) : res (list (option value)) :=
  match l with
  | [] => Ok []
  | None :: l' => let! r := vals l' in Ok (None :: r)
  | Some x :: l' => let! r := vals l' in let! w := val x in Ok (Some w :: r)
  end.
Lemma value_ix e l : val (Ix e l) = let! xs := vals l in let! v := val e in op_index c v xs.
Proof.
  cbn [value_of].
  match goal with |- bind (?g l) _ = _ => assert (forall k, g k = vals k) as -> end; [|reflexivity].
  induction k as [|[x|] k IH]; [reflexivity| |]; cbn [vals]; rewrite <-IH; reflexivity.
Qed.
Lemma empty_dec v : empty_axis v \/ ~ empty_axis v.
Proof. unfold empty_axis. destruct (in_dec Nat.eq_dec 0 (shape_of v)); auto. Qed.
Lemma matrix_dec v : matrix v \/ ~ matrix v.
Proof. destruct v; cbn; auto. Qed.
Lemma expr_fine e : proper e -> meets e \/ fine sound (val e).
Proof using SRT.
  induction e as [v|o e IH|o e e' IH IH'|e l IH IHl] using expr_ind'; cbn [proper]; intros H.
  - right. exact H.
  - destruct H as [G H]. destruct (IH H) as [M|F]; [left; now apply me_in_un|]. cbn [value_of].
    destruct (val e) as [v| | |] eqn:E; [|right; exact Logic.I|contradiction|right; exact Logic.I]. cbn [bind].
    destruct (fragile1 o) eqn:FR; [|right; apply guarded1_ok; auto].
    destruct (clear_empty v) as [[C1 C2]|C]; [left; eapply me_un; eauto|right; apply guarded1_ok; auto].
  - destruct H as (G & H & H'). destruct (IH' H') as [M|F']; [left; now apply me_in_right|].
    destruct (IH H) as [M|F]; [left; now apply me_in_left|]. cbn [value_of].
    destruct (val e') as [v| | |] eqn:E'; [|right; exact Logic.I|contradiction|right; exact Logic.I]. cbn [bind].
    destruct (val e) as [u| | |] eqn:E; [|right; exact Logic.I|contradiction|right; exact Logic.I]. cbn [bind].
    destruct (fragile2 o) eqn:FR; [|right; apply guarded2_ok; auto].
    assert ((matrix u \/ matrix v) /\ (empty_axis u \/ empty_axis v) \/ clear u v) as [[A B]|CL].
    { unfold clear. destruct (matrix_dec u), (matrix_dec v), (empty_dec u), (empty_dec v); tauto. }
    + left. eapply me_bin; eauto.
    + right. apply guarded2_ok; auto.
  - destruct H as [H HL]. destruct (IH H) as [M|F]; [left; now apply me_in_array|].
    assert ((exists x, In (Some x) l /\ meets x) \/
      fine (Forall (fun x => match x with Some w => sound w | None => True end)) (vals l)) as [(x & I & M)|FX].
    { clear H F IH. induction l as [|[x|] l IH]; [right; constructor| |]; inversion IHl as [|? ? P Q]; subst; cbn [vals].
      - destruct HL as [HX HL]. destruct (IH Q HL) as [(y & I & M)|FL]; [left; exists y; split; [now right|exact M]|].
        destruct (P HX) as [M|FX]; [left; exists x; split; [now left|exact M]|]. right.
        eapply fine_bind; [exact FL|]. intros r _ R. eapply fine_bind; [exact FX|]. intros w _ W. now constructor.
      - destruct (IH Q HL) as [(y & I & M)|FL]; [left; exists y; split; [now right|exact M]|]. right.
        eapply fine_bind; [exact FL|]. intros r _ R. now constructor. }
    + left. eapply me_in_index; eauto.
    + rewrite value_ix. destruct (vals l) as [xs| | |]; [|right; exact Logic.I|contradiction|right; exact Logic.I]. cbn [bind].
      destruct (val e) as [v| | |] eqn:E; [|right; exact Logic.I|contradiction|right; exact Logic.I]. cbn [bind].
      destruct (empty_dec v) as [EM|EM]; [left; eapply me_index; eauto|]. right. now apply fine_index.
Qed.
End Ops.

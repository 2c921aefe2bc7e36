(* When indexing succeeds; the laws in terms of target. *)
From Verif Require Import Value NumModel ArrSpec ArrBase ArrRot EvalSpec EvalProofs ParModel ParSpec ParProofs IdxModel IdxSpec IdxProofs IdxOps IdxAssign.
Open Scope nat_scope.

Lemma index_in_cases o n e : index_in o n e = Err \/ exists z, e = VInt z /\ (o <= z < o + Z.of_nat n)%Z /\ index_in o n e = Ok (key o e).
Proof.
  destruct e as [z| | | | | |]; cbn [index_in]; auto. destruct (Z.ltb_spec z o), (Z.leb_spec (Z.of_nat n) (z - o)); cbn [orb]; auto.
  right. exists z. split; [auto|]. split; [lia|reflexivity].
Qed.
Lemma mapM_index_cases o n l : mapM (index_in o n) l = Err \/ (Forall (fun e => exists z, e = VInt z /\ (o <= z < o + Z.of_nat n)%Z) l /\ mapM (index_in o n) l = Ok (map (key o) l)).
Proof.
  induction l as [|e l IH]; [right; split; [constructor|reflexivity]|]. cbn [mapM].
  destruct (index_in_cases o n e) as [->|(z & -> & Hz & ->)]; [now left|]. cbn [bind].
  destruct IH as [->|[F ->]]; [now left|]. right. split; [constructor; eauto|reflexivity].
Qed.
Lemma check_cases o : forall xs s, length xs <= length s -> Forall wf_index xs -> check_indexes o s (fills o s xs) = Err \/ valid o s xs.
Proof.
  induction xs as [|x xs IH]; intros [|n s] L F; cbn [length] in L; try lia; try (now (right; constructor)). cbn [fills check_indexes].
  pose proof (Forall_inv F) as Wx. apply Forall_inv_tail in F.
  destruct (mapM_index_cases o n (filled o n x)) as [->|[Hx ->]]; [now left|]. cbn [bind]. destruct (IH s ltac:(lia) F) as [->|V]; [now left|].
  right. constructor; auto. destruct x as [v|]; cbn in *; auto.
Qed.
Lemma check_coord_cases o l : forall s, length l <= length s -> check_coord o s l = Err \/
  Forall2 (fun z m => exists i, z = VInt i /\ (o <= i < o + Z.of_nat m)%Z) l (firstn (length l) s).
Proof.
  induction l as [|x l IH]; intros [|n s] L; cbn [length] in L; try lia; try (now (right; constructor)). cbn [check_coord length firstn].
  destruct (index_in_cases o n x) as [->|(z & -> & Hz & ->)]; [now left|]. cbn [bind]. destruct (IH s ltac:(lia)) as [->|F]; [now left|].
  right. constructor; eauto.
Qed.
Lemma mapM_cases {A B} (f : A -> res B) (P : A -> Prop) l : (forall x, In x l -> f x = Err \/ (P x /\ exists y, f x = Ok y)) -> mapM f l = Err \/ Forall P l.
Proof.
  induction l as [|x l IH]; intros H; [right; constructor|]. cbn [mapM]. destruct (H x (or_introl eq_refl)) as [->|[Px [y ->]]]; [now left|].
  cbn [bind]. destruct IH as [->|F]; [intros; apply H; now right|now left|]. right. now constructor.
Qed.
Lemma init_cases o v xs : arr v -> Forall wf_index xs -> init o v xs = Err \/ valid_any o (shape_of v) xs.
Proof.
  intros Hv F.
  assert (U : Forall usable xs \/ ~ Forall usable xs).
  { clear. induction xs as [|x xs IH]; [left; constructor|]. assert (usable x \/ ~ usable x) as [H|H] by (destruct x as [[]|]; cbn; tauto).
    - destruct IH; [left; now constructor|right; now inversion 1].
    - right; now inversion 1. }
  unfold init. destruct U as [U|U]; [|rewrite init_loop_bad by auto; now left].
  rewrite init_loop_ok by auto. cbn [bind]. rewrite indexable_ok by auto. cbn [bind].
  destruct (vector_index o (shape_of v) (map elems_of xs)) as [r|] eqn:VI.
  - destruct xs as [|[w|] [|y xs]]; try discriminate. 2: { cbn in VI. destruct (data_of w) as [|[]]; discriminate. }
    cbn [map elems_of vector_index] in VI. destruct (data_of w) as [|[| | | | |l|] es] eqn:Ed; try discriminate.
    set (f := fun x => match x with VVec w' => if length w' =? length l then check_coord o (shape_of v) w' else Err | _ => Err end).
    assert (VI' : (if length (shape_of v) <? length l then Err else mapM f (VVec l :: es)) = r) by (injection VI; auto). clear VI.
    destruct (Nat.ltb_spec (length (shape_of v)) (length l)) as [Hl|Hl]; [subst r; now left|].
    destruct (mapM_cases f (fun e => exists l', e = VVec l' /\ length l' = length l /\
      Forall2 (fun z m => exists i, z = VInt i /\ (o <= i < o + Z.of_nat m)%Z) l' (firstn (length l) (shape_of v))) (VVec l :: es)) as [E|All].
    { intros e He. unfold f. destruct e as [| | | | |l'|]; try now left. destruct (Nat.eqb_spec (length l') (length l)) as [El|]; [|now left].
      destruct (check_coord_cases o l' (shape_of v) ltac:(lia)) as [->|G]; [now left|]. right. split; [exists l'; rewrite <-El; auto|].
      destruct (check_coord_ok o l' (shape_of v) G) as [-> _]. eauto. }
    + rewrite <-VI', E. now left.
    + right. right. exists w, (length l). split; [reflexivity|]. pose proof (Forall_inv F) as Ww. cbn in Ww. split; [auto|]. split.
      { destruct w; cbn in *; try discriminate. unfold rank_of; cbn. destruct Ww as (Ww & _). destruct shape; cbn; congruence. }
      rewrite Ed. split; [discriminate|]. split; [auto|]. exact All.
  - rewrite map_length. destruct (Nat.ltb_spec (length (shape_of v)) (length xs)) as [Hl|Hl]; [now left|].
    rewrite flip_ok, fill_ok by (auto; rewrite rev_length; now apply lpos_len). cbn [bind fst snd].
    destruct (check_cases o xs (shape_of v) Hl F) as [->|V]; [now left|]. right. now left.
Qed.
Lemma init_loop_cases l : forall a b d, init_loop l a b d = Err \/ exists p, init_loop l a b d = Ok p.
Proof. induction l as [|[x|] l IH]; intros a b d; cbn [init_loop]; [eauto| |apply IH]. destruct x; cbn [index_value bind]; eauto. Qed.
Lemma index_invalid c v xs : Forall wf_index xs -> ~ (arr v /\ valid_any (origin c) (shape_of v) xs) ->
  op_index c v xs = Err /\ forall rhs, index_assign c v xs rhs = (v, Err).
Proof.
  intros F N.
  assert (E : init (origin c) v xs = Err).
  { assert (arr v \/ ~ arr v) as [Hv|Hv] by (destruct v; cbn; tauto).
    - destruct (init_cases (origin c) v xs Hv F) as [E|V]; [auto|tauto].
    - unfold init. destruct (init_loop (rev xs) [] [] []) as [[[idx out] upd]| | |] eqn:E; cbn [bind].
      + destruct v; cbn in *; tauto.
      + reflexivity.
      + destruct (init_loop_cases (rev xs) [] [] []) as [E'|[p E']]; congruence.
      + destruct (init_loop_cases (rev xs) [] [] []) as [E'|[p E']]; congruence. }
  unfold op_index, index_assign, prepare. rewrite E. auto.
Qed.

(* ---- by axes ---- *)
Lemma gives_array_ext r s f g : (forall c, inb s c -> f c = g c) -> gives_array r s f -> gives_array r s g.
Proof.
  intros H [[L (v & E & W & S & F)]|N]; [left|now right]. split; auto. exists v. repeat split; auto; intros; destruct (F c H0); auto. rewrite <-H; auto.
Qed.
Section ByAxes.
Variables (c : conf) (v : value) (xs : list (option value)).
Hypothesis Hv : arr v.
Hypothesis W : wf v.
Hypothesis V : valid (origin c) (shape_of v) xs.
Hypothesis Pal : rev (missing (shape_of v) xs) = missing (shape_of v) xs.
Hypothesis NR : vol (skipn (length xs) (shape_of v)) <> 0.
Notation S := (shape_of v).
Notation o := (origin c).
Lemma by_axes_target k : inb (out_shape S xs) k -> target o S xs k =
  Some (pick o S xs (firstn (length (all_axes S xs)) k) ++ skipn (length (all_axes S xs)) k).
Proof.
  intros I. rewrite out_shape_axes in I by (eapply valid_len; eauto). apply inb_split in I. destruct I as (a & b & -> & L & Ia & Ib).
  rewrite <-L, firstn_len_app, skipn_len_app. apply (proj1 (pick_ok _ _ _ V a b Ia)).
Qed.
Lemma sel_out_ok : out_axes S xs ++ skipn (length xs) S = out_shape S xs.
Proof. rewrite out_shape_axes, out_axes_ok by (auto; eapply valid_len; eauto). reflexivity. Qed.
Lemma index_axes : out_shape S xs <> [] ->
  gives_array (op_index c v xs) (out_shape S xs) (fun k => match target o S xs k with Some t => elem v t | None => None end).
Proof.
  intros NE. destruct (init_axes o v xs Hv W V) as (s & Init & SD & G & EO). rewrite sel_out_ok in EO. 
  assert (EA : out_shape S xs = all_axes S xs ++ skipn (length xs) S) by (apply out_shape_axes; eapply valid_len; eauto).
  pose proof (index_many c v xs s _ _ _ _ Init G) as H. rewrite <-EA in H. specialize (H EO NE NR).
  eapply gives_array_ext; [|exact H]. intros k I. cbn beta. rewrite by_axes_target by auto. rewrite SD, firstn_skipn. reflexivity.
Qed.
Lemma index_axes_one : out_shape S xs = [] -> exists t x, target o S xs [] = Some t /\ elem v t = Some x /\ op_index c v xs = Ok x.
Proof.
  intros NE. destruct (init_axes o v xs Hv W V) as (s & Init & SD & G & EO). rewrite sel_out_ok, NE in EO.
  destruct (index_one c v xs s _ _ _ _ Init G EO) as (x & E1 & E2). rewrite SD, firstn_skipn in E1.
  pose proof (by_axes_target [] ltac:(rewrite NE; constructor)) as T. rewrite firstn_nil, skipn_nil, app_nil_r in T. exists (pick o S xs []), x. auto.
Qed.
Lemma replaced_ext v' out t1 t2 new : (forall k, inb out k -> t1 k = t2 k) -> replaced v v' out t1 new -> replaced v v' out t2 new.
Proof.
  intros H (W' & Sh & F). split; auto. split; auto. intros t I. destruct (F t I) as [F1 F2]. split.
  - intros N. apply F1. intros k Ik. rewrite H by auto. auto.
  - intros k Ik Ek L. apply F2; auto; [now rewrite H|]. intros k' Ik' Ek'. apply L; auto. now rewrite <-H.
Qed.
Lemma source_fits out rhs : fits out rhs -> exists src, source out rhs = Ok src.
Proof.
  assert (R : forall l, shape_eqb l l = true) by (intros l; unfold shape_eqb; destruct (list_eq_dec Nat.eq_dec l l); congruence).
  unfold fits, source. destruct out as [|n out]; [eauto|]. destruct rhs; eauto; cbn [shape_of]; intros <-; rewrite R; eauto.
Qed.
Lemma source_unfit out rhs : ~ fits out rhs -> source out rhs = Err.
Proof.
  assert (R : forall a b, shape_eqb a b = true -> a = b) by (intros a b; unfold shape_eqb; destruct (list_eq_dec Nat.eq_dec a b); congruence).
  unfold fits, source. destruct out as [|n out]; [tauto|]. destruct rhs; try tauto; cbn [shape_of]; intros H;
  match goal with |- (if ?b then _ else _) = _ => destruct b eqn:E end; auto; apply R in E; congruence.
Qed.
Lemma assign_axes rhs : wf rhs -> fits (out_shape S xs) rhs ->
  exists v', index_assign c v xs rhs = (v', Ok tt) /\ replaced v v' (out_shape S xs) (target o S xs) (stored (out_shape S xs) rhs).
Proof.
  intros Wr Fi. destruct (init_axes o v xs Hv W V) as (s & Init & SD & G & EO). rewrite sel_out_ok in EO.
  assert (EA : out_shape S xs = all_axes S xs ++ skipn (length xs) S) by (apply out_shape_axes; eapply valid_len; eauto).
  rewrite <-EO in Fi. destruct (source_fits _ _ Fi) as (src & Src).
  destruct (assign_replaces c v rhs xs s _ _ _ _ src Init G ltac:(now rewrite firstn_skipn) Hv W Wr Src NR ltac:(congruence)) as (v' & E & H).
  exists v'. split; [exact E|]. rewrite <-EA in H. eapply replaced_ext; [|exact H]. intros k I. symmetry. now apply by_axes_target.
Qed.
Lemma assign_axes_unfit rhs : ~ fits (out_shape S xs) rhs -> index_assign c v xs rhs = (v, Err).
Proof.
  intros Fi. destruct (init_axes o v xs Hv W V) as (s & Init & SD & G & EO). rewrite sel_out_ok in EO.
  unfold index_assign, prepare. rewrite Init. cbn [bind]. rewrite EO, source_unfit by auto. reflexivity.
Qed.
(* distinct positions *)
Lemma distinct_inj : distinct (out_shape S xs) (target o S xs) -> forall a b, inb (all_axes S xs) a -> inb (all_axes S xs) b -> pick o S xs a = pick o S xs b -> a = b.
Proof.
  intros Dis a b Ia Ib E. pose proof (valid_len _ _ _ V) as L.
  assert (Iz : inb (skipn (length xs) S) (unravel (skipn (length xs) S) 0)) by (apply unravel_inb; lia).
  assert (IO : forall x, inb (all_axes S xs) x -> inb (out_shape S xs) (x ++ unravel (skipn (length xs) S) 0)).
  { intros x Ix. rewrite out_shape_axes by auto. apply inb_app; auto. now apply inb_len. }
  specialize (Dis _ _ (IO a Ia) (IO b Ib)). rewrite (proj1 (pick_ok _ _ _ V a _ Ia)), (proj1 (pick_ok _ _ _ V b _ Ib)), E in Dis.
  specialize (Dis eq_refl). apply app_inj in Dis; [tauto|]. rewrite (inb_len _ _ Ia), (inb_len _ _ Ib). reflexivity.
Qed.
Lemma parallel_assign_axes rhs ok procs work schedule r steps n k : procs <> 0 -> work <> 0 -> wf rhs -> distinct (out_shape S xs) (target o S xs) ->
  prepare c v xs rhs = Ok (steps, n, k) ->
  let st := run (cells (data_of v), spawn steps (plan ok procs work k n)) schedule in
  finished st -> outcome st r -> exists m', r = Ok m' /\ index_assign c v xs rhs = (contents v m', Ok tt).
Proof.
  intros Hp Hw Wr Dis EP st Fin Out.
  destruct (init_axes o v xs Hv W V) as (s & Init & SD & G & EO).
  assert (Src : exists src, source (sel_out s) rhs = Ok src).
  { unfold prepare in EP. rewrite Init in EP. cbn [bind] in EP. destruct (source (sel_out s) rhs); try discriminate. eauto. }
  destruct Src as (src & Src).
  exact (parallel_assign_ok c v rhs xs s _ _ _ _ src Init G SD ltac:(now rewrite firstn_skipn) Hv W Wr Src NR (distinct_inj Dis) ok procs work schedule r steps n k Hp Hw EP Fin Out).
Qed.
End ByAxes.

Lemma missing_none c v xs : valid (origin c) (shape_of v) xs -> out_shape (shape_of v) xs = [] -> missing (shape_of v) xs = [].
Proof.
  intros V. generalize (valid_len _ _ _ V). generalize (shape_of v). clear V. induction xs as [|[x|] xs IH]; intros [|n s] L; cbn [length] in L; try lia; cbn [out_shape missing axes app]; auto; try discriminate.
  intros E. apply app_eq_nil in E. apply IH; [lia|tauto].
Qed.
(* ---- by coordinates ---- *)
Section ByCoords.
Variables (c : conf) (v w : value) (n : nat).
Hypothesis Hv : arr v.
Hypothesis W : wf v.
Hypothesis V : valid_coords (origin c) (shape_of v) n w.
Hypothesis NR : vol (skipn n (shape_of v)) <> 0.
Notation out := (shape_of w ++ skipn n (shape_of v)).
Lemma coords_target k : inb out k -> coord_target (origin c) w k = Some (picked (origin c) w (firstn (length (shape_of w)) k) ++ skipn (length (shape_of w)) k).
Proof.
  intros I. apply inb_split in I. destruct I as (a & b & -> & L & Ia & Ib). unfold coord_target, rank_of. rewrite <-L, firstn_len_app, skipn_len_app.
  unfold elem, picked, at_data. rewrite (nth_error_nth' _ (VInt 0)); [reflexivity|]. rewrite data_len by apply V. now apply ravel_lt.
Qed.
Lemma out_ne : out <> [].
Proof. destruct V as (_ & Rk & _). unfold rank_of in Rk. destruct (shape_of w); cbn in *; congruence. Qed.
Lemma index_coords : gives_array (op_index c v [Some w]) out (fun k => match coord_target (origin c) w k with Some t => elem v t | None => None end).
Proof.
  destruct (init_coords (origin c) v w n Hv W V) as (s & Init & SD & G & EO).
  pose proof (index_many c v _ s _ _ _ _ Init G EO out_ne NR) as H.
  eapply gives_array_ext; [|exact H]. intros k I. cbn beta. rewrite coords_target by auto. rewrite SD, firstn_skipn. reflexivity.
Qed.
Lemma parallel_assign_coords rhs ok procs work schedule r steps m k : procs <> 0 -> work <> 0 -> wf rhs -> distinct out (coord_target (origin c) w) ->
  prepare c v [Some w] rhs = Ok (steps, m, k) ->
  let st := run (cells (data_of v), spawn steps (plan ok procs work k m)) schedule in
  finished st -> outcome st r -> exists m', r = Ok m' /\ index_assign c v [Some w] rhs = (contents v m', Ok tt).
Proof.
  intros Hp Hw Wr Dis EP st Fin Out.
  destruct (init_coords (origin c) v w n Hv W V) as (s & Init & SD & G & EO).
  assert (Src : exists src, source (sel_out s) rhs = Ok src).
  { unfold prepare in EP. rewrite Init in EP. cbn [bind] in EP. destruct (source (sel_out s) rhs); try discriminate. eauto. }
  destruct Src as (src & Src).
  assert (Inj : forall a b, inb (shape_of w) a -> inb (shape_of w) b -> picked (origin c) w a = picked (origin c) w b -> a = b).
  { intros a b Ia Ib E.
    assert (Iz : inb (skipn n (shape_of v)) (unravel (skipn n (shape_of v)) 0)) by (apply unravel_inb; lia).
    assert (IO : forall x, inb (shape_of w) x -> inb out (x ++ unravel (skipn n (shape_of v)) 0)) by (intros x Ix; apply inb_app; auto; now apply inb_len).
    specialize (Dis _ _ (IO a Ia) (IO b Ib)). rewrite !coords_target in Dis by auto.
    rewrite <-(inb_len _ _ Ia) in Dis at 1 2. rewrite firstn_len_app, skipn_len_app in Dis. rewrite <-(inb_len _ _ Ib) in Dis. rewrite firstn_len_app, skipn_len_app, E in Dis.
    specialize (Dis eq_refl). apply app_inj in Dis; [tauto|]. rewrite (inb_len _ _ Ia), (inb_len _ _ Ib). reflexivity. }
  exact (parallel_assign_ok c v rhs _ s _ _ _ _ src Init G SD ltac:(now rewrite firstn_skipn) Hv W Wr Src NR Inj ok procs work schedule r steps m k Hp Hw EP Fin Out).
Qed.
Lemma assign_coords rhs : wf rhs -> fits out rhs ->
  exists v', index_assign c v [Some w] rhs = (v', Ok tt) /\ replaced v v' out (coord_target (origin c) w) (stored out rhs).
Proof.
  intros Wr Fi. destruct (init_coords (origin c) v w n Hv W V) as (s & Init & SD & G & EO).
  rewrite <-EO in Fi. destruct (source_fits _ _ Fi) as (src & Src).
  destruct (assign_replaces c v rhs _ s _ _ _ _ src Init G ltac:(now rewrite firstn_skipn) Hv W Wr Src NR EO) as (v' & E & H).
  exists v'. split; [exact E|]. eapply replaced_ext; [|exact H]. intros k I. symmetry. now apply coords_target.
Qed.
End ByCoords.

(* Whatever happens, an assignment that does not succeed changes nothing. *)
Lemma assign_atomic c v xs rhs : arr v -> wf v -> wf rhs -> Forall wf_index xs ->
  snd (index_assign c v xs rhs) = Ok tt \/ fst (index_assign c v xs rhs) = v.
Proof.
  intros Hv W Wr F. assert (Main : forall s D R A tg, init (origin c) v xs = Ok s -> sel_data s = data_of v -> shape_of v = D ++ R -> good s D R A tg ->
    snd (index_assign c v xs rhs) = Ok tt \/ fst (index_assign c v xs rhs) = v).
  { intros s D R A tg Init SD SH G. destruct (source (sel_out s) rhs) as [src| | |] eqn:Src.
    2-4: right; unfold index_assign, prepare; rewrite Init; cbn [bind]; rewrite Src; reflexivity.
    destruct (Nat.eq_dec (vol R) 0) as [Z|NZ].
    - right. unfold index_assign, prepare. rewrite Init. cbn [bind]. rewrite Src. cbn [bind]. rewrite (copy_ok s D R A tg G).
      destruct (sel_out s) eqn:EO.
      + destruct (g_out _ _ _ _ _ G) as (A' & EA & _). rewrite EO in EA. symmetry in EA. apply app_eq_nil in EA. destruct EA as [_ ->]. now cbn in Z.
      + rewrite Z. reflexivity.
    - left. destruct (assign_succeeds c v rhs xs s D R A tg src Init G Hv Wr Src NZ) as (m' & -> & _). reflexivity. }
  destruct (init_cases (origin c) v xs Hv F) as [E|[V|(w & n & -> & V)]].
  - right. unfold index_assign, prepare. now rewrite E.
  - destruct (init_axes _ v xs Hv W V) as (s & Init & SD & G & _). eapply Main; eauto. now rewrite firstn_skipn.
  - destruct (init_coords _ v w n Hv W V) as (s & Init & SD & G & _). eapply Main; eauto. now rewrite firstn_skipn.
Qed.

(* ---- several goroutines, some elements selected more than once ---- *)
Definition writes (a : action) (x : nat) (y : value) : Prop := forall m, a m = Ok (x, y).
Section Writes.
Variables (all : list action) (m0 : mem).
Hypothesis Const : forall a, In a all -> exists x y, writes a x y.
Definition written (m : mem) (x : nat) : Prop := exists b y, In b all /\ writes b x y /\ m x = Some y.
Definition winv (st : mem * list thread) : Prop :=
  Forall (fun t => failed t = None /\ incl (todo t) all) (snd st) /\
  (forall x, fst st x = m0 x \/ written (fst st) x) /\
  (forall a x y, In a all -> writes a x y -> written (fst st) x \/ exists t, In t (snd st) /\ In a (todo t)).
Lemma set_nth_in {T} (l : list T) i y x : nth_error l i = Some y -> forall z, In z l -> z = y \/ In z (set_nth l i x).
Proof.
  revert i. induction l as [|w l IH]; intros [|i] E z H; try discriminate; cbn in *.
  - injection E as ->. destruct H; auto.
  - destruct H as [->|H]; auto. destruct (IH i E z H); auto.
Qed.
Lemma set_nth_new {T} (l : list T) i y x : nth_error l i = Some y -> In x (set_nth l i x).
Proof. revert i. induction l as [|w l IH]; intros [|i] E; try discriminate; cbn in *; eauto. Qed.
Lemma set_nth_forall {T} (P : T -> Prop) (l : list T) i x : Forall P l -> P x -> Forall P (set_nth l i x).
Proof. intros F Px. revert i. induction F as [|w l Hw F IH]; intros [|i]; cbn; constructor; auto. Qed.
Lemma winv_step st i : winv st -> winv (step st i).
Proof.
  intros (F & I1 & I2). unfold step. destruct (nth_error (snd st) i) as [t|] eqn:E; [|split; auto].
  rewrite Forall_forall in F. destruct (F t (nth_error_In _ _ E)) as [Hf Hi].
  destruct st as [m ts]. cbn [fst snd] in *. unfold thread_step. destruct (todo t) as [|a rest] eqn:Et.
  - cbn [fst snd]. split; [apply set_nth_forall; [now apply Forall_forall|split; [auto|rewrite Et; intros z []]]|]. split; [auto|].
    intros a x y Ha Hw. destruct (I2 a x y Ha Hw) as [H|(t0 & H1 & H2)]; [auto|]. right.
    destruct (set_nth_in _ i t t E t0 H1) as [->|H]; [rewrite Et in H2; contradiction|eauto].
  - destruct (Const a (Hi a (or_introl eq_refl))) as (x & y & Hw). rewrite (Hw m). cbn [fst snd].
    assert (Keep : forall z, written m z -> written (mset m x y) z).
    { intros z (b & u & Hb & Wb & Eb). destruct (Nat.eq_dec z x) as [->|N].
      - exists a, y. split; [apply Hi; now left|]. split; auto. unfold mset. now rewrite Nat.eqb_refl.
      - exists b, u. split; auto. split; auto. unfold mset. rewrite (proj2 (Nat.eqb_neq _ _) N). auto. }
    assert (New : written (mset m x y) x).
    { exists a, y. split; [apply Hi; now left|]. split; auto. unfold mset. now rewrite Nat.eqb_refl. }
    split; [|split]; cbn [fst snd].
    + apply set_nth_forall; [now apply Forall_forall|]. split; [exact Hf|]. cbn [todo]. intros b Hb. apply Hi. now right.
    + intros z. destruct (Nat.eq_dec z x) as [->|N]; [auto|]. destruct (I1 z) as [H|H]; [|auto]. left. unfold mset. rewrite (proj2 (Nat.eqb_neq _ _) N). auto.
    + intros b z u Hb Wb. destruct (I2 b z u Hb Wb) as [H|(t0 & H1 & H2)]; [auto|].
      destruct (set_nth_in _ i t (mkThread rest (failed t)) E t0 H1) as [->|H]; [|eauto].
      rewrite Et in H2. destruct H2 as [<-|H2].
      * left. pose proof (Wb m) as E1. pose proof (Hw m) as E2. rewrite E1 in E2. injection E2 as -> ->. exact New.
      * right. exists (mkThread rest (failed t)). split; [eapply set_nth_new; eauto|exact H2].
Qed.
Lemma winv_run sch : forall st, winv st -> winv (run st sch).
Proof. induction sch as [|i sch IH]; intros st H; [auto|]. change (run st (i :: sch)) with (run (step st i) sch). apply IH, winv_step, H. Qed.
Lemma winv_end st r : winv st -> finished st -> outcome st r ->
  r = Ok (fst st) /\ (forall x, fst st x = m0 x \/ written (fst st) x) /\ (forall a x y, In a all -> writes a x y -> written (fst st) x).
Proof.
  intros (F & I1 & I2) Fin Out. rewrite Forall_forall in F. split.
  - destruct Out as [|t p Ht Hp]; [reflexivity|]. destruct (F t Ht) as [E _]. congruence.
  - split; [auto|]. intros a x y Ha Hw. destruct (I2 a x y Ha Hw) as [H|(t & H1 & H2)]; auto. unfold finished in Fin. rewrite Forall_forall in Fin.
    rewrite (Fin t H1) in H2. contradiction.
Qed.
End Writes.
Section Somehow.
Variables (c : conf) (v rhs : value) (xs : list (option value)) (s : selection) (D R A : list nat) (tg : list nat -> list nat) (src : nat -> res value).
Hypothesis Init : init (origin c) v xs = Ok s.
Hypothesis G : good s D R A tg.
Hypothesis SD : sel_data s = data_of v.
Hypothesis SH : shape_of v = D ++ R.
Hypothesis Hv : arr v.
Hypothesis W : wf v.
Hypothesis Wr : wf rhs.
Hypothesis Src : source (sel_out s) rhs = Ok src.
Hypothesis NR : vol R <> 0.
Hypothesis EO : sel_out s = A ++ R.
Lemma parallel_somehow ok procs work schedule r steps n k : procs <> 0 -> work <> 0 -> prepare c v xs rhs = Ok (steps, n, k) ->
  let st := run (cells (data_of v), spawn steps (plan ok procs work k n)) schedule in
  finished st -> outcome st r -> exists m', r = Ok m' /\ replaced_somehow v (contents v m') (A ++ R) (tgt A tg) (stored (A ++ R) rhs).
Proof.
  intros Hp Hw EP st Fin Out.
  destruct (prepare_ok c v rhs xs s D R A tg src Init G Src NR) as (steps' & n' & k' & E & H). rewrite EP in E. injection E as <- <- <-.
  destruct (source_ok _ _ _ Wr Src) as (src' & S1 & S2). rewrite EO in S1, S2.
  set (all := flat_map steps (plan ok procs work k n)).
  (* every step writes some element of the right-hand side to its target *)
  assert (Steps : (forall a, In a all -> exists q, inb (A ++ R) q /\ writes a (ravel (D ++ R) (tg (firstn (length A) q) ++ skipn (length A) q)) (src' (ravel (A ++ R) q))) /\
                  (forall q, inb (A ++ R) q -> exists a, In a all /\ writes a (ravel (D ++ R) (tg (firstn (length A) q) ++ skipn (length A) q)) (src' (ravel (A ++ R) q)))).
  { destruct H as [(E0 & -> & EA & ER & Hs)|(NO & -> & -> & Hs)].
    - assert (PL : plan ok procs work k 1 = [(0, 1)]).
      { unfold plan. replace (negb ok || (procs =? 1) || (1 <=? 1) || (1 * k <? work * 2)) with true; [reflexivity|]. cbn [Nat.leb]. now rewrite orb_true_r. }
      unfold all. rewrite PL. cbn [flat_map]. rewrite app_nil_r. destruct (Hs (0, 1)) as (a & -> & Ha). rewrite EA, ER in *. cbn [app length firstn skipn] in *. rewrite !app_nil_r.
      pose proof (S2 [] (inb_nil)) as S2'. cbn in S2'. injection S2' as S2'.
      assert (K : forall q, inb [] q -> q = []) by (intros q Hq; apply inb_len in Hq; now destruct q).
      split.
      + intros b [<-|[]]. exists []. split; [constructor|]. cbn [ravel]. rewrite app_nil_r, S2'. exact Ha.
      + intros q Hq. apply K in Hq. subst q. exists a. split; [now left|]. cbn [ravel]. rewrite app_nil_r, S2'. exact Ha.
    - assert (EA : all = flat_map (item_body D R A tg src) (seq 0 (vol A))).
      { unfold all. rewrite <-(plan_tiles ok procs work (vol R) (vol A) Hp Hw).
        assert (B : forall lo hi, In (lo, hi) (plan ok procs work (vol R) (vol A)) -> hi <= vol A) by (intros lo hi; now apply plan_bound).
        clear -B Hs. revert B. induction (plan ok procs work (vol R) (vol A)) as [|[lo hi] l IH]; intros B; [reflexivity|]. cbn [flat_map]. rewrite flat_map_app, IH by (intros; eapply B; right; eauto).
        rewrite Hs by (eapply B; now left). reflexivity. }
      rewrite EA. clearbody all. clear EA. split.
      + intros a Ha. apply in_flat_map in Ha. destruct Ha as (i & Hi & Ha). apply in_seq in Hi. unfold item_body in Ha. apply in_map_iff in Ha.
        destruct Ha as (j & <- & Hj). apply in_seq in Hj.
        assert (Iu : inb A (unravel A i)) by (apply unravel_inb; lia). assert (Ij : inb R (unravel R j)) by (apply unravel_inb; lia).
        exists (unravel A i ++ unravel R j). split; [apply inb_app; auto; apply unravel_len|]. intros m. cbn [bind].
        assert (FL : firstn (length A) (unravel A i ++ unravel R j) = unravel A i) by (rewrite <-(unravel_len A i) at 1; apply firstn_len_app).
        assert (SL : skipn (length A) (unravel A i ++ unravel R j) = unravel R j) by (rewrite <-(unravel_len A i) at 1; apply skipn_len_app).
        rewrite FL, SL. rewrite S1 by (rewrite vol_app; nia). cbn [bind].
        rewrite (cell_coord s D R A tg G i j) by lia. rewrite (ravel_app A R) by apply unravel_len. rewrite !ravel_unravel by lia. do 3 f_equal. lia.
      + intros q Hq. apply inb_split in Hq. destruct Hq as (a & b & -> & La & Ia & Ib). pose proof (ravel_lt _ _ Ia). pose proof (ravel_lt _ _ Ib).
        exists (fun _ => let! o := Ok (off D A tg (ravel A a)) in let! x := src (ravel R b + ravel A a * vol R) in Ok (o * vol R + ravel R b, x)).
        split. { apply in_flat_map. exists (ravel A a). split; [apply in_seq; lia|]. unfold item_body.
          apply in_map_iff. exists (ravel R b). split; [reflexivity|apply in_seq; lia]. }
        intros m. cbn [bind]. rewrite S1 by (rewrite vol_app; nia). cbn [bind]. rewrite <-La, firstn_len_app, skipn_len_app.
        rewrite (cell_coord s D R A tg G) by lia. rewrite !unravel_ravel by auto. rewrite (ravel_app A R) by auto. do 3 f_equal. lia. }
  destruct Steps as [St1 St2].
  assert (Const : forall a, In a all -> exists x y, writes a x y) by (intros a Ha; destruct (St1 a Ha) as (q & _ & Hq); eauto).
  assert (Start : winv all (cells (data_of v)) (cells (data_of v), spawn steps (plan ok procs work k n))).
  { split; [|split].
    - cbn [snd]. unfold spawn. apply Forall_forall. intros t Ht. apply in_map_iff in Ht. destruct Ht as (p & <- & Hp'). split; [reflexivity|].
      cbn [todo]. intros a Ha. unfold all. apply in_flat_map. eauto.
    - intros x. now left.
    - intros a x y Ha _. right. unfold all in Ha. apply in_flat_map in Ha. destruct Ha as (p & Hp' & Ha). exists (mkThread (steps p) None). split; auto.
      cbn [snd]. unfold spawn. apply in_map_iff. eauto. }
  destruct (winv_end all _ st r (winv_run all _ Const schedule _ Start) Fin Out) as (-> & E1 & E2).
  exists (fst st). split; [reflexivity|].
  destruct (contents_ok v (fst st) Hv W) as (C1 & C2 & C3).
  { intros x Hx. destruct (E1 x) as [->|(b & y & _ & _ & ->)]; [|discriminate]. unfold cells. now apply nth_error_Some. }
  split; [auto|]. split; [auto|]. intros t Ht. rewrite C3 by auto. rewrite SH in *.
  assert (Wrt : written all (fst st) (ravel (D ++ R) t) -> exists q, inb (A ++ R) q /\ tgt A tg q = Some t /\ fst st (ravel (D ++ R) t) = stored (A ++ R) rhs q).
  { intros (b & y & Hb & Wb & Eb). destruct (St1 b Hb) as (q & Iq & Wq). exists q. split; [auto|].
    pose proof (Wb (fst st)) as X1. pose proof (Wq (fst st)) as X2. rewrite X1 in X2. injection X2 as X2 X3.
    split; [|rewrite Eb, X3; apply S2; auto]. unfold tgt. f_equal. apply (ravel_inj (D ++ R)); auto.
    pose proof Iq as Iq'. apply inb_split in Iq'. destruct Iq' as (a & b' & -> & La & Ia & Ib). rewrite <-La, firstn_len_app, skipn_len_app.
    apply inb_app; [apply inb_len, (g_tg _ _ _ _ _ G), Ia|]. split; [apply (g_tg _ _ _ _ _ G), Ia|auto]. }
  split.
  - intros N. destruct (E1 (ravel (D ++ R) t)) as [->|H1].
    + unfold elem, cells. rewrite SH. reflexivity.
    + destruct (Wrt H1) as (q & Iq & Eq & _). exfalso. exact (N q Iq Eq).
  - intros (q & Iq & Eq). apply Wrt. destruct (St2 q Iq) as (a & Ha & Wa). unfold tgt in Eq. injection Eq as Eq. rewrite Eq in Wa. exact (E2 a _ _ Ha Wa).
Qed.
End Somehow.
Lemma somehow_ext v v' out t1 t2 new : (forall k, inb out k -> t1 k = t2 k) -> replaced_somehow v v' out t1 new -> replaced_somehow v v' out t2 new.
Proof.
  intros H (W' & Sh & F). split; auto. split; auto. intros t I. destruct (F t I) as [F1 F2]. split.
  - intros N. apply F1. intros k Ik. rewrite H by auto. auto.
  - intros (k & Ik & Ek). destruct F2 as (k' & Ik' & Ek' & E); [exists k; split; auto; now rewrite H|]. exists k'. split; auto. split; auto. now rewrite <-H.
Qed.
Lemma parallel_somehow_axes c v xs rhs ok procs work schedule r steps n k : arr v -> wf v -> valid (origin c) (shape_of v) xs ->
  rev (missing (shape_of v) xs) = missing (shape_of v) xs -> vol (skipn (length xs) (shape_of v)) <> 0 ->
  procs <> 0 -> work <> 0 -> wf rhs -> prepare c v xs rhs = Ok (steps, n, k) ->
  let st := run (cells (data_of v), spawn steps (plan ok procs work k n)) schedule in
  finished st -> outcome st r -> exists m', r = Ok m' /\
    replaced_somehow v (contents v m') (out_shape (shape_of v) xs) (target (origin c) (shape_of v) xs) (stored (out_shape (shape_of v) xs) rhs).
Proof.
  intros Hv W V Pal NR Hp Hw Wr EP st Fin Out.
  destruct (init_axes (origin c) v xs Hv W V) as (s & Init & SD & G & EO). rewrite (sel_out_ok c v xs V Pal) in EO.
  assert (EA : out_shape (shape_of v) xs = all_axes (shape_of v) xs ++ skipn (length xs) (shape_of v)) by (apply out_shape_axes; eapply valid_len; eauto).
  assert (Src : exists src, source (sel_out s) rhs = Ok src).
  { unfold prepare in EP. rewrite Init in EP. cbn [bind] in EP. destruct (source (sel_out s) rhs); try discriminate. eauto. }
  destruct Src as (src & Src).
  destruct (parallel_somehow c v rhs xs s _ _ _ _ src Init G ltac:(now rewrite firstn_skipn) Hv W Wr Src NR ltac:(congruence) ok procs work schedule r steps n k Hp Hw EP Fin Out) as (m' & E & H).
  exists m'. split; [exact E|]. rewrite <-EA in H. eapply somehow_ext; [|exact H]. intros q I. symmetry. now apply by_axes_target.
Qed.

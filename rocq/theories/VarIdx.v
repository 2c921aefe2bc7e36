(* The calls of edit.Set an indexed assignment makes: they are in range, depend on the
   shape of the array only, and do what IdxModel.index_assign does. *)
From Verif Require Import Value ArrModel ParModel IdxModel ArrSpec ArrBase IdxProofs VarModel.
Open Scope nat_scope.

Definition arr_of (v : value) : option (list nat * list value) :=
  match v with VVec l => Some ([length l], l) | VMat s d => Some (s, d) | _ => None end.
Definition rmap {A B} (f : A -> B) (r : res A) : res B := let! x := r in Ok (f x).

(* ---- elements of another type ---- *)
Lemma source_of_map {A B} (f : A -> B) out x arr :
  source_of out (f x) (option_map (fun p => (fst p, map f (snd p))) arr) =
  match source_of out x arr with
  | Ok src => match source_of out (f x) (option_map (fun p => (fst p, map f (snd p))) arr) with Ok s => Ok s | _ => Crash end
  | Err => Err | Crash => Crash | Unmod => Unmod end.
Proof.
  unfold source_of. destruct out as [|n out]; [reflexivity|]. destruct arr as [[s l]|]; [|reflexivity]. cbn [option_map fst snd].
  destruct (shape_eqb (n :: out) s); reflexivity.
Qed.
Lemma source_of_map_ok {A B} (f : A -> B) out x arr src :
  source_of out x arr = Ok src -> exists src', source_of out (f x) (option_map (fun p => (fst p, map f (snd p))) arr) = Ok src' /\
    forall k, src' k = rmap f (src k).
Proof.
  unfold source_of. destruct out as [|n out]; [intros E; injection E as <-; eexists; split; reflexivity|].
  destruct arr as [[s l]|]; [|intros E; injection E as <-; eexists; split; reflexivity]. cbn [option_map fst snd].
  destruct (shape_eqb (n :: out) s); [|discriminate]. intros E; injection E as <-. eexists; split; [reflexivity|].
  intros k. cbn beta. rewrite nth_error_map. destruct (nth_error l k); reflexivity.
Qed.

Definition pmap {A B} (f : A -> B) (p : nat * A) : nat * B := (fst p, f (snd p)).
Lemma assignments_map {A B} (f : A -> B) c lhs index x arr :
  assignments c lhs index (f x) (option_map (fun p => (fst p, map f (snd p))) arr) =
  rmap (map (rmap (pmap f))) (assignments c lhs index x arr).
Proof.
  unfold assignments, rmap. destruct (init (origin c) lhs index) as [s| | |]; cbn [bind]; try reflexivity.
  destruct (source_of (sel_out s) x arr) as [src| | |] eqn:E; try (rewrite source_of_map, E; reflexivity).
  destruct (source_of_map_ok f _ _ _ _ E) as (src' & -> & Hs). cbn [bind].
  destruct (sel_out s) as [|n out].
  - destruct (sel_items s) as [idx|cs]; [|reflexivity]. destruct (at_coord idx _); reflexivity.
  - destruct (_ =? 0); [reflexivity|]. cbn [bind]. f_equal.
    rewrite !flat_map_concat_map, concat_map, map_map. f_equal. apply map_ext. intros [i off]. rewrite map_map.
    apply map_ext. intros k. cbn [fst snd]. destruct off as [o| | |]; cbn [bind]; try reflexivity. rewrite Hs. unfold rmap.
    destruct (src _); reflexivity.
Qed.

(* ---- the shape only ---- *)
Lemma init_shape o lhs lhs' index d d' sh : indexable lhs = Ok (sh, d) -> indexable lhs' = Ok (sh, d') ->
  init o lhs' index = rmap (fun s => mkSel (sel_shape s) d' (sel_items s) (sel_dim s) (sel_out s)) (init o lhs index).
Proof.
  intros E E'. unfold init, rmap. destruct (init_loop (rev index) [] [] []) as [[[idx out] upd]| | |]; cbn [bind]; try reflexivity.
  rewrite E, E'. cbn [bind]. destruct (vector_index o sh idx) as [r|].
  - destruct r; reflexivity.
  - destruct (length sh <? length idx); [reflexivity|]. destruct (fill_missing _ _ _ _ _) as [q| | |]; cbn [bind]; try reflexivity.
    destruct (check_indexes _ _ _); reflexivity.
Qed.
Lemma assignments_shape {A} c lhs lhs' index (x : A) arr d d' sh :
  indexable lhs = Ok (sh, d) -> indexable lhs' = Ok (sh, d') ->
  assignments c lhs' index x arr = assignments c lhs index x arr.
Proof.
  intros E E'. unfold assignments. rewrite (init_shape _ _ _ _ _ _ _ E E'). unfold rmap.
  destruct (init (origin c) lhs index) as [s| | |]; reflexivity.
Qed.

(* ---- in range ---- *)
Definition in_axes (shape : list nat) (idx : list (list nat)) : Prop := Forall2 (fun l n => Forall (fun k => k < n) l) idx (firstn (length idx) shape).
Lemma index_in_lt o n x k : index_in o n x = Ok k -> k < n.
Proof.
  unfold index_in. destruct x; try discriminate. destruct ((z <? o)%Z || _)%bool eqn:E; [discriminate|].
  intros H; injection H as <-. apply orb_false_iff in E. destruct E as [E1 E2]. apply Z.ltb_ge in E1. apply Z.leb_gt in E2. lia.
Qed.
Lemma mapM_in_lt o n l ks : mapM (index_in o n) l = Ok ks -> Forall (fun k => k < n) ks.
Proof.
  revert ks. induction l as [|x l IH]; intros ks E; cbn [mapM] in E; [injection E as <-; constructor|].
  destruct (index_in o n x) as [k| | |] eqn:Ek; try discriminate. cbn [bind] in E.
  destruct (mapM _ l) as [r| | |]; try discriminate. cbn [bind] in E. injection E as <-. constructor; eauto using index_in_lt.
Qed.
Lemma check_in o : forall idx shape ks, check_indexes o shape idx = Ok ks -> in_axes shape ks /\ length ks = length idx /\ length idx <= length shape.
Proof.
  unfold in_axes. induction idx as [|l idx IH]; intros shape ks E; [destruct shape; injection E as <-; cbn; (split; [constructor|lia])|].
  destruct shape as [|n shape]; [discriminate|]. cbn [check_indexes] in E. destruct (mapM (index_in o n) l) as [k| | |] eqn:Ek; try discriminate. cbn [bind] in E.
  destruct (check_indexes o shape idx) as [r| | |] eqn:Er; try discriminate. cbn [bind] in E. injection E as <-.
  destruct (IH _ _ Er) as (H1 & H2 & H3). cbn [length firstn]. split; [|lia]. constructor; eauto using mapM_in_lt.
Qed.
Lemma at_coord_in : forall idx shape coord r, in_axes shape idx -> length coord = length idx -> at_coord idx coord = Ok r ->
  inb (firstn (length idx) shape) r.
Proof.
  unfold in_axes, inb. induction idx as [|l idx IH]; intros shape coord r H L E; cbn [length firstn] in *.
  - cbn in E. injection E as <-. constructor.
  - destruct shape as [|n shape]; [inversion H|]. inversion H as [|? ? ? ? H1 H2]; subst. destruct coord as [|x coord]; [discriminate|].
    cbn [at_coord] in E. destruct (nth_error l x) as [k|] eqn:Ek; [|discriminate].
    destruct (at_coord idx coord) as [r'| | |] eqn:Er; try discriminate. cbn [bind] in E. injection E as <-.
    constructor; [|eapply IH; eauto; cbn in L; lia]. rewrite Forall_forall in H1. apply H1. eapply nth_error_In; eauto.
Qed.
Lemma check_coord_in o : forall v shape r, check_coord o shape v = Ok r -> inb (firstn (length v) shape) r /\ length r = length v.
Proof.
  unfold inb. induction v as [|x v IH]; intros shape r E; [destruct shape; injection E as <-; (split; [constructor|reflexivity])|].
  destruct shape as [|n shape]; [discriminate|]. cbn [check_coord length firstn] in *. destruct (index_in o n x) as [k| | |] eqn:Ek; try discriminate. cbn [bind] in E.
  destruct (check_coord o shape v) as [r'| | |] eqn:Er; try discriminate. cbn [bind] in E. injection E as <-.
  destruct (IH _ _ Er) as [H1 H2]. split; [constructor; eauto using index_in_lt|cbn; lia].
Qed.
Lemma odo_len s : forall c, length c = length s -> length (fst (odo s c)) = length s.
Proof.
  induction s as [|d s IH]; intros [|x c] L; cbn [length] in L; try lia; cbn [odo]; [reflexivity|].
  specialize (IH c ltac:(lia)). destruct (odo s c) as [r carry]. cbn [fst] in IH. destruct carry; [destruct (S x <? d)|]; cbn [fst length]; lia.
Qed.
Lemma odo_run_len n : forall s c, length c = length s -> Forall (fun c => length c = length s) (odo_run n s c).
Proof. induction n; intros s c L; cbn [odo_run]; constructor; auto. apply IHn. now apply odo_len. Qed.
Lemma odo_start_len s i : length (fst (odo_start s i)) = length s.
Proof. induction s as [|d s IH]; cbn [odo_start]; [reflexivity|]. destruct (odo_start s i) as [r q]. cbn [fst] in IH. destruct (0 <? d); cbn [fst length]; lia. Qed.

Definition sel_ok (s : selection) : Prop :=
  sel_dim s <= length (sel_shape s) /\
  match sel_items s with
  | ByAxes idx => in_axes (sel_shape s) idx /\ length idx = sel_dim s
  | ByCoords cs => Forall (fun ks => inb (firstn (sel_dim s) (sel_shape s)) ks /\ length ks = sel_dim s) cs
  end.
Lemma offset_lt shape ks n : n <= length shape -> length ks = n -> inb (firstn n shape) ks -> offset_of shape ks 0 < vol (firstn n shape).
Proof. intros L <- H. rewrite offset_of_ok by auto. apply ravel_lt in H. lia. Qed.
Lemma offsets_in s lo hi : sel_ok s -> Forall (fun r => forall o, r = Ok o -> o < vol (firstn (sel_dim s) (sel_shape s))) (offsets s lo hi).
Proof.
  intros [L H]. unfold offsets. destruct (sel_items s) as [idx|cs].
  - destruct H as [H1 H2]. rewrite Forall_forall. intros r Hr. apply in_map_iff in Hr. destruct Hr as (coord & <- & Hc).
    pose proof (odo_run_len (hi - lo) (map (@length nat) idx) _ (odo_start_len _ lo)) as F. rewrite Forall_forall in F. specialize (F _ Hc).
    rewrite map_length in F. intros o E. destruct (at_coord idx coord) as [ks| | |] eqn:Ek; try discriminate. cbn [bind] in E. injection E as <-.
    pose proof (at_coord_in _ _ _ _ H1 F Ek) as I. apply offset_lt; auto; [|now rewrite <- H2].
    apply inb_len in I. rewrite I, firstn_length_le; lia.
  - rewrite Forall_forall. intros r Hr. apply in_map_iff in Hr. destruct Hr as (i & <- & Hi). intros o E.
    destruct (nth_error cs i) as [ks|] eqn:Ek; [|discriminate]. injection E as <-. rewrite Forall_forall in H.
    destruct (H ks) as [H1 H2]; [eapply nth_error_In; eauto|]. apply offset_lt; auto.
Qed.

Lemma vector_index_in o shape idx r cs : vector_index o shape idx = Some r -> r = Ok cs ->
  exists v rest, idx = [Some (VVec v :: rest)] /\ cs <> [] /\ length v <= length shape /\
    Forall (fun ks => inb (firstn (length v) shape) ks /\ length ks = length v) cs.
Proof.
  unfold vector_index. destruct idx as [|[[|[] rest]|] [|]]; try discriminate. intros E ->.
  match type of E with Some ?a = Some ?b => assert (E' : a = b) by congruence end. clear E. rename E' into E.
  destruct (length shape <? length l) eqn:El; [discriminate|]. apply Nat.ltb_ge in El. exists l, rest. split; [reflexivity|].
  set (data := VVec l :: rest) in *. split. { intros ->. apply mapM_Ok_len in E. discriminate. } split; [exact El|].
  rewrite Forall_forall. intros ks Hk. destruct (In_nth_error _ _ Hk) as (i & Hi).
  pose proof (mapM_Ok_nth _ _ _ E i) as M.
  assert (Li : i < length data) by (rewrite <- (mapM_Ok_len _ _ _ E); apply nth_error_Some; congruence).
  destruct (nth_error data i) as [x|] eqn:Ex; [|apply nth_error_None in Ex; lia].
  specialize (M _ eq_refl). destruct M as (y & Ey & Hy). assert (y = ks) by congruence. subst y.
  destruct x; try discriminate. destruct (length l0 =? length l) eqn:Ee; [|discriminate]. apply Nat.eqb_eq in Ee.
  destruct (check_coord_in _ _ _ _ Hy) as [H1 H2]. rewrite Ee in *. auto.
Qed.

Definition index_ok (x : option value) : Prop := match x with Some (VMat [] _) => False | _ => True end.
Lemma init_ok o lhs index sh d s : indexable lhs = Ok (sh, d) -> Forall index_ok index -> init o lhs index = Ok s ->
  sel_shape s = sh /\ sel_ok s /\ (exists A, sel_out s = A ++ skipn (sel_dim s) sh) /\
  (sel_out s = [] -> exists idx, sel_items s = ByAxes idx).
Proof.
  intros E Hi. unfold init. destruct (init_loop (rev index) [] [] []) as [[[idx out] upd]| | |] eqn:El; cbn [bind]; try discriminate.
  rewrite E. cbn [bind].
  destruct (vector_index o sh idx) as [r|] eqn:Ev.
  - destruct r as [cs| | |]; try discriminate. cbn [bind]. intros H; injection H as <-.
    destruct (vector_index_in _ _ _ _ _ Ev eq_refl) as (v & rest & -> & Hne & Hl & F).
    assert (Hn : match cs with v :: _ => length v | [] => 0 end = length v).
    { destruct cs as [|ks cs]; [contradiction|]. inversion F; tauto. }
    unfold sel_ok. cbn [sel_shape sel_dim sel_items sel_out]. rewrite Hn. repeat split; auto.
    + exists (rev out). reflexivity.
    + intros Z. apply app_eq_nil in Z. destruct Z as [Z _]. apply (f_equal (@rev nat)) in Z. rewrite rev_involutive in Z. cbn in Z. subst out.
      exfalso. pose proof El as El2. destruct index as [|x [|x2 index]].
      * cbn in El2. discriminate.
      * cbn in El2. destruct x as [x|]; [|discriminate]. destruct x; cbn in El2; try discriminate.
        inversion Hi as [|? ? Hx _]; subst. cbn in Hx. destruct shape as [|a shape]; [contradiction|].
        cbn in El2. injection El2 as _ E2 _. destruct (rev shape); discriminate.
      * assert (L : forall l idx out upd i0 o0 u0, init_loop l idx out upd = Ok (i0, o0, u0) -> length i0 = length l + length idx).
        { clear. induction l as [|[x|] l IH]; intros idx out upd i0 o0 u0 H; cbn [init_loop] in H.
          - injection H as <- _ _. reflexivity.
          - destruct (index_value x) as [p| | |]; try discriminate. cbn [bind] in H. apply IH in H. cbn [length] in *. lia.
          - apply IH in H. cbn [length] in *. lia. }
        apply L in El2. rewrite rev_length in El2. cbn in El2. lia.
  - destruct (length sh <? length idx) eqn:Ell; [discriminate|]. apply Nat.ltb_ge in Ell.
    destruct (fill_missing o sh idx (rev out) (flip_updates (rev out) upd)) as [q| | |] eqn:Ef; try discriminate. cbn [bind].
    destruct (check_indexes o sh (fst q)) as [ks| | |] eqn:Ek; try discriminate. cbn [bind]. intros H; injection H as <-.
    destruct (check_in _ _ _ _ Ek) as (H1 & H2 & H3).
    assert (L : forall l idx out upd i0 o0 u0, init_loop l idx out upd = Ok (i0, o0, u0) -> length i0 = length l + length idx).
    { clear. induction l as [|[x|] l IH]; intros idx out upd i0 o0 u0 H; cbn [init_loop] in H.
      - injection H as <- _ _. reflexivity.
      - destruct (index_value x) as [p| | |]; try discriminate. cbn [bind] in H. apply IH in H. cbn [length] in *. lia.
      - apply IH in H. cbn [length] in *. lia. }
    apply L in El. rewrite rev_length in El. cbn in El.
    assert (LF : forall idx sh out upd q, fill_missing o sh idx out upd = Ok q -> length (fst q) = length idx).
    { clear. induction idx as [|[l|] idx IH]; intros sh out upd q H; cbn [fill_missing] in H.
      - injection H as <-. reflexivity.
      - destruct (fill_missing o (tl sh) idx out upd) as [p| | |] eqn:E; try discriminate. cbn [bind] in H. injection H as <-. apply IH in E. cbn in *. lia.
      - destruct sh as [|n sh]; [discriminate|]. destruct upd as [|u upd]; [discriminate|].
        destruct (fill_missing o (tl (n :: sh)) idx (put out u n) upd) as [p| | |] eqn:E; try discriminate. cbn [bind] in H. injection H as <-. apply IH in E. cbn in *. lia. }
    apply LF in Ef. unfold sel_ok. cbn [sel_shape sel_dim sel_items sel_out]. repeat split; auto; try lia.
    + exists (snd q). reflexivity.
    + eauto.
Qed.

Lemma assignments_in {A} c lhs index (x : A) arr sh d l : indexable lhs = Ok (sh, d) -> Forall index_ok index ->
  assignments c lhs index x arr = Ok l -> Forall (fun r => forall k y, r = Ok (k, y) -> k < vol sh) l.
Proof.
  intros E Hi. unfold assignments. destruct (init (origin c) lhs index) as [s| | |] eqn:Es; cbn [bind]; try discriminate.
  destruct (init_ok _ _ _ _ _ _ E Hi Es) as (<- & Hs & (B & HB) & Hz). pose proof Hs as [Hd _].
  destruct (source_of (sel_out s) x arr) as [src| | |]; cbn [bind]; try discriminate.
  assert (V : vol (sel_shape s) = vol (firstn (sel_dim s) (sel_shape s)) * vol (skipn (sel_dim s) (sel_shape s))).
  { rewrite <- (firstn_skipn (sel_dim s) (sel_shape s)) at 1. apply vol_app. }
  destruct (sel_out s) as [|n out] eqn:Eo.
  - destruct (Hz eq_refl) as (idx & Hx). rewrite Hx. destruct Hs as [_ Hs]. rewrite Hx in Hs. destruct Hs as [H1 H2].
    destruct (at_coord idx _) as [ks| | |] eqn:Ek; try discriminate. cbn [bind]. intros H; injection H as <-. constructor; [|constructor].
    intros k y Hk. injection Hk as <- <-. pose proof (at_coord_in _ _ _ _ H1 (map_length _ _) Ek) as I.
    symmetry in HB. apply app_eq_nil in HB. destruct HB as [_ HB]. rewrite HB in V. cbn [vol] in V. rewrite V, Nat.mul_1_r.
    rewrite H2 in I. apply offset_lt; auto. apply inb_len in I. rewrite I, firstn_length_le; auto.
  - rewrite size_vol. destruct (vol (skipn (sel_dim s) (sel_shape s)) =? 0) eqn:Ez; [discriminate|]. apply Nat.eqb_neq in Ez.
    intros H; injection H as <-. rewrite Forall_forall. intros r Hr. apply in_flat_map in Hr. destruct Hr as ([i off] & Hp & Hr).
    apply in_map_iff in Hr. destruct Hr as (k & <- & Hk). apply in_seq in Hk. cbn [fst snd]. intros k' y E'.
    destruct off as [o| | |]; try discriminate. cbn [bind] in E'. destruct (src _); try discriminate. cbn [bind] in E'. injection E' as <- _.
    apply in_combine_r in Hp. pose proof (offsets_in s 0 (size (n :: out) / vol (skipn (sel_dim s) (sel_shape s))) Hs) as F.
    rewrite Forall_forall in F. specialize (F _ Hp o eq_refl). rewrite V. nia.
Qed.

(* ---- the same as index_assign ---- *)
Fixpoint upd (l : list value) (k : nat) (x : value) : list value :=
  match l, k with [], _ => [] | _ :: l', O => x :: l' | y :: l', S k' => y :: upd l' k' x end.
Fixpoint put_all (l : list (res (nat * value))) (d : list value) : list value * res unit :=
  match l with
  | [] => (d, Ok tt)
  | Ok (k, x) :: l' => put_all l' (upd d k x)
  | a :: _ => (d, cast a)
  end.
Definition with_data (lhs : value) (d : list value) : value :=
  match lhs with VMat s _ => VMat s d | VVec _ => VVec d | _ => lhs end.
Lemma upd_len l : forall k x, length (upd l k x) = length l.
Proof. induction l; intros [|k] x; cbn; auto. Qed.
Lemma upd_nth l : forall k x j, nth_error (upd l k x) j = if j =? k then (if k <? length l then Some x else nth_error l j) else nth_error l j.
Proof.
  induction l as [|y l IH]; intros k x j; cbn [upd].
  - destruct (j =? k); reflexivity.
  - destruct k, j; cbn [nth_error Nat.eqb length]; auto. rewrite IH. destruct (j =? k); auto.
Qed.
Lemma cells_map d m : (forall k, k < length d -> m k = nth_error d k) ->
  map (fun k => match m k with Some x => x | None => VInt 0 end) (seq 0 (length d)) = d.
Proof.
  intros H. transitivity (map (fun k => match nth_error d k with Some x => x | None => VInt 0 end) (seq 0 (length d))).
  - apply map_ext_in. intros k Hk. apply in_seq in Hk. rewrite H by lia. reflexivity.
  - clear. induction d as [|x d IH]; cbn [length seq map nth_error]; [reflexivity|]. f_equal. rewrite <- seq_shift, map_map. exact IH.
Qed.
Lemma store_put l : forall d m, (forall k, k < length d -> m k = nth_error d k) ->
  Forall (fun r => forall k y, r = Ok (k, y) -> k < length d) l ->
  snd (store_all (map (fun r (_ : mem) => r) l) m) = snd (put_all l d) /\ length (fst (put_all l d)) = length d /\
  forall k, k < length d -> fst (store_all (map (fun r (_ : mem) => r) l) m) k = nth_error (fst (put_all l d)) k.
Proof.
  induction l as [|r l IH]; intros d m H F; cbn [map store_all put_all]; [auto|].
  inversion F as [|? ? F1 F2]; subst. destruct r as [[k x]| | |]; try (repeat split; auto; fail).
  specialize (F1 _ _ eq_refl). specialize (IH (upd d k x) (mset m k x)). rewrite upd_len in IH. apply IH; auto.
  intros j Hj. unfold mset. rewrite upd_nth. apply Nat.ltb_lt in F1. rewrite F1. destruct (j =? k); auto.
Qed.
Lemma prepare_assignments c lhs index rhs :
  prepare c lhs index rhs = (let! l := assignments c lhs index rhs (arr_of rhs) in
    match prepare c lhs index rhs with Ok p => Ok p | _ => Crash end) /\
  forall steps n copy l, prepare c lhs index rhs = Ok (steps, n, copy) ->
    assignments c lhs index rhs (arr_of rhs) = Ok l -> forall m, store_all (steps (0, n)) m = store_all (map (fun r (_ : mem) => r) l) m.
Proof.
  unfold prepare, assignments. destruct (init (origin c) lhs index) as [s| | |]; cbn [bind]; try (split; [reflexivity|discriminate]).
  assert (S : match source (sel_out s) rhs with
              | Ok f => exists g, source_of (sel_out s) rhs (arr_of rhs) = Ok g /\ forall k, f k = g k
              | r => source_of (sel_out s) rhs (arr_of rhs) = r end).
  { unfold source, source_of. destruct (sel_out s) as [|a out]; [eexists; split; reflexivity|].
    destruct rhs; cbn [arr_of]; try (eexists; split; reflexivity).
    - destruct (shape_eqb (a :: out) [length l]); [|reflexivity]. eexists; split; reflexivity.
    - destruct (shape_eqb (a :: out) shape); [|reflexivity]. eexists; split; reflexivity. }
  destruct (source (sel_out s) rhs) as [f| | |]; try (rewrite S; split; [reflexivity|discriminate]).
  destruct S as (g & -> & Hg). cbn [bind]. destruct (sel_out s) as [|a out].
  - destruct (sel_items s) as [idx|cs].
    + destruct (at_coord idx _) as [ks| | |]; cbn [bind]; (split; [reflexivity|]); try discriminate.
      intros st n copy l E1 E2 m. injection E1 as <- <- <-. injection E2 as <-. reflexivity.
    + split; [reflexivity|]. intros st n copy l E1 E2 m. injection E1 as <- <- <-. injection E2 as <-. reflexivity.
  - destruct (_ =? 0); [split; [reflexivity|discriminate]|]. split; [reflexivity|]. intros st n copy l E1 E2 m.
    assert (st = assign_steps s (size (skipn (sel_dim s) (sel_shape s))) f) by (injection E1; auto).
    assert (n = size (a :: out) / size (skipn (sel_dim s) (sel_shape s))) by (injection E1; auto). subst st n. clear E1.
    assert (El : l = flat_map (fun p => map (fun k => let! off := snd p in let! y := g (k + fst p * size (skipn (sel_dim s) (sel_shape s))) in Ok (off * size (skipn (sel_dim s) (sel_shape s)) + k, y))
                                    (seq 0 (size (skipn (sel_dim s) (sel_shape s)))))
                      (combine (seq 0 (size (a :: out) / size (skipn (sel_dim s) (sel_shape s)))) (offsets s 0 (size (a :: out) / size (skipn (sel_dim s) (sel_shape s)))))) by (injection E2; auto).
    clear E2. subst l. unfold assign_steps. cbn [fst snd]. rewrite Nat.sub_0_r. set (copy0 := size (skipn _ _)) in *. set (N := size (a :: out) / copy0).
    generalize (combine (seq 0 N) (offsets s 0 N)). intros ps. revert m. induction ps as [|p ps IH]; intros m; [reflexivity|]. cbn [flat_map].
    rewrite map_app, map_map.
    assert (Gen : forall ks m, store_all (map (fun k (_ : mem) => let! off := snd p in let! x := f (k + fst p * copy0) in Ok (off * copy0 + k, x)) ks ++
        flat_map (fun p0 => map (fun k (_ : mem) => let! off := snd p0 in let! x := f (k + fst p0 * copy0) in Ok (off * copy0 + k, x)) (seq 0 copy0)) ps) m =
      store_all (map (fun k (_ : mem) => let! off := snd p in let! y := g (k + fst p * copy0) in Ok (off * copy0 + k, y)) ks ++
        map (fun r (_ : mem) => r) (flat_map (fun p0 => map (fun k => let! off := snd p0 in let! y := g (k + fst p0 * copy0) in Ok (off * copy0 + k, y)) (seq 0 copy0)) ps)) m).
    { induction ks as [|k ks IHk]; intros m'; cbn [map app store_all]; [apply IH|].
      destruct (snd p) as [off| | |]; cbn [bind]; try reflexivity. rewrite Hg. destruct (g _) as [x| | |]; cbn [bind]; try reflexivity. apply IHk. }
    apply Gen.
Qed.
Lemma index_assign_puts c lhs index rhs sh d : indexable lhs = Ok (sh, d) -> length d = vol sh -> Forall index_ok index ->
  index_assign c lhs index rhs =
  match assignments c lhs index rhs (arr_of rhs) with
  | Ok l => (with_data lhs (fst (put_all l d)), snd (put_all l d))
  | a => (lhs, cast a)
  end.
Proof.
  intros E L Hi. unfold index_assign. destruct (prepare_assignments c lhs index rhs) as [P1 P2].
  destruct (assignments c lhs index rhs (arr_of rhs)) as [l| | |] eqn:Ea; cbn [bind] in P1; try (rewrite P1; reflexivity).
  destruct (prepare c lhs index rhs) as [[[steps n] copy]| | |] eqn:Ep; try discriminate.
  - rewrite (P2 _ _ _ _ eq_refl eq_refl). pose proof (assignments_in _ _ _ _ _ _ _ _ E Hi Ea) as R. rewrite <- L in R.
    assert (Ed : match lhs with VMat _ d => d | VVec l => l | _ => [] end = d) by (destruct lhs; cbn in E; try discriminate; now injection E). rewrite Ed.
    destruct (store_put l d (cells d) (fun k _ => eq_refl) R) as (S1 & S2 & S3).
    f_equal; [|exact S1]. rewrite <- S2 in S3. pose proof (cells_map _ _ S3) as C. rewrite S2 in C.
    destruct lhs; cbn in E; try discriminate; injection E as <- <-; cbn [contents with_data]; rewrite C; reflexivity.
  - (* a preparation that fails: excluded by P1 *)
    exfalso. clear P1 P2. revert Ea Ep. unfold prepare, assignments. destruct (init (origin c) lhs index) as [s| | |]; cbn [bind]; try discriminate.
    unfold source, source_of. destruct (sel_out s) as [|a out]; [cbn [bind]; destruct (sel_items s); [destruct (at_coord _ _)|]; discriminate|].
    destruct rhs; cbn [arr_of bind]; try (destruct (_ =? 0); discriminate).
    + destruct (shape_eqb _ _); cbn [bind]; [destruct (_ =? 0)|]; discriminate.
    + destruct (shape_eqb _ _); cbn [bind]; [destruct (_ =? 0)|]; discriminate.
  Unshelve.
Qed.

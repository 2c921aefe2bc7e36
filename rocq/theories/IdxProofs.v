(* Proofs about IdxModel.v. *)
From Verif Require Import Value NumModel ArrSpec ArrBase ArrRot EvalSpec EvalProofs ParModel IdxModel IdxSpec.
Open Scope nat_scope.

(* ---- init_loop ---- *)
Lemma init_loop_app l1 : forall l2 idx out upd, init_loop (l1 ++ l2) idx out upd =
  (let! p := init_loop l1 idx out upd in init_loop l2 (fst (fst p)) (snd (fst p)) (snd p)).
Proof.
  induction l1 as [|[x|] l1 IH]; intros l2 idx out upd; cbn [init_loop app]; [reflexivity| |].
  - destruct (index_value x) as [p| | |]; cbn [bind]; auto.
  - apply IH.
Qed.
Definition place (x : option value) : list nat := match x with None => [0] | Some v => shape_of v end.
Fixpoint outs (xs : list (option value)) : list nat := match xs with [] => [] | x :: xs' => outs xs' ++ rev (place x) end.
Fixpoint upds (xs : list (option value)) : list nat :=
  match xs with [] => [] | None :: xs' => upds xs' ++ [length (outs xs')] | Some _ :: xs' => upds xs' end.
Definition elems_of (x : option value) : option (list value) := match x with None => None | Some v => Some (data_of v) end.
Definition usable (x : option value) : Prop := match x with Some v => match v with VInt _ | VVec _ | VMat _ _ => True | _ => False end | None => True end.
Lemma init_loop_ok xs : Forall usable xs -> init_loop (rev xs) [] [] [] = Ok (map elems_of xs, outs xs, upds xs).
Proof.
  induction 1 as [|x xs Hx Hxs IH]; [reflexivity|]. cbn [rev]. rewrite init_loop_app, IH. cbn [bind fst snd].
  destruct x as [v|]; cbn [init_loop outs upds map]; [|reflexivity].
  destruct v; try contradiction; reflexivity.
Qed.
Lemma init_loop_bad xs : ~ Forall usable xs -> init_loop (rev xs) [] [] [] = Err.
Proof.
  assert (D : forall x, usable x \/ exists v, x = Some v /\ index_value v = Err).
  { intros [v|]; [|now left]. destruct v; cbn; eauto. }
  induction xs as [|x xs IH]; intros H; [exfalso; auto|]. cbn [rev]. rewrite init_loop_app.
  destruct (D x) as [Hx|(v & -> & Hv)].
  - rewrite IH; auto.
  - assert (Cs : Forall usable xs \/ ~ Forall usable xs).
    { clear -D. induction xs as [|y xs IH]; [now left; constructor|]. destruct (D y) as [Hy|(v & -> & Hv)].
      - destruct IH; [left; now constructor|right; now inversion 1].
      - right. inversion 1; subst. destruct v; cbn in *; try contradiction; discriminate. }
    destruct Cs as [Cs|Cs]; [|now rewrite IH]. rewrite init_loop_ok by auto. cbn [bind init_loop fst snd]. now rewrite Hv.
Qed.

(* Positions of the placeholders. *)
Fixpoint lpos (p : nat) (xs : list (option value)) : list nat :=
  match xs with [] => [] | None :: xs' => p :: lpos (p + 1) xs' | Some v :: xs' => lpos (p + length (shape_of v)) xs' end.
Definition places (xs : list (option value)) : list nat := flat_map place xs.
Lemma rev_outs xs : rev (outs xs) = places xs.
Proof. induction xs as [|x xs IH]; [reflexivity|]. cbn [outs places flat_map]. rewrite rev_app_distr, rev_involutive, IH. reflexivity. Qed.
Lemma outs_len xs : length (outs xs) = length (places xs).
Proof. rewrite <-rev_outs, rev_length. reflexivity. Qed.
Lemma lpos_shift p q xs : lpos (p + q) xs = map (fun x => p + x) (lpos q xs).
Proof.
  revert q. induction xs as [|[v|] xs IH]; intros q; cbn [lpos map]; auto.
  - rewrite <-Nat.add_assoc. apply IH.
  - rewrite <-Nat.add_assoc, IH. reflexivity.
Qed.
Lemma upds_lt xs : Forall (fun o => o < length (outs xs)) (upds xs).
Proof.
  induction xs as [|[v|] xs IH]; cbn [upds outs place]; [constructor| |].
  - eapply Forall_impl; [|exact IH]. intros; rewrite app_length; cbn beta in *. lia.
  - apply Forall_app. split; [|constructor; [rewrite app_length; cbn; lia|constructor]].
    eapply Forall_impl; [|exact IH]. intros; rewrite app_length; cbn beta in *. lia.
Qed.
Lemma flip_ok xs : flip_updates (rev (outs xs)) (upds xs) = rev (lpos 0 xs).
Proof.
  unfold flip_updates. rewrite rev_length. induction xs as [|[v|] xs IH]; [reflexivity| |].
  - cbn [upds outs place lpos]. change (0 + length (shape_of v)) with (length (shape_of v)).
    rewrite <-(Nat.add_0_r (length (shape_of v))). rewrite lpos_shift, <-map_rev, <-IH, map_map.
    apply map_ext_in. intros o Ho. pose proof (upds_lt xs) as U. rewrite Forall_forall in U. specialize (U o Ho).
    rewrite app_length, rev_length. lia.
  - cbn [upds outs place lpos rev]. rewrite map_app. change (0 + 1) with (1 + 0). rewrite lpos_shift, <-map_rev, <-IH, map_map. f_equal.
    + apply map_ext_in. intros o Ho. pose proof (upds_lt xs) as U. rewrite Forall_forall in U. specialize (U o Ho).
      rewrite app_length. cbn [length app]. lia.
    + cbn [map app]. rewrite app_length. cbn [length]. f_equal. lia.
Qed.

(* ---- fill_missing ---- *)
Fixpoint puts (l us ms : list nat) : list nat := match us, ms with u :: us', m :: ms' => puts (put l u m) us' ms' | _, _ => l end.
Lemma put_comm l i j x y : i <> j -> put (put l i x) j y = put (put l j y) i x.
Proof. revert i j. induction l as [|z l IH]; intros [|i] [|j] H; cbn [put]; auto; [lia|]. f_equal. apply IH. lia. Qed.
Lemma puts_app l us ms us' ms' : length us = length ms -> puts l (us ++ us') (ms ++ ms') = puts (puts l us ms) us' ms'.
Proof. revert l ms. induction us as [|u us IH]; intros l [|m ms] H; try discriminate; cbn [puts app]; auto. Qed.
Lemma puts_put l us ms u m : ~ In u us -> puts (put l u m) us ms = put (puts l us ms) u m.
Proof.
  revert l ms. induction us as [|v us IH]; intros l [|k ms] H; cbn [puts]; auto. rewrite put_comm by (intros ->; apply H; now left).
  apply IH. intros Hu. apply H. now right.
Qed.
Lemma puts_rev l us ms : NoDup us -> length us = length ms -> puts l (rev us) (rev ms) = puts l us ms.
Proof.
  revert l ms. induction us as [|u us IH]; intros l [|m ms] N H; try discriminate; auto. cbn [rev puts]. injection H as H.
  rewrite puts_app by (rewrite !rev_length; auto). apply NoDup_cons_iff in N. destruct N as [N1 N2]. rewrite IH by auto. cbn [puts].
  symmetry. apply puts_put. auto.
Qed.
Lemma puts_len l us ms : length (puts l us ms) = length l.
Proof.
  assert (P : forall l i x, length (put l i x) = length l) by (clear; induction l; intros [|i] x; cbn; auto).
  revert l ms. induction us as [|u us IH]; intros l [|m ms]; cbn [puts]; auto. rewrite IH, P. reflexivity.
Qed.
Lemma put_pre pre l x y : put (pre ++ y :: l) (length pre) x = pre ++ x :: l.
Proof. induction pre as [|z pre IH]; cbn; auto. now rewrite IH. Qed.
Fixpoint all_axes (s : list nat) (xs : list (option value)) : list nat :=
  match xs, s with x :: xs', n :: s' => axes n x ++ all_axes s' xs' | _, _ => [] end.
Fixpoint with_missing (xs : list (option value)) (ms : list nat) : list nat :=
  match xs, ms with
  | [], _ => []
  | Some v :: xs', _ => shape_of v ++ with_missing xs' ms
  | None :: xs', m :: ms' => m :: with_missing xs' ms'
  | None :: _, [] => places xs
  end.
Lemma all_axes_missing xs : forall s, length xs <= length s -> all_axes s xs = with_missing xs (missing s xs).
Proof.
  induction xs as [|[v|] xs IH]; intros [|n s] H; cbn [length] in H; try lia; cbn [all_axes with_missing missing axes]; auto.
  - rewrite IH by lia. reflexivity.
  - cbn [app]. rewrite IH by lia. reflexivity.
Qed.
Lemma puts_places xs : forall ms pre, puts (pre ++ places xs) (lpos (length pre) xs) ms = pre ++ with_missing xs ms.
Proof.
  induction xs as [|[v|] xs IH]; intros ms pre; cbn [lpos places flat_map place with_missing]; auto.
  - rewrite !app_assoc. rewrite <-(app_length pre). apply IH.
  - destruct ms as [|n ms]; [reflexivity|]. cbn [puts app]. rewrite put_pre. change (pre ++ n :: flat_map place xs) with (pre ++ [n] ++ flat_map place xs). rewrite app_assoc.
    replace (length pre + 1) with (length (pre ++ [n])) by (rewrite app_length; cbn; lia).
    etransitivity; [apply (IH ms (pre ++ [n]))|]. rewrite <-app_assoc. reflexivity.
Qed.
Lemma lpos_ge p xs : Forall (fun x => p <= x) (lpos p xs).
Proof.
  revert p. induction xs as [|[v|] xs IH]; intros p; cbn [lpos]; [constructor| |].
  - eapply Forall_impl; [|apply IH]. cbn; intros; lia.
  - constructor; auto. eapply Forall_impl; [|apply IH]. cbn; intros; lia.
Qed.
Lemma lpos_nodup p xs : NoDup (lpos p xs).
Proof.
  revert p. induction xs as [|[v|] xs IH]; intros p; cbn [lpos]; [constructor|apply IH|]. constructor; [|apply IH].
  intros H. pose proof (lpos_ge (p + 1) xs) as G. rewrite Forall_forall in G. specialize (G p H). lia.
Qed.
Lemma lpos_len s xs p : length xs <= length s -> length (lpos p xs) = length (missing s xs).
Proof.
  revert s p. induction xs as [|[v|] xs IH]; intros [|n s] p H; cbn [length] in H; try lia; cbn [lpos missing]; auto; [apply IH; lia|].
  cbn [length]. f_equal. apply IH. lia.
Qed.
Definition filled (o : Z) (n : nat) (x : option value) : list value := match x with None => iota_from o n | Some v => data_of v end.
Fixpoint fills (o : Z) (s : list nat) (xs : list (option value)) : list (list value) :=
  match xs, s with x :: xs', n :: s' => filled o n x :: fills o s' xs' | _, _ => [] end.
Lemma fill_ok o : forall xs s out us, length xs <= length s -> length us = length (missing s xs) ->
  fill_missing o s (map elems_of xs) out us = Ok (fills o s xs, puts out us (missing s xs)).
Proof.
  induction xs as [|[v|] xs IH]; intros [|n s] out us H HL; cbn [length] in H; try lia; cbn [map elems_of fill_missing tl fills filled missing] in *.
  - destruct us; reflexivity.
  - destruct us; reflexivity.
  - rewrite IH by (auto; lia). reflexivity.
  - destruct us as [|u us]; [discriminate|]. cbn [length] in HL. injection HL as HL. rewrite IH by (auto; lia). reflexivity.
Qed.
(* The shape that comes out: the axes, but with the lengths of the missing ones in
   reverse. *)
Definition out_axes (s : list nat) (xs : list (option value)) : list nat := puts (places xs) (rev (lpos 0 xs)) (missing s xs).
Lemma out_axes_eq s xs : length xs <= length s -> out_axes s xs = with_missing xs (rev (missing s xs)).
Proof.
  intros H. unfold out_axes. rewrite <-(rev_involutive (missing s xs)) at 1.
  rewrite puts_rev; [|apply lpos_nodup|rewrite rev_length; now apply lpos_len]. apply (puts_places xs _ []).
Qed.
Lemma out_axes_ok s xs : length xs <= length s -> rev (missing s xs) = missing s xs -> out_axes s xs = all_axes s xs.
Proof. intros H Hr. rewrite out_axes_eq, Hr, all_axes_missing by auto. reflexivity. Qed.
Fixpoint gaps (xs : list (option value)) : nat := match xs with [] => 0 | None :: xs' => S (gaps xs') | Some _ :: xs' => gaps xs' end.
Fixpoint vols (xs : list (option value)) : nat := match xs with [] => 1 | None :: xs' => vols xs' | Some v :: xs' => vol (shape_of v) * vols xs' end.
Lemma with_missing_vol xs : forall ms, length ms = gaps xs -> vol (with_missing xs ms) = vols xs * vol ms.
Proof.
  induction xs as [|[v|] xs IH]; intros ms H; cbn [gaps with_missing vols] in *.
  - destruct ms; [reflexivity|discriminate].
  - rewrite vol_app, IH by auto. lia.
  - destruct ms as [|m ms]; [discriminate|]. cbn [vol] in *. injection H as H. rewrite IH by auto. lia.
Qed.
Lemma gaps_missing xs : forall s, length xs <= length s -> length (missing s xs) = gaps xs.
Proof. induction xs as [|[v|] xs IH]; intros [|n s] H; cbn [length missing gaps] in *; try lia; auto; [apply IH; lia|f_equal; apply IH; lia]. Qed.
Lemma out_axes_vol s xs : length xs <= length s -> vol (out_axes s xs) = vol (all_axes s xs).
Proof.
  intros H. rewrite out_axes_eq, all_axes_missing by auto. rewrite !with_missing_vol by (rewrite ?rev_length; now apply gaps_missing).
  now rewrite vol_rev.
Qed.
Lemma out_shape_axes xs : forall s, length xs <= length s -> out_shape s xs = all_axes s xs ++ skipn (length xs) s.
Proof. induction xs as [|x xs IH]; intros [|n s] H; cbn [length] in H; try lia; cbn [out_shape all_axes length skipn]; auto. rewrite IH, app_assoc by lia. reflexivity. Qed.

(* ---- what a valid index list selects ---- *)
Definition key (o : Z) (e : value) : nat := match e with VInt z => Z.to_nat (z - o) | _ => 0 end.
Definition keys (o : Z) (n : nat) (x : option value) : list nat := map (key o) (filled o n x).
Fixpoint keyss (o : Z) (s : list nat) (xs : list (option value)) : list (list nat) :=
  match xs, s with x :: xs', n :: s' => keys o n x :: keyss o s' xs' | _, _ => [] end.
Fixpoint pick (o : Z) (s : list nat) (xs : list (option value)) (c : list nat) : list nat :=
  match xs, s with
  | x :: xs', n :: s' => nth (ravel (axes n x) (firstn (length (axes n x)) c)) (keys o n x) 0 :: pick o s' xs' (skipn (length (axes n x)) c)
  | _, _ => []
  end.
Lemma valid_len o s xs : valid o s xs -> length xs <= length s.
Proof. induction 1; cbn; lia. Qed.
Lemma filled_ok o n x : valid_index o n x -> Forall (fun e => exists z, e = VInt z /\ (o <= z < o + Z.of_nat n)%Z) (filled o n x).
Proof.
  destruct x as [v|]; cbn [valid_index filled]; [tauto|]. intros _. unfold iota_from. apply Forall_forall. intros e H.
  apply in_map_iff in H. destruct H as (i & <- & H). apply in_seq in H. eexists. split; [reflexivity|]. lia.
Qed.
Lemma keys_len o n x : valid_index o n x -> length (keys o n x) = vol (axes n x).
Proof.
  unfold keys. rewrite map_length. destruct x as [v|]; cbn [valid_index filled axes].
  - intros [W _]. destruct v; cbn in *; auto; lia.
  - intros _. unfold iota_from. rewrite map_length, seq_length. cbn. lia.
Qed.
Lemma keys_lt o n x : valid_index o n x -> Forall (fun k => k < n) (keys o n x).
Proof.
  intros H. unfold keys. apply Forall_map. eapply Forall_impl; [|apply filled_ok, H]. cbn beta. intros e (z & -> & Hz). cbn [key]. lia.
Qed.
Lemma index_in_ok o n e : (exists z, e = VInt z /\ (o <= z < o + Z.of_nat n)%Z) -> index_in o n e = Ok (key o e).
Proof.
  intros (z & -> & H). cbn [index_in key]. replace (z <? o)%Z with false by lia. replace (Z.of_nat n <=? z - o)%Z with false by lia. reflexivity.
Qed.
Lemma check_ok o s xs : valid o s xs -> check_indexes o s (fills o s xs) = Ok (keyss o s xs).
Proof.
  induction 1 as [s|n s x xs H V IH]; [destruct s; reflexivity|]. cbn [fills check_indexes keyss].
  rewrite (mapM_ok _ (key o)); [cbn [bind]; rewrite IH; reflexivity|]. intros e He. apply index_in_ok.
  pose proof (filled_ok o n x H) as F. rewrite Forall_forall in F. auto.
Qed.
Lemma keyss_vol o s xs : valid o s xs -> vol (map (@length nat) (keyss o s xs)) = vol (all_axes s xs).
Proof.
  induction 1 as [s|n s x xs H V IH]; [destruct s; reflexivity|]. cbn [keyss map vol all_axes]. rewrite vol_app, IH, keys_len by auto. reflexivity.
Qed.
Lemma at_coord_ok o s xs : valid o s xs -> forall i, i < vol (all_axes s xs) ->
  at_coord (keyss o s xs) (unravel (map (@length nat) (keyss o s xs)) i) = Ok (pick o s xs (unravel (all_axes s xs) i)).
Proof.
  induction 1 as [s|n s x xs H V IH]; intros i Hi; [destruct s; reflexivity|].
  cbn [keyss map unravel at_coord all_axes] in *. rewrite (keyss_vol o s xs V). rewrite vol_app in Hi.
  assert (N : vol (all_axes s xs) <> 0) by nia.
  assert (Q : i / vol (all_axes s xs) < vol (axes n x)) by (apply Nat.div_lt_upper_bound; lia).
  assert (M : i mod vol (all_axes s xs) < vol (all_axes s xs)) by (apply Nat.mod_upper_bound; auto).
  rewrite (nth_error_nth' _ 0) by (rewrite keys_len; auto). rewrite IH by auto. cbn [bind pick].
  rewrite unravel_app by (rewrite vol_app; auto).
  rewrite firstn_app, skipn_app, unravel_len, Nat.sub_diag. cbn [firstn skipn].
  rewrite firstn_all2, app_nil_r by (rewrite unravel_len; auto). rewrite skipn_all2 by (rewrite unravel_len; auto). cbn [app].
  rewrite ravel_unravel by auto. reflexivity.
Qed.
Lemma inb_split s t c : inb (s ++ t) c -> exists a b, c = a ++ b /\ length a = length s /\ inb s a /\ inb t b.
Proof.
  intros H. exists (firstn (length s) c), (skipn (length s) c). rewrite firstn_skipn. split; auto.
  assert (L : length (firstn (length s) c) = length s). { apply inb_len in H. rewrite app_length in H. rewrite firstn_length. lia. }
  split; auto. apply (inb_app s t (firstn (length s) c) (skipn (length s) c) L). now rewrite firstn_skipn.
Qed.
Lemma firstn_len_app {A} (a b : list A) : firstn (length a) (a ++ b) = a.
Proof. rewrite firstn_app, Nat.sub_diag, firstn_all. cbn. apply app_nil_r. Qed.
Lemma skipn_len_app {A} (a b : list A) : skipn (length a) (a ++ b) = b.
Proof. rewrite skipn_app, Nat.sub_diag, skipn_all. reflexivity. Qed.
Lemma pick_ok o s xs : valid o s xs -> forall ca cr, inb (all_axes s xs) ca ->
  target o s xs (ca ++ cr) = Some (pick o s xs ca ++ cr) /\ inb (firstn (length xs) s) (pick o s xs ca).
Proof.
  induction 1 as [s|n s x xs H V IH]; intros ca cr I.
  - assert (E : all_axes s [] = []) by (destruct s; reflexivity). rewrite E in I. apply inb_len in I. destruct ca; [|discriminate].
    split; [destruct s; reflexivity|]. destruct s; constructor.
  - cbn [all_axes] in I. apply inb_split in I. destruct I as (a & b & -> & L & Ia & Ib).
    cbn [target pick length firstn]. rewrite <-app_assoc, <-L, !firstn_len_app, !skipn_len_app.
    destruct (IH b cr Ib) as [-> J]. assert (R : ravel (axes n x) a < length (keys o n x)) by (rewrite keys_len by auto; now apply ravel_lt).
    split.
    + assert (P : position o x a = Some (nth (ravel (axes n x) a) (keys o n x) 0)); [|rewrite P; reflexivity].
      pose proof (filled_ok o n x H) as F. unfold keys in *. rewrite map_length in R.
      destruct x as [v|]; cbn [position filled axes] in *.
      * unfold elem. rewrite (nth_error_nth' _ (VInt 0)) by auto. rewrite Forall_forall in F.
        destruct (F _ (nth_In _ (VInt 0) R)) as (z & E & _). rewrite (nth_indep _ 0 (key o (VInt 0))) by (rewrite map_length; auto).
        rewrite map_nth, E. reflexivity.
      * destruct (inb1 _ _ Ia) as (k & -> & Hk). f_equal. cbn [ravel vol]. rewrite Nat.mul_1_r, Nat.add_0_r.
        unfold iota_from. rewrite map_map. rewrite nth_map_seq by auto. cbn [key]. lia.
    + constructor; auto. pose proof (keys_lt o n x H) as F. rewrite Forall_forall in F. apply F. now apply nth_In.
Qed.
Lemma offset_of_ok ks : forall s acc, length ks <= length s -> offset_of s ks acc = acc * vol (firstn (length ks) s) + ravel (firstn (length ks) s) ks.
Proof.
  induction ks as [|k ks IH]; intros [|n s] acc H; cbn [length] in H; try lia; cbn [offset_of firstn length vol ravel]; try lia.
  rewrite IH by lia. nia.
Qed.

(* What init gives. *)
Record good (s : selection) (D R A : list nat) (tg : list nat -> list nat) : Prop := mkGood {
  g_shape : sel_shape s = D ++ R;
  g_dim : sel_dim s = length D;
  g_data : length (sel_data s) = vol (D ++ R);
  g_tg : forall ca, inb A ca -> inb D (tg ca);
  g_off : forall lo hi, lo <= hi <= vol A -> offsets s lo hi = map (fun i => Ok (ravel D (tg (unravel A i)))) (seq lo (hi - lo));
  g_out : exists A', sel_out s = A' ++ R /\ vol A' = vol A /\ length A' = length A;
  g_one : sel_out s = [] -> match sel_items s with
    | ByAxes idx => let! ks := at_coord idx (map (fun _ => 0) idx) in Ok (offset_of (sel_shape s) ks 0)
    | ByCoords _ => Ok 0 end = Ok (ravel D (tg [])) }.
Lemma valid_usable o s xs : valid o s xs -> Forall usable xs.
Proof.
  induction 1 as [|n s x xs H V IH]; constructor; auto. destruct x as [v|]; [|exact I]. destruct H as [_ F].
  destruct v; cbn in *; auto; apply Forall_inv in F; destruct F as (? & F & _); discriminate.
Qed.
Lemma valid_not_vector o s xs : valid o s xs -> vector_index o s (map elems_of xs) = None.
Proof.
  intros V. destruct xs as [|[v|] [|y xs]]; try reflexivity. 2: { cbn. destruct (data_of v) as [|[] ?]; reflexivity. }
  cbn. inversion V as [|n s' x xs' H _]; subst. destruct H as [_ F]. destruct (data_of v) as [|[] ?]; try reflexivity.
  apply Forall_inv in F. destruct F as (z & F & _). discriminate.
Qed.
Lemma indexable_ok v : arr v -> indexable v = Ok (shape_of v, data_of v).
Proof. destruct v; cbn; tauto. Qed.
Lemma data_len v : wf v -> length (data_of v) = vol (shape_of v).
Proof. destruct v; cbn; intros; try lia; tauto. Qed.
Lemma with_missing_len xs : forall ms, length (with_missing xs ms) = length (places xs).
Proof. induction xs as [|[v|] xs IH]; intros ms; cbn [with_missing places flat_map place]; auto; [rewrite !app_length; now rewrite IH|destruct ms; cbn [length app]; auto; now rewrite IH]. Qed.
Lemma init_axes o v xs : arr v -> wf v -> valid o (shape_of v) xs ->
  exists s, init o v xs = Ok s /\ sel_data s = data_of v /\
    good s (firstn (length xs) (shape_of v)) (skipn (length xs) (shape_of v)) (all_axes (shape_of v) xs) (pick o (shape_of v) xs) /\
    sel_out s = out_axes (shape_of v) xs ++ skipn (length xs) (shape_of v).
Proof.
  intros Hv W V. pose proof (valid_len _ _ _ V) as L. unfold init. rewrite init_loop_ok by (eapply valid_usable; eauto). cbn [bind].
  rewrite indexable_ok by auto. cbn [bind]. rewrite (valid_not_vector _ _ _ V). rewrite map_length.
  replace (length (shape_of v) <? length xs) with false by (symmetry; apply Nat.ltb_ge; auto).
  rewrite flip_ok, fill_ok by (auto; rewrite rev_length; now apply lpos_len). cbn [bind fst snd]. rewrite check_ok by auto. cbn [bind].
  eexists. split; [reflexivity|]. cbn [sel_data sel_out]. split; [reflexivity|]. rewrite rev_outs. fold (out_axes (shape_of v) xs).
  assert (E : sel_shape (mkSel (shape_of v) (data_of v) (ByAxes (keyss o (shape_of v) xs)) (length xs) (out_axes (shape_of v) xs ++ skipn (length xs) (shape_of v))) = shape_of v) by reflexivity.
  split; [|reflexivity]. split; cbn [sel_shape sel_dim sel_data sel_out sel_items].
  - now rewrite firstn_skipn.
  - rewrite firstn_length. lia.
  - rewrite firstn_skipn. now apply data_len.
  - intros ca I. apply (pick_ok _ _ _ V ca [] I).
  - intros lo hi H. unfold offsets. cbn [sel_items sel_shape].
    destruct (Nat.eq_dec lo hi) as [->|N]; [rewrite Nat.sub_diag; reflexivity|].
    rewrite odo_start_lt by (rewrite keyss_vol; auto; lia). rewrite odo_run_unravel by (rewrite keyss_vol; auto; lia). rewrite map_map.
    apply map_ext_in. intros i Hi. apply in_seq in Hi. rewrite at_coord_ok by (auto; lia). cbn [bind]. f_equal.
    destruct (pick_ok _ _ _ V (unravel (all_axes (shape_of v) xs) i) [] ltac:(apply unravel_inb; lia)) as [_ J]. apply inb_len in J.
    rewrite firstn_length in J. rewrite offset_of_ok by lia. rewrite J. rewrite Nat.min_l by lia. lia.
  - exists (out_axes (shape_of v) xs). split; auto. split; [now apply out_axes_vol|].
    rewrite out_axes_eq, all_axes_missing, !with_missing_len by auto. reflexivity.
  - intros H. apply app_eq_nil in H. destruct H as [H _].
    assert (A : all_axes (shape_of v) xs = []).
    { apply length_zero_iff_nil. rewrite all_axes_missing, with_missing_len by auto. rewrite out_axes_eq in H by auto.
      apply (f_equal (@length _)) in H. rewrite with_missing_len in H. exact H. }
    pose proof (at_coord_ok _ _ _ V 0) as T. rewrite A in T. specialize (T ltac:(cbn; lia)). rewrite unravel_0 in T.
    rewrite map_length in T. cbn [unravel vol] in T.
    assert (Z : forall (l : list (list nat)), map (fun _ => 0) l = repeat 0 (length l)) by (clear; induction l; cbn; congruence).
    rewrite Z, T. cbn [bind]. f_equal.
    destruct (pick_ok _ _ _ V [] [] ltac:(rewrite A; constructor)) as [_ J]. apply inb_len in J.
    rewrite firstn_length in J. rewrite offset_of_ok by lia. rewrite J. rewrite Nat.min_l by lia. lia.
Qed.

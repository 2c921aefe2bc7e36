(* The implementation of variables simulates the store of values. *)
From stdpp Require Import gmap list strings.
From Verif Require Import PersistModel PersistSpec PersistWorld.
From Verif Require Import Value ArrModel ParModel IdxModel ArrSpec VarModel VarSpec VarIdx.
Open Scope nat_scope.
Notation aworld := (PersistSpec.aworld ref).
Implicit Types (a : aworld) (s : vstate) (p : store).

Lemma fimpl {A} (P Q : A -> Prop) l : Forall P l -> (forall x, P x -> Q x) -> Forall Q l.
Proof. intros H1 H2. induction H1; constructor; auto. Qed.

(* ---- reading slices ---- *)
Lemma read_slices_app ls l : read_slices (ls ++ [l]) = read_slices ls ++ [map (value_of (read_slices ls)) l].
Proof. unfold read_slices. rewrite fold_left_app. done. Qed.
Lemma read_slices_length ls : length (read_slices ls) = length ls.
Proof. induction ls as [|l ls IH] using rev_ind; [done|]. rewrite read_slices_app, !app_length, IH. done. Qed.
Lemma read_slices_prefix ls m : read_slices ls `prefix_of` read_slices (ls ++ m).
Proof.
  induction m as [|l m IH] using rev_ind; [rewrite app_nil_r; done|].
  rewrite app_assoc, read_slices_app. by apply prefix_app_r.
Qed.

(* References to existing slices; matrices have the elements their shape says. *)
Definition atom (v : value) : Prop := match v with VVec _ | VMat _ _ => False | _ => True end.
Definition rok (ls : list (list ref)) (r : ref) : Prop :=
  match r with
  | RAtom v => atom v
  | RVec k => k < length ls
  | RMat sh k => sh <> [] /\ exists l, ls !! k = Some l /\ length l = vol sh
  end.
Definition sok (ls : list (list ref)) : Prop := forall k l, ls !! k = Some l -> Forall (rok (take k ls)) l.

Lemma rok_app ls m r : rok ls r -> rok (ls ++ m) r.
Proof.
  destruct r as [v|k|sh k]; simpl; auto.
  - rewrite app_length. lia.
  - intros (H & l & Hl & Hv). split; [done|]. exists l. split; [|done]. by apply lookup_app_l_Some.
Qed.
Lemma value_of_app ls m r : rok ls r -> value_of (read_slices (ls ++ m)) r = value_of (read_slices ls) r.
Proof.
  assert (forall k, k < length ls -> nth k (read_slices (ls ++ m)) [] = nth k (read_slices ls) []) as Hn.
  { intros k Hk. destruct (read_slices_prefix ls m) as [D HD]. rewrite HD. apply app_nth1.
    rewrite read_slices_length. done. }
  destruct r as [v|k|sh k]; simpl; [done| |].
  - intros Hk. rewrite Hn by done. done.
  - intros (_ & l & Hl & _). rewrite Hn by (by eapply lookup_lt_Some). done.
Qed.
Lemma values_app ls m l : Forall (rok ls) l -> map (value_of (read_slices (ls ++ m))) l = map (value_of (read_slices ls)) l.
Proof. intros H. apply map_ext_in. intros r Hr. apply value_of_app. rewrite Forall_forall in H. by apply H. Qed.
Lemma read_slice ls k l : sok ls -> ls !! k = Some l -> nth k (read_slices ls) [] = map (value_of (read_slices ls)) l.
Proof.
  intros Hs Hk. pose proof (Hs _ _ Hk) as Hr. rewrite <-(take_drop_middle _ _ _ Hk).
  set (t := take k ls) in *. assert (length t = k) as Ht by (apply take_length_le; apply lookup_lt_Some in Hk; lia).
  rewrite values_app by done. rewrite cons_middle, app_assoc.
  destruct (read_slices_prefix (t ++ [l]) (drop (S k) ls)) as [D HD]. rewrite HD, read_slices_app.
  rewrite <-app_assoc. rewrite app_nth2 by (rewrite read_slices_length; lia).
  rewrite read_slices_length, Ht, Nat.sub_diag. done.
Qed.
Lemma sok_app ls l : sok ls -> Forall (rok ls) l -> sok (ls ++ [l]).
Proof.
  intros Hs Hl k l' Hk. destruct (decide (k < length ls)) as [Hlt|Hge].
  - rewrite lookup_app_l in Hk by done. rewrite take_app_le by lia. by apply Hs.
  - rewrite lookup_app_r in Hk by lia. apply list_lookup_singleton_Some in Hk as [Hk ->].
    replace k with (length ls) by lia. rewrite take_app. done.
Qed.

(* ---- the world ---- *)
Record VW a s : Prop := {
  vw_wi : WI nil_ref (vw s) a;
  vw_sl : sok (aslices a);
  vw_ed : Forall (Forall (rok (aslices a))) (aeditors a) }.
Definition val a (r : ref) : value := value_of (read_slices (aslices a)) r.

Lemma VW_len a s : VW a s -> length (wslices (vw s)) = length (aslices a) /\ length (wtrs (vw s)) = length (aeditors a).
Proof. intros [H _ _]. eapply spec_lens; eauto. Qed.
Lemma VW_elems a s k : VW a s -> elems s k = default [] (aslices a !! k).
Proof.
  intros [HW _ _]. unfold elems. destruct (WI_reads _ _ _ HW) as [Hr _].
  destruct (wslices (vw s) !! k) as [sl|] eqn:E.
  - destruct (Forall2_lookup_l _ _ _ _ _ Hr E) as (l & -> & Hl). destruct Hl as (_ & _ & _ & ->). done.
  - rewrite (Forall2_lookup_None_1 _ _ _ _ Hr E) || rewrite lookup_ge_None_2; [done|].
    rewrite <-(Forall2_length _ _ _ Hr). by apply lookup_ge_None.
Qed.
Lemma VW_show a s r : VW a s -> show r s = val a r.
Proof.
  intros HV. unfold show, val. f_equal. f_equal. destruct (VW_len _ _ HV) as [-> _].
  apply list_eq. intros i. rewrite <-(list_fmap_map) || idtac.
  change (map (elems s) (seq 0 (length (aslices a)))) with (elems s <$> seq 0 (length (aslices a))).
  rewrite list_lookup_fmap. destruct (decide (i < length (aslices a))) as [Hi|Hi].
  - rewrite lookup_seq_lt by done. simpl. rewrite (VW_elems a) by done.
    destruct (lookup_lt_is_Some_2 _ _ Hi) as [l ->]. done.
  - rewrite lookup_seq_ge by lia. simpl. symmetry. apply lookup_ge_None_2. lia.
Qed.

(* One call of the package. *)
Lemma call_ok a s o : VW a s ->
  (exists w' a', call o s = (mkV w' (vars s), Ok tt) /\ spec_step a o (Some a') /\ WI nil_ref w' a') \/
  (call o s = (s, Crash) /\ spec_step a o None).
Proof.
  intros HV. unfold call. destruct (WI_step nil_ref (vw s) a o (vw_wi _ _ HV)) as [(w' & a' & -> & H1 & H2)|[-> H]].
  - left. eauto.
  - right. done.
Qed.

Lemma sn_append a k xs : spec_step a (OAppend k xs) None -> aeditors a !! k = None.
Proof. inversion 1; naive_solver. Qed.
Lemma sn_persist a k : spec_step a (OPersist k) None -> aeditors a !! k = None.
Proof. inversion 1; naive_solver. Qed.
Lemma sn_transient a k : spec_step a (OTransient k) None -> aslices a !! k = None.
Proof. inversion 1; naive_solver. Qed.
Lemma sn_set a k i x : spec_step a (OSet k i x) None ->
  aeditors a !! k = None \/ exists l, aeditors a !! k = Some l /\ ~ (0 <= i < Z.of_nat (length l))%Z.
Proof. inversion 1; naive_solver. Qed.

(* Slices and editors only grow. *)
Definition ext a a' : Prop := (exists m, aslices a' = aslices a ++ m) /\ (exists m, aeditors a' = aeditors a ++ m).
Lemma ext_refl a : ext a a.
Proof. split; exists []; rewrite app_nil_r; done. Qed.
Lemma ext_trans a b c : ext a b -> ext b c -> ext a c.
Proof. intros [[m1 H1] [m2 H2]] [[m3 H3] [m4 H4]]. split; eexists; rewrite ?H3, ?H4, ?H1, ?H2, <-app_assoc; done. Qed.
Lemma ext_rok a a' r : ext a a' -> rok (aslices a) r -> rok (aslices a') r.
Proof. intros [[m ->] _]. apply rok_app. Qed.
Lemma ext_val a a' r : ext a a' -> rok (aslices a) r -> val a' r = val a r.
Proof. intros [[m Hm] _] Hr. unfold val. rewrite Hm. by apply value_of_app. Qed.
Lemma ext_vals a a' l : ext a a' -> Forall (rok (aslices a)) l -> map (val a') l = map (val a) l.
Proof. intros [[m Hm] _] Hr. unfold val. rewrite Hm. by apply values_app. Qed.
Lemma ext_roks a a' l : ext a a' -> Forall (rok (aslices a)) l -> Forall (rok (aslices a')) l.
Proof. intros He Hl. eapply fimpl; [exact Hl|]. intros r. by apply ext_rok. Qed.

Lemma new_vector_ok a s l : VW a s -> Forall (rok (aslices a)) l ->
  exists s' a' k, new_vector l s = (s', Ok (RVec k)) /\ vars s' = vars s /\ VW a' s' /\ ext a a' /\
    aslices a' !! k = Some l /\ val a' (RVec k) = VVec (map (val a) l).
Proof.
  intros HV Hl. destruct (VW_len _ _ HV) as [L1 L2]. unfold new_vector, seqr. rewrite L1, L2.
  destruct (call_ok a s ONew HV) as [(w1 & a1 & -> & S1 & W1)|[_ S1]]; [|inversion S1; naive_solver].
  inversion S1; subst a1; clear S1.
  assert (VW (mkA (aslices a ++ [[]]) (aeditors a)) (mkV w1 (vars s))) as V1.
  { split; [done| |]; simpl; [apply sok_app; [apply HV|constructor]|].
    eapply fimpl; [apply HV|]. intros ? Hx. eapply fimpl; [exact Hx|]. intros ?. apply rok_app. }
  destruct (call_ok _ _ (OTransient (length (aslices a))) V1) as [(w2 & a2 & -> & S2 & W2)|[_ S2]].
  2:{ apply sn_transient in S2. simpl in S2. rewrite lookup_app_r, Nat.sub_diag in S2 by lia. done. }
  inversion S2; subst a2; clear S2. simpl in *.
  match goal with H : (_ ++ _) !! _ = Some _ |- _ => rewrite lookup_app_r, Nat.sub_diag in H by lia; inversion H; subst; clear H end.
  assert (VW (mkA (aslices a ++ [[]]) (aeditors a ++ [[]])) (mkV w2 (vars s))) as V2.
  { split; [done|apply V1|]. simpl. apply Forall_app. split; [apply V1|]. repeat constructor. }
  destruct (call_ok _ _ (OAppend (length (aeditors a)) l) V2) as [(w3 & a3 & -> & S3 & W3)|[_ S3]].
  2:{ apply sn_append in S3. simpl in S3. rewrite lookup_app_r, Nat.sub_diag in S3 by lia. done. }
  inversion S3; subst a3; clear S3. simpl in *.
  match goal with H : (_ ++ _) !! _ = Some _ |- _ => rewrite lookup_app_r, Nat.sub_diag in H by lia; inversion H; subst; clear H end.
  simpl in *. assert (<[length (aeditors a) := l]> (aeditors a ++ [[]]) = aeditors a ++ [l]) as Hins.
  { rewrite insert_app_r_alt by lia. rewrite Nat.sub_diag. done. }
  rewrite Hins in *.
  assert (VW (mkA (aslices a ++ [[]]) (aeditors a ++ [l])) (mkV w3 (vars s))) as V3.
  { split; [done|apply V1|]. simpl. apply Forall_app. split; [apply V1|]. repeat constructor.
    eapply fimpl; [exact Hl|]. intros ?. apply rok_app. }
  destruct (call_ok _ _ (OPersist (length (aeditors a))) V3) as [(w4 & a4 & -> & S4 & W4)|[_ S4]].
  2:{ apply sn_persist in S4. simpl in S4. rewrite lookup_app_r, Nat.sub_diag in S4 by lia. done. }
  inversion S4; subst a4; clear S4. simpl in *.
  match goal with H : (_ ++ _) !! _ = Some _ |- _ => rewrite lookup_app_r, Nat.sub_diag in H by lia; simpl in H; injection H as <- end.
  match goal with |- context [mkV w4 (vars s)] => idtac end.
  match type of W4 with WI _ _ (mkA ?x ?y) => set (a4 := mkA x y) in * end.
  assert (VW a4 (mkV w4 (vars s))) as V4.
  { split; [done| |]; simpl; [apply sok_app; [apply V3|]|].
    - eapply fimpl; [exact Hl|]. intros ?. apply rok_app.
    - eapply fimpl; [apply V3|]. intros ? Hx. eapply fimpl; [exact Hx|]. intros ?. apply rok_app. }
  destruct (VW_len _ _ V4) as [L3 L4]. simpl in L3, L4.
  assert (ext a a4) as He. { split; simpl; eexists; rewrite <-?app_assoc; done. }
  rewrite L3. rewrite !app_length. simpl. replace (length (aslices a) + 1 + 1 - 1) with (length (aslices a) + 1) by lia.
  assert (aslices a4 !! (length (aslices a) + 1) = Some l) as Hk.
  { simpl. rewrite lookup_app_r by (rewrite app_length; simpl; lia). rewrite app_length. simpl.
    replace (length (aslices a) + 1 - (length (aslices a) + 1)) with 0 by lia. done. }
  eexists _, a4, _. split_and!; [done|done|done|done|exact Hk|].
  unfold val at 1. cbn [value_of]. rewrite (read_slice _ _ _ (vw_sl _ _ V4) Hk).
  f_equal. exact (ext_vals a a4 l He Hl).
Qed.

(* ---- a value made by an operator ---- *)
Fixpoint embeds (l : list value) (s : vstate) : vstate * res (list ref) :=
  match l with
  | [] => (s, Ok [])
  | v :: l' => seqr (embed v) (fun r => seqr (embeds l') (fun rs s => (s, Ok (r :: rs)))) s
  end.
Fixpoint dwfs (l : list value) : Prop := match l with [] => True | x :: l' => dwf x /\ dwfs l' end.
Definition embed_fine (v : value) : Prop := forall a s, dwf v -> VW a s ->
  exists s' a' r, embed v s = (s', Ok r) /\ vars s' = vars s /\ VW a' s' /\ ext a a' /\ rok (aslices a') r /\ val a' r = v.
Lemma embeds_ok l : Forall embed_fine l -> forall a s, dwfs l -> VW a s ->
  exists s' a' rs, embeds l s = (s', Ok rs) /\ vars s' = vars s /\ VW a' s' /\ ext a a' /\
    Forall (rok (aslices a')) rs /\ map (val a') rs = l.
Proof.
  induction 1 as [|v l Hv Hl IH]; intros a s Hd HV; cbn [embeds].
  - exists s, a, []. split_and!; auto using ext_refl.
  - destruct Hd as [Hd1 Hd2]. destruct (Hv a s Hd1 HV) as (s1 & a1 & r & E1 & G1 & V1 & X1 & R1 & W1).
    destruct (IH a1 s1 Hd2 V1) as (s2 & a2 & rs & E2 & G2 & V2 & X2 & R2 & W2).
    unfold seqr at 1. rewrite E1. unfold seqr. rewrite E2.
    exists s2, a2, (r :: rs). split_and!; auto; [congruence|by eapply ext_trans|constructor; [by eapply ext_rok|done]|].
    simpl. rewrite W2, (ext_val a1 a2) by done. rewrite W1. done.
Qed.
Lemma embed_ok v : embed_fine v.
Proof.
  induction v as [z|z|z|q|u v IHu IHv|l IH|sh l IH] using ArrSel.value_ind'; intros a s Hd HV;
    try (eexists s, a, _; split_and!; [done|done|done|apply ext_refl|done|done]).
  - change (embed (VVec l)) with (seqr (embeds l) new_vector).
    destruct (embeds_ok l IH a s Hd HV) as (s1 & a1 & rs & E1 & G1 & V1 & X1 & R1 & W1). unfold seqr. rewrite E1.
    destruct (new_vector_ok a1 s1 rs V1 R1) as (s2 & a2 & k & E2 & G2 & V2 & X2 & K2 & W2). rewrite E2.
    exists s2, a2, (RVec k). split_and!; auto; [congruence|by eapply ext_trans| |congruence]. simpl. by eapply lookup_lt_Some.
  - destruct Hd as (D1 & D2 & D3).
    change (embed (VMat sh l)) with (seqr (embeds l) (fun rs => seqr (new_vector rs) (fun r s =>
      (s, match r with RVec k => Ok (RMat sh k) | _ => Crash end)))).
    destruct (embeds_ok l IH a s D3 HV) as (s1 & a1 & rs & E1 & G1 & V1 & X1 & R1 & W1). unfold seqr. rewrite E1.
    destruct (new_vector_ok a1 s1 rs V1 R1) as (s2 & a2 & k & E2 & G2 & V2 & X2 & K2 & W2). rewrite E2.
    exists s2, a2, (RMat sh k). split_and!; auto; [congruence|by eapply ext_trans| |].
    + simpl. split; [done|]. exists rs. split; [done|]. rewrite <-D2, <-W1, map_length. done.
    + rewrite W1 in W2. unfold val in W2 |- *. simpl in W2 |- *. congruence.
Qed.

(* ---- variables ---- *)
Definition vrel a (v : var) (pv : value) : Prop :=
  rok (aslices a) (vval v) /\
  match vedit v with
  | None => pv = val a (vval v)
  | Some e => exists l, aeditors a !! e = Some l /\
      match vval v with
      | RAtom _ => False
      | RVec k => pv = VVec (map (val a) l) /\ exists l0, aslices a !! k = Some l0 /\ length l = length l0
      | RMat sh k => pv = VMat sh (map (val a) l) /\ exists l0, aslices a !! k = Some l0 /\ length l = length l0
      end
  end.
Definition VV a (vs : gmap string var) p : Prop :=
  (forall x, match vs !! x, p !! x with Some v, Some pv => vrel a v pv | None, None => True | _, _ => False end) /\
  (forall x y v w e, vs !! x = Some v -> vs !! y = Some w -> vedit v = Some e -> vedit w = Some e -> x = y).
Definition VI a s p : Prop := VW a s /\ VV a (vars s) p.

Lemma vrel_ext a a' v pv : Forall (Forall (rok (aslices a))) (aeditors a) -> ext a a' -> vrel a v pv -> vrel a' v pv.
Proof.
  intros Hed He [Hr Hv]. split; [by eapply ext_rok|]. pose proof He as [[m1 Hm1] [m2 Hm2]].
  destruct (vedit v) as [e|]; [|by rewrite (ext_val a)].
  destruct Hv as (l & Hl & Hv). exists l. split; [rewrite Hm2; by apply lookup_app_l_Some|].
  assert (map (val a') l = map (val a) l) as ->.
  { apply ext_vals; [done|]. eapply (Forall_lookup_1 _ _ _ _ Hed Hl). }
  destruct (vval v); [done| |]; destruct Hv as (-> & l0 & Hk & Hlen); (split; [done|]); exists l0; rewrite Hm1;
    (split; [by apply lookup_app_l_Some|done]).
Qed.
Lemma VV_ext a a' vs p : Forall (Forall (rok (aslices a))) (aeditors a) -> ext a a' -> VV a vs p -> VV a' vs p.
Proof.
  intros Hed He [H1 H2]. split; [|done]. intros x. specialize (H1 x).
  destruct (vs !! x), (p !! x); auto. by eapply vrel_ext.
Qed.
Lemma VI_ext a a' s s' p : VI a s p -> ext a a' -> vars s' = vars s -> VW a' s' -> VI a' s' p.
Proof. intros [H1 H2] He E HV. split; [done|]. rewrite E. eapply VV_ext; [apply H1|done|done]. Qed.

(* ---- simulation ---- *)
Definition sext a a' : Prop := exists m, aslices a' = aslices a ++ m.
Lemma sext_refl a : sext a a.
Proof. exists []. by rewrite app_nil_r. Qed.
Lemma sext_trans a b c : sext a b -> sext b c -> sext a c.
Proof. intros [m1 H1] [m2 H2]. eexists. rewrite H2, H1, <-app_assoc. done. Qed.
Lemma ext_sext a a' : ext a a' -> sext a a'.
Proof. intros [H _]. done. Qed.
Definition rrel {A B} (R : A -> B -> Prop) (r : res A) (r' : res B) : Prop :=
  match r, r' with Ok x, Ok y => R x y | Err, Err | Crash, Crash | Unmod, Unmod => True | _, _ => False end.
Definition sim {A B} (R : aworld -> A -> B -> Prop) a (o : vstate * res A) (o' : store * res B) : Prop :=
  exists a', sext a a' /\ VI a' (fst o) (fst o') /\ rrel (R a') (snd o) (snd o').
Lemma sim_seq {A B A' B'} (R : aworld -> A -> B -> Prop) (R' : aworld -> A' -> B' -> Prop) a m m' s p
    (k : A -> vstate -> vstate * res A') (k' : B -> store -> store * res B') :
  sim R a (m s) (m' p) ->
  (forall a' x y s' p', sext a a' -> VI a' s' p' -> R a' x y -> sim R' a' (k x s') (k' y p')) ->
  sim R' a (seqr m k s) (seqr m' k' p).
Proof.
  intros (a' & X & V & Hr) Hk. unfold seqr. destruct (m s) as [s' r], (m' p) as [p' r']. simpl in *.
  destruct r as [x| | |], r' as [y| | |]; simpl in Hr; try done.
  - destruct (Hk a' x y s' p' X V Hr) as (a2 & X2 & V2 & Hr2). exists a2. split; [by eapply sext_trans|done].
  - exists a'. done.
  - exists a'. done.
  - exists a'. done.
Qed.
Lemma sim_ret {A B} (R : aworld -> A -> B -> Prop) a s p x y : VI a s p -> R a x y -> sim R a (s, Ok x) (p, Ok y).
Proof. intros. exists a. split; [apply sext_refl|done]. Qed.

Definition rref a (r : ref) (v : value) : Prop := rok (aslices a) r /\ val a r = v.
Lemma rref_mono a a' r v : sext a a' -> rref a r v -> rref a' r v.
Proof. intros [m Hm] [H1 H2]. unfold rref, val in *. rewrite Hm. split; [by apply rok_app|]. by rewrite value_of_app. Qed.
Definition rrefs a := Forall2 (rref a).
Lemma rrefs_mono a a' l l' : sext a a' -> rrefs a l l' -> rrefs a' l l'.
Proof. intros X H. eapply Forall2_impl; [exact H|]. intros. by eapply rref_mono. Qed.
Lemma rrefs_spec a l l' : rrefs a l l' -> Forall (rok (aslices a)) l /\ map (val a) l = l'.
Proof. induction 1 as [|r v l l' [H1 H2] _ [IH1 IH2]]; [done|]. split; [by constructor|]. simpl. by rewrite H2, IH2. Qed.
Definition ropt a (r : option ref) (v : option value) : Prop :=
  match r, v with Some r, Some v => rref a r v | None, None => True | _, _ => False end.
Definition ropts a := Forall2 (ropt a).
Lemma ropts_mono a a' l l' : sext a a' -> ropts a l l' -> ropts a' l l'.
Proof. intros X H. eapply Forall2_impl; [exact H|]. intros [r|] [v|]; simpl; try done. by eapply rref_mono. Qed.

Lemma sim_const a s p v : dwf v -> VI a s p -> sim rref a (embed v s) (p, Ok v).
Proof.
  intros Hd HV. destruct (embed_ok v a s Hd (proj1 HV)) as (s' & a' & r & E & G & V & X & R & W). rewrite E.
  exists a'. split; [by apply ext_sext|]. split; [by eapply VI_ext|]. done.
Qed.
Lemma sim_list a s p l l' : VI a s p -> rrefs a l l' -> sim rref a (new_vector l s) (p, Ok (VVec l')).
Proof.
  intros HV Hl. destruct (rrefs_spec _ _ _ Hl) as [H1 H2].
  destruct (new_vector_ok a s l (proj1 HV) H1) as (s' & a' & k & E & G & V & X & K & W). rewrite E.
  exists a'. split; [by apply ext_sext|]. split; [by eapply VI_ext|]. simpl. split; [simpl; by eapply lookup_lt_Some|congruence].
Qed.

Lemma VV_insert a vs p x v pv : VV a vs p -> vrel a v pv ->
  (forall e y w, vedit v = Some e -> vs !! y = Some w -> vedit w = Some e -> y = x) ->
  VV a (<[x := v]> vs) (<[x := pv]> p).
Proof.
  intros [H1 H2] Hv He. split.
  - intros y. destruct (decide (y = x)) as [->|Hne]; [rewrite (lookup_insert vs), (lookup_insert p); exact Hv|]. rewrite !lookup_insert_ne by done. apply H1.
  - intros y z w1 w2 e Hy Hz Ey Ez. destruct (decide (y = x)) as [->|Hyx], (decide (z = x)) as [->|Hzx]; auto.
    + rewrite lookup_insert in Hy. rewrite lookup_insert_ne in Hz by done. simplify_eq. symmetry. eauto.
    + rewrite lookup_insert in Hz. rewrite lookup_insert_ne in Hy by done. simplify_eq. eauto.
    + rewrite lookup_insert_ne in Hy, Hz by done. eauto.
Qed.

Lemma sim_assign a s p x r v : VI a s p -> rref a r v ->
  sim (fun _ (_ _ : unit) => True) a (var_assign x r s) (<[x := v]> p, Ok tt).
Proof.
  intros [HW HV] [H1 H2]. exists a. split; [apply sext_refl|]. split; [|done]. simpl. split; [destruct HW; by constructor|].
  simpl. apply VV_insert; [done| |done]. split; simpl; auto.
Qed.

Lemma sim_var a s p x : VI a s p ->
  sim rref a (var_value x s) (p, match p !! x with Some v => Ok v | None => Err end).
Proof.
  intros [HW HV]. pose proof (proj1 HV x) as Hx. unfold var_value.
  destruct (vars s !! x) as [v|] eqn:Ev, (p !! x) as [pv|] eqn:Ep; try done.
  2:{ exists a. split; [apply sext_refl|done]. }
  destruct Hx as [Hr Hv]. destruct (vedit v) as [e|] eqn:Ee.
  2:{ subst pv. exists a. split; [apply sext_refl|done]. }
  destruct Hv as (l & Hl & Hv). unfold seqr.
  destruct (call_ok a s (OPersist e) HW) as [(w1 & a1 & -> & S1 & W1)|[_ S1]].
  2:{ apply sn_persist in S1. congruence. }
  inversion S1; subst a1; clear S1. match goal with H : aeditors a !! e = Some ?l0 |- _ => assert (l0 = l) as -> by congruence; clear H end.
  match type of W1 with WI _ _ ?x => set (a1 := x) in * end.
  assert (Forall (rok (aslices a)) l) as Hrl by (eapply (Forall_lookup_1 _ _ _ _ (vw_ed _ _ HW) Hl)).
  assert (VW a1 (mkV w1 (vars s))) as V1.
  { split; [done| |]; simpl; [apply sok_app; [apply HW|done]|].
    eapply fimpl; [apply HW|]. intros ? Hz. eapply fimpl; [exact Hz|]. intros ?. apply rok_app. }
  assert (ext a a1) as He. { split; simpl; eexists; [done|]. rewrite app_nil_r. done. }
  destruct (VW_len _ _ V1) as [L1 _]. simpl in L1. cbn [vw vars].
  rewrite L1, app_length. simpl. replace (length (aslices a) + 1 - 1) with (length (aslices a)) by lia.
  assert (aslices a1 !! length (aslices a) = Some l) as Hk.
  { simpl. rewrite lookup_app_r, Nat.sub_diag by lia. done. }
  assert (nth (length (aslices a)) (read_slices (aslices a1)) [] = map (val a) l) as Hn.
  { rewrite (read_slice _ _ _ (vw_sl _ _ V1) Hk). exact (ext_vals a a1 l He Hrl). }
  assert (length (aslices a) < length (aslices a1)) as Hlt by (by eapply lookup_lt_Some).
  assert (VV a1 (vars s) p) as HV1 by (eapply VV_ext; [apply HW|done|done]).
  assert (val a1 (RVec (length (aslices a))) = VVec (map (val a) l)) as Hn1 by (change (VVec (nth (length (aslices a)) (read_slices (aslices a1)) []) = VVec (map (val a) l)); by rewrite Hn).
  assert (forall sh, val a1 (RMat sh (length (aslices a))) = VMat sh (map (val a) l)) as Hn2 by (intros sh; change (VMat sh (nth (length (aslices a)) (read_slices (aslices a1)) []) = VMat sh (map (val a) l)); by rewrite Hn).
  clearbody a1.
  destruct (vval v) as [u|k0|sh k0] eqn:Evv; [done| |].
  - destruct Hv as [-> _]. exists a1. split; [by apply ext_sext|]. simpl.
    split; [split; [destruct V1; by constructor|]|split; [exact Hlt|done]].
    simpl. rewrite <-(insert_id p x _ Ep). apply VV_insert; [done| |done].
    split; [exact Hlt|]. simpl. done.
  - destruct Hv as [-> (l0 & Hk0 & Hlen)]. exists a1. split; [by apply ext_sext|]. simpl in Hr. destruct Hr as (Hsh & l1 & Hl1 & Hvol).
    assert (rok (aslices a1) (RMat sh (length (aslices a)))) as Hrok.
    { split; [done|]. exists l. split; [done|]. congruence. }
    split; [split; [destruct V1; by constructor|]|split; [exact Hrok|by rewrite Hn2]].
    simpl. rewrite <-(insert_id p x _ Ep). apply VV_insert; [done| |done].
    split; [exact Hrok|]. cbn [vedit vval]. by rewrite Hn2.
Qed.

(* ---- indexed assignment ---- *)
Lemma sok_slice ls k l : sok ls -> ls !! k = Some l -> Forall (rok ls) l.
Proof.
  intros H Hk. eapply fimpl; [exact (H k l Hk)|]. intros r Hr. rewrite <-(take_drop k ls). by apply rok_app.
Qed.
Definition with_cells (r : ref) (d : list value) : value :=
  match r with RAtom v => v | RVec _ => VVec d | RMat sh _ => VMat sh d end.
Lemma editor_ok a s p x v : VI a s p -> vars s !! x = Some v -> (forall u, vval v <> RAtom u) ->
  exists s' a' e cur, var_editor x v s = (s', Ok e) /\ VI a' s' p /\ ext a a' /\
    vars s' !! x = Some (mkVar (vval v) (Some e)) /\ aeditors a' !! e = Some cur /\
    p !! x = Some (with_cells (vval v) (map (val a') cur)).
Proof.
  intros [HW HV] Ev Hna. pose proof (proj1 HV x) as Hx. rewrite Ev in Hx.
  destruct (p !! x) as [pv|] eqn:Ep; [|done]. unfold var_editor.
  destruct v as [vv [e|]]; simpl in *.
  - destruct Hx as [Hr (l & Hl & Hv)]. simpl in *. exists s, a, e, l. split_and!; auto using ext_refl; [split; done|].
    f_equal. destruct vv as [u|k|sh k]; [done| |]; destruct Hv as [-> _]; done.
  - destruct Hx as [Hr Hv]. simpl in *. subst pv.
    assert (exists k l, (vv = RVec k \/ exists sh, vv = RMat sh k) /\ aslices a !! k = Some l) as (k & l & Hvv & Hk).
    { destruct vv as [u|k|sh k]; [by destruct (Hna u)| |]; simpl in Hr.
      - destruct (lookup_lt_is_Some_2 _ _ Hr) as [l Hl]. exists k, l. auto.
      - destruct Hr as (_ & l & Hl & _). exists k, l. eauto. }
    destruct (VW_len _ _ HW) as [_ L2].
    set (e := length (wtrs (vw s))) in *. pose (s1 w1 := mkV w1 (<[x := mkVar vv (Some e)]> (vars s))).
    destruct (call_ok a s (OTransient k) HW) as [(w1 & a1 & Ec & S1 & W1)|[_ S1]].
    2:{ apply sn_transient in S1. congruence. }
    exists (s1 w1), a1, e, l.
    assert (a1 = mkA (aslices a) (aeditors a ++ [l])) as Ea1.
    { inversion S1; subst. congruence. }
    assert (ext a a1) as He. { subst a1. split; simpl; eexists; [by rewrite app_nil_r|done]. }
    assert (VW a1 (s1 w1)) as V1.
    { subst a1. split; [done|apply HW|]. simpl. apply Forall_app. split; [apply HW|]. constructor; [|constructor].
      pose proof (vw_sl _ _ HW) as Hs. eapply sok_slice; eauto. }
    assert (map (val a1) l = map (val a) l) as Hm. { subst a1. done. }
    assert (val a vv = with_cells vv (map (val a) l)) as Hval.
    { unfold val. destruct Hvv as [-> | [sh ->]]; simpl; rewrite (read_slice _ _ _ (vw_sl _ _ HW) Hk); done. }
    split_and!; auto.
    + unfold s1. destruct Hvv as [-> | [sh ->]]; unfold seqr; rewrite Ec; done.
    + split; [done|]. simpl. rewrite <-(insert_id p x _ Ep). apply VV_insert; [by eapply VV_ext; [apply HW|done|done]| |].
      * split; [by eapply ext_rok|]. exists l. simpl. split; [subst a1; simpl; rewrite lookup_app_r, L2, Nat.sub_diag by lia; done|].
        rewrite Hm. destruct Hvv as [-> | [sh ->]]; (split; [done|]); exists l; subst a1; simpl; done.
      * intros e' y w Hee Hy Hw. simpl in Hee. injection Hee as <-. exfalso.
        pose proof (proj1 HV y) as Hyy. rewrite Hy in Hyy. destruct (p !! y); [|done]. destruct Hyy as [_ Hyy]. rewrite Hw in Hyy.
        destruct Hyy as (l' & Hl' & _). apply lookup_lt_Some in Hl'. unfold e in Hl'. lia.
    + unfold s1. simpl. by rewrite lookup_insert.
    + subst a1. simpl. rewrite lookup_app_r, L2, Nat.sub_diag by lia. done.
    + rewrite Hm, Hval. done.
Qed.

Lemma map_upd a cur k r : map (val a) (<[k := r]> cur) = upd (map (val a) cur) k (val a r).
Proof. revert k. induction cur as [|y cur IH]; intros [|k]; simpl; try done. by rewrite IH. Qed.

Lemma set_cells_ok x vv e : (forall u, vv <> RAtom u) -> forall steps a s p cur,
  VI a s p -> vars s !! x = Some (mkVar vv (Some e)) -> aeditors a !! e = Some cur ->
  p !! x = Some (with_cells vv (map (val a) cur)) ->
  Forall (fun z => forall k r, z = Ok (k, r) -> k < length cur /\ rok (aslices a) r) steps ->
  exists s' a', set_cells e steps s = (s', snd (put_all (map (rmap (pmap (val a))) steps) (map (val a) cur))) /\ sext a a' /\
    VI a' s' (<[x := with_cells vv (fst (put_all (map (rmap (pmap (val a))) steps) (map (val a) cur)))]> p).
Proof.
  intros Hna. induction steps as [|z steps IH]; intros a s p cur HV Hx He Hp Hf.
  - exists s, a. simpl. split_and!; [done|apply sext_refl|]. by rewrite insert_id.
  - inversion Hf as [|? ? Hz Hf']; subst. destruct z as [[k r]| | |];
      try (exists s, a; simpl; split_and!; [done|apply sext_refl|by rewrite insert_id]).
    destruct (Hz k r eq_refl) as [Hk Hr]. cbn [set_cells map rmap bind pmap fst snd put_all].
    destruct HV as [HW HV].
    destruct (call_ok a s (OSet e (Z.of_nat k) r) HW) as [(w1 & a1 & Ec & S1 & W1)|[_ S1]].
    2:{ apply sn_set in S1. destruct S1 as [S1 | (l & S1 & S2)]; [congruence|]. assert (l = cur) by congruence. subst l. lia. }
    unfold seqr. rewrite Ec.
    assert (a1 = mkA (aslices a) (<[e := <[k := r]> cur]> (aeditors a))) as ->.
    { inversion S1; subst. match goal with H : aeditors a !! e = Some ?l |- _ => assert (l = cur) as -> by congruence end.
      rewrite Nat2Z.id. done. }
    set (a1 := mkA (aslices a) (<[e := <[k := r]> cur]> (aeditors a))) in *.
    assert (forall q, val a1 q = val a q) as Hval by done.
    assert (map (val a1) = map (val a)) as Hvals by done.
    assert (VW a1 (mkV w1 (vars s))) as V1.
    { split; [done|apply HW|]. simpl. apply Forall_insert; [apply HW|]. apply Forall_insert; [|done].
      eapply (Forall_lookup_1 _ _ _ _ (vw_ed _ _ HW) He). }
    assert (aeditors a1 !! e = Some (<[k := r]> cur)) as He1.
    { simpl. apply list_lookup_insert. by eapply lookup_lt_Some. }
    pose (p1 := <[x := with_cells vv (map (val a1) (<[k := r]> cur))]> p).
    assert (VI a1 (mkV w1 (vars s)) p1) as VI1.
    { split; [done|]. split.
      - intros y. simpl. unfold p1. destruct (decide (y = x)) as [-> | Hne].
        + rewrite lookup_insert, Hx. pose proof (proj1 HV x) as Hxx. rewrite Hx, Hp in Hxx. destruct Hxx as [Hrr Hxx]. simpl in Hrr, Hxx.
          split; [done|]. simpl. exists (<[k := r]> cur). split; [done|]. destruct Hxx as (l & Hl & Hxx). assert (l = cur) as -> by congruence.
          destruct vv as [u|k0|sh k0]; [done| |]; (split; [done|]); destruct Hxx as (_ & l0 & H1 & H2); exists l0; rewrite insert_length; done.
        + rewrite lookup_insert_ne by done. pose proof (proj1 HV y) as Hy. destruct (vars s !! y) as [w|] eqn:Ew, (p !! y); try done.
          destruct Hy as [Hy1 Hy2]. split; [done|]. destruct (vedit w) as [e'|] eqn:Ee; [|done].
          destruct Hy2 as (l & Hl & Hy2). exists l. split; [|done].
          assert (e <> e') as Hee. { intros <-. apply Hne. eapply (proj2 HV y x); eauto. }
          simpl. by rewrite list_lookup_insert_ne.
      - exact (proj2 HV). }
    destruct (IH a1 (mkV w1 (vars s)) p1 (<[k := r]> cur) VI1 Hx He1) as (s' & a' & E1 & X1 & V2).
    { unfold p1. by rewrite lookup_insert. }
    { eapply fimpl; [exact Hf'|]. intros z' Hz' k' r' E'. rewrite insert_length. apply Hz'. done. }
    exists s', a'. rewrite E1. rewrite map_upd in *.
    split_and!; [done|destruct X1 as [m Hm]; exists m; done|].
    unfold p1 in V2. rewrite insert_insert in V2. exact V2.
Qed.

Lemma index_assign_atom c lhs index rhs : arr_of lhs = None -> index_assign c lhs index rhs = (lhs, Err).
Proof.
  intros E. unfold index_assign, prepare, init.
  assert (forall l z1 z2 z3, init_loop l z1 z2 z3 = Err \/ exists q, init_loop l z1 z2 z3 = Ok q) as H.
  { induction l as [|x l IH]; intros; cbn [init_loop]; [eauto|]. destruct x as [x|]; [|apply IH].
    destruct (index_value x) as [[xs u]| | |] eqn:Ex; cbn [bind]; auto; destruct x; cbn in Ex; try discriminate; auto. }
  destruct (H (rev index) [] [] []) as [-> | [[[i o] u] ->]]; cbn [bind]; [done|]. destruct lhs; try done; simpl in E; discriminate.
Qed.
Lemma array_of_ok a s r : VW a s -> rok (aslices a) r ->
  option_map (fun q => (fst q, map (val a) (snd q))) (array_of s r) = arr_of (val a r) /\
  match array_of s r with Some (_, l) => Forall (rok (aslices a)) l | None => True end.
Proof.
  intros HV Hr. destruct r as [v|k|sh k]; simpl in *.
  - destruct v; simpl in *; try done.
  - rewrite (VW_elems a) by done. destruct (lookup_lt_is_Some_2 _ _ Hr) as [l Hl]. rewrite Hl. simpl.
    rewrite (read_slice _ _ _ (vw_sl _ _ HV) Hl), map_length. split; [done|]. eapply sok_slice; [apply HV|done].
  - destruct Hr as (Hsh & l & Hl & Hv). rewrite (VW_elems a) by done. rewrite Hl. simpl.
    rewrite (read_slice _ _ _ (vw_sl _ _ HV) Hl). split; [done|]. eapply sok_slice; [apply HV|done].
Qed.
Lemma assignments_from {A} (Q : A -> Prop) c lhs index x arr l : assignments c lhs index x arr = Ok l ->
  Q x -> match arr with Some (_, l) => Forall Q l | None => True end ->
  Forall (fun z => forall k r, z = Ok (k, r) -> Q r) l.
Proof.
  intros E Hx Ha. unfold assignments in E. destruct (init (origin c) lhs index) as [s| | |]; cbn [bind] in E; try discriminate.
  destruct (source_of (sel_out s) x arr) as [src| | |] eqn:Es; cbn [bind] in E; try discriminate.
  assert (forall k y, src k = Ok y -> Q y) as Hsrc.
  { unfold source_of in Es. intros k y Hk. destruct (sel_out s); [injection Es as <-; injection Hk as <-; done|].
    destruct arr as [[sh' l']|]; [|injection Es as <-; injection Hk as <-; done].
    destruct (shape_eqb _ _); [|discriminate]. injection Es as <-. destruct (nth_error l' k) eqn:En; [|discriminate].
    injection Hk as <-. apply nth_error_In in En. rewrite List.Forall_forall in Ha. by apply Ha. }
  destruct (sel_out s) as [|n0 out].
  - destruct (sel_items s) as [idx|cs].
    + destruct (at_coord idx _) as [ks| | |]; cbn [bind] in E; try discriminate. injection E as <-.
      repeat constructor. intros k r [= _ <-]. done.
    + injection E as <-. repeat constructor. intros k r [= _ <-]. done.
  - cbv zeta in E. destruct (_ =? 0); [discriminate|]. injection E as <-.
    rewrite List.Forall_forall. intros z Hz k r ->. apply in_flat_map in Hz. destruct Hz as (q & Hq & Hz).
    apply in_map_iff in Hz. destruct Hz as (j & Hz & _). destruct (snd q) as [o| | |]; cbn [bind] in Hz; try discriminate.
    destruct (src _) as [y| | |] eqn:Ey; cbn [bind] in Hz; try discriminate. injection Hz as _ <-. eauto.
Qed.

Lemma sim_set c a s p x index index' r v : VI a s p -> ropts a index index' -> rref a r v ->
  sim (fun _ (_ _ : unit) => True) a (var_set c x index r s) (p_set (pure c) x index' v p).
Proof.
  intros HV Hi [Hr Hv]. pose proof (proj1 (proj2 HV) x) as Hx. unfold var_set. cbn [p_set pure].
  destruct (vars s !! x) as [w|] eqn:Ew, (p !! x) as [pv|] eqn:Ep; try done.
  2:{ exists a. split; [apply sext_refl|done]. }
  destruct (vval w) as [u|k|sh k] eqn:Evv.
  { destruct Hx as [Hx1 Hx2]. rewrite Evv in *. destruct (vedit w) as [e|]; [destruct Hx2 as (l & _ & []) |].
    rewrite index_assign_atom. 2:{ subst pv. simpl in Hx1 |- *. destruct u; done. }
    exists a. split; [apply sext_refl|]. simpl. rewrite insert_id by done. done. }
  1,2: rewrite <-Evv; assert (forall u, vval w <> RAtom u) as Hna by (intros u; congruence); clear Hx;
    destruct (editor_ok a s p x w HV Ew Hna) as (s1 & a1 & e & cur & E1 & V1 & X1 & Hx1 & He1 & Hp1);
    unfold seqr at 1; rewrite E1;
    assert (rok (aslices a1) (vval w)) as Hw by
      (pose proof (proj1 (proj2 V1) x) as Hq; rewrite Hx1, Hp1 in Hq; destruct Hq; done);
    assert (exists l0, arr_of (val a1 (vval w)) = Some (match vval w with RMat sh _ => sh | _ => [length cur] end, l0) /\ 
             match vval w with RMat sh _ => vol sh = length cur | _ => True end) as (l0 & Hst & Hvol) by
      (pose proof (proj1 (proj2 V1) x) as Hq; rewrite Hx1, Hp1 in Hq; destruct Hq as [Hq1 (l2 & Hl2 & Hq2)]; cbn [vval vedit] in *;
       simpl in Hl2; assert (l2 = cur) as -> by congruence;
       rewrite Evv in *; destruct Hq2 as (_ & l3 & Hl3 & Hlen); unfold val; simpl; rewrite (read_slice _ _ _ (vw_sl _ _ (proj1 V1)) Hl3);
       eexists; rewrite ?map_length, Hlen; split; [reflexivity|]; try done;
       simpl in Hq1; destruct Hq1 as (_ & l4 & Hl4 & Hv4); congruence);
    assert (indexable (val a1 (vval w)) = Ok (match vval w with RMat sh _ => sh | _ => [length cur] end, l0)) as Hst' by
      (destruct (val a1 (vval w)); simpl in Hst |- *; congruence);
    assert (pv = with_cells (vval w) (map (val a1) cur)) as Hpv by congruence;
    assert (indexable pv = Ok (match vval w with RMat sh _ => sh | _ => [length cur] end, map (val a1) cur)) as Hpi by
      (rewrite Hpv, Evv; simpl; rewrite ?map_length; done);
    assert (vol (match vval w with RMat sh _ => sh | _ => [length cur] end) = length cur) as Hvl by (rewrite Evv in *; simpl in *; (done || lia));
    assert (map (option_map (fun r => show r s1)) index = index' /\ Forall index_ok index') as [Hidx Hiok] by
      (clear -Hi X1 V1; induction Hi as [|i i' index index' Hii Hi [IH1 IH2]]; [done|]; simpl; rewrite IH1;
       destruct i as [q|], i' as [q'|]; simpl in Hii; try done;
       [destruct (rref_mono a a1 q q' (ext_sext _ _ X1) Hii) as [Q1 Q2]; simpl; rewrite (VW_show a1) by apply V1; rewrite Q2;
        split; [done|constructor; [|done]]; subst q'; destruct q as [qv|qk|qs qk]; simpl in *; [destruct qv; done|done|destruct qs; naive_solver]
       |split; [done|constructor; done]]);
    rewrite Hidx, (VW_show a1) by apply V1;
    destruct (rref_mono a a1 r v (ext_sext _ _ X1) (conj Hr Hv)) as [Hr1 Hv1];
    destruct (array_of_ok a1 s1 r (proj1 V1) Hr1) as [Harr Hfr];
    rewrite (index_assign_puts c pv index' v _ _ Hpi) by (rewrite ?map_length; done || (rewrite Hvl; done));
    rewrite (assignments_shape c _ pv index' v _ _ _ _ Hst' Hpi);
    rewrite <-Hv1, <-Harr, assignments_map;
    destruct (assignments c (val a1 (vval w)) index' r (array_of s1 r)) as [steps| | |] eqn:Ea; cbn [rmap bind];
    try (exists a1; split; [by apply ext_sext|]; simpl; rewrite insert_id by done; done);
    destruct (set_cells_ok x (vval w) e Hna steps a1 s1 p cur V1 Hx1 He1 Hp1) as (s2 & a2 & E2 & X2 & V2);
    [ rewrite List.Forall_forall; intros z Hz k0 r0 ->; split;
      [ pose proof (assignments_in c _ _ _ _ _ _ _ Hst' Hiok Ea) as Hin; rewrite List.Forall_forall in Hin; rewrite <-Hvl; by eapply Hin
      | pose proof (assignments_from (rok (aslices a1)) _ _ _ _ _ _ Ea Hr1 Hfr) as Hin; rewrite List.Forall_forall in Hin; by eapply Hin ] | ];
    rewrite E2; exists a2; cbn [fst snd]; split; [eapply sext_trans; [by apply ext_sext|done]|];
    (split; [|by destruct (snd (put_all _ _))]);
    rewrite Hpv; rewrite Evv in V2 |- *; exact V2.
Qed.

(* ---- the other operations ---- *)
Lemma sim_pure {A B} (R : aworld -> A -> B -> Prop) a s p x y : VI a s p -> rrel (R a) x y -> sim R a (s, x) (p, y).
Proof. intros. exists a. split; [apply sext_refl|done]. Qed.
Lemma sim_mat c a s p sh r v : sh <> [] -> VI a s p -> rref a r v -> sim rref a (p_mat (impl c) sh r s) (p_mat (pure c) sh v p).
Proof.
  intros Hsh HV [Hr <-]. cbn [p_mat impl pure]. apply sim_pure; [done|]. destruct r as [u|k|sh' k]; simpl in Hr.
  - destruct u; done.
  - unfold val. simpl. destruct (lookup_lt_is_Some_2 _ _ Hr) as [l Hl].
    rewrite (read_slice _ _ _ (vw_sl _ _ (proj1 HV)) Hl), (VW_elems a), Hl by apply HV. simpl.
    unfold new_matrix. rewrite !map_length. destruct (too_large sh); [done|]. destruct sh as [|n sh]; [done|].
    destruct (size (n :: sh) =? length l) eqn:E; [|done].
    simpl. split; [|unfold val; simpl; by rewrite (read_slice _ _ _ (vw_sl _ _ (proj1 HV)) Hl)].
    split; [done|]. exists l. split; [done|]. apply Nat.eqb_eq in E. symmetry. exact E.
  - done.
Qed.
Lemma sim_data c a s p r v : VI a s p -> rref a r v -> sim rref a (p_data (impl c) r s) (p_data (pure c) v p).
Proof.
  intros HV [Hr <-]. cbn [p_data impl pure]. apply sim_pure; [done|]. destruct r as [u|k|sh k]; simpl in Hr.
  - destruct u; done.
  - split; done.
  - destruct Hr as (_ & l & Hl & _). split; [simpl; by eapply lookup_lt_Some|done].
Qed.
Lemma sim_at c a s p i r v : VI a s p -> rref a r v -> sim rref a (p_at (impl c) i r s) (p_at (pure c) i v p).
Proof.
  intros HV [Hr <-]. cbn [p_at impl pure]. apply sim_pure; [done|].
  assert (forall k l, aslices a !! k = Some l ->
    rrel (rref a) (match wslices (vw s) !! k with
       | Some sl => match PersistModel.at_z nil_ref (wh (vw s)) sl (Z.of_nat i) with POk y => Ok y | PCrash => Crash end
       | None => Crash end)
      (match nth_error (map (val a) l) i with Some y => Ok y | None => Crash end)) as H.
  { intros k l Hl. pose proof (vw_wi _ _ (proj1 HV)) as HW. destruct (WI_reads _ _ _ HW) as [Hrd _].
    destruct (Forall2_lookup_r _ _ _ _ _ Hrd Hl) as (sl & -> & Hsl). destruct Hsl as (_ & Hat & _ & _). rewrite Hat.
    rewrite nth_error_map, Nat2Z.id. assert (nth_error l i = l !! i) as ->.
    { clear. revert i. induction l as [|y l IH]; intros [|i]; simpl; auto. }
    destruct (l !! i) as [y|] eqn:Ey.
    - rewrite decide_True by (apply lookup_lt_Some in Ey; lia). simpl. split; [|done].
      exact (Forall_lookup_1 _ _ _ _ (sok_slice _ _ _ (vw_sl _ _ (proj1 HV)) Hl) Ey).
    - apply lookup_ge_None_1 in Ey. rewrite decide_False by lia. done. }
  destruct r as [u|k|sh k]; simpl in Hr.
  - destruct u; done.
  - destruct (lookup_lt_is_Some_2 _ _ Hr) as [l Hl]. specialize (H k l Hl). unfold val. simpl.
    rewrite (read_slice _ _ _ (vw_sl _ _ (proj1 HV)) Hl). exact H.
  - destruct Hr as (_ & l & Hl & _). specialize (H k l Hl). unfold val. simpl.
    rewrite (read_slice _ _ _ (vw_sl _ _ (proj1 HV)) Hl). exact H.
Qed.
Lemma sim_fun c a s p f l l' : (forall vs v, f vs = Ok v -> dwf v) -> VI a s p -> rrefs a l l' ->
  sim rref a (p_fun (impl c) f l s) (p_fun (pure c) f l' p).
Proof.
  intros Hf HV Hl. cbn [p_fun impl pure]. destruct (rrefs_spec _ _ _ Hl) as [_ <-].
  assert (map (fun r => show r s) l = map (val a) l) as ->. { apply map_ext. intros r. apply VW_show, HV. }
  destruct (f (map (val a) l)) as [v| | |] eqn:E; try (apply sim_pure; done). apply sim_const; eauto.
Qed.

(* ---- whole expressions ---- *)
Section Ind.
Context (Q : xp -> Prop).
Hypothesis HConst : forall v, Q (XConst v).
Hypothesis HVar : forall x, Q (XVar x).
Hypothesis HAssign : forall x r, Q r -> Q (XAssign x r).
Hypothesis HSet : forall x index r, Forall (fun o => match o with Some e => Q e | None => True end) index -> Q r -> Q (XSet x index r).
Hypothesis HList : forall l, Forall Q l -> Q (XList l).
Hypothesis HMat : forall sh r, Q r -> Q (XMat sh r).
Hypothesis HData : forall r, Q r -> Q (XData r).
Hypothesis HAt : forall i r, Q r -> Q (XAt i r).
Hypothesis HFun : forall f l, Forall Q l -> Q (XFun f l).
Lemma xp_ind' : forall e, Q e.
Proof.
  fix IH 1. intros e. destruct e as [v|x|x r|x index r|l|sh r|r|i r|f l].
  - apply HConst.
  - apply HVar.
  - apply HAssign, IH.
  - apply HSet; [|apply IH]. induction index as [|[e|] index IHi]; constructor; auto.
  - apply HList. induction l; constructor; auto.
  - apply HMat, IH.
  - apply HData, IH.
  - apply HAt, IH.
  - apply HFun. induction l; constructor; auto.
Qed.
End Ind.

Section Lists.
Context {S V : Type} (P : prims S V).
Fixpoint evals (l : list xp) (st : S) : S * res (list V) :=
  match l with
  | [] => (st, Ok [])
  | e :: l' => seqr (evals l') (fun vs => seqr (eval P e) (fun v st => (st, Ok (v :: vs)))) st
  end.
Fixpoint evalo (l : list (option xp)) (st : S) : S * res (list (option V)) :=
  match l with
  | [] => (st, Ok [])
  | None :: l' => seqr (evalo l') (fun vs st => (st, Ok (None :: vs))) st
  | Some e :: l' => seqr (evalo l') (fun vs => seqr (eval P e) (fun v st => (st, Ok (Some v :: vs)))) st
  end.
End Lists.
Fixpoint goods (l : list xp) : Prop := match l with [] => True | e :: l' => good e /\ goods l' end.
Fixpoint goodo (l : list (option xp)) : Prop := match l with [] => True | Some e :: l' => good e /\ goodo l' | None :: l' => goodo l' end.

Definition fine c (e : xp) : Prop := good e -> forall a s p, VI a s p -> sim rref a (eval (impl c) e s) (eval (pure c) e p).
Lemma evals_ok c l : Forall (fine c) l -> goods l -> forall a s p, VI a s p ->
  sim rrefs a (evals (impl c) l s) (evals (pure c) l p).
Proof.
  induction 1 as [|e l He Hl IH]; intros Hg a s p HV; cbn [evals].
  - apply sim_ret; [done|constructor].
  - destruct Hg as [G1 G2]. eapply sim_seq; [by apply IH|]. intros a1 vs vs' s1 p1 X1 V1 R1.
    eapply sim_seq; [by apply He|]. intros a2 v v' s2 p2 X2 V2 R2. apply sim_ret; [done|]. constructor; [done|]. by eapply rrefs_mono.
Qed.
Lemma evalo_ok c l : Forall (fun o => match o with Some e => fine c e | None => True end) l -> goodo l -> forall a s p, VI a s p ->
  sim ropts a (evalo (impl c) l s) (evalo (pure c) l p).
Proof.
  induction 1 as [|[e|] l He Hl IH]; intros Hg a s p HV; cbn [evalo].
  - apply sim_ret; [done|constructor].
  - destruct Hg as [G1 G2]. eapply sim_seq; [by apply IH|]. intros a1 vs vs' s1 p1 X1 V1 R1.
    eapply sim_seq; [by apply He|]. intros a2 v v' s2 p2 X2 V2 R2. apply sim_ret; [done|]. constructor; [done|]. by eapply ropts_mono.
  - eapply sim_seq; [by apply IH|]. intros a1 vs vs' s1 p1 X1 V1 R1. apply sim_ret; [done|]. constructor; done.
Qed.
Lemma eval_ok c e : fine c e.
Proof.
  induction e as [v|x|x r IH|x index r IHi IH|l IH|sh r IH|r IH|i r IH|f l IH] using xp_ind'; intros Hg a s p HV.
  - by apply sim_const.
  - by apply sim_var.
  - cbn [eval]. eapply sim_seq; [by apply IH|]. intros a1 v v' s1 p1 X1 V1 R1.
    eapply sim_seq; [by apply sim_assign|]. intros a2 [] [] s2 p2 X2 V2 _. apply sim_ret; [done|]. by eapply rref_mono.
  - destruct Hg as [G1 G2]. change (eval (impl c) (XSet x index r)) with
      (seqr (eval (impl c) r) (fun v => seqr (evalo (impl c) index) (fun vs => seqr (p_set (impl c) x vs v) (fun _ st => (st, Ok v))))).
    change (eval (pure c) (XSet x index r)) with
      (seqr (eval (pure c) r) (fun v => seqr (evalo (pure c) index) (fun vs => seqr (p_set (pure c) x vs v) (fun _ st => (st, Ok v))))).
    eapply sim_seq; [by apply IH|]. intros a1 v v' s1 p1 X1 V1 R1.
    eapply sim_seq; [by apply evalo_ok|]. intros a2 vs vs' s2 p2 X2 V2 R2.
    eapply sim_seq; [apply sim_set; [done|done|by eapply rref_mono]|]. intros a3 [] [] s3 p3 X3 V3 _.
    apply sim_ret; [done|]. exact (rref_mono _ _ _ _ (sext_trans _ _ _ X2 X3) R1).
  - change (eval (impl c) (XList l)) with (seqr (evals (impl c) l) (p_list (impl c))).
    change (eval (pure c) (XList l)) with (seqr (evals (pure c) l) (p_list (pure c))).
    eapply sim_seq; [by apply evals_ok|]. intros a1 vs vs' s1 p1 X1 V1 R1. by apply sim_list.
  - destruct Hg as [G1 G2]. cbn [eval]. eapply sim_seq; [by apply IH|]. intros a1 v v' s1 p1 X1 V1 R1. by apply sim_mat.
  - cbn [eval]. eapply sim_seq; [by apply IH|]. intros a1 v v' s1 p1 X1 V1 R1. by apply sim_data.
  - cbn [eval]. eapply sim_seq; [by apply IH|]. intros a1 v v' s1 p1 X1 V1 R1. by apply sim_at.
  - destruct Hg as [G1 G2]. change (eval (impl c) (XFun f l)) with (seqr (evals (impl c) l) (p_fun (impl c) f)).
    change (eval (pure c) (XFun f l)) with (seqr (evals (pure c) l) (p_fun (pure c) f)).
    eapply sim_seq; [by apply evals_ok|]. intros a1 vs vs' s1 p1 X1 V1 R1. by apply sim_fun.
Qed.

Lemma outputs_ok c prog : Forall good prog -> forall a s p, VI a s p ->
  outputs (impl c) prog s = outputs (pure c) prog p.
Proof.
  induction 1 as [|e prog He Hp IH]; intros a s p HV; [done|]. cbn [outputs].
  destruct (eval_ok c e He a s p HV) as (a1 & X1 & V1 & R1).
  destruct (eval (impl c) e s) as [s1 r], (eval (pure c) e p) as [p1 r']. simpl in V1, R1.
  destruct r as [x| | |], r' as [y| | |]; simpl in R1; try done; f_equal; try (by eapply IH).
  destruct R1 as [_ <-]. f_equal. cbn [p_show impl pure]. apply VW_show, V1.
Qed.
Lemma VI_init : VI (mkA [] []) vinit ∅.
Proof.
  split.
  - split; [apply WI_init|intros k l H; done|constructor].
  - split; [intros x; simpl; by rewrite !lookup_empty|intros x y v w e H; simpl in H; by rewrite lookup_empty in H].
Qed.
Lemma after_ok c prog : Forall good prog -> forall a s p, VI a s p ->
  exists a', VI a' (after (impl c) prog s) (after (pure c) prog p).
Proof.
  induction 1 as [|e prog He Hp IH]; intros a s p HV; [eauto|]. cbn [after].
  destruct (eval_ok c e He a s p HV) as (a1 & X1 & V1 & R1). eauto.
Qed.

(* ---- the pure store: an expression changes the variables it assigns only ---- *)
Lemma seqr_keeps {A B} (F : store -> Prop) (m : store -> store * res A) (k : A -> store -> store * res B) p :
  (forall p, F p -> F (fst (m p))) -> (forall v p, F p -> F (fst (k v p))) -> F p -> F (fst (seqr m k p)).
Proof. intros H1 H2 Hp. unfold seqr. specialize (H1 p Hp). destruct (m p) as [p' [v| | |]]; simpl in *; auto. Qed.
Definition keeps x v {A} (m : store -> store * res A) : Prop := forall p, p !! x = v -> fst (m p) !! x = v.
Lemma keeps_seq x v {A B} (m : store -> store * res A) (k : A -> store -> store * res B) :
  keeps x v m -> (forall u, keeps x v (k u)) -> keeps x v (seqr m k).
Proof. intros H1 H2 p Hp. apply (seqr_keeps (fun p => p !! x = v)); [exact H1|intros u q Hq; by apply H2|done]. Qed.
Lemma keeps_evals c x v l : Forall (fun e => ~ assigns x e -> keeps x v (eval (pure c) e)) l ->
  ~ (fix go l := match l with [] => False | e :: l' => assigns x e \/ go l' end) l -> keeps x v (evals (pure c) l).
Proof.
  induction 1 as [|e l He Hl IH]; intros Hn; [intros p Hp; done|]. apply keeps_seq; [apply IH; naive_solver|]. intros vs.
  apply keeps_seq; [apply He; naive_solver|]. intros u p Hp. done.
Qed.
Lemma keeps_evalo c x v l : Forall (fun o => match o with Some e => ~ assigns x e -> keeps x v (eval (pure c) e) | None => True end) l ->
  ~ (fix go l := match l with [] => False | Some e :: l' => assigns x e \/ go l' | None :: l' => go l' end) l -> keeps x v (evalo (pure c) l).
Proof.
  induction 1 as [|[e|] l He Hl IH]; intros Hn; [intros p Hp; done| |].
  - apply keeps_seq; [apply IH; naive_solver|]. intros vs. apply keeps_seq; [apply He; naive_solver|]. intros u p Hp. done.
  - apply keeps_seq; [apply IH; naive_solver|]. intros vs p Hp. done.
Qed.
Lemma pure_keeps c x v e : ~ assigns x e -> keeps x v (eval (pure c) e).
Proof.
  induction e as [u|y|y r IH|y index r IHi IH|l IH|sh r IH|r IH|i r IH|f l IH] using xp_ind'; intros Hna; try (intros p Hp; done).
  - simpl in Hna. apply keeps_seq; [by apply IH; naive_solver|]. intros u. apply keeps_seq; [|intros [] p Hp; done].
    intros p Hp. simpl. rewrite lookup_insert_ne by naive_solver. done.
  - simpl in Hna. change (eval (pure c) (XSet y index r)) with
      (seqr (eval (pure c) r) (fun v => seqr (evalo (pure c) index) (fun vs => seqr (p_set (pure c) y vs v) (fun _ st => (st, Ok v))))).
    apply keeps_seq; [apply IH; naive_solver|]. intros u. apply keeps_seq; [by apply keeps_evalo; tauto|]. intros vs.
    apply keeps_seq; [|intros [] p Hp; done]. intros p Hp. cbn [p_set pure]. destruct (p !! y); [|done].
    simpl. rewrite lookup_insert_ne by naive_solver. done.
  - change (eval (pure c) (XList l)) with (seqr (evals (pure c) l) (p_list (pure c))).
    apply keeps_seq; [by apply keeps_evals|]. intros u p Hp. done.
  - apply keeps_seq; [by apply IH|]. intros u p Hp. done.
  - apply keeps_seq; [by apply IH|]. intros u p Hp. done.
  - apply keeps_seq; [by apply IH|]. intros u p Hp. done.
  - change (eval (pure c) (XFun f l)) with (seqr (evals (pure c) l) (p_fun (pure c) f)).
    apply keeps_seq; [by apply keeps_evals|]. intros u p Hp. done.
Qed.
Lemma pure_keeps_all c x v prog : Forall (fun e => ~ assigns x e) prog -> forall p, p !! x = v -> after (pure c) prog p !! x = v.
Proof. induction 1; intros p Hp; [done|]. cbn [after]. apply IHForall. by apply pure_keeps. Qed.

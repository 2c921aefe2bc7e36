(* Whole-program invariant for value/persist, and the refinement of every
   history of API calls to the list specification in PersistSpec.v. *)
From stdpp Require Import gmap list.
From Verif Require Import PersistModel PersistTree PersistOps PersistEdit PersistSpec.

Section World.
Context {T : Type} (zero : T).
Notation heap := (@heap T).
Notation st := (@st T).
Notation rd := (rd zero).
Implicit Types (h : heap) (s : st).
Notation res_opt := (@res_opt T).

(* ---- iteration ---- *)
Lemma slot_split l st : exists a r, st = (16 * a + slot l st) * 16 ^ l + r /\ r < 16 ^ l /\ r = st mod 16 ^ l.
Proof.
  exists (st / 16 ^ l / 16), (st mod 16 ^ l). unfold slot. pose proof (pow16_pos l).
  split_and!; [|apply Nat.mod_upper_bound; lia|done].
  rewrite <-(Nat.div_mod (st / 16 ^ l) 16) by lia. rewrite (Nat.mul_comm (st / 16 ^ l)).
  apply Nat.div_mod. lia.
Qed.
Lemma slot_intro l st a j r : st = (16 * a + j) * 16 ^ l + r -> r < 16 ^ l -> j < 16 -> slot l st = j.
Proof.
  intros -> Hr Hj. unfold slot. pose proof (pow16_pos l).
  rewrite Nat.div_add_l by lia. rewrite (Nat.div_small r) by lia. rewrite Nat.add_0_r.
  rewrite Nat.add_comm, Nat.mul_comm, Nat.mod_add by lia. apply Nat.mod_small. done.
Qed.
Lemma mod_intro l st a j r : st = (16 * a + j) * 16 ^ l + r -> r < 16 ^ l -> j < 16 ->
  st mod 16 ^ S l = j * 16 ^ l + r.
Proof.
  intros -> Hr Hj. pose proof (pow16_pos l). rewrite Nat.pow_succ_r'.
  symmetry. apply (Nat.mod_unique _ _ a); [|lia].
  assert (j * 16 ^ l <= 15 * 16 ^ l) by (apply Nat.mul_le_mono_r; lia). lia.
Qed.

Lemma yield_spec h F l : forall p st en, wf h F p l -> st <= en ->
  st mod 16 ^ S l + (en - st) <= 16 ^ S l ->
  exists xs, yield_ zero h p l st en = Ok xs /\ length xs = en - st /\
    forall k, k < en - st -> rd h p l (st + k) = res_opt (xs !! k).
Proof.
  induction l as [|l IH]; intros p st en Hwf Hle Hin; destruct p as [| |a]; simpl in Hwf; try done.
  - exists (replicate (en - st) zero). split_and!; [done|apply replicate_length|].
    intros k Hk. rewrite lookup_replicate_2 by done. done.
  - destruct Hwf as (vs & i & Hn & Hl & _). cbn [yield_]. rewrite Hn.
    change (16 ^ 1) with 16 in Hin.
    assert (length (take (en - st) (drop (st mod 16) vs)) = en - st) as Hlen.
    { rewrite take_length, drop_length. lia. }
    rewrite decide_True by done. eexists. split_and!; [done|done|].
    intros k Hk. cbn [PersistModel.rd]. rewrite Hn. rewrite lookup_take by done. rewrite lookup_drop.
    replace ((st + k) mod 16) with (st mod 16 + k); [done|].
    pose proof (Nat.div_mod st 16 ltac:(lia)).
    apply (Nat.mod_unique _ _ (st / 16)); lia.
  - exists (replicate (en - st) zero). split_and!; [done|apply replicate_length|].
    intros k Hk. rewrite lookup_replicate_2 by done. done.
  - destruct Hwf as (ps & i & Hn & Hl & _ & Hc). cbn [yield_]. rewrite Hn.
    set (go := fix go (qs : list ptr) (start : nat) {struct qs} : res (list T) := _).
    assert (forall n j st, 16 - j = n -> j <= 16 -> st <= en ->
      (st < en -> slot (S l) st = j) -> st mod 16 ^ S (S l) + (en - st) <= 16 ^ S (S l) ->
      exists xs, go (drop j ps) st = Ok xs /\ length xs = en - st /\
        forall k, k < en - st -> rd h (PAddr a) (S l) (st + k) = res_opt (xs !! k)) as Hgo.
    { clear st Hle Hin. induction n as [|n IHn]; intros j st Hj Hj16 Hle Hs Hin.
      - destruct (decide (st < en)) as [Hlt|Hge].
        + pose proof (slot_lt (S l) st). rewrite Hs in H by done. lia.
        + assert (drop j ps = []) as -> by (apply drop_ge; lia). cbn.
          rewrite decide_False by done. rewrite decide_True by lia. exists []. split_and!; [done|simpl; lia|lia].
      - destruct (lookup_lt_is_Some_2 ps j ltac:(lia)) as [q Hq].
        rewrite (drop_S _ _ _ Hq). cbn.
        destruct (decide (st < en)) as [Hlt|Hge].
        2:{ rewrite decide_True by lia. exists []. split_and!; [done|simpl; lia|lia]. }
        specialize (Hs Hlt).
        destruct (slot_split (S l) st) as (b & r & Est & Hr & Er). rewrite Hs in Est. rewrite <-Er.
        set (W := 16 ^ S l) in *. set (m := Nat.min (en - st) (W - r)).
        assert (m <= en - st /\ m <= W - r) as [Hm1 Hm2] by lia.
        destruct (IH q st (st + m)) as (xs & Ex & Hxl & Hxr).
        { eapply Hc; eauto. } { lia. } { fold W. rewrite <-Er. lia. }
        rewrite Ex.
        assert (st mod 16 ^ S (S l) = j * W + r) as Emod by (apply (mod_intro (S l) st b j r); auto; lia).
        assert (16 ^ S (S l) = 16 * W) as EW by (apply Nat.pow_succ_r'). 
        rewrite Emod, EW in Hin.
        assert (m < en - st -> S j < 16 /\ m = W - r) as Hmore.
        { intros Hm. split; [|lia]. destruct (decide (S j < 16)); [done|].
          assert (j = 15) by lia. subst j. lia. }
        destruct (IHn (S j) (st + m)) as (ys & Ey & Hyl & Hyr).
        { lia. } { lia. } { lia. }
        { intros Hm. destruct Hmore as [Hs1 Hs2]; [lia|].
          apply (slot_intro (S l) (st + m) b (S j) 0); [|fold W; lia|done]. fold W. lia. }
        { rewrite EW. destruct (decide (m = en - st)) as [Hm|Hm].
          - replace (en - (st + m)) with 0 by lia. rewrite <-EW.
            pose proof (Nat.mod_upper_bound (st + m) (16 ^ S (S l))). pose proof (pow16_pos (S (S l))). lia.
          - destruct Hmore as [Hs1 Hs2]; [lia|]. rewrite <-EW.
            rewrite (mod_intro (S l) (st + m) b (S j) 0); [|fold W; lia|fold W; lia|done].
            fold W. rewrite EW. lia. }
        fold go. rewrite Ey. exists (xs ++ ys). split_and!; [done|rewrite app_length; lia|].
        intros k Hk. destruct (decide (k < m)) as [Hkm|Hkm].
        + rewrite lookup_app_l by lia. rewrite <-Hxr by lia. cbn [PersistModel.rd]. rewrite Hn.
          rewrite (slot_intro (S l) (st + k) b j (r + k)); [|fold W; lia|fold W; lia|lia].
          rewrite Hq. done.
        + rewrite lookup_app_r by lia. rewrite Hxl. rewrite <-(Hyr (k - (st + m - st))) by lia.
          replace (st + m + (k - (st + m - st))) with (st + k) by lia. done. }
    destruct (Hgo (16 - slot (S l) st) (slot (S l) st) st) as (xs & E & H1 & H2); auto.
    { pose proof (slot_lt (S l) st). lia. }
    exists xs. auto.
Qed.

Lemma reads F s l1 l2 : EI F s -> rep zero s l1 l2 -> reads_as zero (hp s) (sl_ s) (l1 ++ l2).
Proof.
  intros HE HR. pose proof HR as [R1 R2 R3]. pose proof (arr_prefix_len _ _ _ _ R3) as Hl2.
  assert (s_len (sl_ s) = length (l1 ++ l2)) as Hlen by (unfold s_len; rewrite app_length; lia).
  assert (forall i j : nat, i <= j <= length (l1 ++ l2) ->
    slice_range zero (hp s) (sl_ s) i j = Ok (take (j - i) (drop i (l1 ++ l2)))) as Hsl.
  { intros i j [Hij Hj]. unfold slice_range. rewrite decide_False by lia.
    set (gosec := fix go (n k : nat) {struct n} : res (list T) := _).
    assert (forall n k, tlen (sl_ s) <= k -> k + n <= s_len (sl_ s) ->
      gosec n k = Ok (take n (drop (k - tlen (sl_ s)) l2))) as Hgs.
    { unfold s_len. induction n as [|n IH]; intros k Hk Hn; [done|]. cbn.
      rewrite (arr_prefix_get _ _ _ _ _ R3).
      destruct (lookup_lt_is_Some_2 l2 (k - tlen (sl_ s)) ltac:(lia)) as [x Hx].
      fold gosec. rewrite IH by lia. rewrite Hx. cbn.
      rewrite (drop_S _ _ _ Hx). cbn. do 3 f_equal. f_equal. lia. }
    rewrite Hgs by (unfold s_len in *; lia).
    destruct (decide (i < tlen (sl_ s))) as [Hi|Hi].
    - assert (tlen (sl_ s) <> 0) as Hnz by lia.
      destruct (ei_tree _ _ HE Hnz) as (P & Hot & _).
      apply (ot_freeze zero _ F (fun _ => True)) in Hot; [|done|done].
      destruct (yield_spec _ _ _ _ i (Nat.min j (tlen (sl_ s))) Hot) as (xs & Ex & Hxl & Hxr).
      { lia. }
      { rewrite (ei_hgt _ _ HE). pose proof (height_pos _ Hnz).
        replace (S (height (tlen (sl_ s)) - 1)) with (height (tlen (sl_ s))) by lia.
        pose proof (height_cap (tlen (sl_ s))). rewrite Nat.mod_small by lia. lia. }
      unfold root in Ex. fold (sl_ s) in Ex. rewrite Ex. f_equal.
      assert (xs = take (Nat.min j (tlen (sl_ s)) - i) (drop i l1)) as ->.
      { apply list_eq. intros k. destruct (decide (k < Nat.min j (tlen (sl_ s)) - i)) as [Hk|Hk].
        - rewrite lookup_take, lookup_drop by done.
          specialize (Hxr k Hk). specialize (R2 (i + k) ltac:(lia)). unfold rdt in R2.
          rewrite R2 in Hxr. destruct (l1 !! (i + k)), (xs !! k); simpl in Hxr; congruence.
        - rewrite !lookup_ge_None_2; [done|rewrite take_length; lia|lia]. }
      rewrite drop_app_le by lia. rewrite take_app_alt' || idtac.
      destruct (decide (j <= tlen (sl_ s))) as [Hj2|Hj2].
      + rewrite take_app_le by (rewrite drop_length; lia).
        replace (Nat.min j (tlen (sl_ s))) with j by lia.
        replace (j - Nat.max i (tlen (sl_ s))) with 0 by lia. rewrite take_0, app_nil_r. done.
      + rewrite (take_ge (drop i l1)) by (rewrite drop_length; lia).
        rewrite take_app_ge by (rewrite drop_length; lia). f_equal.
        replace (Nat.max i (tlen (sl_ s)) - tlen (sl_ s)) with 0 by lia. rewrite drop_0. f_equal.
        rewrite drop_length. lia.
    - f_equal. rewrite drop_app_ge by lia. replace (Nat.max i (tlen (sl_ s))) with i by lia.
      rewrite R1. done. }
  split; [done|]. split; [|split].
  - intros i. unfold at_z. destruct (decide (i < 0)%Z) as [Hi|Hi].
    + rewrite decide_False by lia. done.
    + rewrite (rep_at zero F s l1 l2 (Z.to_nat i) HE HR).
      destruct (decide (0 <= i < Z.of_nat (length (l1 ++ l2)))%Z) as [H1|H1]; [done|].
      rewrite lookup_ge_None_2 by lia. done.
  - intros i j. unfold slice_z. destruct (decide (i < 0 \/ j < i)%Z) as [Hi|Hi].
    + rewrite decide_False by lia. done.
    + destruct (decide (0 <= i <= j /\ j <= Z.of_nat (length (l1 ++ l2)))%Z) as [H1|H1].
      * rewrite Hsl by lia. rewrite Z2Nat.inj_sub by lia. done.
      * unfold slice_range. rewrite decide_True by (unfold s_len in *; lia). done.
  - unfold all. rewrite Hlen, Hsl by lia. rewrite drop_0, take_ge by lia. done.
Qed.

(* ---- the invariant ---- *)
Definition Fz (w : world (T:=T)) (i : nat) : Prop :=
  0 < i <= wctr w /\ forall t, t ∈ wtrs w -> aid t <> i.

Definition stof (w : world) (t : transient) : st := mkSt (wh w) (wctr w) t.

Definition denotes (w : world) (t : transient) (l : list T) : Prop :=
  exists l1 l2, l = l1 ++ l2 /\ EI (Fz w) (stof w t) /\ rep zero (stof w t) l1 l2.

Record WI (w : world) (a : aworld T) : Prop := {
  wi_hw : HW (wh w);
  wi_sl : Forall2 (fun (s : slice) l => denotes w (transient_of s) l) (wslices w) (aslices a);
  wi_tr : Forall2 (denotes w) (wtrs w) (aeditors a);
  wi_aid : forall j k t t', wtrs w !! j = Some t -> wtrs w !! k = Some t' -> j <> k ->
             aid t <> 0 -> aid t <> aid t';
  wi_tail : forall j k t t' b, wtrs w !! j = Some t -> wtrs w !! k = Some t' -> j <> k ->
             wtail t = true -> tarr (ts t) = Some b -> tarr (ts t') <> Some b;
  wi_tails : forall j t (s : slice) b, wtrs w !! j = Some t -> s ∈ wslices w ->
             wtail t = true -> tarr (ts t) = Some b -> tarr s <> Some b }.

Lemma EI_other F (F' : nat -> Prop) h h' c c' t l1 l2 :
  EI F (mkSt h c t) -> rep zero (mkSt h c t) l1 l2 -> HW h' -> c <= c' ->
  (forall a n, nodes h !! a = Some n -> F (nid n) \/ (aid t <> 0 /\ nid n = aid t) -> nodes h' !! a = Some n) ->
  (forall b l, tarr (ts t) = Some b -> arrs h !! b = Some l -> arrs h' !! b = Some l) ->
  (forall i, F i -> F' i) -> (forall i, F' i -> i <= c') -> (aid t <> 0 -> ~ F' (aid t)) ->
  EI F' (mkSt h' c' t) /\ rep zero (mkSt h' c' t) l1 l2.
Proof.
  intros HE [R1 R2 R3] HH Hc Hn Ha HF HFc HFa.
  pose proof HE as [G1 G2 G3 G4 G5 G6 G7 G8 G9 G10 G11 G12]. unfold sl_, root, rdt in *. simpl in *.
  assert (forall b l, arr_prefix h (tarr (ts t)) b = Ok l -> arr_prefix h' (tarr (ts t)) b = Ok l) as Hpre.
  { intros n l. unfold arr_prefix. destruct (tarr (ts t)) as [b|]; [|done].
    destruct (arrs h !! b) eqn:E; [|done]. rewrite (Ha b _ eq_refl E). done. }
  assert (tlen (ts t) <> 0 -> exists P, ot h' F' (aid t) P (tree (ts t)) (hgt (ts t) - 1) 0 /\
     pres h' (tree (ts t)) (hgt (ts t) - 1) /\
     forall i, rd h' (tree (ts t)) (hgt (ts t) - 1) i = rd h (tree (ts t)) (hgt (ts t) - 1) i) as Htree.
  { intros Hnz. destruct (G9 Hnz) as (P & Hot & Hp). exists P.
    destruct (decide (aid t = 0)) as [Hz|Hz].
    - rewrite Hz in *. apply (ot_zero zero) in Hot || apply ot_zero in Hot.
      destruct (wf_frame zero h h' F F' (tree (ts t)) (hgt (ts t) - 1)) as [W1 W2]; auto.
      split_and!; auto.
      + apply wf_ot; done.
      + eapply pres_wf_frame; [|exact Hot|exact Hp]. auto.
    - destruct (ot_frame zero h h' F F' (aid t) P P (tree (ts t)) (hgt (ts t) - 1) 0) as [W1 W2]; auto.
      { intros a n Hna [|]; auto. }
      split_and!; auto.
      eapply (pres_wf_frame h h' (fun i => F i \/ i = aid t)); [|eapply (ot_freeze zero _ F); eauto|exact Hp].
      intros a n Hna [|]; auto. }
  split.
  - split; unfold sl_, root; simpl; auto.
    + lia.
    + intros Hnz. destruct (Htree Hnz) as (P & ? & ? & _). eauto.
    + destruct G11 as [l Hl]. eauto.
    + intros Hw. destruct (G12 Hw) as (b & l & Hb & Hl & H16). exists b, l. eauto.
  - split; unfold sl_, root, rdt; simpl; auto.
    intros i Hi. destruct (Htree ltac:(lia)) as (_ & _ & _ & E). unfold root; simpl. rewrite E. auto.
Qed.

Lemma EI_F F (F' : nat -> Prop) s : EI F s -> (forall i, F i -> F' i) -> (forall i, F' i -> i <= ctr s) ->
  (aid (tr s) <> 0 -> ~ F' (aid (tr s))) -> EI F' s.
Proof.
  intros [G1 G2 G3 G4 G5 G6 G7 G8 G9 G10 G11 G12] HF HFc HFa. split; auto.
  intros Hnz. destruct (G9 Hnz) as (P & ? & ?). exists P. split; [eapply (ot_F zero); eauto|done].
Qed.

Lemma Forall2_lookup_l' {A B} (R : A -> B -> Prop) l k i x :
  Forall2 R l k -> l !! i = Some x -> exists y, k !! i = Some y /\ R x y.
Proof. apply Forall2_lookup_l. Qed.

(* One editor operation, seen from the whole world. *)
Lemma WI_edit w a k t l s' l1' l2' :
  WI w a -> wtrs w !! k = Some t -> aeditors a !! k = Some l ->
  EI (Fz w) s' -> Efr (stof w t) s' -> rep zero s' l1' l2' ->
  WI (mkW (hp s') (ctr s') (wslices w) (<[k := tr s']> (wtrs w)))
     (mkA (aslices a) (<[k := l1' ++ l2']> (aeditors a))).
Proof.
  intros HW_ Ht Hl HE HF HR. pose proof HW_ as [I1 I2 I3 I4 I5 I6].
  set (w' := mkW _ _ _ _).
  pose proof HF as [F1 F2 F3 F4 F5 F6]. unfold stof, sl_ in *. simpl in *.
  assert (k < length (wtrs w)) as Hk by (eapply lookup_lt_Some; eauto).
  assert (EI (Fz w) (stof w t)) as HEt.
  { destruct (Forall2_lookup_l' _ _ _ _ _ I3 Ht) as (? & _ & ? & ? & _ & ? & _). done. }
  assert (forall t', t' ∈ wtrs w -> aid t' <= wctr w) as Hb.
  { intros t' Ht'. apply elem_of_list_lookup in Ht' as [j Hj].
    destruct (Forall2_lookup_l' _ _ _ _ _ I3 Hj) as (? & _ & ? & ? & _ & He & _). apply He. }
  assert (forall i, Fz w i -> Fz w' i) as HFF.
  { intros i [Hi Hn]. split; [simpl; lia|]. intros t' Ht'. simpl in Ht'.
    apply elem_of_list_lookup in Ht' as [j Hj].
    destruct (decide (j = k)) as [->|Hjk].
    - rewrite list_lookup_insert in Hj by done. inversion Hj; subst t'.
      destruct F3 as [->|F3]; [|lia]. apply Hn. eapply elem_of_list_lookup_2; eauto.
    - rewrite list_lookup_insert_ne in Hj by done. apply Hn. eapply elem_of_list_lookup_2; eauto. }
  assert (forall t' la lb, (forall b, wtail t = true -> tarr (ts t) = Some b -> tarr (ts t') <> Some b) ->
     (aid t' <> 0 -> aid t <> aid t') -> (aid t' <> 0 -> t' ∈ <[k := tr s']> (wtrs w)) ->
     EI (Fz w) (stof w t') -> rep zero (stof w t') la lb ->
     EI (Fz w') (stof w' t') /\ rep zero (stof w' t') la lb) as Hother.
  { intros t' la lb Htl Hid Hin HE' HR'.
    apply (EI_other (Fz w) (Fz w') (wh w) (hp s') (wctr w) (ctr s')); auto.
    - apply HE.
    - intros a' n Hn [[Hi Hf]|[Hnz Hi]].
      + apply F4; auto; [lia|]. intros E. apply (Hf t); [eapply elem_of_list_lookup_2; eauto|]. congruence.
      + apply F4; auto.
        * rewrite Hi. apply HE'.
        * rewrite Hi. intros E. apply (Hid Hnz). congruence.
    - intros b l' Eb Hb'. apply F5; auto. intros Hw E. exact (Htl b Hw E Eb).
    - intros i [? _]. simpl in *. lia.
    - intros Hnz [_ Hf]. apply (Hf t'); auto. }
  assert (forall b l', arrs (wh w) !! b = Some l' -> b < hnext (wh w)) as Hlt.
  { intros b l' Hb'. destruct (decide (hnext (wh w) <= b)) as [Hge|]; [|lia].
    destruct (I1 b Hge). congruence. }
  assert (forall t' la lb b, EI (Fz w) (stof w t') -> rep zero (stof w t') la lb ->
     tarr (ts t') = Some b -> b < hnext (wh w)) as Hltt.
  { intros t' la lb b _ [_ _ R3] E. unfold sl_, stof in R3. simpl in R3. rewrite E in R3. simpl in R3.
    destruct (arrs (wh w) !! b) eqn:Eb; [eauto|done]. }
  split; simpl.
  - apply HE.
  - apply Forall2_same_length_lookup. split; [eapply Forall2_length; eauto|].
    intros i s0 l0 Hs0 Hl0. pose proof (Forall2_lookup_lr _ _ _ _ _ _ I2 Hs0 Hl0) as (la & lb & -> & HEs & HRs).
    exists la, lb. split; [done|]. apply Hother; auto; try done.
    intros b Hw Eb. eapply I6; eauto. eapply elem_of_list_lookup_2; eauto.
  - apply Forall2_same_length_lookup. split.
    { rewrite !insert_length. eapply Forall2_length; eauto. }
    intros i t0 l0 Ht0 Hl0. destruct (decide (i = k)) as [->|Hik].
    + rewrite list_lookup_insert in Ht0 by done. inversion Ht0; subst t0.
      rewrite list_lookup_insert in Hl0 by (eapply lookup_lt_Some; eauto). inversion Hl0; subst l0.
      exists l1', l2'. split; [done|]. unfold stof. simpl. destruct s' as [h' c' t']; simpl in *.
      split; [|done]. eapply EI_F; eauto.
      * intros i [? _]. simpl in *. lia.
      * intros Hnz [_ Hf]. apply (Hf t'); auto. simpl. apply elem_of_list_lookup. exists k.
        apply list_lookup_insert. done.
    + rewrite list_lookup_insert_ne in Ht0 by done. rewrite list_lookup_insert_ne in Hl0 by done.
      pose proof (Forall2_lookup_lr _ _ _ _ _ _ I3 Ht0 Hl0) as (la & lb & -> & HEs & HRs).
      exists la, lb. split; [done|]. apply Hother; auto.
      * intros b Hw Eb. apply (I5 k i t t0 b); auto.
      * intros Hnz E. apply (I4 i k t0 t); auto.
      * intros _. apply elem_of_list_lookup. exists i. rewrite list_lookup_insert_ne by done. done.
  - intros i j t1 t2 H1 H2 Hij Hnz.
    destruct (decide (i = k)) as [->|Hik].
    + rewrite list_lookup_insert in H1 by done. inversion H1; subst t1.
      rewrite list_lookup_insert_ne in H2 by done.
      pose proof (Hb t2 ltac:(eapply elem_of_list_lookup_2; eauto)).
      destruct F3 as [E|E]; [|lia]. rewrite E in *. eapply I4; eauto.
    + rewrite list_lookup_insert_ne in H1 by done.
      destruct (decide (j = k)) as [->|Hjk].
      * rewrite list_lookup_insert in H2 by done. inversion H2; subst t2.
        pose proof (Hb t1 ltac:(eapply elem_of_list_lookup_2; eauto)).
        destruct F3 as [E|E]; [|lia]. rewrite E. eapply (I4 i k); eauto.
      * rewrite list_lookup_insert_ne in H2 by done. eapply (I4 i j); eauto.
  - intros i j t1 t2 b H1 H2 Hij Hw Eb.
    destruct (decide (i = k)) as [->|Hik].
    + rewrite list_lookup_insert in H1 by done. inversion H1; subst t1.
      rewrite list_lookup_insert_ne in H2 by done.
      destruct F6 as [[E1 E2]|(b' & E1 & E2)].
      * eapply (I5 k j t); eauto; congruence.
      * intros E. destruct (Forall2_lookup_l' _ _ _ _ _ I3 H2) as (l0 & _ & la & lb & _ & HEs & HRs).
        pose proof (Hltt _ _ _ _ HEs HRs E). rewrite E1 in Eb. inversion Eb. lia.
    + rewrite list_lookup_insert_ne in H1 by done.
      destruct (decide (j = k)) as [->|Hjk].
      * rewrite list_lookup_insert in H2 by done. inversion H2; subst t2.
        destruct F6 as [[E1 E2]|(b' & E1 & E2)].
        { rewrite E1. eapply (I5 i k); eauto. }
        intros E. destruct (Forall2_lookup_l' _ _ _ _ _ I3 H1) as (l0 & _ & la & lb & _ & HEs & HRs).
        pose proof (Hltt _ _ _ _ HEs HRs Eb). rewrite E1 in E. inversion E. lia.
      * rewrite list_lookup_insert_ne in H2 by done. eapply (I5 i j); eauto.
  - intros i t1 s0 b H1 H2 Hw Eb.
    destruct (decide (i = k)) as [->|Hik].
    + rewrite list_lookup_insert in H1 by done. inversion H1; subst t1.
      destruct F6 as [[E1 E2]|(b' & E1 & E2)].
      * eapply (I6 k t); eauto; congruence.
      * intros E. apply elem_of_list_lookup in H2 as [j Hj].
        destruct (Forall2_lookup_l' _ _ _ _ _ I2 Hj) as (l0 & _ & la & lb & _ & HEs & HRs).
        pose proof (Hltt _ _ _ _ HEs HRs E). rewrite E1 in Eb. inversion Eb. lia.
    + rewrite list_lookup_insert_ne in H1 by done. eapply (I6 i); eauto.
Qed.

Lemma WI_init : WI (winit (T:=T)) (mkA [] []).
Proof.
  split; simpl; try done; try constructor.
Qed.

Lemma WI_mono w w' : wh w' = wh w -> wctr w' = wctr w -> (forall i, Fz w i -> Fz w' i) ->
  (forall t, aid t <> 0 -> t ∈ wtrs w -> t ∈ wtrs w') ->
  forall t l, (aid t <> 0 -> t ∈ wtrs w) -> denotes w t l -> denotes w' t l.
Proof.
  intros Eh Ec HF Ht t l Hin (l1 & l2 & -> & HE & HR). exists l1, l2. unfold stof. rewrite Eh, Ec.
  split; [done|]. split; [|done]. eapply EI_F; eauto.
  - intros i [? _]. simpl. lia.
  - intros Hnz [_ Hf]. apply (Hf t); auto.
Qed.

Lemma EI_empty w : HW (wh w) -> EI (Fz w) (stof w (transient_of empty_slice)).
Proof.
  intros HH. split; unfold sl_, root; simpl; auto; try done.
  - lia.
  - intros i [? _]. lia.
  - lia.
  - eexists. done.
Qed.

Lemma WI_step w a o : WI w a ->
  (exists w' a', step zero w o = Ok w' /\ spec_step a o (Some a') /\ WI w' a') \/
  (step zero w o = Crash /\ spec_step a o None).
Proof.
  intros HW_. pose proof HW_ as [I1 I2 I3 I4 I5 I6].
  pose proof (Forall2_length _ _ _ I2) as L2. pose proof (Forall2_length _ _ _ I3) as L3.
  assert (forall i j, length i = length j -> forall k : nat, (i : list transient) !! k = None -> (j : list (list T)) !! k = None) as Hno.
  { intros i j Hij k Hk. apply lookup_ge_None in Hk. apply lookup_ge_None. lia. }
  assert (forall {A} k (m : M (T:=T) A) fin, wtrs w !! k = None -> on_tr w k m fin = Crash) as Hcr.
  { intros A k m fin Hk. unfold on_tr. rewrite Hk. done. }
  destruct o as [|k|k|k i x|k xs|k n]; simpl.
  - left. eexists _, (mkA (aslices a ++ [[]]) (aeditors a)). split; [done|]. split; [constructor|].
    split; simpl; auto.
    + apply Forall2_app; [|constructor; [|done]].
      * eapply Forall2_impl; [exact I2|]. intros s l. apply WI_mono; auto; simpl; congruence.
      * exists [], []. split; [done|]. split; [apply EI_empty; done|]. split; unfold rdt, sl_, root; simpl; try done; lia.
    + intros j t s b Hj Hs Hw Eb. apply elem_of_app in Hs as [Hs|Hs]; [eapply I6; eauto|].
      apply elem_of_list_singleton in Hs as ->. done.
  - destruct (wslices w !! k) as [s|] eqn:Hs.
    + destruct (Forall2_lookup_l' _ _ _ _ _ I2 Hs) as (l & Hl & Hd).
      left. eexists _, (mkA (aslices a) (aeditors a ++ [l])). split; [done|]. split; [constructor; done|].
      assert (forall i, Fz w i -> Fz (mkW (wh w) (wctr w) (wslices w) (wtrs w ++ [transient_of s])) i) as HF.
      { intros i [Hi Hn]. split; [done|]. intros t Ht. simpl in Ht.
        apply elem_of_app in Ht as [Ht|Ht]; [auto|]. apply elem_of_list_singleton in Ht as ->. simpl. lia. }
      split; simpl; auto.
      * eapply Forall2_impl; [exact I2|]. intros s0 l0. apply WI_mono; auto; try (simpl; congruence).
        simpl. intros t _ Ht. apply elem_of_app. auto.
      * apply Forall2_app; [|constructor; [|done]].
        -- apply Forall2_same_length_lookup. split; [done|]. intros i t0 l0 Ht0 Hl0.
           pose proof (Forall2_lookup_lr _ _ _ _ _ _ I3 Ht0 Hl0).
           eapply (WI_mono w); auto; simpl.
           ++ intros t _ Ht. apply elem_of_app. auto.
           ++ intros _. eapply elem_of_list_lookup_2; eauto.
        -- eapply (WI_mono w); auto; simpl; try congruence. intros t _ Ht. apply elem_of_app. auto.
      * intros i j t t' Hi Hj Hij Hnz.
        apply lookup_app_Some in Hi as [Hi|[Hi1 Hi]].
        2:{ apply list_lookup_singleton_Some in Hi as [_ <-]. simpl in Hnz. done. }
        apply lookup_app_Some in Hj as [Hj|[Hj1 Hj]]; [eauto|].
        apply list_lookup_singleton_Some in Hj as [_ <-]. simpl. done.
      * intros i j t t' b Hi Hj Hij Hw Eb.
        apply lookup_app_Some in Hi as [Hi|[Hi1 Hi]].
        2:{ apply list_lookup_singleton_Some in Hi as [_ <-]. done. }
        apply lookup_app_Some in Hj as [Hj|[Hj1 Hj]]; [eauto|].
        apply list_lookup_singleton_Some in Hj as [_ <-]. simpl. eapply I6; eauto.
        eapply elem_of_list_lookup_2; eauto.
      * intros i t s0 b Hi Hs0 Hw Eb.
        apply lookup_app_Some in Hi as [Hi|[Hi1 Hi]]; [eauto|].
        apply list_lookup_singleton_Some in Hi as [_ <-]. done.
    + right. split; [done|]. constructor. apply lookup_ge_None in Hs. apply lookup_ge_None. lia.
  - destruct (wtrs w !! k) as [t|] eqn:Ht.
    + destruct (Forall2_lookup_l' _ _ _ _ _ I3 Ht) as (l & Hl & l1 & l2 & El & HE & HR).
      left.
      set (F' := fun i => Fz w i \/ (aid t <> 0 /\ i = aid t)).
      destruct (persist_spec zero (Fz w) F' (stof w t) l1 l2 HE HR)
        as (sl & s' & E & HE1 & HR1 & HE2 & HR2 & Ec & Ea & Ew & Et & En & Enx & Earr & Etl1 & Etl2).
      { intros i Hi. left. done. }
      { intros Hnz. right. done. }
      { intros i [[? _]|[_ ->]]; [simpl; lia|apply HE]. }
      unfold on_tr. rewrite Ht. fold (stof w t). rewrite E.
      eexists _, (mkA (aslices a ++ [l]) (aeditors a)). split; [done|].
      split; [constructor; done|]. simpl.
      destruct s' as [h' c' t']. unfold stof, sl_ in *. simpl in *. subst c'.
      set (w' := mkW _ _ _ _).
      assert (k < length (wtrs w)) as Hk by (eapply lookup_lt_Some; eauto).
      assert (forall i, F' i <-> Fz w' i) as HFeq.
      { intros i. split.
        - intros [[Hi Hn]|[Hnz ->]].
          + split; [simpl; lia|]. intros t0 Ht0. simpl in Ht0. apply elem_of_list_lookup in Ht0 as [j Hj].
            destruct (decide (j = k)) as [->|Hjk].
            * rewrite list_lookup_insert in Hj by done. inversion Hj; subst t0. lia.
            * rewrite list_lookup_insert_ne in Hj by done. apply Hn. eapply elem_of_list_lookup_2; eauto.
          + split; [simpl; pose proof (ei_aid _ _ HE) as Hle; simpl in Hle; lia|].
            intros t0 Ht0. simpl in Ht0. apply elem_of_list_lookup in Ht0 as [j Hj].
            destruct (decide (j = k)) as [->|Hjk].
            * rewrite list_lookup_insert in Hj by done. inversion Hj; subst t0. lia.
            * rewrite list_lookup_insert_ne in Hj by done. intros Eq. eapply (I4 k j t t0); eauto.
        - intros [Hi Hn]. simpl in Hi, Hn.
          destruct (decide (aid t = i)) as [<-|Hne]; [right; split; [lia|done]|].
          left. split; [done|]. intros t0 Ht0. apply elem_of_list_lookup in Ht0 as [j Hj].
          destruct (decide (j = k)) as [->|Hjk]; [congruence|].
          apply Hn. apply elem_of_list_lookup. exists j. rewrite list_lookup_insert_ne by done. done. }
      assert (forall s0, EI F' s0 -> ctr s0 = wctr w -> aid (tr s0) = 0 -> EI (Fz w') s0) as HEF.
      { intros s0 H0 H1 H2. eapply EI_F; eauto.
        - intros i. apply HFeq.
        - intros i [? _]. simpl in *. lia. }
      assert (forall t0 la lb, (aid t0 <> 0 -> t0 ∈ <[k := t']> (wtrs w)) ->
         EI (Fz w) (stof w t0) -> rep zero (stof w t0) la lb ->
         EI (Fz w') (stof w' t0) /\ rep zero (stof w' t0) la lb) as Hother.
      { intros t0 la lb Hin HE0 HR0.
        apply (EI_other (Fz w) (Fz w') (wh w) h' (wctr w) (wctr w)); auto.
        - apply HE1.
        - intros a0 n Hn _. rewrite En. done.
        - intros i Hi. apply HFeq. left. done.
        - intros i [? _]. simpl in *. lia.
        - intros Hnz [_ Hf]. apply (Hf t0); auto. }
      assert (forall t0 la lb b, EI (Fz w) (stof w t0) -> rep zero (stof w t0) la lb ->
         tarr (ts t0) = Some b -> b < hnext (wh w)) as Hltt.
      { intros t0 la lb b _ [_ _ R3] Eb. unfold sl_, stof in R3. simpl in R3. rewrite Eb in R3. simpl in R3.
        destruct (arrs (wh w) !! b) eqn:Eb'; [|done].
        destruct (decide (hnext (wh w) <= b)) as [Hge|]; [|lia]. destruct (I1 b Hge). congruence. }
      split; simpl.
      * apply HE1.
      * apply Forall2_app; [|constructor; [|done]].
        -- eapply Forall2_impl; [exact I2|]. intros s0 l0 (la & lb & -> & HEs & HRs).
           exists la, lb. split; [done|]. apply Hother; auto. done.
        -- exists l1, l2. split; [done|]. split; [|done]. apply HEF; done.
      * apply Forall2_same_length_lookup. split; [rewrite insert_length; done|].
        intros i t0 l0 Ht0 Hl0. destruct (decide (i = k)) as [->|Hik].
        -- rewrite list_lookup_insert in Ht0 by done. inversion Ht0; subst t0.
           assert (l0 = l) as -> by congruence.
           exists l1, l2. split; [done|]. split; [|done]. apply HEF; done.
        -- rewrite list_lookup_insert_ne in Ht0 by done.
           pose proof (Forall2_lookup_lr _ _ _ _ _ _ I3 Ht0 Hl0) as (la & lb & -> & HEs & HRs).
           exists la, lb. split; [done|]. apply Hother; auto.
           intros _. apply elem_of_list_lookup. exists i. rewrite list_lookup_insert_ne by done. done.
      * intros i j t1 t2 H1 H2 Hij Hnz.
        destruct (decide (i = k)) as [->|Hik].
        { rewrite list_lookup_insert in H1 by done. inversion H1; subst t1. done. }
        rewrite list_lookup_insert_ne in H1 by done.
        destruct (decide (j = k)) as [->|Hjk].
        { rewrite list_lookup_insert in H2 by done. inversion H2; subst t2. lia. }
        rewrite list_lookup_insert_ne in H2 by done. eapply (I4 i j); eauto.
      * intros i j t1 t2 b H1 H2 Hij Hw Eb.
        destruct (decide (i = k)) as [->|Hik].
        { rewrite list_lookup_insert in H1 by done. inversion H1; subst t1.
          rewrite list_lookup_insert_ne in H2 by done. eapply (I5 k j t); eauto; congruence. }
        rewrite list_lookup_insert_ne in H1 by done.
        destruct (decide (j = k)) as [->|Hjk].
        { rewrite list_lookup_insert in H2 by done. inversion H2; subst t2. rewrite Et. eapply (I5 i k); eauto. }
        rewrite list_lookup_insert_ne in H2 by done. eapply (I5 i j); eauto.
      * intros i t1 s0 b H1 H2 Hw Eb.
        assert (exists t2, wtrs w !! i = Some t2 /\ wtail t2 = true /\ tarr (ts t2) = Some b) as (t2 & H3 & H4 & H5).
        { destruct (decide (i = k)) as [->|Hik].
          - rewrite list_lookup_insert in H1 by done. inversion H1; subst t1. exists t. split_and!; congruence.
          - rewrite list_lookup_insert_ne in H1 by done. eauto. }
        apply elem_of_app in H2 as [H2|H2]; [eapply (I6 i t2); eauto|].
        apply elem_of_list_singleton in H2 as ->.
        destruct (wtail t) eqn:Ewt.
        { destruct (Etl1 eq_refl) as (b' & E1 & E2). intros Eq. rewrite E1 in Eq. inversion Eq; subst b'.
          destruct (Forall2_lookup_l' _ _ _ _ _ I3 H3) as (l0 & _ & la & lb & _ & HEs & HRs).
          pose proof (Hltt _ _ _ _ HEs HRs H5). lia. }
        rewrite (Etl2 eq_refl). destruct (decide (i = k)) as [->|Hik]; [congruence|].
        eapply (I5 i k t2); eauto.
    + right. split; [apply Hcr; done|]. eapply sp_no_editor; [left; done|]. eapply Hno; eauto.
  - destruct (wtrs w !! k) as [t|] eqn:Ht.
    + destruct (Forall2_lookup_l' _ _ _ _ _ I3 Ht) as (l & Hl & l1 & l2 & El & HE & HR).
      pose proof (set_spec zero (Fz w) (stof w t) l1 l2 i x HE HR) as Hs. rewrite <-El in Hs.
      destruct (decide (i < 0 \/ Z.of_nat (length l) <= i)%Z) as [Hbad|Hok].
      * right. unfold on_tr. rewrite Ht. fold (stof w t). rewrite Hs. split; [done|].
        eapply sp_set_panic; eauto. lia.
      * left. destruct Hs as (s' & l1' & l2' & E & HE' & Hf & HR' & El').
        unfold on_tr. rewrite Ht. fold (stof w t). rewrite E. eexists _, _. split; [done|].
        split; [eapply sp_set; eauto; lia|]. rewrite <-El'. eapply WI_edit; eauto.
    + right. split; [apply Hcr; done|]. eapply (sp_no_editor _ _ k); [right; left; eauto|]. eapply Hno; eauto.
  - destruct (wtrs w !! k) as [t|] eqn:Ht.
    + destruct (Forall2_lookup_l' _ _ _ _ _ I3 Ht) as (l & Hl & l1 & l2 & El & HE & HR). left.
      destruct (append_spec zero (Fz w) (stof w t) l1 l2 xs HE HR) as (s' & l1' & l2' & E & HE' & Hf & HR' & El').
      unfold on_tr. rewrite Ht. fold (stof w t). rewrite E. eexists _, _. split; [done|].
      split; [eapply sp_append; eauto|]. rewrite El, <-El'. eapply WI_edit; eauto.
    + right. split; [apply Hcr; done|]. eapply (sp_no_editor _ _ k); [right; right; left; eauto|]. eapply Hno; eauto.
  - destruct (wtrs w !! k) as [t|] eqn:Ht.
    + destruct (Forall2_lookup_l' _ _ _ _ _ I3 Ht) as (l & Hl & l1 & l2 & El & HE & HR). left.
      destruct (resize_spec zero (Fz w) (stof w t) l1 l2 n HE HR) as (s' & l1' & l2' & E & HE' & Hf & HR' & El' & Hag).
      unfold on_tr. rewrite Ht. fold (stof w t). rewrite E. eexists _, _. split; [done|].
      split; [|eapply WI_edit; eauto].
      eapply (sp_resize _ _ l _ (l1' ++ l2')); [done|]. split; [done|]. intros j y Hj Hlt.
      apply Hag; [congruence|]. lia.
    + right. split; [apply Hcr; done|]. eapply (sp_no_editor _ _ k); [right; right; right; eauto|]. eapply Hno; eauto.
Qed.

Lemma WI_run os : forall w a, WI w a -> exists a', spec_run a os a' /\ WI (run zero w os) a'.
Proof.
  induction os as [|o os IH]; intros w a HW_; simpl.
  - exists a. split; [constructor|done].
  - destruct (WI_step w a o HW_) as [(w' & a' & E & Hs & HW')|[E Hs]]; rewrite E.
    + destruct (IH w' a' HW') as (a'' & Hr & HW''). exists a''. split; [eapply sr_ok; eauto|done].
    + destruct (IH w a HW_) as (a'' & Hr & HW''). exists a''. split; [eapply sr_panic; eauto|done].
Qed.

Lemma WI_reads w a : WI w a ->
  Forall2 (reads_as zero (wh w)) (wslices w) (aslices a) /\
  Forall2 (fun t l => reads_as zero (wh w) (ts t) l /\ t_len t = length l) (wtrs w) (aeditors a).
Proof.
  intros [I1 I2 I3 I4 I5 I6]. split.
  - eapply Forall2_impl; [exact I2|]. intros s l (l1 & l2 & -> & HE & HR).
    exact (reads _ _ _ _ HE HR).
  - eapply Forall2_impl; [exact I3|]. intros t l (l1 & l2 & -> & HE & HR).
    pose proof (reads _ _ _ _ HE HR) as Hr. split; [done|]. destruct Hr as [Hr _].
    rewrite <-Hr. unfold t_len, s_len. pose proof (ei_tl _ _ HE) as E. unfold sl_ in *. simpl in *. lia.
Qed.

Lemma run_app os1 os2 : forall w, run zero w (os1 ++ os2) = run zero (run zero w os1) os2.
Proof. induction os1 as [|o os IH]; intros w; simpl; auto. Qed.

Lemma spec_slices_stable (a : aworld T) os a' : spec_run a os a' -> forall k l, aslices a !! k = Some l -> aslices a' !! k = Some l.
Proof.
  induction 1 as [|a o a1 os a2 Hs Hr IH|a o os a2 Hs Hr IH]; intros k l Hk; auto.
  apply IH. inversion Hs; subst; simpl; auto; apply lookup_app_l_Some; done.
Qed.

Lemma spec_lens w a : WI w a -> length (wslices w) = length (aslices a) /\ length (wtrs w) = length (aeditors a).
Proof. intros [_ I2 I3 _ _ _]. split; eapply Forall2_length; eauto. Qed.

Lemma step_slices w o w' : step zero w o = Ok w' -> forall k (s : slice), wslices w !! k = Some s -> wslices w' !! k = Some s.
Proof.
  unfold step, on_tr. intros E k s Hk.
  destruct o; repeat (case_match; try done); inversion E; subst; simpl; auto; apply lookup_app_l_Some; done.
Qed.
Lemma run_slices os : forall w k (s : slice), wslices w !! k = Some s -> wslices (run zero w os) !! k = Some s.
Proof.
  induction os as [|o os IH]; intros w k s Hk; simpl; [done|]. apply IH.
  destruct (step zero w o) eqn:E; [|done]. eapply step_slices; eauto.
Qed.

(* A published slice keeps its contents under every later call. *)
Lemma published_stable os1 os2 k (s : slice) :
  let w1 := run zero winit os1 in let w2 := run zero winit (os1 ++ os2) in
  wslices w1 !! k = Some s ->
  exists l, reads_as zero (wh w1) s l /\ wslices w2 !! k = Some s /\ reads_as zero (wh w2) s l.
Proof.
  intros w1 w2 Hs. destruct (WI_run os1 _ _ WI_init) as (a1 & Hr1 & HW1).
  destruct (WI_run os2 _ _ HW1) as (a2 & Hr2 & HW2). unfold w2. rewrite run_app. fold w1. fold w1 in HW1, HW2.
  destruct (WI_reads _ _ HW1) as [A _]. destruct (WI_reads _ _ HW2) as [B _].
  destruct (Forall2_lookup_l' _ _ _ _ _ A Hs) as (l & Hl & Hrd). exists l.
  pose proof (run_slices os2 w1 k s Hs) as Hs2.
  split_and!; auto.
  eapply (Forall2_lookup_lr _ _ _ _ _ _ B Hs2). eapply spec_slices_stable; eauto.
Qed.

Lemma history os : exists a, spec_run (mkA [] []) os a /\
  (let w := run zero winit os in
   Forall2 (reads_as zero (wh w)) (wslices w) (aslices a) /\
   Forall2 (fun t l => reads_as zero (wh w) (ts t) l /\ t_len t = length l) (wtrs w) (aeditors a) /\
   forall o, step zero w o = Crash <-> spec_step a o None).
Proof.
  destruct (WI_run os _ _ WI_init) as (a & Hr & HW'). exists a. split; [done|].
  destruct (WI_reads _ _ HW') as [H1 H2]. split_and!; [done|done|]. intros o.
  destruct (WI_step _ _ o HW') as [(w' & a' & E & Hs & _)|[E Hs]].
  - split; [congruence|]. intros Hn. exfalso. clear -Hs Hn.
    inversion Hn; subst; inversion Hs; subst; try congruence;
      repeat match goal with H : _ \/ _ |- _ => destruct H | H : ex _ |- _ => destruct H end; congruence.
  - done.
Qed.

End World.

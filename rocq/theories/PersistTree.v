(* Lemmas about the tree part of persistent slices: positions of nodes, frozen
   and owned subtrees, and what a store into an owned node does to reads. *)
From stdpp Require Import gmap list.
From Verif Require Import PersistModel.

Global Arguments Nat.modulo : simpl never.
Global Arguments Nat.div : simpl never.
Global Arguments Nat.pow : simpl never.
Global Arguments slot : simpl never.
Global Arguments Nat.mul : simpl never.

(* ---- index arithmetic ---- *)
Definition blk (l i : nat) : nat := i / 16 ^ (S l).

Lemma pow16_pos l : 16 ^ l <> 0.
Proof. apply Nat.pow_nonzero; lia. Qed.

Lemma slot_lt l i : slot l i < 16.
Proof. unfold slot. apply Nat.mod_upper_bound. lia. Qed.

Lemma slot_blk l i : slot (S l) i = blk l i mod 16.
Proof. reflexivity. Qed.

Lemma blk_S l i : blk (S l) i = blk l i / 16.
Proof.
  unfold blk. rewrite (Nat.pow_succ_r' 16 (S l)).
  rewrite Nat.mul_comm, Nat.div_div; auto using pow16_pos.
Qed.

Lemma blk_split l i : blk l i = 16 * blk (S l) i + slot (S l) i.
Proof.
  rewrite blk_S, slot_blk. apply Nat.div_mod. lia.
Qed.

Lemma blk_ge l m i j : l <= m -> blk l i = blk l j -> blk m i = blk m j.
Proof.
  intros Hle Heq. induction Hle as [|m Hle IH]; [exact Heq|].
  rewrite !blk_S, IH. reflexivity.
Qed.

Lemma blk_slot l i j : blk l i = blk l j -> slot (S l) i = slot (S l) j.
Proof. intros H. rewrite !slot_blk, H. reflexivity. Qed.

Lemma mod16_blk i j : blk 0 i = blk 0 j -> i mod 16 = j mod 16 -> i = j.
Proof.
  unfold blk. change (16 ^ 1) with 16. intros H1 H2.
  rewrite (Nat.div_mod i 16), (Nat.div_mod j 16) by lia. congruence.
Qed.

Lemma blk_0_lt L i : blk L i = 0 <-> i < 16 ^ S L.
Proof.
  unfold blk. split; intros H.
  - apply Nat.div_small_iff in H; auto using pow16_pos.
  - apply Nat.div_small; exact H.
Qed.

Section Tree.
Context {T : Type} (zero : T).
Notation heap := (@heap T).
Notation node := (@node T).
Notation st := (@st T).
Notation rd := (rd zero).
Implicit Types (h : heap) (s : st).

(* A subtree none of whose nodes any editor may write: all ids satisfy F. *)
Fixpoint wf h (F : nat -> Prop) (p : ptr) (l : nat) {struct l} : Prop :=
  match p with
  | PNil => True
  | PTNil => False
  | PAddr a =>
    match l with
    | 0 => exists vs i, nodes h !! a = Some (Leaf vs i) /\ length vs = 16 /\ F i
    | S l' => exists ps i, nodes h !! a = Some (INode ps i) /\ length ps = 16 /\ F i /\
                forall j q, ps !! j = Some q -> wf h F q l'
    end
  end.

(* A subtree of an editor with id tid: frozen, or owned with owned-or-frozen
   children; an owned node sits at the position P records for it. *)
Fixpoint ot h (F : nat -> Prop) (tid : nat) (P : nat -> nat * nat) (p : ptr) (l b : nat) {struct l} : Prop :=
  wf h F p l \/
  (tid <> 0 /\ exists a, p = PAddr a /\ P a = (l, b) /\
    match l with
    | 0 => exists vs, nodes h !! a = Some (Leaf vs tid) /\ length vs = 16
    | S l' => exists ps, nodes h !! a = Some (INode ps tid) /\ length ps = 16 /\
                forall j q, ps !! j = Some q -> ot h F tid P q l' (16 * b + j)
    end).

(* The leaf for index 0 exists (the first slot on every level is not nil). *)
Fixpoint pres h (p : ptr) (l : nat) {struct l} : Prop :=
  match p with
  | PAddr a =>
    match l with
    | 0 => True
    | S l' => match nodes h !! a with
              | Some (INode ps _) => match ps !! 0 with Some q => pres h q l' | None => False end
              | _ => False
              end
    end
  | _ => False
  end.

Lemma pres_frame h h' p l :
  (forall a ps i, nodes h !! a = Some (INode ps i) -> nodes h' !! a = Some (INode ps i)) ->
  pres h p l -> pres h' p l.
Proof.
  intros Hfr. revert p. induction l as [|l IH]; intros p Hp; destruct p as [| |a]; simpl in *; try done.
  destruct (nodes h !! a) as [[|ps i]|] eqn:Hn; try done. rewrite (Hfr _ _ _ Hn).
  destruct (ps !! 0); [auto|done].
Qed.

(* The same under the weaker condition that only the nodes of the subtree are kept. *)
Lemma pres_wf_frame h h' (F : nat -> Prop) p l :
  (forall a n, nodes h !! a = Some n -> F (nid n) -> nodes h' !! a = Some n) ->
  wf h F p l -> pres h p l -> pres h' p l.
Proof.
  intros Hfr. revert p. induction l as [|l IH]; intros p Hwf Hp; destruct p as [| |a]; simpl in *; try done.
  destruct Hwf as (ps & i & Hn & Hl & Hf & Hc). rewrite Hn in Hp. rewrite (Hfr _ _ Hn Hf).
  destruct (ps !! 0) eqn:E; [|done]. eauto.
Qed.

Definition owned h tid a := exists n, nodes h !! a = Some n /\ nid n = tid.

Lemma wf_ot h F tid P p l b : wf h F p l -> ot h F tid P p l b.
Proof. destruct l; simpl; auto. Qed.

Lemma wf_frame h h' (F F' : nat -> Prop) p l :
  (forall a n, nodes h !! a = Some n -> F (nid n) -> nodes h' !! a = Some n) ->
  (forall i, F i -> F' i) ->
  wf h F p l -> wf h' F' p l /\ forall i, rd h' p l i = rd h p l i.
Proof.
  intros Hfr HF. revert p. induction l as [|l IH]; intros p Hwf; destruct p as [| |a]; simpl in *; auto; try tauto.
  - destruct Hwf as (vs & i & Hn & Hl & Hi). pose proof (Hfr _ _ Hn Hi) as Hn'.
    split; [eauto 10|]. intros j. rewrite Hn, Hn'. reflexivity.
  - destruct Hwf as (ps & i & Hn & Hl & Hi & Hc). pose proof (Hfr _ _ Hn Hi) as Hn'.
    split.
    + exists ps, i. split_and!; auto. intros j q Hq. apply IH; eauto.
    + intros j. rewrite Hn, Hn'. destruct (ps !! slot (S l) j) eqn:Hq; [|reflexivity].
      apply IH; eauto.
Qed.

Lemma ot_frame h h' (F F' : nat -> Prop) tid P P' p l b :
  (forall a n, nodes h !! a = Some n -> (F (nid n) \/ nid n = tid) -> nodes h' !! a = Some n) ->
  (forall i, F i -> F' i) ->
  (forall a n, nodes h !! a = Some n -> nid n = tid -> P' a = P a) ->
  ot h F tid P p l b -> ot h' F' tid P' p l b /\ forall i, rd h' p l i = rd h p l i.
Proof.
  intros Hfr HF HP. revert p b. induction l as [|l IH]; intros p b Hot; simpl in Hot;
    destruct Hot as [Hwf|(Ht & a & -> & Hpa & Hot)].
  - destruct (wf_frame h h' F F' p 0) as [H1 H2]; eauto. split; [left|]; auto.
  - destruct Hot as (vs & Hn & Hl). pose proof (Hfr _ _ Hn (or_intror eq_refl)) as Hn'.
    split.
    + right. split; [done|]. exists a. rewrite (HP _ _ Hn) by done. eauto 10.
    + intros i. simpl. rewrite Hn, Hn'. reflexivity.
  - destruct (wf_frame h h' F F' p (S l)) as [H1 H2]; eauto. split; [left|]; auto.
  - destruct Hot as (ps & Hn & Hl & Hc). pose proof (Hfr _ _ Hn (or_intror eq_refl)) as Hn'.
    split.
    + right. split; [done|]. exists a. rewrite (HP _ _ Hn) by done. split_and!; auto.
      exists ps. split_and!; auto. intros j q Hq. apply IH; eauto.
    + intros i. simpl. rewrite Hn, Hn'. destruct (ps !! slot (S l) i) eqn:Hq; [|reflexivity].
      eapply IH; eauto.
Qed.

Lemma ot_F h (F F' : nat -> Prop) tid P p l b :
  (forall i, F i -> F' i) -> ot h F tid P p l b -> ot h F' tid P p l b.
Proof. intros HF H. eapply (ot_frame h h F F' tid P P p l b); eauto. Qed.

Lemma wf_F h (F F' : nat -> Prop) p l :
  (forall i, F i -> F' i) -> wf h F p l -> wf h F' p l.
Proof. intros HF H. eapply (wf_frame h h F F' p l); eauto. Qed.

(* With no id an editor's tree is entirely frozen. *)
Lemma ot_zero h F P p l b : ot h F 0 P p l b -> wf h F p l.
Proof. destruct l; simpl; intros [H|[H _]]; auto; done. Qed.

(* Giving up the id freezes the whole tree. *)
Lemma ot_freeze h (F F' : nat -> Prop) tid P p l b :
  (forall i, F i -> F' i) -> F' tid -> ot h F tid P p l b -> wf h F' p l.
Proof.
  intros HF Ht. revert p b. induction l as [|l IH]; intros p b Hot; simpl in Hot;
    destruct Hot as [Hwf|(_ & a & -> & Hpa & Hot)]; eauto using wf_F.
  - destruct Hot as (vs & Hn & Hl). simpl. eauto 10.
  - destruct Hot as (ps & Hn & Hl & Hc). simpl. exists ps, tid. split_and!; eauto.
Qed.

Lemma wf_rd h F p l i : wf h F p l -> exists x, rd h p l i = Ok x.
Proof.
  revert p. induction l as [|l IH]; intros p Hwf; destruct p as [| |a]; simpl in *; eauto; try tauto.
  - destruct Hwf as (vs & i0 & Hn & Hl & Hi). rewrite Hn.
    destruct (vs !! (i mod 16)) eqn:E; [eexists; reflexivity|].
    apply lookup_ge_None in E. pose proof (Nat.mod_upper_bound i 16). lia.
  - destruct Hwf as (ps & i0 & Hn & Hl & Hi & Hc). rewrite Hn.
    destruct (ps !! slot (S l) i) eqn:E; [eauto|].
    apply lookup_ge_None in E. pose proof (slot_lt (S l) i). lia.
Qed.

Lemma ot_rd h F tid P p l b i : ot h F tid P p l b -> exists x, rd h p l i = Ok x.
Proof. intros H. eapply (ot_freeze _ F (fun _ => True)) in H; auto. eapply wf_rd; eauto. Qed.

(* ---- paths through owned nodes ---- *)
Inductive opath h (tid : nat) (i : nat) : ptr -> nat -> nat -> ptr -> Prop :=
| op_refl p L : opath h tid i p L L p
| op_step a ps L l q c :
    nodes h !! a = Some (INode ps tid) -> ps !! slot (S L) i = Some c ->
    opath h tid i c L l q -> opath h tid i (PAddr a) (S L) l q.

Lemma opath_le h tid i p L l q : opath h tid i p L l q -> l <= L.
Proof. induction 1; lia. Qed.

Lemma opath_rd h tid i p L l q : opath h tid i p L l q -> rd h p L i = rd h q l i.
Proof. induction 1 as [|a ps L l q c Hn Hq Hp IH]; [done|]. simpl. rewrite Hn, Hq. exact IH. Qed.

Lemma opath_blk h tid i j p L l q :
  opath h tid i p L l q -> blk l i = blk l j -> opath h tid j p L l q.
Proof.
  induction 1 as [|a ps L l q c Hn Hq Hp IH]; intros Hb; [constructor|].
  econstructor; eauto. pose proof (opath_le _ _ _ _ _ _ _ Hp).
  rewrite <-(blk_slot L i j); [done|]. eapply blk_ge; eauto.
Qed.

Lemma opath_snoc h tid i p L l a ps c :
  opath h tid i p L (S l) (PAddr a) -> nodes h !! a = Some (INode ps tid) ->
  ps !! slot (S l) i = Some c -> opath h tid i p L l c.
Proof.
  remember (S l) as l1 eqn:E1. remember (PAddr a) as q eqn:E2.
  induction 1 as [p0 L0|a0 ps0 L0 l0 q0 c0 Hn Hq Hp IH]; intros Ha Hc; subst.
  - econstructor; eauto. constructor.
  - econstructor; eauto.
Qed.

(* Editors only replace pointers to nodes they do not own. *)
Definition mono tid h h' : Prop :=
  (forall a, owned h tid a -> owned h' tid a) /\
  (forall a ps, nodes h !! a = Some (INode ps tid) ->
     exists ps', nodes h' !! a = Some (INode ps' tid) /\ length ps' = length ps /\
       forall j c, ps !! j = Some (PAddr c) -> owned h tid c -> ps' !! j = Some (PAddr c)).

Lemma mono_refl tid h : mono tid h h.
Proof. split; eauto. Qed.

Lemma mono_trans tid h1 h2 h3 : mono tid h1 h2 -> mono tid h2 h3 -> mono tid h1 h3.
Proof.
  intros [Ho1 Hm1] [Ho2 Hm2]. split; [eauto|].
  intros a ps Hn. destruct (Hm1 _ _ Hn) as (ps' & Hn' & Hl' & Hc').
  destruct (Hm2 _ _ Hn') as (ps'' & Hn'' & Hl'' & Hc'').
  exists ps''. split_and!; eauto; lia.
Qed.

Lemma opath_mono tid h h' i p L l a :
  mono tid h h' -> opath h tid i p L l (PAddr a) -> owned h tid a ->
  opath h' tid i p L l (PAddr a).
Proof.
  intros [Ho Hm] Hp Ha. remember (PAddr a) as q eqn:E.
  induction Hp as [p L|a0 ps L l q c Hn Hq Hp IH]; subst; [constructor|].
  specialize (IH eq_refl). destruct (Hm _ _ Hn) as (ps' & Hn' & Hl' & Hc').
  econstructor; [exact Hn'| |exact IH].
  inversion Hp; subst.
  - eauto.
  - eapply Hc'; [exact Hq|]. eexists; split; [eassumption|done].
Qed.

Section Tid.
Context (F : nat -> Prop) (tid : nat) (Htid : tid <> 0) (HFt : ~ F tid).

Lemma wf_not_owned h a l : wf h F (PAddr a) l -> ~ owned h tid a.
Proof.
  intros Hwf (n & Hn & Hi). destruct l as [|l]; simpl in Hwf.
  - destruct Hwf as (vs & i & Hn' & Hl & Hf). rewrite Hn in Hn'. inversion Hn'; subst. auto.
  - destruct Hwf as (vs & i & Hn' & Hl & Hf & _). rewrite Hn in Hn'. inversion Hn'; subst. auto.
Qed.

Lemma ot_owned_inode h P a l b :
  ot h F tid P (PAddr a) (S l) b -> owned h tid a ->
  P a = (S l, b) /\ exists ps, nodes h !! a = Some (INode ps tid) /\ length ps = 16 /\
     forall j q, ps !! j = Some q -> ot h F tid P q l (16 * b + j).
Proof.
  intros [Hwf|(_ & a' & Ha & HP & H)] Ho; [exfalso; eapply wf_not_owned; eauto|].
  inversion Ha; subst. auto.
Qed.

Lemma ot_owned_leaf h P a b :
  ot h F tid P (PAddr a) 0 b -> owned h tid a ->
  P a = (0, b) /\ exists vs, nodes h !! a = Some (Leaf vs tid) /\ length vs = 16.
Proof.
  intros [Hwf|(_ & a' & Ha & HP & H)] Ho; [exfalso; apply (wf_not_owned h a 0 Hwf Ho)|].
  inversion Ha; subst. auto.
Qed.

Lemma ot_opath h P i p L l q b :
  ot h F tid P p L b -> opath h tid i p L l q -> blk L i = b -> ot h F tid P q l (blk l i).
Proof.
  intros Hot Hp. revert b Hot. induction Hp as [p L|a ps L l q c Hn Hq Hp IH]; intros b Hot Hb.
  - subst. exact Hot.
  - destruct (ot_owned_inode _ _ _ _ _ Hot) as (HP & ps' & Hn' & Hl & Hc).
    { eexists; split; [exact Hn|done]. }
    rewrite Hn in Hn'. inversion Hn'; subst ps'.
    apply (IH (16 * b + slot (S L) i)); [eauto|]. rewrite <-Hb. apply blk_split.
Qed.

(* Storing q' into slot j of the owned node a, where q' reads like the pointer
   it replaces, changes no read. *)
Lemma store_slot h P p L b a ps j q0 q' l ba :
  nodes h !! a = Some (INode ps tid) -> P a = (S l, ba) -> ps !! j = Some q0 ->
  let h' := set_nodes h (<[a := INode (<[j := q']> ps) tid]> (nodes h)) in
  ot h' F tid P q' l (16 * ba + j) ->
  (forall i, blk l i = 16 * ba + j -> rd h' q' l i = rd h q0 l i) ->
  ot h F tid P p L b ->
  ot h' F tid P p L b /\ forall i, blk L i = b -> rd h' p L i = rd h p L i.
Proof.
  intros Hna HPa Hj h' Hq' Hrd. revert p b. induction L as [|L IH]; intros p b Hot.
  - destruct Hot as [Hwf|(Ht & a' & -> & HP & vs & Hn & Hl)].
    + destruct (wf_frame h h' F F p 0) as [H1 H2]; auto.
      { intros a1 n Hn1 Hf. simpl. rewrite lookup_insert_ne; [done|]. intros ->.
        rewrite Hna in Hn1; inversion Hn1; subst; auto. }
      split; [left|]; auto.
    + assert (a <> a') by (intros ->; congruence).
      assert (nodes h' !! a' = Some (Leaf vs tid)) as Hn'.
      { simpl. rewrite lookup_insert_ne; auto. }
      split.
      * right. split; [done|]. exists a'. eauto 10.
      * intros i _. simpl. rewrite lookup_insert_ne by done. reflexivity.
  - destruct Hot as [Hwf|(Ht & a' & -> & HP & ps' & Hn & Hl & Hc)].
    + destruct (wf_frame h h' F F p (S L)) as [H1 H2]; auto.
      { intros a1 n Hn1 Hf. simpl. rewrite lookup_insert_ne; [done|]. intros ->.
        rewrite Hna in Hn1; inversion Hn1; subst; auto. }
      split; [left|]; auto.
    + destruct (decide (a = a')) as [<-|Hne].
      * rewrite Hna in Hn. inversion Hn; subst ps'. clear Hn.
        rewrite HPa in HP. inversion HP; subst ba L. clear HP.
        assert (nodes h' !! a = Some (INode (<[j:=q']> ps) tid)) as Hn'.
        { simpl. rewrite lookup_insert. reflexivity. }
        split.
        -- right. split; [done|]. exists a. split_and!; auto.
           exists (<[j:=q']> ps). split_and!; auto; [rewrite insert_length; auto|].
           intros j1 q1 Hq1. destruct (decide (j = j1)) as [<-|Hj1].
           ++ rewrite list_lookup_insert in Hq1 by (eapply lookup_lt_Some; eauto).
              inversion Hq1; subst. exact Hq'.
           ++ rewrite list_lookup_insert_ne in Hq1 by done. apply IH; auto.
        -- intros i Hi. cbn [PersistModel.rd]. rewrite Hn', Hna.
           destruct (decide (j = slot (S l) i)) as [Hs|Hs].
           ++ rewrite <-Hs. rewrite list_lookup_insert by (eapply lookup_lt_Some; eauto).
              rewrite Hj. apply Hrd. rewrite blk_split. lia.
           ++ rewrite list_lookup_insert_ne by done.
              destruct (ps !! slot (S l) i) eqn:E; [|done].
              apply (IH _ (16 * b + slot (S l) i)); [eauto|]. rewrite blk_split; lia.
      * assert (nodes h' !! a' = Some (INode ps' tid)) as Hn'.
        { simpl. rewrite lookup_insert_ne; auto. }
        split.
        -- right. split; [done|]. exists a'. split_and!; auto.
           exists ps'. split_and!; auto. intros j1 q1 Hq1. apply IH; auto.
        -- intros i Hi. cbn [PersistModel.rd]. rewrite Hn', Hn.
           destruct (ps' !! slot (S L) i) eqn:E; [|done].
           apply (IH _ (16 * b + slot (S L) i)); [eauto|]. rewrite blk_split; lia.
Qed.

(* Writing the owned leaf a at block ba changes reads only in that block. *)
Lemma write_leaf_tree h P p L b a vs vs' ba :
  nodes h !! a = Some (Leaf vs tid) -> P a = (0, ba) -> length vs' = 16 ->
  let h' := set_nodes h (<[a := Leaf vs' tid]> (nodes h)) in
  ot h F tid P p L b ->
  ot h' F tid P p L b /\
  (forall i, blk L i = b -> blk 0 i <> ba -> rd h' p L i = rd h p L i).
Proof.
  intros Hna HPa Hl' h'. revert p b. induction L as [|L IH]; intros p b Hot.
  - destruct Hot as [Hwf|(Ht & a' & -> & HP & vs0 & Hn & Hl)].
    + destruct (wf_frame h h' F F p 0) as [H1 H2]; auto.
      { intros a1 n Hn1 Hf. simpl. rewrite lookup_insert_ne; [done|]. intros ->.
        rewrite Hna in Hn1; inversion Hn1; subst; auto. }
      split; [left|]; auto.
    + destruct (decide (a = a')) as [<-|Hne].
      * split.
        -- right. split; [done|]. exists a. split_and!; auto. exists vs'. simpl.
           rewrite lookup_insert. auto.
        -- intros i Hi Hb. congruence.
      * split.
        -- right. split; [done|]. exists a'. split_and!; auto. exists vs0. simpl.
           rewrite lookup_insert_ne; auto.
        -- intros i Hi Hb. simpl. rewrite lookup_insert_ne; auto.
  - destruct Hot as [Hwf|(Ht & a' & -> & HP & ps' & Hn & Hl & Hc)].
    + destruct (wf_frame h h' F F p (S L)) as [H1 H2]; auto.
      { intros a1 n Hn1 Hf. simpl. rewrite lookup_insert_ne; [done|]. intros ->.
        rewrite Hna in Hn1; inversion Hn1; subst; auto. }
      split; [left|]; auto.
    + assert (a <> a') by (intros ->; congruence).
      assert (nodes h' !! a' = Some (INode ps' tid)) as Hn'.
      { simpl. rewrite lookup_insert_ne; auto. }
      split.
      * right. split; [done|]. exists a'. split_and!; auto.
        exists ps'. split_and!; auto. intros j1 q1 Hq1. apply IH; auto.
      * intros i Hi Hb. cbn [PersistModel.rd]. rewrite Hn', Hn.
        destruct (ps' !! slot (S L) i) eqn:E; [|done].
        apply (IH _ (16 * b + slot (S L) i)); [eauto| |done]. rewrite blk_split; lia.
Qed.


Lemma store_slot_pres h P p L b a ps j q0 q' l ba :
  nodes h !! a = Some (INode ps tid) -> P a = (S l, ba) -> ps !! j = Some q0 ->
  let h' := set_nodes h (<[a := INode (<[j := q']> ps) tid]> (nodes h)) in
  (pres h q0 l -> pres h' q' l) ->
  ot h F tid P p L b -> pres h p L -> pres h' p L.
Proof.
  intros Hna HPa Hj h' Hq'. revert p b. induction L as [|L IH]; intros p b Hot Hp.
  - destruct p; simpl in *; done.
  - destruct p as [| |a']; [done|done|].
    simpl in Hp. destruct (nodes h !! a') as [[|ps0 i0]|] eqn:Hn; try done.
    destruct (ps0 !! 0) as [c|] eqn:Hc; [|done].
    destruct (decide (a' = a)) as [->|Hne].
    + rewrite Hna in Hn. inversion Hn; subst ps0 i0.
      destruct (ot_owned_inode _ _ _ _ _ Hot) as (HP & ps' & Hn' & Hl & Hcs).
      { eexists; split; [exact Hna|done]. }
      rewrite Hna in Hn'. inversion Hn'; subst ps'. rewrite HPa in HP. inversion HP; subst l ba.
      cbn [pres]. simpl. rewrite lookup_insert. destruct (decide (j = 0)) as [->|Hj0].
      * rewrite list_lookup_insert by (eapply lookup_lt_Some; eauto).
        apply Hq'. congruence.
      * rewrite list_lookup_insert_ne by done. rewrite Hc. eapply IH; eauto.
    + cbn [pres]. simpl. rewrite lookup_insert_ne by done. rewrite Hn, Hc.
      destruct Hot as [(ps1 & i1 & Hn1 & _ & _ & Hcs)|(_ & a1 & Ha1 & HP1 & ps1 & Hn1 & Hl1 & Hcs)].
      * rewrite Hn in Hn1. inversion Hn1; subst ps1 i1. apply (IH c 0); [|done]. apply wf_ot. eauto.
      * inversion Ha1; subst a1. rewrite Hn in Hn1. inversion Hn1; subst ps1. eapply IH; eauto.
Qed.

(* A subtree below the level of a is not affected by a store into a. *)
Lemma low_pres h P p l0 b a ps ps' l ba :
  nodes h !! a = Some (INode ps tid) -> P a = (S l, ba) -> l0 <= l ->
  ot h F tid P p l0 b -> pres h p l0 ->
  pres (set_nodes h (<[a := INode ps' tid]> (nodes h))) p l0.
Proof.
  intros Hna HPa. revert p b. induction l0 as [|l0 IH]; intros p b Hle Hot Hp.
  - destruct p; simpl in *; done.
  - destruct p as [| |a']; [done|done|].
    simpl in Hp. destruct (nodes h !! a') as [[|ps0 i0]|] eqn:Hn; try done.
    destruct (ps0 !! 0) as [c|] eqn:Hc; [|done].
    destruct (decide (a' = a)) as [->|Hne].
    + rewrite Hna in Hn. inversion Hn; subst ps0 i0.
      destruct (ot_owned_inode _ _ _ _ _ Hot) as (HP & _).
      { eexists; split; [exact Hna|done]. }
      rewrite HPa in HP. inversion HP; lia.
    + cbn [pres]. simpl. rewrite lookup_insert_ne by done. rewrite Hn, Hc.
      destruct Hot as [(ps1 & i1 & Hn1 & _ & _ & Hcs)|(_ & a1 & Ha1 & HP1 & ps1 & Hn1 & Hl1 & Hcs)].
      * rewrite Hn in Hn1. inversion Hn1; subst ps1 i1. apply (IH c 0); [lia| |done]. apply wf_ot. eauto.
      * inversion Ha1; subst a1. rewrite Hn in Hn1. inversion Hn1; subst ps1. eapply IH; [lia|eauto|done].
Qed.

End Tid.
End Tree.

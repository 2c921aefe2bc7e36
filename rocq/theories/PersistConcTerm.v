(* Concurrent Set calls: every schedule makes a bounded number of steps. *)
From stdpp Require Import gmap list.
From Verif Require Import PersistModel PersistTree PersistOps PersistEdit PersistSpec PersistWorld
  PersistConcModel PersistConcSpec PersistConc PersistConcRun.

Section Term.
Context {T : Type} (zero : T).
Notation st := (@st T).
Notation pc := (pc T).
Notation cfg := (cfg T).
Notation thread := (thread T).
Implicit Types (s : st) (c : cfg) (q : pc).
Context (F : nat -> Prop) (s0 : st) (HE0 : EI F s0).
Notation tid s := (aid (tr s)).
Notation H := (hgt (sl_ s0)).

Definition ownedp s (p : ptr) : Prop :=
  match p with PAddr a => tid s <> 0 /\ owned (hp s) (tid s) a | _ => False end.
Global Instance owned_dec (h : heap (T:=T)) t a : Decision (owned h t a).
Proof.
  unfold owned. destruct (nodes h !! a) as [n|] eqn:E.
  - destruct (decide (nid n = t)) as [Hn|Hn]; [left; eauto|]. right. intros (n' & En & Hn'). congruence.
  - right. intros (n' & En & _). congruence.
Defined.
Global Instance ownedp_dec s p : Decision (ownedp s p).
Proof. destruct p; simpl; apply _. Defined.

Definition cur s (p : loc) : ptr := match load p s with Ok (q, _) => q | Crash => PNil end.
Definition x1 s (pl : ptr) : nat := if decide (ownedp s pl) then 5 else 60.

Definition rank s q : nat :=
  match q with
  | Start => 300 * S H + 200
  | Load l p => 300 * l + (if decide (ownedp s (cur s p)) then 12 else 100)
  | IdLoad l p pl => 300 * l + x1 s pl + (if decide (tid s = 0) then 6 else 3)
  | IdAdd l p pl => 300 * l + x1 s pl + 5
  | IdCas l p pl c => 300 * l + x1 s pl + 4
  | Check l p pl t => 300 * l + x1 s pl + 2
  | CopyL p pl t a acc => 40 + (17 - length acc)
  | CopyN l p pl t a acc => 300 * l + 40 + (17 - length acc)
  | Cas l p pl n => 300 * l + 30
  | WriteLeaf a => 1
  | TLoad => 60
  | TLock => 50
  | TLoad2 => 49
  | TMake => 48
  | TCopy src n acc => 20 + (17 - length acc)
  | TSet n acc => 19
  | TStore => 18
  | TUnlock => 17
  | THead => 10
  | TWrite b => 5
  | Done => 0
  end.

(* A pointer loaded and not owned is still there, or an owned one replaced it. *)
Definition ptag s (p : loc) (pl : ptr) : Prop :=
  ownedp s pl \/ load p s = Ok (pl, s) \/ ownedp s (cur s p).
Definition ptagq s q : Prop :=
  match q with
  | IdLoad _ p pl | IdAdd _ p pl | IdCas _ p pl _ | Check _ p pl _ | CopyL p pl _ _ _
  | CopyN _ p pl _ _ _ => ptag s p pl
  | Cas _ p pl _ => load p s = Ok (pl, s) \/ ownedp s (cur s p)
  | _ => True
  end.

Definition lchg s s' : Prop :=
  forall p l i pl, loc_ok s0 s p l i -> load p s = Ok (pl, s) ->
    load p s' = Ok (pl, s') \/ ownedp s' (cur s' p).

Lemma ownedp_sev s s' p : sev F s s' -> ownedp s p -> ownedp s' p.
Proof.
  intros V. destruct p as [| |a]; simpl; auto. intros [Ht Ho]. rewrite (sv_aid _ _ _ V Ht).
  split; [done|]. apply (sv_mono _ _ _ V Ht). done.
Qed.

Lemma cur_sev s s' p l i : sev F s s' -> loc_ok s0 s p l i -> ownedp s (cur s p) -> ownedp s' (cur s' p).
Proof.
  intros V Hloc Hc. pose proof (ownedp_sev s s' _ V Hc) as Hc'.
  enough (cur s' p = cur s p) as -> by done.
  destruct p as [|a j].
  - change (cur s LRoot) with (root s) in *. change (cur s' LRoot) with (root s').
    destruct (root s) as [| |a] eqn:E; simpl in Hc; try done.
    destruct Hc as [Ht Ho]. rewrite (sv_root _ _ _ V Ht a E Ho). done.
  - destruct Hloc as (Ht & Hj & _ & Ho & Hp). unfold cur in *. simpl in *.
    destruct (nodes (hp s) !! a) as [[|ps i0]|] eqn:En; try done.
    destruct (ps !! j) as [pl|] eqn:Ej; try done. destruct pl as [| |b]; try done.
    destruct Ho as (n & En' & Hid). rewrite En in En'. inversion En'; subst n. simpl in Hid. subst i0.
    destruct (sv_mono _ _ _ V Ht) as [_ Hm]. destruct (Hm _ _ En) as (ps' & En2 & _ & Hk).
    simpl in Hc. rewrite En2. rewrite (Hk _ _ Ej); tauto.
Qed.

Lemma x1_le s s' pl : sev F s s' -> x1 s' pl <= x1 s pl.
Proof.
  intros V. unfold x1. destruct (decide (ownedp s pl)) as [Ho|Ho].
  - rewrite decide_True by eauto using ownedp_sev. done.
  - destruct (decide (ownedp s' pl)); lia.
Qed.

Lemma rank_other s s' q i : sev F s s' -> tinv zero F s0 s q i -> rank s' q <= rank s q.
Proof.
  intros V Hi.
  destruct q as [|l p|l p pl|l p pl|l p pl c|l p pl t|p pl t a acc|l p pl t a acc|l p pl n|a| | | | |src n acc|n acc| | | |b|];
    cbn [rank]; try lia; try (pose proof (x1_le s s' pl V); lia).
  - destruct Hi as [_ Hloc]. destruct (decide (ownedp s (cur s p))) as [Ho|Ho].
    + rewrite decide_True by eauto using cur_sev. lia.
    + destruct (decide _); lia.
  - pose proof (x1_le s s' pl V). destruct (decide (tid s = 0)) as [Hz|Hz]; [destruct (decide _); lia|].
    rewrite decide_False; [lia|]. rewrite (sv_aid _ _ _ V Hz). done.
Qed.

Lemma ptag_other s s' p pl l i : sev F s s' -> lchg s s' -> loc_ok s0 s p l i -> ptag s p pl -> ptag s' p pl.
Proof.
  intros V HL Hloc [Ho|[Hl|Ho]].
  - left. eauto using ownedp_sev.
  - destruct (HL _ _ _ _ Hloc Hl); [right; left|right; right]; done.
  - right. right. eauto using cur_sev.
Qed.

Lemma ptagq_other s s' q i : sev F s s' -> lchg s s' -> tinv zero F s0 s q i -> ptagq s q -> ptagq s' q.
Proof.
  intros V HL Hi.
  destruct q as [|l p|l p pl|l p pl|l p pl c|l p pl t|p pl t a acc|l p pl t a acc|l p pl n|a| | | | |src n acc|n acc| | | |b|];
    cbn [ptagq]; auto; cbn [tinv] in Hi.
  - destruct Hi as (_ & Hi & _). eauto using ptag_other.
  - destruct Hi as (_ & Hi & _). eauto using ptag_other.
  - destruct Hi as (_ & Hi & _). eauto using ptag_other.
  - destruct Hi as (_ & Hi & _). eauto using ptag_other.
  - destruct Hi as (_ & Hi & _). eauto using ptag_other.
  - destruct Hi as (_ & Hi & _). eauto using ptag_other.
  - destruct Hi as (_ & Hloc & _). intros [Hl|Ho].
    + eapply HL; eauto.
    + right. eauto using cur_sev.
Qed.

Lemma lchg_same s s' : nodes (hp s') = nodes (hp s) -> root s' = root s -> lchg s s'.
Proof.
  intros E1 E2 p l i pl _ Hl. left. destruct p as [|a j]; simpl in *.
  - unfold root in E2. rewrite E2. congruence.
  - rewrite E1. destruct (nodes (hp s) !! a) as [[|ps i0]|]; try done.
    destruct (ps !! j); try done. congruence.
Qed.

Lemma load_same s s' p pl : nodes (hp s') = nodes (hp s) -> root s' = root s -> load p s = Ok (pl, s) ->
  load p s' = Ok (pl, s').
Proof.
  intros E1 E2 Hl. destruct p as [|a j]; simpl in *.
  - unfold root in E2. rewrite E2. congruence.
  - rewrite E1. destruct (nodes (hp s) !! a) as [[|ps i0]|]; try done.
    destruct (ps !! j); try done. congruence.
Qed.
Lemma ownedp_same s s' p : nodes (hp s') = nodes (hp s) -> tid s' = tid s -> ownedp s p <-> ownedp s' p.
Proof. intros E1 E2. destruct p; simpl; [done|done|]. unfold owned. rewrite E1, E2. done. Qed.
Lemma cur_same s s' p : nodes (hp s') = nodes (hp s) -> root s' = root s -> cur s' p = cur s p.
Proof.
  intros E1 E2. unfold cur. destruct p as [|a j]; simpl; [exact E2|].
  rewrite E1. destruct (nodes (hp s) !! a) as [[|ps i0]|]; try done. destruct (ps !! j); done.
Qed.

Lemma lchg_leaf s s' a vs vs' i0 : nodes (hp s) !! a = Some (Leaf vs i0) ->
  nodes (hp s') = <[a := Leaf vs' i0]> (nodes (hp s)) -> root s' = root s -> lchg s s'.
Proof.
  intros En E1 E2 p l i pl _ Hl. left. destruct p as [|a' j]; simpl in *.
  - unfold root in E2. rewrite E2. congruence.
  - rewrite E1. destruct (decide (a' = a)) as [->|Hne]; [rewrite En in Hl; done|].
    rewrite lookup_insert_ne by done. destruct (nodes (hp s) !! a') as [[|ps i1]|]; try done.
    destruct (ps !! j); try done. congruence.
Qed.

Lemma lchg_cas s p n a1 s' : HW (hp s) -> tid s <> 0 -> nid n = tid s ->
  bind (alloc_node n) (fun a1 => bind (store p (PAddr a1)) (fun _ => ret a1)) s = Ok (a1, s') -> lchg s s'.
Proof.
  intros HH Ht Hn E p' l i pl Hloc Hl. unfold bind, alloc_node in E.
  assert (nodes (hp s) !! hnext (hp s) = None) as Hf by (apply HH; lia).
  destruct p as [|a j]; simpl in E.
  - inversion E; subst a1 s'. clear E. destruct p' as [|a' j'].
    + right. unfold cur. simpl. split; [done|]. exists n. simpl. rewrite lookup_insert. auto.
    + left. simpl in *. destruct (decide (a' = hnext (hp s))) as [->|Hne]; [rewrite Hf in Hl; done|].
      rewrite lookup_insert_ne by done. destruct (nodes (hp s) !! a') as [[|ps i1]|]; try done.
      destruct (ps !! j'); try done. congruence.
  - destruct (decide (a = hnext (hp s))) as [->|Hne].
    { rewrite lookup_insert in E. destruct n as [|ps0 i0]; [done|].
      destruct (decide (j < length ps0)); [|done]. inversion E; subst a1 s'. clear E.
      left. destruct p' as [|a' j']; simpl in *; [congruence|].
      destruct (decide (a' = hnext (hp s))) as [->|Hne2]; [rewrite Hf in Hl; done|].
      rewrite !lookup_insert_ne by done. destruct (nodes (hp s) !! a') as [[|ps i1]|]; try done.
      destruct (ps !! j'); try done. congruence. }
    rewrite lookup_insert_ne in E by done.
    destruct (nodes (hp s) !! a) as [[|ps0 i0]|] eqn:En; try done.
    destruct (decide (j < length ps0)) as [Hj|]; [|done]. inversion E; subst a1 s'. clear E.
    destruct p' as [|a' j']; simpl in *; [left; congruence|].
    destruct (decide (a' = a)) as [->|Hne2].
    + rewrite En in Hl. destruct (decide (j' = j)) as [->|Hjj].
      * right. unfold cur. simpl. rewrite lookup_insert. rewrite list_lookup_insert by done.
        simpl. split; [done|]. exists n. split; [|done]. simpl. rewrite lookup_insert_ne by done.
        rewrite lookup_insert. done.
      * left. rewrite lookup_insert. rewrite list_lookup_insert_ne by done.
        destruct (ps0 !! j'); try done. congruence.
    + left. rewrite lookup_insert_ne by done.
      destruct (decide (a' = hnext (hp s))) as [->|Hne3]; [rewrite Hf in Hl; done|].
      rewrite lookup_insert_ne by done. destruct (nodes (hp s) !! a') as [[|ps i1]|]; try done.
      destruct (ps !! j'); try done. congruence.
Qed.

Lemma descend_rank s l a i : rank s (descend l a i) <= 300 * l + 1 /\ ptagq s (descend l a i).
Proof.
  destruct l as [|l]; cbn [descend rank ptagq]; [lia|]. split; [|done]. destruct (decide _); lia.
Qed.

Lemma copy_nid s pl l n : copy_of zero F s pl l n -> nid n = tid s.
Proof.
  destruct pl as [| |a]; simpl; [|done|].
  - intros ->. destruct l; done.
  - destruct l; intros (? & ? & _ & _ & _ & ->); done.
Qed.

Lemma rank_step s m k i x q s' m' q' : EI F s -> static s0 s -> tinv zero F s0 s q i -> ptagq s q ->
  tstep zero s m k i x q = Some (Ok (s', m', q')) ->
  rank s' q' < rank s q /\ ptagq s' q' /\ lchg s s'.
Proof.
  intros HE HS Hinv Htag Hstep. pose proof (lchg_same s s eq_refl eq_refl) as Hrefl.
  destruct q as [|l p|l p pl|l p pl|l p pl c|l p pl t|p pl t a acc|l p pl t a acc|l p pl n|a| | | | |src n acc|n acc| | | |b|];
    cbn [tinv ptagq] in Hinv, Htag; cbn [tstep] in Hstep.
  - destruct (decide (t_len (tr s) <= i)); [done|].
    destruct (decide (tlen (ts (tr s)) <= i)); inversion Hstep; subst.
    + cbn [rank ptagq]. split_and!; auto. lia.
    + cbn [rank ptagq]. split_and!; auto. fold (sl_ s'). rewrite (sc_hgt _ _ HS). destruct (decide _); lia.
  - destruct Hinv as [Hi Hloc]. destruct (load_ok zero F s0 s p l i HE HS Hi Hloc) as (pl & Hld & Hpl).
    rewrite Hld in Hstep. inversion Hstep; subst. cbn [rank ptagq].
    assert (cur s' p = pl) as -> by (unfold cur; rewrite Hld; done).
    split_and!; auto; [|right; left; done]. unfold x1.
    destruct (decide (ownedp s' pl)), (decide (tid s' = 0)); lia.
  - destruct (decide (tid s = 0)) as [Hz|Hz]; inversion Hstep; subst; cbn [rank ptagq]; (split_and!; [|done|done]).
    + rewrite decide_True by done. lia.
    + rewrite decide_False by done. lia.
  - inversion Hstep; subst. cbn [rank ptagq]. split_and!.
    + unfold x1. match goal with |- context [decide (ownedp ?s1 pl)] => 
        rewrite (decide_ext (ownedp s1 pl) (ownedp s pl)) by (symmetry; apply ownedp_same; done) end. lia.
    + destruct Htag as [Ho|[Hl|Ho]].
      * left. eapply ownedp_same; [..|exact Ho]; done.
      * right. left. eapply load_same; [..|exact Hl]; done.
      * right. right. rewrite (cur_same s) by done. eapply ownedp_same; [..|exact Ho]; done.
    + apply lchg_same; done.
  - destruct Hinv as (Hi & Hloc & Hpl & Hc).
    destruct (decide (tid s = 0)) as [Hz|Hz]; inversion Hstep; subst; cbn [rank ptagq].
    + assert (~ F c) as HFc by (intros Hf; pose proof (ei_F _ _ HE0 _ Hf); lia).
      assert (forall pl, ~ ownedp s pl) as Hno by (intros [| |a]; simpl; tauto).
      split_and!.
      * unfold x1. rewrite (decide_False (P := ownedp s pl)) by apply Hno. destruct (decide _); lia.
      * destruct Htag as [Ho|[Hl|Ho]]; [exfalso; eapply Hno; eauto| |exfalso; eapply Hno; eauto].
        right. left. eapply load_same; [..|exact Hl]; done.
      * apply lchg_same; done.
    + split_and!; auto. rewrite decide_False by done. lia.
  - destruct Hinv as (Hi & Hloc & Hpl & Ht & ->). pose proof (ei_nF _ _ HE Ht) as HFt.
    destruct pl as [| |a]; [| |].
    + inversion Hstep; subst. cbn [rank ptagq]. split_and!; auto.
      * unfold x1. destruct (decide _); [|lia]. done.
      * destruct Htag as [Ho|Ho]; [done|done].
    + done.
    + destruct (nodes (hp s) !! a) as [n|] eqn:En; [|done].
      destruct (decide (nid n = tid s)) as [Hid|Hid].
      * inversion Hstep; subst. destruct (descend_rank s' l a i) as [Hr Hp]. split_and!; auto.
        cbn [rank]. unfold x1. destruct (decide _); lia.
      * assert (~ ownedp s (PAddr a)) as Hno.
        { intros (_ & n' & En' & Hid'). congruence. }
        destruct l as [|l]; inversion Hstep; subst; cbn [rank ptagq]; split_and!; auto;
          unfold x1; rewrite decide_False by done; simpl length; lia.
  - destruct Hinv as (Hi & Hloc & Ht & -> & -> & vs & j & Hn & Hf & Hl & Hacc).
    rewrite Hn in Hstep. destruct (vs !! length acc) as [v|] eqn:Ev; inversion Hstep; subst; cbn [rank ptagq].
    + apply lookup_lt_Some in Ev. rewrite app_length. simpl length. split_and!; auto. lia.
    + split_and!; auto; [lia|]. destruct Htag as [(_ & n' & En' & Hid)|Hx]; [|done].
      rewrite Hn in En'. inversion En'; subst n'. simpl in Hid. subst j.
      exfalso. exact (ei_nF _ _ HE Ht Hf).
  - destruct Hinv as (Hi & Hloc & Ht & -> & -> & Hl0 & vs & j & Hn & Hf & Hl & Hacc).
    rewrite Hn in Hstep. destruct (vs !! length acc) as [v|] eqn:Ev; inversion Hstep; subst; cbn [rank ptagq].
    + apply lookup_lt_Some in Ev. rewrite app_length. simpl length. split_and!; auto. lia.
    + split_and!; auto; [lia|]. destruct Htag as [(_ & n' & En' & Hid)|Hx]; [|done].
      rewrite Hn in En'. inversion En'; subst n'. simpl in Hid. subst j.
      exfalso. exact (ei_nF _ _ HE Ht Hf).
  - destruct Hinv as (Hi & Hloc & Ht & Hcp).
    destruct (load_ok zero F s0 s p l i HE HS Hi Hloc) as (pl' & Hld & Hpl'). rewrite Hld in Hstep.
    destruct (decide (pl' = pl)) as [->|Hne].
    + destruct (bind (alloc_node n) (fun a1 => bind (store p (PAddr a1)) (fun _ => ret a1)) s) as [[a1 s1]|] eqn:E; [|done].
      inversion Hstep; subst. destruct (descend_rank s' l a1 i) as [Hr Hp]. cbn [rank]. split_and!; auto; [lia|].
      eapply lchg_cas; eauto; [apply HE|]. eapply copy_nid; eauto.
    + inversion Hstep; subst. cbn [rank ptagq]. split_and!; auto.
      rewrite decide_True; [lia|]. destruct Htag as [Hl|Ho]; [|done]. congruence.
  - unfold write_leaf in Hstep. destruct (nodes (hp s) !! a) as [[vs i0|]|] eqn:En; try done.
    inversion Hstep; subst. cbn [rank ptagq]. split_and!; [lia|done|].
    eapply lchg_leaf; [exact En| |]; done.
  - destruct (wtail (tr s)); inversion Hstep; subst; cbn [rank ptagq]; (split_and!; [lia|done|done]).
  - destruct m; inversion Hstep; subst; cbn [rank ptagq]; (split_and!; [lia|done|done]).
  - destruct (wtail (tr s)); inversion Hstep; subst; cbn [rank ptagq]; (split_and!; [lia|done|done]).
  - destruct (decide (16 < tln (ts (tr s)))); inversion Hstep; subst; cbn [rank ptagq]; (split_and!; [simpl length; lia|done|done]).
  - destruct Hinv as (Hi & Hw & -> & -> & l2' & Hpre & Hacc & Hle). pose proof (ei_t16 _ _ HE0) as H16.
    destruct (decide (length acc < tln (sl_ s0))) as [Hlt|Hge].
    + destruct (arr_get _ _ _ _); [|done]. inversion Hstep; subst. cbn [rank ptagq].
      rewrite app_length. simpl length. split_and!; [lia|done|done].
    + inversion Hstep; subst. cbn [rank ptagq]. split_and!; [lia|done|done].
  - unfold bind, alloc_arr, set_tail in Hstep. inversion Hstep; subst. cbn [rank ptagq]. split_and!; [lia|done|].
    apply lchg_same; done.
  - inversion Hstep; subst. cbn [rank ptagq]. split_and!; [lia|done|]. apply lchg_same; done.
  - inversion Hstep; subst. cbn [rank ptagq]. split_and!; [lia|done|done].
  - destruct (tarr (ts (tr s))); [|done]. destruct (decide _); [|done]. inversion Hstep; subst.
    cbn [rank ptagq]. split_and!; [lia|done|done].
  - destruct (arrs (hp s) !! b); [|done]. inversion Hstep; subst. cbn [rank ptagq]. split_and!; [lia|done|].
    apply lchg_same; done.
  - done.
Qed.

Definition measure c : nat := sum_list ((fun th => rank (cst c) (tpc th)) <$> ths c).

Lemma sum_le (f g : thread -> nat) l : (forall k th, l !! k = Some th -> g th <= f th) ->
  sum_list (g <$> l) <= sum_list (f <$> l).
Proof.
  induction l as [|th l IH]; intros Hle; csimpl; [lia|].
  pose proof (Hle 0 th eq_refl). pose proof (IH (fun k => Hle (S k))). lia.
Qed.

Lemma sum_lt (f g : thread -> nat) l k th th' : l !! k = Some th -> g th' < f th ->
  (forall k' u, k' <> k -> l !! k' = Some u -> g u <= f u) ->
  sum_list (g <$> <[k := th']> l) < sum_list (f <$> l).
Proof.
  revert k. induction l as [|u l IH]; intros k Hk Hlt Hle; [done|].
  destruct k as [|k]; csimpl in *.
  - inversion Hk; subst u. pose proof (sum_le f g l (fun k' v => Hle (S k') v ltac:(lia))). lia.
  - pose proof (Hle 0 u ltac:(lia) eq_refl). specialize (IH k Hk Hlt (fun k' v Hk' => Hle (S k') v ltac:(lia))). lia.
Qed.

Lemma measure_step l0 ws c k c' : NoDup (ws.*1) -> CI zero F s0 l0 ws c ->
  (forall j th, ths c !! j = Some th -> ptagq (cst c) (tpc th)) ->
  cstep zero c k = Some (Ok c') ->
  measure c' < measure c /\ (forall j th, ths c' !! j = Some th -> ptagq (cst c') (tpc th)).
Proof.
  intros Hnd HC Htag Hs. pose proof HC as [I1 I2 I3 (l1 & l2 & HR & Hl) I5 I6 I7 I8].
  unfold cstep in Hs. destruct (ths c !! k) as [th|] eqn:Hk; [|done].
  destruct (tstep zero (cst c) (mu c) k (tidx th) (tval th) (tpc th)) as [r'|] eqn:Ht; [|done].
  destruct (step_ok zero F s0 HE0 (cst c) (mu c) k (tidx th) (tval th) (tpc th) l1 l2 r' I1 I2 I3 HR)
    as (s' & m' & q' & -> & N1 & N2 & N3 & N4 & N5 & N6 & _ & _); auto.
  { eapply I6; eauto. }
  injection Hs as <-.
  destruct (rank_step (cst c) (mu c) k (tidx th) (tval th) (tpc th) s' m' q' I1 I3 (I6 _ _ Hk) (Htag _ _ Hk) Ht)
    as (Hr & Hp & HL).
  split.
  - unfold measure. cbn [cst ths].
    apply (sum_lt (fun th => rank (cst c) (tpc th)) (fun th => rank s' (tpc th)) _ k th); auto.
    intros k' u _ Hu. eapply rank_other; eauto.
  - cbn [cst ths]. intros j u Hu. destruct (decide (j = k)) as [->|Hne].
    + rewrite list_lookup_insert in Hu by (eapply lookup_lt_Some; eauto). inversion Hu; subst u. done.
    + rewrite list_lookup_insert_ne in Hu by done. eapply ptagq_other; eauto.
Qed.

Lemma steps_bound l0 ws sched : NoDup (ws.*1) -> forall c, CI zero F s0 l0 ws c ->
  (forall j th, ths c !! j = Some th -> ptagq (cst c) (tpc th)) ->
  steps zero c sched <= measure c.
Proof.
  intros Hnd. induction sched as [|k ks IH]; intros c HC Htag; simpl; [lia|].
  destruct (cstep zero c k) as [r|] eqn:E; [|auto].
  destruct (CI_step zero F s0 HE0 l0 ws c k r Hnd HC E) as (c' & -> & HC').
  destruct (measure_step l0 ws c k c' Hnd HC Htag E) as [Hm Htag'].
  pose proof (IH c' HC' Htag'). lia.
Qed.

End Term.

Lemma steps_begin {T} (zero : T) os k t ws sched : let w := run zero winit os in
  wtrs w !! k = Some t -> NoDup (ws.*1) -> Forall (fun ix => ix.1 < t_len t) ws ->
  steps zero (begin w t ws) sched <= length ws * (300 * S (hgt (ts t)) + 200).
Proof.
  intros w Ht Hnd Hws. destruct (conc_main zero os k t ws [] Ht Hnd Hws)
    as (a & l & c & Hsp & Hl & Hlen & HW & Hx & HC & HE).
  fold w in Hx. simpl in Hx. injection Hx as <-.
  pose proof (steps_bound zero (Fz w) (stof w t) HE l ws sched Hnd _ HC) as Hb.
  etrans; [apply Hb|].
  - intros j th Hj. cbn [begin ths] in Hj. rewrite list_lookup_fmap in Hj.
    destruct (ws !! j); [|done]. simpl in Hj. inversion Hj; subst. exact I.
  - unfold measure, begin. cbn [cst ths]. clear. induction ws as [|ix ws IH]; [simpl; lia|].
    rewrite !fmap_cons. cbn [tpc rank]. rewrite <- list_fmap_compose in *. cbn [length].
    change (sum_list (?x :: ?y)) with (x + sum_list y).
    unfold sl_, stof in *. cbn [tr] in *. unfold compose in *. cbn [tpc rank] in *. lia.
Qed.

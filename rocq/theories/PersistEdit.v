(* The editor-level operations of value/persist: what each does to the sequence
   an editor denotes, and what it leaves alone. *)
From stdpp Require Import gmap list.
From Verif Require Import PersistModel PersistTree PersistOps.

(* ---- height ---- *)
Lemma bits_len_le m n : m <= n -> bits_len m <= bits_len n.
Proof.
  intros H. destruct m as [|m], n as [|n]; simpl; try lia.
  pose proof (Nat.log2_le_mono (S m) (S n) H). lia.
Qed.

Lemma bits_len_lt m : m < 2 ^ bits_len m.
Proof.
  destruct m as [|m]; unfold bits_len; [change (2 ^ 0) with 1; lia|].
  pose proof (Nat.log2_spec (S m) ltac:(lia)). lia.
Qed.

Lemma height_mono m n : m <= n -> height m <= height n.
Proof.
  intros H. destruct m as [|m], n as [|n]; unfold height; try lia.
  pose proof (bits_len_le m n ltac:(lia)) as Hb.
  pose proof (Nat.div_le_mono _ _ 4 ltac:(lia) Hb). lia.
Qed.

Lemma height_pos n : n <> 0 -> 2 <= height n.
Proof. destruct n; unfold height; lia. Qed.

Lemma pow_16_2 k : 16 ^ k = 2 ^ (4 * k).
Proof. change 16 with (2 ^ 4). rewrite <-Nat.pow_mul_r. done. Qed.

Lemma height_cap n : n <= 16 ^ height n.
Proof.
  destruct n as [|n]; [lia|]. unfold height.
  pose proof (bits_len_lt n) as Hlt. set (b := bits_len n) in *. clearbody b.
  assert (2 ^ b <= 16 ^ Nat.max 2 (1 + b / 4)); [|lia].
  rewrite pow_16_2. apply Nat.pow_le_mono_r; [lia|].
  pose proof (Nat.div_mod b 4 ltac:(lia)). pose proof (Nat.mod_upper_bound b 4 ltac:(lia)). lia.
Qed.

Lemma mod16_sub a b : a mod 16 = 0 -> b mod 16 = 0 -> (a - b) mod 16 = 0.
Proof.
  intros Ha Hb. pose proof (Nat.div_mod a 16 ltac:(lia)). pose proof (Nat.div_mod b 16 ltac:(lia)).
  replace (a - b) with ((a / 16 - b / 16) * 16) by lia. apply Nat.mod_mul. lia.
Qed.
Lemma mod16_add a b : a mod 16 = 0 -> b mod 16 = 0 -> (a + b) mod 16 = 0.
Proof. intros Ha Hb. rewrite <-Nat.add_mod_idemp_l, Ha, Nat.add_0_l by lia. done. Qed.

Lemma mod16_tail a i : a mod 16 = 0 -> a <= i -> i < a + 16 -> i mod 16 = i - a.
Proof.
  intros Ha H1 H2. pose proof (Nat.div_mod a 16 ltac:(lia)). symmetry.
  apply (Nat.mod_unique _ _ (a / 16)); lia.
Qed.

Section Edit.
Context {T : Type} (zero : T).
Notation heap := (@heap T).
Notation node := (@node T).
Notation st := (@st T).
Notation rd := (rd zero).
Implicit Types (h : heap) (s : st).
Notation res_opt := (@res_opt T).

Definition sl_ s : slice := ts (tr s).

(* Validity of the editor in s, F being the ids of nodes nobody may write. *)
Record EI (F : nat -> Prop) s : Prop := {
  ei_hw : HW (hp s);
  ei_aid : aid (tr s) <= ctr s;
  ei_F : forall i, F i -> i <= ctr s;
  ei_nF : aid (tr s) <> 0 -> ~ F (aid (tr s));
  ei_tlen : tlen (sl_ s) mod 16 = 0;
  ei_hgt : hgt (sl_ s) = height (tlen (sl_ s));
  ei_tl : tailLen (tr s) = tln (sl_ s);
  ei_t16 : tln (sl_ s) <= 16;
  ei_tree : tlen (sl_ s) <> 0 -> exists P,
      ot (hp s) F (aid (tr s)) P (root s) (hgt (sl_ s) - 1) 0 /\
      pres (hp s) (root s) (hgt (sl_ s) - 1);
  ei_nil : tlen (sl_ s) = 0 -> forall a, root s <> PAddr a;
  ei_tail : exists l, arr_prefix (hp s) (tarr (sl_ s)) (tln (sl_ s)) = Ok l;
  ei_wtail : wtail (tr s) = true -> exists b l,
      tarr (sl_ s) = Some b /\ arrs (hp s) !! b = Some l /\ length l = 16 }.

(* What an operation of one editor leaves alone. *)
Record Efr s s' : Prop := {
  ef_ctr : ctr s <= ctr s';
  ef_next : hnext (hp s) <= hnext (hp s');
  ef_aid : aid (tr s') = aid (tr s) \/ (aid (tr s) = 0 /\ ctr s < aid (tr s') <= ctr s');
  ef_nodes : forall a n, nodes (hp s) !! a = Some n -> nid n <= ctr s -> nid n <> aid (tr s) ->
               nodes (hp s') !! a = Some n;
  ef_arrs : forall b l, arrs (hp s) !! b = Some l ->
               (wtail (tr s) = true -> tarr (sl_ s) <> Some b) -> arrs (hp s') !! b = Some l;
  ef_tail : (tarr (sl_ s') = tarr (sl_ s) /\ wtail (tr s') = wtail (tr s)) \/
            (exists b, tarr (sl_ s') = Some b /\ hnext (hp s) <= b) }.

Lemma Efr_refl s : Efr s s.
Proof. split; auto. Qed.

Lemma Efr_trans s1 s2 s3 : HW (hp s1) -> Efr s1 s2 -> Efr s2 s3 -> Efr s1 s3.
Proof.
  intros HH [A1 A2 A3 A4 A5 A6] [B1 B2 B3 B4 B5 B6]. split.
  - lia.
  - lia.
  - destruct A3 as [A3|A3], B3 as [B3|B3]; lia.
  - intros a n Hn Hi Ha. apply B4; [auto|lia|]. destruct A3 as [->|A3]; [done|lia].
  - intros b l Hb Hw. apply B5; [auto|]. intros Hw2.
    destruct A6 as [[-> E]|(b' & -> & Hb')]; [apply Hw; congruence|].
    intros [= ->]. destruct (HH b Hb') as [_ E]. congruence.
  - destruct B6 as [[E1 E2]|(b' & E1 & E2)].
    + destruct A6 as [[E0 E]|(b' & Eb & Hb')].
      * left. split; congruence.
      * right. exists b'. split; [congruence|done].
    + right. exists b'. split; [done|lia].
Qed.

(* The sequence an editor denotes: l1 in the tree, l2 in the tail. *)
Definition rdt s (i : nat) : res T := rd (hp s) (root s) (hgt (sl_ s) - 1) i.
Record rep s (l1 l2 : list T) : Prop := {
  rp_len : length l1 = tlen (sl_ s);
  rp_tree : forall i, i < tlen (sl_ s) -> rdt s i = res_opt (l1 !! i);
  rp_tail : arr_prefix (hp s) (tarr (sl_ s)) (tln (sl_ s)) = Ok l2 }.

Lemma arr_prefix_len h a n l : arr_prefix h a n = Ok l -> length l = n.
Proof.
  unfold arr_prefix. destruct a as [b|].
  - destruct (arrs h !! b) as [x|]; [|done]. destruct (decide (n <= length x)); [|done].
    intros [= <-]. rewrite take_length. lia.
  - destruct (decide (n = 0)); [|done]. intros [= <-]. done.
Qed.

Lemma arr_prefix_get h a n l j : arr_prefix h a n = Ok l -> arr_get h a n j = res_opt (l !! j).
Proof.
  intros H. unfold arr_get. destruct (decide (j < n)) as [Hj|Hj].
  - unfold arr_prefix in H. destruct a as [b|].
    + destruct (arrs h !! b) as [x|]; [|done]. destruct (decide (n <= length x)); [|done].
      inversion H; subst l. rewrite lookup_take by done. done.
    + destruct (decide (n = 0)); [lia|done].
  - pose proof (arr_prefix_len _ _ _ _ H). rewrite lookup_ge_None_2 by lia. done.
Qed.

(* What At returns, for every index. *)
Lemma rep_at F s l1 l2 i : EI F s -> rep s l1 l2 ->
  at_ zero (hp s) (sl_ s) i = res_opt ((l1 ++ l2) !! i).
Proof.
  intros HE [Hl Ht Hta]. pose proof (arr_prefix_len _ _ _ _ Hta) as Hl2.
  unfold at_, s_len. destruct (decide (tlen (sl_ s) + tln (sl_ s) <= i)) as [H1|H1].
  - rewrite lookup_ge_None_2; [done|]. rewrite app_length. lia.
  - destruct (decide (tlen (sl_ s) <= i)) as [H2|H2].
    + rewrite (arr_prefix_get _ _ _ _ _ Hta). rewrite lookup_app_r by lia.
      rewrite (mod16_tail (tlen (sl_ s)) i); [rewrite Hl; done|apply HE|done|].
      pose proof (ei_t16 _ _ HE). lia.
    + rewrite lookup_app_l by lia. fold (root s). apply Ht. lia.
Qed.

Lemma EI_rep F s : EI F s -> exists l1 l2, rep s l1 l2.
Proof.
  intros HE. destruct (ei_tail _ _ HE) as [l2 Hl2].
  assert (forall n, n <= tlen (sl_ s) -> exists l1, length l1 = n /\
     forall i, i < n -> rdt s i = res_opt (l1 !! i)) as Hn.
  { induction n as [|n IH]; intros Hle.
    - exists []. split; [done|lia].
    - destruct IH as (l1 & Hl & Hr); [lia|].
      destruct (ei_tree _ _ HE) as (P & Hot & _); [lia|].
      destruct (ot_rd zero _ _ _ _ _ _ _ n Hot) as [x Hx].
      exists (l1 ++ [x]). split; [rewrite app_length; simpl; lia|].
      intros i Hi. destruct (decide (i = n)) as [->|Hne].
      + rewrite lookup_app_r by lia. rewrite Hl, Nat.sub_diag. exact Hx.
      + rewrite lookup_app_l by lia. apply Hr. lia. }
  destruct (Hn (tlen (sl_ s))) as (l1 & Hl & Hr); [lia|].
  exists l1, l2. split; auto.
Qed.

Lemma rep_unique F s l1 l2 l1' l2' : EI F s -> rep s l1 l2 -> rep s l1' l2' -> l1 = l1' /\ l2 = l2'.
Proof.
  intros HE [A1 A2 A3] [B1 B2 B3]. split; [|congruence].
  apply list_eq. intros i. destruct (decide (i < tlen (sl_ s))) as [Hi|Hi].
  - pose proof (A2 i Hi) as E1. rewrite (B2 i Hi) in E1.
    destruct (l1 !! i), (l1' !! i); simpl in E1; congruence.
  - rewrite !lookup_ge_None_2 by lia. done.
Qed.

(* ---- normalising the editor before the first tree access ---- *)
Definition norm s : st :=
  let t := tr s in
  let t' := mkTr (set_tree (ts t) (match tree (ts t) with PTNil => PNil | q => q end))
                 (if decide (aid t = 0) then S (ctr s) else aid t) (tailLen t) (wtail t) in
  mkSt (hp s) (if decide (aid t = 0) then S (ctr s) else ctr s) t'.

Lemma wnode_norm s : wnode LRoot s = wnode LRoot (norm s).
Proof.
  unfold wnode, norm, bind, load, get_id. simpl.
  destruct (decide (aid (tr s) = 0)) as [E|E]; simpl.
  - destruct (tree (ts (tr s))) as [| |a] eqn:Et; simpl; try reflexivity.
    unfold fetch; simpl. destruct (nodes (hp s) !! a) as [[vs i|ps i]|]; try reflexivity.
    destruct (decide (i = S (ctr s))); simpl; [|reflexivity].
    unfold ret, set_tree. do 3 f_equal. destruct (ts (tr s)); simpl in *; congruence.
  - rewrite decide_False by done. destruct (tree (ts (tr s))) as [| |a] eqn:Et; simpl; try reflexivity.
    unfold fetch; simpl. destruct (nodes (hp s) !! a) as [[vs i|ps i]|]; try reflexivity.
    destruct (decide (i = aid (tr s))); simpl; [|reflexivity].
    unfold ret, set_tree. do 2 f_equal. destruct s as [h c [[] ]]; simpl in *; subst; reflexivity.
Qed.

Lemma norm_Efr s : Efr s (norm s).
Proof.
  split; simpl; auto.
  - destruct (decide (aid (tr s) = 0)); lia.
  - destruct (decide (aid (tr s) = 0)); lia.
Qed.

Lemma evol_Efr L s s' : evol (aid (tr s)) L s s' -> Efr s s'.
Proof.
  intros [E1 E2 E3 E4 E5 E6 E7 E8]. split.
  - lia.
  - done.
  - left. rewrite E7. done.
  - auto.
  - intros b l Hb _. rewrite E5. done.
  - left. unfold sl_. rewrite E7. done.
Qed.

(* The frozen ids exclude the id norm picks. *)
Lemma norm_id F s : EI F s -> aid (tr (norm s)) <> 0 /\ ~ F (aid (tr (norm s))).
Proof.
  intros HE. simpl. destruct (decide (aid (tr s) = 0)) as [E|E].
  - split; [done|]. intros Hf. pose proof (ei_F _ _ HE _ Hf). lia.
  - split; [done|]. apply HE. done.
Qed.

Lemma opath_pres h tid p L a : opath h tid 0 p L 0 (PAddr a) -> pres h p L.
Proof.
  remember 0 as l0 eqn:El. remember (PAddr a) as q eqn:Eq.
  rewrite El at 1. intros Hp. revert El. induction Hp as [p L|a0 ps L l q c Hn Hc Hp IH]; intros; subst.
  - done.
  - cbn [pres]. rewrite Hn. replace (slot (S L) 0) with 0 in Hc.
    + rewrite Hc. auto.
    + unfold slot. rewrite Nat.div_0_l by apply pow16_pos. reflexivity.
Qed.


(* Validity apart from the tree. *)
Record EB (F : nat -> Prop) s : Prop := {
  eb_aid : aid (tr s) <= ctr s;
  eb_F : forall i, F i -> i <= ctr s;
  eb_nF : aid (tr s) <> 0 -> ~ F (aid (tr s));
  eb_tlen : tlen (sl_ s) mod 16 = 0;
  eb_hgt : hgt (sl_ s) = height (tlen (sl_ s));
  eb_tl : tailLen (tr s) = tln (sl_ s);
  eb_t16 : tln (sl_ s) <= 16;
  eb_tail : exists l, arr_prefix (hp s) (tarr (sl_ s)) (tln (sl_ s)) = Ok l;
  eb_wtail : wtail (tr s) = true -> exists b l,
      tarr (sl_ s) = Some b /\ arrs (hp s) !! b = Some l /\ length l = 16 }.

Lemma EI_EB F s : EI F s -> EB F s.
Proof. intros []. split; auto. Qed.

Lemma EB_norm F s : EB F s -> EB F (norm s).
Proof.
  intros [E1 E2 E3 E4 E5 E6 E7 E8 E9]. split; simpl; auto.
  - destruct (decide (aid (tr s) = 0)); lia.
  - intros i Hi. pose proof (E2 _ Hi). destruct (decide (aid (tr s) = 0)); lia.
  - destruct (decide (aid (tr s) = 0)); auto. intros _ Hf. pose proof (E2 _ Hf). lia.
Qed.

Lemma norm_idB F s : EB F s -> aid (tr (norm s)) <> 0 /\ ~ F (aid (tr (norm s))).
Proof.
  intros HE. pose proof (EB_norm F s HE) as HN. simpl.
  destruct (decide (aid (tr s) = 0)) as [E|E]; split; auto.
  - intros Hf. pose proof (eb_F _ _ HE _ Hf). lia.
  - apply HE. done.
Qed.

(* Rebuilding validity after tree operations. *)
Lemma rebuild F s s' P :
  EB F s -> tlen (sl_ s) <> 0 ->
  evol (aid (tr s)) (hgt (sl_ s) - 1) s s' ->
  TI F (aid (tr s)) P (hgt (sl_ s) - 1) s' ->
  pres (hp s') (root s') (hgt (sl_ s) - 1) -> EI F s'.
Proof.
  intros [E1 E2 E3 E4 E5 E6 E7 E8 E9] Hne [V1 V2 V3 V4 V5 V6 V7 V8] (HH & Ha & Hot) Hp.
  unfold sl_ in *. split; unfold sl_; rewrite ?V7, ?V6, ?V5; simpl; auto.
  - intros _. exists P. auto.
  - unfold arr_prefix in *. rewrite V5. done.
Qed.

Lemma evol_rep s s' l1 l2 L :
  evol (aid (tr s)) L s s' -> L = hgt (sl_ s) - 1 ->
  length l1 = tlen (sl_ s) ->
  arr_prefix (hp s) (tarr (sl_ s)) (tln (sl_ s)) = Ok l2 ->
  (forall i, i < tlen (sl_ s) -> rd (hp s') (root s') L i = res_opt (l1 !! i)) ->
  rep s' l1 l2.
Proof.
  intros [V1 V2 V3 V4 V5 V6 V7 V8] -> Hl Ht Hr.
  split; unfold rdt, sl_ in *; rewrite V7; simpl; auto.
  unfold arr_prefix in *. rewrite V5. done.
Qed.

Lemma EI_cap F s : EB F s -> tlen (sl_ s) <> 0 ->
  tlen (sl_ s) <= 16 ^ S (hgt (sl_ s) - 1) /\ 1 <= hgt (sl_ s) - 1.
Proof.
  intros HE Hne. pose proof (height_pos _ Hne). pose proof (height_cap (tlen (sl_ s))).
  rewrite (eb_hgt _ _ HE). replace (S (height (tlen (sl_ s)) - 1)) with (height (tlen (sl_ s))) by lia.
  lia.
Qed.

(* From a valid editor with a non-empty tree to the precondition of tree operations. *)
Lemma norm_TI F s : EI F s -> tlen (sl_ s) <> 0 ->
  exists P, TI F (aid (tr (norm s))) P (hgt (sl_ s) - 1) (norm s) /\ pres (hp s) (root s) (hgt (sl_ s) - 1) /\
    root (norm s) = root s.
Proof.
  intros HE Hne. destruct (ei_tree _ _ HE Hne) as (P & Hot & Hp). exists P.
  assert (root (norm s) = root s) as Er.
  { unfold root in *. simpl. destruct (tree (ts (tr s))) eqn:E; try done.
    destruct (hgt (sl_ s) - 1); simpl in Hp; done. }
  split_and!; auto. split_and!; auto; [apply HE|].
  rewrite Er. simpl hp. simpl aid. destruct (decide (aid (tr s) = 0)) as [E|E]; [|done].
  apply wf_ot. rewrite E in Hot. eapply ot_zero; eauto.
Qed.

(* ---- Set ---- *)
Lemma set_tree_EI F s l1 l2 i x :
  EI F s -> rep s l1 l2 -> i < tlen (sl_ s) ->
  exists s', bind (walk (hgt (sl_ s) - 1) LRoot i) (fun p =>
      bind (wleaf zero p) (fun a => write_leaf a (fun vs => <[i mod 16 := x]> vs))) s = Ok (tt, s') /\
    EI F s' /\ Efr s s' /\ rep s' (<[i := x]> l1) l2 /\ t_len (tr s') = t_len (tr s).
Proof.
  intros HE HR Hi. assert (tlen (sl_ s) <> 0) as Hne by lia.
  pose proof (EI_EB _ _ HE) as HB. destruct (EI_cap F s HB Hne) as [Hcap Hh].
  destruct (norm_TI F s HE Hne) as (P & HT & Hp & Er).
  destruct (norm_id F s HE) as [Ht0 HtF].
  set (L := hgt (sl_ s) - 1) in *.
  destruct (set_tree_spec zero F (aid (tr (norm s))) Ht0 HtF (norm s) P L i x HT)
    as (s' & P' & E & HT' & Ev & Hx & Hrd).
  { apply blk_0_lt. lia. }
  exists s'. split_and!.
  - clearbody L. destruct L as [|L']; [lia|]. rewrite <-E. cbn [walk]. unfold bind. rewrite wnode_norm. done.
  - eapply (rebuild F (norm s) s' P'); auto using EB_norm.
    apply (ev_pres _ _ _ _ Ev). rewrite Er. exact Hp.
  - eapply Efr_trans; [apply HE|apply norm_Efr|]. eapply evol_Efr. exact Ev.
  - destruct HR as [R1 R2 R3].
    eapply (evol_rep (norm s) s' _ _ L); auto.
    + rewrite insert_length. exact R1.
    + intros j Hj. change (tlen (sl_ (norm s))) with (tlen (sl_ s)) in Hj.
      rewrite Hrd by (apply blk_0_lt; lia).
      destruct (decide (j = i)) as [->|Hji].
      * rewrite list_lookup_insert by lia. done.
      * rewrite list_lookup_insert_ne by done. rewrite <-R2 by done. rewrite Er. done.
  - unfold t_len. rewrite (ev_tr _ _ _ _ Ev). done.
Qed.

(* ---- the tail ---- *)
Lemma write_tail_spec F s l1 l2 :
  EI F s -> rep s l1 l2 ->
  exists s', write_tail zero s = Ok (tt, s') /\ EI F s' /\ Efr s s' /\ rep s' l1 l2 /\
    wtail (tr s') = true /\ tlen (sl_ s') = tlen (sl_ s) /\ tln (sl_ s') = tln (sl_ s) /\
    hgt (sl_ s') = hgt (sl_ s) /\ tailLen (tr s') = tailLen (tr s).
Proof.
  intros HE HR. unfold write_tail, bind at 1, get.
  destruct (wtail (tr s)) eqn:Hw.
  - exists s. split_and!; auto using Efr_refl.
  - pose proof (ei_t16 _ _ HE) as H16. destruct HR as [R1 R2 R3].
    pose proof (arr_prefix_len _ _ _ _ R3) as Hl2.
    unfold bind at 1, read_tail. fold (sl_ s). rewrite R3. rewrite decide_False by lia.
    set (arr := l2 ++ replicate (16 - tln (sl_ s)) zero).
    set (s' := mkSt (mkHeap (nodes (hp s)) (<[hnext (hp s) := arr]> (arrs (hp s))) (S (hnext (hp s)))) (ctr s)
       (mkTr (mkSlice (tree (sl_ s)) (hgt (sl_ s)) (tlen (sl_ s)) (Some (hnext (hp s))) (tln (sl_ s)))
             (aid (tr s)) (tln (sl_ s)) true)).
    exists s'. split; [reflexivity|].
    assert (length arr = 16) as Harr by (unfold arr; rewrite app_length, replicate_length; lia).
    assert (arr_prefix (hp s') (Some (hnext (hp s))) (tln (sl_ s)) = Ok l2) as Hpre.
    { simpl. rewrite lookup_insert. rewrite decide_True by lia. unfold arr. rewrite take_app_alt; done. }
    assert (forall p l i, rd (hp s') p l i = rd (hp s) p l i) as Hrd.
    { intros p l. revert p. induction l as [|l IH]; intros p i; destruct p as [| |a]; simpl; auto.
      destruct (nodes (hp s) !! a) as [[]|]; auto. destruct (ptrs !! _); auto. }
    split_and!; auto.
    + destruct HE as [G1 G2 G3 G4 G5 G6 G7 G8 G9 G10 G11 G12]. split; simpl; auto.
      * intros a Ha. simpl in *. rewrite lookup_insert_ne by lia. apply G1. lia.
      * intros Hne. destruct (G9 Hne) as (P & Hot & Hp). exists P. split.
        -- unfold root in *. simpl. apply (ot_frame zero (hp s) (hp s') F F (aid (tr s)) P P); auto.
        -- eapply pres_frame; [|exact Hp]. auto.
      * exists l2. exact Hpre.
      * intros _. exists (hnext (hp s)), arr. rewrite lookup_insert. auto.
    + split; simpl; auto.
      * intros b l Hb _. rewrite lookup_insert_ne; [done|]. intros <-.
        destruct (ei_hw _ _ HE (hnext (hp s))) as [_ E]; [lia|congruence].
      * right. exists (hnext (hp s)). auto.
    + split; auto. intros i Hi. unfold rdt. rewrite Hrd. apply R2. done.
    + simpl. symmetry. apply HE.
Qed.

(* Writing inside a writable tail array. *)
Lemma splice_len (l : list T) j xs : j + length xs <= length l -> length (splice l j xs) = length l.
Proof. intros H. unfold splice. rewrite !app_length, take_length, drop_length. lia. Qed.

Lemma write_arr_spec F s l1 l2 j xs :
  EI F s -> rep s l1 l2 -> wtail (tr s) = true -> j <= tln (sl_ s) -> j + length xs <= 16 ->
  exists s' full, write_arr j xs s = Ok (tt, s') /\ EI F s' /\ Efr s s' /\
    tr s' = tr s /\ ctr s' = ctr s /\ nodes (hp s') = nodes (hp s) /\ hnext (hp s') = hnext (hp s) /\
    length full = 16 /\ arr_prefix (hp s') (tarr (sl_ s)) 16 = Ok (splice full j xs) /\
    take (tln (sl_ s)) full = l2.
Proof.
  intros HE HR Hw Hj Hlen.
  destruct (ei_wtail _ _ HE Hw) as (b & full & Hb & Harr & Hfull).
  destruct HR as [R1 R2 R3].
  set (s' := mkSt (set_arrs (hp s) (<[b := splice full j xs]> (arrs (hp s)))) (ctr s) (tr s)).
  exists s', full. unfold write_arr. fold (sl_ s). rewrite Hb, Harr. rewrite decide_True by lia.
  pose proof (splice_len full j xs ltac:(lia)) as Hsl.
  assert (take (tln (sl_ s)) full = l2) as Hl2.
  { rewrite Hb in R3. simpl in R3. rewrite Harr in R3.
    destruct (decide (tln (sl_ s) <= length full)); congruence. }
  split; [reflexivity|]. split_and!; auto.
  - destruct HE as [G1 G2 G3 G4 G5 G6 G7 G8 G9 G10 G11 G12]. split; simpl; auto.
    + intros a Ha. simpl in *. rewrite lookup_insert_ne; [auto|]. intros ->.
      destruct (G1 a Ha). congruence.
    + intros Hne. destruct (G9 Hne) as (P & Hot & Hp). exists P. split.
      * unfold root in *. apply (ot_frame zero (hp s) (hp s') F F (aid (tr s)) P P); auto.
      * eapply pres_frame; [|exact Hp]. auto.
    + unfold sl_. simpl. fold (sl_ s). rewrite Hb. simpl. rewrite lookup_insert.
      rewrite decide_True by lia. eauto.
    + intros _. exists b, (splice full j xs). unfold sl_ in *. simpl. rewrite lookup_insert.
      split_and!; auto. lia.
  - split; simpl; auto. intros b' l Hb' Hw'. rewrite lookup_insert_ne; [done|]. intros <-.
    unfold sl_ in Hw'. apply Hw'; auto.
  - simpl. rewrite lookup_insert. rewrite decide_True by lia.
    rewrite take_ge by lia. done.
Qed.


Lemma rd_nodes h h' p l i : nodes h = nodes h' -> rd h p l i = rd h' p l i.
Proof.
  intros E. revert p. induction l as [|l IH]; intros p; destruct p as [| |a]; simpl; auto; rewrite E; auto.
  destruct (nodes h' !! a) as [[]|]; auto. destruct (ptrs !! _); auto.
Qed.

Lemma arr_prefix_le h a m n l : arr_prefix h a m = Ok l -> n <= m -> arr_prefix h a n = Ok (take n l).
Proof.
  unfold arr_prefix. destruct a as [b|].
  - destruct (arrs h !! b) as [x|]; [|done]. destruct (decide (m <= length x)); [|done].
    intros [= <-] Hn. rewrite decide_True by lia. rewrite take_take. do 2 f_equal. lia.
  - destruct (decide (m = 0)); [|done]. intros [= <-] Hn. rewrite decide_True by lia. rewrite take_nil. done.
Qed.

Lemma set_tail_spec F s l1 l2 n l' :
  EI F s -> rep s l1 l2 -> n <= 16 -> arr_prefix (hp s) (tarr (sl_ s)) n = Ok l' ->
  exists s', set_tail (tarr (sl_ s)) n s = Ok (tt, s') /\ EI F s' /\ Efr s s' /\ rep s' l1 l' /\
    hp s' = hp s /\ wtail (tr s') = wtail (tr s) /\ tarr (sl_ s') = tarr (sl_ s) /\
    tln (sl_ s') = n /\ tlen (sl_ s') = tlen (sl_ s) /\ tailLen (tr s') = n /\ hgt (sl_ s') = hgt (sl_ s).
Proof.
  intros HE [R1 R2 R3] Hn Hp. eexists. split; [reflexivity|]. split_and!; auto.
  - destruct HE as [G1 G2 G3 G4 G5 G6 G7 G8 G9 G10 G11 G12]. split; simpl; auto. eauto.
  - split; simpl; auto.
  - split; simpl; auto.
Qed.

(* Append within the writable tail: write then extend the length. *)
Lemma tail_extend F s l1 l2 xs :
  EI F s -> rep s l1 l2 -> wtail (tr s) = true -> tln (sl_ s) + length xs <= 16 ->
  exists s', bind (write_arr (tln (sl_ s)) xs) (fun _ =>
               set_tail (tarr (sl_ s)) (tln (sl_ s) + length xs)) s = Ok (tt, s') /\
    EI F s' /\ Efr s s' /\ rep s' l1 (l2 ++ xs) /\ wtail (tr s') = true /\
    tlen (sl_ s') = tlen (sl_ s) /\ tarr (sl_ s') = tarr (sl_ s) /\ tailLen (tr s') = tln (sl_ s) + length xs /\
    tln (sl_ s') = tln (sl_ s) + length xs.
Proof.
  intros HE HR Hw Hlen.
  destruct (write_arr_spec F s l1 l2 (tln (sl_ s)) xs HE HR Hw)
    as (s1 & full & E1 & HE1 & Hf1 & Htr1 & Hc1 & Hn1 & Hx1 & Hfl & Hap & Hl2); [lia|lia|].
  assert (rep s1 l1 l2) as HR1.
  { destruct HR as [R1 R2 R3]. unfold sl_ in *. split; unfold rdt, root, sl_ in *; rewrite ?Htr1; auto.
    - intros i Hi. rewrite <-R2 by done. apply rd_nodes. done.
    - rewrite (arr_prefix_le _ _ 16 (tln (ts (tr s))) _ Hap ltac:(lia)). f_equal.
      unfold splice. rewrite take_app_alt; [done|]. rewrite take_length. lia. }
  assert (tarr (sl_ s1) = tarr (sl_ s) /\ tln (sl_ s1) = tln (sl_ s) /\ tlen (sl_ s1) = tlen (sl_ s)) as (Ea & Eb & Ec).
  { unfold sl_. rewrite Htr1. auto. }
  destruct (set_tail_spec F s1 l1 l2 (tln (sl_ s) + length xs) (l2 ++ xs) HE1 HR1)
    as (s2 & E2 & HE2 & Hf2 & HR2 & Hhp & Hw2 & Hta & Htl & Hte & Hlt & _); [lia| |].
  { rewrite Ea. rewrite (arr_prefix_le _ _ 16 _ _ Hap) by lia. f_equal.
    unfold splice. rewrite app_assoc. rewrite take_app_alt; [rewrite Hl2; done|].
    rewrite app_length, take_length. lia. }
  exists s2. split_and!; auto; try congruence.
  - unfold bind. rewrite E1. rewrite Ea in E2. exact E2.
  - eapply Efr_trans; eauto. apply HE.
Qed.

(* ---- growing the tree ---- *)
Lemma add_levels_spec F tid k : forall s rt L P,
  tid <> 0 -> HW (hp s) -> ot (hp s) F tid P rt L 0 -> pres (hp s) rt L ->
  exists s' rt' P', add_levels k tid rt s = Ok (rt', s') /\ HW (hp s') /\
    ot (hp s') F tid P' rt' (L + k) 0 /\ pres (hp s') rt' (L + k) /\
    (forall i, blk L i = 0 -> rd (hp s') rt' (L + k) i = rd (hp s) rt L i) /\
    (forall a n, nodes (hp s) !! a = Some n -> nodes (hp s') !! a = Some n) /\
    arrs (hp s') = arrs (hp s) /\ ctr s' = ctr s /\ tr s' = tr s /\ hnext (hp s) <= hnext (hp s').
Proof.
  induction k as [|k IH]; intros s rt L P Ht HH Hot Hp; cbn [add_levels].
  - exists s, rt, P. rewrite Nat.add_0_r. split_and!; auto.
  - set (a1 := hnext (hp s)). set (n := INode (rt :: replicate 15 PNil) tid).
    set (h1 := mkHeap (<[a1 := n]> (nodes (hp s))) (arrs (hp s)) (S a1)).
    set (s1 := mkSt h1 (ctr s) (tr s)).
    assert (nodes (hp s) !! a1 = None) as Hfresh by (apply HH; unfold a1; lia).
    set (P' := fun a => if decide (a = a1) then (S L, 0) else P a).
    assert (ot h1 F tid P' rt L 0 /\ forall i, rd h1 rt L i = rd (hp s) rt L i) as [Hot1 Hrd1].
    { apply (alloc_frame zero tid Ht (hp s) F tid P P' rt L 0 n); auto.
      intros a m Hm. unfold P'. rewrite decide_False; [done|]. congruence. }
    assert (pres h1 rt L) as Hp1.
    { eapply pres_frame; [|exact Hp]. intros a ps i Hn. simpl. rewrite lookup_insert_ne; [done|congruence]. }
    assert (ot h1 F tid P' (PAddr a1) (S L) 0) as Hot2.
    { right. split; [done|]. exists a1. split_and!; auto.
      - unfold P'. rewrite decide_True; done.
      - exists (rt :: replicate 15 PNil). simpl. rewrite lookup_insert. split_and!; auto.
        intros j q Hq. destruct j as [|j].
        + simpl in Hq. inversion Hq; subst q. exact Hot1.
        + simpl in Hq. change (PNil :: PNil :: _) with (replicate 15 PNil) in Hq.
          apply lookup_replicate in Hq as [-> _]. apply wf_ot. destruct L; done. }
    assert (pres h1 (PAddr a1) (S L)) as Hp2.
    { cbn [pres]. simpl. rewrite lookup_insert. exact Hp1. }
    destruct (IH s1 (PAddr a1) (S L) P' Ht) as (s' & rt' & P2 & E & A1 & A2 & A3 & A4 & A5 & A6 & A7 & A8 & A9); auto.
    { apply (HW_alloc tid); done. }
    exists s', rt', P2. replace (L + S k) with (S L + k) by lia. split_and!; auto.
    + intros i Hi. rewrite A4.
      * cbn [PersistModel.rd]. simpl hp. simpl nodes. rewrite lookup_insert.
        replace (slot (S L) i) with 0 by (rewrite slot_blk, Hi; done). simpl. apply Hrd1.
      * rewrite blk_S, Hi. done.
    + intros a m Hm. apply A5. simpl. rewrite lookup_insert_ne; [done|congruence].
    + simpl in A9. fold a1. lia.
Qed.

(* The part of the state that tree growth and shrinkage leave alone. *)
Definition same_tail s s' : Prop :=
  tarr (sl_ s') = tarr (sl_ s) /\ tln (sl_ s') = tln (sl_ s) /\ tailLen (tr s') = tailLen (tr s) /\
  wtail (tr s') = wtail (tr s) /\ arrs (hp s') = arrs (hp s).

Lemma set_geom_EI F s q (h n : nat) l1 l2 l1' P :
  EI F s -> rep s l1 l2 -> n mod 16 = 0 -> n <> 0 -> h = height n ->
  ot (hp s) F (aid (tr s)) P q (h - 1) 0 -> pres (hp s) q (h - 1) ->
  length l1' = n -> (forall i, i < n -> rd (hp s) q (h - 1) i = res_opt (l1' !! i)) ->
  exists s', set_geom q h n s = Ok (tt, s') /\ EI F s' /\ Efr s s' /\ rep s' l1' l2 /\
    same_tail s s' /\ tlen (sl_ s') = n /\ hp s' = hp s.
Proof.
  intros HE [R1 R2 R3] Hn Hn0 Hh Hot Hp Hl Hr. eexists. split; [reflexivity|]. split_and!; auto.
  - destruct HE as [G1 G2 G3 G4 G5 G6 G7 G8 G9 G10 G11 G12]. split; simpl; auto.
    + intros _. exists P. auto.
  - split; simpl; auto.
  - split; simpl; auto.
  - split_and!; auto.
Qed.

Lemma grow_spec F s l1 l2 n :
  EI F s -> rep s l1 l2 -> tlen (sl_ s) <> 0 -> tlen (sl_ s) <= n -> n mod 16 = 0 ->
  exists s' pad, grow_tree n s = Ok (tt, s') /\ EI F s' /\ Efr s s' /\ rep s' (l1 ++ pad) l2 /\
    same_tail s s' /\ tlen (sl_ s') = n.
Proof.
  intros HE HR Hne Hle Hn16.
  destruct (ei_tree _ _ HE Hne) as (P & Hot & Hp).
  pose proof (ei_hgt _ _ HE) as Hh. pose proof (height_pos _ Hne) as Hh2.
  pose proof (height_mono _ _ Hle) as Hhm.
  unfold grow_tree, bind at 1, get. fold (sl_ s). rewrite decide_False by lia.
  (* reading any index of a tree is fine *)
  assert (forall h q L P0 tid, ot h F tid P0 q L 0 -> exists pad, length pad = n - tlen (sl_ s) /\
     forall i, i < n - tlen (sl_ s) -> rd h q L (tlen (sl_ s) + i) = res_opt (pad !! i)) as Hpad.
  { intros h q L P0 tid Ho. generalize (n - tlen (sl_ s)) as m. induction m as [|m (pad & Hl & Hr)].
    - exists []. split; [done|lia].
    - destruct (ot_rd zero _ _ _ _ _ _ _ (tlen (sl_ s) + m) Ho) as [x Hx].
      exists (pad ++ [x]). split; [rewrite app_length; simpl; lia|]. intros i Hi.
      destruct (decide (i = m)) as [->|Him].
      + rewrite lookup_app_r by lia. rewrite Hl, Nat.sub_diag. exact Hx.
      + rewrite lookup_app_l by lia. apply Hr. lia. }
  pose proof HR as [R1 R2 R3].
  destruct (decide (height n = hgt (sl_ s))) as [Heq|Hneq].
  - destruct (Hpad _ _ _ _ _ Hot) as (pad & Hpl & Hpr).
    destruct (set_geom_EI F s (tree (sl_ s)) (hgt (sl_ s)) n l1 l2 (l1 ++ pad) P)
      as (s' & E & A1 & A2 & A3 & A4 & A5 & _); auto.
    + lia.
    + rewrite app_length. lia.
    + intros i Hi. destruct (decide (i < tlen (sl_ s))) as [Hlt|Hge].
      * rewrite lookup_app_l by lia. apply R2. done.
      * rewrite lookup_app_r by lia. rewrite R1. rewrite <-Hpr by lia. f_equal. lia.
    + exists s', pad. split_and!; auto.
  - rewrite decide_False by lia.
    set (s1 := mkSt (hp s) (if decide (aid (tr s) = 0) then S (ctr s) else ctr s)
       (mkTr (sl_ s) (if decide (aid (tr s) = 0) then S (ctr s) else aid (tr s)) (tailLen (tr s)) (wtail (tr s)))).
    assert (get_id s = Ok (aid (tr s1), s1)) as Eid.
    { unfold get_id, s1. simpl. destruct (decide (aid (tr s) = 0)); [done|].
      do 2 f_equal. destruct s as [h c [? ? ? ?]]; reflexivity. }
    assert (EI F s1) as HE1.
    { destruct HE as [G1 G2 G3 G4 G5 G6 G7 G8 G9 G10 G11 G12]. split; unfold s1; simpl; auto.
      - destruct (decide (aid (tr s) = 0)); lia.
      - intros i Hi. pose proof (G3 _ Hi). destruct (decide (aid (tr s) = 0)); lia.
      - destruct (decide (aid (tr s) = 0)); auto. intros _ Hf. pose proof (G3 _ Hf). lia.
      - intros _. exists P. split; [|done].
        destruct (decide (aid (tr s) = 0)) as [E0|E0]; [|exact Hot].
        apply wf_ot. rewrite E0 in Hot. eapply ot_zero; eauto. }
    assert (aid (tr s1) <> 0) as Hid0 by (simpl; destruct (decide (aid (tr s) = 0)); done).
    assert (Efr s s1) as Hf1.
    { split; simpl; auto; destruct (decide (aid (tr s) = 0)); lia. }
    destruct (ei_tree _ _ HE1 Hne) as (P1 & Hot1 & _). simpl in Hot1.
    assert (match tree (sl_ s) with PNil => PTNil | q => q end = root s) as Er.
    { unfold root in *. fold (sl_ s) in *. destruct (tree (sl_ s)) eqn:Et; try done.
      destruct (hgt (sl_ s) - 1); simpl in Hp; done. }
    rewrite Er.
    destruct (add_levels_spec F (aid (tr s1)) (height n - hgt (sl_ s)) s1 (root s) (hgt (sl_ s) - 1) P1)
      as (s2 & rt' & P2 & E2 & B1 & B2 & B3 & B4 & B5 & B6 & B7 & B8 & B9); auto.
    { apply HE. }
    replace (hgt (sl_ s) - 1 + (height n - hgt (sl_ s))) with (height n - 1) in * by lia.
    destruct (Hpad _ _ _ _ _ B2) as (pad & Hpl & Hpr).
    assert (forall a, root s = PAddr a -> True) as _ by done.
    set (s3 := mkSt (hp s2) (ctr s2) (with_s (tr s2) (mkSlice rt' (Nat.max (hgt (sl_ s)) (height n)) n
                 (tarr (ts (tr s2))) (tln (ts (tr s2)))))).
    exists s3, pad. split.
    { unfold bind. rewrite Eid. rewrite E2. reflexivity. }
    pose proof (EI_cap F s (EI_EB _ _ HE) Hne) as [Hcap _].
    split_and!.
    + destruct HE1 as [G1 G2 G3 G4 G5 G6 G7 G8 G9 G10 G11 G12].
      split; unfold s3, sl_ in *; simpl; rewrite ?B7, ?B8; auto.
      * lia.
      * intros _. exists P2. split; unfold root; simpl; replace (Nat.max (hgt (ts (tr s))) (height n)) with (height n) by lia; auto.
      * intros. lia.
      * unfold arr_prefix in *. simpl. rewrite B6. done.
      * simpl. rewrite B6. done.
    + eapply Efr_trans; [apply HE|exact Hf1|]. split; unfold s3, sl_; simpl; rewrite ?B7, ?B8; auto.
      intros b l Hb _. rewrite B6. done.
    + unfold s3. split; unfold rdt, root, sl_ in *; simpl; rewrite ?B8; simpl; auto.
      * rewrite app_length. lia.
      * intros i Hi. replace (Nat.max (hgt (ts (tr s))) (height n)) with (height n) by lia.
        destruct (decide (i < tlen (ts (tr s)))) as [Hlt|Hge].
        -- rewrite lookup_app_l by lia. rewrite B4 by (apply blk_0_lt; lia). apply R2. done.
        -- rewrite lookup_app_r by lia. rewrite R1, <-Hpr by lia. f_equal. lia.
      * unfold arr_prefix in *. rewrite B6. exact R3.
    + unfold same_tail, s3, sl_. simpl. rewrite B8. auto.
    + done.
Qed.


Lemma copy_EI F s l1 l2 src total P :
  EB F s -> HW (hp s) -> TI F (aid (tr (norm s))) P (hgt (sl_ s) - 1) (norm s) ->
  length l1 mod 16 = 0 -> length l1 + total = tlen (sl_ s) -> 0 < total -> total <= length src ->
  pres (hp s) (root (norm s)) (hgt (sl_ s) - 1) \/ length l1 = 0 ->
  (forall i, i < length l1 -> rd (hp s) (root (norm s)) (hgt (sl_ s) - 1) i = res_opt (l1 !! i)) ->
  arr_prefix (hp s) (tarr (sl_ s)) (tln (sl_ s)) = Ok l2 ->
  exists s', copy_ zero (hgt (sl_ s) - 1) LRoot (length l1) src total s = Ok (tt, s') /\
    EI F s' /\ Efr s s' /\ rep s' (l1 ++ take total src) l2 /\ same_tail s s' /\
    tlen (sl_ s') = tlen (sl_ s).
Proof.
  intros HB HH HT H16 Hlen Ht0 Hts Hpr Hrd Hta.
  assert (tlen (sl_ s) <> 0) as Hne by lia.
  destruct (EI_cap F s HB Hne) as [Hcap Hh]. destruct (norm_idB F s HB) as [Hi0 HiF].
  set (L := hgt (sl_ s) - 1) in *.
  assert (total mod 16 = 0) as Ht16.
  { replace total with (tlen (sl_ s) - length l1) by lia. apply mod16_sub; auto. apply HB. }
  destruct (copy_spec zero F (aid (tr (norm s))) Hi0 HiF L (norm s) P L LRoot (length l1) src total HT)
    as (s' & P' & E & HT' & Ev & Hx & Hc & Hlp); auto.
  { split; [done|]. apply blk_0_lt. lia. }
  { rewrite Nat.mod_small by lia. lia. }
  exists s'. split_and!.
  - assert (copy_ zero L LRoot (length l1) src total s = copy_ zero L LRoot (length l1) src total (norm s)) as ->; [|exact E].
    clearbody L. destruct L as [|L']; [lia|]. cbn [copy_]. unfold bind at 1. rewrite wnode_norm. done.
  - eapply (rebuild F (norm s) s' P'); auto using EB_norm.
    destruct Hpr as [Hp|Hz].
    + apply (ev_pres _ _ _ _ Ev). exact Hp.
    + destruct Hlp as (a & _ & Hop). rewrite Hz in Hop. eapply opath_pres; eauto.
  - eapply Efr_trans; [exact HH|apply norm_Efr|]. eapply evol_Efr. exact Ev.
  - eapply (evol_rep (norm s) s' _ _ L); auto.
    + rewrite app_length, take_length. change (tlen (sl_ (norm s))) with (tlen (sl_ s)). lia.
    + intros i Hi. change (tlen (sl_ (norm s))) with (tlen (sl_ s)) in Hi.
      rewrite Hc by (apply blk_0_lt; lia).
      destruct (decide (length l1 <= i < length l1 + total)) as [Hin|Hin].
      * rewrite lookup_app_r by lia. rewrite lookup_take by lia. done.
      * rewrite lookup_app_l by lia. rewrite <-Hrd by lia. done.
  - unfold same_tail, sl_. rewrite (ev_tr _ _ _ _ Ev), (ev_arrs _ _ _ _ Ev). simpl. auto.
  - unfold sl_. rewrite (ev_tr _ _ _ _ Ev). done.
Qed.

Lemma same_tail_trans s1 s2 s3 : same_tail s1 s2 -> same_tail s2 s3 -> same_tail s1 s3.
Proof. unfold same_tail. intros (?&?&?&?&?) (?&?&?&?&?). split_and!; congruence. Qed.

Lemma append_tree_spec F s l1 l2 src total :
  EI F s -> rep s l1 l2 -> total mod 16 = 0 -> total <> 0 -> total <= length src ->
  exists s', append_tree zero src total s = Ok (tt, s') /\ EI F s' /\ Efr s s' /\
    rep s' (l1 ++ take total src) l2 /\ same_tail s s' /\ tlen (sl_ s') = tlen (sl_ s) + total.
Proof.
  intros HE HR Ht16 Ht0 Hts. unfold append_tree. rewrite decide_False by lia.
  unfold bind at 1, get. fold (sl_ s). pose proof (rp_len _ _ _ HR) as R1.
  destruct (decide (tlen (sl_ s) = 0)) as [Hz|Hne].
  - (* empty tree *)
    rewrite Hz. simpl Nat.add.
    assert (hgt (sl_ s) = 0) as Hh0 by (rewrite (ei_hgt _ _ HE), Hz; done).
    pose proof (height_pos total Ht0) as Hht.
    set (s1 := mkSt (hp s) (ctr s) (with_s (tr s) (mkSlice PTNil (height total) total (tarr (sl_ s)) (tln (sl_ s))))).
    assert (grow_tree total s = Ok (tt, s1)) as Eg.
    { unfold grow_tree, bind, get. fold (sl_ s). rewrite decide_False by lia.
      rewrite decide_False by lia. rewrite decide_True by lia. done. }
    unfold bind at 1. rewrite Eg. unfold bind, get. fold (sl_ s1).
    assert (l1 = []) as -> by (apply nil_length_inv; lia).
    destruct (copy_EI F s1 [] l2 src total (fun _ => (0, 0))) as (s' & E & A1 & A2 & A3 & A4 & A5); auto.
    + destruct HE as [G1 G2 G3 G4 G5 G6 G7 G8 G9 G10 G11 G12]. split; unfold s1, sl_ in *; simpl; auto.
    + apply HE.
    + split_and!; [apply HE|done|]. apply wf_ot. unfold root. simpl. destruct (height total - 1); done.
    + lia.
    + simpl. lia.
    + apply HR.
    + exists s'. split_and!; auto.
      * assert (Efr s s1) as Hf by (split; simpl; auto).
        eapply Efr_trans; eauto. apply HE.
  - destruct (grow_spec F s l1 l2 (tlen (sl_ s) + total) HE HR Hne) as (s1 & pad & E1 & HE1 & Hf1 & HR1 & Hs1 & Ht1).
    { lia. }
    { apply mod16_add; auto. apply HE. }
    unfold bind at 1. rewrite E1. unfold bind, get. fold (sl_ s1).
    assert (tlen (sl_ s1) <> 0) as Hne1 by lia.
    destruct (norm_TI F s1 HE1 Hne1) as (P & HT & Hp & Er).
    rewrite <-R1.
    destruct (copy_EI F s1 l1 l2 src total P) as (s' & E & A1 & A2 & A3 & A4 & A5); auto using EI_EB.
    + apply HE1.
    + rewrite R1. apply HE.
    + lia.
    + lia.
    + rewrite Er. auto.
    + intros i Hi. rewrite Er. rewrite <-(lookup_app_l l1 pad) by lia. apply HR1. lia.
    + apply HR1.
    + exists s'. split_and!; auto.
      * eapply Efr_trans; eauto. apply HE.
      * eapply same_tail_trans; eauto.
      * lia.
Qed.

(* ---- Set ---- *)
Lemma set_spec F s l1 l2 zi x :
  EI F s -> rep s l1 l2 ->
  if decide (zi < 0 \/ Z.of_nat (length (l1 ++ l2)) <= zi)%Z then set_ zero zi x s = Crash
  else exists s' l1' l2', set_ zero zi x s = Ok (tt, s') /\ EI F s' /\ Efr s s' /\ rep s' l1' l2' /\
         l1' ++ l2' = <[Z.to_nat zi := x]> (l1 ++ l2).
Proof.
  intros HE HR. pose proof HR as [R1 R2 R3]. pose proof (arr_prefix_len _ _ _ _ R3) as Hl2.
  assert (t_len (tr s) = length (l1 ++ l2)) as Hlen.
  { unfold t_len. rewrite (ei_tl _ _ HE), app_length. unfold sl_ in *. lia. }
  destruct (decide (zi < 0 \/ Z.of_nat (length (l1 ++ l2)) <= zi)%Z) as [Hbad|Hok].
  { unfold set_, bind, get. rewrite Hlen, decide_True; done. }
  unfold set_, bind at 1, get. rewrite Hlen. rewrite decide_False by done.
  set (i := Z.to_nat zi) in *. assert (i < length (l1 ++ l2)) as Hi by lia. clearbody i.
  rewrite app_length in Hi. fold (sl_ s).
  destruct (decide (tlen (sl_ s) <= i)) as [Hge|Hlt].
  - destruct (write_tail_spec F s l1 l2 HE HR) as (s1 & E1 & HE1 & Hf1 & HR1 & Hw1 & Ht1 & Hn1 & Hh1 & _).
    unfold bind at 1. rewrite E1. unfold bind at 1, get. fold (sl_ s1).
    assert (i mod 16 = i - tlen (sl_ s)) as Hm.
    { apply mod16_tail; auto; [apply HE|]. pose proof (ei_t16 _ _ HE). lia. }
    rewrite Hm. rewrite decide_True by lia.
    destruct (write_arr_spec F s1 l1 l2 (i - tlen (sl_ s)) [x] HE1 HR1 Hw1)
      as (s2 & full & E2 & HE2 & Hf2 & Htr2 & Hc2 & Hn2 & Hx2 & Hfl & Hap & Hfu); [lia| |].
    { simpl. pose proof (ei_t16 _ _ HE). lia. }
    exists s2, l1, (<[i - tlen (sl_ s) := x]> l2). split_and!; auto.
    + eapply Efr_trans; eauto. apply HE.
    + destruct HR1 as [Q1 Q2 Q3]. unfold sl_ in *. split; unfold rdt, root, sl_ in *; rewrite ?Htr2; auto.
      * intros j Hj. rewrite <-Q2 by done. apply rd_nodes. done.
      * pose proof (ei_t16 _ _ HE1) as H16. unfold sl_ in H16.
        rewrite (arr_prefix_le _ _ 16 (tln (ts (tr s1))) _ Hap ltac:(lia)). f_equal.
        rewrite <-Hfu. apply list_eq. intros j. unfold splice.
        destruct (decide (j < tln (ts (tr s1)))) as [Hj|Hj].
        -- rewrite lookup_take by done.
           destruct (decide (j = i - tlen (ts (tr s)))) as [->|Hne].
           ++ rewrite list_lookup_insert by (rewrite take_length; lia).
              rewrite lookup_app_r by (rewrite take_length; lia).
              rewrite take_length. replace (i - tlen (ts (tr s)) - min (i - tlen (ts (tr s))) (length full)) with 0 by lia.
              done.
           ++ rewrite list_lookup_insert_ne by done. rewrite lookup_take by done.
              destruct (decide (j < i - tlen (ts (tr s)))) as [Hj2|Hj2].
              ** rewrite lookup_app_l by (rewrite take_length; lia). rewrite lookup_take by done. done.
              ** rewrite lookup_app_r by (rewrite take_length; lia). rewrite take_length.
                 rewrite lookup_app_r by (simpl; lia). rewrite lookup_drop. f_equal. simpl. lia.
        -- rewrite !lookup_ge_None_2; [done| |rewrite take_length; lia].
           rewrite insert_length, take_length. lia.
    + rewrite insert_app_r_alt by lia. do 2 f_equal. lia.
  - destruct (set_tree_EI F s l1 l2 i x HE HR) as (s1 & E1 & HE1 & Hf1 & HR1 & _); [lia|].
    exists s1, (<[i:=x]> l1), l2. split_and!; auto.
    rewrite insert_app_l by lia. done.
Qed.

(* ---- Append ---- *)
Lemma frag_spec F s l1 l2 src :
  EI F s -> rep s l1 l2 -> tln (sl_ s) + length src <= 16 ->
  exists s', (match src with
    | [] => ret tt
    | _ => bind (write_tail zero) (fun _ => bind get (fun s =>
             let len := tln (ts (tr s)) in
             bind (write_arr len src) (fun _ => set_tail (tarr (ts (tr s))) (len + length src))))
    end) s = Ok (tt, s') /\ EI F s' /\ Efr s s' /\ rep s' l1 (l2 ++ src).
Proof.
  intros HE HR Hlen. destruct src as [|x src].
  - exists s. rewrite app_nil_r. split_and!; auto using Efr_refl.
  - destruct (write_tail_spec F s l1 l2 HE HR) as (s1 & E1 & HE1 & Hf1 & HR1 & Hw1 & Ht1 & Hn1 & Hh1 & _).
    unfold bind at 1. rewrite E1. unfold bind at 1, get. fold (sl_ s1). cbv zeta.
    destruct (tail_extend F s1 l1 l2 (x :: src) HE1 HR1 Hw1) as (s2 & E2 & HE2 & Hf2 & HR2 & _); [lia|].
    exists s2. split_and!; auto. eapply Efr_trans; eauto. apply HE.
Qed.

Lemma append_rest_spec F s l1 src :
  EI F s -> rep s l1 [] ->
  exists s' l1' l2', append_rest zero src s = Ok (tt, s') /\ EI F s' /\ Efr s s' /\ rep s' l1' l2' /\
    l1' ++ l2' = l1 ++ src.
Proof.
  intros HE HR. unfold append_rest.
  pose proof (arr_prefix_len _ _ _ _ (rp_tail _ _ _ HR)) as Htl. simpl in Htl.
  pose proof (Nat.div_mod (length src) 16 ltac:(lia)) as Hdm.
  pose proof (Nat.mod_upper_bound (length src) 16 ltac:(lia)) as Hmb.
  set (n := length src / 16 * 16).
  destruct (decide (16 <= length src)) as [Hge|Hlt].
  - destruct (append_tree_spec F s l1 [] src n HE HR) as (s1 & E1 & HE1 & Hf1 & HR1 & Hs1 & Ht1).
    + unfold n. apply Nat.mod_mul. lia.
    + unfold n. lia.
    + unfold n. lia.
    + unfold bind at 1. rewrite E1. destruct Hs1 as (Hs1 & Hs2 & _).
      destruct (frag_spec F s1 (l1 ++ take n src) [] (drop n src) HE1 HR1) as (s2 & E2 & HE2 & Hf2 & HR2).
      { rewrite drop_length. unfold n. lia. }
      exists s2, (l1 ++ take n src), ([] ++ drop n src). split_and!; auto.
      * eapply Efr_trans; eauto. apply HE.
      * rewrite app_nil_l, <-app_assoc, take_drop. done.
  - destruct (frag_spec F s l1 [] src HE HR) as (s2 & E2 & HE2 & Hf2 & HR2); [lia|].
    exists s2, l1, ([] ++ src). split_and!; auto.
Qed.

Lemma append_spec F s l1 l2 src :
  EI F s -> rep s l1 l2 ->
  exists s' l1' l2', append_ zero src s = Ok (tt, s') /\ EI F s' /\ Efr s s' /\ rep s' l1' l2' /\
    l1' ++ l2' = (l1 ++ l2) ++ src.
Proof.
  intros HE HR. unfold append_. destruct src as [|x0 src0] eqn:Esrc.
  { exists s, l1, l2. rewrite app_nil_r. split_and!; auto using Efr_refl. }
  rewrite <-Esrc. assert (src <> []) as Hnn by congruence. clear Esrc x0 src0.
  unfold bind at 1, get. fold (sl_ s).
  pose proof (arr_prefix_len _ _ _ _ (rp_tail _ _ _ HR)) as Htl. pose proof (ei_t16 _ _ HE) as H16.
  destruct (decide (0 < tln (sl_ s))) as [Hpos|Hzero].
  - destruct (write_tail_spec F s l1 l2 HE HR) as (s1 & E1 & HE1 & Hf1 & HR1 & Hw1 & Ht1 & Hn1 & Hh1 & _).
    unfold bind at 1. rewrite E1. unfold bind at 1, get. fold (sl_ s1).
    set (len := tln (sl_ s1)). set (n := Nat.min (16 - len) (length src)).
    destruct (tail_extend F s1 l1 l2 (take n src) HE1 HR1 Hw1)
      as (s2 & E2 & HE2 & Hf2 & HR2 & Hw2 & Ht2 & Ha2 & Hl2 & Hn2).
    { rewrite take_length. unfold n. fold len. lia. }
    fold len in E2. rewrite take_length in E2.
    replace (len + Nat.min n (length src)) with (len + n) in E2 by (unfold n; lia).
    unfold bind in E2.
    destruct (write_arr len (take n src) s1) as [[u s1']|] eqn:Ewa; [|done].
    unfold bind at 1. rewrite Ewa. unfold bind at 1. rewrite E2.
    assert (Efr s s2) as Hf by (eapply Efr_trans; eauto; apply HE).
    destruct (drop n src) as [|y src'] eqn:Edrop.
    + exists s2, l1, (l2 ++ take n src). split_and!; auto.
      rewrite <-(take_drop n src) at 2. rewrite Edrop, app_nil_r. rewrite app_assoc. done.
    + assert (len + n = 16) as Hfull.
      { assert (length (drop n src) <> 0) as Hd by (rewrite Edrop; done).
        rewrite drop_length in Hd. unfold n in *. unfold len in *. lia. }
      pose proof (rp_tail _ _ _ HR2) as Hpre. rewrite Hn2 in Hpre.
      rewrite take_length in Hpre. fold len in Hpre.
      replace (len + Nat.min n (length src)) with 16 in Hpre by (unfold n in *; lia).
      pose proof (arr_prefix_len _ _ _ _ Hpre) as Hlp.
      unfold bind at 1, read_tail. fold (sl_ s2). rewrite Hpre.
      destruct (append_tree_spec F s2 l1 (l2 ++ take n src) (l2 ++ take n src) 16 HE2 HR2)
        as (s3 & E3 & HE3 & Hf3 & HR3 & Hs3 & Ht3); [done|lia|lia|].
      unfold bind at 1. rewrite E3. unfold bind at 1, get. fold (sl_ s3).
      destruct (set_tail_spec F s3 (l1 ++ take 16 (l2 ++ take n src)) (l2 ++ take n src) 0 []
                  HE3 HR3) as (s4 & E4 & HE4 & Hf4 & HR4 & _); [lia| |].
      { pose proof (rp_tail _ _ _ HR3) as Hp3.
        rewrite (arr_prefix_le _ _ _ 0 _ Hp3) by lia. done. }
      unfold bind at 1. rewrite E4.
      destruct (append_rest_spec F s4 (l1 ++ take 16 (l2 ++ take n src)) (y :: src') HE4 HR4)
        as (s5 & l1' & l2' & E5 & HE5 & Hf5 & HR5 & Heq).
      exists s5, l1', l2'. split_and!; auto.
      * eapply Efr_trans; [apply HE|exact Hf|]. eapply Efr_trans; [apply HE2|exact Hf3|].
        eapply Efr_trans; [apply HE3|exact Hf4|exact Hf5].
      * rewrite Heq. rewrite take_ge by lia. rewrite <-Edrop. rewrite <-!app_assoc. rewrite take_drop. done.
  - assert (l2 = []) as -> by (apply nil_length_inv; lia).
    destruct (append_rest_spec F s l1 src HE HR) as (s1 & l1' & l2' & E1 & HE1 & Hf1 & HR1 & Heq).
    exists s1, l1', l2'. rewrite app_nil_r. split_and!; auto.
Qed.


(* ---- shrinking the tree ---- *)
Lemma drop_levels_spec F tid P s k : forall q L,
  ot (hp s) F tid P q (L + k) 0 -> pres (hp s) q (L + k) ->
  exists q', drop_levels k q s = Ok (q', s) /\ ot (hp s) F tid P q' L 0 /\ pres (hp s) q' L /\
    forall i, blk L i = 0 -> rd (hp s) q' L i = rd (hp s) q (L + k) i.
Proof.
  induction k as [|k IH]; intros q L Hot Hp.
  - rewrite Nat.add_0_r in *. exists q. split_and!; auto.
  - replace (L + S k) with (S (L + k)) in * by lia.
    destruct q as [| |a]; try done. cbn [pres] in Hp.
    destruct (nodes (hp s) !! a) as [[|ps i0]|] eqn:Hn; try done.
    destruct (ps !! 0) as [c|] eqn:Hc; [|done].
    assert (ot (hp s) F tid P c (L + k) 0) as Hotc.
    { destruct Hot as [(ps1 & i1 & Hn1 & _ & _ & Hcs)|(_ & a1 & Ha1 & _ & ps1 & Hn1 & _ & Hcs)].
      - rewrite Hn in Hn1. inversion Hn1; subst. apply wf_ot. eauto.
      - inversion Ha1; subst a1. rewrite Hn in Hn1. inversion Hn1; subst. apply (Hcs 0). done. }
    assert (exists b, c = PAddr b) as [b ->].
    { destruct (L + k), c; simpl in Hp; try done; eauto. }
    destruct (IH (PAddr b) L Hotc Hp) as (q' & E & A1 & A2 & A3).
    exists q'. split_and!; auto.
    + cbn [drop_levels]. unfold bind, fetch. rewrite Hn, Hc. exact E.
    + intros i Hi. rewrite A3 by done. cbn [PersistModel.rd]. rewrite Hn.
      replace (slot (S (L + k)) i) with 0; [rewrite Hc; done|].
      rewrite slot_blk. replace (blk (L + k) i) with 0; [done|].
      assert (blk L 0 = 0) as H0 by (apply blk_0_lt; pose proof (pow16_pos (S L)); lia).
      rewrite (blk_ge L (L + k) i 0) by (lia || congruence).
      symmetry. apply blk_0_lt. pose proof (pow16_pos (S (L + k))). lia.
Qed.

Lemma shrink_spec F s l1 l2 n :
  EI F s -> rep s l1 l2 -> n < tlen (sl_ s) -> n mod 16 = 0 ->
  exists s', shrink_tree n s = Ok (tt, s') /\ EI F s' /\ Efr s s' /\ rep s' (take n l1) l2 /\
    same_tail s s' /\ hp s' = hp s /\ tlen (sl_ s') = n.
Proof.
  intros HE HR Hlt Hn16. assert (tlen (sl_ s) <> 0) as Hne by lia.
  destruct (ei_tree _ _ HE Hne) as (P & Hot & Hp).
  pose proof (ei_hgt _ _ HE) as Hh. pose proof (height_mono n (tlen (sl_ s)) ltac:(lia)) as Hhm.
  pose proof HR as [R1 R2 R3].
  unfold shrink_tree, bind at 1, get. fold (sl_ s).
  assert (length (take n l1) = n) as Hlt1 by (rewrite take_length; lia).
  destruct (decide (n = 0)) as [->|Hn0].
  - pose proof (height_pos _ Hne). rewrite decide_False by (rewrite Hh; simpl; lia).
    rewrite decide_True by done. eexists. split; [reflexivity|]. split_and!; auto.
    + destruct HE as [G1 G2 G3 G4 G5 G6 G7 G8 G9 G10 G11 G12]. split; simpl; auto.
      * intros E. done.
    + split; simpl; auto.
    + split; simpl; auto.
    + split_and!; auto.
  - pose proof (height_pos _ Hn0) as Hhp.
    destruct (decide (height n = hgt (sl_ s))) as [Heq|Hneq].
    + destruct (set_geom_EI F s (tree (sl_ s)) (hgt (sl_ s)) n l1 l2 (take n l1) P)
        as (s' & E & A1 & A2 & A3 & A4 & A5 & A6); auto.
      * intros i Hi. rewrite lookup_take by done. apply R2. lia.
      * exists s'. split_and!; auto.
    + rewrite decide_False by lia.
      replace (hgt (sl_ s) - 1) with ((height n - 1) + (hgt (sl_ s) - height n)) in Hot, Hp by lia.
      destruct (drop_levels_spec F _ P s _ _ _ Hot Hp) as (q' & E & A1 & A2 & A3).
      unfold bind. unfold root in E. fold (sl_ s) in E. rewrite E.
      replace (Nat.min (hgt (sl_ s)) (height n)) with (height n) by lia.
      destruct (set_geom_EI F s q' (height n) n l1 l2 (take n l1) P)
        as (s' & E' & B1 & B2 & B3 & B4 & B5 & B6); auto.
      * intros i Hi. rewrite lookup_take by done. rewrite <-R2 by lia. rewrite A3.
        -- unfold rdt. f_equal. lia.
        -- apply blk_0_lt. pose proof (height_cap n).
           replace (S (height n - 1)) with (height n) by lia. lia.
      * exists s'. split_and!; auto.
Qed.

Lemma find_leaf_spec h F p l n : wf h F p l ->
  exists o, find_leaf h p l n = Ok o /\ (forall vs, o = Some vs -> length vs = 16) /\
    forall i, blk 0 i = blk 0 n ->
      rd h p l i = res_opt (default (replicate 16 zero) o !! (i mod 16)).
Proof.
  revert p. induction l as [|l IH]; intros p Hwf; destruct p as [| |a]; try done; cbn [find_leaf PersistModel.rd wf] in *.
  - exists None. split_and!; auto; [done|]. intros i _. change (default (replicate 16 zero) None) with (replicate 16 zero).
    rewrite lookup_replicate_2; [done|]. apply Nat.mod_upper_bound. lia.
  - destruct Hwf as (vs & i0 & Hn & Hl & _). rewrite Hn. exists (Some vs). split_and!; auto.
    intros vs' [= <-]. done.
  - exists None. split_and!; auto; [done|]. intros i _. change (default (replicate 16 zero) None) with (replicate 16 zero).
    rewrite lookup_replicate_2; [done|]. apply Nat.mod_upper_bound. lia.
  - destruct Hwf as (ps & i0 & Hn & Hl & _ & Hc). rewrite Hn.
    destruct (lookup_lt_is_Some_2 ps (slot (S l) n)) as [q Hq].
    { rewrite Hl. apply slot_lt. }
    rewrite Hq. destruct (IH q) as (o & E & A1 & A2); [eauto|]. exists o. split_and!; auto.
    intros i Hi. rewrite (blk_slot l i n) by (apply (blk_ge 0); [lia|done]). rewrite Hq. auto.
Qed.

Lemma bind_ok {A B} (m : M A) (f : A -> M B) s a s' : m s = Ok (a, s') -> bind m f s = f a s'.
Proof. intros E. unfold bind. rewrite E. done. Qed.

(* ---- Resize ---- *)
Definition agree (l l' : list T) : Prop :=
  forall i x, l !! i = Some x -> i < length l' -> l' !! i = Some x.

Lemma resize_spec F s l1 l2 n :
  EI F s -> rep s l1 l2 ->
  exists s' l1' l2', resize zero n s = Ok (tt, s') /\ EI F s' /\ Efr s s' /\ rep s' l1' l2' /\
    length (l1' ++ l2') = n /\ agree (l1 ++ l2) (l1' ++ l2').
Proof.
  intros HE HR. pose proof HR as [R1 R2 R3]. pose proof (arr_prefix_len _ _ _ _ R3) as Hl2.
  pose proof (ei_t16 _ _ HE) as H16.
  pose proof (Nat.div_mod n 16 ltac:(lia)) as Hdm.
  pose proof (Nat.mod_upper_bound n 16 ltac:(lia)) as Hmb.
  assert (t_len (tr s) = length (l1 ++ l2)) as Hlen.
  { unfold t_len. rewrite (ei_tl _ _ HE), app_length. unfold sl_ in *. lia. }
  rewrite app_length in Hlen.
  unfold resize. unfold bind at 1. change (@get T s) with (Ok (s, s)). cbv beta zeta.
  set (nt := n / 16 * 16). set (tl := n mod 16) in *.
  assert (nt mod 16 = 0) as Hnt16 by (unfold nt; apply Nat.mod_mul; lia).
  assert (n = nt + tl) as Hn by (unfold nt; lia).
  pose proof (ei_tlen _ _ HE) as Ht16.
  assert (nt mod 16 = 0 -> tlen (sl_ s) mod 16 = 0 ->
     (nt < tlen (sl_ s) -> nt + 16 <= tlen (sl_ s)) /\ (tlen (sl_ s) < nt -> tlen (sl_ s) + 16 <= nt)) as Hgap.
  { intros A B. pose proof (Nat.div_mod nt 16 ltac:(lia)). pose proof (Nat.div_mod (tlen (sl_ s)) 16 ltac:(lia)). lia. }
  destruct (Hgap Hnt16 Ht16) as [Hg1 Hg2]. clear Hgap.
  (* the final assertion *)
  assert (forall s' l1' l2', EI F s' -> rep s' l1' l2' -> length (l1' ++ l2') = n ->
     bind get (fun s' => assert_ (bool_decide (n = t_len (tr s')))) s' = Ok (tt, s')) as Hfin.
  { intros s' l1' l2' HE' [Q1 Q2 Q3] Hl'. unfold bind, get.
    pose proof (arr_prefix_len _ _ _ _ Q3) as Hl2'.
    rewrite bool_decide_true; [done|]. unfold t_len. rewrite (ei_tl _ _ HE').
    rewrite app_length in Hl'. unfold sl_ in *. lia. }
  (* the last step: shorten or lengthen the tail *)
  destruct (decide (t_len (tr s) < n)) as [Hgrow|Hngrow].
  - destruct (write_tail_spec F s l1 l2 HE HR) as (s1 & E1 & HE1 & Hf1 & HR1 & Hw1 & Ht1 & Hn1 & Hh1 & _).
    destruct (ei_wtail _ _ HE1 Hw1) as (b & full & Hb & Harr & Hfl).
    assert (arr_prefix (hp s1) (tarr (sl_ s1)) 16 = Ok full) as Hpf.
    { rewrite Hb. simpl. rewrite Harr, decide_True by lia. rewrite take_ge by lia. done. }
    assert (take (tln (sl_ s)) full = l2) as Hfl2.
    { pose proof (rp_tail _ _ _ HR1) as Q. rewrite Hn1 in Q.
      rewrite (arr_prefix_le _ _ 16 (tln (sl_ s)) _ Hpf) in Q by lia. congruence. }
    fold (sl_ s).
    destruct (decide (nt <> tlen (sl_ s))) as [Hnt|Hnt].
    + destruct (append_tree_spec F s1 l1 l2 full 16 HE1 HR1) as (s2 & E2 & HE2 & Hf2 & HR2 & Hs2 & Ht2); [done|lia|lia|].
      destruct (grow_spec F s2 (l1 ++ take 16 full) l2 nt HE2 HR2) as (s3 & pad & E3 & HE3 & Hf3 & HR3 & Hs3 & Ht3); [lia|lia|done|].
      destruct (same_tail_trans _ _ _ Hs2 Hs3) as (Sa & Sb & Sc & Sd & Se).
      assert (wtail (tr s3) = true) as Hw3 by congruence.
      destruct (ei_wtail _ _ HE3 Hw3) as (b3 & full3 & Hb3 & Harr3 & Hfl3).
      destruct (set_tail_spec F s3 ((l1 ++ take 16 full) ++ pad) l2 tl (take tl full3) HE3 HR3)
        as (s4 & E4 & HE4 & Hf4 & HR4 & _ & _ & _ & Htl4 & Hte4 & _); [lia| |].
      { rewrite Hb3. simpl. rewrite Harr3, decide_True by lia. done. }
      exists s4, ((l1 ++ take 16 full) ++ pad), (take tl full3).
      assert (length (((l1 ++ take 16 full) ++ pad) ++ take tl full3) = n) as Hlen4.
      { pose proof (rp_len _ _ _ HR4) as Q. rewrite app_length, Q. rewrite take_length. lia. }
      split_and!; auto.
      * erewrite bind_ok; [eapply Hfin; eauto|].
        rewrite (bind_ok _ _ _ _ _ E1).
        assert (read_tail 16 s1 = Ok (full, s1)) as Ert by (unfold read_tail; fold (sl_ s1); rewrite Hpf; done).
        assert (bind (read_tail 16) (fun full0 => bind (append_tree zero full0 16) (fun _ => grow_tree nt)) s1
                = Ok (tt, s3)) as E13.
        { rewrite (bind_ok _ _ _ _ _ Ert), (bind_ok _ _ _ _ _ E2). exact E3. }
        rewrite (bind_ok _ _ _ _ _ E13). exact E4.
      * eapply Efr_trans; [apply HE|exact Hf1|]. eapply Efr_trans; [apply HE1|exact Hf2|].
        eapply Efr_trans; [apply HE2|exact Hf3|exact Hf4].
      * intros i x Hx _. rewrite (take_ge full 16) by lia.
        rewrite <-Hfl2 in Hx. rewrite <-!app_assoc.
        destruct (decide (i < length l1)) as [Hi|Hi].
        -- rewrite lookup_app_l in Hx by done. rewrite lookup_app_l by done. done.
        -- rewrite lookup_app_r in Hx by lia. rewrite lookup_app_r by lia.
           apply lookup_take_Some in Hx as [Hx Hx2].
           rewrite lookup_app_l; [done|]. eapply lookup_lt_Some; eauto.
    + assert (nt = tlen (sl_ s)) as Hnte by lia.
      destruct (set_tail_spec F s1 l1 l2 tl (take tl full) HE1 HR1)
        as (s4 & E4 & HE4 & Hf4 & HR4 & _); [lia| |].
      { apply (arr_prefix_le _ _ 16); [done|lia]. }
      exists s4, l1, (take tl full).
      assert (length (l1 ++ take tl full) = n) as Hlen4.
      { rewrite app_length, take_length. lia. }
      split_and!; auto.
      * erewrite bind_ok; [eapply Hfin; eauto|].
        rewrite (bind_ok _ _ _ _ _ E1). exact E4.
      * eapply Efr_trans; eauto. apply HE.
      * intros i x Hx Hi'. rewrite <-Hfl2 in Hx.
        destruct (decide (i < length l1)) as [Hi|Hi].
        -- rewrite lookup_app_l in Hx by done. rewrite lookup_app_l by done. done.
        -- rewrite lookup_app_r in Hx by lia. rewrite lookup_app_r by lia.
           apply lookup_take_Some in Hx as [Hx Hx2]. rewrite lookup_take by lia. done.
  - destruct (decide (n < t_len (tr s))) as [Hshr|Heqn].
    + fold (sl_ s). destruct (decide (nt <> tlen (sl_ s))) as [Hnt|Hnt].
      * assert (nt < tlen (sl_ s)) as Hntlt by lia.
        destruct (write_tail_spec F s l1 l2 HE HR) as (s1 & E1 & HE1 & Hf1 & HR1 & Hw1 & Ht1 & Hn1 & Hh1 & _).
        assert (tlen (sl_ s1) <> 0) as Hne1 by lia.
        destruct (ei_tree _ _ HE1 Hne1) as (P & Hot & Hp).
        assert (wf (hp s1) (fun _ => True) (root s1) (hgt (sl_ s1) - 1)) as Hwf.
        { apply (ot_freeze zero (hp s1) F (fun _ => True) _ _ _ _ _ (fun _ _ => I) I Hot). }
        destruct (find_leaf_spec _ _ _ _ nt Hwf) as (o & Ef & Ho1 & Ho2).
        set (vs := default (replicate 16 zero) o) in *.
        assert (length vs = 16) as Hvs.
        { unfold vs. destruct o; [apply Ho1; done|reflexivity]. }
        assert (take tl vs = take tl (drop nt l1)) as Hvl.
        { apply list_eq. intros i. destruct (decide (i < tl)) as [Hi|Hi].
          - rewrite !lookup_take by done. rewrite lookup_drop.
            pose proof (rp_tree _ _ _ HR1 (nt + i) ltac:(lia)) as Q. unfold rdt in Q.
            assert ((nt + i) mod 16 = i) as Hmi.
            { rewrite <-Nat.add_mod_idemp_l, Hnt16, Nat.add_0_l, Nat.mod_small by lia. done. }
            rewrite Ho2 in Q.
            + rewrite Hmi in Q. destruct (vs !! i), (l1 !! (nt + i)); simpl in Q; congruence.
            + unfold blk. change (16 ^ 1) with 16. unfold nt. rewrite Nat.div_add_l by lia.
              rewrite Nat.div_mul, (Nat.div_small i 16) by lia. lia.
          - rewrite !lookup_ge_None_2; auto; rewrite take_length; lia. }
        destruct (write_arr_spec F s1 l1 l2 0 (take tl vs) HE1 HR1 Hw1)
          as (s2 & full & E2 & HE2 & Hf2 & Htr2 & Hc2 & Hn2 & Hx2 & Hfl & Hap & Hfu).
        { lia. }
        { rewrite take_length. lia. }
        assert (exists l2x, rep s2 l1 l2x) as [l2x HR2].
        { destruct (ei_tail _ _ HE2) as [l2x Hl2x]. exists l2x.
          destruct HR1 as [Q1 Q2 Q3]. split; auto; unfold rdt, root, sl_ in *; rewrite Htr2; auto.
          intros i Hi. rewrite <-Q2 by done. apply rd_nodes. done. }
        assert (sl_ s2 = sl_ s1) as Esl by (unfold sl_; rewrite Htr2; done).
        destruct (shrink_spec F s2 l1 l2x nt HE2 HR2) as (s3 & E3 & HE3 & Hf3 & HR3 & Hs3 & Hhp3 & Ht3); [rewrite Esl; lia|done|].
        destruct Hs3 as (Sa & Sb & Sc & Sd & Se).
        destruct (set_tail_spec F s3 (take nt l1) l2x tl (take tl vs) HE3 HR3)
          as (s4 & E4 & HE4 & Hf4 & HR4 & _); [lia| |].
        { rewrite Hhp3, Sa, Esl. rewrite (arr_prefix_le _ _ 16 tl _ Hap) by lia. f_equal.
          unfold splice. simpl. rewrite take_app_alt; [done|]. rewrite take_length. lia. }
        exists s4, (take nt l1), (take tl vs).
        assert (length (take nt l1 ++ take tl vs) = n) as Hlen4.
        { rewrite app_length, !take_length. lia. }
        split_and!; auto.
        -- erewrite bind_ok; [eapply Hfin; eauto|].
           assert (bind (write_tail zero) (fun _ => bind get (fun s' =>
             match find_leaf (hp s') (tree (ts (tr s'))) (hgt (ts (tr s')) - 1) nt with
             | Ok None => bind (write_arr 0 (replicate tl zero)) (fun _ => shrink_tree nt)
             | Ok (Some vs) => bind (write_arr 0 (take tl vs)) (fun _ => shrink_tree nt)
             | Crash => crash
             end)) s = Ok (tt, s3)) as Em.
           { rewrite (bind_ok _ _ _ _ _ E1). unfold bind at 1, get. fold (sl_ s1).
             change (tree (sl_ s1)) with (root s1). rewrite Ef. unfold vs in E2.
             destruct o as [vs0|].
             - change (default (replicate 16 zero) (Some vs0)) with vs0 in E2.
               rewrite (bind_ok _ _ _ _ _ E2). exact E3.
             - change (default (replicate 16 zero) None) with (replicate 16 zero) in E2.
               rewrite take_replicate in E2. replace (tl `min` 16) with tl in E2 by lia.
               rewrite (bind_ok _ _ _ _ _ E2). exact E3. }
           rewrite (bind_ok _ _ _ _ _ Em). exact E4.
        -- eapply Efr_trans; [apply HE|exact Hf1|]. eapply Efr_trans; [apply HE1|exact Hf2|].
           eapply Efr_trans; [apply HE2|exact Hf3|exact Hf4].
        -- intros i x Hx Hi. rewrite Hvl.
           destruct (decide (i < nt)) as [Hi2|Hi2].
           ++ rewrite lookup_app_l in Hx by lia. rewrite lookup_app_l by (rewrite take_length; lia).
              rewrite lookup_take by done. done.
           ++ rewrite lookup_app_l in Hx by lia. rewrite lookup_app_r by (rewrite take_length; lia).
              rewrite take_length. rewrite lookup_take by lia. rewrite lookup_drop. rewrite <-Hx. f_equal. lia.
      * assert (nt = tlen (sl_ s)) as Hnte by lia.
        destruct (set_tail_spec F s l1 l2 tl (take tl l2) HE HR)
          as (s4 & E4 & HE4 & Hf4 & HR4 & _); [lia| |].
        { apply (arr_prefix_le _ _ (tln (sl_ s))); [done|lia]. }
        exists s4, l1, (take tl l2).
        assert (length (l1 ++ take tl l2) = n) as Hlen4.
        { rewrite app_length, take_length. lia. }
        split_and!; auto.
        -- erewrite bind_ok; [eapply Hfin; eauto|]. exact E4.
        -- intros i x Hx Hi'.
           destruct (decide (i < length l1)) as [Hi|Hi].
           ++ rewrite lookup_app_l in Hx by done. rewrite lookup_app_l by done. done.
           ++ rewrite lookup_app_r in Hx by lia. rewrite lookup_app_r by lia. rewrite lookup_take by lia. done.
    + exists s, l1, l2. assert (length (l1 ++ l2) = n) as Hl by (rewrite app_length; lia).
      split_and!; auto using Efr_refl.
      * erewrite bind_ok; [eapply Hfin; eauto|]. done.
      * intros i x Hx _. done.
Qed.

(* ---- Persist ---- *)
Lemma persist_spec F (F' : nat -> Prop) s l1 l2 :
  EI F s -> rep s l1 l2 ->
  (forall i, F i -> F' i) -> (aid (tr s) <> 0 -> F' (aid (tr s))) -> (forall i, F' i -> i <= ctr s) ->
  exists sl s', persist s = Ok (sl, s') /\ EI F' s' /\ rep s' l1 l2 /\
    EI F' (mkSt (hp s') (ctr s') (transient_of sl)) /\ rep (mkSt (hp s') (ctr s') (transient_of sl)) l1 l2 /\
    ctr s' = ctr s /\ aid (tr s') = 0 /\ wtail (tr s') = wtail (tr s) /\ tarr (sl_ s') = tarr (sl_ s) /\
    nodes (hp s') = nodes (hp s) /\ hnext (hp s) <= hnext (hp s') /\
    (forall b l, arrs (hp s) !! b = Some l -> arrs (hp s') !! b = Some l) /\
    (wtail (tr s) = true -> exists b, tarr sl = Some b /\ hnext (hp s) <= b) /\
    (wtail (tr s) = false -> tarr sl = tarr (sl_ s)).
Proof.
  intros HE HR HFF HFa HFc. pose proof HR as [R1 R2 R3].
  pose proof (arr_prefix_len _ _ _ _ R3) as Hl2.
  pose proof HE as [G1 G2 G3 G4 G5 G6 G7 G8 G9 G10 G11 G12].
  assert (forall i, tlen (sl_ s) <> 0 -> exists P, ot (hp s) F' i P (root s) (hgt (sl_ s) - 1) 0 /\
     pres (hp s) (root s) (hgt (sl_ s) - 1)) as Hfz.
  { intros i Hne. destruct (G9 Hne) as (P & Hot & Hp). exists P. split; [|done]. apply wf_ot.
    destruct (decide (aid (tr s) = 0)) as [E|E].
    - rewrite E in Hot. apply (wf_F zero (hp s) F F'); [exact HFF|]. eapply ot_zero. exact Hot.
    - eapply (ot_freeze zero (hp s) F F'); eauto. }
  unfold persist, bind at 1, get. unfold bind at 1, upd_tr.
  destruct (wtail (tr s)) eqn:Hw.
  - set (h' := mkHeap (nodes (hp s)) (<[hnext (hp s) := l2]> (arrs (hp s))) (S (hnext (hp s)))).
    set (s' := mkSt h' (ctr s) (mkTr (ts (tr s)) 0 (tailLen (tr s)) true)).
    set (sl := mkSlice (tree (sl_ s)) (hgt (sl_ s)) (tlen (sl_ s)) (Some (hnext (hp s))) (tln (sl_ s))).
    assert (arrs (hp s) !! hnext (hp s) = None) as Hfr by (apply G1; lia).
    assert (HW h') as HW'.
    { intros a Ha. simpl in *. rewrite lookup_insert_ne by lia. apply G1. lia. }
    assert (forall a l, arrs (hp s) !! a = Some l -> arrs h' !! a = Some l) as Harrs.
    { intros a l Ha. simpl. rewrite lookup_insert_ne; [done|]. congruence. }
    assert (arr_prefix h' (tarr (sl_ s)) (tln (sl_ s)) = Ok l2) as Hpre.
    { unfold arr_prefix in *. destruct (tarr (sl_ s)) as [b|]; [|done].
      destruct (arrs (hp s) !! b) eqn:Eb; [|done]. rewrite (Harrs _ _ Eb). done. }
    assert (forall q l b P t, ot (hp s) F' t P q l b -> ot h' F' t P q l b) as Hoth.
    { intros q l b P t Ho. apply (ot_frame zero (hp s) h' F' F' t P P); auto. }
    exists sl, s'. split.
    { unfold bind, read_tail. cbn [hp tr ts]. fold (sl_ s). rewrite R3. done. }
    split_and!; auto.
    + split; unfold s'; simpl; auto.
      * lia.
      * intros Hne. destruct (Hfz 0 Hne) as (P & Ho & Hp). exists P. split; [apply Hoth; done|].
        eapply pres_frame; [|exact Hp]. auto.
      * exists l2. exact Hpre.
      * intros _. destruct (G12 eq_refl) as (b & l & Hb1 & Hb2 & Hb3). exists b, l. split_and!; auto.
    + split; auto. intros i Hi. rewrite <-R2 by done. apply rd_nodes. done.
    + split; unfold sl; simpl; auto.
      * lia.
      * intros Hne. destruct (Hfz 0 Hne) as (P & Ho & Hp). exists P. split; [apply Hoth; done|].
        eapply pres_frame; [|exact Hp]. auto.
      * exists l2. rewrite lookup_insert. rewrite decide_True by lia. rewrite take_ge by lia. done.
      * done.
    + split; unfold sl; simpl; auto.
      * intros i Hi. rewrite <-R2 by done. apply rd_nodes. done.
      * rewrite lookup_insert. rewrite decide_True by lia. rewrite take_ge by lia. done.
    + simpl. lia.
    + intros _. exists (hnext (hp s)). auto.
    + done.
  - exists (sl_ s), (mkSt (hp s) (ctr s) (mkTr (ts (tr s)) 0 (tailLen (tr s)) false)).
    split; [done|]. split_and!; auto.
    + split; simpl; auto; try done; lia.
    + split; auto.
    + split; simpl; auto; try done; lia.
    + split; auto.
    + done.
Qed.

End Edit.

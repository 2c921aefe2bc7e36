(* Histories of the symbol tables; conditional return; lines. *)
From Coq Require Import String Lia.
From Verif Require Import Value Syntax ExecModel ExecSpec ExecProofs ExecFresh ExecTrans.
Open Scope string_scope.
Open Scope list_scope.
Open Scope nat_scope.

Lemma symbols_parts a b : symbols a = symbols b ->
  globals a = globals b /\ unary a = unary b /\ binary a = binary b /\ defs a = defs b.
Proof. unfold symbols. intros H. repeat split; congruence. Qed.
Lemma happens_symbols ev a b : symbols a = symbols b -> symbols (happens a ev) = symbols (happens b ev).
Proof.
  intros H. apply symbols_parts in H. destruct H as (H1 & H2 & H3 & H4). destruct ev as [name v|fn0 fn parsed|name c]; cbn.
  - unfold symbols. cbn. congruence.
  - now apply define_op_symbols.
  - unfold undefine, symbols. rewrite <- H4. destruct (existsb _ _); cbn; rewrite ?H1, ?H2, ?H3, ?H4; auto.
Qed.
Lemma history_symbols evs : forall a b, symbols a = symbols b -> symbols (fold_left happens evs a) = symbols (fold_left happens evs b).
Proof. induction evs as [|ev evs IH]; intros a b H; [exact H|]. cbn. apply IH. now apply happens_symbols. Qed.

Lemma all_target e : target_ok (fun _ => true) e = true.
Proof.
  induction e as [v0|name i|o r IHr|o l r IHl IHr|l r IHl IHr|l IHl|l idx IHl IHidx] using expr_ind'; cbn; auto.
  - apply Bool.orb_true_r.
  - induction IHl as [|e l He Hl IH]; [easy|]. cbn. now rewrite He.
  - destruct l; auto using Bool.orb_true_r.
Qed.
Lemma all_targets e : targets (fun _ => true) e = true.
Proof.
  induction e as [v0|name i|o r IHr|o l r IHl IHr|l r IHl IHr|l IHl|l idx IHl IHidx] using expr_ind'; cbn; auto.
  - now rewrite IHl, IHr, all_target, Bool.orb_true_r.
  - now rewrite IHl, IHr.
  - induction IHl as [|e l He Hl IH]; [easy|]. cbn. now rewrite He.
  - rewrite IHl. cbn. induction IHidx as [|[e|] idx He Hl IH]; [easy| |]; cbn; rewrite ?He; auto.
Qed.
Lemma forallb_all l : forallb (targets (fun _ => true)) l = true.
Proof. induction l as [|e l IH]; [easy|]. cbn. now rewrite all_targets. Qed.
Lemma all_func fn : func_targets (fun _ => true) fn.
Proof. repeat split; intros; auto using all_target, all_targets, forallb_all. Qed.

Definition reached (st st' : ctx) : Prop := exists evs, Forall wf_event evs /\ symbols st' = symbols (fold_left happens evs st).
Lemma reached_trans a b c : reached a b -> reached b c -> reached a c.
Proof.
  intros (e1 & W1 & H1) (e2 & W2 & H2). exists (e1 ++ e2). split; [now apply Forall_app|].
  rewrite fold_left_app, H2. now apply history_symbols.
Qed.
Section History.
Variable cells : nat -> list (option rval) -> list (option rval).
Variable E : env.
Hypothesis Hparse : wf_parser (fun _ => True) E.
Lemma parser_all u b text : line_targets (fun _ => true) (parse_line E u b text).
Proof.
  specialize (Hparse u b text). destruct (parse_line E u b text); cbn in *; auto using forallb_all.
  destruct Hparse as (H1 & H2 & _). repeat split; auto using all_func.
  all: intros; auto using all_target, all_targets, forallb_all.
Qed.
Lemma reached_refl st : reached st st.
Proof. now exists []. Qed.
Lemma reached_global name v st : reached st (fst (assign_global name v st)).
Proof. exists [EvAssign name v]. split; [repeat constructor|easy]. Qed.
Lemma reached_local i v st : reached st (fst (local_write i v st)).
Proof. exists []. split; [constructor|]. unfold local_write. destruct (_ || _); easy. Qed.
Lemma reached_call n st st2 : reached (push_cells cells n st) st2 -> reached st (pop st2).
Proof.
  intros (evs & W & H). exists evs. split; [exact W|].
  change (symbols (pop st2)) with (symbols st2). rewrite H. now apply history_symbols.
Qed.
Lemma reached_define fn0 fn parsed st : f_name fn0 = f_name fn -> f_binary fn0 = f_binary fn ->
  reached st (fst (define_op fn0 fn parsed st)).
Proof. intros H1 H2. exists [EvDefine fn0 fn parsed]. split; [repeat constructor; auto|easy]. Qed.
Lemma reached_undefine name b st : reached st (fst (undefine name b st)).
Proof. exists [EvDelete name b]. split; [repeat constructor|easy]. Qed.
Lemma tables_all st : tables (fun _ => True) st -> tables (func_targets (fun _ => true)) st.
Proof. intros [H1 H2]. split; intros name fn H; [apply H1 in H|apply H2 in H]; split; auto using all_func; tauto. Qed.
Lemma exec_reached n t st : tables (fun _ => True) st -> reached st (fst (exec_with cells E n t st)).
Proof.
  intros T. apply (exec_tr cells E (fun _ => true) reached reached_refl reached_trans
    (fun name v st _ => reached_global name v st) reached_local reached_call
    (fun fn0 fn p st H1 H2 _ => reached_define fn0 fn p st H1 H2) reached_undefine parser_all n t).
  - destruct t; cbn; auto using all_targets.
  - now apply tables_all.
Qed.
Lemma run_lines_reached n ls st : tables (fun _ => True) st -> reached st (fst (run_lines_with cells E n ls st)).
Proof.
  intros T. apply (run_lines_tr cells E (fun _ => true) reached reached_refl reached_trans
    (fun name v st _ => reached_global name v st) reached_local reached_call
    (fun fn0 fn p st H1 H2 _ => reached_define fn0 fn p st H1 H2) reached_undefine parser_all n ls).
  - easy.
  - now apply tables_all.
Qed.
End History.

(* ---- the tables ---- *)
Lemma same_def_spec x d : reflect (x = d) (same_def x d).
Proof.
  destruct x as [n b], d as [n' b']. unfold same_def. cbn.
  destruct (String.eqb_spec n n') as [->|H], (Bool.eqb_spec b b') as [->|H']; constructor; congruence.
Qed.
Lemma drop_def_in l d x : NoDup l -> In x (drop_def l d) <-> In x l /\ x <> d.
Proof.
  induction l as [|y l IH]; intros H; cbn; [tauto|]. inversion H; subst.
  destruct (same_def_spec y d) as [->|Hy].
  - split; [|intros [[->|] ?]; tauto]. intros Hx. split; [tauto|]. intros ->. auto.
  - cbn. rewrite IH by auto. split; [|tauto]. intros [<-|[]]; auto.
Qed.
Lemma drop_def_nodup l d : NoDup l -> NoDup (drop_def l d).
Proof.
  induction l as [|y l IH]; intros H; cbn; [auto|]. inversion H; subst.
  destruct (same_def_spec y d); auto. constructor; auto. rewrite drop_def_in by auto. tauto.
Qed.
Lemma nodup_snoc {A} (l : list A) x : NoDup l -> ~ In x l -> NoDup (l ++ [x]).
Proof.
  intros H Hx. apply NoDup_rev in H. rewrite <- (rev_involutive (l ++ [x])), rev_app_distr. apply NoDup_rev. cbn.
  constructor; [now rewrite <- in_rev|exact H].
Qed.

(* the result of a successful first part *)
Definition new_defs (l : list (string * bool)) (d : string * bool) : list (string * bool) :=
  match rev l with x :: _ => if same_def x d then l else drop_def l d ++ [d] | [] => [d] end.
Lemma new_defs_ok l d : NoDup l -> NoDup (new_defs l d) /\ forall x, In x (new_defs l d) <-> In x l \/ x = d.
Proof.
  intros H. unfold new_defs. destruct (rev l) as [|x r] eqn:Hr.
  { assert (l = []) by (rewrite <- (rev_involutive l), Hr; easy). subst l. split; [repeat constructor; auto|].
    intros x. cbn. intuition. }
  assert (Hx : In x l). { rewrite in_rev, Hr. cbn; auto. }
  destruct (same_def_spec x d) as [->|Hd].
  - split; [exact H|]. intros y. split; [auto|]. intros [| ->]; auto.
  - split.
    + apply nodup_snoc; [now apply drop_def_nodup|]. rewrite drop_def_in by auto. tauto.
    + intros y. rewrite in_app_iff, drop_def_in by auto. cbn. destruct (same_def_spec y d); intuition.
Qed.
Definition tab (st : ctx) (b : bool) : table func := if b then binary st else unary st.
Lemma define_cases fn st :
  (define fn st = (st, Err) /\
     ((f_name fn = "_" \/ f_name fn = "pi" \/ f_name fn = "e") \/
      exists v, find (globals st) (f_name fn) = Some v /\ is_zero_int v = false)) \/
  (exists st', define fn st = (st', Ok tt) /\ globals st' = remove (globals st) (f_name fn) \/
   define fn st = (st', Ok tt) /\ globals st' = globals st /\ find (globals st) (f_name fn) = None) /\
  (exists st', define fn st = (st', Ok tt) /\
   (f_name fn <> "_" /\ f_name fn <> "pi" /\ f_name fn <> "e") /\
   find (globals st') (f_name fn) = None /\
   (forall name, name <> f_name fn -> find (globals st') name = find (globals st) name) /\
   tab st' (f_binary fn) = store (tab st (f_binary fn)) (f_name fn) fn /\
   tab st' (negb (f_binary fn)) = tab st (negb (f_binary fn)) /\
   defs st' = new_defs (defs st) (f_name fn, f_binary fn)).
Proof.
  unfold define, mbind, no_var.
  destruct (String.eqb_spec (f_name fn) "_") as [H1|H1]; cbn [orb]; [left; auto|].
  destruct (String.eqb_spec (f_name fn) "pi") as [H2|H2]; cbn [orb]; [left; auto|].
  destruct (String.eqb_spec (f_name fn) "e") as [H3|H3]; cbn [orb]; [left; auto|].
  destruct (find (globals st) (f_name fn)) as [v|] eqn:Hf.
  - destruct (is_zero_int v) eqn:Hz; [|left; split; [easy|right; eauto]].
    right. split; [eexists; left; split; [reflexivity|easy]|].
    eexists. split; [reflexivity|]. cbn. rewrite find_remove, String.eqb_refl.
    repeat split; auto.
    + intros name Hn. rewrite find_remove. destruct (String.eqb_spec (f_name fn) name); congruence.
    + unfold tab. cbn. destruct (f_binary fn); easy.
    + unfold tab. cbn. destruct (f_binary fn); easy.
  - right. split; [eexists; right; split; [reflexivity|easy]|].
    eexists. split; [reflexivity|]. cbn. repeat split; auto.
    + unfold tab. cbn. destruct (f_binary fn); easy.
    + unfold tab. cbn. destruct (f_binary fn); easy.
Qed.
Lemma defined_tab st name b : defined st name b <-> find (tab st b) name <> None.
Proof. easy. Qed.
Lemma define_consistent fn st : consistent st -> consistent (fst (define fn st)).
Proof.
  intros [Hn Hd]. destruct (define_cases fn st) as [[H _]|[_ (st' & H & _ & _ & _ & Ht1 & Ht2 & Hdf)]]; rewrite H; cbn; [now split|].
  destruct (new_defs_ok (defs st) (f_name fn, f_binary fn) Hn) as [N1 N2].
  split; rewrite Hdf; [exact N1|]. intros name b. rewrite N2, Hd, !defined_tab.
  destruct (Bool.bool_dec b (f_binary fn)) as [->|Hb].
  - rewrite Ht1, find_store. destruct (String.eqb_spec (f_name fn) name) as [<-|Hne].
    + split; [easy|auto].
    + split; [intros [|]; [auto|congruence]|auto].
  - assert (b = negb (f_binary fn)) by (destruct b, (f_binary fn); auto; congruence). subst b.
    rewrite Ht2. split; [intros [|Heq]; auto; injection Heq as _ Heq; now destruct (f_binary fn)|auto].
Qed.
Lemma no_var_again fn fn' st st' : define fn st = (st', Ok tt) -> f_name fn' = f_name fn ->
  exists st2, define fn' st' = (st2, Ok tt).
Proof.
  intros H Hn. destruct (define_cases fn st) as [[H' _]|[_ (st1 & H' & Hnot & Hg & _)]]; [congruence|].
  assert (st1 = st') by congruence. subst st1.
  destruct (define_cases fn' st') as [[_ Hbad]|[_ (st2 & H2 & _)]]; [|eauto].
  rewrite Hn in Hbad. destruct Hbad as [|(v & Hv & _)]; [tauto|congruence].
Qed.
(* the four outcomes of a definition *)
Lemma define_op_cases fn0 fn parsed st : f_name fn0 = f_name fn -> f_binary fn0 = f_binary fn ->
  (define_op fn0 fn parsed st = (st, Err) /\ define fn0 st = (st, Err)) \/
  exists st1, define fn0 st = (st1, Ok tt) /\
   ((parsed = true /\ exists st2, define fn st1 = (st2, Ok tt) /\ define_op fn0 fn parsed st = (st2, Ok tt)) \/
    (parsed = false /\ exists st2, define_op fn0 fn parsed st = (st2, Err) /\ globals st2 = globals st1 /\ defs st2 = defs st1 /\
       tab st2 (negb (f_binary fn)) = tab st1 (negb (f_binary fn)) /\
       tab st2 (f_binary fn) = match find (tab st (f_binary fn)) (f_name fn) with
                               | Some old => store (tab st1 (f_binary fn)) (f_name fn) old
                               | None => remove (tab st1 (f_binary fn)) (f_name fn)
                               end)).
Proof.
  intros Hn Hb. unfold define_op.
  destruct (define_cases fn0 st) as [[H _]|[_ (st1 & H & _)]]; rewrite H; [now left|].
  right. exists st1. split; [easy|]. destruct parsed.
  - left. split; [easy|]. destruct (no_var_again fn0 fn st st1 H) as [st2 H2]; [congruence|]. rewrite H2. eauto.
  - right. split; [easy|]. eexists. split; [reflexivity|]. cbn. unfold tab. cbn. destruct (f_binary fn); auto.
Qed.
Lemma happens_consistent st ev : wf_event ev -> consistent st ->
  match ev with EvDefine _ fn false => defined st (f_name fn) (f_binary fn) | _ => True end ->
  consistent (happens st ev).
Proof.
  intros Hw Hc Hf. destruct ev as [name v|fn0 fn parsed|name b]; cbn in *.
  - exact Hc.
  - destruct Hw as [Hn Hb].
    destruct (define_op_cases fn0 fn parsed st Hn Hb) as [[H _]|(st1 & H0 & [(-> & st2 & H1 & H)|(-> & st2 & H & Hg & Hd & Ht1 & Ht2)])];
      rewrite H; cbn; auto.
    + pose proof (define_consistent fn0 st Hc) as C1. rewrite H0 in C1. cbn in C1.
      pose proof (define_consistent fn st1 C1) as C2. now rewrite H1 in C2.
    + pose proof (define_consistent fn0 st Hc) as C1. rewrite H0 in C1. cbn in C1. destruct C1 as [N1 D1].
      split; rewrite Hd; [exact N1|]. intros name b. rewrite D1, !defined_tab.
      destruct (Bool.bool_dec b (f_binary fn)) as [->|Hne].
      * rewrite Ht2. rewrite defined_tab in Hf. destruct (find (tab st (f_binary fn)) (f_name fn)) as [old|]; [|now destruct Hf].
        rewrite find_store. destruct (String.eqb_spec (f_name fn) name) as [<-|]; [|tauto].
        split; [easy|]. intros _.
        destruct (define_cases fn0 st) as [[H' _]|[_ (st' & H' & _ & _ & _ & Ht & _)]]; [congruence|].
        assert (st' = st1) by congruence. subst st'. rewrite Hb, Hn in Ht. rewrite Ht, find_store, String.eqb_refl. easy.
      * assert (b = negb (f_binary fn)) by (destruct b, (f_binary fn); auto; congruence). subst b. now rewrite Ht1.
  - unfold undefine. destruct (existsb _ _) eqn:He; cbn; [|exact Hc]. destruct Hc as [N D].
    split; cbn; [now apply drop_def_nodup|]. intros nm c. rewrite drop_def_in, D by auto. unfold defined.
    destruct b, c; cbn; rewrite ?find_remove; destruct (String.eqb_spec name nm) as [<-|]; intuition congruence.
Qed.
Lemma history_consistent evs : forall st, Forall wf_event evs -> consistent st -> no_new_failure st evs ->
  consistent (fold_left happens evs st).
Proof.
  induction evs as [|ev evs IH]; intros st W H F; [exact H|]. inversion W; subst. destruct F as [F1 F2].
  cbn. apply IH; auto. now apply happens_consistent.
Qed.

(* a failed definition keeps every operator *)
Lemma failed_keeps fn0 fn parsed st st' r : f_name fn0 = f_name fn -> f_binary fn0 = f_binary fn ->
  define_op fn0 fn parsed st = (st', r) -> r <> Ok tt ->
  forall name b, find (tab st' b) name = find (tab st b) name.
Proof.
  intros Hn Hb H Hr name b.
  destruct (define_op_cases fn0 fn parsed st Hn Hb) as [[H' _]|(st1 & H0 & [(-> & st2 & H1 & H')|(-> & st2 & H' & Hg & Hd & Ht1 & Ht2)])];
    rewrite H' in H; injection H as <- <-; auto; [now destruct Hr|].
  destruct (define_cases fn0 st) as [[H _]|[_ (st'' & H & _ & _ & _ & Ha & Hb' & _)]]; [congruence|].
  assert (st'' = st1) by congruence. subst st''. rewrite Hb, Hn in *.
  destruct (Bool.bool_dec b (f_binary fn)) as [->|Hne].
  - rewrite Ht2, Ha. destruct (find (tab st (f_binary fn)) (f_name fn)) as [old|] eqn:Ho;
      rewrite ?find_store, ?find_remove, ?find_store; destruct (String.eqb_spec (f_name fn) name) as [<-|]; congruence.
  - assert (b = negb (f_binary fn)) by (destruct b, (f_binary fn); auto; congruence). subst b. congruence.
Qed.
(* a failed definition keeps every variable but one equal to zero, of that name *)
Lemma failed_variables fn0 fn parsed st st' r : f_name fn0 = f_name fn -> f_binary fn0 = f_binary fn ->
  define_op fn0 fn parsed st = (st', r) -> forall name, name <> f_name fn -> find (globals st') name = find (globals st) name.
Proof.
  intros Hn Hb H name Hne.
  assert (Hd : forall f s s', f_name f = f_name fn -> define f s = (s', Ok tt) -> find (globals s') name = find (globals s) name).
  { intros f s s' Hf Hs. destruct (define_cases f s) as [[H' _]|[_ (st1 & H' & _ & _ & Hg & _)]]; [congruence|].
    assert (st1 = s') by congruence. subst. apply Hg. congruence. }
  destruct (define_op_cases fn0 fn parsed st Hn Hb) as [[H' _]|(st1 & H0 & [(-> & st2 & H1 & H')|(-> & st2 & H' & Hg & _)])];
    rewrite H' in H; injection H as <- <-; auto.
  - rewrite (Hd fn st1 st2), (Hd fn0 st st1); auto.
  - rewrite Hg. eauto.
Qed.
Lemma success_defines fn0 fn st st' : f_name fn0 = f_name fn -> f_binary fn0 = f_binary fn ->
  define_op fn0 fn true st = (st', Ok tt) ->
  find (tab st' (f_binary fn)) (f_name fn) = Some fn /\ find (globals st') (f_name fn) = None /\
  (forall name b, (name, b) <> (f_name fn, f_binary fn) -> find (tab st' b) name = find (tab st b) name) /\
  (NoDup (defs st) -> exists l, defs st' = l ++ [(f_name fn, f_binary fn)] /\
     forall d, In d l <-> In d (defs st) /\ d <> (f_name fn, f_binary fn)).
Proof.
  intros Hn Hb H.
  destruct (define_op_cases fn0 fn true st Hn Hb) as [[H' _]|(st1 & H0 & [(_ & st2 & H1 & H')|(Hx & _)])];
    [congruence| |discriminate]. assert (st2 = st') by congruence. subst st2. clear H'.
  destruct (define_cases fn0 st) as [[H' _]|[_ (s & H' & _ & _ & _ & A1 & A2 & A3)]]; [congruence|].
  assert (s = st1) by congruence. subst s. clear H'.
  destruct (define_cases fn st1) as [[H' _]|[_ (s & H' & _ & Hg & _ & B1 & B2 & B3)]]; [congruence|].
  assert (s = st') by congruence. subst s. clear H'. rewrite Hn, Hb in *.
  split; [now rewrite B1, find_store, String.eqb_refl|]. split; [exact Hg|]. split.
  - intros name b Hne. destruct (Bool.bool_dec b (f_binary fn)) as [->|Hnb].
    + rewrite B1, A1, !find_store. destruct (String.eqb_spec (f_name fn) name); congruence.
    + assert (b = negb (f_binary fn)) by (destruct b, (f_binary fn); auto; congruence). subst b. congruence.
  - intros Hnd. set (d0 := (f_name fn, f_binary fn)) in *.
    assert (Hlast : forall l, exists l', new_defs l d0 = l' ++ [d0]).
    { intros l. unfold new_defs. destruct (rev l) as [|x r] eqn:Hr; [now exists []|].
      destruct (same_def_spec x d0) as [->|]; [|eauto]. exists (rev r).
      rewrite <- (rev_involutive l), Hr. easy. }
    assert (Hsame : new_defs (new_defs (defs st) d0) d0 = new_defs (defs st) d0).
    { destruct (Hlast (defs st)) as [l' Hl']. rewrite Hl'. unfold new_defs at 1. rewrite rev_app_distr. cbn.
      destruct (same_def_spec d0 d0); congruence. }
    rewrite B3, A3, Hsame. destruct (Hlast (defs st)) as [l' Hl']. exists l'. split; [exact Hl'|].
    destruct (new_defs_ok (defs st) d0 Hnd) as [N1 N2]. rewrite Hl' in N1, N2.
    intros d. apply NoDup_remove in N1. rewrite app_nil_r in N1. destruct N1 as [_ N1].
    specialize (N2 d). rewrite in_app_iff in N2. cbn in N2. split.
    + intros Hd. destruct (same_def_spec d d0) as [->|Hdd]; [tauto|]. intuition congruence.
    + intros [Hd Hdd]. intuition congruence.
Qed.

(* ---- names ---- *)
Lemma happens_clash st ev name : wf_event ev ->
  match ev with EvAssign n _ => ~ defined st n false /\ ~ defined st n true | _ => True end ->
  clash (happens st ev) name -> clash st name.
Proof.
  intros Hw Ha. destruct ev as [n v|fn0 fn parsed|n b]; cbn in *.
  - intros [Hg Hd]. unfold defined in *. cbn in *. split; [|exact Hd].
    rewrite find_store in Hg. destruct (String.eqb_spec n name) as [->|]; [|exact Hg]. tauto.
  - destruct Hw as [Hn Hb]. destruct (define_op fn0 fn parsed st) as [st' r] eqn:He. cbn.
    intros [Hg Hd].
    destruct r as [[]| | |].
    + destruct parsed.
      * destruct (success_defines fn0 fn st st' Hn Hb He) as (_ & G & Ho & _).
        destruct (String.eqb_spec name (f_name fn)) as [->|Hne]; [congruence|].
        unfold clash, defined in *. rewrite <- (failed_variables fn0 fn true st st' _ Hn Hb He name Hne).
        split; [exact Hg|].
        change (find (tab st false) name <> None \/ find (tab st true) name <> None).
        rewrite <- (Ho name false), <- (Ho name true) by congruence. exact Hd.
      * exfalso. destruct (define_op_cases fn0 fn false st Hn Hb) as [[H' _]|(st1 & H0 & [(Hx & _)|(_ & st2 & H' & _)])]; congruence.
    + assert (Hk := failed_keeps fn0 fn parsed st st' _ Hn Hb He). 
      assert (Hk' : forall nm b, find (tab st' b) nm = find (tab st b) nm) by (apply Hk; discriminate).
      split; [|change (find (tab st false) name <> None \/ find (tab st true) name <> None);
               rewrite <- (Hk' name false), <- (Hk' name true); exact Hd].
      destruct (String.eqb_spec name (f_name fn)) as [->|Hne];
        [|now rewrite <- (failed_variables fn0 fn parsed st st' _ Hn Hb He name Hne)].
      destruct (define_op_cases fn0 fn parsed st Hn Hb) as [[H' _]|(st1 & H0 & [(-> & st2 & H1 & H')|(-> & st2 & H' & Hg2 & _)])]; [congruence|congruence|].
      exfalso. assert (st2 = st') by congruence. subst st2.
      destruct (define_cases fn0 st) as [[H _]|[_ (s & H & _ & Hz & _)]]; [congruence|].
      assert (s = st1) by congruence. subst s. apply Hg. rewrite Hg2. congruence.
    + exfalso. destruct (define_op_cases fn0 fn parsed st Hn Hb) as [[H' _]|(st1 & H0 & [(_ & st2 & H1 & H')|(_ & st2 & H' & _)])]; congruence.
    + exfalso. destruct (define_op_cases fn0 fn parsed st Hn Hb) as [[H' _]|(st1 & H0 & [(_ & st2 & H1 & H')|(_ & st2 & H' & _)])]; congruence.
  - unfold undefine. destruct (existsb _ _); cbn; [|auto]. intros [Hg Hd]. split; [exact Hg|].
    unfold defined in *. cbn in Hd. destruct b; rewrite find_remove in Hd; destruct (n =? name)%string; tauto.
Qed.
Lemma history_clash evs : forall st name, Forall wf_event evs -> no_op_assigned st evs ->
  clash (fold_left happens evs st) name -> clash st name.
Proof.
  induction evs as [|ev evs IH]; intros st name W F H; [exact H|]. inversion W; subst. destruct F as [F1 F2].
  cbn in H. apply IH in H; auto. eapply happens_clash; eauto.
Qed.

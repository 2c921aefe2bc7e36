(* Which names are local, and well-formedness of what the parser makes. *)
From Coq Require Import String Lia.
From Verif Require Import Value Syntax ExecModel ExecSpec ExecProofs ParseModel ParseSpec ParseProofs ParseComplete.
Open Scope string_scope.
Open Scope list_scope.
Open Scope nat_scope.

(* ---- uses in the order of the walk ---- *)
Fixpoint wuses (assign : bool) (e : expr) : list (string * bool) :=
  match e with
  | EVal _ => []
  | EVar s _ => [(s, assign)]
  | EUnary _ r => wuses false r
  | EBinary op l r => wuses false r ++ wuses (String.eqb op "=") l
  | ECond l r => wuses false r ++ wuses false l
  | EVector l => concat (rev (map (wuses assign) l))
  | EIndex l idx => concat (rev (map (fun o => match o with Some e => wuses false e | None => [] end) idx)) ++ wuses false l
  end.
Lemma wuses_uses e : no_cond e = true -> forall a, wuses a e = uses a e.
Proof.
  induction e as [v|s i|o r IHr|o l r IHl IHr|l r IHl IHr|l IHl|l idx IHl IHidx] using expr_ind'; cbn [no_cond wuses uses]; intros H a; auto; try discriminate.
  - apply andb_prop in H. destruct H. now rewrite IHl, IHr.
  - f_equal. f_equal. rewrite forallb_forall in H. rewrite Forall_forall in IHl. apply map_ext_in. auto.
  - apply andb_prop in H. destruct H as [H1 H2]. rewrite IHl by auto. f_equal. f_equal. f_equal.
    rewrite forallb_forall in H2. rewrite Forall_forall in IHidx. apply map_ext_in. intros [x|] Hx; auto.
    apply (IHidx _ Hx). exact (H2 _ Hx).
Qed.

Fixpoint walk_list {A} (f : A -> vars -> A * vars) (l : list A) (s : vars) : list A * vars :=
  match l with
  | [] => ([], s)
  | e :: l1 => let (l2, s1) := walk_list f l1 s in let (e', s2) := f e s1 in (e' :: l2, s2)
  end.
Definition walk_index (o : option expr) (s : vars) : option expr * vars :=
  match o with None => (None, s) | Some e => let (e', s2) := walk false e s in (Some e', s2) end.
Lemma walk_EVector a l s : walk a (EVector l) s = let (l', s') := walk_list (walk a) l s in (EVector l', s').
Proof.
  cbn [walk].
  assert (E : forall s, (fix go (l : list expr) (s : vars) : list expr * vars :=
         match l with
         | [] => ([], s)
         | e :: l1 => let (l2, s1) := go l1 s in let (e', s2) := walk a e s1 in (e' :: l2, s2)
         end) l s = walk_list (walk a) l s).
  { induction l as [|e l IH]; intros s0; [reflexivity|]. cbn [walk_list]. now rewrite IH. }
  now rewrite E.
Qed.
Lemma walk_EIndex a l idx s : walk a (EIndex l idx) s =
  let (idx', s1) := walk_list walk_index idx s in let (l', s2) := walk false l s1 in (EIndex l' idx', s2).
Proof.
  cbn [walk].
  assert (E : forall s, (fix go (l : list (option expr)) (s : vars) : list (option expr) * vars :=
         match l with
         | [] => ([], s)
         | o :: l1 =>
           let (l2, s1) := go l1 s in
           match o with
           | None => (None :: l2, s1)
           | Some e => let (e', s2) := walk false e s1 in (Some e' :: l2, s2)
           end
         end) idx s = walk_list walk_index idx s).
  { induction idx as [|o idx IH]; intros s0; [reflexivity|]. cbn [walk_list]. rewrite IH. destruct (walk_list walk_index idx s0) as [l2 s1].
    destruct o as [e|]; cbn [walk_index]; [|reflexivity]. now destruct (walk false e s1). }
  now rewrite E.
Qed.

Record inv (s : vars) (us : list (string * bool)) : Prop := mkInv {
  i_none : forall n, find (fst s) n = None <-> first_use n us = None;
  i_read : forall n, find (fst s) n = Some 0 <-> first_use n us = Some false;
  i_local : forall n i, find (fst s) n = Some (S i) <-> nth_error (snd s) i = Some n;
  i_nodup : NoDup (snd s)
}.
Definition extends (s s' : vars) : Prop := forall n i, find (fst s) n = Some i -> find (fst s') n = Some i.
Definition fits (loc : string -> nat) (s : vars) : Prop := forall n i, find (fst s) n = Some i -> loc n = i.
Lemma extends_refl s : extends s s. Proof. intros n i H; exact H. Qed.
Lemma extends_trans a b c : extends a b -> extends b c -> extends a c.
Proof. intros H1 H2 n i H. auto. Qed.
Lemma fits_extends loc s s' : extends s s' -> fits loc s' -> fits loc s.
Proof. intros H F n i E. auto. Qed.
Lemma first_use_app n a b : first_use n (a ++ b) = match first_use n a with Some x => Some x | None => first_use n b end.
Proof. induction a as [|[s x] a IH]; cbn; auto. destruct (n =? s)%string; auto. Qed.

Definition good_walk {A} (f : A -> vars -> A * vars) (us : A -> list (string * bool)) (pl : A -> A) (ix : (string -> nat) -> A -> Prop) (x : A) : Prop :=
  forall s, let (x', s') := f x s in
    extends s s' /\ (forall u, inv s u -> inv s' (u ++ us x)) /\ pl x' = pl x /\ (forall loc, fits loc s' -> ix loc x').

Lemma use_var_good a n s : let (i, s') := use_var a n s in
  extends s s' /\ find (fst s') n = Some i /\ (forall u, inv s u -> inv s' (u ++ [(n, a)])).
Proof.
  unfold use_var. destruct (find (fst s) n) as [i|] eqn:E.
  - split; [apply extends_refl|]. split; [exact E|]. intros u [I1 I2 I3 I4].
    assert (U : forall m, first_use m (u ++ [(n, a)]) = first_use m u).
    { intros m. rewrite first_use_app. cbn. destruct (String.eqb_spec m n) as [->|N]; [|now destruct (first_use m u)].
      destruct (first_use n u) eqn:F; auto. apply I1 in F. congruence. }
    constructor; auto; intros m; rewrite U; auto.
  - assert (X : forall v, extends s (store (fst s) n v, snd s)).
    { intros v m i H. cbn [fst]. rewrite find_store. destruct (String.eqb_spec n m) as [->|N]; congruence. }
    assert (U : forall u, inv s u -> forall m, first_use m (u ++ [(n, a)]) = if String.eqb n m then Some a else first_use m u).
    { intros u I m. rewrite first_use_app. cbn. rewrite String.eqb_sym. destruct (String.eqb_spec n m) as [<-|N].
      - now rewrite (proj1 (i_none _ _ I n) E).
      - now destruct (first_use m u). }
    destruct a.
    + split; [exact (X _)|]. split; [cbn [fst]; now rewrite find_store, String.eqb_refl|]. intros u I. specialize (U u I). destruct I as [I1 I2 I3 I4].
      assert (Nn : ~ In n (snd s)).
      { intros H. apply In_nth_error in H. destruct H as [i H]. apply I3 in H. congruence. }
      constructor; cbn [fst snd].
      * intros m. rewrite U, find_store. destruct (String.eqb_spec n m); [split; discriminate|apply I1].
      * intros m. rewrite U, find_store. destruct (String.eqb_spec n m); [split; discriminate|apply I2].
      * intros m i. rewrite find_store. destruct (Nat.lt_ge_cases i (length (snd s))) as [L|L].
        -- rewrite nth_error_app1 by auto. destruct (String.eqb_spec n m) as [<-|N]; [|apply I3].
           split; intros H; [injection H; lia|]. elim Nn. eapply nth_error_In; eauto.
        -- rewrite nth_error_app2 by auto. destruct (String.eqb_spec n m) as [<-|N].
           ++ split; intros H; [injection H as <-; now rewrite Nat.sub_diag|].
              destruct (i - length (snd s)) as [|k] eqn:K; [f_equal; lia|]. destruct k; discriminate.
           ++ split; intros H.
              ** apply I3 in H. assert (nth_error (snd s) i = None) by now apply nth_error_None. congruence.
              ** destruct (i - length (snd s)) as [|k] eqn:K; [cbn in H; congruence|]. destruct k; discriminate.
      * rewrite <-(rev_involutive (snd s ++ [n])). apply NoDup_rev. rewrite rev_app_distr. cbn [rev app].
        constructor; [now rewrite <-in_rev|now apply NoDup_rev].
    + split; [exact (X _)|]. split; [cbn [fst]; now rewrite find_store, String.eqb_refl|]. intros u I. specialize (U u I). destruct I as [I1 I2 I3 I4].
      constructor; cbn [fst snd]; auto.
      * intros m. rewrite U, find_store. destruct (String.eqb_spec n m); [split; discriminate|apply I1].
      * intros m. rewrite U, find_store. destruct (String.eqb_spec n m); [split; reflexivity|apply I2].
      * intros m i. rewrite find_store. destruct (String.eqb_spec n m) as [<-|N]; [|apply I3].
        split; [discriminate|]. intros H. apply I3 in H. congruence.
Qed.

Lemma walk_list_good {A} (f : A -> vars -> A * vars) us pl ix l : Forall (good_walk f us pl ix) l ->
  forall s, let (l', s') := walk_list f l s in
    extends s s' /\ (forall u, inv s u -> inv s' (u ++ concat (rev (map us l)))) /\ map pl l' = map pl l /\
    (forall loc, fits loc s' -> Forall (ix loc) l').
Proof.
  induction l as [|x l IH]; intros H s; cbn [walk_list].
  - split; [apply extends_refl|]. split; [intros u I; cbn; now rewrite app_nil_r|]. auto.
  - inversion H as [|? ? Hx Hl]; subst. specialize (IH Hl s). destruct (walk_list f l s) as [l2 s1]. destruct IH as (E1 & I1 & P1 & X1).
    specialize (Hx s1). destruct (f x s1) as [x' s2]. destruct Hx as (E2 & I2 & P2 & X2).
    split; [eapply extends_trans; eauto|]. split; [|split].
    + intros u I. cbn [map rev]. rewrite concat_app. cbn. rewrite app_nil_r, app_assoc. auto.
    + cbn. now rewrite P1, P2.
    + intros loc F. constructor; auto. apply X1. eapply fits_extends; eauto.
Qed.
Lemma fold_Forall {A} (P : A -> Prop) l : Forall P l -> fold_right (fun x Q => P x /\ Q) True l.
Proof. induction 1; cbn; auto. Qed.

Lemma walk_good e : forall a, good_walk (walk a) (wuses a) plain indexed_by e.
Proof.
  induction e as [v|s i|o r IHr|o l r IHl IHr|l r IHl IHr|l IHl|l idx IHl IHidx] using expr_ind'; intros a s0.
  - cbn. split; [apply extends_refl|]. split; [intros u I; now rewrite app_nil_r|]. auto.
  - cbn [walk wuses]. pose proof (use_var_good a s s0) as H. destruct (use_var a s s0) as [j s']. destruct H as (E & F & I).
    split; [exact E|]. split; [exact I|]. split; [reflexivity|]. intros loc Fl. cbn. symmetry. now apply Fl.
  - cbn [walk wuses]. specialize (IHr false s0). destruct (walk false r s0) as [r' s1]. destruct IHr as (E & I & P & X).
    cbn. rewrite P. auto.
  - cbn [walk wuses]. specialize (IHr false s0). destruct (walk false r s0) as [r' s1]. destruct IHr as (E & I & P & X).
    specialize (IHl (o =? "=")%string s1). destruct (walk (o =? "=")%string l s1) as [l' s2]. destruct IHl as (E2 & I2 & P2 & X2).
    split; [eapply extends_trans; eauto|]. split; [intros u J; rewrite app_assoc; auto|]. split; [cbn; now rewrite P, P2|].
    intros loc F. cbn. split; auto. apply X. eapply fits_extends; eauto.
  - cbn [walk wuses]. specialize (IHr false s0). destruct (walk false r s0) as [r' s1]. destruct IHr as (E & I & P & X).
    specialize (IHl false s1). destruct (walk false l s1) as [l' s2]. destruct IHl as (E2 & I2 & P2 & X2).
    split; [eapply extends_trans; eauto|]. split; [intros u J; rewrite app_assoc; auto|]. split; [cbn; now rewrite P, P2|].
    intros loc F. cbn. split; auto. apply X. eapply fits_extends; eauto.
  - rewrite walk_EVector. assert (G : Forall (good_walk (walk a) (wuses a) plain indexed_by) l).
    { eapply Forall_impl; [|exact IHl]. auto. }
    pose proof (walk_list_good _ _ _ _ _ G s0) as H. destruct (walk_list (walk a) l s0) as [l' s1]. destruct H as (E & I & P & X).
    split; [exact E|]. split; [exact I|]. split; [cbn; now rewrite P|]. intros loc F. cbn. apply fold_Forall. auto.
  - rewrite walk_EIndex.
    assert (G : Forall (good_walk walk_index (fun o => match o with Some e => wuses false e | None => [] end) (option_map plain)
                  (fun loc o => match o with Some x => indexed_by loc x | None => True end)) idx).
    { eapply Forall_impl; [|exact IHidx]. intros [x|] Hx s; cbn [walk_index].
      - specialize (Hx false s). destruct (walk false x s) as [x' s']. destruct Hx as (E & I & P & X).
        split; [exact E|]. split; [exact I|]. split; [cbn; now rewrite P|auto].
      - split; [apply extends_refl|]. split; [intros u I; now rewrite app_nil_r|]. auto. }
    pose proof (walk_list_good _ _ _ _ _ G s0) as H. destruct (walk_list walk_index idx s0) as [idx' s1]. destruct H as (E & I & P & X).
    specialize (IHl false s1). destruct (walk false l s1) as [l' s2]. destruct IHl as (E2 & I2 & P2 & X2).
    split; [eapply extends_trans; eauto|]. split; [intros u J; cbn [wuses]; rewrite app_assoc; auto|]. split; [cbn; now rewrite P, P2|].
    intros loc F. cbn. split; auto. apply fold_Forall. apply X. eapply fits_extends; eauto.
Qed.

Lemma walk_body_good l : forall s, let (l', s') := walk_body l s in
    extends s s' /\ (forall u, inv s u -> inv s' (u ++ concat (map (wuses false) l))) /\ map plain l' = map plain l /\
    (forall loc, fits loc s' -> Forall (indexed_by loc) l').
Proof.
  induction l as [|e l IH]; intros s; cbn [walk_body].
  - split; [apply extends_refl|]. split; [intros u I; cbn; now rewrite app_nil_r|]. auto.
  - pose proof (walk_good e false s) as H. destruct (walk false e s) as [e' s1]. destruct H as (E & I & P & X).
    specialize (IH s1). destruct (walk_body l s1) as [l2 s2]. destruct IH as (E2 & I2 & P2 & X2).
    split; [eapply extends_trans; eauto|]. split; [intros u J; cbn; rewrite app_assoc; auto|]. split; [cbn; now rewrite P, P2|].
    intros loc F. constructor; auto. apply X. eapply fits_extends; eauto.
Qed.

(* the uses of an operator, in the order of the walk *)
Definition wfunc_uses (fn : func) : list (string * bool) :=
  (match f_left fn with Some e => wuses true e | None => [] end ++ wuses true (f_right fn)) ++
  match f_body fn with Some b => concat (map (wuses false) b) | None => [] end.
Lemma func_vars_good fn : exists loc, resolved loc (func_vars fn) /\ plain_func (func_vars fn) = plain_func fn /\
  (forall n, loc n <> 0 <-> first_use n (wfunc_uses fn) = Some true).
Proof.
  assert (I0 : inv ([], []) []).
  { constructor; cbn.
    - intros n. split; auto.
    - intros n. split; discriminate.
    - intros n [|i]; split; discriminate.
    - constructor. }
  unfold func_vars, wfunc_uses.
  destruct (match f_left fn with Some e => let (e', s) := walk true e ([], []) in (Some e', s) | None => (None, ([], [])) end) as [left s1] eqn:EL.
  assert (HL : (forall u, inv ([], []) u -> inv s1 (u ++ match f_left fn with Some e => wuses true e | None => [] end)) /\
    option_map plain left = option_map plain (f_left fn) /\ forall loc, fits loc s1 -> match left with Some e => indexed_by loc e | None => True end).
  { destruct (f_left fn) as [e|].
    - pose proof (walk_good e true ([], [])) as H. destruct (walk true e ([], [])) as [e' s']. injection EL as <- <-.
      destruct H as (_ & I & P & X). cbn. rewrite P. auto.
    - injection EL as <- <-. split; [intros u I; now rewrite app_nil_r|auto]. }
  destruct HL as (IL & PL & XL).
  pose proof (walk_good (f_right fn) true s1) as HR. destruct (walk true (f_right fn) s1) as [right s2]. destruct HR as (ER & IR & PR & XR).
  destruct (match f_body fn with Some b => let (b', s) := walk_body b s2 in (Some b', s) | None => (None, s2) end) as [body s3] eqn:EB.
  assert (HB : extends s2 s3 /\ (forall u, inv s2 u -> inv s3 (u ++ match f_body fn with Some b => concat (map (wuses false) b) | None => [] end)) /\
    option_map (map plain) body = option_map (map plain) (f_body fn) /\
    forall loc, fits loc s3 -> match body with Some b => Forall (indexed_by loc) b | None => True end).
  { destruct (f_body fn) as [b|].
    - pose proof (walk_body_good b s2) as H. destruct (walk_body b s2) as [b' s']. injection EB as <- <-.
      destruct H as (E & I & P & X). cbn. rewrite P. auto.
    - injection EB as <- <-. split; [apply extends_refl|]. split; [intros u I; now rewrite app_nil_r|auto]. }
  destruct HB as (EB' & IB & PB & XB).
  specialize (IB _ (IR _ (IL [] I0))). cbn [app] in IB. destruct IB as [J1 J2 J3 J4].
  set (loc := fun n => match find (fst s3) n with Some i => i | None => 0 end).
  assert (F : fits loc s3) by (intros n i H; unfold loc; now rewrite H).
  exists loc. split; [|split].
  - unfold resolved. cbn [f_left f_right f_body f_locals].
    split; [apply XL; eapply fits_extends; [exact ER|]; eapply fits_extends; eauto|].
    split; [apply XR; eapply fits_extends; eauto|]. split; [exact (XB loc F)|]. split; [exact J4|]. split.
    + intros n i H. apply J3 in H. unfold loc. now rewrite H.
    + intros n H. unfold loc in *. destruct (find (fst s3) n) as [[|i]|] eqn:E; try congruence.
      apply J3 in E. cbn. now rewrite Nat.sub_0_r.
  - unfold plain_func. cbn. now rewrite PL, PR, PB.
  - intros n. unfold loc. destruct (find (fst s3) n) as [[|i]|] eqn:E.
    + apply J2 in E. rewrite E. split; congruence.
    + split; [intros _|discriminate]. destruct (first_use n _) as [[|]|] eqn:Fu; auto.
      * apply J2 in Fu. congruence.
      * apply J1 in Fu. congruence.
    + apply J1 in E. rewrite E. split; congruence.
Qed.

(* ---- the order of evaluation ---- *)
Lemma first_use_cong n a a' b : first_use n a = first_use n a' -> first_use n (a ++ b) = first_use n (a' ++ b).
Proof. intros H. now rewrite !first_use_app, H. Qed.
Lemma body_order n body : forallb statement body = true -> forall before before', first_use n before = first_use n before' ->
  conditionals_agree before body -> first_use n (before' ++ concat (map (wuses false) body)) = first_use n (before ++ body_uses body).
Proof.
  unfold body_uses. induction body as [|e body IH]; intros S before before' Hb H; cbn [map concat]; [rewrite !app_nil_r; auto|].
  cbn in S. apply andb_prop in S. destruct S as [S1 S2]. cbn [conditionals_agree] in H. destruct H as [Hc H].
  rewrite !app_assoc. apply IH; auto. rewrite !first_use_app, Hb. destruct (first_use n before') eqn:F; auto.
  destruct e; cbn [statement] in S1; try (now rewrite wuses_uses).
  apply andb_prop in S1. destruct S1 as [N1 N2]. cbn [uses wuses]. rewrite !(wuses_uses _ N1), !(wuses_uses _ N2), !first_use_app.
  destruct (Hc n) as [K|[K|[K|K]]].
  - congruence.
  - rewrite K. now destruct (first_use n (uses false e2)).
  - rewrite K. now destruct (first_use n (uses false e1)).
  - rewrite K. now destruct (first_use n (uses false e2)).
Qed.

(* ---- well-formedness ---- *)
Lemma within_indexed loc k e : indexed_by loc e -> (forall s, loc s <= k) -> within k e = true.
Proof.
  induction e as [v|s i|o r IHr|o l r IHl IHr|l r IHl IHr|l IHl|l idx IHl IHidx] using expr_ind'; cbn [indexed_by within]; intros H L; auto.
  - subst i. now apply Nat.leb_le.
  - destruct H. now rewrite IHl, IHr.
  - destruct H. now rewrite IHl, IHr.
  - induction l as [|x l IH]; cbn in *; auto. inversion IHl; subst. destruct H as [Hx Hl]. rewrite H2 by auto. cbn. auto.
  - destruct H as [Hl Hi]. rewrite IHl by auto. cbn. clear IHl Hl. induction idx as [|o idx IH]; cbn in *; auto. inversion IHidx; subst.
    destruct Hi as [Hx Hl]. destruct o; [rewrite H1 by auto|]; cbn; auto.
Qed.
Lemma resolved_bound loc fn : resolved loc fn -> forall s, loc s <= length (f_locals fn).
Proof.
  intros (_ & _ & _ & _ & _ & H) s. destruct (Nat.eq_dec (loc s) 0) as [->|N]; [lia|].
  specialize (H s N). assert (nth_error (f_locals fn) (loc s - 1) <> None) by congruence. apply nth_error_Some in H0. lia.
Qed.
Lemma resolved_wf loc fn : (f_binary fn = true <-> f_left fn <> None) -> resolved loc fn -> wf_func fn.
Proof.
  intros Hb R. pose proof (resolved_bound _ _ R) as B. destruct R as (Hl & Hr & Hy & _). split; [exact Hb|]. split; [|split].
  - intros e E. rewrite E in Hl. eapply within_indexed; eauto.
  - eapply within_indexed; eauto.
  - intros body E. rewrite E in Hy. apply forallb_forall. intros x Hx. rewrite Forall_forall in Hy. eapply within_indexed; eauto.
Qed.
Lemma parsed_within d : 
  (forall ts e, Expr d ts e -> within 0 e = true) /\
  (forall c ts e, Operand d c ts e -> within 0 e = true) /\
  (forall c ts l, Elements d c ts l -> forallb (within 0) l = true) /\
  (forall c ts e, Element d c ts e -> within 0 e = true) /\
  (forall ts l, Indexes d ts l -> forallb (fun o => match o with Some e => within 0 e | None => true end) l = true) /\
  (forall ts o, Index d ts o -> match o with Some e => within 0 e | None => true end = true).
Proof.
  apply grammar_ind; intros; cbn [within forallb] in *;
    repeat match goal with H : ?x && true = true |- _ => rewrite andb_true_r in H end;
    repeat match goal with H : ?x = true |- context [?x] => rewrite H end; try reflexivity.
  unfold chars. clear. induction s as [|x s IH]; cbn; auto.
Qed.

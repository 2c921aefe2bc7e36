(* Printed expressions parse back. *)
From Coq Require Import String Lia.
From Verif Require Import Value Syntax ExecModel ExecProofs ParseModel ParseSpec ParseProofs ParseComplete.
Open Scope string_scope.
Open Scope list_scope.
Open Scope nat_scope.

Section Print.
Variable d : scope.
Variable tok : string -> token.
Notation Expr := (Expr d). Notation Operand := (Operand d). Notation Elements := (Elements d).
Notation Element := (Element d). Notation Indexes := (Indexes d). Notation Index := (Index d).
Notation print := (print tok).

Definition var_ok (s : string) : Prop := defined_unary d (trim s) = false.
Fixpoint printable (e : expr) : Prop :=
  match e with
  | EVal _ => True
  | EVar s i => i = 0 /\ var_ok s
  | EUnary o r => unop d (tok o) o /\ printable r
  | EBinary o l r => printable l /\ printable r /\ (if String.eqb o "=" then target l else binop d (tok o) o)
  | ECond _ _ => False
  | EVector l => length l <> 1 /\ fold_right (fun x P => (printable x /\ indexed_constant x = false) /\ P) True l /\ Forall (fun x => operator_named d x = false) (tl l)
  | EIndex l idx => idx <> [] /\ printable l /\ fold_right (fun o P => match o with Some x => printable x | None => True end /\ P) True idx
  end.

Fixpoint print_index (idx : list (option expr)) : list token :=
  match idx with
  | [] => []
  | [o] => match o with Some x => print x | None => [] end
  | o :: idx' => match o with Some x => print x | None => [] end ++ KSemi :: print_index idx'
  end.
Lemma print_EIndex l idx : print (EIndex l idx) = parens (compound l) (print l) ++ KLBrack :: print_index idx ++ [KRBrack].
Proof.
  reflexivity.
Qed.
Lemma all_chars_some l : forall cs, all_chars l = Some cs -> l = chars cs.
Proof.
  induction l as [|x l IH]; intros cs H; cbn in H; [now injection H as <-|].
  destruct x as [v| | | | | |]; try discriminate. destruct v; try discriminate.
  destruct (all_chars l) as [cs'|]; [|discriminate]. injection H as <-. cbn. now rewrite (IH cs' eq_refl).
Qed.
Lemma chars_length cs : length (chars cs) = length cs.
Proof. unfold chars. now rewrite map_length. Qed.

(* A variable with indexes. *)
Fixpoint var_based (e : expr) : bool := match e with EVar _ _ => true | EIndex l _ => var_based l | _ => false end.
Lemma simple_cases e : compound e = false -> indexed_constant e = false -> (exists v, e = EVal v) \/ var_based e = true.
Proof.
  induction e as [v|s i|o r IHr|o l r IHl IHr|l r IHl IHr|l IHl|l idx IHl IHidx] using expr_ind'; cbn [compound]; intros C K; try discriminate; eauto.
  right. cbn [var_based]. destruct l; cbn in C, K; try discriminate; auto. destruct (IHl C K) as [[v E]|E]; [discriminate|exact E].
Qed.
(* What printing gives: an expression; if the tree needs no parentheses an operand, and an
   element of a vector if it is a variable with indexes. *)
Definition good (e : expr) : Prop :=
  Expr (print e) e /\
  (compound e = false -> exists c, Operand c (print e) e /\ no_unop d (print e) /\
     (c = false -> Element false (print e) e) /\ (var_based e = true -> c = false)).

Lemma no_start {P : string -> bool} t ts ts' : (forall s, t = KId s -> P s = false) ->
  (forall s ts0, (t :: ts) ++ ts' = KId s :: ts0 -> P s = false).
Proof. intros H s ts0 E. injection E as -> _. auto. Qed.
Lemma no_unop_app a b : a <> [] -> no_unop d a -> no_unop d (a ++ b).
Proof. destruct a as [|t a]; [congruence|]. intros _ H s ts E. injection E as -> _. now apply (H s a). Qed.
Lemma no_op_app a b : a <> [] -> no_op d a -> no_op d (a ++ b).
Proof. destruct a as [|t a]; [congruence|]. intros _ H s ts E. injection E as -> _. now apply (H s a). Qed.
Lemma begins_nonempty P a : begins P a -> a <> [].
Proof. intros (t & ts & -> & _). discriminate. Qed.

(* with parentheses where needed, an operand and, not being an indexed constant, an element *)
Lemma wrapped e : good e ->
  exists c, Operand c (parens (compound e) (print e)) e /\ no_unop d (parens (compound e) (print e)) /\
    (c = false -> Element false (parens (compound e) (print e)) e) /\
    (indexed_constant e = false -> Element c (parens (compound e) (print e)) e).
Proof.
  intros [He Ho]. destruct (compound e) eqn:C; cbn [parens].
  2: { destruct (Ho eq_refl) as (c & O & Nu & Hv & Hc).
       destruct (indexed_constant e) eqn:K; [exists c; repeat split; auto; discriminate|].
       destruct (simple_cases e C K) as [[v ->]|V].
       - assert (X : Element true (print (EVal v)) (EVal v)) by (destruct v; first [apply g_num|apply g_char]).
         exists true. split; [now apply g_single, g_last|]. split; [auto|]. split; [discriminate|auto].
       - specialize (Hc V). subst c. exists false. repeat split; auto. }
  assert (X : Element true (KLParen :: print e ++ [KRParen]) e) by now apply g_paren.
  exists true. split; [now apply g_single, g_last|]. split; [intros s ts E; discriminate|].
  split; [discriminate|auto].
Qed.

Lemma indexes_good idx : idx <> [] -> Forall (fun o => match o with Some x => good x | None => True end) idx -> Indexes (print_index idx) idx.
Proof.
  induction idx as [|o idx IH]; intros N H; [congruence|]. inversion H; subst.
  assert (Io : Index (match o with Some x => print x | None => [] end) o).
  { destruct o as [x|]; [apply g_some; now destruct H2|apply g_none]. }
  cbn [print_index]. destruct idx as [|o' idx]; [now apply g_only|]. apply g_semi; auto. apply IH; auto. discriminate.
Qed.

Lemma simple_no_op e : compound e = false -> operator_named d e = false -> no_op d (print e).
Proof.
  induction e as [v|s i|o r IHr|o l r IHl IHr|l r IHl IHr|l IHl|l idx IHl IHidx] using expr_ind'; cbn [compound operator_named]; intros C K; try discriminate.
  - destruct v; intros s ts E; discriminate.
  - intros s' ts E. injection E as <- _. exact K.
  - rewrite print_EIndex, C. cbn [parens]. specialize (IHl C K). destruct (print l) as [|t ts0] eqn:El; [intros s ts E; discriminate|].
    intros s ts E. injection E as -> _. now apply (IHl s ts0).
Qed.
Lemma wrapped_no_op e : operator_named d e = false -> no_op d (parens (compound e) (print e)).
Proof.
  intros K. destruct (compound e) eqn:C; cbn [parens]; [intros s ts E; discriminate|]. now apply simple_no_op.
Qed.
Lemma elements_good l : l <> [] -> Forall (fun x => good x /\ indexed_constant x = false) l -> Forall (fun x => operator_named d x = false) (tl l) ->
  exists c, Elements c (concat (map (fun x => parens (compound x) (print x)) l)) l /\
    no_unop d (concat (map (fun x => parens (compound x) (print x)) l)).
Proof.
  induction l as [|x l IH]; intros N H O; [congruence|]. inversion H as [|? ? [Hx Cx] Hl]; subst. cbn [map concat].
  destruct (wrapped x Hx) as (c & _ & Hu & _ & He). specialize (He Cx).
  pose proof (begins_nonempty _ _ (element_starts _ _ _ _ He)) as Ne.
  destruct l as [|y l].
  - cbn [map concat]. rewrite app_nil_r. exists c. repeat split; auto. now apply g_last.
  - cbn [tl] in O. inversion O as [|? ? Oy Ol]; subst. destruct IH as (c2 & Hy & Hyu); [discriminate|auto|exact Ol|].
    exists c2. split; [|now apply no_unop_app]. apply g_more with (c' := c); auto.
    inversion Hl as [|? ? [Gy Cy] _]; subst. destruct (wrapped y Gy) as (cy & _ & _ & _ & Ey). specialize (Ey Cy).
    cbn [map concat]. apply no_op_app; [exact (begins_nonempty _ _ (element_starts _ _ _ _ Ey))|now apply wrapped_no_op].
Qed.

Lemma print_good e : printable e -> good e.
Proof.
  induction e as [v|s i|o r IHr|o l r IHl IHr|l r IHl IHr|l IHl|l idx IHl IHidx] using expr_ind'; intros H.
  - assert (X : Element true (print (EVal v)) (EVal v)) by (destruct v; first [apply g_num|apply g_char]).
    assert (U : forall s ts, print (EVal v) <> KId s :: ts) by (destruct v; discriminate).
    assert (O : Operand true (print (EVal v)) (EVal v)) by now apply g_single, g_last.
    assert (Nu : no_unop d (print (EVal v))) by (intros s ts E; now elim (U s ts)).
    split; [now apply g_operand with (c := true)|]. intros _. exists true. repeat split; auto. discriminate.
  - destruct H as [-> H1]. cbn [ParseModel.print].
    assert (Nu : no_unop d [KId s]) by (intros s' ts E; injection E as <- _; auto).
    assert (X : Element false [KId s] (EVar s 0)) by apply g_var.
    assert (O : Operand false [KId s] (EVar s 0)) by now apply g_single, g_last.
    split; [now apply g_operand with (c := false)|]. intros _. exists false. auto.
  - destruct H as [H1 H2]. split; [|discriminate]. cbn [ParseModel.print]. apply g_unary; auto. now apply IHr.
  - destruct H as (Hl & Hr & Ho). split; [|discriminate]. cbn [ParseModel.print].
    destruct (wrapped l (IHl Hl)) as (c & X & Hu & _). destruct (IHr Hr) as [Er _].
    destruct (String.eqb_spec o "=") as [->|N]; [now apply g_assign with (c := c)|now apply g_binary with (c := c)].
  - contradiction.
  - destruct H as (Hn & Hl & Hop). split; [|discriminate]. cbn [ParseModel.print]. destruct (all_chars l) as [cs|] eqn:A.
    + apply all_chars_some in A. subst l. rewrite chars_length in Hn.
      apply g_operand with (c := true); [|intros s ts E; discriminate]. apply g_single, g_last. now apply g_str.
    + assert (Ne : l <> []) by (intros ->; discriminate).
      assert (G : Forall (fun x => good x /\ indexed_constant x = false) l).
      { clear Hn A Ne Hop. induction l as [|x l IH]; constructor; inversion IHl; subst; cbn in Hl; destruct Hl as [[Hx Hc] Hl]; auto. }
      destruct (elements_good l Ne G Hop) as (c & Hc & Hu). apply g_operand with (c := c); auto.
      apply g_vector; auto. destruct l as [|x [|y l]]; cbn in *; try congruence; lia.
  - destruct H as (Ne & Hl & Hi). specialize (IHl Hl).
    assert (I : Indexes (print_index idx) idx).
    { apply indexes_good; auto. clear Ne. induction idx as [|o idx IH]; constructor; inversion IHidx; subst; cbn in Hi; destruct Hi as [Ho Hi]; auto.
      destruct o; auto. }
    destruct (wrapped l IHl) as (c & O & Hu & Hv & He).
    pose proof (begins_nonempty _ _ (operand_starts _ _ _ _ O)) as Np.
    assert (R : exists c, Operand c (print (EIndex l idx)) (EIndex l idx) /\ no_unop d (print (EIndex l idx)) /\
      (c = false -> Element false (print (EIndex l idx)) (EIndex l idx)) /\ (compound l = false -> var_based l = true -> c = false)).
    { rewrite print_EIndex. destruct (compound l) eqn:C.
      - cbn [parens] in *.
        assert (P : Operand true (KLParen :: print l ++ [KRParen]) l) by (apply g_single, g_last, g_paren; apply IHl).
        exists true. split; [now apply g_index|]. split; [now apply no_unop_app|]. split; discriminate.
      - cbn [parens] in *. destruct IHl as [_ G]. destruct (G C) as (c' & O' & _ & Hv' & Hc'). destruct c'.
        + exists true. split; [now apply g_index|]. split; [now apply no_unop_app|]. split; [discriminate|].
          intros _ V. exact (Hc' V).
        + exists false. specialize (Hv' eq_refl).
          assert (X : Element false (print l ++ KLBrack :: print_index idx ++ [KRBrack]) (EIndex l idx)) by now apply g_var_index.
          split; [now apply g_single, g_last|]. split; [now apply no_unop_app|]. auto. }
    destruct R as (c' & O' & Nu & Hv' & Hc'). split; [now apply g_operand with (c := c')|].
    cbn [compound var_based]. intros C. exists c'. auto 10.
Qed.

(* ---- what the parser makes is printable ---- *)
Lemma names_vector l x : names_apart d (EVector l) -> In x l -> names_apart d x.
Proof. intros H Hx s Hs. apply H. cbn. apply in_concat. exists (variables x). split; auto. now apply in_map. Qed.
Lemma parsed_all :
  (forall ts e, Expr ts e -> Forall (scanned tok) ts -> names_apart d e -> separable d e = true -> printable e) /\
  (forall c ts e, Operand c ts e -> Forall (scanned tok) ts -> names_apart d e -> separable d e = true -> printable e) /\
  (forall c ts l, Elements c ts l -> Forall (scanned tok) ts -> (forall x, In x l -> names_apart d x /\ separable d x = true) -> Forall printable l) /\
  (forall c ts e, Element c ts e -> Forall (scanned tok) ts -> names_apart d e -> separable d e = true -> printable e) /\
  (forall ts l, Indexes ts l -> Forall (scanned tok) ts -> (forall x, In (Some x) l -> names_apart d x /\ separable d x = true) ->
     l <> [] /\ Forall (fun o => match o with Some x => printable x | None => True end) l) /\
  (forall ts o, Index ts o -> Forall (scanned tok) ts ->
     match o with Some x => names_apart d x -> separable d x = true -> printable x | None => True end).
Proof.
  assert (Nl : forall l r o, names_apart d (EBinary o l r) -> names_apart d l /\ names_apart d r).
  { intros l r o H. split; intros s Hs; apply H; cbn; apply in_or_app; auto. }
  assert (Ni : forall l idx, names_apart d (EIndex l idx) -> names_apart d l /\ forall x, In (Some x) idx -> names_apart d x).
  { intros l idx H. split; [intros s Hs; apply H; cbn; apply in_or_app; auto|]. intros x Hx s Hs. apply H. cbn. apply in_or_app. right.
    apply in_concat. exists (variables x). split; auto. apply in_map_iff. exists (Some x). auto. }
  assert (Si : forall l idx, separable d (EIndex l idx) = true -> separable d l = true /\ forall x, In (Some x) idx -> separable d x = true).
  { intros l idx H. cbn in H. apply andb_prop in H. destruct H as [H1 H2]. split; auto. rewrite forallb_forall in H2. intros x Hx. exact (H2 _ Hx). }
  assert (Pi : forall l, Forall (fun o => match o with Some x => printable x | None => True end) l ->
    fold_right (fun o P => match o with Some x => printable x | None => True end /\ P) True l).
  { induction 1; cbn; auto. }
  assert (Mid : forall (a : list token) t b, Forall (scanned tok) (a ++ t :: b) -> Forall (scanned tok) a /\ scanned tok t /\ Forall (scanned tok) b).
  { intros a t b H. apply Forall_app in H. destruct H as [H1 H2]. inversion H2; auto. }
  assert (Idx : forall ts e ts' idx, (Forall (scanned tok) ts -> names_apart d e -> separable d e = true -> printable e) ->
    (Forall (scanned tok) ts' -> (forall x, In (Some x) idx -> names_apart d x /\ separable d x = true) ->
       idx <> [] /\ Forall (fun o => match o with Some x => printable x | None => True end) idx) ->
    Forall (scanned tok) (ts ++ KLBrack :: ts' ++ [KRBrack]) -> names_apart d (EIndex e idx) -> separable d (EIndex e idx) = true -> printable (EIndex e idx)).
  { intros ts e ts' idx He Hi Ht Hn Hs. destruct (Mid _ _ _ Ht) as (H1 & _ & H2). apply Forall_app in H2. destruct H2 as [H2 _].
    destruct (Ni _ _ Hn) as [N1 N2]. destruct (Si _ _ Hs) as [S1 S2].
    destruct (Hi H2 (fun x Hx => conj (N2 x Hx) (S2 x Hx))) as [Ne Hp]. cbn [printable]. auto. }
  apply grammar_ind; intros; auto.
  - (* unary *)
    match goal with H : Forall _ (t :: ts) |- _ => inversion H; subst end. cbn [printable]. split; auto.
    destruct u as [o|s Hd]; cbn in *; match goal with H : tok _ = _ /\ _ |- _ => destruct H as [-> _] end; now constructor.
  - (* binary *)
    destruct (Mid _ _ _ H1) as (F1 & Ft & F2). destruct (Nl _ _ _ H2) as [N1 N2]. cbn in H3. apply andb_prop in H3. destruct H3 as [S1 S2].
    cbn [printable]. split; [auto|]. split; [auto|].
    destruct b as [o|s Hd]; cbn in Ft; destruct Ft as [Et Ne]; destruct (String.eqb_spec o "=") as [?|?] || destruct (String.eqb_spec s "=") as [?|?];
      try contradiction; rewrite Et; now constructor.
  - (* assignment *)
    destruct (Mid _ _ _ H1) as (F1 & Ft & F2). destruct (Nl _ _ _ H2) as [N1 N2]. cbn in H3. apply andb_prop in H3. destruct H3 as [S1 S2].
    cbn [printable]. auto.
  - (* single *)
    assert (F : Forall printable [e]) by (apply H; auto; intros x [<-|[]]; auto). now inversion F.
  - (* vector *)
    assert (F : Forall printable l).
    { apply H; auto. intros x Hx. split; [now apply names_vector with (l := l)|]. cbn in H2. apply andb_prop in H2. destruct H2 as [H2 _].
      rewrite forallb_forall in H2. specialize (H2 x Hx). now apply andb_prop in H2. }
    cbn [printable]. split; [lia|]. cbn in H2. apply andb_prop in H2. destruct H2 as [H2 H3]. rewrite forallb_forall in H2, H3.
    split; [|apply Forall_forall; intros x Hx; apply negb_true_iff; auto].
    clear H3. clear -F H2. induction l as [|x l IH]; cbn; auto. inversion F; subst. split.
    + split; auto. specialize (H2 x (or_introl eq_refl)). apply andb_prop in H2. destruct H2 as [H2 _]. now apply negb_true_iff in H2.
    + apply IH; auto. intros y Hy. apply H2. now right.
  - eapply Idx; eauto.
  - constructor; auto. apply H; auto; apply H1; now left.
  - apply Forall_app in H1. destruct H1 as [F1 F2]. constructor; [apply H; auto; apply H2; now left|]. apply H0; auto. intros x Hx. apply H2. now right.
  - exact I.
  - exact I.
  - cbn [printable]. rewrite chars_length. split; auto. split; [clear; induction s as [|c s IH]; cbn; auto|]. destruct s as [|c s]; cbn; auto. clear. induction s; cbn; constructor; auto.
  - apply H; auto. inversion H0 as [|? ? _ F]; subst. now apply Forall_app in F.
  - split; auto. apply H0. now left.
  - eapply Idx; eauto.
  - split; [discriminate|]. constructor; auto. destruct o as [x|]; auto. destruct (H1 x (or_introl eq_refl)). auto.
  - destruct (Mid _ _ _ H1) as (F1 & _ & F2). split; [discriminate|]. destruct H0 as [_ H0]; auto; [intros x Hx; apply H2; now right|].
    constructor; auto. destruct o as [x|]; auto. destruct (H2 x (or_introl eq_refl)). apply H; auto.
Qed.

Lemma print_parse ts e n n' : p_expr d n ts = POk e [] -> Forall (scanned tok) ts -> names_apart d e -> separable d e = true ->
  length (print e) < n' -> p_expr d n' (print e) = POk e [].
Proof.
  intros H Ht Hn Hs Hl. destruct (p_expr_sound d _ _ _ _ H) as (u & E & He & _). rewrite app_nil_r in E. subst u.
  pose proof (proj1 parsed_all _ _ He Ht Hn Hs) as Hp. destruct (print_good e Hp) as [Hg _].
  rewrite <-(app_nil_r (print e)) at 1. apply p_expr_complete; auto; [exact I|]. now rewrite app_nil_r.
Qed.
End Print.

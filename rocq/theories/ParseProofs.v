(* The parser and the grammar: soundness, and enough steps. *)
From Coq Require Import String Lia.
From Verif Require Import Value Syntax ExecModel ExecProofs ParseModel ParseSpec.
Open Scope string_scope.
Open Scope list_scope.
Open Scope nat_scope.

Definition no_brack (ts : list token) : Prop := match ts with KLBrack :: _ => False | _ => True end.
(* the tokens an element can start with *)
Definition starts_element (t : token) : Prop :=
  match t with KNum _ | KStr _ | KId _ | KLParen => True | _ => False end.
Definition starts_expr (t : token) : Prop :=
  match t with KNum _ | KStr _ | KId _ | KLParen | KOp _ => True | _ => False end.
Definition begins (P : token -> Prop) (ts : list token) : Prop := exists t ts', ts = t :: ts' /\ P t.

Lemma check_target e : check_assign e = true <-> target e.
Proof.
  induction e as [v|s i|o r IHr|o l r IHl IHr|l r IHl IHr|l IHl|l idx IHl IHidx] using expr_ind';
    cbn [check_assign]; (split; intros H; try discriminate; try (inversion H; fail); try reflexivity; try constructor).
  - rewrite Forall_forall in *. rewrite forallb_forall in H. intros x Hx. apply (IHl x Hx). auto.
  - inversion H as [| |? F]; subst. rewrite Forall_forall in *. rewrite forallb_forall. intros x Hx. apply (IHl x Hx). auto.
  - intros e' l' ->. discriminate.
  - inversion H as [|? ? N|]; subst. destruct l; try reflexivity. now elim (N l index).
Qed.

Section Proofs.
Variable d : scope.
Notation Expr := (Expr d). Notation Operand := (Operand d). Notation Elements := (Elements d).
Notation Element := (Element d). Notation Indexes := (Indexes d). Notation Index := (Index d).

Lemma starts_all :
  (forall ts e, Expr ts e -> begins starts_expr ts) /\
  (forall c ts e, Operand c ts e -> begins starts_element ts) /\
  (forall c ts l, Elements c ts l -> begins starts_element ts) /\
  (forall c ts e, Element c ts e -> begins starts_element ts) /\
  (forall ts l, Indexes ts l -> True) /\
  (forall ts o, Index ts o -> True).
Proof.
  assert (W : forall t, starts_element t -> starts_expr t) by (intros []; cbn; auto).
  assert (A : forall P a b, begins P a -> begins P (a ++ b)).
  { intros P a b (t & ts & -> & H). exists t, (ts ++ b). auto. }
  assert (V : forall a, begins starts_element a -> begins starts_expr a).
  { intros a (t & ts & -> & H). exists t, ts. auto. }
  apply grammar_ind; intros; auto; try (eexists; eexists; split; [reflexivity|exact I]).
  match goal with H : unop _ _ _ |- _ => destruct H end; eexists; eexists; split; try reflexivity; exact I.
Qed.
Lemma expr_starts ts e : Expr ts e -> begins starts_expr ts.
Proof. apply starts_all. Qed.
Lemma operand_starts c ts e : Operand c ts e -> begins starts_element ts.
Proof. apply starts_all. Qed.
Lemma elements_starts c ts l : Elements c ts l -> begins starts_element ts.
Proof. apply starts_all. Qed.
Lemma element_starts c ts e : Element c ts e -> begins starts_element ts.
Proof. apply starts_all. Qed.
Lemma begins_app P a b : begins P a -> begins P (a ++ b).
Proof. intros (t & ts & -> & H). exists t, (ts ++ b). auto. Qed.
Lemma begins_no_brack P a : begins P a -> (P KLBrack -> False) -> no_brack a.
Proof. intros (t & ts & -> & H) N. destruct t; cbn; auto. Qed.
Lemma stops_no_brack a : stops a -> no_brack a.
Proof. destruct a as [|[]]; cbn; auto. Qed.
Lemma stops_expr ts e rest : Expr ts e -> ~ stops (ts ++ rest).
Proof. intros H. destruct (expr_starts _ _ H) as (t & ts' & -> & Ht). destruct t; cbn in *; auto. Qed.

Lemma eval_string_element s : Element true [KStr (Some s)] (eval_string s).
Proof.
  unfold eval_string. destruct s as [|c [|c' s]]; [apply (g_str d []); cbn; lia|apply g_char|].
  apply (g_str d (c :: c' :: s)). cbn. lia.
Qed.

(* ---- soundness ---- *)
Section Sound.
Variable ex : list token -> pr expr.
Variable k : nat.
Hypothesis Hex : forall ts e rest, ex ts = POk e rest -> exists used, ts = used ++ rest /\ Expr used e /\ stops rest.

Lemma index_list_sound j : forall seen acc ts l rest, index_list ex j seen acc ts = POk l rest ->
  (seen = true -> stops ts) ->
  exists used tail, ts = used ++ rest /\ l = acc ++ tail /\ (exists r, rest = KRBrack :: r) /\
    (if seen then (used = [] /\ tail = []) \/ exists u, used = KSemi :: u /\ Indexes u tail else Indexes used tail).
Proof.
  assert (Snoc : forall (a b : list (option expr)) x, (a ++ [x]) ++ b = a ++ x :: b) by (intros; rewrite <-app_assoc; reflexivity).
  induction j as [|j IH]; intros seen acc ts l rest H Hs; [discriminate|]. cbn [index_list] in H.
  assert (Default : pbind (ex ts) (fun e ts' => index_list ex j true (acc ++ [Some e]) ts') = POk l rest ->
    exists used tail, ts = used ++ rest /\ l = acc ++ tail /\ (exists r, rest = KRBrack :: r) /\
    (if seen then (used = [] /\ tail = []) \/ exists u, used = KSemi :: u /\ Indexes u tail else Indexes used tail)).
  { clear H. intros H. destruct (ex ts) as [e ts'| |] eqn:E; try discriminate. cbn in H.
    destruct (Hex _ _ _ E) as (u0 & -> & He & Hst).
    destruct seen; [now elim (stops_expr _ _ ts' He); auto|].
    destruct (IH _ _ _ _ _ H) as (u1 & tail & -> & -> & Hr & [[-> ->]|(u & -> & Hi)]); auto.
    - exists u0, [Some e]. rewrite Snoc. repeat split; auto. now apply g_only, g_some.
    - exists (u0 ++ KSemi :: u), (Some e :: tail). rewrite Snoc, <-app_assoc. repeat split; auto. apply g_semi; auto. now apply g_some. }
  destruct ts as [|[] ts]; auto.
  - injection H as <- <-. destruct seen.
    + exists [], []. rewrite app_nil_r. repeat split; eauto.
    + exists [], [None]. repeat split; eauto. apply g_only, g_none.
  - destruct (IH _ _ _ _ _ H) as (u & tail & -> & -> & Hr & Hi); [discriminate|]. destruct seen.
    + exists (KSemi :: u), tail. repeat split; eauto.
    + exists (KSemi :: u), (None :: tail). rewrite Snoc. repeat split; eauto. exact (g_semi d [] None u tail (g_none d) Hi).
Qed.

Lemma index_loop_sound j : forall e ts e' rest, index_loop ex k j e ts = POk e' rest ->
  exists used, ts = used ++ rest /\ no_brack rest /\ (no_brack ts -> used = [] /\ e' = e) /\
    (forall base, Element false base e -> Element false (base ++ used) e') /\
    (forall base, Operand true base e -> Operand true (base ++ used) e').
Proof.
  assert (Stop : forall e ts e' rest, no_brack ts -> POk e ts = POk e' rest ->
    exists used, ts = used ++ rest /\ no_brack rest /\ (no_brack ts -> used = [] /\ e' = e) /\
    (forall base, Element false base e -> Element false (base ++ used) e') /\
    (forall base, Operand true base e -> Operand true (base ++ used) e')).
  { intros e ts e' rest N H. injection H as <- <-. exists []. repeat split; auto; intros; rewrite app_nil_r; auto. }
  induction j as [|j IH]; intros e ts e' rest H.
  - destruct ts as [|[] ts]; cbn in H; try discriminate; refine (Stop _ _ _ _ _ H); exact I.
  - destruct ts as [|[] ts]; try (refine (Stop _ _ _ _ _ H); exact I; fail).
    cbn [index_loop] in H. destruct (index_list ex k false [] ts) as [l ts2| |] eqn:E; try discriminate. cbn in H.
    destruct ts2 as [|[] ts3]; try discriminate.
    destruct (index_list_sound _ _ _ _ _ _ E) as (u & tail & -> & Hl & _ & Hi); [discriminate|]. cbn in Hl. subst l.
    destruct (IH _ _ _ _ H) as (u2 & -> & Hn & _ & H1 & H2).
    assert (R : forall base, base ++ KLBrack :: u ++ KRBrack :: u2 = (base ++ KLBrack :: u ++ [KRBrack]) ++ u2).
    { intros base. rewrite <-!app_assoc. cbn. rewrite <-app_assoc. reflexivity. }
    exists (KLBrack :: u ++ KRBrack :: u2). split; [cbn; rewrite <-app_assoc; reflexivity|]. split; [auto|].
    split; [intros []|]. split.
    + intros base Hb. rewrite R. apply H1. now apply g_var_index.
    + intros base Hb. rewrite R. apply H2. now apply g_index.
Qed.

Lemma number_sound t ts e rest : number ex k t ts = POk e rest ->
  exists c used, ts = used ++ rest /\ Element c (t :: used) e /\ (c = false -> no_brack rest).
Proof.
  unfold number. intros H. destruct t as [[v|]|[s|]|s| | | | | | | | | | | |]; try discriminate.
  - injection H as <- <-. exists true, []. repeat split; [apply g_num|discriminate].
  - injection H as <- <-. exists true, []. repeat split; [apply eval_string_element|discriminate].
  - destruct (index_loop_sound _ _ _ _ _ H) as (u & -> & Hn & _ & He & _). exists false, u.
    repeat split; auto. apply (He [KId s]). apply g_var.
  - destruct (ex ts) as [e1 ts1| |] eqn:E; try discriminate. cbn in H. destruct ts1 as [|[] ts2]; try discriminate.
    injection H as <- <-. destruct (Hex _ _ _ E) as (u & -> & He & _).
    exists true, (u ++ [KRParen]). rewrite <-app_assoc. repeat split; [now apply g_paren|discriminate].
Qed.

(* what follows the elements of a vector *)
Definition after_elements (ts : list token) : Prop :=
  match ts with KLParen :: _ | KNum _ :: _ | KStr _ :: _ => False | KId s :: _ => defined_op d s = true | _ => True end.
Lemma elements_sound j : forall acc ts l rest, elements d ex k j acc ts = POk l rest ->
  after_elements rest /\
  exists used tail, ts = used ++ rest /\ l = acc ++ tail /\
    ((used = [] /\ tail = []) \/
     exists c, Elements c used tail /\ no_op d used /\ (c = false -> no_brack rest)).
Proof.
  assert (Nil : forall acc ts l rest, after_elements ts -> POk acc ts = POk l rest ->
    after_elements rest /\
    exists used tail, ts = used ++ rest /\ l = acc ++ tail /\
    ((used = [] /\ tail = []) \/ exists c, Elements c used tail /\ no_op d used /\ (c = false -> no_brack rest))).
  { intros acc ts l rest Ha H. injection H as <- <-. split; [exact Ha|]. exists [], []. split; [reflexivity|].
    split; [symmetry; apply app_nil_r|left; auto]. }
  induction j as [|j IH]; intros acc ts l rest H.
  - destruct ts as [|t ts]; [refine (Nil _ _ _ _ _ H); exact I|].
    destruct t as [v|s|nm|o| | | | | | | | | | |]; cbn in H; try discriminate; try (refine (Nil _ _ _ _ _ H); exact I).
    destruct (defined_op d nm) eqn:E; [|discriminate]. refine (Nil _ _ _ _ _ H). exact E.
  - assert (More : forall t ts0, ts = t :: ts0 -> no_op d ts -> pbind (number ex k t ts0) (fun e ts2 => elements d ex k j (acc ++ [e]) ts2) = POk l rest ->
      after_elements rest /\ exists used tail, ts = used ++ rest /\ l = acc ++ tail /\
      ((used = [] /\ tail = []) \/ exists c, Elements c used tail /\ no_op d used /\ (c = false -> no_brack rest))).
    { clear H. intros t ts0 -> Hn H. destruct (number ex k t ts0) as [e ts2| |] eqn:E; try discriminate. cbn in H.
      destruct (number_sound _ _ _ _ E) as (c & u & -> & He & Hc).
      destruct (IH _ _ _ _ H) as (Ha & u2 & tail & -> & -> & Ht). split; auto.
      exists ((t :: u) ++ u2), (e :: tail). rewrite <-!app_assoc. repeat split; auto. right.
      assert (No : no_op d (t :: u ++ u2)).
      { intros s ts' Es. injection Es as -> _. apply (Hn s (u ++ u2 ++ rest)). reflexivity. }
      destruct Ht as [[-> ->]|(c2 & H2 & N2 & Hc2)].
      - exists c. rewrite app_nil_r in *. repeat split; auto. now apply g_last.
      - exists c2. repeat split; auto. now apply g_more with (c' := c). }
    destruct ts as [|t ts]; [refine (Nil _ _ _ _ _ H); exact I|].
    destruct t as [v|s|nm|o| | | | | | | | | | |]; cbn [elements] in H; try (refine (Nil _ _ _ _ _ H); exact I);
      try (refine (More _ _ eq_refl _ H); intros s' ts' Es; discriminate).
    destruct (defined_op d nm) eqn:E; [refine (Nil _ _ _ _ _ H); exact E|].
    refine (More _ _ eq_refl _ H). intros s' ts' Es. injection Es as -> _. exact E.
Qed.

Lemma number_or_vector_sound t ts e rest : number_or_vector d ex k t ts = POk e rest ->
  exists c used, ts = used ++ rest /\ Operand c (t :: used) e /\ (c = false -> no_brack rest) /\ after_elements rest.
Proof.
  unfold number_or_vector. intros H. destruct (number ex k t ts) as [e1 ts1| |] eqn:E; try discriminate. cbn in H.
  destruct (elements d ex k k [e1] ts1) as [l ts2| |] eqn:E2; try discriminate. cbn in H.
  assert (ts2 = rest) by (injection H; auto). subst ts2.
  assert (He : e = match l with [x] => x | _ => EVector l end) by (injection H; auto). clear H.
  destruct (number_sound _ _ _ _ E) as (c & u & -> & Hu & Hc).
  destruct (elements_sound _ _ _ _ _ E2) as (Ha & u2 & tail & -> & -> & [[-> ->]|(c2 & H2 & N2 & Hc2)]).
  - subst e. exists c, u. repeat split; auto. now apply g_single, g_last.
  - assert (Hl : 1 <= length tail) by (inversion H2; cbn; lia).
    destruct tail as [|x tail]; [cbn in Hl; lia|]. subst e. exists c2, (u ++ u2). rewrite <-app_assoc. repeat split; auto.
    apply g_vector; [|cbn; lia]. apply (g_more d c2 c (t :: u) e1 u2 (x :: tail)); auto.
Qed.

Lemma operand_sound t ts e rest : operand d ex k t ts = POk e rest ->
  exists used, ts = used ++ rest /\
    ((stops rest /\ Expr (t :: used) e) \/ (no_unop d (t :: used) /\ exists c, Operand c (t :: used) e)).
Proof.
  unfold operand. intros H.
  destruct (match t with KOp o => _ | _ => _ end) as [e1 ts1| |] eqn:E in H; try discriminate. cbn in H.
  destruct (index_loop_sound _ _ _ _ _ H) as (u2 & -> & Hn & Hz & H1 & H2).
  assert (Un : forall o, unop d t o -> pbind (ex ts) (fun e ts' => POk (EUnary o e) ts') = POk e1 (u2 ++ rest) ->
    exists used, ts = used ++ rest /\ stops rest /\ Expr (t :: used) e).
  { intros o Ho Eo. destruct (ex ts) as [e2 ts2| |] eqn:Ee; try discriminate. cbn in Eo. injection Eo as <- ->.
    destruct (Hex _ _ _ Ee) as (u & -> & He & Hs). destruct (Hz (stops_no_brack _ Hs)) as [-> ->].
    exists u. repeat split; auto. now apply g_unary. }
  assert (Vec : (forall s, t = KId s -> defined_unary d (trim s) = false) -> number_or_vector d ex k t ts = POk e1 (u2 ++ rest) ->
    exists used, ts = used ++ rest /\ no_brack rest /\ no_unop d (t :: used) /\ exists c, Operand c (t :: used) e).
  { intros Ht Ev. destruct (number_or_vector_sound _ _ _ _ Ev) as (c & u & -> & Hu & Hc & Ha).
    exists (u ++ u2). rewrite <-app_assoc. split; [reflexivity|]. split; [auto|]. split.
    - intros s ts' Es. injection Es as -> _. auto.
    - destruct c; [exists true; apply (H2 (t :: u)); auto|].
      destruct (Hz (Hc eq_refl)) as [-> ->]. rewrite app_nil_r. eauto. }
  assert (Fin : (exists used, ts = used ++ rest /\ stops rest /\ Expr (t :: used) e) \/
                (exists used, ts = used ++ rest /\ no_brack rest /\ no_unop d (t :: used) /\ exists c, Operand c (t :: used) e)).
  { destruct t; try discriminate; try (right; apply Vec; auto; intros; discriminate).
    - destruct (defined_unary d (trim name)) eqn:Eu.
      + left. apply (Un name); auto. now constructor.
      + right. apply Vec; auto. intros s Es. now injection Es as <-.
    - left. apply (Un op); auto. constructor. }
  destruct Fin as [(u & -> & Hs & He)|(u & -> & Hn2 & Hu & c & Hc)]; exists u; eauto 10.
Qed.

Lemma expr_step_sound ts e rest : expr_step d ex k ts = POk e rest ->
  exists used, ts = used ++ rest /\ Expr used e /\ stops rest.
Proof.
  unfold expr_step. destruct ts as [|t ts]; [discriminate|]. intros H.
  destruct (operand d ex k t ts) as [l ts1| |] eqn:E; try discriminate. cbn [pbind] in H.
  destruct (operand_sound _ _ _ _ E) as (u & -> & Hu). clear E.
  assert (X : Expr (t :: u) l).
  { destruct Hu as [[_ He]|[N [c Hc]]]; auto. now apply g_operand with (c := c). }
  assert (End : stops ts1 -> POk l ts1 = POk e rest -> exists used, t :: u ++ ts1 = used ++ rest /\ Expr used e /\ stops rest).
  { intros Hs Ee. injection Ee as <- <-. exists (t :: u). auto. }
  assert (Op : forall t2 o ts2, ts1 = t2 :: ts2 -> ~ stops ts1 ->
     (forall ts r, (exists c, Operand c (t :: u) l) -> no_unop d (t :: u) -> Expr ts r -> Expr ((t :: u) ++ t2 :: ts) (EBinary o l r)) ->
     pbind (ex ts2) (fun r ts3 => POk (EBinary o l r) ts3) = POk e rest ->
     exists used, t :: u ++ ts1 = used ++ rest /\ Expr used e /\ stops rest).
  { intros t2 o ts2 -> Hs G Ee. destruct (ex ts2) as [r ts3| |] eqn:Er; try discriminate. cbn in Ee. injection Ee as <- <-.
    destruct (Hex _ _ _ Er) as (u2 & -> & Hr & Hst). exists ((t :: u) ++ t2 :: u2). rewrite <-app_assoc. repeat split; auto.
    destruct Hu as [[K _]|[N C]]; [contradiction|]. apply G; auto. }
  destruct ts1 as [|t1 ts1]; [now apply End|].
  destruct t1; try discriminate; try (apply End; [exact I|exact H]).
  - destruct (defined_binary d name) eqn:Eb; [|discriminate]. eapply Op; [reflexivity|auto| |exact H].
    intros ts' r [c Hc] N Hr. apply g_binary with (c := c); auto. now constructor.
  - eapply Op; [reflexivity|auto| |exact H].
    intros ts' r [c Hc] N Hr. apply g_binary with (c := c); auto. constructor.
  - destruct (check_assign l) eqn:Ec; [|discriminate]. eapply Op; [reflexivity|auto| |exact H].
    intros ts' r [c Hc] N Hr. apply g_assign with (c := c); auto. now apply check_target.
Qed.
End Sound.

Theorem p_expr_sound n : forall ts e rest, p_expr d n ts = POk e rest ->
  exists used, ts = used ++ rest /\ Expr used e /\ stops rest.
Proof.
  induction n as [|n IH]; intros ts e rest H; [discriminate|]. cbn [p_expr] in H.
  exact (expr_step_sound _ _ IH _ _ _ H).
Qed.
End Proofs.

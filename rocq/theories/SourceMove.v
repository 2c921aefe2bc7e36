(* Parsing a printed definition where other operators are defined than when it was made. *)
From Coq Require Import String Lia.
From Verif Require Import Value Syntax ExecModel ExecProofs ParseModel ParseSpec ParseProofs ParseComplete ParsePrint ParseVars ParseDefn.
From Verif Require SourceModel.
Notation applied := SourceModel.applied.
Open Scope string_scope.
Open Scope list_scope.
Open Scope nat_scope.

(* ---- expressions ---- *)
Lemma applied_list : forall l x o, In x l -> In o (applied x) -> In o (applied (EVector l)).
Proof.
  induction l as [|y l IH]; intros x o I O; [destruct I|]. cbn [SourceModel.applied]. apply in_or_app. destruct I as [-> |I]; [right; exact O|left; exact (IH x o I O)].
Qed.
Lemma applied_index : forall l idx x o, In (Some x) idx -> In o (applied x) -> In o (applied (EIndex l idx)).
Proof.
  intros l idx x o I O. cbn [SourceModel.applied]. apply in_or_app. left. induction idx as [|y idx IH]; [destruct I|]. apply in_or_app. destruct I as [-> |I]; [right; exact O|left; exact (IH I)].
Qed.
Section Move.
Variables (d d' : scope) (tok tok' : string -> token).
Hypothesis un : forall s, defined_unary d' s = true -> defined_unary d s = true.
Hypothesis op : forall s, defined_op d' s = true -> defined_op d s = true.
Definition moves (x : string * bool) : Prop :=
  if snd x then fst x = "=" \/ (binop d (tok (fst x)) (fst x) -> binop d' (tok' (fst x)) (fst x))
  else unop d (tok (fst x)) (fst x) -> unop d' (tok' (fst x)) (fst x).
Lemma named_move e : operator_named d e = false -> operator_named d' e = false.
Proof.
  induction e; cbn; auto. intros H. destruct (defined_op d' name) eqn:E; auto. rewrite (op _ E) in H. discriminate.
Qed.
Lemma printable_move e : printable d tok e -> (forall x, In x (applied e) -> moves x) -> printable d' tok' e.
Proof.
  induction e as [v|s i|o r IHr|o l r IHl IHr|l r IHl IHr|l IHl|l idx IHl IHidx] using expr_ind'; intros P M; cbn [ParsePrint.printable] in *.
  - exact P.
  - destruct P as [P1 P2]. split; [exact P1|]. unfold var_ok in *. destruct (defined_unary d' (trim s)) eqn:E; auto. rewrite (un _ E) in P2. discriminate.
  - destruct P as [P1 P2]. split; [|apply IHr; [exact P2|intros x X; apply M; cbn; apply in_or_app; auto]].
    apply (M (o, false)); [cbn; apply in_or_app; right; left; reflexivity|exact P1].
  - destruct P as (P1 & P2 & P3). split; [apply IHl; [exact P1|intros x X; apply M; cbn; apply in_or_app; right; apply in_or_app; auto]|].
    split; [apply IHr; [exact P2|intros x X; apply M; cbn; apply in_or_app; auto]|].
    destruct (String.eqb_spec o "="); [exact P3|].
    destruct (M (o, true)) as [Q|Q]; [cbn; apply in_or_app; right; apply in_or_app; right; left; reflexivity|contradiction|exact (Q P3)].
  - exact P.
  - destruct P as (P1 & P2 & P3). split; [exact P1|]. split.
    + clear P1 P3. assert (F : forall x, In x l -> forall y, In y (applied x) -> moves y) by (intros x X y Y; apply M; exact (applied_list l x y X Y)). clear M.
      induction l as [|x l IH]; [exact P2|]. cbn [fold_right] in *. inversion IHl as [|? ? I1 I2]; subst. destruct P2 as [[A B] C].
      split; [split; [apply I1; [exact A|apply F; left; reflexivity]|exact B]|]. apply IH; auto. intros z Z. apply F. right. exact Z.
    + apply Forall_forall. intros x X. rewrite Forall_forall in P3. apply named_move. auto.
  - destruct P as (P1 & P2 & P3). split; [exact P1|]. split; [apply IHl; [exact P2|intros x X; apply M; cbn [SourceModel.applied]; apply in_or_app; right; exact X]|].
    assert (F : forall x, In (Some x) idx -> forall y, In y (applied x) -> moves y) by (intros x X y Y; apply M; exact (applied_index l idx x y X Y)). clear M P1 P2.
    induction idx as [|o idx IH]; [exact P3|]. cbn [fold_right] in *. inversion IHidx as [|? ? I1 I2]; subst. destruct P3 as [A C].
    split; [destruct o as [x|]; [apply I1; [exact A|apply F; left; reflexivity]|exact A]|]. apply IH; auto. intros z Z. apply F. right. exact Z.
Qed.
(* a statement *)
Definition parts (e : expr) : list expr := match e with ECond l r => [l; r] | _ => [e] end.
Definition stated (d : scope) (tok : string -> token) (e : expr) : Prop := Forall (printable d tok) (parts e).
Lemma applied_parts e e' x : In e' (parts e) -> In x (applied e') -> In x (applied e).
Proof.
  destruct e; cbn [parts]; intros [<-|I] X; try (exact X); try (destruct I).
  - cbn. apply in_or_app. right. apply in_or_app. left. exact X.
  - subst. cbn. apply in_or_app. left. exact X.
  - destruct H.
Qed.
Lemma stated_move e : stated d tok e -> (forall x, In x (applied e) -> x = (":", true) \/ moves x) -> (forall e', In e' (parts e) -> forall x, In x (applied e') -> x <> (":", true)) -> stated d' tok' e.
Proof.
  unfold stated. intros P M N. rewrite Forall_forall in *. intros e' I. apply printable_move; [exact (P e' I)|].
  intros x X. destruct (M x (applied_parts e e' x I X)) as [Q|Q]; [|exact Q]. exfalso. exact (N e' I x X Q).
Qed.
End Move.
Lemma statement_stated d tok ts e : Statement d ts e -> Forall (scanned tok) ts -> names_apart d e -> separable d e = true -> stated d tok e.
Proof.
  intros [ts' e' H|ts1 l ts2 r H1 H2] Ht Hn Hs.
  - pose proof (proj1 (parsed_all d tok) _ _ H Ht Hn Hs) as P. unfold stated, parts. destruct e'; try (constructor; [exact P|constructor]). destruct P.
  - apply Forall_app in Ht. destruct Ht as [T1 T2]. inversion T2; subst. cbn in Hs. apply andb_prop in Hs. destruct Hs as [S1 S2].
    assert (N1 : names_apart d l) by (intros s Hx; apply Hn; cbn; apply in_or_app; auto).
    assert (N2 : names_apart d r) by (intros s Hx; apply Hn; cbn; apply in_or_app; auto).
    constructor; [exact (proj1 (parsed_all d tok) _ _ H1 T1 N1 S1)|]. constructor; [exact (proj1 (parsed_all d tok) _ _ H2 H4 N2 S2)|constructor].
Qed.
Lemma stated_statement d tok e : stated d tok e -> Statement d (print tok e) e.
Proof.
  intros P. destruct e as [v|s i|o r|o l r|l r|l|l idx]; try (apply g_expr, print_good; exact (Forall_inv P)).
  cbn [ParseModel.print]. inversion P as [|? ? P1 P2]; subst. apply g_cond.
  - destruct (wrapped d tok l (print_good d tok l P1)) as (c & O & U & _). now apply g_operand with (c := c).
  - apply print_good. exact (Forall_inv P2).
Qed.

(* ---- definitions ---- *)
Section Defn.
Variables bu bb : string -> bool.
Definition arguments_ok (fn0 fn : func) : Prop :=
  f_body fn0 = None /\ f_locals fn0 = [] /\ rejected fn0 = false /\ f_name fn = f_name fn0 /\ f_binary fn = f_binary fn0 /\ Arg (print_arg (f_right fn)) (f_right fn0) /\
  match f_left fn0 with
  | Some e => f_binary fn0 = true /\ exists e', f_left fn = Some e' /\ Arg (print_arg e') e
  | None => f_binary fn0 = false /\ f_left fn = None
  end.
Definition completed (fn0 : func) (body : option (list expr)) : func :=
  func_vars (mkFunc (f_binary fn0) (f_name fn0) (f_left fn0) (f_right fn0) body []).
Lemma completed_body fn0 : f_body (completed fn0 None) = None.
Proof.
  destruct (func_vars_good (mkFunc (f_binary fn0) (f_name fn0) (f_left fn0) (f_right fn0) None [])) as (loc & _ & P & _).
  apply (f_equal f_body) in P. cbn in P. unfold completed. destruct (f_body _); [discriminate|reflexivity].
Qed.
Lemma definition_parts tok u b ts more fn0 fn body :
  parse_tokens bu bb u b (KDef :: ts) more = LDefine fn0 fn true -> f_body fn = Some body ->
  Forall (scanned tok) ts -> Forall (Forall (scanned tok)) more ->
  Forall (fun e => names_apart (def_scope bu bb u b fn0) e /\ separable (def_scope bu bb u b fn0) e = true) body ->
  arguments_ok fn0 fn /\ body <> [] /\ fn = completed fn0 (Some (map plain body)) /\ Forall (stated (def_scope bu bb u b fn0) tok) (map plain body).
Proof.
  intros H Hbody Hts Hmore Hsep. unfold parse_tokens in H. destruct (has_err (KDef :: ts)) eqn:Er; [discriminate|].
  rewrite function_defn_eq in H. destruct (defn_head ts) as [[fn0' rest0]|] eqn:Eh; [|discriminate].
  unfold defn_rest in H. destruct (rejected fn0') eqn:Rj; [discriminate|].
  set (d := def_scope bu bb u b fn0') in *.
  assert (X : exists raw, raw <> [] /\ fn0 = fn0' /\ fn = completed fn0' (Some raw) /\
    Forall (fun e => exists ts, Statement d ts e /\ Forall (scanned tok) ts) raw).
  { destruct (defn_head_sound _ _ _ Eh) as (_ & _ & tl & tr & _ & Ets & _).
    assert (Hr0 : Forall (scanned tok) rest0).
    { rewrite Ets in Hts. apply Forall_app in Hts. destruct Hts as [_ Hts]. inversion Hts as [|? ? _ Ht2]; subst. apply Forall_app in Ht2. tauto. }
    destruct rest0 as [|t rest0].
    { assert (Ef : fn = completed fn0' None) by (injection H; auto). rewrite Ef, completed_body in Hbody. discriminate. }
    inversion Hr0 as [|? ? _ Hr1]; subst. destruct t; try discriminate.
    destruct (match rest0 with [] => _ | _ => _ end) as [[|e raw]|] eqn:Eb; try discriminate.
    assert (E1 : fn0' = fn0) by (injection H; auto).
    assert (E2 : completed fn0' (Some (e :: raw)) = fn) by (injection H; auto).
    exists (e :: raw). split; [discriminate|]. split; [auto|]. split; [auto|].
    destruct rest0 as [|t rest0].
    - now apply body_lines_each with (lines := more).
    - destruct (expression_list _ _ (t :: rest0)) as [l r| |] eqn:E; try discriminate. injection Eb as ->.
      apply expression_list_sound in E. destruct E as [_ E]. now apply statements_each with (ts := t :: rest0). }
  destruct X as (raw & Ne & -> & Ef & Hraw). fold d in Hsep.
  destruct (func_vars_good (mkFunc (f_binary fn0') (f_name fn0') (f_left fn0') (f_right fn0') (Some raw) [])) as (loc & _ & P & _).
  unfold completed in Ef. rewrite <-Ef in P.
  assert (Wr : map plain raw = raw).
  { clear -Hraw. induction Hraw as [|e raw (ts & He & _) _ IH]; auto. cbn. rewrite IH. f_equal. apply plain_within. exact (statement_within _ _ _ He). }
  assert (Pb : map plain body = raw).
  { apply (f_equal f_body) in P. cbn in P. rewrite Hbody in P. cbn in P. rewrite Wr in P. now injection P. }
  assert (Pl := f_equal f_left P). assert (Pr := f_equal f_right P). assert (Pn := f_equal f_name P). assert (Pbin := f_equal f_binary P). cbn in Pl, Pr, Pn, Pbin.
  destruct (defn_head_sound _ _ _ Eh) as (Hb0 & Hl0 & tl & tr & Ar & _ & Hleft).
  assert (Wright : plain (f_right fn0') = f_right fn0') by (apply plain_within; exact (proj1 arg_within _ _ Ar)).
  assert (Wleft : option_map plain (f_left fn0') = f_left fn0').
  { destruct (f_left fn0') as [e|]; auto. cbn. f_equal. apply plain_within. destruct Hleft as [_ Ha]. exact (proj1 arg_within _ _ Ha). }
  rewrite Wright in Pr. rewrite Wleft in Pl.
  assert (Tr : tr = print_arg (f_right fn)).
  { rewrite <-print_arg_plain, Pr. exact (proj1 print_arg_good _ _ Ar). }
  split; [|split; [intros ->; apply Ne; symmetry; exact Pb|split; [unfold completed; rewrite Pb; exact Ef|]]].
  - split; [exact Hb0|]. split; [exact Hl0|]. split; [exact Rj|]. split; [exact Pn|]. split; [exact Pbin|]. split; [rewrite <-Tr; exact Ar|].
    destruct (f_left fn0') as [e|]; destruct Hleft as [Hl Ha].
    + split; [exact Hl|]. destruct (f_left fn) as [e'|]; [|discriminate]. exists e'. split; [reflexivity|]. cbn in Pl. injection Pl as Pl. rewrite <-print_arg_plain, Pl, <-(proj1 print_arg_good _ _ Ha). exact Ha.
    + split; [exact Hl|]. destruct (f_left fn); [discriminate|reflexivity].
  - clear -Hraw Hsep Pb. subst raw. induction body as [|e body IH]; cbn in *; constructor; inversion Hraw as [|? ? (ts & He & Ht) Hr]; inversion Hsep as [|? ? [Hn Hs] Hs']; subst; auto.
    apply statement_stated with (ts := ts); auto; [|now rewrite separable_plain]. intros s Hx. rewrite variables_plain in Hx. auto.
Qed.
Lemma header_parse fn0 fn rest : arguments_ok fn0 fn -> (match rest with KId _ :: _ | KLParen :: _ => False | _ => True end) -> has_err rest = false ->
  let ts := match f_left fn with Some e => print_arg e | None => [] end ++ KId (f_name fn) :: print_arg (f_right fn) ++ rest in
  has_err ts = false /\ defn_head ts = Some (fn0, rest).
Proof.
  intros (Hb0 & Hl0 & Rj & Pn & Pb & Ar & Hleft) NR Er. cbv zeta. rewrite Pn. split.
  - repeat (rewrite has_err_app || rewrite has_err_cons). cbn [is_err orb]. rewrite Er, (proj1 no_err_arg _ _ Ar).
    destruct (f_left fn0) as [e|]; destruct Hleft as [_ Ha]; [destruct Ha as (e' & -> & Ha); rewrite (proj1 no_err_arg _ _ Ha); reflexivity|rewrite Ha; reflexivity].
  - apply defn_head_complete; auto. destruct (f_left fn0) as [e|]; destruct Hleft as [Hl Ha]; [destruct Ha as (e' & -> & Ha); auto|rewrite Ha; auto].
Qed.
Lemma declaration_parse u b fn0 fn more : arguments_ok fn0 fn ->
  parse_tokens bu bb u b (KDef :: match f_left fn with Some e => print_arg e | None => [] end ++ KId (f_name fn) :: print_arg (f_right fn)) more = LDefine fn0 (completed fn0 None) true.
Proof.
  intros A. destruct (header_parse fn0 fn [] A Logic.I eq_refl) as [E1 E2]. rewrite app_nil_r in E1, E2. unfold parse_tokens. rewrite has_err_cons, E1. cbn [is_err orb].
  rewrite function_defn_eq, E2. unfold defn_rest. destruct A as (_ & _ & -> & _). reflexivity.
Qed.
Lemma definition_parse tok u b fn0 fn body rest : arguments_ok fn0 fn -> f_body fn = Some body -> body <> [] -> fn = completed fn0 (Some (map plain body)) ->
  Forall (stated (def_scope bu bb u b fn0) tok) (map plain body) -> (rest = [] \/ exists r, rest = [] :: r) ->
  parse_tokens bu bb u b (fst (print_func tok fn)) (snd (print_func tok fn) ++ rest) = LDefine fn0 fn true.
Proof.
  intros A Hbody Ne Ef St Hrest. set (d := def_scope bu bb u b fn0) in *. set (raw := map plain body) in *.
  assert (Pr_raw : Forall (fun e => Statement d (print tok e) e) raw) by (eapply Forall_impl; [|exact St]; intros e; apply stated_statement).
  assert (Mp : map (print tok) body = map (print tok) raw) by (unfold raw; rewrite map_map; apply map_ext; intros; symmetry; apply print_plain).
  assert (Fst : exists tail, fst (print_func tok fn) = KDef :: match f_left fn with Some e => print_arg e | None => [] end ++ KId (f_name fn) :: print_arg (f_right fn) ++ KAssign :: tail /\ has_err tail = false /\
    (match tail with [] => body_lines d (snd (print_func tok fn) ++ rest)
     | _ => match expression_list d (enough tail) tail with POk l _ => Some l | _ => None end end) = Some raw).
  { unfold print_func. rewrite Hbody. cbn [fst snd]. destruct body as [|e0 [|e1 body]]; [congruence| |].
    - cbn [map] in Mp. unfold raw in *. cbn [map] in *. injection Mp as Mp. rewrite Mp. eexists. split; [reflexivity|].
      pose proof (Forall_inv Pr_raw) as He. cbv beta in He. destruct (statement_ne _ _ _ He) as [Nn Hx]. split; [exact Hx|].
      rewrite (expression_list_complete d _ _ _ (g_stmt d _ _ He)) by (unfold enough; lia).
      destruct (print tok (plain e0)); [congruence|reflexivity].
    - exists []. split; [reflexivity|]. split; [reflexivity|]. rewrite Mp. apply body_lines_print; assumption. }
  destruct Fst as (tail & E1 & E2 & E3). rewrite E1. unfold parse_tokens.
  destruct (header_parse fn0 fn (KAssign :: tail) A Logic.I E2) as [H1 H2]. rewrite has_err_cons, H1. cbn [is_err orb].
  rewrite function_defn_eq, H2. unfold defn_rest. destruct A as (_ & _ & -> & _). fold d. rewrite E3.
  assert (Rn : raw <> []) by (unfold raw; destruct body; [congruence|discriminate]). clearbody raw. destruct raw as [|e raw]; [congruence|]. rewrite Ef. reflexivity.
Qed.
End Defn.

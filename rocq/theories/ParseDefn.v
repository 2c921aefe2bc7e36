(* Definitions of operators: arguments, lines, and the printed form of an operator. *)
From Coq Require Import String Lia.
From Verif Require Import Value Syntax ExecModel ExecSpec ExecProofs ParseModel ParseSpec ParseProofs ParseComplete ParsePrint ParseVars.
Open Scope string_scope.
Open Scope list_scope.
Open Scope nat_scope.

Lemma arg_starts : (forall ts e, Arg ts e -> exists t ts', ts = t :: ts' /\ t <> KRParen) /\ (forall ts l, Args ts l -> True).
Proof. apply arg_ind; intros; auto; eexists; eexists; split; try reflexivity; discriminate. Qed.
Lemma args_loop_more f j acc t ts : t <> KRParen ->
  args_loop f (S j) acc (t :: ts) = pbind (f (t :: ts)) (fun e ts2 => args_loop f j (acc ++ [e]) ts2).
Proof. destruct t; try reflexivity. congruence. Qed.
Lemma func_arg_complete_all :
  (forall ts e, Arg ts e -> forall rest n, length (ts ++ rest) <= n -> func_arg n (ts ++ rest) = POk e rest) /\
  (forall ts l, Args ts l -> forall rest n j acc, length (ts ++ KRParen :: rest) <= n -> length (ts ++ KRParen :: rest) <= j ->
     args_loop (func_arg n) j acc (ts ++ KRParen :: rest) = POk (EVector (acc ++ l)) rest).
Proof.
  apply arg_ind.
  - intros s rest [|n] H; [cbn in H; lia|]. reflexivity.
  - intros ts l Hl IH rest [|n] H; [cbn in H; lia|]. cbn [app length func_arg] in *. rewrite <-app_assoc in *. cbn [app] in *. apply IH; lia.
  - intros rest n j acc Hn Hj. cbn [app] in *. rewrite app_nil_r. destruct j; reflexivity.
  - intros ts e ts' l He IHe Hl IHl rest n j acc Hn Hj. rewrite <-app_assoc in *.
    destruct (proj1 arg_starts _ _ He) as (t & ts0 & -> & Ht). destruct j as [|j]; [cbn in Hj; lia|]. cbn [app] in *.
    rewrite args_loop_more by auto. specialize (IHe (ts' ++ KRParen :: rest) n). cbn [app] in IHe. rewrite IHe by auto. cbn [pbind].
    rewrite IHl.
    + rewrite <-app_assoc. reflexivity.
    + cbn [length] in Hn. rewrite app_length in Hn. lia.
    + cbn [length] in Hj. rewrite app_length in Hj. lia.
Qed.
Lemma func_arg_complete ts e rest n : Arg ts e -> length (ts ++ rest) <= n -> func_arg n (ts ++ rest) = POk e rest.
Proof. intros H. apply (proj1 func_arg_complete_all _ _ H). Qed.
Lemma func_arg_sound n : forall ts e rest, func_arg n ts = POk e rest -> exists used, ts = used ++ rest /\ Arg used e.
Proof.
  induction n as [|n IH]; intros ts e rest H; [discriminate|]. cbn [func_arg] in H.
  destruct ts as [|t ts]; [discriminate|]. destruct t; try discriminate.
  - injection H as <- <-. exists [KId name]. split; [reflexivity|constructor].
  - assert (L : forall j acc ts e rest, args_loop (func_arg n) j acc ts = POk e rest ->
      exists used l, ts = used ++ KRParen :: rest /\ Args used l /\ e = EVector (acc ++ l)).
    { clear ts e rest H. induction j as [|j IHj]; intros acc ts e rest H.
      - destruct ts as [|[] ts]; try discriminate. cbn in H. injection H as <- <-. exists [], []. rewrite app_nil_r. repeat split. constructor.
      - destruct ts as [|t ts].
        + cbn [args_loop] in H. destruct (func_arg n []) as [e1 ts2| |] eqn:E; try discriminate.
          destruct (IH _ _ _ E) as (u & Eu & Ha). destruct (proj1 arg_starts _ _ Ha) as (? & ? & -> & _). discriminate.
        + assert (D : t = KRParen \/ t <> KRParen) by (destruct t; auto; right; discriminate). destruct D as [->|Ht].
          * cbn in H. injection H as <- <-. exists [], []. rewrite app_nil_r. repeat split. constructor.
          * rewrite args_loop_more in H by auto. destruct (func_arg n (t :: ts)) as [e1 ts2| |] eqn:E; try discriminate. cbn [pbind] in H.
            destruct (IH _ _ _ E) as (u & Eu & Ha). destruct (IHj _ _ _ _ H) as (u2 & l & -> & Hl & ->).
            exists (u ++ u2), (e1 :: l). rewrite <-!app_assoc. split; [exact Eu|]. split; [now constructor|reflexivity]. }
    destruct (L _ _ _ _ _ H) as (u & l & -> & Hl & ->). exists (KLParen :: u ++ [KRParen]). cbn [app]. rewrite <-app_assoc.
    split; [reflexivity|]. now constructor.
Qed.
Lemma func_arg_fuel n : forall ts, length ts < n -> func_arg n ts <> PFuel.
Proof.
  induction n as [|n IH]; intros ts H; [lia|]. cbn [func_arg]. destruct ts as [|t ts]; [discriminate|]. destruct t; try discriminate.
  cbn in H.
  assert (L : forall j acc ts, length ts < n -> length ts < j -> args_loop (func_arg n) j acc ts <> PFuel).
  { clear ts H. induction j as [|j IHj]; intros acc ts H1 H2; [lia|].
    assert (M : pbind (func_arg n ts) (fun e ts2 => args_loop (func_arg n) j (acc ++ [e]) ts2) <> PFuel).
    { destruct (func_arg n ts) as [e ts2| |] eqn:E; cbn [pbind]; [|discriminate|now elim (IH ts)].
      destruct (func_arg_sound _ _ _ _ E) as (u & -> & Ha). destruct (proj1 arg_starts _ _ Ha) as (? & ? & -> & _).
      cbn in H1, H2. rewrite app_length in H1, H2. apply IHj; lia. }
    destruct ts as [|[] ts]; try exact M; discriminate. }
  apply L; lia.
Qed.
Lemma arg_within : (forall ts e, Arg ts e -> within 0 e = true) /\ (forall ts l, Args ts l -> forallb (within 0) l = true).
Proof. apply arg_ind; intros; cbn; auto. now rewrite H, H0. Qed.

(* ---- what the parser makes of a line is well-formed ---- *)
Lemma statement_within d ts e : Statement d ts e -> within 0 e = true.
Proof.
  intros [ts' e' H|ts1 l ts2 r H1 H2].
  - exact (proj1 (parsed_within d) _ _ H).
  - cbn. now rewrite (proj1 (parsed_within d) _ _ H1), (proj1 (parsed_within d) _ _ H2).
Qed.
Lemma statements_within d ts l : Statements d ts l -> forallb (within 0) l = true.
Proof.
  induction 1 as [ts e H|ts e ts' l H Hl IH]; cbn.
  - now rewrite (statement_within _ _ _ H).
  - now rewrite (statement_within _ _ _ H), IH.
Qed.
Lemma expression_list_sound d n ts l rest : expression_list d n ts = POk l rest -> rest = [] /\ Statements d ts l.
Proof.
  unfold expression_list. intros H. destruct (statement_list d n ts) as [l' ts1| |] eqn:E; try discriminate. cbn in H.
  destruct ts1; [|discriminate]. injection H as <- <-. split; [reflexivity|].
  destruct (statement_sound d _ _ _ _ E) as (u & -> & Hs & _). now rewrite app_nil_r.
Qed.
Lemma expression_list_complete d n ts l : Statements d ts l -> length ts < n -> expression_list d n ts = POk l [].
Proof.
  intros H Hn. unfold expression_list. rewrite <-(app_nil_r ts). rewrite (statement_complete d _ _ H); [reflexivity|exact I|discriminate|discriminate|].
  now rewrite app_nil_r.
Qed.

Section Defn.
Variable bu bb : string -> bool.

Definition rejected (fn0 : func) : bool :=
  let args := match f_left fn0 with Some e => walk_vars e | None => [] end ++ walk_vars (f_right fn0) in
  (f_binary fn0 && String.eqb (f_name fn0) "o") || (existsb (String.eqb (f_name fn0)) args || negb (distinct args)).
(* what follows the arguments *)
Definition defn_rest (u b : table func) (fn0 : func) (rest : list token) (more : list (list token)) : line :=
  if rejected fn0 then LBad
  else
    let complete body := func_vars (mkFunc (f_binary fn0) (f_name fn0) (f_left fn0) (f_right fn0) body []) in
    match rest with
    | [] => LDefine fn0 (complete None) true
    | KAssign :: ts4 =>
      match (match ts4 with
             | [] => body_lines (def_scope bu bb u b fn0) more
             | _ => match expression_list (def_scope bu bb u b fn0) (enough ts4) ts4 with POk l _ => Some l | _ => None end
             end) with
      | None | Some [] => LDefine fn0 fn0 false
      | Some body => LDefine fn0 (complete (Some body)) true
      end
    | _ => LDefine fn0 fn0 false
    end.
(* the arguments: the function as first installed, and the tokens left *)
Definition defn_head (ts : list token) : option (func * list token) :=
  match func_arg (enough ts) ts with
  | POk a0 ts1 =>
    match func_arg (enough ts1) ts1 with
    | POk a1 ts2 =>
      let third := match ts2 with KId _ :: _ | KLParen :: _ => true | _ => false end in
      match (if third then match func_arg (enough ts2) ts2 with POk a2 ts3 => Some (Some a2, ts3) | _ => None end
             else Some (None, ts2)) with
      | None => None
      | Some (a2, ts3) =>
        match (if third then a1 else a0) with
        | EVar name _ =>
          Some (mkFunc third name (if third then Some a0 else None) (match a2 with Some e => e | None => a1 end) None [], ts3)
        | _ => None
        end
      end
    | _ => None
    end
  | _ => None
  end.
Lemma function_defn_eq undef u b ts more : function_defn bu bb undef u b ts more =
  match defn_head ts with
  | None => LBad
  | Some (fn0, rest) =>
    if undef then match rest with [] => LDelete (f_name fn0) (f_binary fn0) | _ => LBad end
    else defn_rest u b fn0 rest more
  end.
Proof.
  unfold function_defn, defn_head. destruct (func_arg (enough ts) ts) as [a0 ts1| |]; try reflexivity.
  destruct (func_arg (enough ts1) ts1) as [a1 ts2| |]; try reflexivity.
  destruct (match ts2 with KId _ :: _ | KLParen :: _ => true | _ => false end) eqn:T3.
  - destruct (func_arg (enough ts2) ts2) as [a2 ts3| |]; try reflexivity. destruct a1; try reflexivity.
    destruct undef; [reflexivity|]. unfold defn_rest, rejected, def_scope. cbn [f_binary f_name f_left f_right].
    destruct (true && (name =? "o")%string); [reflexivity|]. cbn [orb]. reflexivity.
  - destruct a0; try reflexivity.
Qed.
Lemma defn_head_sound ts fn0 rest : defn_head ts = Some (fn0, rest) ->
  f_body fn0 = None /\ f_locals fn0 = [] /\
  exists tl tr, Arg tr (f_right fn0) /\ ts = tl ++ KId (f_name fn0) :: tr ++ rest /\
    match f_left fn0 with Some e => f_binary fn0 = true /\ Arg tl e | None => f_binary fn0 = false /\ tl = [] end.
Proof.
  unfold defn_head. intros H. destruct (func_arg (enough ts) ts) as [a0 ts1| |] eqn:E0; try discriminate.
  destruct (func_arg (enough ts1) ts1) as [a1 ts2| |] eqn:E1; try discriminate.
  destruct (func_arg_sound _ _ _ _ E0) as (u0 & -> & A0). destruct (func_arg_sound _ _ _ _ E1) as (u1 & -> & A1).
  destruct (match ts2 with KId _ :: _ | KLParen :: _ => true | _ => false end) eqn:T3.
  - destruct (func_arg (enough ts2) ts2) as [a2 ts3| |] eqn:E2; try discriminate. destruct (func_arg_sound _ _ _ _ E2) as (u2 & -> & A2).
    destruct a1; try discriminate. assert (Hf := f_equal (option_map fst) H). assert (Hr := f_equal (option_map snd) H). cbn in Hf, Hr.
    injection Hf as <-. injection Hr as <-. cbn. split; [reflexivity|]. split; [reflexivity|]. inversion A1; subst.
    exists u0, u2. repeat split; auto.
  - destruct a0; try discriminate. assert (Hf := f_equal (option_map fst) H). assert (Hr := f_equal (option_map snd) H). cbn in Hf, Hr.
    injection Hf as <-. injection Hr as <-. cbn. split; [reflexivity|]. split; [reflexivity|]. inversion A0; subst.
    exists [], u1. repeat split; auto.
Qed.
Lemma defn_head_complete fn0 tl tr rest : f_body fn0 = None -> f_locals fn0 = [] -> Arg tr (f_right fn0) ->
  match f_left fn0 with Some e => f_binary fn0 = true /\ Arg tl e | None => f_binary fn0 = false /\ tl = [] end ->
  (match rest with KId _ :: _ | KLParen :: _ => False | _ => True end) ->
  defn_head (tl ++ KId (f_name fn0) :: tr ++ rest) = Some (fn0, rest).
Proof.
  intros Hb Hl Hr Hleft Hrest. unfold defn_head, enough. destruct fn0 as [bin name left right body locals].
  cbn [f_binary f_name f_left f_right f_body f_locals] in *. subst body locals.
  destruct left as [e|].
  - destruct Hleft as [-> Ha]. rewrite (func_arg_complete _ _ (KId name :: tr ++ rest) _ Ha) by lia.
    rewrite (func_arg_complete [KId name] (EVar name 0) (tr ++ rest)); [|constructor|cbn; lia].
    destruct (proj1 arg_starts _ _ Hr) as (t & ts' & Et & _).
    assert (T : match tr ++ rest with KId _ :: _ | KLParen :: _ => true | _ => false end = true).
    { destruct Hr; reflexivity. }
    rewrite T. rewrite (func_arg_complete _ _ rest _ Hr) by lia. reflexivity.
  - destruct Hleft as [-> ->]. cbn [app]. rewrite (func_arg_complete [KId name] (EVar name 0) (tr ++ rest)); [|constructor|cbn; lia].
    rewrite (func_arg_complete _ _ rest _ Hr) by lia.
    assert (T : match rest with KId _ :: _ | KLParen :: _ => true | _ => false end = false) by (destruct rest as [|[]]; auto; contradiction).
    rewrite T. reflexivity.
Qed.

Lemma complete_wf fn0 body : (f_binary fn0 = true <-> f_left fn0 <> None) ->
  wf_func (func_vars (mkFunc (f_binary fn0) (f_name fn0) (f_left fn0) (f_right fn0) body [])).
Proof.
  intros Hb. destruct (func_vars_good (mkFunc (f_binary fn0) (f_name fn0) (f_left fn0) (f_right fn0) body [])) as (loc & R & P & _).
  apply resolved_wf with (loc := loc); auto. assert (P1 := f_equal f_left P). assert (P2 := f_equal f_binary P). cbn in P1, P2. rewrite P2.
  rewrite Hb. destruct (f_left (func_vars _)), (f_left fn0); cbn in P1; try discriminate; split; congruence.
Qed.
Lemma func_vars_same fn : f_name (func_vars fn) = f_name fn /\ f_binary (func_vars fn) = f_binary fn.
Proof.
  unfold func_vars. destruct (match f_left fn with Some e => _ | None => _ end) as [l s1]. destruct (walk true (f_right fn) s1) as [r s2].
  destruct (match f_body fn with Some b => _ | None => _ end) as [y s3]. auto.
Qed.
Lemma parse_tokens_wf u b ts more : wf_line wf_func (parse_tokens bu bb u b ts more).
Proof.
  assert (D : forall undef ts, wf_line wf_func (function_defn bu bb undef u b ts more)).
  { clear ts. intros undef ts. rewrite function_defn_eq. destruct (defn_head ts) as [[fn0 rest]|] eqn:E; [|exact I].
    destruct undef; [destruct rest; exact I|]. unfold defn_rest. destruct (rejected fn0); [exact I|].
    destruct (defn_head_sound _ _ _ E) as (Hb & Hl & tl & tr & Ar & _ & Hleft).
    assert (B : f_binary fn0 = true <-> f_left fn0 <> None).
    { destruct (f_left fn0); destruct Hleft as [-> _]; split; congruence. }
    assert (W0 : wf_func fn0).
    { split; [exact B|]. rewrite Hl. cbn [length]. split; [|split].
      - intros e Ee. rewrite Ee in Hleft. destruct Hleft as [_ Ha]. exact (proj1 arg_within _ _ Ha).
      - exact (proj1 arg_within _ _ Ar).
      - rewrite Hb. discriminate. }
    assert (Good : forall body, wf_line wf_func (LDefine fn0 (func_vars (mkFunc (f_binary fn0) (f_name fn0) (f_left fn0) (f_right fn0) body [])) true)).
    { intros body. cbn [wf_line]. destruct (func_vars_same (mkFunc (f_binary fn0) (f_name fn0) (f_left fn0) (f_right fn0) body [])) as [-> ->].
      split; [reflexivity|]. split; [reflexivity|]. split; [exact W0|]. now apply complete_wf. }
    assert (Bad : wf_line wf_func (LDefine fn0 fn0 false)) by (cbn [wf_line]; auto).
    destruct rest as [|t rest]; [apply Good|]. destruct t; try exact Bad.
    destruct (match rest with [] => _ | _ => _ end) as [[|e body]|]; auto. }
  unfold parse_tokens. destruct (has_err ts); [exact I|].
  assert (L : wf_line wf_func (match expression_list (mkScope bu bb (names u) (names b) []) (enough ts) ts with POk l _ => LExprs l | _ => LBad end)).
  { destruct (expression_list _ (enough ts) ts) as [l rest| |] eqn:E; try exact I.
    apply expression_list_sound in E. destruct E as [_ E]. exact (statements_within _ _ _ E). }
  destruct ts as [|t ts]; [reflexivity|]. destruct t; try exact L; try exact I; apply D.
Qed.
End Defn.

(* ---- printed definitions ---- *)
Section PrintDefn.
Variable tok : string -> token.
Notation print := (print tok).

Lemma all_chars_plain l : all_chars (map plain l) = all_chars l.
Proof. induction l as [|x l IH]; auto. destruct x as [v| | | | | |]; cbn; auto. now rewrite IH. Qed.
Lemma compound_plain e : compound (plain e) = compound e.
Proof. induction e using expr_ind'; cbn; auto. Qed.
Lemma print_plain e : print (plain e) = print e.
Proof.
  induction e as [v|s i|o r IHr|o l r IHl IHr|l r IHl IHr|l IHl|l idx IHl IHidx] using expr_ind'; cbn [plain]; auto.
  - cbn [ParseModel.print]. now rewrite IHr.
  - cbn [ParseModel.print]. now rewrite IHl, IHr, compound_plain.
  - cbn [ParseModel.print]. now rewrite IHl, IHr, compound_plain.
  - cbn [ParseModel.print]. rewrite all_chars_plain. destruct (all_chars l); auto. f_equal. rewrite map_map. apply map_ext_in.
    intros x Hx. rewrite Forall_forall in IHl. now rewrite compound_plain, IHl.
  - rewrite !print_EIndex, IHl, compound_plain. f_equal. f_equal. f_equal. induction IHidx as [|o idx Ho _ IH]; auto.
    assert (E : match option_map plain o with Some x => print x | None => [] end = match o with Some x => print x | None => [] end) by (destruct o; auto).
    cbn [map print_index]. rewrite E. destruct idx as [|o' idx]; auto. cbn [map] in *. now rewrite IH.
Qed.
Lemma variables_plain e : variables (plain e) = variables e.
Proof.
  induction e as [v|s i|o r IHr|o l r IHl IHr|l r IHl IHr|l IHl|l idx IHl IHidx] using expr_ind'; cbn; auto; try congruence.
  - f_equal. rewrite map_map. apply map_ext_in. now rewrite Forall_forall in IHl.
  - rewrite IHl. f_equal. f_equal. rewrite map_map. apply map_ext_in. intros o Ho. rewrite Forall_forall in IHidx. specialize (IHidx o Ho). destruct o; auto.
Qed.
Lemma indexed_constant_plain e : indexed_constant (plain e) = indexed_constant e.
Proof. induction e as [| | | | | |e idx IH _] using expr_ind'; cbn; auto. rewrite <-IH. destruct e; reflexivity. Qed.
Lemma operator_named_plain d e : operator_named d (plain e) = operator_named d e.
Proof. induction e using expr_ind'; cbn; auto. Qed.
Lemma forallb_map' {A B} (f : B -> bool) (g : A -> B) l : forallb f (map g l) = forallb (fun x => f (g x)) l.
Proof. induction l; cbn; congruence. Qed.
Lemma forallb_ext_in {A} (f g : A -> bool) l : (forall x, In x l -> f x = g x) -> forallb f l = forallb g l.
Proof. induction l as [|a l IH]; intros H; cbn; auto. rewrite H by now left. f_equal. apply IH. intros; apply H; now right. Qed.
Lemma separable_plain d e : separable d (plain e) = separable d e.
Proof.
  induction e as [v|s i|o r IHr|o l r IHl IHr|l r IHl IHr|l IHl|l idx IHl IHidx] using expr_ind'; cbn [plain separable]; auto; try congruence.
  - rewrite forallb_map'. assert (T : tl (map plain l) = map plain (tl l)) by (destruct l; auto). rewrite T, forallb_map'. rewrite Forall_forall in IHl.
    f_equal; apply forallb_ext_in; intros x Hx; [now rewrite indexed_constant_plain, IHl|now rewrite operator_named_plain].
  - rewrite IHl, forallb_map'. f_equal. apply forallb_ext_in. intros o Ho. rewrite Forall_forall in IHidx. specialize (IHidx o Ho). destruct o; auto.
Qed.
Lemma plain_within e : within 0 e = true -> plain e = e.
Proof.
  induction e as [v|s i|o r IHr|o l r IHl IHr|l r IHl IHr|l IHl|l idx IHl IHidx] using expr_ind'; cbn [plain within]; intros H; auto.
  - f_equal. apply Nat.leb_le in H. lia.
  - now rewrite IHr.
  - apply andb_prop in H. destruct H. now rewrite IHl, IHr.
  - apply andb_prop in H. destruct H. now rewrite IHl, IHr.
  - f_equal. induction IHl as [|x l Hx _ IH]; auto. cbn in *. apply andb_prop in H. destruct H. now rewrite Hx, IH.
  - apply andb_prop in H. destruct H as [H1 H2]. rewrite IHl by auto. f_equal. clear IHl H1. induction IHidx as [|o idx Ho _ IH]; auto.
    cbn in *. apply andb_prop in H2. destruct H2. rewrite IH by auto. f_equal. destruct o; cbn; auto. now rewrite Ho.
Qed.

Definition is_err (t : token) : bool := match t with KErr => true | _ => false end.
Lemma has_err_app a b : has_err (a ++ b) = has_err a || has_err b.
Proof. apply existsb_app. Qed.
Lemma has_err_cons t a : has_err (t :: a) = is_err t || has_err a.
Proof. reflexivity. Qed.
Lemma no_err_all d :
  (forall ts e, Expr d ts e -> has_err ts = false) /\ (forall c ts e, Operand d c ts e -> has_err ts = false) /\
  (forall c ts l, Elements d c ts l -> has_err ts = false) /\ (forall c ts e, Element d c ts e -> has_err ts = false) /\
  (forall ts l, Indexes d ts l -> has_err ts = false) /\ (forall ts o, Index d ts o -> has_err ts = false).
Proof.
  assert (B : forall t o, binop d t o -> is_err t = false) by (intros ? ? []; auto).
  assert (U : forall t o, unop d t o -> is_err t = false) by (intros ? ? []; auto).
  apply grammar_ind; intros; auto; repeat (rewrite has_err_app || rewrite has_err_cons); cbn [is_err has_err existsb orb];
    repeat match goal with H : has_err _ = false |- _ => rewrite H end; repeat (erewrite B by eauto); repeat (erewrite U by eauto); auto.
Qed.
Lemma no_err_arg : (forall ts e, Arg ts e -> has_err ts = false) /\ (forall ts l, Args ts l -> has_err ts = false).
Proof.
  apply arg_ind; intros; auto; repeat (rewrite has_err_app || rewrite has_err_cons); cbn [is_err has_err existsb orb];
    repeat match goal with H : has_err _ = false |- _ => rewrite H end; auto.
Qed.
Lemma print_arg_good : (forall ts e, Arg ts e -> ts = print_arg e) /\ (forall ts l, Args ts l -> ts = concat (map print_arg l)).
Proof. apply arg_ind; intros; auto; [cbn; now rewrite H|cbn; now rewrite <-H, <-H0]. Qed.
Lemma print_arg_plain e : print_arg (plain e) = print_arg e.
Proof.
  induction e as [v|s i|o r IHr|o l r IHl IHr|l r IHl IHr|l IHl|l idx IHl IHidx] using expr_ind'; auto. cbn. do 2 f_equal.
  rewrite map_map. apply f_equal. apply map_ext_in. now rewrite Forall_forall in IHl.
Qed.

Lemma statement_print d ts e : Statement d ts e -> Forall (scanned tok) ts -> names_apart d e -> separable d e = true -> Statement d (print e) e.
Proof.
  intros [ts' e' H|ts1 l ts2 r H1 H2] Ht Hn Hs.
  - apply g_expr. apply print_good. exact (proj1 (parsed_all d tok) _ _ H Ht Hn Hs).
  - apply Forall_app in Ht. destruct Ht as [T1 T2]. inversion T2; subst. cbn in Hs. apply andb_prop in Hs. destruct Hs as [S1 S2].
    assert (N1 : names_apart d l) by (intros s Hx; apply Hn; cbn; apply in_or_app; auto).
    assert (N2 : names_apart d r) by (intros s Hx; apply Hn; cbn; apply in_or_app; auto).
    cbn [ParseModel.print]. apply g_cond.
    + destruct (wrapped d tok l (print_good d tok l (proj1 (parsed_all d tok) _ _ H1 T1 N1 S1))) as (c & O & U & _). now apply g_operand with (c := c).
    + apply print_good. exact (proj1 (parsed_all d tok) _ _ H2 H4 N2 S2).
Qed.
Lemma statement_ne d ts e : Statement d ts e -> ts <> [] /\ has_err ts = false.
Proof.
  intros [ts' e' H|ts1 l ts2 r H1 H2].
  - split; [exact (begins_nonempty _ _ (proj1 (starts_all d) _ _ H))|exact (proj1 (no_err_all d) _ _ H)].
  - split; [destruct ts1; discriminate|]. rewrite has_err_app, has_err_cons. now rewrite (proj1 (no_err_all d) _ _ H1), (proj1 (no_err_all d) _ _ H2).
Qed.
Lemma statements_each d ts l : Statements d ts l -> Forall (scanned tok) ts -> Forall (fun e => exists ts, Statement d ts e /\ Forall (scanned tok) ts) l.
Proof.
  induction 1 as [ts e H|ts e ts' l H Hl IH]; intros Ht; constructor; auto.
  - eauto.
  - apply Forall_app in Ht. destruct Ht. eauto.
  - apply Forall_app in Ht. destruct Ht as [_ Ht]. inversion Ht; auto.
Qed.
Lemma body_lines_each d lines : forall l, body_lines d lines = Some l -> Forall (Forall (scanned tok)) lines ->
  Forall (fun e => exists ts, Statement d ts e /\ Forall (scanned tok) ts) l.
Proof.
  induction lines as [|ts lines IH]; intros l H Ht; [cbn in H; injection H as <-; constructor|]. inversion Ht; subst.
  cbn [body_lines] in H. destruct ts as [|t ts]; [injection H as <-; constructor|]. destruct (has_err (t :: ts)); [discriminate|].
  destruct (expression_list d (enough (t :: ts)) (t :: ts)) as [l1 r| |] eqn:E; try discriminate. destruct (body_lines d lines) as [l2|]; [|discriminate].
  injection H as <-. apply expression_list_sound in E. destruct E as [_ E]. apply Forall_app. split; [now apply statements_each with (ts := t :: ts)|]. auto.
Qed.
Lemma body_lines_print d body rest : Forall (fun e => Statement d (print e) e) body -> (rest = [] \/ exists r, rest = [] :: r) ->
  body_lines d (map print body ++ rest) = Some body.
Proof.
  intros H Hr. induction H as [|e body He _ IH]; cbn [map app].
  - destruct Hr as [-> |[r ->]]; reflexivity.
  - destruct (statement_ne _ _ _ He) as [Ne Hx]. cbn [body_lines]. rewrite Hx, IH.
    rewrite (expression_list_complete d (enough (print e)) (print e) [e]); [|now apply g_stmt|unfold enough; lia].
    destruct (print e); [congruence|]. reflexivity.
Qed.
Variable bu bb : string -> bool.
Lemma print_func_parse u b ts more fn0 fn body rest :
  parse_tokens bu bb u b (KDef :: ts) more = LDefine fn0 fn true -> f_body fn = Some body ->
  Forall (scanned tok) ts -> Forall (Forall (scanned tok)) more ->
  Forall (fun e => names_apart (def_scope bu bb u b fn0) e /\ separable (def_scope bu bb u b fn0) e = true) body ->
  (rest = [] \/ exists r, rest = [] :: r) ->
  parse_tokens bu bb u b (fst (print_func tok fn)) (snd (print_func tok fn) ++ rest) = LDefine fn0 fn true.
Proof.
  intros H Hbody Hts Hmore Hsep Hrest. unfold parse_tokens in H. destruct (has_err (KDef :: ts)) eqn:Er; [discriminate|].
  rewrite function_defn_eq in H. destruct (defn_head ts) as [[fn0' rest0]|] eqn:Eh; [|discriminate].
  unfold defn_rest in H. destruct (rejected fn0') eqn:Rj; [discriminate|].
  set (d := def_scope bu bb u b fn0') in *.
  assert (X : exists raw, raw <> [] /\ fn0 = fn0' /\ fn = func_vars (mkFunc (f_binary fn0') (f_name fn0') (f_left fn0') (f_right fn0') (Some raw) []) /\
    Forall (fun e => exists ts, Statement d ts e /\ Forall (scanned tok) ts) raw).
  { destruct (defn_head_sound _ _ _ Eh) as (_ & _ & tl & tr & _ & Ets & _).
    assert (Hr0 : Forall (scanned tok) rest0).
    { rewrite Ets in Hts. apply Forall_app in Hts. destruct Hts as [_ Hts]. inversion Hts as [|? ? _ Ht2]; subst. apply Forall_app in Ht2. tauto. }
    destruct rest0 as [|t rest0].
    { assert (Ef : fn = func_vars (mkFunc (f_binary fn0') (f_name fn0') (f_left fn0') (f_right fn0') None [])) by (injection H; auto).
      destruct (func_vars_good (mkFunc (f_binary fn0') (f_name fn0') (f_left fn0') (f_right fn0') None [])) as (loc & _ & P & _).
      rewrite <-Ef in P. apply (f_equal f_body) in P. cbn in P. rewrite Hbody in P. discriminate. }
    inversion Hr0 as [|? ? _ Hr1]; subst. destruct t; try discriminate.
    destruct (match rest0 with [] => _ | _ => _ end) as [[|e raw]|] eqn:Eb; try discriminate.
    assert (E1 : fn0' = fn0) by (injection H; auto).
    assert (E2 : func_vars (mkFunc (f_binary fn0') (f_name fn0') (f_left fn0') (f_right fn0') (Some (e :: raw)) []) = fn) by (injection H; auto).
    exists (e :: raw). split; [discriminate|]. split; [auto|]. split; [auto|].
    destruct rest0 as [|t rest0].
    - now apply body_lines_each with (lines := more).
    - destruct (expression_list _ _ (t :: rest0)) as [l r| |] eqn:E; try discriminate. injection Eb as ->.
      apply expression_list_sound in E. destruct E as [_ E]. now apply statements_each with (ts := t :: rest0). }
  destruct X as (raw & Ne & -> & Ef & Hraw). fold d in Hsep.
  destruct (func_vars_good (mkFunc (f_binary fn0') (f_name fn0') (f_left fn0') (f_right fn0') (Some raw) [])) as (loc & _ & P & _).
  rewrite <-Ef in P.
  assert (Wr : map plain raw = raw).
  { clear -Hraw. induction Hraw as [|e raw (ts & He & _) _ IH]; auto. cbn. rewrite IH. f_equal. apply plain_within. exact (statement_within _ _ _ He). }
  assert (Pb : map plain body = raw).
  { apply (f_equal f_body) in P. cbn in P. rewrite Hbody in P. cbn in P. rewrite Wr in P. now injection P. }
  assert (Pl := f_equal f_left P). assert (Pr := f_equal f_right P). assert (Pn := f_equal f_name P). cbn in Pl, Pr, Pn.
  destruct (defn_head_sound _ _ _ Eh) as (Hb0 & Hl0 & tl & tr & Ar & _ & Hleft).
  assert (Wright : plain (f_right fn0') = f_right fn0') by (apply plain_within; exact (proj1 arg_within _ _ Ar)).
  assert (Wleft : option_map plain (f_left fn0') = f_left fn0').
  { destruct (f_left fn0') as [e|]; auto. cbn. f_equal. apply plain_within. destruct Hleft as [_ Ha]. exact (proj1 arg_within _ _ Ha). }
  rewrite Wright in Pr. rewrite Wleft in Pl.
  assert (Tr : tr = print_arg (f_right fn)).
  { rewrite <-print_arg_plain, Pr. exact (proj1 print_arg_good _ _ Ar). }
  assert (Tl : tl = match f_left fn with Some e => print_arg e | None => [] end).
  { rewrite <-Pl in Hleft. destruct (f_left fn) as [e|]; cbn in Hleft; destruct Hleft as [_ Ha]; auto.
    rewrite <-print_arg_plain. exact (proj1 print_arg_good _ _ Ha). }
  assert (Pr_raw : Forall (fun e => Statement d (print e) e) raw).
  { clear -Hraw Hsep Pb. subst raw. induction body as [|e body IH]; cbn in *; constructor; inversion Hraw as [|? ? (ts & He & Ht) Hr]; inversion Hsep as [|? ? [Hn Hs] Hs']; subst; auto.
    apply statement_print with (ts := ts); auto; [|now rewrite separable_plain]. intros s Hx. rewrite variables_plain in Hx. auto. }
  assert (Mp : map print body = map print raw) by (rewrite <-Pb, map_map; apply map_ext; intros; symmetry; apply print_plain).
  assert (Fst : exists tail, fst (print_func tok fn) = KDef :: tl ++ KId (f_name fn0') :: tr ++ KAssign :: tail /\ has_err tail = false /\
    (match tail with [] => body_lines d (snd (print_func tok fn) ++ rest)
     | _ => match expression_list d (enough tail) tail with POk l _ => Some l | _ => None end end) = Some raw).
  { unfold print_func. rewrite Hbody, <-Tl, <-Tr, Pn. cbn [fst snd]. destruct raw as [|e [|e' raw]]; [congruence| |].
    - destruct body as [|e0 [|? ?]]; try discriminate. cbn in Mp. injection Mp as Mp. rewrite Mp. exists (print e). split; [reflexivity|].
      assert (He : Statement d (print e) e) by (inversion Pr_raw; auto). destruct (statement_ne _ _ _ He) as [Nn Hx]. split; [exact Hx|].
      rewrite (expression_list_complete d (enough (print e)) (print e) [e]) by (try (now apply g_stmt); unfold enough; lia).
      destruct (print e); [congruence|reflexivity].
    - destruct body as [|e0 [|? ?]]; try discriminate. exists []. split; [reflexivity|]. split; [reflexivity|].
      rewrite Mp. now apply body_lines_print. }
  destruct Fst as (tail & E1 & E2 & E3). rewrite E1. unfold parse_tokens.
  assert (Er2 : has_err (KDef :: tl ++ KId (f_name fn0') :: tr ++ KAssign :: tail) = false).
  { repeat (rewrite has_err_app || rewrite has_err_cons). cbn [is_err orb]. rewrite E2, (proj1 no_err_arg _ _ Ar).
    assert (has_err tl = false) as ->; [|reflexivity]. destruct (f_left fn0'); destruct Hleft as [_ Ha]; [exact (proj1 no_err_arg _ _ Ha)|now subst]. }
  rewrite Er2, function_defn_eq. rewrite defn_head_complete by (auto; exact I). unfold defn_rest. rewrite Rj. fold d. rewrite E3.
  destruct raw; [congruence|]. now rewrite Ef.
Qed.
End PrintDefn.

(* The parser and the grammar: completeness, and enough steps. *)
From Coq Require Import String Lia.
From Verif Require Import Value Syntax ExecModel ExecProofs ParseModel ParseSpec ParseProofs.
Open Scope string_scope.
Open Scope list_scope.
Open Scope nat_scope.

Section Complete.
Variable d : scope.
Notation Expr := (Expr d). Notation Operand := (Operand d). Notation Elements := (Elements d).
Notation Element := (Element d). Notation Indexes := (Indexes d). Notation Index := (Index d).
Notation ex := (p_expr d).

Lemma index_loop_stop f k j e ts : no_brack ts -> index_loop f k j e ts = POk e ts.
Proof. destruct ts as [|[] ts]; cbn [no_brack]; try contradiction; destruct j; reflexivity. Qed.
Lemma elements_stop f k j acc ts : after_elements d ts -> elements d f k j acc ts = POk acc ts.
Proof.
  destruct ts as [|[] ts]; cbn [after_elements]; try contradiction; destruct j; try reflexivity; cbn [elements]; intros ->; reflexivity.
Qed.
Lemma stops_after ts : stops ts -> after_elements d ts.
Proof. destruct ts as [|[] ts]; cbn; auto; contradiction. Qed.
Lemma index_list_default f j seen acc ts : begins starts_expr ts ->
  index_list f (S j) seen acc ts = pbind (f ts) (fun e ts' => index_list f j true (acc ++ [Some e]) ts').
Proof. intros (t & ts' & -> & H). destruct t; cbn in H; try contradiction; reflexivity. Qed.

Lemma number_eval_string f k s ts : number f k (KStr (Some s)) ts = POk (eval_string s) ts.
Proof. reflexivity. Qed.

Lemma operand_ok c ts e : no_unop d ts ->
  (forall rest m j, after_elements d rest -> (c = false -> no_brack rest) ->
     length (ts ++ rest) <= m -> length (ts ++ rest) <= j ->
     exists t ts0, ts = t :: ts0 /\ starts_element t /\ exists j', length rest <= j' /\
       pbind (number_or_vector d (ex m) m t (ts0 ++ rest)) (fun e ts' => index_loop (ex m) m j e ts') = index_loop (ex m) m j' e rest) ->
  forall rest m, after_elements d rest -> no_brack rest -> length (ts ++ rest) <= m ->
  exists t ts0, ts = t :: ts0 /\ operand d (ex m) m t (ts0 ++ rest) = POk e rest.
Proof.
  intros N H rest m Ha Hb Hm. destruct (H rest m m Ha (fun _ => Hb) Hm Hm) as (t & ts0 & -> & Ht & j' & _ & E).
  exists t, ts0. split; [reflexivity|]. rewrite index_loop_stop in E by auto.
  unfold operand. destruct t; cbn in Ht; try contradiction; try exact E.
  rewrite (N _ _ eq_refl). exact E.
Qed.

Lemma complete_all :
  (forall ts e, Expr ts e -> forall rest n, stops rest -> length (ts ++ rest) < n -> ex n (ts ++ rest) = POk e rest) /\
  (forall c ts e, Operand c ts e -> forall rest m j, after_elements d rest -> (c = false -> no_brack rest) ->
     length (ts ++ rest) <= m -> length (ts ++ rest) <= j ->
     exists t ts0, ts = t :: ts0 /\ starts_element t /\ exists j', length rest <= j' /\
       pbind (number_or_vector d (ex m) m t (ts0 ++ rest)) (fun e ts' => index_loop (ex m) m j e ts') = index_loop (ex m) m j' e rest) /\
  (forall c ts l, Elements c ts l -> forall rest m, after_elements d rest -> (c = false -> no_brack rest) ->
     length (ts ++ rest) <= m ->
     exists t ts0, ts = t :: ts0 /\ starts_element t /\ forall acc j, length (ts0 ++ rest) <= j ->
       pbind (number (ex m) m t (ts0 ++ rest)) (fun e ts2 => elements d (ex m) m j (acc ++ [e]) ts2) = POk (acc ++ l) rest) /\
  (forall c ts e, Element c ts e -> forall rest m, length (ts ++ rest) <= m ->
     exists t ts0, ts = t :: ts0 /\ starts_element t /\
       (if c then number (ex m) m t (ts0 ++ rest) = POk e rest
        else exists j', length rest <= j' /\ number (ex m) m t (ts0 ++ rest) = index_loop (ex m) m j' e rest)) /\
  (forall ts l, Indexes ts l -> forall rest m acc j, length (ts ++ KRBrack :: rest) < m -> length (ts ++ KRBrack :: rest) <= j ->
     index_list (ex m) j false acc (ts ++ KRBrack :: rest) = POk (acc ++ l) (KRBrack :: rest)) /\
  (forall ts o, Index ts o -> forall t rest m acc j, t = KRBrack \/ t = KSemi -> length (ts ++ t :: rest) < m ->
     match o with
     | None => ts = []
     | Some e => index_list (ex m) (S j) false acc (ts ++ t :: rest) = index_list (ex m) j true (acc ++ [Some e]) (t :: rest)
     end).
Proof.
  apply grammar_ind.
  - (* operand alone *)
    intros c ts e Ho IH N rest n Hs Hn. destruct n as [|m]; [lia|]. cbn [p_expr].
    destruct (operand_ok _ _ _ N IH rest m) as (t & ts0 & -> & E); [now apply stops_after|now apply stops_no_brack|lia|].
    cbn [app expr_step]. rewrite E. cbn [pbind]. destruct rest as [|[] rest]; cbn in Hs; try contradiction; reflexivity.
  - (* unary operator *)
    intros t o ts e Hu He IH rest n Hs Hn. destruct n as [|m]; [lia|]. cbn [p_expr app expr_step]. cbn [app length] in Hn.
    assert (E : operand d (ex m) m t (ts ++ rest) = POk (EUnary o e) rest).
    { unfold operand. destruct Hu as [o|s Hd]; [|rewrite Hd]; rewrite IH by (auto; lia); cbn [pbind]; apply index_loop_stop; now apply stops_no_brack. }
    rewrite E. cbn [pbind]. destruct rest as [|[] rest]; cbn in Hs; try contradiction; reflexivity.
  - (* binary operator *)
    intros c ts l t o ts' r Ho IHl N Hb Hr IHr rest n Hs Hn. destruct n as [|m]; [lia|]. rewrite <-app_assoc in Hn |- *. cbn [app] in Hn |- *.
    destruct (operand_ok _ _ _ N IHl (t :: ts' ++ rest) m) as (t0 & ts0 & -> & E).
    + destruct Hb as [o|s Hd]; cbn; [exact I|]. unfold defined_binary in Hd. apply andb_prop in Hd. destruct Hd as [H1 H2].
      unfold defined_op. rewrite H1. apply orb_prop in H2. destruct H2 as [-> | ->]; cbn; rewrite ?orb_true_r; reflexivity.
    + destruct Hb; exact I.
    + lia.
    + cbn [p_expr app expr_step]. rewrite E. cbn [pbind].
      assert (L : length (ts' ++ rest) < m) by (revert Hn; cbn [app length]; rewrite !app_length; cbn [length]; rewrite ?app_length; lia).
      destruct Hb as [o|s Hd]; [|rewrite Hd]; rewrite IHr by auto; reflexivity.
  - (* assignment *)
    intros c ts l ts' r Ho IHl N Ht Hr IHr rest n Hs Hn. destruct n as [|m]; [lia|]. rewrite <-app_assoc in Hn |- *. cbn [app] in Hn |- *.
    destruct (operand_ok _ _ _ N IHl (KAssign :: ts' ++ rest) m) as (t0 & ts0 & -> & E); [exact I|exact I|lia|].
    cbn [p_expr app expr_step]. rewrite E. cbn [pbind]. apply check_target in Ht. rewrite Ht.
    assert (L : length (ts' ++ rest) < m) by (revert Hn; cbn [app length]; rewrite !app_length; cbn [length]; rewrite ?app_length; lia).
    rewrite IHr by auto. reflexivity.
  - (* one element *)
    intros c ts e He IH rest m j Ha Hc Hm Hj. destruct (IH rest m Ha Hc Hm) as (t & ts0 & -> & Ht & E).
    exists t, ts0. split; [reflexivity|]. split; [exact Ht|]. exists j. split; [rewrite app_length in Hj; lia|].
    unfold number_or_vector. specialize (E [] m). cbn [app length] in E, Hm.
    assert (Lm : length (ts0 ++ rest) <= m) by lia. specialize (E Lm).
    destruct (number (ex m) m t (ts0 ++ rest)) as [e1 ts1| |]; cbn [pbind app] in *; try discriminate. rewrite E. reflexivity.
  - (* several *)
    intros c ts l He IH Hl rest m j Ha Hc Hm Hj. destruct (IH rest m Ha Hc Hm) as (t & ts0 & -> & Ht & E).
    exists t, ts0. split; [reflexivity|]. split; [exact Ht|]. exists j. split; [rewrite app_length in Hj; lia|].
    unfold number_or_vector. specialize (E [] m). cbn [app length] in E, Hm.
    assert (Lm : length (ts0 ++ rest) <= m) by lia. specialize (E Lm).
    destruct (number (ex m) m t (ts0 ++ rest)) as [e1 ts1| |]; cbn [pbind app] in *; try discriminate. rewrite E. cbn [pbind].
    destruct l as [|x [|y l]]; cbn in Hl; try lia. reflexivity.
  - (* indexes of the whole *)
    intros ts e ts' idx Ho IHo Hi IHi rest m j Ha Hc Hm Hj.
    replace ((ts ++ KLBrack :: ts' ++ [KRBrack]) ++ rest) with (ts ++ KLBrack :: ts' ++ KRBrack :: rest) in *
      by (rewrite <-!app_assoc; cbn; rewrite <-app_assoc; reflexivity).
    destruct (IHo (KLBrack :: ts' ++ KRBrack :: rest) m j) as (t & ts0 & -> & Ht & j' & Hj' & E); [exact I|discriminate|auto|auto|].
    exists t, (ts0 ++ KLBrack :: ts' ++ [KRBrack]). split; [reflexivity|]. split; [exact Ht|].
    destruct j' as [|j']; [cbn in Hj'; lia|]. exists j'.
    split; [revert Hj'; cbn [length]; rewrite app_length; cbn [length]; lia|].
    replace ((ts0 ++ KLBrack :: ts' ++ [KRBrack]) ++ rest) with (ts0 ++ KLBrack :: ts' ++ KRBrack :: rest)
      by (rewrite <-!app_assoc; cbn; rewrite <-app_assoc; reflexivity).
    rewrite E. cbn [index_loop]. rewrite IHi; [reflexivity| |].
    + revert Hm. cbn [app length]. rewrite !app_length. cbn [length]. rewrite !app_length. cbn [length]. lia.
    + revert Hm. cbn [app length]. rewrite !app_length. cbn [length]. rewrite !app_length. cbn [length]. lia.
  - (* last element *)
    intros c ts e He IH rest m Ha Hc Hm. destruct (IH rest m Hm) as (t & ts0 & -> & Ht & E).
    exists t, ts0. split; [reflexivity|]. split; [exact Ht|]. intros acc j Hj. destruct c.
    + rewrite E. cbn [pbind]. now apply elements_stop.
    + destruct E as (j' & _ & ->). rewrite index_loop_stop by auto. cbn [pbind]. now apply elements_stop.
  - (* further elements *)
    intros c c' ts e ts' l He IHe Hl IHl N rest m Ha Hc Hm. rewrite <-app_assoc in Hm.
    destruct (IHe (ts' ++ rest) m Hm) as (t & ts0 & -> & Ht & E).
    destruct (IHl rest m Ha Hc) as (t' & ts1 & -> & Ht' & El).
    { revert Hm. cbn [app length]. rewrite !app_length. lia. }
    exists t, (ts0 ++ t' :: ts1). split; [reflexivity|]. split; [exact Ht|]. intros acc j Hj. rewrite <-app_assoc in Hj |- *.
    assert (Nb : no_brack ((t' :: ts1) ++ rest)) by (destruct t'; cbn in Ht'; try contradiction; exact I).
    assert (E' : number (ex m) m t (ts0 ++ (t' :: ts1) ++ rest) = POk e ((t' :: ts1) ++ rest)).
    { destruct c'; [exact E|]. destruct E as (j' & _ & ->). now apply index_loop_stop. }
    rewrite E'. cbn [pbind app]. destruct j as [|j]; [revert Hj; cbn [app length]; rewrite app_length; cbn; lia|].
    specialize (El (acc ++ [e]) j). rewrite <-(app_assoc acc [e] l) in El. cbn [app] in El.
    assert (Lj : length (ts1 ++ rest) <= j).
    { revert Hj. cbn [app length]. rewrite !app_length. cbn [length]. rewrite ?app_length. lia. }
    specialize (El Lj). destruct t'; cbn in Ht'; try contradiction; cbn [elements]; try exact El.
    rewrite (N name ts1 eq_refl). exact El.
  - (* number *) intros v rest m Hm. exists (KNum (Some v)), []. repeat split; auto.
  - intros c rest m Hm. exists (KStr (Some [c])), []. repeat split; auto.
  - intros s Hs rest m Hm. exists (KStr (Some s)), []. repeat split; auto.
    rewrite number_eval_string. unfold eval_string, chars. destruct s as [|c [|c' s]]; try reflexivity. cbn in Hs. lia.
  - (* parentheses *)
    intros ts e He IH rest m Hm. exists KLParen, (ts ++ [KRParen]). repeat split; auto. cbn [number].
    rewrite <-app_assoc. cbn [app]. rewrite IH; [reflexivity|exact I|].
    revert Hm. cbn [app length]. rewrite !app_length. cbn [length]. lia.
  - (* variable *)
    intros s rest m Hm. exists (KId s), []. split; [reflexivity|]. split; [exact I|]. exists m. split; [|reflexivity]. cbn in Hm. lia.
  - (* its indexes *)
    intros ts e ts' idx He IHe Hi IHi rest m Hm.
    replace ((ts ++ KLBrack :: ts' ++ [KRBrack]) ++ rest) with (ts ++ KLBrack :: ts' ++ KRBrack :: rest) in *
      by (rewrite <-!app_assoc; cbn; rewrite <-app_assoc; reflexivity).
    destruct (IHe _ _ Hm) as (t & ts0 & -> & Ht & j' & Hj' & E).
    exists t, (ts0 ++ KLBrack :: ts' ++ [KRBrack]). split; [reflexivity|]. split; [exact Ht|].
    destruct j' as [|j']; [cbn in Hj'; lia|]. exists j'.
    split; [revert Hj'; cbn [length]; rewrite app_length; cbn [length]; lia|].
    replace ((ts0 ++ KLBrack :: ts' ++ [KRBrack]) ++ rest) with (ts0 ++ KLBrack :: ts' ++ KRBrack :: rest)
      by (rewrite <-!app_assoc; cbn; rewrite <-app_assoc; reflexivity).
    rewrite E. cbn [index_loop]. rewrite IHi; [reflexivity| |].
    + revert Hm. cbn [app length]. rewrite !app_length. cbn [length]. rewrite !app_length. cbn [length]. lia.
    + revert Hm. cbn [app length]. rewrite !app_length. cbn [length]. rewrite !app_length. cbn [length]. lia.
  - (* one index *)
    intros ts o Ho IH rest m acc j Hm Hj. specialize (IH KRBrack rest m acc (pred j) (or_introl eq_refl) Hm).
    assert (Lj : 1 <= length (ts ++ KRBrack :: rest)) by (rewrite app_length; cbn; lia).
    destruct j as [|j]; [lia|]. destruct o as [e|].
    + cbn [pred] in IH. rewrite IH. destruct j as [|j]; [|reflexivity].
      exfalso. revert Hj. rewrite app_length. cbn [length]. inversion Ho as [|? ? He]; subst.
      destruct (expr_starts _ _ _ He) as (? & ? & -> & _). cbn. lia.
    + subst ts. reflexivity.
  - (* several *)
    intros ts o ts' l Ho IHo Hl IHl rest m acc j Hm Hj. rewrite <-app_assoc in Hm, Hj |- *. cbn [app] in Hm, Hj |- *.
    specialize (IHo KSemi (ts' ++ KRBrack :: rest) m acc (pred j) (or_intror eq_refl) Hm).
    assert (Lt : length (ts' ++ KRBrack :: rest) < m) by (revert Hm; rewrite (app_length ts); cbn [length]; lia).
    rewrite (app_length ts) in Hj. cbn [length] in Hj.
    assert (L1 : 1 <= length (ts' ++ KRBrack :: rest)) by (rewrite app_length; cbn; lia).
    destruct j as [|j]; [lia|]. destruct o as [e|].
    + cbn [pred] in IHo. rewrite IHo. destruct j as [|j]; [lia|]. cbn [index_list].
      inversion Ho as [|? ? He]; subst. destruct (expr_starts _ _ _ He) as (? & ? & -> & _). cbn [length] in Hj.
      rewrite IHl by lia. rewrite <-app_assoc. reflexivity.
    + subst ts. cbn [app index_list]. rewrite IHl by (cbn [length] in Hj; lia). rewrite <-app_assoc. reflexivity.
  - (* no index *) intros. reflexivity.
  - (* an index *)
    intros ts e He IH t rest m acc j Ht Hm. rewrite index_list_default by (apply begins_app; eapply expr_starts; eauto).
    rewrite IH; [reflexivity| |exact Hm]. destruct Ht as [-> | ->]; exact I.
Qed.

Theorem p_expr_complete ts e rest n : Expr ts e -> stops rest -> length (ts ++ rest) < n -> ex n (ts ++ rest) = POk e rest.
Proof. intros H. apply (proj1 complete_all _ _ H). Qed.

(* ---- enough steps ---- *)
Section Fuel.
Variable m : nat.
Hypothesis Hm : forall ts, length ts < m -> ex m ts <> PFuel.
Lemma used_some n ts e rest : ex n ts = POk e rest -> length rest < length ts.
Proof.
  intros H. destruct (p_expr_sound d _ _ _ _ H) as (u & -> & He & _).
  destruct (expr_starts _ _ _ He) as (t & u' & -> & _). cbn. rewrite app_length. lia.
Qed.
Lemma index_list_fuel j : forall seen acc ts, length ts < m -> length ts < j -> index_list (ex m) j seen acc ts <> PFuel.
Proof.
  induction j as [|j IH]; intros seen acc ts H1 H2; [lia|]. cbn [index_list].
  assert (D : pbind (ex m ts) (fun e ts' => index_list (ex m) j true (acc ++ [Some e]) ts') <> PFuel).
  { destruct (ex m ts) as [e ts'| |] eqn:E; cbn [pbind]; [|discriminate|now elim (Hm ts)].
    apply used_some in E. apply IH; lia. }
  destruct ts as [|[] ts]; auto; try discriminate. cbn in H1, H2. apply IH; lia.
Qed.
Lemma index_list_used j seen acc ts l rest : index_list (ex m) j seen acc ts = POk l rest -> length rest <= length ts.
Proof.
  revert seen acc ts l rest. induction j as [|j IH]; intros seen acc ts l rest H; [discriminate|]. cbn [index_list] in H.
  assert (D : pbind (ex m ts) (fun e ts' => index_list (ex m) j true (acc ++ [Some e]) ts') = POk l rest -> length rest <= length ts).
  { clear H. intros H. destruct (ex m ts) as [e ts'| |] eqn:E; cbn [pbind] in H; try discriminate.
    apply used_some in E. apply IH in H. lia. }
  destruct ts as [|[] ts]; auto.
  - injection H as <- <-. auto.
  - apply IH in H. cbn. lia.
Qed.
Lemma index_loop_fuel j : forall e ts, length ts <= m -> length ts <= j -> index_loop (ex m) m j e ts <> PFuel.
Proof.
  induction j as [|j IH]; intros e ts H1 H2; destruct ts as [|[] ts]; try discriminate; cbn in H1, H2; try lia.
  cbn [index_loop]. destruct (index_list (ex m) m false [] ts) as [l ts2| |] eqn:E; cbn [pbind]; [|discriminate|].
  - apply index_list_used in E. destruct ts2 as [|[] ts3]; try discriminate. cbn in E. apply IH; lia.
  - elim (index_list_fuel m false [] ts); auto; lia.
Qed.
Lemma number_fuel t ts : length ts < m -> number (ex m) m t ts <> PFuel.
Proof.
  intros H. unfold number. destruct t as [[|]|[|]|s|o| | | | | | | | | | |]; try discriminate.
  - apply index_loop_fuel; lia.
  - destruct (ex m ts) as [e ts'| |] eqn:E; cbn [pbind]; [|discriminate|now elim (Hm ts)]. destruct ts' as [|[] ts']; discriminate.
Qed.
Lemma number_used t ts e rest : number (ex m) m t ts = POk e rest -> length rest <= length ts.
Proof. intros H. destruct (number_sound d _ _ (p_expr_sound d m) _ _ _ _ H) as (c & u & -> & _). rewrite app_length. lia. Qed.
Lemma elements_fuel j : forall acc ts, length ts <= m -> length ts <= j -> elements d (ex m) m j acc ts <> PFuel.
Proof.
  induction j as [|j IH]; intros acc ts H1 H2; (destruct ts as [|t ts]; [discriminate|]); cbn in H1, H2; try lia.
  assert (M : forall t, pbind (number (ex m) m t ts) (fun e ts2 => elements d (ex m) m j (acc ++ [e]) ts2) <> PFuel).
  { intros t'. destruct (number (ex m) m t' ts) as [e ts2| |] eqn:E; cbn [pbind]; [|discriminate|].
    - apply number_used in E. apply IH; lia.
    - elim (number_fuel t' ts); auto; lia. }
  destruct t as [v|s|s|o| | | | | | | | | | |]; cbn [elements]; try discriminate; try apply M.
  destruct (defined_op d s); [discriminate|]. apply M.
Qed.
Lemma operand_fuel t ts : length ts < m -> operand d (ex m) m t ts <> PFuel.
Proof.
  intros H.
  assert (V : forall t, number_or_vector d (ex m) m t ts <> PFuel).
  { intros t'. unfold number_or_vector. destruct (number (ex m) m t' ts) as [e ts2| |] eqn:E; cbn [pbind]; [|discriminate|].
    - apply number_used in E. destruct (elements d (ex m) m m [e] ts2) eqn:E2; cbn [pbind]; try discriminate.
      elim (elements_fuel m [e] ts2); auto; lia.
    - elim (number_fuel t' ts); auto. }
  assert (Vu : forall t e rest, number_or_vector d (ex m) m t ts = POk e rest -> length rest <= length ts).
  { intros t' e rest E. destruct (number_or_vector_sound d _ _ (p_expr_sound d m) _ _ _ _ E) as (c & u & -> & _). rewrite app_length. lia. }
  assert (U : forall o, pbind (ex m ts) (fun e ts' => POk (EUnary o e) ts') <> PFuel).
  { intros o. destruct (ex m ts) eqn:E; cbn [pbind]; try discriminate. now elim (Hm ts). }
  assert (Uu : forall o e rest, pbind (ex m ts) (fun e ts' => POk (EUnary o e) ts') = POk e rest -> length rest <= length ts).
  { intros o e rest E. destruct (ex m ts) as [e1 ts1| |] eqn:E1; cbn [pbind] in E; try discriminate.
    assert (ts1 = rest) by (injection E; auto). subst. apply used_some in E1. lia. }
  assert (F : forall r : pr expr, r <> PFuel -> (forall e rest, r = POk e rest -> length rest <= length ts) ->
    pbind r (fun e ts' => index_loop (ex m) m m e ts') <> PFuel).
  { intros r N L. destruct r as [e rest| |]; cbn [pbind]; [|discriminate|contradiction].
    specialize (L e rest eq_refl). apply index_loop_fuel; lia. }
  unfold operand. destruct t as [v|s|s|o| | | | | | | | | | |]; try discriminate; try (apply F; eauto).
  - destruct (defined_unary d (trim s)); eauto.
  - destruct (defined_unary d (trim s)); eauto.
Qed.
Lemma expr_step_fuel ts : length ts <= m -> expr_step d (ex m) m ts <> PFuel.
Proof.
  intros H. unfold expr_step. destruct ts as [|t ts]; [discriminate|]. cbn in H.
  destruct (operand d (ex m) m t ts) as [l ts1| |] eqn:E; cbn [pbind]; [|discriminate|elim (operand_fuel t ts); auto; lia].
  destruct (operand_sound d _ _ (p_expr_sound d m) _ _ _ _ E) as (u & -> & _). rewrite app_length in H.
  assert (R : forall o ts2, length ts2 < length ts1 -> pbind (ex m ts2) (fun r ts3 => POk (EBinary o l r) ts3) <> PFuel).
  { intros o ts2 L. destruct (ex m ts2) eqn:E2; cbn [pbind]; try discriminate. elim (Hm ts2); auto; lia. }
  destruct ts1 as [|[v|s|s|o| | | | | | | | | | |] ts1]; try discriminate.
  - destruct (defined_binary d s); [|discriminate]. apply R. cbn. lia.
  - apply R. cbn. lia.
  - destruct (check_assign l); [|discriminate]. apply R. cbn. lia.
Qed.
End Fuel.
Theorem p_expr_fuel n : forall ts, length ts < n -> ex n ts <> PFuel.
Proof.
  induction n as [|n IH]; intros ts H; [lia|]. cbn [p_expr]. apply expr_step_fuel; auto. lia.
Qed.
(* The result does not depend on the number of steps, if there are enough. *)
Theorem p_expr_any n n' ts : length ts < n -> length ts < n' -> ex n ts = ex n' ts.
Proof.
  intros H H'.
  assert (P : forall a b e rest, length ts < b -> ex a ts = POk e rest -> ex b ts = POk e rest).
  { intros a b e rest Hb E. destruct (p_expr_sound d _ _ _ _ E) as (u & -> & He & Hs). now apply p_expr_complete. }
  pose proof (p_expr_fuel n ts H) as N. pose proof (p_expr_fuel n' ts H') as N'.
  destruct (ex n ts) as [e rest| |] eqn:E; [symmetry; eauto| |contradiction].
  destruct (ex n' ts) as [e rest| |] eqn:E'; [|reflexivity|contradiction].
  rewrite (P _ n _ _ H E') in E. discriminate.
Qed.
End Complete.

(* ---- lines ---- *)
Section Lines.
Variable d : scope.
Lemma statement_sound n ts l rest : statement_list d n ts = POk l rest ->
  exists used, ts = used ++ rest /\ Statements d used l /\ (stops rest /\ forall ts', rest <> KSemi :: ts').
Proof.
  revert ts l rest. induction n as [|n IH]; intros ts l rest H; [discriminate|]. cbn [statement_list] in H.
  destruct (pbind (p_expr d (S n) ts) _) as [e ts1| |] eqn:E in H; cbn [pbind] in H; try discriminate.
  assert (S1 : exists used, ts = used ++ ts1 /\ Statement d used e /\ stops ts1).
  { clear H. destruct (p_expr d (S n) ts) as [e1 ts2| |] eqn:E1; cbn [pbind] in E; try discriminate.
    destruct (p_expr_sound d _ _ _ _ E1) as (u & -> & He & Hs).
    assert (One : POk e1 ts2 = POk e ts1 -> exists used, u ++ ts2 = used ++ ts1 /\ Statement d used e /\ stops ts1).
    { clear E. intros E. injection E as <- <-. exists u. repeat split; auto. now apply g_expr. }
    destruct ts2 as [|[] ts2]; auto.
    destruct (p_expr d (S n) ts2) as [r ts3| |] eqn:E2; cbn [pbind] in E; try discriminate. injection E as <- <-.
    destruct (p_expr_sound d _ _ _ _ E2) as (u2 & -> & Hr & Hs2). exists (u ++ KColon :: u2). rewrite <-app_assoc.
    repeat split; auto. now apply g_cond. }
  destruct S1 as (u & -> & Hu & Hs).
  assert (One : (forall ts', ts1 <> KSemi :: ts') -> POk [e] ts1 = POk l rest -> exists used, u ++ ts1 = used ++ rest /\ Statements d used l /\ (stops rest /\ forall ts', rest <> KSemi :: ts')).
  { clear H. intros N H. injection H as <- <-. exists u. repeat split; auto. now apply g_stmt. }
  destruct ts1 as [|[] ts1]; try (apply One; [discriminate|exact H]).
  destruct (statement_list d n ts1) as [l2 ts3| |] eqn:E2; cbn [pbind] in H; try discriminate. injection H as <- <-.
  destruct (IH _ _ _ E2) as (u2 & -> & H2 & Hs2). exists (u ++ KSemi :: u2). rewrite <-app_assoc. repeat split; try apply Hs2. now apply g_stmts.
Qed.
Lemma statement_complete ts l : Statements d ts l -> forall rest n, stops rest -> (forall ts', rest <> KSemi :: ts') -> (forall ts', rest <> KColon :: ts') ->
  length (ts ++ rest) < n -> statement_list d n (ts ++ rest) = POk l rest.
Proof.
  revert ts l. assert (One : forall ts e, Statement d ts e -> forall rest n, stops rest -> (forall ts', rest <> KColon :: ts') ->
    length (ts ++ rest) < n ->
    pbind (p_expr d n (ts ++ rest)) (fun e ts1 =>
             match ts1 with
             | KColon :: ts2 => pbind (p_expr d n ts2) (fun r ts3 => POk (ECond e r) ts3)
             | _ => POk e ts1
             end) = POk e rest).
  { intros ts e [ts0 e0 He|ts0 l0 ts' r Hl Hr] rest n Hs Nc Hn.
    - rewrite (p_expr_complete d _ _ _ _ He Hs Hn). cbn [pbind]. destruct rest as [|[] rest]; try reflexivity. now elim (Nc rest).
    - rewrite <-app_assoc in Hn |- *. cbn [app] in Hn |- *. rewrite (p_expr_complete d _ _ (KColon :: ts' ++ rest) n Hl I Hn). cbn [pbind].
      rewrite (p_expr_complete d _ _ rest n Hr Hs); [reflexivity|]. revert Hn. rewrite (app_length ts0). cbn [length]. lia. }
  intros ts0 l0. induction 1 as [ts e He|ts e ts' l He Hl IH]; intros rest n Hs Ns Nc Hn; destruct n as [|n]; try lia; cbn [statement_list].
  - rewrite (One _ _ He) by auto. cbn [pbind]. destruct rest as [|[] rest]; try reflexivity. now elim (Ns rest).
  - rewrite <-app_assoc in Hn |- *. cbn [app] in Hn |- *. rewrite (One _ _ He) by (auto; try exact I; discriminate). cbn [pbind].
    rewrite IH; auto. revert Hn. rewrite (app_length ts). cbn [length]. lia.
Qed.
Lemma statement_fuel n : forall ts, length ts < n -> statement_list d n ts <> PFuel.
Proof.
  induction n as [|n IH]; intros ts H; [lia|]. cbn [statement_list].
  destruct (p_expr d (S n) ts) as [e ts1| |] eqn:E; cbn [pbind]; [|discriminate|now elim (p_expr_fuel d (S n) ts)].
  apply used_some in E.
  assert (R : forall e ts1, length ts1 < length ts -> match ts1 with
    | KSemi :: ts2 => pbind (statement_list d n ts2) (fun l ts3 => POk (e :: l) ts3) | _ => POk [e] ts1 end <> PFuel).
  { intros e' ts' L. destruct ts' as [|[] ts2]; try discriminate. cbn in L.
    destruct (statement_list d n ts2) eqn:E2; cbn [pbind]; try discriminate. elim (IH ts2); auto. lia. }
  destruct ts1 as [|[] ts2]; cbn [pbind]; try discriminate.
  - apply (R e (KSemi :: ts2)). exact E.
  - cbn in E. destruct (p_expr d (S n) ts2) as [r ts3| |] eqn:E2; cbn [pbind]; [|discriminate|elim (p_expr_fuel d (S n) ts2); auto; lia].
    apply used_some in E2. apply R. lia.
Qed.
End Lines.

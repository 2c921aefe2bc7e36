(* A test that is enough for a workspace's operators to come back: used to show that concrete
   workspaces meet the hypotheses. *)
From Coq Require Import String ZifyBool.
From Verif Require Import Value NumModel NumSpec ArrModel ArrSpec Syntax ExecModel ExecProofs ScanModel ScanSpec ScanProofs TextModel TextSpec TextProofs
  StrModel StrSpec StrProofs ReadModel SaveModel SaveSpec SourceModel SourceSpec SourceProofs SourceDefn SourceSave CmdModel.
From Verif Require ParseModel ParseSpec.
Open Scope string_scope.
Open Scope list_scope.
Open Scope Z_scope.

Definition spelled_test (c : sctx) (w : text) : bool :=
  negb (teq w []) && forallb (is_alnum c) w && negb (is_digit (hd 0 w)) && negb (teq w (zs "op")) && negb (teq w (zs "opdelete")).
Definition named_test (s : string) : bool := String.eqb (name_of (text_of s)) s.
Definition constant_test (v : value) : bool :=
  match v with
  | VInt z => (- 2147483648 <=? z) && (z <? 2147483648)
  | VChar r => (0 <=? r) && (r <? 0xD800)
  | _ => false
  end.
Definition symbol_test (w : text) : bool := existsb (teq w) symbols.
Definition word_test (c : sctx) (w : text) : bool :=
  spelled_test c w && (defined c w || negb (all_digits w (ibase c) false)).
Definition op_test (c : sctx) (o : string) : bool :=
  let w := text_of o in
  named_test o && (symbol_test w || word_test c w || existsb (fun x => existsb (fun s => teq w (s ++ x) && binary_op c s) symbols) reducing).
Definition sign_test (w : text) : bool := ((hd 0 w =? 43) || (hd 0 w =? 45)) && (nth 1 w 0 =? 46).
Fixpoint source_test (c : sctx) (e : expr) : bool :=
  match e with
  | EVal v => constant_test v
  | EVar s _ => named_test s && spelled_test c (text_of s) && negb (defined c (text_of s)) && negb (all_digits (text_of s) (ibase c) false)
  | EUnary o r => op_test c o && negb (sign_test (text_of o)) && source_test c r
  | EBinary o l r => (String.eqb o "=" || op_test c o && negb (sign_test (text_of o))) && source_test c l && source_test c r
  | ECond l r => source_test c l && source_test c r
  | EVector l => forallb (source_test c) l
  | EIndex l idx => source_test c l && forallb (fun o => match o with Some x => source_test c x | None => true end) idx
  end.
Lemma teq_is : forall a b, teq a b = true -> a = b.
Proof.
  induction a as [|x a IH]; intros [|y b] H; try discriminate; [reflexivity|]. cbn [teq] in H. apply andb_prop in H. destruct H as [H1 H2]. f_equal; [lia|auto].
Qed.
Lemma teq_no : forall a b, negb (teq a b) = true -> a <> b.
Proof.
  intros a b H E. assert (X : forall t, teq t t = true). { induction t as [|y t IH]; [reflexivity|]. cbn [teq]. rewrite Z.eqb_refl, IH. reflexivity. }
  rewrite E, X in H. discriminate.
Qed.
Lemma spelled_ok : forall c w, spelled_test c w = true -> spelled c w.
Proof.
  intros c w H. unfold spelled_test in H. repeat (apply andb_prop in H; destruct H as [H ?]). split; [apply teq_no, H|]. split; [apply Forall_forall, forallb_forall; assumption|].
  split; [destruct (is_digit (hd 0 w)); [discriminate|reflexivity]|]. split; apply teq_no; assumption.
Qed.
Lemma named_ok : forall s, named_test s = true -> named s. Proof. intros s H. apply String.eqb_eq, H. Qed.
Lemma constant_ok : forall v, constant_test v = true -> constant v.
Proof. intros [] H; try discriminate; cbn in *; [lia|unfold code_point; lia]. Qed.
Lemma symbol_ok : forall w, symbol_test w = true -> In w symbols.
Proof. intros w H. unfold symbol_test in H. apply existsb_exists in H. destruct H as (x & I & H). apply teq_is in H. subst. exact I. Qed.
Lemma op_ok : forall c o, op_test c o = true -> op_named c o.
Proof.
  intros c o H. unfold op_test in H. apply andb_prop in H. destruct H as [N H]. split; [apply named_ok, N|]. apply orb_prop in H. destruct H as [H|H]; [apply orb_prop in H; destruct H as [H|H]|].
  - eexists. pose proof (ot_symbol c 0 (text_of o) 0 [] (symbol_ok _ H) (or_introl eq_refl) (fun H => False_ind _ (H eq_refl))) as X. cbn [ats repeat app] in X. rewrite app_nil_r in X. exact X.
  - unfold word_test in H. apply andb_prop in H. destruct H as [S H]. apply spelled_ok in S. destruct (defined c (text_of o)) eqn:D; eexists.
    + pose proof (ot_word c 0 (text_of o) 0 [] S D (or_introl eq_refl) (fun H => False_ind _ (H eq_refl))) as X. cbn [ats repeat app] in X. rewrite app_nil_r in X. exact X.
    + cbn in H. pose proof (ot_user c (text_of o) 0 S D ltac:(destruct (all_digits _ _ _); [discriminate|reflexivity]) (fun H => False_ind _ (H eq_refl))) as X. cbn [ats repeat app] in X. rewrite app_nil_r in X. exact X.
  - apply existsb_exists in H. destruct H as (x & X & H). apply existsb_exists in H. destruct H as (s & S & H). apply andb_prop in H. destruct H as [H B]. apply teq_is in H.
    eexists. rewrite H. exact (ot_symbol c 0 s 0 x S (or_intror (or_introl X)) (fun _ => or_introl B)).
Qed.
Lemma sign_ok : forall w, negb (sign_test w) = true -> ~ sign_dot w.
Proof. intros w H [A B]. unfold sign_test in H. rewrite B in H. destruct A as [A|A]; rewrite A in H; discriminate. Qed.
Lemma source_ok : forall c e, source_test c e = true -> sourced c e.
Proof.
  intros c. induction e as [v|s i|o r IHr|o l r IHl IHr|l r IHl IHr|l IHl|l idx IHl IHidx] using expr_ind'; intros H; cbn [source_test] in H.
  - apply constant_ok, H.
  - repeat (apply andb_prop in H; destruct H as [H ?]). split; [apply named_ok, H|]. split; [apply spelled_ok; assumption|]. split; [destruct (defined c (text_of s))|destruct (all_digits (text_of s) (ibase c) false)]; try discriminate; reflexivity.
  - apply andb_prop in H; destruct H as [H ?]. apply andb_prop in H; destruct H as [H ?]. split; [apply op_ok, H|]. split; [apply sign_ok; assumption|auto].
  - apply andb_prop in H; destruct H as [H ?]. apply andb_prop in H; destruct H as [H ?]. split; [|split; auto]. apply orb_prop in H. destruct H as [H|H]; [left; apply String.eqb_eq, H|right].
    apply andb_prop in H. destruct H as [H S]. split; [apply op_ok, H|]. intros X. exfalso. exact (sign_ok _ S X).
  - apply andb_prop in H. destruct H. split; auto.
  - cbn [sourced]. apply (sourced_list c). rewrite forallb_forall in H. rewrite Forall_forall in *. auto.
  - apply andb_prop in H. destruct H as [H1 H2]. cbn [sourced]. split; [auto|]. apply (sourced_index c). rewrite forallb_forall in H2. rewrite Forall_forall in *. intros [x|] X; [|exact Logic.I]. exact (IHidx _ X (H2 _ X)).
Qed.
Fixpoint arg_test (c : sctx) (e : expr) : bool :=
  match e with EVar _ _ => source_test c e | EVector l => forallb (arg_test c) l | _ => false end.
Lemma arg_ok : forall c e, arg_test c e = true -> arg_sourced c e.
Proof.
  intros c. induction e as [v|s i|o r IHr|o l r IHl IHr|l r IHl IHr|l IHl|l idx IHl IHidx] using expr_ind'; intros H; try discriminate.
  - exact (source_ok c (EVar s i) H).
  - cbn [arg_sourced arg_test] in *. apply (arg_list c). rewrite forallb_forall in H. rewrite Forall_forall in *. auto.
Qed.
Definition header_test (c : sctx) (fn : func) : bool := match f_left fn with Some e => arg_test c e | None => true end && arg_test c (f_right fn).
Lemma header_ok : forall c fn, header_test c fn = true -> header_sourced c fn.
Proof. intros c fn H. apply andb_prop in H. destruct H as [H1 H2]. split; [destruct (f_left fn); [apply arg_ok, H1|exact Logic.I]|apply arg_ok, H2]. Qed.
Definition scanned_test (tok : string -> ParseModel.token) (t : ParseModel.token) : bool :=
  match t with
  | ParseModel.KOp o => match tok o with ParseModel.KOp x => String.eqb x o | _ => false end && negb (String.eqb o "=")
  | ParseModel.KId s => match tok s with ParseModel.KId x => String.eqb x s | _ => false end && negb (String.eqb s "=")
  | ParseModel.KNum (Some (VChar _)) => false
  | _ => true
  end.
Lemma scanned_ok : forall tok t, scanned_test tok t = true -> ParseSpec.scanned tok t.
Proof.
  intros tok t H. destruct t; try exact Logic.I; cbn [scanned_test ParseSpec.scanned] in *.
  - destruct v as [[]|]; try exact Logic.I. discriminate.
  - apply andb_prop in H. destruct H as [H N]. destruct (tok _); try discriminate. apply String.eqb_eq in H. subst. split; [reflexivity|]. intros ->. discriminate.
  - apply andb_prop in H. destruct H as [H N]. destruct (tok _); try discriminate. apply String.eqb_eq in H. subst. split; [reflexivity|]. intros ->. discriminate.
Qed.
Definition name_test (c : sctx) (s : string) : bool :=
  named_test s && spelled_test c (text_of s) && is_identifier c (text_of s) && negb (all_digits (text_of s) (ibase c) false) && forallb (fun r => (0 <=? r) && (r <? 0xD800)) (text_of s).
Lemma name_ok : forall c s, name_test c s = true -> operator_name c s.
Proof.
  intros c s H. unfold name_test in H. repeat (apply andb_prop in H; destruct H as [H ?]). split; [apply named_ok, H|]. split; [apply spelled_ok; assumption|]. split; [assumption|].
  split; [destruct (all_digits _ _ _); [discriminate|reflexivity]|]. apply Forall_forall. intros r R. rewrite forallb_forall in H0. specialize (H0 r R). unfold code_point. lia.
Qed.
Section Made.
Variables letters digits puncts symbols : Z -> bool.
Variables bu bb : string -> bool.
Notation context st := (scan_ctx 0 letters digits puncts symbols bu bb st).
(* the tokens of the definition *)
Definition source := (list ParseModel.token * list (list ParseModel.token))%type.
Definition apart_test (d : ParseModel.scope) (e : expr) : bool :=
  forallb (fun s => negb (ParseModel.defined_unary d (ParseModel.trim s))) (ParseSpec.variables e) && ParseSpec.separable d e.
Definition made_test (ds : list (string * bool)) (A : ctx) (fn : func) (src : source) : bool :=
  let H := only ds A in
  match f_body fn, ParseModel.parse_tokens bu bb (unary H) (binary H) (ParseModel.KDef :: fst src) (snd src) with
  | Some body, LDefine fn0 _ true =>
    let I := match body with [_] => H | _ => only (ds ++ [(f_name fn, f_binary fn)]) A end in
    forallb (scanned_test (op_token (context I))) (fst src) && forallb (forallb (scanned_test (op_token (context I)))) (snd src) &&
    forallb (apart_test (ParseSpec.def_scope bu bb (unary H) (binary H) fn0)) body && header_test (context H) fn && forallb (source_test (context I)) body
  | _, _ => false
  end.
Lemma made_ok : forall ds A fn src, (match ParseModel.parse_tokens bu bb (unary (only ds A)) (binary (only ds A)) (ParseModel.KDef :: fst src) (snd src) with LDefine _ fn' true => fn' = fn | _ => False end) ->
  made_test ds A fn src = true -> made_with letters digits puncts symbols bu bb ds A fn.
Proof.
  intros ds A fn [ts more] P M. unfold made_test in M. cbn [fst snd] in *. destruct (f_body fn) as [body|] eqn:FB; [|discriminate].
  destruct (ParseModel.parse_tokens _ _ _ _ _ _) as [|fn0 fn' ok| |] eqn:Q; try contradiction. destruct ok; [|contradiction]. subst fn'.
  repeat (apply andb_prop in M; destruct M as [M ?]). exists body, fn0, ts, more. cbv zeta. split; [exact FB|]. split; [exact Q|].
  split; [apply Forall_forall; intros x X; apply scanned_ok; rewrite forallb_forall in M; auto|].
  split. { apply Forall_forall. intros l L. apply Forall_forall. intros x X. apply scanned_ok. rewrite forallb_forall in H2. specialize (H2 l L). rewrite forallb_forall in H2. auto. }
  split; [|split; [apply header_ok; assumption|apply Forall_forall; intros x X; apply source_ok; rewrite forallb_forall in H; auto]].
  apply Forall_forall. intros x X. rewrite forallb_forall in H1. specialize (H1 x X). unfold apart_test in H1. apply andb_prop in H1. destruct H1 as [H1 H1']. split; [|exact H1'].
  intros s I. rewrite forallb_forall in H1. specialize (H1 s I). destruct (ParseModel.defined_unary _ _); [discriminate|reflexivity].
Qed.
End Made.

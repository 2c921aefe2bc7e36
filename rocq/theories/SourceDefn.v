(* The text of a definition is read as its tokens. *)
From Coq Require Import String ZifyBool.
From Verif Require Import Value NumModel NumSpec ArrModel ArrSpec Syntax ExecModel ExecProofs ScanModel ScanSpec ScanProofs ScanLex ScanNext ScanForm
  TextModel TextSpec TextProofs TextScan TextNum StrModel StrSpec StrProofs ReadModel ReadScan SaveModel SaveSpec SaveProofs SaveRun SourceModel SourceSpec SourceScan SourceProofs CmdModel.
From Verif Require ParseModel ParseSpec ParseProofs ParsePrint ParseDefn.
Open Scope string_scope.
Open Scope list_scope.
Open Scope Z_scope.

Section Defn.
Variable c : sctx.
Hypothesis ten : ibase c = 0 \/ ibase c = 10.
Hypothesis nodig : no_digit_operators c.
Notation ib := (ibase c).
Notation reads_as := (reads_as c).
Notation parsed := (parser_token ib).
Notation free := (free c).
Notation after_gap := (after_gap c).
Notation KDef := ParseModel.KDef. Notation KId := ParseModel.KId. Notation KAssign := ParseModel.KAssign.
Let u0 : Z -> bool := fun _ => false.
Let d0 : ParseModel.scope := ParseModel.mkScope (fun _ => false) (fun _ => false) (fun _ => false) (fun _ => false) [].

Lemma emits_op : forall l, stop (hd eof l) -> emits c TOp (zs "op") l false.
Proof using Type.
  intros l S v u I O V _. assert (W : word c (zs "op")) by (split; [discriminate|split; [repeat constructor|reflexivity]]).
  destruct (any_word c _ l u v W I O V) as (s & -> & I' & O'). destruct (word_read c _ l s v W I' O' V S) as (s5 & I5 & O5 & R5 & T5 & ->).
  change (teq (zs "op") (zs "op")) with true. cbv iota. exists s5. auto.
Qed.
Lemma op_line : forall b tb, after_gap b tb -> free (zs "op" ++ [32] ++ b) (KDef :: tb).
Proof using Type.
  intros b tb (kb & SB & MB & PB & LB). exists (mkTok TOp (zs "op") :: kb).
  split; [|split; [cbn [map]; rewrite MB; reflexivity|split; [constructor; [exact Logic.I|exact PB]|rewrite !app_length; cbn [length]; lia]]].
  intros s gap l B G TC E. rewrite <-!app_assoc in TC.
  destruct (next_emits c TOp (zs "op") ([32] ++ b ++ l) false s gap) as (s1 & A1 & A2 & A3 & _); auto; try discriminate.
  { apply emits_op. right; left; reflexivity. }
  destruct (SB s1 [32] l A3) as (s2 & R2 & T2 & B2); auto; try discriminate; [constructor; [left; reflexivity|constructor]|].
  exists s2. split; [exists s1; auto|auto].
Qed.
Lemma name_text : forall s, operator_name c s -> operator_text c (text_of s) TIdent.
Proof using Type.
  intros s (N & SP & ID & AD & _). destruct (defined c (text_of s)) eqn:D.
  - pose proof (ot_word c 0 (text_of s) 0 [] SP D (or_introl eq_refl) (fun H => False_ind _ (H eq_refl))) as H. cbn [ats repeat app] in H. rewrite app_nil_r in H. rewrite ID in H. exact H.
  - pose proof (ot_user c (text_of s) 0 SP D AD (fun H => False_ind _ (H eq_refl))) as H. cbn [ats repeat] in H. rewrite app_nil_r in H. exact H.
Qed.
Lemma name_no_sign : forall s, spelled c (text_of s) -> ~ sign_dot (text_of s).
Proof using Type.
  intros s (NE & F & _) [H _]. destruct (text_of s) as [|r w]; [contradiction|]. pose proof (alnum_spec _ _ (Forall_inv F)). cbn in H. lia.
Qed.
Lemma arg_list : forall l, fold_right (fun x P => arg_sourced c x /\ P) True l <-> Forall (arg_sourced c) l.
Proof using Type. induction l as [|x l IH]; cbn; [split; auto|]. rewrite IH. split; [intros [A B]; auto|intros H; inversion H; auto]. Qed.
Lemma as_arg : forall e, arg_sourced c e -> reads_as (arg_text e) (ParseModel.print_arg e).
Proof using ten nodig.
  induction e as [v|s i|o r IHr|o l r IHl IHr|l r IHl IHr|l IHl|l idx IHl IHidx] using expr_ind'; intros S; try (exact (False_ind _ S)).
  - destruct S as (N & SP & D & A). apply (as_variable u0); assumption.
  - cbn [arg_sourced] in S. apply arg_list in S. cbn [arg_text ParseModel.print_arg]. destruct l as [|x l].
    + cbn. apply free_reads. apply (mark_then u0 c ten 40 TLParen [41]); [unfold mark; tauto|tauto|]. apply free_reads, (mark_end u0 c ten 41 TRParen). unfold mark; tauto.
    + apply (as_paren c d0). pose proof (as_spaces c d0 (map (fun x => (arg_text x, ParseModel.print_arg x)) (x :: l))) as H. rewrite !map_map in H. cbn [fst snd] in H.
      apply H; [discriminate|]. apply Forall_forall. intros p P. apply in_map_iff in P. destruct P as (y & <- & Y). cbn [fst snd].
      rewrite Forall_forall in S, IHl. apply IHl; auto.
Qed.
(* the tokens of the header *)
Definition header (fn : func) : list ParseModel.token :=
  match f_left fn with Some e => ParseModel.print_arg e | None => [] end ++ KId (f_name fn) :: ParseModel.print_arg (f_right fn).
Definition header_text (fn : func) : text :=
  match f_left fn with Some e => arg_text e ++ [32] | None => [] end ++ text_of (f_name fn) ++ [32] ++ arg_text (f_right fn).
Lemma header_then : forall fn b tb, operator_name c (f_name fn) -> match f_left fn with Some e => arg_sourced c e | None => True end -> arg_sourced c (f_right fn) ->
  after_gap b tb -> b <> [] -> free (zs "op" ++ [32] ++ header_text fn ++ [32] ++ b) (KDef :: header fn ++ tb).
Proof using ten nodig.
  intros fn b tb ON SL SR RB NB. unfold header_text, header. rewrite <-!app_assoc. apply op_line.
  assert (R : reads_as (arg_text (f_right fn) ++ [32] ++ b) (ParseModel.print_arg (f_right fn) ++ tb)) by (apply spaced_gap; [apply as_arg, SR|exact RB]).
  assert (N : after_gap (text_of (f_name fn) ++ [32] ++ arg_text (f_right fn) ++ [32] ++ b) (KId (f_name fn) :: ParseModel.print_arg (f_right fn) ++ tb)).
  { pose proof (fun b tb => operator_gap u0 c (text_of (f_name fn)) TIdent b tb (name_text _ ON)) as H. replace (parsed (mkTok TIdent (text_of (f_name fn)))) with (KId (f_name fn)) in H.
    - apply H; [|exact R|destruct (arg_text (f_right fn)); discriminate]. intros SD. exfalso. exact (name_no_sign _ (proj1 (proj2 ON)) SD).
    - unfold parser_token. cbn [t_type t_text]. rewrite (proj1 ON). reflexivity. }
  destruct (f_left fn) as [e|]; [|exact N]. rewrite <-!app_assoc. cbn [app]. apply reads_gap. apply (spaced_gap c _ _ _ _ (as_arg e SL) N).
Qed.
Lemma header_end : forall fn, operator_name c (f_name fn) -> f_left fn = None -> arg_sourced c (f_right fn) -> arg_text (f_right fn) <> [] ->
  free (zs "op" ++ [32] ++ header_text fn) (KDef :: header fn).
Proof using ten nodig.
  intros fn ON SL SR NE. unfold header_text, header. rewrite SL. apply op_line. cbn [app].
  pose proof (fun b tb => operator_gap u0 c (text_of (f_name fn)) TIdent b tb (name_text _ ON)) as H. replace (parsed (mkTok TIdent (text_of (f_name fn)))) with (KId (f_name fn)) in H.
  - apply H; [|apply as_arg, SR|exact NE]. intros SD. exfalso. exact (name_no_sign _ (proj1 (proj2 ON)) SD).
  - unfold parser_token. cbn [t_type t_text]. rewrite (proj1 ON). reflexivity.
Qed.
Lemma assign_end : free [61] [KAssign].
Proof using Type.
  exists [mkTok TAssign [61]]. split; [|split; [reflexivity|split; [constructor; [exact Logic.I|constructor]|cbn; lia]]].
  intros s gap l B G TC E. destruct (next_emits c TAssign [61] l false s gap) as (s1 & A1 & A2 & A3 & _); auto; try discriminate.
  { apply emits_assign. intros H. unfold number_end in E. destruct l as [|x l]; [discriminate H|cbn in H, E; lia]. }
  exists s1. split; [exists s1; cbn; auto|auto].
Qed.

(* ---- lines ---- *)
Definition fits (q : sc) (n : nat) : Prop := (length (to_come q) < n)%nat.
Lemma fits_room : forall q, fits q (S (length (input q) + length (pending q))).
Proof using Type.
  intros q. unfold fits, to_come. rewrite app_length, skipn_length. assert ((length (nocr (pending q)) <= length (pending q))%nat); [|lia].
  unfold nocr. generalize (pending q). intros p. induction p as [|y p IH]; cbn; [lia|]. destruct (negb (y =? 13)); cbn; lia.
Qed.
Lemma newline_after : forall q gap more, between_tokens q -> Forall blank gap -> to_come q = gap ++ [nl] ++ more ->
  exists q', Next c q = Some (mkTok TNewline [nl], q') /\ to_come q' = more /\ between_tokens q'.
Proof using Type.
  intros q gap more B G T. destruct (next_emits c TNewline [nl] more false q gap) as (q' & F1 & F2 & F3 & _); auto; try discriminate.
  { apply emits_char. left. split; reflexivity. } eauto.
Qed.
Lemma free_line : forall t ts q gap more, free t ts -> between_tokens q -> Forall (fun r => r = 32) gap -> to_come q = t ++ gap ++ [nl] ++ more ->
  exists ks q', map parsed ks = ts /\ (forall n, fits q n -> read_tokens c n [] q = Some (Some ks, true, q')) /\ to_come q' = more /\ between_tokens q'.
Proof using Type.
  intros t ts q gap more (ks & RD & M & PL & L) B G TC.
  destruct (RD q [] (gap ++ [nl] ++ more) B ltac:(constructor) TC) as (q1 & R1 & T1 & B1).
  { unfold number_end. destruct G as [|x gap -> G]; cbn; unfold nl; lia. }
  destruct (newline_after q1 gap more B1 (Forall_impl _ (fun r H => or_introl H) G) T1) as (q2 & F1 & F2 & F3).
  exists ks, q2. split; [exact M|]. split; [|auto]. intros n F. apply (read_tokens_reads c ks n [] q q1 [nl] q2 R1 PL F1). unfold fits in F. rewrite TC, app_length in F. lia.
Qed.
Lemma body_reads : forall ks fuel acc s s1 tx s2, reads c s ks s1 -> Forall SaveProofs.plain ks -> Next c s1 = Some (mkTok TNewline tx, s2) -> (length ks < fuel)%nat -> rev acc ++ ks <> [] ->
  read_in_body c fuel acc s = Some (Some (rev acc ++ ks), s2).
Proof using Type.
  induction ks as [|k ks IH]; intros fuel acc s s1 tx s2 R P N L NE; (destruct fuel; [cbn in L; lia|]); cbn [reads read_in_body] in *.
  - subst s1. rewrite N. cbn [t_type]. rewrite app_nil_r in *. destruct acc; [contradiction|reflexivity].
  - destruct R as (q & Q & R). rewrite Q. inversion P as [|? ? P1 P2]; subst.
    specialize (IH fuel (k :: acc) q s1 tx s2 R P2 N ltac:(cbn in L; lia)).
    cbn [rev] in IH. rewrite <-app_assoc in IH. unfold SaveProofs.plain in P1. destruct (t_type k); try contradiction; apply IH; exact NE.
Qed.
Variable u_print : Z -> bool.
Lemma body_line : forall e q more, sourced c e -> between_tokens q -> to_come q = [9] ++ prog_text u_print e ++ [nl] ++ more ->
  exists ks q', map parsed ks = ParseModel.print (op_token c) e /\ (forall n, fits q n -> read_in_body c n [] q = Some (Some ks, q')) /\ to_come q' = more /\ between_tokens q' /\ ks <> [].
Proof using ten nodig.
  intros e q more SE B TC. destruct (source_reads u_print c ten nodig e SE) as (ks & RD & M & PL & L).
  destruct (RD q [9] ([nl] ++ more) B) as (q1 & R1 & T1 & B1); auto; try discriminate.
  { constructor; [right; reflexivity|constructor]. } { unfold number_end. cbn. unfold nl. lia. }
  destruct (newline_after q1 [] more B1 ltac:(constructor) T1) as (q2 & F1 & F2 & F3).
  assert (NE : ks <> []). { intros ->. cbn in M. symmetry in M. exact (print_nonempty c e M). }
  exists ks, q2. split; [exact M|]. split; [|auto]. intros n F. apply (body_reads ks n [] q q1 [nl] q2 R1 PL F1); [|exact NE].
  unfold fits in F. rewrite TC, !app_length in F. lia.
Qed.
Definition body_text (l : list expr) : text := flat_map (fun e => [9] ++ prog_text u_print e ++ [nl]) l.
Lemma body_text_is : forall l, flat_map (fun e => [10; 9] ++ prog_text u_print e) l ++ [nl] = [nl] ++ body_text l.
Proof using Type. induction l as [|e l IH]; [reflexivity|]. cbn [flat_map body_text] in *. rewrite <-!app_assoc, IH. unfold body_text. cbn [app]. reflexivity. Qed.
Lemma body_read : forall d l k q more, Forall (sourced c) l -> Forall (fun e => exists e', ParseSpec.Statement d (ParseModel.print (op_token c) e) e') l -> between_tokens q ->
  to_come q = body_text l ++ [nl] ++ more -> (length l < k)%nat ->
  exists q', read_body ib c d k q = (map (ParseModel.print (op_token c)) l, q') /\ to_come q' = more /\ between_tokens q'.
Proof using ten nodig.
  intros d. induction l as [|e l IH]; intros k q more S P B TC K; (destruct k; [lia|]).
  - cbn [body_text flat_map app] in TC. destruct (newline_after q [] more B ltac:(constructor) TC) as (q2 & F1 & F2 & F3). exists q2. split; [|auto].
    cbn [read_body]. cbn [read_in_body]. rewrite F1. cbn [t_type t_text length Nat.leb]. reflexivity.
  - inversion S as [|? ? S1 S2]; inversion P as [|? ? [e' P1] P2]; subst. cbn [body_text flat_map] in TC. rewrite <-!app_assoc in TC.
    destruct (body_line e q _ S1 B TC) as (ks & q1 & M & R & T1 & B1 & NE). cbn [length] in K.
    destruct (IH k q1 more S2 P2 B1 T1 ltac:(lia)) as (q2 & R2 & T2 & B2). exists q2. split; [|auto]. cbn [read_body]. rewrite (R _ (fits_room q)).
    destruct ks as [|k0 ks]; [contradiction|]. rewrite M.
    rewrite (ParseDefn.expression_list_complete d _ _ [e']); [|constructor; exact P1|unfold ParseModel.enough; lia]. rewrite R2. reflexivity.
Qed.
End Defn.

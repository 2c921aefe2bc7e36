(* The source form of an expression, as text, is read as its source form as tokens. *)
From Coq Require Import String ZifyBool.
From Verif Require Import Value NumModel NumSpec ArrModel ArrSpec Syntax ExecModel ExecProofs ScanModel ScanSpec ScanProofs ScanLex ScanNext ScanForm
  TextModel TextSpec TextProofs TextScan TextNum StrModel StrSpec StrProofs ReadModel ReadScan SaveModel SaveSpec SaveProofs SourceModel SourceSpec SourceScan.
From Verif Require ParseModel ParseSpec ParseProofs ParsePrint.
Open Scope string_scope.
Open Scope list_scope.
Open Scope Z_scope.

Section Source.
Variable u_print : Z -> bool.
Variable c : sctx.
Hypothesis ten : ibase c = 0 \/ ibase c = 10.
Hypothesis nodig : no_digit_operators c.
Notation ib := (ibase c).
Notation reads_as := (reads_as c).
Notation parsed := (parser_token ib).
Let d0 : ParseModel.scope := ParseModel.mkScope (fun _ => false) (fun _ => false) (fun _ => false) (fun _ => false) [].

(* read after a gap; read wherever it stands *)
Definition after_gap (t : text) (ts : list ParseModel.token) : Prop :=
  exists ks, (forall s gap l, between_tokens s -> Forall blank gap -> gap <> [] -> to_come s = gap ++ t ++ l -> number_end l ->
     exists s', reads c s ks s' /\ to_come s' = l /\ between_tokens s') /\ map parsed ks = ts /\ Forall plain ks /\ (length ks <= length t)%nat.
Definition free (t : text) (ts : list ParseModel.token) : Prop :=
  exists ks, (forall s gap l, between_tokens s -> Forall blank gap -> to_come s = gap ++ t ++ l -> number_end l ->
     exists s', reads c s ks s' /\ to_come s' = l /\ between_tokens s') /\ map parsed ks = ts /\ Forall plain ks /\ (length ks <= length t)%nat.
Lemma gap_end : forall l, number_end (32 :: l). Proof. intros. unfold number_end. cbn. lia. Qed.
Lemma free_reads : forall t ts, free t ts -> reads_as t ts.
Proof. intros t ts (ks & F & R). exists ks. split; [|exact R]. intros s gap l B G TC E _. eauto. Qed.
Lemma reads_gap : forall t ts, reads_as t ts -> after_gap t ts.
Proof. intros t ts (ks & F & R). exists ks. split; [|exact R]. intros s gap l B G NE TC E. eapply F; eauto. intros ->. contradiction. Qed.
Lemma free_gap : forall t ts, free t ts -> after_gap t ts. Proof. intros. apply reads_gap, free_reads. assumption. Qed.
Lemma reads_nonempty : forall t ts, reads_as t ts -> ts <> [] -> t <> [].
Proof. intros t ts (ks & _ & M & _ & L) N ->. destruct ks; [subst; apply N; reflexivity|cbn in L; lia]. Qed.
Lemma spaced_gap : forall a ta b tb, reads_as a ta -> after_gap b tb -> reads_as (a ++ [32] ++ b) (ta ++ tb).
Proof.
  intros a ta b tb (ka & SA & MA & PA & LA) (kb & SB & MB & PB & LB). exists (ka ++ kb). split; [|split; [rewrite map_app, MA, MB; reflexivity|split; [apply Forall_app; auto|rewrite !app_length; lia]]].
  intros s gap l B G TC E S. rewrite <-!app_assoc in TC.
  destruct (SA s gap ([32] ++ b ++ l) B G TC (gap_end _) S) as (s1 & R1 & T1 & B1).
  destruct (SB s1 [32] l B1) as (s2 & R2 & T2 & B2); auto; [constructor; [left; reflexivity|constructor]|discriminate|].
  exists s2. split; [eapply reads_app; eauto|auto].
Qed.
Lemma tight : forall a ta b tb, reads_as a ta -> free b tb -> (forall l, number_end (b ++ l)) -> reads_as (a ++ b) (ta ++ tb).
Proof.
  intros a ta b tb (ka & SA & MA & PA & LA) (kb & SB & MB & PB & LB) NE. exists (ka ++ kb). split; [|split; [rewrite map_app, MA, MB; reflexivity|split; [apply Forall_app; auto|rewrite !app_length; lia]]].
  intros s gap l B G TC E S. rewrite <-!app_assoc in TC.
  destruct (SA s gap (b ++ l) B G TC (NE l) S) as (s1 & R1 & T1 & B1).
  destruct (SB s1 [] l B1) as (s2 & R2 & T2 & B2); auto.
  exists s2. split; [eapply reads_app; eauto|auto].
Qed.
(* the characters that are tokens by themselves *)
Definition mark (r : Z) (ty : ttype) : Prop :=
  (r = 40 /\ ty = TLParen) \/ (r = 41 /\ ty = TRParen) \/ (r = 59 /\ ty = TSemi) \/ (r = 58 /\ ty = TColon) \/ (r = 91 /\ ty = TLBrack) \/ (r = 93 /\ ty = TRBrack).
Lemma mark_facts : forall r ty l, mark r ty -> emits c ty [r] l false /\ is_space r = false /\ plain (mkTok ty [r]).
Proof.
  intros r ty l M. split; [apply emits_char; unfold mark in M; tauto|]. destruct M as [[-> ->]|[[-> ->]|[[-> ->]|[[-> ->]|[[-> ->]|[-> ->]]]]]]; split; (reflexivity || exact Logic.I).
Qed.
Lemma mark_end : forall r ty, mark r ty -> free [r] [parsed (mkTok ty [r])].
Proof.
  intros r ty M. exists [mkTok ty [r]]. split; [|split; [reflexivity|split; [constructor; [apply (mark_facts r ty [] M)|constructor]|cbn; lia]]].
  intros s gap l B G TC E. destruct (mark_facts r ty l M) as (EM & SP & _).
  destruct (next_emits c ty [r] l false s gap EM ltac:(discriminate) SP B G TC ltac:(discriminate)) as (s1 & N1 & T1 & B1 & _).
  exists s1. split; [|auto]. exists s1. split; [exact N1|reflexivity].
Qed.
Lemma mark_then : forall r ty b tb, mark r ty -> (r = 40 \/ r = 59 \/ r = 91 \/ r = 58) -> reads_as b tb -> free (r :: b) (parsed (mkTok ty [r]) :: tb).
Proof.
  intros r ty b tb M OP (kb & SB & MB & PB & LB). exists (mkTok ty [r] :: kb). split; [|split; [cbn [map]; rewrite MB; reflexivity|split; [constructor; [apply (mark_facts r ty [] M)|exact PB]|cbn [length]; lia]]].
  intros s gap l B G TC E. destruct (mark_facts r ty (b ++ l) M) as (EM & SP & _).
  destruct (next_emits c ty [r] (b ++ l) false s gap EM ltac:(discriminate) SP B G TC ltac:(discriminate)) as (s1 & N1 & T1 & B1 & O1).
  destruct (SB s1 [] l B1 ltac:(constructor) T1 E) as (s2 & R2 & T2 & B2).
  { intros _. apply O1. unfold open_end. cbn. destruct OP as [-> |[-> |[-> | ->]]]; (split; [reflexivity|lia]). }
  exists s2. split; [|auto]. exists s1. split; [exact N1|exact R2].
Qed.
Lemma mark_spaced : forall r ty b tb, mark r ty -> reads_as b tb -> free (r :: 32 :: b) (parsed (mkTok ty [r]) :: tb).
Proof.
  intros r ty b tb M (kb & SB & MB & PB & LB). exists (mkTok ty [r] :: kb). split; [|split; [cbn [map]; rewrite MB; reflexivity|split; [constructor; [apply (mark_facts r ty [] M)|exact PB]|cbn [length]; lia]]].
  intros s gap l B G TC E. destruct (mark_facts r ty (32 :: b ++ l) M) as (EM & SP & _).
  destruct (next_emits c ty [r] (32 :: b ++ l) false s gap EM ltac:(discriminate) SP B G TC ltac:(discriminate)) as (s1 & N1 & T1 & B1 & O1).
  destruct (SB s1 [32] l B1 ltac:(constructor; [left; reflexivity|constructor]) T1 E) as (s2 & R2 & T2 & B2); [discriminate|].
  exists s2. split; [|auto]. exists s1. split; [exact N1|exact R2].
Qed.
Lemma assign_spaced : forall b tb, reads_as b tb -> free (61 :: 32 :: b) (ParseModel.KAssign :: tb).
Proof.
  intros b tb (kb & SB & MB & PB & LB). exists (mkTok TAssign [61] :: kb). split; [|split; [cbn [map]; rewrite MB; reflexivity|split; [constructor; [exact Logic.I|exact PB]|cbn [length]; lia]]].
  intros s gap l B G TC E.
  destruct (next_emits c TAssign [61] (32 :: b ++ l) false s gap (emits_assign c (32 :: b ++ l) ltac:(discriminate)) ltac:(discriminate) eq_refl B G TC ltac:(discriminate)) as (s1 & N1 & T1 & B1 & O1).
  destruct (SB s1 [32] l B1 ltac:(constructor; [left; reflexivity|constructor]) T1 E) as (s2 & R2 & T2 & B2); [discriminate|].
  exists s2. split; [|auto]. exists s1. split; [exact N1|exact R2].
Qed.

(* ---- operators ---- *)
Lemma operator_hd : forall w ty, operator_text c w ty -> w <> [] /\ is_space (hd 0 w) = false.
Proof.
  assert (AT : forall n x, x <> [] -> is_space (hd 0 x) = false -> ats n ++ x <> [] /\ is_space (hd 0 (ats n ++ x)) = false).
  { intros n x N S. destruct n; [auto|]. cbn. split; [discriminate|reflexivity]. }
  intros w ty H. destruct H as [m s n x HS _ _|m s n x SP _ _ _|x _|s n SP _ _ _].
  - destruct (symbol_first c s HS) as (r & t & -> & _ & _ & _ & _ & S & _). apply AT; [discriminate|exact S].
  - destruct (word_first c s SP) as (r & t & -> & _ & _ & _ & _ & S & _). apply AT; [discriminate|exact S].
  - split; [discriminate|reflexivity].
  - destruct (word_first c s SP) as (r & t & -> & _ & _ & _ & _ & S & _). split; [discriminate|exact S].
Qed.
Lemma next_operator : forall w ty l s gap, operator_text c w ty -> l <> [] -> between_tokens s -> Forall blank gap -> to_come s = gap ++ w ++ 32 :: l ->
  (sign_dot w -> gap <> [] /\ is_numeral c (nth 2 w 0) = false) ->
  exists s', Next c s = Some (mkTok ty w, s') /\ to_come s' = 32 :: l /\ between_tokens s'.
Proof.
  intros w ty l s gap OT NL [K B] BG TC G. destruct (operator_hd w ty OT) as [NE SP]. unfold Next. set (s0 := mkSc (input s) (pending s) (fin s) (pos s) (start s) eof 0).
  assert (I : Inv (unread s0) 0 s0).
  { apply inv_ok. split; [|reflexivity]. destruct K as (K1 & K2 & K3 & K4). repeat split; cbn; auto; lia. }
  destruct B as [B|B]; [|rewrite B in TC; destruct gap, w; (discriminate TC || contradiction)].
  assert (U : unread s0 = to_come s). { unfold unread, to_come, s0. cbn [start input pending]. rewrite B. reflexivity. }
  rewrite U in I. assert (O : off s0 = 0%nat) by (unfold off, s0; cbn; lia).
  assert (F : forall n u v, Inv v 0 u -> v = w ++ 32 :: l -> off u = 0%nat -> (sign_dot w -> (0 < start u)%nat /\ (pos u < length (input u))%nat /\ is_numeral c (nth 2 w 0) = false) ->
    exists s', run_states c (S n) u = Some (mkTok ty w, s') /\ to_come s' = 32 :: l /\ between_tokens s').
  { intros n u v Iu Vu Ou Gu. destruct (operator_read c w ty l v u OT Iu Ou Vu NL Gu) as (s1 & A1 & A2 & A3). cbn [run_states]. rewrite A1.
    destruct (emit_text v s1 w (32 :: l) A2 Vu A3) as [E1 E2]. rewrite E1. destruct (past_ok _ _ _ A2) as (P1 & P2 & P3).
    eexists. split; [reflexivity|]. split; [exact (eq_trans P2 E2)|exact P3]. }
  destruct gap as [|g gap].
  - cbn [app] in TC. apply F with (v := to_come s); auto. intros SD. destruct (G SD) as [H _]. contradiction.
  - assert (SP' : is_space (hd eof (w ++ 32 :: l)) = false) by (destruct w; [contradiction|exact SP]).
    assert (NU : w ++ 32 :: l <> []) by (destruct w; discriminate).
    destruct (any_blank c (to_come s) s0 (g :: gap) (w ++ 32 :: l) I O TC ltac:(discriminate) BG SP') as (s1 & A1 & A2 & A3 & A4).
    destruct (blank_loaded c (to_come s) s0 (g :: gap) (w ++ 32 :: l) s1 I O TC ltac:(discriminate) BG SP' NU A1) as [L1 L2].
    cbn [run_states]. rewrite A1. apply F with (v := w ++ 32 :: l); auto. intros SD. destruct (G SD). auto.
Qed.
Lemma op_plain : forall w ty, operator_text c w ty -> plain (mkTok ty w).
Proof. intros w ty H. destruct H; try exact Logic.I. unfold plain. cbn [t_type]. destruct (is_identifier c _); exact Logic.I. Qed.
Lemma operator_free : forall w ty b tb, operator_text c w ty -> ~ sign_dot w -> reads_as b tb -> b <> [] -> free (w ++ [32] ++ b) (parsed (mkTok ty w) :: tb).
Proof.
  intros w ty b tb OT ND (kb & SB & MB & PB & LB) NB. destruct (operator_hd w ty OT) as [NE _].
  exists (mkTok ty w :: kb). split; [|split; [cbn [map]; rewrite MB; reflexivity|split; [constructor; [apply op_plain, OT|exact PB]|rewrite !app_length; cbn [length]; lia]]].
  intros s gap l B G TC E. rewrite <-!app_assoc in TC.
  destruct (next_operator w ty (b ++ l) s gap OT ltac:(destruct b; [contradiction|discriminate]) B G TC ltac:(intros; contradiction)) as (s1 & N1 & T1 & B1).
  destruct (SB s1 [32] l B1 ltac:(constructor; [left; reflexivity|constructor]) T1 E) as (s2 & R2 & T2 & B2); [discriminate|].
  exists s2. split; [|auto]. exists s1. split; [exact N1|exact R2].
Qed.
Lemma operator_gap : forall w ty b tb, operator_text c w ty -> (sign_dot w -> is_numeral c (nth 2 w 0) = false) -> reads_as b tb -> b <> [] -> after_gap (w ++ [32] ++ b) (parsed (mkTok ty w) :: tb).
Proof.
  intros w ty b tb OT ND (kb & SB & MB & PB & LB) NB. destruct (operator_hd w ty OT) as [NE _].
  exists (mkTok ty w :: kb). split; [|split; [cbn [map]; rewrite MB; reflexivity|split; [constructor; [apply op_plain, OT|exact PB]|rewrite !app_length; cbn [length]; lia]]].
  intros s gap l B G NG TC E. rewrite <-!app_assoc in TC.
  destruct (next_operator w ty (b ++ l) s gap OT ltac:(destruct b; [contradiction|discriminate]) B G TC ltac:(intros SD; auto)) as (s1 & N1 & T1 & B1).
  destruct (SB s1 [32] l B1 ltac:(constructor; [left; reflexivity|constructor]) T1 E) as (s2 & R2 & T2 & B2); [discriminate|].
  exists s2. split; [|auto]. exists s1. split; [exact N1|exact R2].
Qed.
Lemma kind_unique : forall w ty, operator_text c w ty -> ty = op_kind c w.
Proof.
  assert (NA : forall a r b, is_alnum c r = false -> r <> 64 -> forallb (fun r => is_alnum c r || (r =? at_sign)) (a ++ r :: b) = false).
  { intros a r b H N. rewrite forallb_app. cbn [forallb]. rewrite H. replace (r =? at_sign) with false by (unfold at_sign; lia). cbn. apply andb_false_r. }
  assert (SX : forall x, suffix c x -> x = [] \/ exists r b, x = r :: b /\ is_alnum c r = false /\ r <> 64).
  { intros x [->|[H|(y & -> & _)]]; [left; reflexivity| |right; exists 46, y; split; [reflexivity|split; [reflexivity|lia]]]. right. unfold reducing in H. cbn in H.
    destruct H as [<-|[<-|[<-|[<-|[]]]]]; eexists; eexists; (split; [reflexivity|split; [reflexivity|lia]]). }
  intros w ty H. unfold op_kind. destruct H as [m s n x HS _ _|m s n x SP D X _|x (y & -> & _)|s n SP D AD _].
  - destruct (symbol_first c s HS) as (r & t & -> & _ & AL & N & _). cbn [app]. rewrite NA by assumption.
    rewrite not_identifier; [reflexivity|]. exists (ats m), r, (t ++ ats n ++ x). auto.
  - destruct (SX x X) as [-> |(r & b & -> & AL & N)].
    + destruct (word_first c s SP) as (r & t & E & _ & AL & N & _ & _ & LS & _). rewrite app_nil_r. rewrite trim_core; [|subst s; exact N|exact LS|subst s; discriminate]. rewrite D. cbn [negb]. rewrite andb_false_r, orb_false_r. reflexivity.
    + replace (forallb _ _) with false; [cbn [andb]; rewrite orb_false_r; reflexivity|]. symmetry. rewrite !(app_assoc), <-(app_assoc (ats m)). apply NA; assumption.
  - rewrite (NA (zs "o") 46 y) by (reflexivity || lia). rewrite not_identifier; [reflexivity|]. exists (zs "o"), 46, y. split; reflexivity.
  - destruct (word_first c s SP) as (r & t & E & _ & AL & N & _ & _ & LS & _). change (s ++ ats n) with (ats 0 ++ s ++ ats n). rewrite trim_core; [|subst s; exact N|exact LS|subst s; discriminate]. rewrite D.
    cbn [ats repeat app]. rewrite forallb_app. assert (forallb (fun r0 => is_alnum c r0 || (r0 =? at_sign)) s = true) as ->.
    { apply forallb_forall. intros y Y. destruct SP as (_ & F & _). rewrite Forall_forall in F. rewrite (F y Y). reflexivity. }
    assert (forallb (fun r0 => is_alnum c r0 || (r0 =? at_sign)) (ats n) = true) as ->.
    { apply forallb_forall. intros y Y. apply repeat_spec in Y. subst y. apply orb_true_r. }
    cbn. rewrite orb_true_r. reflexivity.
Qed.
Lemma op_token_is : forall o ty, operator_text c (text_of o) ty -> op_token c o = parsed (mkTok ty (text_of o)).
Proof. intros o ty H. unfold op_token. rewrite <-(kind_unique _ _ H). reflexivity. Qed.

Lemma no_equals : forall ty, ~ operator_text c [61] ty.
Proof.
  intros ty H. assert (exists w, operator_text c w ty /\ w = [61]) as (w & H' & W) by eauto. clear H.
  assert (X : forall a r b, a ++ r :: b = [61] -> r = 61) by (intros [|x [|? ?]] r b Q; cbn in Q; congruence).
  destruct H' as [m s n x HS _ _|m s n x SP _ _ _|x (y & -> & _)|s n SP _ _ _].
  - destruct m as [|m]; [|discriminate W]. cbn in W. unfold symbols in HS. cbn in HS. repeat (destruct HS as [<-|HS]; [discriminate W|]). destruct HS.
  - destruct (word_first c s SP) as (r & t & -> & _ & AL & _). cbn [app] in W. pose proof (X _ _ _ W). pose proof (alnum_spec c r AL). lia.
  - discriminate W.
  - destruct (word_first c s SP) as (r & t & -> & _ & AL & _). cbn [app] in W. pose proof (X [] _ _ W). pose proof (alnum_spec c r AL). lia.
Qed.

(* ---- constants ---- *)
Lemma as_constant : forall v, constant v -> reads_as (prog_value u_print v) [match v with VChar r => KStr (Some [r]) | _ => KNum (Some v) end].
Proof.
  assert (NUM : forall v, canonical v -> reads_as (put u_print v false) [KNum (Some v)]).
  { intros v C. apply (as_number u_print c d0 ten nodig). destruct v; first [exact C|destruct C]. }
  intros v C. destruct v; cbn [constant] in C; try (exact (False_ind _ C)).
  all: match type of C with canonical ?v => pose proof (NUM v C) as H | code_point ?r => pose proof (as_char u_print c d0 r C) as H end; cbn [put andb app] in H; rewrite app_nil_r in H; exact H.
Qed.
Lemma as_chars : forall cs, Forall code_point cs -> reads_as (prog_chars u_print cs) [KStr (Some cs)].
Proof.
  intros cs F. assert (Q : quote 39) by (right; reflexivity). unfold prog_chars.
  eexists [mkTok TString _]. split; [|split; [|split; [constructor; [exact Logic.I|constructor]|cbn; lia]]].
  - apply (scans_one c) with (sign := false); [discriminate|reflexivity|]. intros l _. apply emits_string; [|exact Q].
    apply pieces_body with (q := 39); [intros x; apply (prog_piece u_print x)|exact F].
  - cbn [map]. unfold parser_token. cbn [t_type t_text]. rewrite (pieces_parse 39 (prog_char u_print) Q (prog_piece u_print) cs F). reflexivity.
Qed.
Lemma as_variable : forall s, named s -> spelled c (text_of s) -> defined c (text_of s) = false -> all_digits (text_of s) (ibase c) false = false -> reads_as (text_of s) [KId s].
Proof.
  intros s N SP D A. exists [mkTok TIdent (text_of s)]. split; [|split; [cbn [map]; unfold parser_token; cbn [t_type t_text]; rewrite N; reflexivity|split; [constructor; [exact Logic.I|constructor]|]]].
  - destruct (word_first c _ SP) as (r & t & E & _ & _ & _ & _ & SPC & _). apply (scans_one c) with (sign := false); [rewrite E; discriminate|rewrite E; exact SPC|].
    intros l L. apply emits_variable; [|exact L]. split; [apply spelled_word, SP|]. destruct SP as (_ & _ & _ & N1 & N2). auto.
  - destruct SP as (NE & _). destruct (text_of s); [contradiction|cbn; lia].
Qed.

(* ---- expressions ---- *)
Notation prog_text := (prog_text u_print).
Notation print := (ParseModel.print (op_token c)).
Fixpoint index_text (idx : list (option expr)) : text :=
  match idx with
  | [] => []
  | [o] => match o with Some x => prog_text x | None => [] end
  | o :: idx' => match o with Some x => prog_text x | None => [] end ++ [59; 32] ++ index_text idx'
  end.
Lemma prog_EIndex l idx : prog_text (EIndex l idx) = in_parens (ParseModel.compound l) (prog_text l) ++ [91] ++ index_text idx ++ [93].
Proof. reflexivity. Qed.
Lemma as_in_parens : forall b t ts, reads_as t ts -> reads_as (in_parens b t) (ParseModel.parens b ts).
Proof. intros [] t ts H; [apply (as_paren c d0); exact H|exact H]. Qed.
Lemma print_nonempty : forall e, print e <> [].
Proof.
  induction e as [v|s i|o r IHr|o l r IHl IHr|l r IHl IHr|l IHl|l idx IHl IHidx] using expr_ind'; cbn [ParseModel.print]; try discriminate.
  - destruct v; discriminate.
  - destruct (ParseModel.parens _ _); discriminate.
  - destruct (ParseModel.parens _ _); discriminate.
  - destruct (ParseModel.all_chars l) eqn:A; [discriminate|]. destruct l as [|x l]; [discriminate|]. inversion IHl as [|? ? X _]; subst. cbn [map concat]. unfold ParseModel.parens. destruct (ParseModel.compound x); [discriminate|].
    destruct (print x); [contradiction|discriminate].
  - destruct (ParseModel.parens _ _); discriminate.
Qed.
Lemma sourced_list : forall l, fold_right (fun x P => sourced c x /\ P) True l <-> Forall (sourced c) l.
Proof. induction l as [|x l IH]; cbn; [split; constructor|]. rewrite IH. split; [intros []; constructor; assumption|intros H; inversion H; auto]. Qed.
Lemma sourced_index : forall l, fold_right (fun o P => match o with Some x => sourced c x | None => True end /\ P) True l <-> Forall (fun o => match o with Some x => sourced c x | None => True end) l.
Proof. induction l as [|x l IH]; cbn; [split; constructor|]. rewrite IH. split; [intros []; constructor; assumption|intros H; inversion H; auto]. Qed.
Lemma all_chars_points : forall l cs, ParseModel.all_chars l = Some cs -> Forall (sourced c) l -> Forall code_point cs.
Proof.
  induction l as [|x l IH]; intros cs H F; cbn in H; [injection H as <-; constructor|]. inversion F as [|? ? F1 F2]; subst.
  destruct x as [v| | | | | |]; try discriminate. destruct v; try discriminate. destruct (ParseModel.all_chars l) as [cs'|]; [|discriminate]. injection H as <-. constructor; [exact F1|auto].
Qed.
Lemma as_index : forall idx, Forall (fun o => match o with Some x => reads_as (prog_text x) (print x) | None => True end) idx ->
  reads_as (index_text idx ++ [93]) (ParsePrint.print_index (op_token c) idx ++ [ParseModel.KRBrack]).
Proof.
  assert (CL : free [93] [ParseModel.KRBrack]) by (apply (mark_end 93 TRBrack); unfold mark; tauto).
  assert (E93 : forall l, number_end ([93] ++ l)) by (intros; unfold number_end; cbn; lia).
  assert (E59 : forall t l, number_end ((59 :: 32 :: t) ++ l)) by (intros; unfold number_end; cbn; lia).
  induction idx as [|o idx IH]; intros F; [apply free_reads, CL|]. inversion F as [|? ? F1 F2]; subst. specialize (IH F2).
  destruct idx as [|o2 idx].
  - cbn [index_text ParsePrint.print_index]. destruct o as [x|]; [|apply free_reads, CL]. apply tight; [exact F1|exact CL|exact E93].
  - change (index_text (o :: o2 :: idx)) with (match o with Some x => prog_text x | None => [] end ++ [59; 32] ++ index_text (o2 :: idx)).
    change (ParsePrint.print_index (op_token c) (o :: o2 :: idx)) with (match o with Some x => print x | None => [] end ++ ParseModel.KSemi :: ParsePrint.print_index (op_token c) (o2 :: idx)).
    rewrite <-!app_assoc. set (t := index_text (o2 :: idx) ++ [93]) in *. cbn [app]. set (ts := ParsePrint.print_index (op_token c) (o2 :: idx) ++ [ParseModel.KRBrack]) in *.
    assert (SM : free (59 :: 32 :: t) (ParseModel.KSemi :: ts)) by (apply (mark_spaced 59 TSemi); [unfold mark; tauto|exact IH]).
    destruct o as [x|]; [|apply free_reads, SM]. apply tight; [exact F1|exact SM|apply E59].
Qed.
Theorem source_reads : forall e, sourced c e -> reads_as (prog_text e) (print e).
Proof.
  induction e as [v|s i|o r IHr|o l r IHl IHr|l r IHl IHr|l IHl|l idx IHl IHidx] using expr_ind'; intros S.
  - cbn [SourceModel.prog_text ParseModel.print]. pose proof (as_constant v S) as H. destruct v; exact H.
  - destruct S as (N & SP & D & A). apply as_variable; assumption.
  - destruct S as ((N & ty & OT) & ND & S). specialize (IHr S). cbn [SourceModel.prog_text ParseModel.print]. rewrite (op_token_is o ty OT).
    apply free_reads, operator_free; [exact OT|exact ND|exact IHr|]. apply (reads_nonempty _ _ IHr), print_nonempty.
  - destruct S as (O & SL & SR). specialize (IHl SL). specialize (IHr SR). cbn [SourceModel.prog_text ParseModel.print].
    apply spaced_gap; [apply as_in_parens, IHl|]. destruct O as [-> |[(N & ty & OT) ND]].
    + change (text_of "=") with [61]. rewrite String.eqb_refl. apply free_gap, assign_spaced, IHr.
    + replace (String.eqb o "=") with false.
      * rewrite (op_token_is o ty OT). apply operator_gap; [exact OT|exact ND|exact IHr|]. apply (reads_nonempty _ _ IHr), print_nonempty.
      * symmetry. apply String.eqb_neq. intros ->. change (text_of "=") with [61] in OT. exact (no_equals ty OT).
  - destruct S as (SL & SR). specialize (IHl SL). specialize (IHr SR). cbn [SourceModel.prog_text ParseModel.print].
    apply spaced_gap; [apply as_in_parens, IHl|]. apply free_gap. apply (mark_spaced 58 TColon); [unfold mark; tauto|exact IHr].
  - cbn [sourced] in S. apply sourced_list in S. cbn [SourceModel.prog_text ParseModel.print]. destruct (ParseModel.all_chars l) as [cs|] eqn:A; [apply as_chars, (all_chars_points l cs A S)|].
    assert (NE : l <> []) by (intros ->; discriminate).
    pose proof (as_spaces c d0 (map (fun x => (in_parens (ParseModel.compound x) (prog_text x), ParseModel.parens (ParseModel.compound x) (print x))) l)) as H. rewrite !map_map in H. cbn [fst snd] in H.
    apply H; [destruct l; [contradiction|discriminate]|]. apply Forall_forall. intros p P. apply in_map_iff in P. destruct P as (x & <- & X). cbn [fst snd].
    rewrite Forall_forall in S, IHl. apply as_in_parens, IHl; auto.
  - cbn [sourced] in S. destruct S as (SL & SI). apply sourced_index in SI. specialize (IHl SL). rewrite prog_EIndex, ParsePrint.print_EIndex.
    apply tight; [apply as_in_parens, IHl| |intros k; unfold number_end; cbn; lia]. apply (mark_then 91 TLBrack); [unfold mark; tauto|tauto|].
    apply as_index. rewrite Forall_forall in *. intros o O. specialize (SI o O). specialize (IHidx o O). destruct o; [apply IHidx, SI|exact Logic.I].
Qed.
End Source.

(* The text )save writes for a variable is read back. *)
From Coq Require Import String ZifyBool.
From Verif Require Import Value NumModel NumSpec ArrModel ArrSpec ArrBase ArrRot ArrTake ArrCat ArrSel Syntax ExecModel ScanModel ScanSpec ScanProofs ScanLex ScanNext
  TextModel TextSpec TextProofs TextScan TextNum StrModel StrSpec StrProofs ReadModel ReadScan SaveModel SaveSpec.
From Verif Require ParseModel ParseSpec ParseProofs.
Import ParseSpec.
Open Scope string_scope.
Open Scope list_scope.
Open Scope Z_scope.
Notation KNum := ParseModel.KNum. Notation KStr := ParseModel.KStr. Notation KId := ParseModel.KId.
Notation KLParen := ParseModel.KLParen. Notation KRParen := ParseModel.KRParen.

Lemma reads_app : forall c k1 k2 s s1 s2, reads c s k1 s1 -> reads c s1 k2 s2 -> reads c s (k1 ++ k2) s2.
Proof. induction k1 as [|k k1 IH]; intros k2 s s1 s2 H1 H2; cbn in *; [subst; exact H2|]. destruct H1 as (q & Q1 & Q2). exists q. split; [exact Q1|]. eauto. Qed.

(* ---- the texts of numbers ---- *)
Lemma put_real : forall u v, canonical v -> print_real (mkPconf 10 0) v = Ok (put u v false).
Proof.
  intros u v C. assert (B : forall z, print_big (mkPconf 10 0) z = Ok (format_int 10 z)).
  { intros z. unfold print_big. cbn [maxdigits obase]. cbn. destruct (bitlen z <? intBits); reflexivity. }
  destruct v; cbn [canonical] in C; try contradiction; cbn [put andb app].
  - rewrite app_nil_r. reflexivity.
  - rewrite app_nil_r. apply B.
  - cbn [print_real]. rewrite !B. cbn [bind]. rewrite app_nil_r. reflexivity.
Qed.
Lemma put_num : forall u v, canonical_num v -> print_num (mkPconf 10 0) v = Ok (put u v false).
Proof.
  intros u v C. destruct v; try (apply put_real, C). cbn [canonical_num] in C. destruct C as (C1 & C2 & _).
  cbn [print_num put]. rewrite (put_real u _ C1), (put_real u _ C2). cbn [bind andb app]. rewrite app_nil_r. reflexivity.
Qed.

Section Read.
Variable u_print : Z -> bool.
Variable c : sctx.
Variable d : ParseModel.scope.
Hypothesis ten : ibase c = 0 \/ ibase c = 10.
Hypothesis nodig : no_digit_operators c.
Hypothesis rho_word : operator_word c (zs "rho").
Hypothesis rho_bin : ParseModel.defined_binary d "rho" = true.
Notation ib := (ibase c).
Notation put := (put u_print).
Lemma lib : legal_base ib. Proof. destruct ten as [-> | ->]; [left|right]; lia. Qed.

Definition scans (t : text) (ks : list token) : Prop :=
  forall s gap l, between_tokens s -> Forall blank gap -> to_come s = gap ++ t ++ l -> number_end l -> (gap = [] -> sign_ok c s) ->
  exists s', reads c s ks s' /\ to_come s' = l /\ between_tokens s'.
Definition plain (t : token) : Prop := match t_type t with TErr | TNewline | TEof => False | _ => True end.
Definition reads_as (t : text) (ts : list ParseModel.token) : Prop :=
  exists ks, scans t ks /\ map (parser_token ib) ks = ts /\ Forall plain ks /\ (length ks <= length t)%nat.
Definition starts (ts : list ParseModel.token) : Prop :=
  match ts with KNum _ :: _ | KStr _ :: _ | KLParen :: _ => True | _ => False end.
Lemma space_end : forall l, number_end (32 :: l). Proof. intros. unfold number_end. cbn. lia. Qed.

Lemma scans_one : forall ty t sign, t <> [] -> is_space (hd 0 t) = false -> (forall l, number_end l -> emits c ty t l sign) -> scans t [mkTok ty t].
Proof.
  intros ty t sign NE SP EM s gap l B G TC E S. destruct (next_emits c ty t l sign s gap (EM l E) NE SP B G TC) as (s' & A1 & A2 & A3 & _); [intros Q _; auto|].
  exists s'. split; [|auto]. exists s'. split; [exact A1|reflexivity].
Qed.
Lemma nonempty_len : forall (t : text), t <> [] -> (1 <= length t)%nat.
Proof. intros [|x t] H; [contradiction|cbn; lia]. Qed.
Lemma as_number : forall v, canonical_num v -> reads_as (put v false) [KNum (Some v)].
Proof.
  intros v C. pose proof (put_num u_print v C) as P. set (t := put v false) in *.
  assert (RB : real_base ib = real_base (obase (mkPconf 10 0))) by (cbn; destruct ten as [-> | ->]; reflexivity).
  assert (T : number_text ib t) by exact (number_text_print ib (obase (mkPconf 10 0)) lib RB (mkPconf 10 0) v t eq_refl P).
  pose proof (print_parse ib (obase (mkPconf 10 0)) lib RB (mkPconf 10 0) v t eq_refl C P) as PP.
  assert (NE : t <> []) by (destruct (number_hd c t [] T) as (? & ? & -> & _); discriminate).
  exists [mkTok TNumber t]. split; [|split; [|split; [constructor; [exact Logic.I|constructor]|apply nonempty_len, NE]]].
  - apply scans_one with (sign := true); [exact NE| |].
    + pose proof (number_not_blank c lib t [] T) as NB. rewrite app_nil_r in NB. destruct t; [contradiction|exact NB].
    + intros l E. apply emits_number; auto using lib.
  - cbn [map]. unfold parser_token. cbn [t_type t_text]. rewrite PP. reflexivity.
Qed.
Lemma as_char : forall r, code_point r -> reads_as (put (VChar r) false) [KStr (Some [r])].
Proof.
  intros r C. assert (Q : quote 39) by (right; reflexivity). assert (F : Forall code_point [r]) by (constructor; [exact C|constructor]).
  assert (E : put (VChar r) false = 39 :: flat_map (escaped u_print 39) [r] ++ [39]).
  { cbn [SaveModel.put andb app]. unfold quote_char. cbn [flat_map]. rewrite !app_nil_r. reflexivity. }
  rewrite E. eexists [mkTok TString _]. split; [|split; [|split; [constructor; [exact Logic.I|constructor]|cbn; lia]]].
  - apply scans_one with (sign := false); [discriminate|reflexivity|]. intros l _. apply emits_string; [|exact Q].
    apply pieces_body with (q := 39); [intros x; apply (escaped_piece u_print 39 x Q)|exact F].
  - cbn [map]. unfold parser_token. cbn [t_type t_text]. rewrite (pieces_parse 39 (escaped u_print 39) Q (fun x => escaped_piece u_print 39 x Q) [r] F). reflexivity.
Qed.
Lemma as_string : forall cs, Forall code_point cs -> reads_as (quote_string u_print cs) [KStr (Some cs)].
Proof.
  intros cs F. assert (Q : quote 34) by (left; reflexivity). unfold quote_string.
  eexists [mkTok TString _]. split; [|split; [|split; [constructor; [exact Logic.I|constructor]|cbn; lia]]].
  - apply scans_one with (sign := false); [discriminate|reflexivity|]. intros l _. apply emits_string; [|exact Q].
    apply pieces_body with (q := 34); [intros x; apply (escaped_piece u_print 34 x Q)|exact F].
  - cbn [map]. unfold parser_token. cbn [t_type t_text]. rewrite (pieces_parse 34 (escaped u_print 34) Q (fun x => escaped_piece u_print 34 x Q) cs F). reflexivity.
Qed.
Lemma as_rho : reads_as (zs "rho") [KId "rho"].
Proof.
  exists [mkTok TIdent (zs "rho")]. split; [|split; [reflexivity|split; [constructor; [exact Logic.I|constructor]|cbn; lia]]].
  apply scans_one with (sign := false); [discriminate|reflexivity|]. intros l E. apply emits_operator; auto.
Qed.
Lemma as_pair : forall a ta b tb, reads_as a ta -> reads_as b tb -> reads_as (a ++ [32] ++ b) (ta ++ tb).
Proof.
  intros a ta b tb (ka & SA & MA & PA & LA) (kb & SB & MB & PB & LB). exists (ka ++ kb). split; [|split; [rewrite map_app, MA, MB; reflexivity|split; [apply Forall_app; auto|rewrite !app_length; lia]]].
  intros s gap l B G TC E S. rewrite <-!app_assoc in TC.
  destruct (SA s gap ([32] ++ b ++ l) B G TC (space_end _) S) as (s1 & R1 & T1 & B1).
  destruct (SB s1 [32] l B1) as (s2 & R2 & T2 & B2); auto; [constructor; [left; reflexivity|constructor]|discriminate|].
  exists s2. split; [eapply reads_app; eauto|auto].
Qed.
Lemma as_paren : forall a ta, reads_as a ta -> reads_as ([40] ++ a ++ [41]) (KLParen :: ta ++ [KRParen]).
Proof.
  intros a ta (ka & SA & MA & PA & LA). exists (mkTok TLParen [40] :: ka ++ [mkTok TRParen [41]]).
  split; [|split; [cbn [map]; rewrite map_app, MA; reflexivity|split]].
  - intros s gap l B G TC E S. rewrite <-!app_assoc in TC.
    destruct (next_emits c TLParen [40] (a ++ [41] ++ l) false s gap) as (s1 & N1 & T1 & B1 & O1); auto; [apply emits_char; auto|discriminate|].
    destruct (SA s1 [] ([41] ++ l) B1 ltac:(constructor) T1) as (s2 & R2 & T2 & B2); [unfold number_end; cbn; lia| |].
    { intros _. apply O1. unfold open_end. cbn. split; [reflexivity|lia]. }
    destruct (next_emits c TRParen [41] l false s2 []) as (s3 & N3 & T3 & B3 & _); auto; [apply emits_char; auto|discriminate|discriminate|].
    exists s3. split; [|auto]. exists s1. split; [exact N1|]. eapply reads_app; [exact R2|]. exists s3. split; [exact N3|reflexivity].
  - constructor; [exact Logic.I|]. apply Forall_app. split; [exact PA|]. constructor; [exact Logic.I|constructor].
  - cbn [length]. rewrite !app_length. cbn. lia.
Qed.
Lemma as_spaces : forall l, l <> [] -> Forall (fun p => reads_as (fst p) (snd p)) l -> reads_as (with_spaces (map fst l)) (concat (map snd l)).
Proof.
  induction l as [|[t ts] l IH]; intros N F; [contradiction|]. inversion F as [|? ? F1 F2]; subst. cbn [fst snd map concat] in *.
  destruct l as [|p l]; [cbn; rewrite app_nil_r; exact F1|]. specialize (IH ltac:(discriminate) F2).
  cbn [with_spaces]. change (map fst (p :: l)) with (fst p :: map fst l). cbn [with_spaces] in IH |- *. apply as_pair; [exact F1|exact IH].
Qed.

(* ---- the trees ---- *)
Fixpoint tree (v : value) : expr :=
  match v with
  | VVec l => match chars_of l with Some cs => ParseModel.eval_string cs | None => EVector (map tree l) end
  | VMat s l =>
    EBinary "rho" (EVector (map (fun n => EVal (VInt (Z.of_nat n))) s))
      (match chars_of l with Some cs => ParseModel.eval_string cs | None => match l with [x] => EVal x | _ => EVector (map tree l) end end)
  | _ => EVal v
  end.
Lemma chars_of_map : forall l cs, chars_of l = Some cs <-> l = map VChar cs.
Proof.
  induction l as [|v l IH]; intros cs; cbn [chars_of].
  - split; [intros [= <-]; reflexivity|destruct cs; [reflexivity|discriminate]].
  - split.
    + destruct v; try discriminate. destruct (chars_of l) as [t|] eqn:E; [|discriminate]. intros [= <-]. cbn. f_equal. apply IH. reflexivity.
    + destruct cs as [|r cs]; [discriminate|]. intros [= -> ->]. assert (chars_of (map VChar cs) = Some cs) as -> by (apply IH; reflexivity). reflexivity.
Qed.
Lemma all_saveable : forall l, fold_right (fun x P => (saveable x /\ ~ is_string x) /\ P) True l <-> Forall (fun x => saveable x /\ ~ is_string x) l.
Proof. induction l as [|x l IH]; cbn [fold_right]; [split; constructor|]. rewrite IH. split; [intros [A B]; constructor; auto|]. intros H. inversion H; auto. Qed.
Definition element_ok (x : value) : Prop :=
  exists ts, reads_as (put x (negb (is_scalar x))) ts /\ Element d true ts (tree x) /\ starts ts.
Lemma starts_no_unop : forall ts, starts ts -> no_unop d ts. Proof. intros ts H s ts' ->. destruct H. Qed.
Lemma starts_no_op : forall ts, starts ts -> no_op d ts. Proof. intros ts H s ts' ->. destruct H. Qed.
Lemma starts_app : forall a b, starts a -> starts (a ++ b). Proof. intros [|k a] b H; [destruct H|]. exact H. Qed.
Lemma scalar_element : forall x, is_scalar x = true -> saveable x -> reads_as (put x false) (match x with VChar r => [KStr (Some [r])] | _ => [KNum (Some x)] end).
Proof. intros x S H. destruct x; try discriminate S; cbn [saveable] in H; try (apply as_number; exact H). apply as_char, H. Qed.
Lemma scalar_elements : forall x, is_scalar x = true -> saveable x -> element_ok x.
Proof.
  intros x S H. pose proof (scalar_element x S H) as R. unfold element_ok. rewrite S. cbn [negb]. eexists. split; [exact R|].
  destruct x; try discriminate S; split; try exact Logic.I; constructor.
Qed.
Lemma elements_ok : forall l, l <> [] -> Forall element_ok l -> exists tss,
  reads_as (with_spaces (map (fun x => put x (negb (is_scalar x))) l)) (concat tss) /\ Elements d true (concat tss) (map tree l) /\ starts (concat tss).
Proof.
  intros l N F. assert (G : exists tss, Forall2 (fun x ts => reads_as (put x (negb (is_scalar x))) ts /\ Element d true ts (tree x) /\ starts ts) l tss).
  { clear N. induction F as [|x l H F (tss & IH)]; [exists []; constructor|]. destruct H as (ts & H). exists (ts :: tss). constructor; auto. }
  destruct G as (tss & G). exists tss. split; [|].
  - assert (with_spaces (map (fun x => put x (negb (is_scalar x))) l) = with_spaces (map fst (combine (map (fun x => put x (negb (is_scalar x))) l) tss)) /\
            tss = map snd (combine (map (fun x => put x (negb (is_scalar x))) l) tss) /\ Forall (fun p => reads_as (fst p) (snd p)) (combine (map (fun x => put x (negb (is_scalar x))) l) tss)) as (-> & E & FF).
    { clear N F. assert (map (fun x => put x (negb (is_scalar x))) l = map fst (combine (map (fun x => put x (negb (is_scalar x))) l) tss) /\
            tss = map snd (combine (map (fun x => put x (negb (is_scalar x))) l) tss) /\ Forall (fun p => reads_as (fst p) (snd p)) (combine (map (fun x => put x (negb (is_scalar x))) l) tss)) as (A & B & C).
      { induction G as [|x ts l tss H G IH]; [repeat split; constructor|]. destruct IH as (A & B & C). cbn [map combine]. repeat split; [cbn; f_equal; exact A|cbn; f_equal; exact B|constructor; [exact (proj1 H)|exact C]]. }
      split; [rewrite <-A; reflexivity|auto]. }
    rewrite E at 2. apply as_spaces; [|exact FF]. destruct l; [contradiction|]. inversion G; subst. discriminate.
  - clear F. induction G as [|x ts l tss (H1 & H2 & H3) G IH]; [contradiction|]. cbn [map concat].
    destruct l as [|y l].
    + inversion G; subst. cbn [concat]. rewrite app_nil_r. split; [|exact H3]. cbn [map]. apply g_last. exact H2.
    + destruct (IH ltac:(discriminate)) as [I1 I2]. split; [|apply starts_app, H3]. eapply g_more; [exact H2|exact I1|apply starts_no_op, I2].
Qed.
Lemma chars_points : forall l cs, chars_of l = Some cs -> Forall (fun x => saveable x /\ ~ is_string x) l -> Forall code_point cs.
Proof. intros l cs E F. apply chars_of_map in E. subst l. rewrite Forall_map in F. eapply Forall_impl; [|exact F]. intros r [H _]. exact H. Qed.
Lemma string_expr : forall cs, Forall code_point cs -> exists ts, reads_as (quote_string u_print cs) ts /\ Expr d ts (ParseModel.eval_string cs) /\ starts ts.
Proof.
  intros cs F. exists [KStr (Some cs)]. split; [apply as_string, F|]. split; [|exact Logic.I].
  apply g_operand with (c := true); [|intros s ts' X; discriminate X]. apply g_single, g_last. destruct cs as [|x [|y cs]]; cbn; [apply (g_str d []); discriminate|apply g_char|apply (g_str d (x :: y :: cs)); discriminate].
Qed.
(* the data of a matrix, and vectors *)
Definition data_tree (l : list value) : expr :=
  match chars_of l with Some cs => ParseModel.eval_string cs | None => match l with [x] => EVal x | _ => EVector (map tree l) end end.
Lemma data_expr : forall l, Forall (fun x => saveable x /\ ~ is_string x) l -> (length l = 1%nat -> Forall scalar l) -> Forall element_ok l ->
  exists ts, reads_as (fst (put_vector u_print (map (fun x => put x (negb (is_scalar x))) l) l)) ts /\ Expr d ts (data_tree l) /\ starts ts.
Proof.
  intros l F O K. unfold put_vector, data_tree. destruct (chars_of l) as [cs|] eqn:E; cbn [fst].
  - apply string_expr. eapply chars_points; eauto.
  - assert (N : l <> []) by (intros ->; discriminate E).
    destruct (elements_ok l N K) as (tss & R & EL & S). exists (concat tss). split; [exact R|]. split; [|exact S].
    apply g_operand with (c := true); [|apply starts_no_unop, S].
    destruct l as [|x [|y l]]; [contradiction| |].
    + apply g_single. specialize (O eq_refl). apply Forall_inv in O. replace (EVal x) with (tree x) by (destruct x; try reflexivity; destruct O). exact EL.
    + apply g_vector; [exact EL|]. rewrite map_length. cbn. lia.
Qed.
Lemma put_paren : forall x, saveable x -> ~ is_string x -> is_scalar x = false -> put x true = [40] ++ put x false ++ [41].
Proof.
  intros x S N K. destruct x; try discriminate K; cbn [SaveModel.put].
  - unfold put_vector. destruct (chars_of l) as [cs|] eqn:E.
    + exfalso. apply N. exists cs. apply chars_of_map in E. congruence.
    + cbn [andb negb app]. rewrite app_nil_r. reflexivity.
  - cbn [andb negb app]. rewrite app_nil_r. reflexivity.
Qed.
Lemma shape_elements : forall s, (2 <= length s)%nat -> fits s -> exists ts,
  reads_as (with_spaces (map (fun n => format_int 10 (Z.of_nat n)) s)) ts /\ Operand d true ts (EVector (map (fun n => EVal (VInt (Z.of_nat n))) s)) /\ starts ts.
Proof.
  intros s L [B _]. set (l := map (fun n => VInt (Z.of_nat n)) s).
  assert (K : Forall element_ok l).
  { unfold l. rewrite Forall_map. eapply Forall_impl; [|exact B]. intros n H. apply scalar_elements; [reflexivity|]. cbv beta in H. change (- 2 ^ 31 <= Z.of_nat n < 2 ^ 31). split; [|apply Z.lt_le_pred; exact H]. apply Z.le_trans with 0; [discriminate|apply Nat2Z.is_nonneg]. }
  assert (N : l <> []). { unfold l. destruct s; [cbn in L; lia|discriminate]. }
  destruct (elements_ok l N K) as (tss & R & EL & S). exists (concat tss).
  replace (map (fun n => format_int 10 (Z.of_nat n)) s) with (map (fun x => put x (negb (is_scalar x))) l).
  2: { unfold l. rewrite map_map. apply map_ext. intros n. cbn. rewrite app_nil_r. reflexivity. }
  split; [exact R|]. split; [|exact S].
  replace (map (fun n => EVal (VInt (Z.of_nat n))) s) with (map tree l) by (unfold l; rewrite map_map; reflexivity).
  apply g_vector; [exact EL|]. unfold l. rewrite !map_length. exact L.
Qed.
Theorem put_expr : forall v, saveable v -> exists ts, reads_as (put v false) ts /\ Expr d ts (tree v) /\ starts ts.
Proof.
  assert (EO : forall x, (saveable x -> exists ts, reads_as (put x false) ts /\ Expr d ts (tree x) /\ starts ts) -> saveable x -> ~ is_string x -> element_ok x).
  { intros x IH S N. destruct (is_scalar x) eqn:K; [apply scalar_elements; auto|]. destruct (IH S) as (ts & R & X & _).
    unfold element_ok. rewrite K. cbn [negb]. rewrite put_paren by auto. exists (KLParen :: ts ++ [KRParen]). split; [apply as_paren, R|]. split; [apply g_paren, X|exact Logic.I]. }
  assert (SC : forall x, is_scalar x = true -> saveable x -> exists ts, reads_as (put x false) ts /\ Expr d ts (tree x) /\ starts ts).
  { intros x K S. destruct (scalar_elements x K S) as (ts & R & X & ST). rewrite K in R. cbn [negb] in R. exists ts. split; [exact R|]. split; [|exact ST].
    apply g_operand with (c := true); [apply g_single, g_last, X|apply starts_no_unop, ST]. }
  induction v using value_ind'; intros S; try (apply SC; [reflexivity|exact S]).
  - cbn [saveable] in S. destruct S as [L S]. apply all_saveable in S.
    assert (K : Forall element_ok l). { rewrite Forall_forall in *. intros x I. destruct (S x I). auto. }
    destruct (data_expr l S ltac:(intros; contradiction) K) as (ts & R & X & ST). exists ts.
    assert (put (VVec l) false = fst (put_vector u_print (map (fun x => put x (negb (is_scalar x))) l) l)) as ->.
    { cbn [SaveModel.put]. destruct (put_vector _ _ l) as [t b]. cbn [fst andb app]. apply app_nil_r. }
    split; [exact R|]. split; [|exact ST]. unfold data_tree in X. cbn [tree]. destruct (chars_of l); [exact X|]. destruct l as [|x [|y l]]; [exact X|cbn in L; lia|exact X].
  - cbn [saveable] in S. destruct S as (L & FT & LD & O & S). apply all_saveable in S.
    assert (K : Forall element_ok d0). { rewrite Forall_forall in *. intros x I. destruct (S x I). auto. }
    destruct (data_expr d0 S O K) as (ts & R & X & ST).
    destruct (shape_elements s L FT) as (ts1 & R1 & X1 & ST1).
    exists (ts1 ++ KId "rho" :: ts). split; [|split; [|apply starts_app, ST1]].
    + cbn [SaveModel.put andb app]. rewrite app_nil_r.
      change (zs " rho ") with ([32] ++ zs "rho" ++ [32]). rewrite <-!app_assoc.
      change (KId "rho" :: ts) with ([KId "rho"] ++ ts). apply as_pair; [exact R1|]. apply as_pair; [apply as_rho|exact R].
    + cbn [tree]. fold (data_tree d0). eapply g_binary; [exact X1|apply starts_no_unop, ST1|apply bo_id, rho_bin|exact X].
Qed.
End Read.

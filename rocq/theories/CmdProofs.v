(* Special commands: what they leave alone, and how their lines are read. *)
From Coq Require Import String Ascii ZifyBool.
From Verif Require Import Value NumModel NumSpec NumProofs NumMore ArrModel ArrSpec Syntax ExecModel ScanModel ScanSpec ScanProofs ScanLex ScanNext
  TextModel TextSpec TextProofs TextScan TextNum StrModel StrSpec StrProofs ReadModel ReadScan SaveModel SaveSpec SaveProofs SaveRun CmdModel CmdSpec.
From Verif Require ParseModel.
Open Scope string_scope.
Open Scope list_scope.
Open Scope Z_scope.

(* ---- legal settings ---- *)
Definition keeps_legal (get : text -> session -> session * res unit) : Prop :=
  forall name s, legal_settings (ses_set s) -> legal_settings (ses_set (fst (get name s))).
Lemma legal_set_base : forall c i o, legal_settings c -> legal_base i -> legal_base o -> legal_settings (set_base c i o).
Proof. unfold legal_settings. cbn. tauto. Qed.
Lemma near_int : forall v z, near_canonical v -> v = VInt z -> z <= 2 ^ 31.
Proof. intros v z N ->. cbn in N. lia. Qed.
Lemma ok_inj : forall A (a b : A), Ok a = Ok b -> b = a. Proof. congruence. Qed.
Lemma parse_float_near : forall s v, parse_float s = Ok v -> near_canonical v.
Proof.
  intros s v. unfold parse_float.
  destruct (match s with 43 :: t => (false, t) | 45 :: t => (true, t) | _ => (false, s) end) as [neg s1].
  destruct (existsb (fun r => r =? 95) s1 || has_prefix s1); [discriminate|]. destruct (take_digits s1) as [a s2].
  destruct (match s2 with 46 :: t => take_digits t | _ => ([], s2) end) as [f s3]. destruct (a ++ f); [discriminate|].
  destruct (read_exponent s3) as [[two e]|]; [|discriminate]. destruct (negb _); [discriminate|]. destruct (_ =? 0); [intros [= <-]; cbn; lia|].
  destruct (_ || _); [discriminate|]. intros H. apply ok_inj in H. subst v. apply shrink_rat_near, red_red.
Qed.
Lemma parse_int_near : forall b s v, parse_int b s = Ok v -> near_canonical v.
Proof.
  intros b s v. unfold parse_int. destruct (read_int b s) as [z|].
  - destruct ((- 2 ^ 31 <=? z) && (z <? 2 ^ 31)) eqn:E; intros [= <-]; [cbn; lia|apply shrink_big_near].
  - destruct (existsb _ s); [apply parse_float_near|discriminate].
Qed.
Lemma parse_real_near : forall b s v, parse_real b s = Ok v -> near_canonical v.
Proof.
  intros b s v. unfold parse_real. destruct (mem 47 s); [|apply parse_int_near].
  destruct (two_parts 47 s) as [[x y]| | |]; try discriminate. cbn [bind fst snd].
  destruct (parse_int b x) as [v1| | |]; try discriminate. destruct (parse_int b y) as [v2| | |]; try discriminate. cbn [bind].
  assert (G : forall q, (if Qnum q =? 0 then Err else let! x := to_rat v1 in Ok (shrink_rat (Qred (x / q)))) = Ok v -> near_canonical v).
  { intros q. destruct (Qnum q =? 0); [discriminate|]. destruct (to_rat v1); try discriminate. cbn [bind]. intros H. apply ok_inj in H. subst v. apply shrink_rat_near, red_red. }
  assert (H : (let! y0 := to_rat v2 in if Qnum y0 =? 0 then Err else let! x0 := to_rat v1 in Ok (shrink_rat (Qred (x0 / y0)))) = Ok v -> near_canonical v).
  { destruct (to_rat v2); try discriminate. cbn [bind]. apply G. }
  destruct v1; try exact H. destruct v2; try exact H. destruct (z0 =? 0) eqn:Z; [discriminate|]. intros H'. apply ok_inj in H'. subst v. apply shrink_rat_near, set_frac_val. lia.
Qed.
Lemma parse_num_int : forall b s z, parse_num b s = Ok (VInt z) -> z <= 2 ^ 31.
Proof.
  intros b s z. unfold parse_num. destruct (mem 106 s); [|intros H; eapply near_int; [eapply parse_real_near; exact H|reflexivity]].
  destruct (two_parts 106 s) as [[x y]| | |]; try discriminate. cbn [bind fst snd].
  destruct (parse_real b x) as [v1| | |] eqn:V1; try discriminate. destruct (parse_real b y) as [v2| | |]; try discriminate. cbn [bind].
  unfold new_cplx. destruct (simple_number v1 && simple_number v2); [|discriminate]. cbn [bind fst snd]. unfold shrink_cplx.
  destruct (isZero (shrink_real v2)); [|discriminate]. intros [= H]. apply parse_real_near in V1.
  destruct v1; cbn [shrink_real] in H; try discriminate.
  - injection H as ->. cbn in V1. lia.
  - exact (near_int _ _ (shrink_big_near _) H).
  - eapply near_int; [|exact H]. apply shrink_rat_near. apply V1.
Qed.
Lemma decimal64_range : forall args n rest, next_decimal64 args = Ok (n, rest) -> 0 <= n < 2 ^ 63.
Proof.
  intros [|t args] n rest H; [discriminate|]. cbn [next_decimal64] in H. destruct (t_type t); try discriminate.
  destruct (parse_num 10 (t_text t)) as [v| | |] eqn:V; try discriminate; cbn [bind] in H.
  destruct v; try discriminate.
  - apply parse_num_int in V. destruct (z <? 0) eqn:E; [discriminate|]. injection H as <- <-. lia.
  - destruct ((z <? 0) || (2 ^ 63 - 1 <? z)) eqn:E; [discriminate|]. injection H as <- <-. lia.
Qed.
Lemma decimal_range : forall args n rest, next_decimal args = Ok (n, rest) -> 0 <= n < 2 ^ 31.
Proof.
  intros args n rest. unfold next_decimal. destruct (next_decimal64 args) as [[k r]| | |] eqn:E; try discriminate. cbn [bind fst].
  apply decimal64_range in E. destruct (k <? 2 ^ 31) eqn:L; [|discriminate]. intros [= <- <-]. lia.
Qed.
Lemma replace_length : forall A (l : list A) k a, (k < length l)%nat -> length (replace l k a) = length l.
Proof. intros A l k a H. unfold replace. rewrite app_length, firstn_length. cbn [length]. rewrite skipn_length. lia. Qed.
Lemma flag_bound : forall w l k, flag_index w l = Some k -> (k < length l)%nat.
Proof.
  intros w l. induction l as [|f l IH]; intros k; [discriminate|]. cbn [flag_index length]. destruct (teq w f); [intros [= <-]; lia|].
  destruct (flag_index w l); [|discriminate]. cbn. intros [= <-]. specialize (IH n eq_refl). lia.
Qed.

Section Legal.
Variable u_print : Z -> bool.
Variable get : text -> session -> session * res unit.
Hypothesis keeps : keeps_legal get.
Definition outcome_ok (r : session * (Z * Z) * res (list token)) : Prop :=
  legal_settings (ses_set (fst (fst r))) /\ legal_base (fst (snd (fst r))) /\ legal_base (snd (snd (fst r))).
Lemma setting_legal : forall args s i o ok f, legal_settings (ses_set s) -> legal_base i -> legal_base o ->
  (forall n, 0 <= n < 2 ^ 31 -> ok n = true -> legal_settings (f (ses_set s) n)) -> outcome_ok (setting args s i o ok f).
Proof.
  intros args s i o ok f L I O F. unfold setting, outcome_ok. destruct args as [|t args]; [auto|].
  destruct (next_decimal (t :: args)) as [[n r]| | |] eqn:E; auto. apply decimal_range in E. destruct (ok n) eqn:K; cbn; auto.
Qed.
Lemma string_legal : forall args s i o f, legal_settings (ses_set s) -> legal_base i -> legal_base o ->
  (forall t, legal_settings (f (ses_set s) t)) -> outcome_ok (string_setting args s i o f).
Proof.
  intros args s i o f L I O F. unfold string_setting, outcome_ok. destruct args as [|t args]; [auto|].
  destruct (get_string (t :: args)) as [[n r]| | |]; cbn; auto.
Qed.
Lemma body_legal : forall w args s i o, legal_settings (ses_set s) -> legal_base i -> legal_base o -> outcome_ok (body u_print get w args s i o).
Proof.
  intros w args s i o L I O. unfold body.
  assert (K : forall r, outcome_ok (s, (i, o), r)) by (intros r; unfold outcome_ok; auto).
  destruct (word_in w ["help"]); [apply K|].
  destruct (word_in w ["base"; "ibase"; "obase"]).
  { destruct args; [apply K|]. destruct (next_decimal (t :: args)) as [[n r]| | |] eqn:E; try apply K.
    destruct (negb (n =? 0) && ((n <? 2) || (16 <? n))) eqn:B; [apply K|]. unfold outcome_ok. cbn [fst snd]. split; [exact L|].
    assert (legal_base n) by (unfold legal_base; lia). destruct (teq w (zs "base")); [auto|]. destruct (teq w (zs "ibase")); auto. }
  destruct (word_in w ["cpu"]); [apply K|].
  destruct (word_in w ["debug"]).
  { unfold debug_command. destruct args as [|t rest]; [apply K|]. destruct (t_type t); try apply K.
    destruct (flag_index (t_text t) debug_flags) as [k|] eqn:F; [|apply K]. apply flag_bound in F. change (length debug_flags) with 6%nat in F.
    assert (D : forall n, outcome_ok (with_set s (set_debug (ses_set s) (replace (debug (ses_set s)) k n)), (i, o), Ok rest)).
    { intros n. unfold outcome_ok. cbn [fst snd]. split; [|auto]. unfold legal_settings in *. cbn. rewrite replace_length by lia. tauto. }
    destruct rest; [apply D|]. destruct (next_decimal (t0 :: rest)) as [[n r]| | |]; try apply K. apply (D n). }
  destruct (word_in w ["demo"; "timezone"]); [apply K|].
  destruct (word_in w ["format"]); [apply string_legal; auto; intros; exact L|].
  destruct (word_in w ["get"]).
  { destruct (file_name args) as [[name rest]| | |]; try apply K. pose proof (keeps name s L) as G. destruct (get name s) as [s' r]. unfold outcome_ok. auto. }
  destruct (word_in w ["maxbits"]); [apply setting_legal; auto; unfold legal_settings in *; cbn; intros; tauto|].
  destruct (word_in w ["maxdigits"]); [apply setting_legal; auto; unfold legal_settings in *; cbn; intros; tauto|].
  destruct (word_in w ["maxstack"]); [apply setting_legal; auto; unfold legal_settings in *; cbn; intros; tauto|].
  destruct (word_in w ["op"; "ops"]).
  { destruct args as [|t rest]; [apply K|]. destruct (t_type t); try apply K; destruct (_ || _); apply K. }
  destruct (word_in w ["origin"]); [apply setting_legal; auto; unfold legal_settings in *; cbn; intros; tauto|].
  destruct (word_in w ["prec"]).
  { apply setting_legal; auto. intros n R K'. assert (1 <= n <= 1000000) by lia. unfold legal_settings in *. cbn. tauto. }
  destruct (word_in w ["prompt"]); [apply string_legal; auto; intros; exact L|].
  destruct (word_in w ["save"]).
  { destruct (file_name args) as [[name rest]| | |]; try apply K. destruct (save_text _ _); try apply K. unfold outcome_ok. auto. }
  destruct (word_in w ["seed"]).
  { destruct args; [apply K|]. destruct (next_decimal64 (t :: args)) as [[n r]| | |] eqn:E; try apply K. apply decimal64_range in E.
    unfold outcome_ok. cbn [fst snd]. split; [|auto]. unfold legal_settings in *. cbn. intuition lia. }
  destruct (word_in w ["var"; "vars"]); [|apply K].
  destruct args as [|t rest]; [apply K|]. destruct (t_type t); try apply K. destruct (find _ _); apply K.
Qed.
Lemma special_legal : forall args s, legal_settings (ses_set s) -> legal_settings (ses_set (fst (special u_print get args s))).
Proof.
  intros [|t rest] s L; [exact L|]. unfold special.
  assert (B : legal_settings (ses_set (fst (let '(s1, (i, o), r) := body u_print get (t_text t) rest (with_set s (set_base (ses_set s) 0 0)) (in_base (ses_set s)) (out_base (ses_set s)) in
    (with_set s1 (set_base (ses_set s1) i o), match r with Ok [] => Ok tt | Ok (_ :: _) => Err | Err => Err | Crash => Crash | Unmod => Unmod end))))).
  { pose proof (body_legal (t_text t) rest (with_set s (set_base (ses_set s) 0 0)) (in_base (ses_set s)) (out_base (ses_set s))) as H.
    destruct (body _ _ _ _ _ _ _) as [[s1 [i o]] r]. destruct H as (H1 & H2 & H3).
    - apply legal_set_base; [exact L|left; reflexivity|left; reflexivity].
    - apply L. - apply L.
    - cbn [fst snd] in *. cbn. apply legal_set_base; assumption. }
  destruct (t_type t); try exact L; exact B.
Qed.
End Legal.
Section LegalRun.
Variable u_print : Z -> bool.
Variables letters digits puncts symbols : Z -> bool.
Variables bu bb : string -> bool.
Variable E : settings -> env.
Variables const_e const_pi : Z -> value.
Notation cmd := (command u_print const_e const_pi).
Notation flines := (file_lines u_print letters digits puncts symbols bu bb E const_e const_pi).
Notation getf := (get_file u_print letters digits puncts symbols bu bb E const_e const_pi).
Lemma command_legal : forall get args s, keeps_legal get -> legal_settings (ses_set s) -> legal_settings (ses_set (fst (cmd get args s))).
Proof.
  intros get args s K L. unfold command. pose proof (special_legal u_print get K args s L) as H. destruct (special u_print get args s) as [s1 [[]| | |]]; exact H.
Qed.
Lemma lines_legal : forall get, keeps_legal get -> forall k n s sc0, legal_settings (ses_set s) -> legal_settings (ses_set (fst (flines get k n s sc0))).
Proof.
  intros get K. induction k as [|k IH]; intros n s sc0 L; [exact L|]. cbn [file_lines]. destruct (next_line _ _ _ _ _ _ s sc0) as [[ | | |args|ts|ts] q]; try exact L; auto.
  - pose proof (command_legal get args s K L) as H. destruct (cmd get args s) as [s1 [[]| | |]]; cbn [fst] in *; auto.
  - destruct (read_defn _ _ _ _ _ _ s ts q) as [l q1]. destruct (eval_line _ _ _) as [st1 [?| | |]]; try exact L. apply IH. exact L.
  - destruct (ParseModel.parse_tokens _ _ _ _ _ _); try exact L. destruct (eval_each _ _ _) as [st1 [[]| | |]]; try exact L. apply IH. exact L.
Qed.
Lemma get_legal : forall g n, keeps_legal (getf g n).
Proof.
  induction g as [|g IH]; intros n name s L; cbn [get_file]; destruct (ses_files s name) as [t|]; try exact L;
    (destruct (10 <? ses_depth s + 1); [exact L|]); (destruct (10 <? ses_depth s + 2); [exact L|]); [exact L|].
  pose proof (lines_legal (getf g n) (IH n) (S (length t)) n (with_depth s (ses_depth s + 2)) (new_scanner t) L) as H.
  destruct (flines _ _ _ _ _) as [s1 r]. exact H.
Qed.
Lemma next_legal : forall n s sc0 r s' q, legal_settings (ses_set s) ->
  session_next u_print letters digits puncts symbols bu bb E const_e const_pi n s sc0 = Some (r, s', q) -> legal_settings (ses_set s').
Proof.
  intros n s sc0 r s' q L. unfold session_next. destruct (next_line _ _ _ _ _ _ s sc0) as [[ | | |args|ts|ts] q']; try discriminate.
  - intros [= <- <- <-]. exact L.
  - intros [= <- <- <-]. exact L.
  - pose proof (command_legal (getf 6 n) args s (get_legal 6 n) L) as H. destruct (cmd _ args s) as [s1 [[]| | |]]; intros [= <- <- <-]; exact H.
  - destruct (read_defn _ _ _ _ _ _ s ts q') as [l q1]. destruct (eval_line _ _ _) as [st1 r1]. intros [= <- <- <-]. exact L.
  - destruct (eval_line _ _ _) as [st1 [vs| | |]]; try (intros [= <- <- <-]; exact L). destruct (existsb _ vs); intros [= <- <- <-]; exact L.
Qed.
Lemma text_legal : forall k n s sc0 rs s' q, legal_settings (ses_set s) ->
  session_text u_print letters digits puncts symbols bu bb E const_e const_pi k n s sc0 = (rs, s', q) -> legal_settings (ses_set s').
Proof.
  induction k as [|k IH]; intros n s sc0 rs s' q L; cbn [session_text]; [intros [= <- <- <-]; exact L|].
  destruct (session_next _ _ _ _ _ _ _ _ _ _ n s sc0) as [[[r s1] q1]|] eqn:N; [|intros [= <- <- <-]; exact L].
  apply next_legal in N; [|exact L]. destruct (session_text _ _ _ _ _ _ _ _ _ _ k n s1 q1) as [[rs1 s2] q2] eqn:T. apply IH in T; [|exact N]. intros [= <- <- <-]. exact T.
Qed.
End LegalRun.

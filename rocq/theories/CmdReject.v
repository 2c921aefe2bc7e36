(* What commands leave alone: the variables; everything, when they are rejected. *)
From Coq Require Import String Ascii ZifyBool.
From Verif Require Import Value NumModel Syntax ExecModel ScanModel ScanSpec TextModel TextSpec StrModel StrSpec ReadModel SaveModel SaveSpec CmdModel CmdSpec CmdProofs CmdRun CmdSave.
From Verif Require ScanNext.
From Verif Require ParseModel.
Open Scope string_scope.
Open Scope list_scope.
Open Scope Z_scope.

Lemma decimal64_rest : forall args n rest, next_decimal64 args = Ok (n, rest) -> rest = tl args.
Proof.
  intros [|t l] n rest; [discriminate|]. unfold next_decimal64. destruct (t_type t); try discriminate. destruct (parse_num 10 (t_text t)) as [v| | |]; try discriminate. cbn [bind].
  destruct v; try discriminate; [destruct (z <? 0)|destruct ((z <? 0) || (2 ^ 63 - 1 <? z))]; try discriminate; intros H; apply ok_inj in H; cbn [tl]; congruence.
Qed.
Lemma decimal_rest : forall args n rest, next_decimal args = Ok (n, rest) -> rest = tl args.
Proof.
  intros args n rest. unfold next_decimal. destruct (next_decimal64 args) as [[m r]| | |] eqn:D; try discriminate. cbn [bind fst]. destruct (m <? 2 ^ 31); [|discriminate].
  intros H. apply ok_inj in H. injection H as <- <-. exact (decimal64_rest _ _ _ D).
Qed.
Lemma string_rest : forall args t rest, get_string args = Ok (t, rest) -> rest = tl args.
Proof.
  intros [|t l] x rest; [discriminate|]. unfold get_string. destruct (t_type t); try discriminate. destruct (parse_string (t_text t)); try discriminate. cbn [bind]. intros H. apply ok_inj in H. cbn [tl]. congruence.
Qed.
Lemma tl_short : forall {A} (l : list A), (length l <= 1)%nat -> tl l = [].
Proof. intros A [|a [|b l]] H; cbn in *; [reflexivity|reflexivity|lia]. Qed.
Section Reject.
Set Default Proof Using "Type".
Variable u_print : Z -> bool.
Variable get : text -> session -> session * res unit.
Definition untouched (s : session) (i o : Z) (out : session * (Z * Z) * res (list token)) : Prop :=
  match snd out with Err | Ok (_ :: _) => fst out = (s, (i, o)) | _ => True end /\ ses_ctx (fst (fst out)) = ses_ctx s.
Lemma get_word : forall w, w <> zs "get" -> word_in w ["get"] = false.
Proof. intros w N. unfold word_in. cbn [existsb]. rewrite orb_false_r. destruct (teq w (zs "get")) eqn:Q; [|reflexivity]. apply ScanNext.teq_eq in Q. contradiction. Qed.
Lemma same_out : forall s i o r, untouched s i o (s, (i, o), r).
Proof. intros s i o r. split; [|reflexivity]. destruct r as [[|]| | |]; cbn; auto. Qed.
Lemma setting_untouched : forall args s i o ok f, (length args <= 1)%nat -> untouched s i o (setting args s i o ok f).
Proof.
  intros args s i o ok f L. unfold setting. destruct args as [|t args]; [apply same_out|]. destruct (next_decimal (t :: args)) as [[n rest]| | |] eqn:D; try apply same_out.
  apply decimal_rest in D. rewrite (tl_short _ L) in D. subst. destruct (ok n); [|apply same_out]. split; [exact Logic.I|reflexivity].
Qed.
Lemma string_untouched : forall args s i o f, (length args <= 1)%nat -> untouched s i o (string_setting args s i o f).
Proof.
  intros args s i o f L. unfold string_setting. destruct args as [|t args]; [apply same_out|]. destruct (get_string (t :: args)) as [[n rest]| | |] eqn:D; try apply same_out.
  apply string_rest in D. rewrite (tl_short _ L) in D. subst. split; [exact Logic.I|reflexivity].
Qed.
Lemma body_untouched : forall w args s i o, (length args <= 1)%nat -> w <> zs "get" -> untouched s i o (body u_print get w args s i o).
Proof.
  intros w args s i o L G. unfold body. rewrite (get_word w G). pose proof (same_out s i o) as K.
  destruct (word_in w ["help"]); [apply K|].
  destruct (word_in w ["base"; "ibase"; "obase"]).
  { destruct args as [|t args]; [apply K|]. destruct (next_decimal (t :: args)) as [[n r]| | |] eqn:D; try apply K.
    destruct (negb (n =? 0) && _); [apply K|]. apply decimal_rest in D. rewrite (tl_short _ L) in D. subst. split; [exact Logic.I|reflexivity]. }
  destruct (word_in w ["cpu"]); [apply K|].
  destruct (word_in w ["debug"]).
  { unfold debug_command. destruct args as [|t [|t' rest]]; [apply K| |cbn in L; lia]. destruct (t_type t); try apply K.
    destruct (flag_index (t_text t) debug_flags); [|apply K]. split; [exact Logic.I|reflexivity]. }
  destruct (word_in w ["demo"; "timezone"]); [apply K|].
  destruct (word_in w ["format"]); [apply string_untouched, L|].
  destruct (word_in w ["maxbits"]); [apply setting_untouched, L|].
  destruct (word_in w ["maxdigits"]); [apply setting_untouched, L|].
  destruct (word_in w ["maxstack"]); [apply setting_untouched, L|].
  destruct (word_in w ["op"; "ops"]).
  { destruct args as [|t rest]; [apply K|]. destruct (t_type t); try apply K; destruct (_ || _); apply K. }
  destruct (word_in w ["origin"]); [apply setting_untouched, L|].
  destruct (word_in w ["prec"]); [apply setting_untouched, L|].
  destruct (word_in w ["prompt"]); [apply string_untouched, L|].
  destruct (word_in w ["save"]).
  { assert (R : forall name rest, file_name args = Ok (name, rest) -> rest = []).
    { intros name rest H. destruct args as [|t args]; [apply ok_inj in H; congruence|]. change (get_string (t :: args) = Ok (name, rest)) in H. apply string_rest in H. rewrite (tl_short _ L) in H. exact H. }
    destruct (file_name args) as [[name rest]| | |]; try apply K. rewrite (R name rest eq_refl). destruct (save_text _ _); try apply K. split; [exact Logic.I|reflexivity]. }
  destruct (word_in w ["seed"]).
  { destruct args as [|t args]; [apply K|]. destruct (next_decimal64 (t :: args)) as [[n r]| | |] eqn:D; try apply K. apply decimal64_rest in D. rewrite (tl_short _ L) in D. subst. split; [exact Logic.I|reflexivity]. }
  destruct (word_in w ["var"; "vars"]); [|apply K].
  destruct args as [|t rest]; [apply K|]. destruct (t_type t); try apply K. destruct (find _ _); apply K.
Qed.
Lemma restore : forall s, with_set (with_set s (set_base (ses_set s) 0 0)) (set_base (ses_set (with_set s (set_base (ses_set s) 0 0))) (in_base (ses_set s)) (out_base (ses_set s))) = s.
Proof. intros [st c d f]. destruct c. reflexivity. Qed.
Lemma special_rejected : forall t args s s', (length args <= 1)%nat -> t_text t <> zs "get" -> special u_print get (t :: args) s = (s', Err) -> s' = s.
Proof.
  intros t args s s' L G. unfold special.
  assert (H : (let '(s1, (i, o), r) := body u_print get (t_text t) args (with_set s (set_base (ses_set s) 0 0)) (in_base (ses_set s)) (out_base (ses_set s)) in
    (with_set s1 (set_base (ses_set s1) i o), match r with Ok [] => Ok tt | Ok (_ :: _) => Err | Err => Err | Crash => Crash | Unmod => Unmod end)) = (s', Err) -> s' = s).
  { pose proof (body_untouched (t_text t) args (with_set s (set_base (ses_set s) 0 0)) (in_base (ses_set s)) (out_base (ses_set s)) L G) as [U _].
    destruct (body _ _ _ _ _ _ _) as [[s1 [i o]] r]. cbn [fst snd] in U. destruct r as [[|]| | |]; try discriminate; injection U as -> -> ->; rewrite restore; congruence. }
  destruct (t_type t); try exact H; congruence.
Qed.
(* whatever the arguments *)
Lemma body_ctx : forall w args s i o, w <> zs "get" -> ses_ctx (fst (fst (body u_print get w args s i o))) = ses_ctx s.
Proof.
  intros w args s i o G. unfold body. rewrite (get_word w G).
  unfold setting, string_setting, debug_command.
  repeat first [reflexivity | match goal with |- ses_ctx (fst (fst (match ?x with _ => _ end))) = _ => destruct x end
               | match goal with |- ses_ctx (fst (fst (let '(_, _) := ?x in _))) = _ => destruct x end].
Qed.
Lemma special_ctx : forall args s, (forall t rest, args = t :: rest -> t_text t <> zs "get") -> ses_ctx (fst (special u_print get args s)) = ses_ctx s.
Proof.
  intros [|t args] s G; [reflexivity|]. specialize (G t args eq_refl). unfold special.
  pose proof (body_ctx (t_text t) args (with_set s (set_base (ses_set s) 0 0)) (in_base (ses_set s)) (out_base (ses_set s)) G) as H.
  destruct (body _ _ _ _ _ _ _) as [[s1 [i o]] r]. cbn [fst] in H. destruct (t_type t); try reflexivity; exact H.
Qed.
End Reject.

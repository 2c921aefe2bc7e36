(* C114: a program that holds an ivy: texts in pieces, escaping, and Reset. *)
From Coq Require Import String Lia ZifyBool.
From Verif Require Import Value Syntax ExecModel ScanModel ScanSpec TextModel TextSpec SaveModel SourceModel CmdModel CmdSpec CmdProofs MobileModel MobileSpec MobileProofs P_Scan P_Save P_Cmd.
From Verif Require DemoModel DemoSpec DemoProofs.
Open Scope string_scope.
Open Scope list_scope.
Open Scope Z_scope.

Section Mobile.
Variable u_print : Z -> bool.
Variables letters digits puncts symbols : Z -> bool.
Variables bu bb : string -> bool.
Variable E : settings -> env.
Variables const_e const_pi : Z -> value.
Notation run := (ivy u_print letters digits puncts symbols bu bb E const_e const_pi).
Notation stext := (session_text u_print letters digits puncts symbols bu bb E const_e const_pi).
Notation nexts := (demo_nexts u_print letters digits puncts symbols bu bb E const_e const_pi).
Notation whole := (whole_lines u_print letters digits puncts symbols bu bb E const_e const_pi).
Notation again := (reset const_e const_pi).

(* A text evaluated in two pieces gives the results of the whole text, and the same session, if the first piece ends at
   the end of a line with no definition and no string open: whatever the texts, errors and commands among them. *)
Theorem eval_in_pieces : forall n s a b rs1 s1 q1 rs2 s2 q2, legal_settings (ses_set s) -> Forall (fun r => 0 <= r) (a ++ b) ->
  run n s a = (rs1, s1, q1) -> used_up q1 -> run n s1 b = (rs2, s2, q2) -> exists q, run n s (a ++ b) = (rs1 ++ rs2, s2, q).
Proof using Type.
  intros n s a b rs1 s1 q1 rs2 s2 q2 LG CP R1 U R2. destruct (in_pieces _ _ _ _ _ _ _ _ _ _ _ _ _ _ _ _ _ _ _ _ LG CP R1 U R2) as (q & R & _). exists q. exact R.
Qed.
(* So the calls of Next give the lines of a demonstration the results they have in the whole text. *)
Theorem demo_line_by_line : forall n s lines rss s1, legal_settings (ses_set s) ->
  Forall (fun l => ~ In nl l /\ ~ In 13 l /\ Forall (fun r => 0 <= r) l /\ Z.of_nat (length l) < 65536) lines -> whole n s lines ->
  nexts n s (concat (map (fun l => l ++ [nl]) lines)) = (rss, s1) ->
  length rss = length lines /\ exists q, run n s (concat (map (fun l => l ++ [nl]) lines)) = (concat rss, s1, q).
Proof using Type.
  intros n s lines rss s1 LG F W H. unfold demo_nexts in H. rewrite (DemoProofs.scan_types _ lines) in H.
  - split.
    + clear - H. revert s rss s1 H. induction lines as [|l lines IH]; intros s rss s1; cbn [fst next_each]; [intros [= <- <-]; reflexivity|]. destruct (eval _ _ _ _ _ _ _ _ _ _ n s l) as [r s2]. cbn [fst] in IH.
      specialize (IH s2). destruct (next_each _ _ _ _ _ _ _ _ _ _ n s2 lines) as [rs s3]. intros [= <- <-]. cbn [length]. rewrite (IH _ _ eq_refl). reflexivity.
    + destruct (by_line u_print letters digits puncts symbols bu bb E const_e const_pi lines n s rss s1 LG) as (q & R & _); [|exact W|exact H|exists q; exact R].
      eapply Forall_impl; [|exact F]. cbn beta. tauto.
  - exists lines, []. split; [rewrite app_nil_r; reflexivity|]. split; [eapply Forall_impl; [|exact F]; cbn beta; intros l (A & _ & _ & B); split; assumption|]. split; [split; [intros []|cbn; lia]|].
    rewrite app_nil_r. clear - F. induction F as [|l ls (_ & N & _) _ IH]; constructor; [|exact IH]. right. split; [reflexivity|]. intros b ->. apply N. apply in_or_app. right. left. reflexivity.
Qed.
(* After Reset, whatever was done before: no operators, no variables but e and pi, and the settings that Reset sets. *)
Theorem reset_clears : forall s, let t := again s in
  unary (ses_ctx t) = [] /\ binary (ses_ctx t) = [] /\ defs (ses_ctx t) = [] /\
  (forall x, find (globals (ses_ctx t)) x = if String.eqb x "pi" then Some (loud (const_pi (float_prec (ses_set s)))) else if String.eqb x "e" then Some (loud (const_e (float_prec (ses_set s)))) else None) /\
  in_base (ses_set t) = 0 /\ out_base (ses_set t) = 0 /\ index_origin (ses_set t) = 1 /\ prompt_text (ses_set t) = [] /\ format_text (ses_set t) = [] /\ random_seed (ses_set t) = 0.
Proof using Type.
  intros s. cbv zeta. split; [reflexivity|]. split; [reflexivity|]. split; [reflexivity|]. split; [|repeat split].
  intros x. cbn [reset set_constants with_ctx set_globals ses_ctx globals ses_set reset_settings store float_prec set_seed set_base set_prompt set_origin set_maxdigits set_maxbits set_format find].
  destruct (String.eqb_spec x "pi") as [-> |N1]; [reflexivity|]. destruct (String.eqb_spec x "e") as [-> |N2]; [reflexivity|]. 
  apply String.eqb_neq in N1, N2. unfold store, remove. cbn. rewrite N1, N2. reflexivity.
Qed.
(* Two histories that Reset follows cannot be told apart, unless by the precision, the stack limit, the debugging flags,
   the depth of )get, or the files. *)
Theorem reset_forgets_partial : forall k n s t q rs s' q', same_rest s t -> stext k n s q = (rs, s', q') -> same_rest s' s -> again s' = again t.
Proof using Type.
  intros k n s t q rs s' q' (A1 & A2 & A3 & A4 & A5) _ (B1 & B2 & B3 & B4 & B5). unfold reset. rewrite B4, B5, A4, A5.
  replace (reset_settings (ses_set s')) with (reset_settings (ses_set t)); [reflexivity|]. rewrite <- B1 in A1. rewrite <- B2 in A2. rewrite <- B3 in A3. clear - A1 A2 A3.
  destruct (ses_set s'), (ses_set t). cbn in A1, A2, A3. subst. reflexivity.
Qed.
End Mobile.
Print Assumptions eval_in_pieces.
Print Assumptions demo_line_by_line.
Print Assumptions reset_clears.
Print Assumptions reset_forgets_partial.

(* Escaping goes character by character; no tab and no backslash is left; and without no-break spaces and ampersands the
   text can be told from the result. *)
Theorem escaped_text : forall a b, escape (a ++ b) = escape a ++ escape b /\ ~ In 9 (escape a) /\ ~ In 92 (escape a) /\
  (unambiguous a -> unambiguous b -> escape a = escape b -> a = b) /\ (~ In 32 a -> ~ In 9 a -> ~ In 92 a -> escape a = a).
Proof.
  intros a b. split; [apply escape_app|]. split; [apply escape_clean|]. split; [apply escape_clean|]. split; [apply escape_inj|].
  induction a as [|r a IH]; [reflexivity|]. cbn [In escape flat_map]. intros N1 N2 N3. fold (escape a). rewrite IH by tauto.
  destruct (escape_one_cases r) as [(-> & _)|[(-> & _)|[(-> & _)|(_ & _ & _ & ->)]]]; [tauto|tauto|tauto|reflexivity].
Qed.
Print Assumptions escaped_text.
(* "The output is HTML-safe" is false: <, > and & are left as they are, and two outputs can look the same; a tab becomes
   four ordinary spaces, which HTML collapses, when every other space is made a no-break space. *)
Theorem html_safe_refuted : escape (zs "<b>&") = zs "<b>&" /\ escape (zs "\") = escape (zs "&#92;") /\ escape [9] = zs "    " /\ escape [32] = [160].
Proof. repeat split; reflexivity. Qed.
Print Assumptions html_safe_refuted.

(* ---- concrete cases ---- *)
(* an interpreter with the sum of small integers *)
Definition plus_env (_ : settings) : env :=
  mkEnv (mkConf 1000000 1) 1000
    (mkB [] [("+", fun a b => lift (match val a, val b with VInt x, VInt y => Ok (VInt (x + y)) | _, _ => Err end))] nothing nothing nothing nothing nothing
         (fun _ _ _ => Done Unmod) (fun _ _ _ => Done Unmod) (fun _ _ _ => None))
    (fun _ _ _ => LBad).
Notation ivy_text := (ivy no_letters no_letters no_letters no_letters no_letters built_unary built_binary plus_env e_value pi_value).
Notation ivy_nexts := (demo_nexts no_letters no_letters no_letters no_letters no_letters built_unary built_binary plus_env e_value pi_value).
Notation ivy_whole := (whole_lines no_letters no_letters no_letters no_letters no_letters built_unary built_binary plus_env e_value pi_value).
Definition some_lines : list text := map zs ["x = 3"; "op double x = x + x"; "?? 1"; "# a comment"; "double x"; ")origin 0"; "x + 'a"; "x"].
Example some_whole : ivy_whole 20 (start no_files) some_lines.
Proof. vm_compute. repeat split. Qed.
Example some_results : fst (ivy_nexts 20 (start no_files) (concat (map (fun l => l ++ [nl]) some_lines))) =
  [[Ok [mkR true (VInt 3)]]; [Ok []]; [Err]; [Ok []]; [Ok [loud (VInt 6)]]; [Ok []]; [Err]; [Ok [loud (VInt 3)]]].
Proof. vm_compute. reflexivity. Qed.
Example some_hypotheses : legal_settings (ses_set (start no_files)) /\
  Forall (fun l => ~ In nl l /\ ~ In 13 l /\ Forall (fun r => 0 <= r) l /\ Z.of_nat (length l) < 65536) some_lines.
Proof.
  split; [unfold legal_settings, legal_base; cbn; repeat split; lia|]. unfold some_lines. cbn [map zs]. repeat (constructor; [split; [cbn; unfold nl; lia|split; [cbn; lia|split; [repeat (constructor; [cbn; lia|]); constructor|cbn; lia]]]|]). constructor.
Qed.
(* Without the condition it is false: an operator with a body of several lines is one definition in the text, and in the
   demonstration an empty one and expressions after it; a raw string likewise. *)
Definition two_line_op : list text := map zs ["op double x ="; "x + x"; ""; "double 4"].
Theorem line_by_line_refuted :
  fst (fst (ivy_text 20 (start no_files) (concat (map (fun l => l ++ [nl]) two_line_op)))) = [Ok []; Ok [loud (VInt 8)]] /\
  fst (ivy_nexts 20 (start no_files) (concat (map (fun l => l ++ [nl]) two_line_op))) = [[Err]; [Err]; [Ok []]; [Err]].
Proof. split; vm_compute; reflexivity. Qed.
Print Assumptions line_by_line_refuted.
(* "Reset clears all state to the initial value" is false of the precision, the stack limit, the debugging flags and the
   depth of )get. *)
Definition held : session := reset e_value pi_value (start two_files).
Theorem reset_refuted :
  float_prec (ses_set held) = 256 /\ max_stack (ses_set held) = 100000 /\ debug (ses_set held) = [0; 0; 0; 0; 0; 0] /\ ses_depth held = 0 /\
  let s := reset e_value pi_value (after (run_lines held [")prec 10"; ")maxstack 5"; ")debug types 1"])) in
  float_prec (ses_set s) = 10 /\ max_stack (ses_set s) = 5 /\ debug (ses_set s) = [0; 0; 0; 0; 0; 1] /\
  ses_depth (reset e_value pi_value (after (gets (repeat "loop" 10)))) = 10.
Proof. vm_compute. repeat split; reflexivity. Qed.
Print Assumptions reset_refuted.
Example reset_example : same_rest held (start two_files) /\ same_rest (after (run_lines held ["x = 3"; ")base 16"; "op f x = x"])) held /\
  reset e_value pi_value (after (run_lines held ["x = 3"; ")base 16"; "op f x = x"])) = held /\ after (run_lines held ["x = 3"; ")base 16"; "op f x = x"]) <> held.
Proof.
  split; [vm_compute; repeat split; reflexivity|]. split; [vm_compute; repeat split; reflexivity|]. split; [vm_compute; reflexivity|]. intros H. apply (f_equal (fun s => in_base (ses_set s))) in H. vm_compute in H. discriminate.
Qed.
Example escape_example : escape (zs "1 2\3") = [49; 160; 50] ++ zs "&#92;3" /\ unambiguous (zs "1 2\3").
Proof. split; [reflexivity|]. split; cbn; lia. Qed.

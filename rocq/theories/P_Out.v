(* C115: what a session prints, where, and how the process ends. *)
From Coq Require Import String Lia ZifyBool.
From Verif Require Import Value Syntax ExecModel ScanModel TextModel CmdModel P_Scan P_Save P_Cmd OutModel OutSpec OutProofs.
Open Scope string_scope.
Open Scope list_scope.
Open Scope Z_scope.

Section Run.
Variables St V : Type.
Variable line : St -> outcome St V.
Variable prompt : St -> text.
Variables types panics : St -> bool.
Variable type_name : V -> text.
Variable sprint : St -> V -> text + text.
Variable set_last : St -> V -> St.
Variable open : source -> St -> St + text.
Variable open_stdin : St -> St.
Notation runs := (run St V line prompt types panics type_name sprint set_last).
Notation loop := (run_on St V line prompt types panics type_name sprint set_last).
Notation hist := (history St V line prompt types panics type_name sprint set_last).
Notation good := (good_run St V line prompt types panics type_name sprint set_last).
Notation bad := (bad_run St V line prompt types panics type_name sprint set_last).
Notation process := (main St V line prompt types panics type_name sprint set_last open open_stdin).
Notation goods := (all_good St V line prompt types panics type_name sprint set_last open).
Notation bads := (source_bad St V line prompt types panics type_name sprint set_last open).

(* The lines of a program that has no errors: each output is that of the lines, one after another. *)
Theorem run_to_the_end : forall ss st st', good st ss st' -> forall k i, (length ss < k)%nat -> exists ws, runs k i st = (ws, st', Finished) /\
  out ws = flat_map (out_of i) ss ++ when i (prompt st') /\ err ws = flat_map err_of ss /\ both ws = flat_map (both_of i) ss ++ when i (prompt st').
Proof using Type. apply good_goes. Qed.
(* The first error ends a run: nothing after it is evaluated; its message is on the error output, after all that was
   printed before. *)
Theorem run_to_an_error : forall ss st st', bad st ss st' -> forall k i, (length ss <= k)%nat -> exists ws, runs k i st = (ws, st', Failed) /\
  out ws = flat_map (out_of i) ss /\ err ws = flat_map err_of ss /\ both ws = flat_map (both_of i) ss.
Proof using Type. apply bad_goes. Qed.
(* Run again and again, an interpreter takes every line, whatever errors there are. *)
Theorem loop_to_the_end : forall ss st st', hist st ss st' -> line st' = AtEnd -> forall n k i, (length ss < k)%nat -> (length ss < n)%nat ->
  exists ws, loop n k i st = (ws, st', Finished) /\
  out ws = flat_map (out_of i) ss ++ when i (prompt st') /\ err ws = flat_map err_of ss /\ both ws = flat_map (both_of i) ss ++ when i (prompt st').
Proof using Type. intros ss st st' H L n k i K N. exact (loop_goes _ _ _ _ _ _ _ _ _ n ss st st' H L k i K N). Qed.
(* Every state has such a history, of any length, unless it comes to an end or to a panic that is not recovered. *)
Theorem histories_exist : forall k st, exists ss st', hist st ss st' /\ (length ss <= k)%nat /\
  (length ss = k \/ line st' = AtEnd \/ kills St V line panics sprint st').
Proof using Type. apply hist_total. Qed.

(* The process runs the sources of its command line in their order in one context.  Without an error in them it exits
   with status 0; the first error ends it with status 1. *)
Theorem process_succeeds : forall o st st' x e, goods (sources o) st st' x e -> ~ reads_stdin o -> exists k0, forall n k, (k0 <= k)%nat ->
  exists ws, process n k o st = (ws, st', Exits 0) /\ out ws = x /\ err ws = e.
Proof using Type.
  intros o st st' x e G N. destruct (turn_good _ _ _ _ _ _ _ _ _ _ _ _ _ _ _ G) as (k0 & H). exists k0. intros n k K.
  destruct (H k K (the_rest St V line prompt types panics type_name sprint set_last open_stdin n k o)) as (ws & O & R & E).
  exists ws. split; [|split; assumption]. rewrite main_turn, E. unfold the_rest, reads_stdin in *. destruct (opt_e o), (opt_args o); try (rewrite app_nil_r; reflexivity). exfalso. apply N. split; reflexivity.
Qed.
Theorem process_fails : forall o a s b st st1 x e x' e', sources o = a ++ s :: b -> goods a st st1 x e -> bads s st1 x' e' -> exists k0, forall n k, (k0 <= k)%nat ->
  exists ws st', process n k o st = (ws, st', Exits 1) /\ out ws = x ++ x' /\ err ws = e ++ e'.
Proof using Type.
  intros o a s b st st1 x e x' e' S G B. destruct (turn_good _ _ _ _ _ _ _ _ _ _ _ _ _ _ _ G) as (k0 & H). destruct (bad_source _ _ _ _ _ _ _ _ _ _ _ _ _ _ B) as (k1 & H1).
  exists (Nat.max k0 k1). intros n k K. rewrite main_turn, S, turn_app.
  destruct (H k ltac:(lia) (in_turn St V line prompt types panics type_name sprint set_last open k (s :: b) (the_rest St V line prompt types panics type_name sprint set_last open_stdin n k o))) as (ws & O & R & E).
  rewrite E. cbn [in_turn]. destruct (H1 k ltac:(lia)) as (ws1 & st' & E1 & O1 & R1). rewrite E1. cbn [and_then]. exists (ws ++ ws1), st'. split; [reflexivity|]. rewrite out_app, err_app, O, R, O1, R1. split; reflexivity.
Qed.
(* Lines typed by a user never end it. *)
Theorem process_with_user : forall o st st1 x e ss st', goods (sources o) st st1 x e -> reads_stdin o -> hist (open_stdin st1) ss st' -> line st' = AtEnd ->
  exists k0, forall n k, (k0 <= k)%nat -> (k0 <= n)%nat -> exists ws, process n k o st = (ws, st', Exits 0) /\
    out ws = x ++ flat_map (out_of true) ss ++ prompt st' /\ err ws = e ++ flat_map err_of ss.
Proof using Type.
  intros o st st1 x e ss st' G (E1 & E2) H L. destruct (turn_good _ _ _ _ _ _ _ _ _ _ _ _ _ _ _ G) as (k0 & T). exists (Nat.max k0 (S (length ss))). intros n k K N.
  destruct (T k ltac:(lia) (the_rest St V line prompt types panics type_name sprint set_last open_stdin n k o)) as (ws & O & R & E). rewrite main_turn, E.
  unfold the_rest. rewrite E1, E2. destruct (loop_goes _ _ _ _ _ _ _ _ _ n ss _ _ H L k true ltac:(lia) ltac:(lia)) as (ws1 & X & O1 & R1 & _). rewrite X. eexists. split; [reflexivity|].
  rewrite out_app, err_app, O, R, O1, R1. split; reflexivity.
Qed.

(* The operator ivy returns the last value of the last line and prints all the others, line by line, if the lines print
   nothing themselves and do not change how values are printed. *)
Theorem ivy_returns_last_partial : forall txt, (forall s v, sprint s v = inl (txt v)) -> (forall s, types s = false) ->
  forall l st st' a v, gives St V line st l st' -> line st' = AtEnd -> List.last l [] = a ++ [v] -> forall k, (length l < k)%nat ->
  exists ws ks, eval St V line types type_name sprint k [] st = (ws, st', Returns (Some v)) /\
    Forall2 laid_out (map (texts_of V txt) (removelast l ++ [a])) ks /\ out ws = concat ks /\ err ws = [].
Proof using Type.
  intros txt S T l st st' a v G L La k K. destruct l as [|vs l]; [destruct a; discriminate|]. destruct (eval_goes St V line types type_name sprint txt S T (vs :: l) st st' [] G L a v La k K) as (ws & ks & E & F & O & R).
  change (removelast ([] :: vs :: l)) with ([] :: removelast (vs :: l)) in F. cbn [app map] in F. inversion F as [|? t ? ks' Y F']; subst.
  exists ws, ks'. split; [exact E|]. split; [exact F'|]. split; [|exact R]. rewrite O. destruct Y as [(_ & ->)|(N & _)]; [reflexivity|]. elim N. reflexivity.
Qed.
End Run.
Print Assumptions run_to_the_end.
Print Assumptions run_to_an_error.
Print Assumptions loop_to_the_end.
Print Assumptions histories_exist.
Print Assumptions process_succeeds.
Print Assumptions process_fails.
Print Assumptions process_with_user.
Print Assumptions ivy_returns_last_partial.

(* ---- the sessions of C78 are such a machine ---- *)
Definition session_line (message_of : session * sc -> text) (nextl : session -> sc -> option (res (list rval) * session * sc)) (x : session * sc) : outcome (session * sc) value :=
  match nextl (fst x) (snd x) with
  | None => AtEnd
  | Some (Ok vs, s1, q1) => Values [] (s1, q1) (map (fun r => (quiet r, val r)) vs)
  | Some (Err, s1, q1) => Fails [] (s1, q1) (message_of x)
  | Some (_, s1, q1) => Dies [] (s1, q1)
  end.
Definition keep (x : session * sc) (_ : value) : session * sc := x.                        (* session_next assigns "_" itself *)
Section Sessions.
Variable u_print : Z -> bool.
Variables letters digits puncts symbols : Z -> bool.
Variables bu bb : string -> bool.
Variable E : settings -> env.
Variables const_e const_pi : Z -> value.
Variable message_of : session * sc -> text.
Variable show : settings -> value -> text.
Variable type_name : value -> text.
Notation snext := (session_next u_print letters digits puncts symbols bu bb E const_e const_pi).
Notation stext := (session_text u_print letters digits puncts symbols bu bb E const_e const_pi).
(* What a session prints, without the debugging settings: for each line the layout of its values, or a message on the error
   output, and nothing else. *)
Theorem session_prints : forall k n s q rs s' q', stext k n s q = (rs, s', q') -> ~ In Crash rs -> ~ In Unmod rs ->
  exists ss, history (session * sc) value (session_line message_of (snext n)) (fun x => prompt_text (ses_set (fst x))) (fun _ => false) (fun _ => false) type_name
      (fun x v => inl (show (ses_set (fst x)) v)) keep (s, q) ss (s', q') /\
    Forall2 (fun r x => during x = [] /\ match r with
                        | Ok vs => failed x = None /\ exists c, laid_out (map (fun v => show c (val v)) (filter (fun v => negb (quiet v)) vs)) (printed x)
                        | _ => failed x <> None /\ printed x = [] end) rs ss.
Proof using Type.
  induction k as [|k IH]; intros n s q rs s' q' H NC NU; [injection H as <- <- <-; exists []; split; constructor|]. cbn [session_text] in H.
  destruct (snext n s q) as [[[r s1] q1]|] eqn:X; [|injection H as <- <- <-; exists []; split; constructor].
  destruct (stext k n s1 q1) as [[rs1 s2] q2] eqn:Y. injection H as <- <- <-. destruct (IH n s1 q1 rs1 s2 q2 Y) as (ss & H & F).
  { intros I. apply NC. right. exact I. } { intros I. apply NU. right. exact I. }
  destruct r as [vs| | |]; [| |elim NC; left; reflexivity|elim NU; left; reflexivity].
  - set (ts := map (fun v => show (ses_set s1) (val v)) (filter (fun v => negb (quiet v)) vs)). destruct (laid_total ts) as (t & L).
    exists (mkStep (prompt_text (ses_set s)) [] t None :: ss). split.
    + econstructor; [|exact H]. left. exists (s1, q1), (map (fun r => (quiet r, val r)) vs), ts, t. unfold session_line. cbn [fst snd]. rewrite X. split; [reflexivity|].
      split; [unfold shown, loud_values, ts; clear; cbn [fst]; induction vs as [|v vs IHv]; [reflexivity|]; cbn [map filter fst]; destruct (quiet v); cbn [negb map snd]; [exact IHv|rewrite IHv; reflexivity]|].
      split; [exact L|]. split; [reflexivity|]. split; [reflexivity|]. split; [reflexivity|].
      destruct ts as [|t0 ts0] eqn:D; [left; split; reflexivity|]. right. split; [discriminate|]. destruct (rev vs) as [|v l] eqn:RV.
      * exfalso. subst ts. rewrite <- (rev_involutive vs), RV in D. discriminate.
      * exists (map (fun r => (quiet r, val r)) (rev l)), (quiet v), (val v). split; [|reflexivity]. rewrite <- (rev_involutive vs), RV. cbn [rev]. rewrite map_app. reflexivity.
    + constructor; [|exact F]. cbn. split; [reflexivity|]. split; [reflexivity|]. exists (ses_set s1). exact L.
  - exists (mkStep (prompt_text (ses_set s)) [] [] (Some (message_of (s, q))) :: ss). split.
    + econstructor; [|exact H]. right. split; [reflexivity|]. split; [reflexivity|]. exists (message_of (s, q)). split; [reflexivity|]. left. unfold session_line. cbn [fst snd]. rewrite X. split; reflexivity.
    + constructor; [|exact F]. cbn. split; [reflexivity|]. split; [discriminate|reflexivity].
Qed.
End Sessions.
Print Assumptions session_prints.

(* ---- examples, and what is not so ---- *)
Definition in_base_of (x : session * sc) (v : value) : text + text := match v with VInt z => inl (format_int (real_base (out_base (ses_set (fst x)))) z) | _ => inl [] end.
Definition ses_line := session_line (fun _ => zs "bad") (ivy_next 20).
Definition input (l : list string) : session * sc := (start no_files, new_scanner (text_lines l)).
Definition ses_run (n k : nat) (i : bool) (x : session * sc) := run_on _ _ ses_line (fun x => prompt_text (ses_set (fst x))) (fun _ => false) (fun _ => false) (fun _ => zs "T") in_base_of keep n k i x.
Definition ses_eval (k : nat) (x : session * sc) := eval _ _ ses_line (fun _ => false) (fun _ => zs "T") in_base_of k [] x.
Example a_transcript : let '(ws, _, r) := ses_run 9 9 true (input ["1; 22; x = 3"; "1 +"; ")prompt '> '"; "x"]) in
  r = Finished /\ out ws = zs "1 22" ++ [nl; nl] ++ [nl] ++ [nl] ++ zs "> 3" ++ [nl; nl] ++ zs "> " /\ err ws = zs "bad" ++ [nl].
Proof. vm_compute. repeat split. Qed.
Example an_ivy : let '(ws, _, r) := ses_eval 9 (input ["1; 2"; "3; x = 4; 5"]) in out ws = zs "1 2" ++ [nl] ++ zs "3" ++ [nl] /\ r = Returns (Some (false, VInt 5)).
Proof. vm_compute. repeat split. Qed.
(* "It prints every value but the last, and returns the last" fails when an empty line, a command or a definition comes
   last: the value is printed and an empty vector is returned. *)
Theorem ivy_last_refuted : forall l, In l [["3"; ""]; ["3"; ")origin 1"]; ["3"; "op f x = x"]] ->
  let '(ws, _, r) := ses_eval 9 (input l) in out ws = zs "3" ++ [nl] /\ r = Returns None.
Proof. intros l [<-|[<-|[<-|[]]]]; vm_compute; split; reflexivity. Qed.
(* A value is printed when the line after it has been evaluated: an error there loses it; a command there changes it. *)
Theorem ivy_late_refuted :
  (let '(ws, _, r) := ses_eval 9 (input ["1"; "2"; "3 +"]) in out ws = zs "1" ++ [nl] /\ r = EvalFails (zs "bad")) /\
  (let '(ws, _, _) := ses_run 9 9 false (input ["1"; "2"; "3 +"]) in out ws = zs "1" ++ [nl] ++ zs "2" ++ [nl]) /\
  (let '(ws, _, r) := ses_eval 9 (input ["17"; ")obase 16"; "3"]) in out ws = zs "11" ++ [nl] /\ r = Returns (Some (false, VInt 3))) /\
  (let '(ws, _, _) := ses_run 9 9 false (input ["17"; ")obase 16"; "3"]) in out ws = zs "17" ++ [nl] ++ zs "3" ++ [nl]).
Proof. vm_compute. repeat split. Qed.
(* Two lines, the second of which prints while it is evaluated, as "1" and "print 2": they come out in the other order. *)
Definition toy_line (n : nat) : outcome nat Z := match n with O => Values [] 1%nat [(false, 1)] | 1%nat => Values [Out [50; nl]] 2%nat [(true, 2)] | _ => AtEnd end.
Definition toy_sprint (_ : nat) (z : Z) : text + text := inl (format_int 10 z).
Theorem ivy_order_refuted :
  (let '(ws, _, _) := eval _ _ toy_line (fun _ => false) (fun _ => []) toy_sprint 9 [] O in out ws = zs "2" ++ [nl] ++ zs "1" ++ [nl]) /\
  (let '(ws, _, _) := run _ _ toy_line (fun _ => []) (fun _ => false) (fun _ => false) (fun _ => []) toy_sprint (fun s _ => s) 9 false O in out ws = zs "1" ++ [nl] ++ zs "2" ++ [nl]).
Proof. vm_compute. split; reflexivity. Qed.
(* The file "-" is the standard input, but its first error ends the process; and an empty program after -e is none: the
   process reads the standard input. *)
Definition ses_main (o : options) (l : list string) := main _ _ ses_line (fun x => prompt_text (ses_set (fst x))) (fun _ => false) (fun _ => false) (fun _ => zs "T") in_base_of keep
  (fun _ _ => inl (input l)) (fun _ => input l) 9 9 o (input []).
Theorem stdin_refuted :
  (let '(ws, _, r) := ses_main (mkOptions [] [] [] []) ["1 +"; "3"] in out ws = [nl] ++ zs "3" ++ [nl; nl] /\ r = Exits 0) /\
  (let '(ws, _, r) := ses_main (mkOptions [] [] [] [[45]]) ["1 +"; "3"] in out ws = [nl] /\ r = Exits 1) /\
  (let '(ws, _, r) := ses_main (mkOptions [] [] (zs "") [zs "f"]) ["3"] in out ws = zs "3" ++ [nl] /\ r = Exits 0).
Proof. vm_compute. repeat split. Qed.
Print Assumptions ivy_last_refuted.
Print Assumptions ivy_late_refuted.
Print Assumptions ivy_order_refuted.
Print Assumptions stdin_refuted.

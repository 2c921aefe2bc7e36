(* C113: the demonstration. *)
From Coq Require Import String Lia ZifyBool.
From Verif Require Import Value ScanModel TextModel SaveModel SourceModel CmdModel DemoModel DemoSpec DemoProofs P_Scan P_Save P_Cmd.
Open Scope string_scope.
Open Scope list_scope.
Open Scope Z_scope.

(* Whatever the script and whatever is typed: the first line of the script is shown; then each empty line of the user has
   the next line of the script shown and written to the interpreter, and each other line is itself written to it; until
   the user has no more lines, types "quit", or asks for a line when the script is over. *)
Theorem demo_follows_user : forall script first more rest typed us, made_of script (first :: more) rest -> types typed us ->
  exists k, ends_after more us k /\ (forall k', ends_after more us k' -> k' = k) /\
    run_demo script (Some typed) = (Show first :: flat_map (reaction more us) (seq 0 k), false).
Proof.
  intros script first more rest typed us (-> & F & N) T. inversion F as [|? ? L F']; subst.
  destruct (with_user_follows us more rest F' N) as (k & K & E). exists k. split; [exact K|]. split; [intros k' K'; exact (ends_once _ _ _ _ K' K)|].
  unfold run_demo. rewrite next_line_made by exact L. rewrite (scan_types _ _ T). rewrite E. reflexivity.
Qed.
Print Assumptions demo_follows_user.
(* a line of 65536 bytes or more is an error, unless the demonstration is over before it *)
Theorem demo_long_line : forall script first more rest typed us, made_of script (first :: more) rest -> types_too_long typed us ->
  exists k, ends_after more us k /\ fst (run_demo script (Some typed)) = Show first :: flat_map (reaction more us) (seq 0 k) /\
    (snd (run_demo script (Some typed)) = true <-> k = length us).
Proof.
  intros script first more rest typed us (-> & F & N) T. inversion F as [|? ? L F']; subst.
  destruct (with_user_follows us more rest F' N) as (k & K & E). exists k. split; [exact K|].
  unfold run_demo. rewrite next_line_made by exact L. rewrite (scan_too_long _ _ T). rewrite E. split; [reflexivity|]. cbn [snd andb]. apply Nat.eqb_eq.
Qed.
Print Assumptions demo_long_line.
(* without a user, every line of the script is shown, and every one but the first is written to the interpreter *)
Theorem demo_alone : forall script first more rest, made_of script (first :: more) rest ->
  run_demo script None = (Show first :: flat_map (fun s => [Show s; Send s]) more, false).
Proof.
  intros script first more rest (-> & F & N). inversion F as [|? ? L F']; subst. unfold run_demo. rewrite next_line_made by exact L.
  rewrite alone_made by (try assumption; apply le_n). reflexivity.
Qed.
Print Assumptions demo_alone.
(* every text is made of lines, and a user's text types lines unless one is too long: the hypotheses are always met *)
Theorem scripts_have_lines : forall t, exists ls rest, made_of t ls rest.
Proof.
  induction t as [|r t (ls & rest & -> & F & N)]; [exists [], []; split; [reflexivity|]; split; [constructor|intros []]|].
  destruct (Z.eq_dec r nl) as [-> |D].
  - exists ([nl] :: ls), rest. split; [reflexivity|]. split; [constructor; [|exact F]|exact N]. exists []. split; [reflexivity|intros []].
  - destruct ls as [|l ls].
    + exists [], (r :: rest). split; [reflexivity|]. split; [constructor|]. intros [X|X]; [exact (D X)|exact (N X)].
    + inversion F as [|? ? (b & -> & Nb) F']; subst. exists ((r :: b ++ [nl]) :: ls), rest. split; [reflexivity|]. split; [|exact N].
      constructor; [|exact F']. exists (r :: b). split; [reflexivity|]. intros [X|X]; [exact (D X)|exact (Nb X)].
Qed.
Print Assumptions scripts_have_lines.

(* Under every schedule of the two sides, and whatever the sizes of the buffers: the interpreter gets the bytes in the
   order they were written, none lost and none twice; no call returns nothing; a newline ends what a call returns; and
   the channel never holds more than 1000. *)
Theorem pipe_in_order : forall t r q, 1 <= r -> runs (mkPipe t [] [] r []) q ->
  concat (reads q) ++ reading q ++ channel q ++ to_write q = t /\
  Forall (fun b => b <> [] /\ newline_last b) (reads q) /\ ~ In nl (reading q) /\ Z.of_nat (length (channel q)) <= 1000.
Proof.
  intros t r q R H. destruct (runs_ok _ _ H (start_ok t r R)) as [(A & B & C & D) E]. unfold pipe_text in E. cbn in E. split; [exact E|]. split; [exact A|]. split; [exact B|exact D].
Qed.
Print Assumptions pipe_in_order.
(* Neither side waits for the other for ever: while there are bytes one of them can move, and after two moves for each
   byte all have arrived; if the last is a newline then in calls that have returned. *)
Theorem pipe_delivers : forall t r q n, 1 <= r -> in_steps n (mkPipe t [] [] r []) q ->
  ((n < 2 * length t)%nat -> exists q', moves q q') /\ (n <= 2 * length t)%nat /\
  ((forall q', ~ moves q q') -> n = (2 * length t)%nat /\ concat (reads q) ++ reading q = t /\ (forall b, t = b ++ [nl] -> concat (reads q) = t)).
Proof.
  intros t r q n R H. assert (S1 : runs (mkPipe t [] [] r []) q /\ (n + left_to_do q)%nat = (2 * length t)%nat).
  { remember (mkPipe t [] [] r []) as p eqn:P. induction H as [p|n p q q' H IH M]; [split; [constructor|]; subst; unfold left_to_do; cbn; lia|].
    specialize (IH P). destruct IH as [A B]. split; [econstructor; eassumption|]. pose proof (moves_less _ _ M). lia. }
  destruct S1 as [S1 S2]. split; [|split; [lia|]].
  - intros L. apply can_move. destruct (channel q) eqn:E1; [|left; discriminate]. destruct (to_write q) eqn:E2; [|right; discriminate]. unfold left_to_do in S2. rewrite E1, E2 in S2. cbn in S2. lia.
  - intros No. destruct (pipe_in_order _ _ _ R S1) as (A & B & C & D).
    destruct (channel q) as [|c ch] eqn:E1; [|destruct (can_move q) as (q' & M); [left; rewrite E1; discriminate|destruct (No _ M)]].
    destruct (to_write q) as [|c w] eqn:E2; [|destruct (can_move q) as (q' & M); [right; rewrite E2; discriminate|destruct (No _ M)]].
    unfold left_to_do in S2. rewrite E1, E2 in S2. cbn [length] in S2. split; [lia|]. cbn [app] in A. rewrite app_nil_r in A. split; [exact A|].
    intros b Tb. destruct (reading q) as [|x y] eqn:E3 using rev_ind; [rewrite app_nil_r in A; exact A|]. exfalso. rewrite Tb, app_assoc in A. apply app_inj_tail in A. destruct A as [_ ->].
    apply C. apply in_or_app. right. left. reflexivity.
Qed.
Print Assumptions pipe_delivers.

(* Demonstrations work while ten levels are not used up, two by each; the levels are never given back. *)
Theorem demos_while_room : forall n d, (forall r, In r (snd (demos n d)) -> r = Started) <-> n = O \/ d + 2 * Z.of_nat n <= 10.
Proof. exact demos_started. Qed.
Print Assumptions demos_while_room.
(* So "a demonstration leaves nothing behind" is false: after five of them every )get fails for ever, and the sixth
   ends the process. *)
Theorem demos_leave_nothing_refuted :
  demos 6 0 = (11, [Started; Started; Started; Started; Started; ProcessDies]) /\
  results (run_lines (start two_files) [")get 'good'"]) = [Ok []] /\
  forall k m s q rs s' q' name g, ses_depth s = fst (demos 5 0) -> ivy_lines k m s q = (rs, s', q') ->
    snd (get_file no_letters no_letters no_letters no_letters no_letters built_unary built_binary cmd_env e_value pi_value g m name s') = Err.
Proof.
  split; [reflexivity|]. split; [vm_compute; reflexivity|]. intros k m s q rs s' q' name g D H. eapply get_stuck; [|exact H]. rewrite D. vm_compute. discriminate.
Qed.
Print Assumptions demos_leave_nothing_refuted.

(* ---- concrete cases ---- *)
Definition lines (l : list string) : text := flat_map (fun s => zs s ++ [nl]) l.
Example a_script : made_of (lines ["# Enter"; "23"; "1/3"] ++ zs "rest") (map (fun s => zs s ++ [nl]) ["# Enter"; "23"; "1/3"]) (zs "rest").
Proof.
  split; [reflexivity|]. split; [|cbn; unfold nl; lia]. repeat constructor; eexists; (split; [reflexivity|cbn; unfold nl; lia]).
Qed.
Example a_user : types (nl :: zs "2+2" ++ [13; nl] ++ [nl; nl] ++ zs "x") [[]; zs "2+2"; []; []; zs "x"].
Proof.
  exists [[]; zs "2+2" ++ [13]; []; []], (zs "x"). split; [reflexivity|].
  split; [repeat constructor; cbn; unfold nl; lia|]. split; [split; cbn; unfold nl; lia|].
  cbn. repeat (constructor; [first [left; reflexivity | right; split; [reflexivity|intros [|? [|? ?]]; discriminate]]|]). constructor.
Qed.
Example a_demo : run_demo (lines ["# Enter"; "23"; "1/3"]) (Some (nl :: zs "2+2" ++ [13; nl] ++ [nl; nl] ++ zs "x")) =
  ([Show (lines ["# Enter"]); Show (lines ["23"]); Send (lines ["23"]); Send (lines ["2+2"]); Show (lines ["1/3"]); Send (lines ["1/3"])], false).
Proof. reflexivity. Qed.
Example a_quit : run_demo (lines ["# Enter"; "23"; "1/3"]) (Some (lines ["1"; " quit "; "2"])) = ([Show (lines ["# Enter"]); Send (lines ["1"])], false).
Proof. reflexivity. Qed.
Example a_long_line : types_too_long (lines ["1"] ++ repeat 65 (Z.to_nat 65536)) [zs "1"].
Proof.
  exists [zs "1"], (repeat 65 (Z.to_nat 65536)), []. split; [rewrite app_nil_r; reflexivity|]. split; [repeat constructor; cbn; unfold nl; lia|].
  split; [constructor; [right; split; [reflexivity|intros [|? [|? ?]]; discriminate]|constructor]|]. split; [|rewrite repeat_length; vm_compute; discriminate].
  intros I. apply repeat_spec in I. discriminate.
Qed.
Example a_run : exists q, in_steps 6 (mkPipe (lines ["ab"]) [] [] 2 []) q /\ reads q = [zs "ab"; [nl]].
Proof.
  eexists. split.
  - eapply one_more; [eapply one_more; [eapply one_more; [eapply one_more; [eapply one_more; [eapply one_more; [apply no_steps|]|]|]|]|]|].
    + apply step_send. reflexivity.
    + apply step_more; [discriminate|discriminate].
    + apply step_send. reflexivity.
    + apply step_return; [right; reflexivity|]. instantiate (1 := 5). discriminate.
    + apply step_send. reflexivity.
    + apply step_return; [left; reflexivity|]. instantiate (1 := 5). discriminate.
  - reflexivity.
Qed.

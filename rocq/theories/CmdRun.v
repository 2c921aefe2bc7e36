(* Reading and executing the lines of special commands. *)
From Coq Require Import String Ascii ZifyBool.
From Verif Require Import Value NumModel NumSpec NumProofs NumMore ArrModel ArrSpec Syntax ExecModel ScanModel ScanSpec ScanProofs ScanLex ScanNext
  TextModel TextSpec TextProofs TextScan TextNum StrModel StrSpec StrProofs ReadModel ReadScan SaveModel SaveSpec SaveProofs SaveRun CmdModel CmdSpec CmdProofs.
From Verif Require ParseModel.
Open Scope string_scope.
Open Scope list_scope.
Open Scope Z_scope.

Definition command_names : list string :=
  ["base"; "ibase"; "obase"; "maxbits"; "maxdigits"; "maxstack"; "origin"; "prec"; "seed"; "prompt"; "format"; "get"; "save"].
Lemma command_not_number : forall w b, In w command_names -> legal_base b -> all_digits (zs w) b false = false.
Proof.
  intros w b I L. assert (T : forallb (fun b => forallb (fun w => negb (all_digits (zs w) b false)) command_names) [0;2;3;4;5;6;7;8;9;10;11;12;13;14;15;16] = true) by (vm_compute; reflexivity).
  rewrite forallb_forall in T. assert (IB : In b [0;2;3;4;5;6;7;8;9;10;11;12;13;14;15;16]) by (cbn; destruct L; lia). specialize (T b IB).
  rewrite forallb_forall in T. apply negb_true_iff, T, I.
Qed.
Lemma command_word : forall c w, In w command_names -> word c (zs w) /\ zs w <> zs "op" /\ zs w <> zs "opdelete" /\ is_identifier c (zs w) = true.
Proof.
  intros c w I. cbn [command_names In] in I.
  repeat (destruct I as [<- | I]; [split; [split; [discriminate|split; [repeat constructor|reflexivity]]|split; [discriminate|split; [discriminate|reflexivity]]]|]).
  destruct I.
Qed.
Lemma emits_command : forall c w l, In w command_names -> legal_base (ibase c) -> stop (hd eof l) -> emits c TIdent (zs w) l false.
Proof.
  intros c w l I L S. destruct (command_word c w I) as (W & N1 & N2 & ID). destruct (defined c (zs w)) eqn:D.
  - apply emits_operator; [|exact S]. repeat split; auto; apply W.
  - apply emits_variable; [|exact S]. split; [exact W|]. repeat split; auto. apply command_not_number; assumption.
Qed.
Lemma to_come_length : forall s, (length (to_come s) <= length (input s) + length (pending s))%nat.
Proof.
  intros s. unfold to_come. rewrite app_length, skipn_length. assert ((length (nocr (pending s)) <= length (pending s))%nat); [|lia].
  unfold nocr. generalize (pending s). intros p. induction p as [|y p IH]; cbn; [lia|]. destruct (negb (y =? 13)); cbn; lia.
Qed.

(* the end of the text, and comments *)
Lemma next_end : forall c s, 0 <= ibase c <= 36 -> between_tokens s -> to_come s = [] -> exists t s', Next c s = Some (t, s') /\ t_type t = TEof.
Proof.
  intros c s B K T. destruct (next_delivers c B s K) as (t & s' & N & (gap & G & D) & K'). exists t, s'. split; [exact N|]. rewrite T in D.
  assert (X : forall l r w (a : text), [] = l ++ (r :: w) ++ a -> False) by (intros [|? ?] ? ? ? X; discriminate X).
  destruct (t_type t); try reflexivity; exfalso; try (destruct D as (D & r & w & E & _); rewrite E in D; exact (X _ _ _ _ D)).
  - destruct D as (d & D & N0). destruct d; [contradiction|]. exact (X _ _ _ _ D).
  - destruct D as (D & cm & _ & E). rewrite E in D. destruct gap, cm; discriminate D.
Qed.
Lemma next_comment : forall c s b l, between_tokens s -> to_come s = 35 :: b ++ [nl] ++ l -> Forall (fun r => r <> nl /\ 0 <= r) b ->
  exists t s', Next c s = Some (t, s') /\ t_type t = TNewline /\ to_come s' = l /\ between_tokens s'.
Proof.
  intros c s b l [K B] TC F. unfold Next. set (s0 := mkSc (input s) (pending s) (fin s) (pos s) (start s) eof 0).
  assert (I : Inv (unread s0) 0 s0).
  { apply inv_ok. split; [|reflexivity]. destruct K as (K1 & K2 & K3 & K4). repeat split; cbn; auto; lia. }
  destruct B as [B|B]; [|rewrite B in TC; discriminate TC].
  assert (U : unread s0 = to_come s). { unfold unread, to_come, s0. cbn [start input pending]. rewrite B. reflexivity. }
  rewrite U in I. assert (O : off s0 = 0%nat) by (unfold off, s0; cbn; lia).
  pose proof (rest_off _ _ _ I) as R. rewrite O in R. cbn [skipn] in R. cbn [run_states]. unfold lex_any at 1.
  destruct (next s0) as [r0 s1] eqn:E. destruct (next_spec _ _ _ _ _ I E) as (La & N). rewrite R, TC in N. destruct N as (-> & Nx & I1 & R1 & O1 & T1 & W1).
  cbn -[next_while run_states lex_any room app]. set (P := fun x => negb ((x =? eof) || (x =? nl))).
  rewrite <-TC in I1. destruct (next_while_spec (to_come s) P eq_refl (S (room s1)) 1 s1 I1) as (s2 & -> & I2 & O2); [pose proof (left_room s1); lia|].
  assert (R2 : rest s2 = [nl] ++ l).
  { rewrite (rest_off _ _ _ I2), O2. rewrite R1. rewrite span_app; [|eapply Forall_impl; [|exact F]; intros x [X1 X2]; unfold P, eof; lia|reflexivity].
    rewrite O1, O, TC. cbn [Nat.add skipn]. rewrite skipn_app, skipn_all, Nat.sub_diag. reflexivity. }
  cbn [run_states]. unfold lex_any. destruct (next s2) as [r3 s3] eqn:E3. destruct (next_spec _ _ _ _ _ I2 E3) as (_ & N3). rewrite R2 in N3. destruct N3 as (-> & _ & I3 & R3 & _).
  cbn -[tok_text]. do 2 eexists. split; [reflexivity|]. split; [reflexivity|]. destruct (past_ok _ _ _ I3) as (_ & P2 & P3). split; [exact (eq_trans P2 R3)|exact P3].
Qed.

Ltac words := repeat match goal with |- context [word_in (zs ?a) ?l] => let x := eval vm_compute in (word_in (zs a) l) in change (word_in (zs a) l) with x; cbv iota end.
Section Line.
Set Default Proof Using "Type".
Variable u_print : Z -> bool.
Variables letters digits puncts symbols : Z -> bool.
Variables bu bb : string -> bool.
Variable E : settings -> env.
Variables const_e const_pi : Z -> value.
Notation context b := (scan_ctx b letters digits puncts symbols bu bb).
Notation nline := (next_line letters digits puncts symbols bu bb).
Notation constants := (set_constants const_e const_pi).
Notation cmd := (command u_print const_e const_pi).
Notation flines := (file_lines u_print letters digits puncts symbols bu bb E const_e const_pi).
Notation getf := (get_file u_print letters digits puncts symbols bu bb E const_e const_pi).
Notation snext := (session_next u_print letters digits puncts symbols bu bb E const_e const_pi).

Lemma end_line : forall s q, legal_base (in_base (ses_set s)) -> between_tokens q -> to_come q = [] -> exists q', nline s q = (RNone, q').
Proof.
  intros s q L B T. unfold next_line. cbv zeta.
  destruct (next_end (context (in_base (ses_set s)) (ses_ctx s)) q) as (t & q' & N & TY); auto; [destruct L as [X|X]; cbn [ibase scan_ctx]; lia|].
  cbn [read_tokens]. rewrite N, TY. cbn. eexists. reflexivity.
Qed.
Lemma comment_line : forall s q b more, between_tokens q -> to_come q = 35 :: b ++ [nl] ++ more -> Forall (fun r => r <> nl /\ 0 <= r) b ->
  exists q', nline s q = (REmpty, q') /\ to_come q' = more /\ between_tokens q'.
Proof.
  intros s q b more B T F. unfold next_line. cbv zeta.
  destruct (next_comment (context (in_base (ses_set s)) (ses_ctx s)) q b more B T F) as (t & q' & N & TY & T' & B').
  cbn [read_tokens]. rewrite N, TY. cbn. eauto.
Qed.
Lemma special_line : forall s q w ty arg more sign, In w command_names -> legal_base (in_base (ses_set s)) ->
  emits (context (in_base (ses_set s)) (ses_ctx s)) ty arg ([nl] ++ more) sign -> arg <> [] -> is_space (hd 0 arg) = false -> SaveProofs.plain (mkTok ty arg) ->
  between_tokens q -> to_come q = (41 :: zs w) ++ [32] ++ arg ++ [nl] ++ more ->
  exists q', nline s q = (RSpecial [mkTok TIdent (zs w); mkTok ty arg], q') /\ to_come q' = more /\ between_tokens q'.
Proof. clear u_print const_pi const_e.
  intros s q w ty arg more sign I L EM NE SP PL B T. set (c := context (in_base (ses_set s)) (ses_ctx s)) in *.
  destruct (next_emits c TRParen [41] (zs w ++ [32] ++ arg ++ [nl] ++ more) false q []) as (q1 & A1 & A2 & A3 & _); auto; try discriminate.
  { apply emits_char. right. right. left. split; reflexivity. }
  destruct (command_word c w I) as ((WN & WA & WD) & _).
  destruct (next_emits c TIdent (zs w) ([32] ++ arg ++ [nl] ++ more) false q1 []) as (q2 & C1 & C2 & C3 & _); auto; try discriminate.
  { apply emits_command; auto. right. left. reflexivity. }
  { destruct (zs w) as [|r x]; [contradiction|]. pose proof (Forall_inv WA) as A. cbv beta in A. apply alnum_spec in A. change (((r =? 32) || (r =? 9)) = false). lia. }
  destruct (next_emits c ty arg ([nl] ++ more) sign q2 [32]) as (q3 & D1 & D2 & D3 & _); auto; try discriminate.
  { constructor; [left; reflexivity|constructor]. }
  destruct (next_emits c TNewline [nl] more false q3 []) as (q4 & F1 & F2 & F3 & _); auto; try discriminate.
  { apply emits_char. left. split; reflexivity. }
  exists q4. split; [|auto]. unfold next_line. cbv zeta. fold c.
  set (all := [mkTok TRParen [41]; mkTok TIdent (zs w); mkTok ty arg]).
  assert (RD : reads c q all q3). { exists q1. split; [exact A1|]. exists q2. split; [exact C1|]. exists q3. split; [exact D1|reflexivity]. }
  rewrite (read_tokens_reads c all _ [] q q3 [nl] q4 RD).
  - reflexivity.
  - constructor; [exact Logic.I|constructor; [exact Logic.I|constructor; [exact PL|constructor]]].
  - exact F1.
  - pose proof (to_come_length q) as LQ. rewrite T in LQ. rewrite !app_length in LQ. unfold all. cbn [length] in *. lia.
Qed.
(* numbers *)
Lemma decimal_parses : forall n, 0 <= n -> parse_num 10 (format_int 10 n) = Ok (if n <? 2 ^ 31 then VInt n else VBig n).
Proof. clear u_print symbols puncts letters digits const_pi const_e.
  intros n H. assert (IV : print_num (mkPconf 10 0) (if n <? 2 ^ 31 then VInt n else VBig n) = Ok (format_int 10 n)).
  { destruct (n <? 2 ^ 31); [reflexivity|]. unfold print_num, print_real, print_big. cbn [maxdigits obase]. change (0 * 33222 / 10000) with 0. cbn [Z.eqb negb andb].
    destruct (bitlen n <? intBits); reflexivity. }
  apply (print_parse 10 10 ltac:(right; lia) eq_refl (mkPconf 10 0)); [reflexivity| |exact IV].
  destruct (n <? 2 ^ 31) eqn:X; cbn [canonical_num canonical]; lia.
Qed.
Lemma decimal_token : forall n, 0 <= n < 2 ^ 63 -> next_decimal64 [mkTok TNumber (format_int 10 n)] = Ok (n, []).
Proof. clear u_print symbols puncts letters digits const_pi const_e.
  intros n H. unfold next_decimal64. cbn [t_type t_text]. rewrite decimal_parses by lia. cbn [bind]. destruct (n <? 2 ^ 31) eqn:X.
  - replace (n <? 0) with false by lia. reflexivity.
  - replace ((n <? 0) || (2 ^ 63 - 1 <? n)) with false by lia. reflexivity.
Qed.
Lemma decimal_large : forall n, 2 ^ 63 <= n -> next_decimal64 [mkTok TNumber (format_int 10 n)] = Err.
Proof. clear u_print symbols puncts letters digits const_pi const_e.
  intros n H. unfold next_decimal64. cbn [t_type t_text]. rewrite decimal_parses by lia. cbn [bind]. replace (n <? 2 ^ 31) with false by lia.
  replace ((n <? 0) || (2 ^ 63 - 1 <? n)) with true by lia. reflexivity.
Qed.
Lemma decimal_number_text : forall b n, legal_base b -> 0 <= n -> number_text b (format_int 10 n).
Proof. clear u_print symbols puncts letters digits const_pi const_e.
  intros b n L H. left. left. left. unfold format_int. replace (n <? 0) with false by lia. split.
  - destruct (format_nat_ne 10 n ltac:(lia) H) as (r & t & -> & _). discriminate.
  - eapply Forall_impl; [|apply format_nat_digs; [lia|exact H]]. intros r (d & D & ->). left. unfold digit_char. destruct (d <? 10) eqn:X; lia.
Qed.
Lemma decimal_small : forall n, 0 <= n -> next_decimal [mkTok TNumber (format_int 10 n)] = if n <? 2 ^ 31 then Ok (n, []) else Err.
Proof. clear u_print symbols puncts letters digits const_pi const_e.
  intros n H. unfold next_decimal. destruct (Z_lt_le_dec n (2 ^ 63)) as [L|L].
  - rewrite decimal_token by lia. cbn [bind fst]. destruct (n <? 2 ^ 31); reflexivity.
  - rewrite decimal_large by lia. cbn [bind]. replace (n <? 2 ^ 31) with false by lia. reflexivity.
Qed.
Lemma documented_name : forall w n c r, documented w n c = Some r -> In w command_names.
Proof. clear u_print symbols puncts letters digits const_pi const_e E.
  intros w n c r. unfold documented. cbn [command_names In].
  repeat (match goal with |- context [String.eqb w ?x] => destruct (String.eqb_spec w x) as [->|]; [tauto|] end). discriminate.
Qed.
Lemma some_inj : forall (A : Type) (a b : A), Some a = Some b -> a = b. Proof. congruence. Qed.
Lemma numeric_special : forall get w n s r, documented w n (ses_set s) = Some r -> 0 <= n ->
  special u_print get [mkTok TIdent (zs w); mkTok TNumber (format_int 10 n)] s = match r with Some c' => (with_set s c', Ok tt) | None => (s, Err) end.
Proof. clear symbols puncts letters digits const_pi const_e.
  intros get w n [st [ib ob og mb md ms fp pt ft sd db] d f] r D N. unfold documented in D.
  unfold special. cbn [t_type t_text ses_set with_set in_base out_base ses_ctx ses_depth ses_files].
  repeat (match type of D with context [String.eqb w ?x] => destruct (String.eqb_spec w x) as [->|]; [apply some_inj in D; subst r; unfold body; words|] end); try discriminate D.
  - rewrite decimal_small by exact N. destruct (n <? 2 ^ 31) eqn:S; unfold base_number, when.
    + destruct (negb (n =? 0) && ((n <? 2) || (16 <? n))) eqn:B.
      * replace ((n =? 0) || ((2 <=? n) && (n <=? 16))) with false by lia. reflexivity.
      * replace ((n =? 0) || ((2 <=? n) && (n <=? 16))) with true by lia. reflexivity.
    + replace ((n =? 0) || ((2 <=? n) && (n <=? 16))) with false by lia. reflexivity.
  - rewrite decimal_small by exact N. destruct (n <? 2 ^ 31) eqn:S; unfold base_number, when.
    + destruct (negb (n =? 0) && ((n <? 2) || (16 <? n))) eqn:B.
      * replace ((n =? 0) || ((2 <=? n) && (n <=? 16))) with false by lia. reflexivity.
      * replace ((n =? 0) || ((2 <=? n) && (n <=? 16))) with true by lia. reflexivity.
    + replace ((n =? 0) || ((2 <=? n) && (n <=? 16))) with false by lia. reflexivity.
  - rewrite decimal_small by exact N. destruct (n <? 2 ^ 31) eqn:S; unfold base_number, when.
    + destruct (negb (n =? 0) && ((n <? 2) || (16 <? n))) eqn:B.
      * replace ((n =? 0) || ((2 <=? n) && (n <=? 16))) with false by lia. reflexivity.
      * replace ((n =? 0) || ((2 <=? n) && (n <=? 16))) with true by lia. reflexivity.
    + replace ((n =? 0) || ((2 <=? n) && (n <=? 16))) with false by lia. reflexivity.
  - unfold setting. rewrite decimal_small by exact N. unfold small, when. destruct (n <? 2 ^ 31); reflexivity.
  - unfold setting. rewrite decimal_small by exact N. unfold small, when. destruct (n <? 2 ^ 31); reflexivity.
  - unfold setting. rewrite decimal_small by exact N. unfold small, when. destruct (n <? 2 ^ 31); reflexivity.
  - unfold setting. rewrite decimal_small by exact N. unfold small, when. destruct (n <? 2 ^ 31); cbv beta iota zeta; replace (0 <=? n) with true by lia; reflexivity.
  - unfold setting. rewrite decimal_small by exact N. unfold when. destruct (n <? 2 ^ 31) eqn:S.
    + cbv beta iota zeta. destruct (negb ((n =? 0) || (1000000 <? n))) eqn:B.
      * replace ((1 <=? n) && (n <=? 1000000)) with true by lia. reflexivity.
      * replace ((1 <=? n) && (n <=? 1000000)) with false by lia. reflexivity.
    + replace ((1 <=? n) && (n <=? 1000000)) with false by lia. reflexivity.
  - unfold when. destruct (n <? 2 ^ 63) eqn:S.
    + rewrite decimal_token by lia. reflexivity.
    + rewrite decimal_large by lia. reflexivity.
Qed.
Definition numeric_text (w : string) (n : Z) : text := (41 :: zs w) ++ [32] ++ format_int 10 n ++ [nl].
Lemma numeric_line : forall w n s q more, In w command_names -> 0 <= n -> legal_base (in_base (ses_set s)) ->
  no_digit_operators (context (in_base (ses_set s)) (ses_ctx s)) -> between_tokens q -> to_come q = numeric_text w n ++ more ->
  exists q', nline s q = (RSpecial [mkTok TIdent (zs w); mkTok TNumber (format_int 10 n)], q') /\ to_come q' = more /\ between_tokens q'.
Proof. clear u_print const_pi const_e.
  intros w n s q more I N L ND B T. unfold numeric_text in T. rewrite <-!app_assoc in T.
  destruct (format_nat_ne 10 n ltac:(lia) N) as (r & t & F & _). 
  assert (F' : format_int 10 n = r :: t) by (unfold format_int; replace (n <? 0) with false by lia; exact F).
  apply special_line with (sign := true); auto.
  - apply emits_number; auto; [apply decimal_number_text; auto|]. right. right. left. reflexivity.
  - rewrite F'. discriminate.
  - rewrite F'. cbn [hd]. pose proof (format_nat_digs 10 n ltac:(lia) N) as D. rewrite F in D. apply Forall_inv in D. destruct D as (d & D & ->). unfold digit_char, is_space. destruct (d <? 10) eqn:X; lia.
  - exact Logic.I.
Qed.
Theorem numeric_command : forall k w n s r q more, documented w n (ses_set s) = Some r -> 0 <= n -> legal_base (in_base (ses_set s)) ->
  no_digit_operators (context (in_base (ses_set s)) (ses_ctx s)) -> between_tokens q -> to_come q = numeric_text w n ++ more ->
  exists q', to_come q' = more /\ between_tokens q' /\
    snext k s q = Some (match r with Some c' => (Ok [], constants (with_set s c')) | None => (Err, s) end, q').
Proof.
  intros k w n s r q more D N L ND B T. destruct (numeric_line w n s q more (documented_name _ _ _ _ D) N L ND B T) as (q' & Q & T' & B').
  exists q'. split; [exact T'|]. split; [exact B'|]. unfold session_next. rewrite Q. unfold command. rewrite (numeric_special _ w n s r D N). destruct r; reflexivity.
Qed.
(* commands with a string *)
Definition string_text (w : string) (t : text) : text := (41 :: zs w) ++ [32] ++ quote_string u_print t ++ [nl].
Lemma string_line : forall w t s q more, In w command_names -> Forall code_point t -> legal_base (in_base (ses_set s)) ->
  between_tokens q -> to_come q = string_text w t ++ more ->
  exists q', nline s q = (RSpecial [mkTok TIdent (zs w); mkTok TString (quote_string u_print t)], q') /\ to_come q' = more /\ between_tokens q'.
Proof.
  intros w t s q more I F L B T. unfold string_text in T. rewrite <-!app_assoc in T.
  apply special_line with (sign := false); auto.
  - unfold quote_string. apply emits_string; [|left; reflexivity]. apply (pieces_body 34 (escaped u_print 34)); [|exact F]. intros r H. apply escaped_piece; [left; reflexivity|exact H].
  - discriminate.
  - exact Logic.I.
Qed.
Lemma string_token : forall t, Forall code_point t -> get_string [mkTok TString (quote_string u_print t)] = Ok (t, []).
Proof.
  intros t F. unfold get_string. cbn [t_type t_text]. unfold quote_string. rewrite (pieces_parse 34 (escaped u_print 34)); [reflexivity|left; reflexivity| |exact F].
  intros r H. apply escaped_piece; [left; reflexivity|exact H].
Qed.
End Line.

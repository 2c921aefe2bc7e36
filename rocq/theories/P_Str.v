(* Strings as text: C55. *)
From Coq Require Import String.
From Verif Require Import Value ScanModel ScanSpec StrModel StrSpec StrProofs P_Scan.
Open Scope string_scope.
Open Scope list_scope.
Open Scope Z_scope.

(* C55: the source form of a list of characters, of a single character (both as listed in
   operator bodies), and the form )save writes: wherever the text stands, the scanner delivers
   it as one string token, and the token denotes the same characters. *)
Theorem source_string_reads_back : forall u_print c s gap l more, 0 <= ibase c <= 36 -> between_tokens s -> Forall blank gap -> Forall code_point l ->
  to_come s = gap ++ prog_chars u_print l ++ more ->
  exists s', Next c s = Some (mkTok TString (prog_chars u_print l), s') /\ to_come s' = more /\ parse_string (prog_chars u_print l) = Ok l.
Proof.
  intros u c s gap l more B K G L T.
  destruct (next_string c s gap 39 (flat_map (prog_char u) l) more B K G T) as (s' & A1 & A2 & _);
    [apply pieces_body with (q := 39); [exact (prog_piece u)|exact L]|right; reflexivity|].
  exists s'. split; [exact A1|]. split; [exact A2|]. apply pieces_parse; [right; reflexivity|exact (prog_piece u)|exact L].
Qed.
Print Assumptions source_string_reads_back.
Theorem source_char_reads_back : forall u_print c s gap r more, 0 <= ibase c <= 36 -> between_tokens s -> Forall blank gap -> code_point r ->
  to_come s = gap ++ quote_char u_print r ++ more ->
  exists s', Next c s = Some (mkTok TString (quote_char u_print r), s') /\ to_come s' = more /\ parse_string (quote_char u_print r) = Ok [r].
Proof.
  intros u c s gap r more B K G L T. assert (Q : quote 39) by (right; reflexivity). assert (F : Forall code_point [r]) by (constructor; [exact L|constructor]).
  assert (E : quote_char u r = 39 :: flat_map (escaped u 39) [r] ++ [39]) by (unfold quote_char; cbn [flat_map]; rewrite app_nil_r; reflexivity).
  rewrite E in *.
  destruct (next_string c s gap 39 (flat_map (escaped u 39) [r]) more B K G T) as (s' & A1 & A2 & _);
    [apply pieces_body with (q := 39); [intros x; apply (escaped_piece u 39 x Q)|exact F]|exact Q|].
  exists s'. split; [exact A1|]. split; [exact A2|]. apply (pieces_parse 39 (escaped u 39) Q (fun x => escaped_piece u 39 x Q)). exact F.
Qed.
Print Assumptions source_char_reads_back.
Theorem saved_string_reads_back : forall u_print c s gap l more, 0 <= ibase c <= 36 -> between_tokens s -> Forall blank gap -> Forall code_point l ->
  to_come s = gap ++ quote_string u_print l ++ more ->
  exists s', Next c s = Some (mkTok TString (quote_string u_print l), s') /\ to_come s' = more /\ parse_string (quote_string u_print l) = Ok l.
Proof.
  intros u c s gap l more B K G L T. assert (Q : quote 34) by (left; reflexivity).
  destruct (next_string c s gap 34 (flat_map (escaped u 34) l) more B K G T) as (s' & A1 & A2 & _);
    [apply pieces_body with (q := 34); [intros x; apply (escaped_piece u 34 x Q)|exact L]|exact Q|].
  exists s'. split; [exact A1|]. split; [exact A2|]. apply (pieces_parse 34 (escaped u 34) Q (fun x => escaped_piece u 34 x Q)). exact L.
Qed.
Print Assumptions saved_string_reads_back.
(* it's, a tab, a newline, a bell, a non-breaking space, a snowman, an unprintable character of
   the supplementary planes *)
Definition sample : text := zs "it's" ++ [9; 10; 7; 0xA0; 0x2603; 0xE0001; 92; 34; 1].
Definition snowman_prints (r : Z) : bool := r =? 0x2603.
Example sample_points : Forall code_point sample.
Proof. unfold sample. apply Forall_app. split; repeat (apply Forall_cons; [split; cbn; lia|]); apply Forall_nil. Qed.
Example sample_text : prog_chars snowman_prints sample = zs "'it\'s\t\n\a\" ++ zs "u00a0" ++ [0x2603] ++ zs "\U000e0001\\" ++ [34] ++ zs "\u0001'".
Proof. vm_compute. reflexivity. Qed.
Example sample_saved : quote_string snowman_prints sample = [34] ++ zs "it's\t\n\a\" ++ zs "u00a0" ++ [0x2603] ++ zs "\U000e0001\\\" ++ [34] ++ zs "\x01" ++ [34].
Proof. vm_compute. reflexivity. Qed.
Example sample_parses : parse_string (prog_chars snowman_prints sample) = Ok sample /\ parse_string (quote_string snowman_prints sample) = Ok sample.
Proof. vm_compute. auto. Qed.

(* C111: how floats are shown. *)
From Coq Require Import String QArith Qabs Qpower Lqa Lia ZifyBool.
From Verif Require Import Value NumModel NumSpec NumProofs ScanModel TextModel TextSpec TextProofs TextNum FloatModel FloatProofs FloatMono FloatSign TimeModel MixModel FmtModel FmtSpec FmtProofs FmtText FTextModel FTextSpec FTextProofs FTextDigits FTextShow.
Open Scope string_scope.
Open Scope list_scope.
Open Scope Z_scope.

(* The text is a decimal number, the nearest of n significant digits, 12 when no format is set; it has an exponent
   exactly when it is below 0.0001 or has more than n digits before the point; no zeros end the digits after the
   point; read again it is that number. *)
Theorem float_shown_digits : forall format n q t, digits_format format n -> ~ (q == 0)%Q -> print_float format q = Ok t ->
  exists y, decimal_text t y /\ nearest_decimal n q y /\
    (scientific t <-> Qabs y < 1 # 10000 \/ inject_Z 10 ^ n <= Qabs y)%Q /\ trimmed t /\
    (forall base, base = 0 \/ base = 10 -> gives (parse_num base t) y).
Proof.
  intros format n q t F Q0 P. destruct (shown_digits _ _ _ _ F Q0 P) as (y & A & B & C & D). exists y. split; [exact A|]. split; [exact B|]. split; [exact C|]. split; [|exact D].
  exact (shown_trimmed _ _ _ _ F Q0 P).
Qed.
Print Assumptions float_shown_digits.
(* with %.ne the text has one digit before the point, n after it, and an exponent of two digits or more *)
Theorem float_shown_exponent : forall format n q t, exponent_format format n -> ~ (q == 0)%Q -> print_float format q = Ok t ->
  exists y, decimal_text t y /\ nearest_decimal (n + 1) q y /\ one_and n t /\ (forall base, base = 0 \/ base = 10 -> gives (parse_num base t) y).
Proof.
  intros format n q t F Q0 P. destruct (shown_exponent _ _ _ _ F Q0 P) as (y & A & B & _ & D). exists y. split; [exact A|]. split; [exact B|]. split; [|exact D].
  exact (shown_one_and _ _ _ _ F Q0 P).
Qed.
Print Assumptions float_shown_exponent.
(* with %.nf the text has n digits after the point *)
Theorem float_shown_fixed : forall n q t, 0 <= n < 2 ^ 31 -> print_float ([37; 46] ++ format_nat 10 n ++ [102]) q = Ok t ->
  exists s u y, t = s ++ u /\ minus_sign q s /\ fixed n u y /\ (Qabs (y - Qabs q) <= 1 / (2 * inject_Z (10 ^ n)))%Q.
Proof.
  intros n q t N P. unfold print_float in P. rewrite (set_format_is n 102 N ltac:(cbn; tauto)) in P. apply limited in P as [_ ->].
  destruct (decimals_fixed n (Qabs q) ltac:(lia) (Qabs_nonneg q)) as (y & F & A). exists (if Qnum q <? 0 then [45] else []), (decimals n (Qabs q)), y.
  split; [unfold float_text; cbn [Z.eqb Pos.eqb orb]; destruct (Qnum q <? 0); reflexivity|]. split; [apply sign_spec|]. split; assumption.
Qed.
Print Assumptions float_shown_fixed.
(* a float that has no more than n digits is shown as it is *)
Theorem float_shown_exactly : forall format n q t k j, digits_format format n -> ~ (q == 0)%Q -> print_float format q = Ok t ->
  (q == inject_Z k * inject_Z 10 ^ j)%Q -> Z.abs k < 10 ^ n -> exists y, decimal_text t y /\ (y == q)%Q.
Proof.
  intros format n q t k j F Q0 P E K. destruct (shown_digits _ _ _ _ F Q0 P) as (y & D & ND & _). exists y. split; [exact D|].
  destruct (digits_format_text _ _ F) as (N & _). exact (nearest_exact n q y k j ltac:(lia) ND E K).
Qed.
Print Assumptions float_shown_exactly.
(* what was shown, read and made a float again, is shown the same: the precision is some bits more than the digits *)
Theorem float_shown_again : forall format n P q t, digits_format format n -> 2 * 10 ^ (n + 1) < 2 ^ P -> ~ (q == 0)%Q -> moderate q -> print_float format q = Ok t ->
  forall base, base = 0 \/ base = 10 -> exists v x, parse_num base t = Ok v /\ to_float P (Ex v) = Ok x /\ print_float format x = Ok t.
Proof. exact shown_again. Qed.
Print Assumptions float_shown_again.
(* every float that is neither enormous nor minute is shown, and zero is 0 *)
Theorem float_shown : forall format q, moderate q -> exists t, print_float format q = Ok t.
Proof. exact moderate_prints. Qed.
Print Assumptions float_shown.
Theorem float_zero_shown : forall format n, digits_format format n -> print_float format 0 = Ok [48].
Proof.
  intros format n F. destruct (digits_format_text _ _ F) as (N & ch & C & T). rewrite T. cbn [mant_exp Qnum Z.eqb snd Z.abs Z.ltb Z.compare]. change (Qnum 0 <? 0) with false. unfold signed_dec.
  unfold fmt_g, round_dec. cbn [Qabs Qnum Z.abs Z.eqb dmant dexp length Z.of_nat]. replace (0 <? n) with true by lia. cbn [andb Z.leb Z.compare Z.sub Z.add Z.opp Z.pos_sub orb Z.ltb CompOpp Pos.compare Pos.compare_cont].
  reflexivity.
Qed.
Print Assumptions float_zero_shown.
(* the verb F is accepted and every float is then shown as %F *)
Theorem float_format_refuted : exists format, set_format format = Some (70, 3) /\ forall q, moderate q -> print_float format q = Ok [37; 70].
Proof.
  exists [37; 46; 51; 70]. split; [reflexivity|]. intros q M. destruct (moderate_prints [37; 46; 51; 70] q M) as [t P]. rewrite P. unfold print_float in P. cbn [set_format rev app existsb] in P.
  apply limited in P as [_ ->]. reflexivity.
Qed.
Print Assumptions float_format_refuted.
Example float_case : moderate (1 # 3) /\ digits_format [] 12 /\ print_float [] (rnd 256 (1 # 3)) = Ok (zs "0.333333333333") /\
  print_float [] (rnd 256 (1 # 7000000)) = Ok (zs "1.42857142857e-07") /\ print_float [] (- (9999999999995 # 10)) = Ok (zs "-1e+12") /\
  print_float (zs "%.3g") (rnd 256 (200000 # 3)) = Ok (zs "6.67e+04") /\ print_float (zs "%.3E") (rnd 256 (2 # 3)) = Ok (zs "6.667E-01") /\ print_float (zs "%.2f") (rnd 256 (-200 # 3)) = Ok (zs "-66.67").
Proof. unfold moderate. repeat split; try (left; auto); vm_compute; (reflexivity || discriminate). Qed.
Example float_formats : digits_format (zs "%.3g") 3 /\ exponent_format (zs "%.3E") 3.
Proof. split; [right; exists 103, 3|exists 69]; repeat split; auto; lia. Qed.

(* C112: integers and fractions under a floating-point format. *)
From Coq Require Import String QArith Qabs Qpower Lqa Lia ZifyBool.
From Verif Require Import Value NumModel NumSpec NumProofs ScanModel TextModel TextSpec TextProofs TextNum FloatModel FloatProofs FloatMono FloatSign TimeModel MixModel FmtModel FmtSpec FmtProofs FmtText FTextModel FTextSpec FTextProofs FTextDigits FTextShow EFmtModel EFmtSpec EFmtProofs EFmtRat EFmtShow.
Open Scope string_scope.
Open Scope list_scope.
Open Scope Z_scope.

(* With %.nf: n digits after the point; an integer exactly, a fraction to half a unit of the last digit. *)
Theorem exact_shown_fixed : forall format n v x, fixed_format format n -> valid v -> numval v = Some x ->
  exists s t y, print_exact format v = Ok (s ++ t) /\ minus_sign x s /\ fixed n t y /\ (Qabs (y - Qabs x) <= 1 / (2 * inject_Z (10 ^ n)))%Q /\ (intval v <> None -> y == Qabs x)%Q.
Proof. exact shown_fixed. Qed.
Print Assumptions exact_shown_fixed.
(* With %.ne: an integer has one digit, n digits after the point and an exponent; the digits are its first n+1. *)
Theorem integers_shown_exponent : forall format n v z, exponent_format format n -> intval v = Some z -> z <> 0 -> sized (inject_Z z) ->
  exists t y, print_exact format v = Ok t /\ decimal_text t y /\ one_and n t /\ cut_after (n + 1) (inject_Z z) y.
Proof. exact shown_integer_e. Qed.
Print Assumptions integers_shown_exponent.
(* With %.ng: an integer of at most n digits is shown as without a format; a longer one with an exponent, by its first
   n digits, without zeros at the end if it is not a small integer. *)
Theorem integers_shown_digits : forall format n v z, general_format format n -> intval v = Some z ->
  (Z.abs z < 10 ^ n -> print_exact format v = Ok (format_int 10 z)) /\
  (10 ^ n <= Z.abs z -> sized (inject_Z z) ->
   exists t y, print_exact format v = Ok t /\ decimal_text t y /\ scientific t /\ cut_after n (inject_Z z) y /\
     match v with VInt _ => one_and (n - 1) t | _ => trimmed t end).
Proof. intros format n v z F I. split; [exact (shown_integer_g format n v z F I)|exact (shown_integer_g_large format n v z F I)]. Qed.
Print Assumptions integers_shown_digits.
(* zero *)
Theorem zero_shown_exponent : forall format n v, exponent_format format n -> intval v = Some 0 -> exists verb, (verb = 101 \/ verb = 69) /\
  print_exact format v = Ok ([48] ++ (if 0 <? n then [46] ++ zeros n else []) ++ [verb; 43; 48; 48]).
Proof.
  intros format n v F I. destruct (print_exponent format n v F) as (verb & V & N & P). rewrite P. exists verb. split; [exact V|].
  assert (e_format verb n false [48] 0 = Ok ([48] ++ (if 0 <? n then [46] ++ zeros n else []) ++ [verb; 43; 48; 48])) as E.
  { rewrite e_format_is by lia. replace (Z.to_nat (1 + n)) with (S (Z.to_nat n)) by lia. cbn [firstn]. rewrite firstn_nil. unfold fmt_e, signed_dec. cbn [dmant dexp hd tl app Z.add Z.sub Z.opp Z.pos_sub Z.ltb Z.compare Z.abs].
    destruct (0 <? n); [|reflexivity]. rewrite firstn_all2 by (unfold zeros; rewrite repeat_length; lia). rewrite <- app_comm_cons. reflexivity. }
  destruct v as [w|w|w|w|a b|l|sh l]; try discriminate; injection I as ->; cbn [exact_text]; unfold int_text, big_text; destruct V as [-> | ->]; exact E.
Qed.
Print Assumptions zero_shown_exponent.
(* With %.ng a fraction of moderate size is rounded to n digits, shown without exponent and without zeros at its end. *)
Theorem fractions_shown_digits : forall format n q, general_format format n -> valid (VRat q) -> (1 # 10000 <= Qabs q)%Q -> (Qabs q < inject_Z 10 ^ n)%Q ->
  exists t y, print_exact format (VRat q) = Ok t /\ decimal_text t y /\ ~ scientific t /\ trimmed t /\ rounded n q y.
Proof. exact shown_rational_g. Qed.
Print Assumptions fractions_shown_digits.
(* Fractions with an exponent: the digits are off by less than one in the last.  Partial: only for fractions that are not
   1/10**9, 1/10**18, ... and that do not, rounded to one digit more than is shown, need another digit before the point:
   for those it is false, see below. *)
Theorem fractions_shown_exponent_partial : forall format n q, exponent_format format n -> valid (VRat q) -> not_billionth q -> stays_below (n + 2) q -> sized q ->
  exists t y, print_exact format (VRat q) = Ok t /\ decimal_text t y /\ one_and n t /\ about (n + 1) q y.
Proof. exact shown_rational_e. Qed.
Print Assumptions fractions_shown_exponent_partial.
Theorem fractions_shown_far_partial : forall format n q, general_format format n -> valid (VRat q) -> (Qabs q < 1 # 10000)%Q \/ (inject_Z 10 ^ n <= Qabs q)%Q ->
  not_billionth q -> stays_below (n + 1) q -> sized q ->
  exists t y, print_exact format (VRat q) = Ok t /\ decimal_text t y /\ scientific t /\ trimmed t /\ about n q y.
Proof. exact shown_rational_g_far. Qed.
Print Assumptions fractions_shown_far_partial.

(* What is false. *)
Lemma dec_text c f r g x : digits [c] -> digits f -> f <> [] -> (r = 101 \/ r = 69) -> (g = 43 \/ g = 45) -> digits x -> x <> [] -> Z.of_nat (length f) <= 1000 -> 0 <= whole x 0 <= 1000 ->
  decimal_text ([c; 46] ++ f ++ [r; g] ++ x) (inject_Z 1 * (inject_Z (whole [c] 0) + fraction f) * inject_Z 10 ^ (if g =? 43 then whole x 0 else - whole x 0)).
Proof.
  intros C F N R G X NX L W. exists [], 1, ([c; 46] ++ f), (Z.of_nat (length f)), (inject_Z (whole [c] 0) + fraction f)%Q, ([r; g] ++ x), 10, (if g =? 43 then whole x 0 else - whole x 0).
  split; [rewrite <- app_assoc; reflexivity|]. split; [left; auto|]. split; [exists [c], f; repeat (split; [first [exact C|exact F|discriminate|reflexivity]|]); left; reflexivity|].
  split; [right; exists r, [g], x, (if g =? 43 then 1 else -1)|].
  - split; [reflexivity|]. split; [left; auto|]. split; [destruct G as [-> | ->]; [right; left|right; right]; auto|]. split; [exact X|]. split; [exact NX|]. destruct G as [-> | ->]; cbn [Z.eqb Pos.eqb]; lia.
  - split; [|reflexivity]. split; [destruct (g =? 43); lia|]. cbn [Z.eqb Pos.eqb]. destruct (g =? 43); lia.
Qed.
Lemma is_digits l : forallb (fun r => (48 <=? r) && (r <=? 57)) l = true -> digits l.
Proof. intros H. apply Forall_forall. intros r I. rewrite forallb_forall in H. apply H in I. lia. Qed.
(* digits are cut off, not rounded: 199 with %.1e is 1.9e+02, and 200 would be nearer *)
Theorem exact_rounding_refuted : exists format v z t y, exponent_format format 1 /\ intval v = Some z /\ print_exact format v = Ok t /\ decimal_text t y /\
  (Qabs (inject_Z 20 * inject_Z 10 ^ 1 - inject_Z z) < Qabs (y - inject_Z z))%Q.
Proof.
  exists (zs "%.1e"), (VInt 199), 199, (zs "1.9e+02"). eexists. split; [exists 101; repeat split; auto; lia|]. split; [reflexivity|]. split; [vm_compute; reflexivity|].
  split; [apply (dec_text 49 [57] 101 43 [48; 50]); try (apply is_digits; reflexivity); auto; try discriminate; vm_compute; split; discriminate|]. vm_compute. reflexivity.
Qed.
Print Assumptions exact_rounding_refuted.
(* a fraction just below a power of ten, and 1/10**9, are shown ten times smaller than they are *)
Theorem fractions_shown_refuted : exists format q q', exponent_format format 1 /\ valid (VRat q) /\ valid (VRat q') /\
  (exists t y, print_exact format (VRat q) = Ok t /\ decimal_text t y /\ 9 * Qabs y < Qabs q)%Q /\
  (exists t y, print_exact format (VRat q') = Ok t /\ decimal_text t y /\ 9 * Qabs y < Qabs q')%Q.
Proof.
  exists (zs "%.1e"), (999999 # 1000)%Q, (1 # 1000000000)%Q. split; [exists 101; repeat split; auto; lia|]. split; [split; [vm_compute; reflexivity|discriminate]|]. split; [split; [vm_compute; reflexivity|discriminate]|]. split.
  - exists (zs "1.0e+02"). eexists. split; [vm_compute; reflexivity|]. split; [apply (dec_text 49 [48] 101 43 [48; 50]); try (apply is_digits; reflexivity); auto; try discriminate; vm_compute; split; discriminate|]. vm_compute. reflexivity.
  - exists (zs "1.0e-10"). eexists. split; [vm_compute; reflexivity|]. split; [apply (dec_text 49 [48] 101 45 [49; 48]); try (apply is_digits; reflexivity); auto; try discriminate; vm_compute; split; discriminate|]. vm_compute. reflexivity.
Qed.
Print Assumptions fractions_shown_refuted.
(* with more digits the text has two points and is no number *)
Theorem fractions_text_refuted : exists format q q' t t', exponent_format format 3 /\ valid (VRat q) /\ valid (VRat q') /\
  print_exact format (VRat q) = Ok t /\ print_exact format (VRat q') = Ok t' /\ parse_num 10 t = Err /\ parse_num 10 t' = Err.
Proof.
  exists (zs "%.3e"), (99999999 # 10000)%Q, (1 # 1000000000)%Q, (zs "1.0.0e+03"), (zs "1.0.0e-10"). split; [exists 101; repeat split; auto; lia|]. split; [split; [vm_compute; reflexivity|discriminate]|]. split; [split; [vm_compute; reflexivity|discriminate]|].
  repeat split; vm_compute; reflexivity.
Qed.
Print Assumptions fractions_text_refuted.
(* the format %.0g is accepted, and every integer that is then printed stops the interpreter *)
Theorem no_digits_crash_refuted : exists format, set_format format = Some (103, 0) /\ forall v z, intval v = Some z -> print_exact format v = Crash.
Proof.
  exists (zs "%.0g"). split; [reflexivity|]. intros v z I. change (print_exact (zs "%.0g") v) with (exact_text 103 0 v).
  assert (forall verb neg s e, e_format verb (-1) neg s e = Crash) as E. { intros. unfold e_format. destruct (Z.ltb_spec (Z.of_nat (length s) - 1) (-1)) as [L|L]; [lia|]. change (Z.to_nat (1 + -1)) with O. reflexivity. }
  assert (0 <=? int_exponent z = true /\ 0 <=? big_exponent z = true) as [H1 H2]. { destruct (Z.eq_dec z 0) as [-> |Z0]; [split; reflexivity|]. destruct (int_exponent_spec z Z0), (big_exponent_spec z Z0). split; apply Z.leb_le; assumption. }
  destruct v as [w|w|w|w|a b|l|sh l]; try discriminate; injection I as ->; cbn [exact_text]; unfold int_text, big_text; cbn [Z.eqb Pos.eqb orb]; rewrite ?H1, ?H2; change (0 - 1) with (-1); rewrite E; reflexivity.
Qed.
Print Assumptions no_digits_crash_refuted.

Example exact_case : print_exact (zs "%.3e") (VInt (-123456)) = Ok (zs "-1.234e+05") /\ print_exact (zs "%.3g") (VBig (10 ^ 20)) = Ok (zs "1e+20") /\ print_exact (zs "%.3g") (VInt 1000000) = Ok (zs "1.00e+06") /\
  print_exact (zs "%.4g") (VRat (22 # 7)) = Ok (zs "3.143") /\ print_exact (zs "%.4e") (VRat (- (1 # 3))) = Ok (zs "-3.3333e-01") /\ print_exact (zs "%.2f") (VRat (2 # 3)) = Ok (zs "0.67") /\ print_exact (zs "%.3g") (VRat (1 # 70000)) = Ok (zs "1.42e-05") /\ print_exact (zs "%.4g") (VRat (5 # 2)) = Ok (zs "2.5").
Proof. repeat split; vm_compute; reflexivity. Qed.
Example exact_formats : general_format (zs "%.3g") 3 /\ fixed_format (zs "%.2f") 2 /\ exponent_format (zs "%.3e") 3.
Proof. split; [exists 103|split; [exists 102|exists 101]]; repeat split; auto; lia. Qed.
Example fraction_case : valid (VRat (1 # 70000)) /\ not_billionth (1 # 70000) /\ stays_below 4 (1 # 70000) /\ sized (1 # 70000).
Proof.
  assert (magnitude (1 # 70000) (-4)) as M by (split; vm_compute; (reflexivity || discriminate)).
  split; [split; [reflexivity|discriminate]|]. split; [|split].
  - intros j J E. pose proof (T_mono (- (9 * j)) (-9) ltac:(lia)) as T. rewrite <- E in T. vm_compute in T. apply T. reflexivity.
  - intros e Me. rewrite (magnitude_unique _ _ _ Me M). vm_compute. reflexivity.
  - exists (-4). split; [exact M|lia].
Qed.

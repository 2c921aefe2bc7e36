(* Properties of binary text. *)
From Coq Require Import String QArith Qabs.
From Verif Require Import Value ScanModel TextModel TextSpec RandSpec FloatModel NumModel MixModel MixSpec FmtModel FmtSpec FmtProofs FmtText.
Open Scope string_scope.
Open Scope list_scope.
Open Scope Z_scope.

Definition str (s : string) : arg := AVector (map (fun r => Ex (VChar r)) (zs s)).
Definition int (z : Z) : num := Ex (VInt z).

(* ---- C101 ---- *)
(* In a format of literal text, one directive, and literal text, the verb that ivy prepares the value for is the
   one that package fmt will find. *)
Theorem verb_found_partial : forall s lit fl wd pd v post, plain_format s lit fl wd pd v post ->
  verb_of s = Ok v /\ exists d, parse_format s = Ok (Out lit d post) /\ verb d = v.
Proof. intros. destruct (plain_parse _ _ _ _ _ _ _ _ (plain_is _ _ _ _ _ _ _ H)) as [V P]. split; [exact V|]. eexists. split; [exact P|reflexivity]. Qed.
Print Assumptions verb_found_partial.
Theorem verb_only_there : forall s v, verb_of s = Ok v -> exists lit m r rest, s = lit ++ 37 :: m ++ r :: rest /\ ~ In 37 lit /\
  Forall (fun r => In r modifiers) m /\ ((r = v /\ In v verbs) \/ r = 37).
Proof.
  intros s v H. destruct (verb_form s v H) as (lit & m & r & rest & A & B & C & D). exists lit, m, r, rest. split; [exact A|]. split; [exact B|]. split.
  - eapply Forall_impl; [|exact C]. intros x X. unfold modifier in X. apply existsb_exists in X. destruct X as (y & Y & E). apply Z.eqb_eq in E. subst y. unfold modifiers. cbn [In] in *. tauto.
  - destruct D as [[D E]|D]; [left|right; exact D]. split; [exact D|]. unfold is_verb in E. apply existsb_exists in E. destruct E as (y & Y & E). apply Z.eqb_eq in E. subst y. exact Y.
Qed.
Print Assumptions verb_only_there.
Theorem verb_never_panics : forall s, verb_of s <> Crash.
Proof. exact verb_total. Qed.
Print Assumptions verb_never_panics.
Example verb_example : plain_format (zs "n = %-08.3d%%") (zs "n = ") (zs "-0") (zs "8") (zs ".3") 100 (zs "%").
Proof.
  split; [reflexivity|]. split; [cbn; intros [H|[H|[H|[H|[]]]]]; discriminate|]. split; [repeat constructor; unfold flag; cbn; tauto|]. split; [repeat constructor; cbn; discriminate|]. split; [cbn; discriminate|].
  split; [right; exists (zs "3"); split; [reflexivity|repeat constructor; cbn; discriminate]|]. cbn. tauto.
Qed.
(* A format without % is a format with % before it. *)
Theorem percent_added : forall s, ~ In 37 s -> s <> [] -> format_string (AVector (map (fun r => Ex (VChar r)) s)) =
  format_string (AVector (map (fun r => Ex (VChar r)) (37 :: s))).
Proof. exact percent_before. Qed.
Print Assumptions percent_added.
(* After %% the verb is looked up at the wrong place: %%%d is taken for a format with the verb %, %%T%d for one with T,
   which stands for times. *)
Theorem verb_found_refuted :
  (exists d, parse_format (zs "%%%d") = Ok (Out (zs "%") d []) /\ verb d = 100 /\ verb_of (zs "%%%d") = Ok 37) /\
  (exists d, parse_format (zs "%%T%d") = Ok (Out (zs "%T") d []) /\ verb d = 100 /\ verb_of (zs "%%T%d") = Ok 84).
Proof. split; eexists; vm_compute; repeat split. Qed.
Print Assumptions verb_found_refuted.
(* A negative number of decimals makes a format whose verb fmt takes for a minus sign. *)
Theorem negative_decimals_refuted : exists s d post, format_string (AScalar (int (-1))) = Ok (s, 102) /\ parse_format s = Ok (Out [] d post) /\ verb d = 45 /\ post = zs "1f".
Proof. eexists _, _, _. vm_compute. repeat split. Qed.
Print Assumptions negative_decimals_refuted.

(* ---- C102 ---- *)
(* n text x: x with n decimals, the nearest to x as a float. *)
Theorem decimals_shown : forall P n v, 1 <= P -> 0 <= n -> real v ->
  exists x s t y, fmt_text P (AScalar (int n)) (AScalar v) = Ok (s ++ t) /\ operand P v x /\ minus_sign x s /\ fixed n t y /\
    (Qabs (y - Qabs x) <= 1 / (2 * inject_Z (10 ^ n)))%Q.
Proof. exact decimals_text. Qed.
Print Assumptions decimals_shown.
(* w n text x: the same in a field of w characters. *)
Theorem decimals_in_field : forall P w n v, 1 <= P -> 0 <= n -> real v ->
  exists x s t y r, fmt_text P (AVector [int w; int n]) (AScalar v) = Ok r /\ in_field w (s ++ t) r /\ operand P v x /\ minus_sign x s /\ fixed n t y /\
    (Qabs (y - Qabs x) <= 1 / (2 * inject_Z (10 ^ n)))%Q.
Proof. exact width_text. Qed.
Print Assumptions decimals_in_field.
Example decimals_example : fmt_text 256 (AScalar (int 2)) (AScalar (Ex (VRat (-22 # 7)))) = Ok (zs "-3.14") /\
  fmt_text 256 (AVector [int 8; int 1]) (AScalar (Fl 64 (1 # 4))) = Ok (zs "     0.2") /\ fmt_text 256 (AVector [int (-5); int 0]) (AScalar (Fl 64 (5 # 2))) = Ok (zs "2    ").
Proof. vm_compute. repeat split. Qed.
(* The documented style d is refused, and E is taken for e. *)
Theorem style_refuted : format_string (AVector [int 8; int 2; Ex (VChar 100)]) = Err /\
  format_string (AVector [int 8; int 2; Ex (VChar 69)]) = Ok (zs "%8.2e", 101).
Proof. vm_compute. repeat split. Qed.
Print Assumptions style_refuted.

(* ---- C103 ---- *)
(* '%wd' text z: the digits of z on the right of a field of w characters. *)
Theorem integers_shown : forall P lit w post v z, ~ In 37 lit -> 0 < w -> (v = Ex (VInt z) \/ v = Ex (VBig z)) ->
  exists t s d, fmt_text P (AVector (map (fun r => Ex (VChar r)) (lit ++ [37] ++ format_nat 10 w ++ [100] ++ doubled post))) (AScalar v) = Ok (lit ++ t ++ post) /\
    in_field w (s ++ d) t /\ minus_sign (inject_Z z) s /\ digits d /\ whole d 0 = Z.abs z /\ (z <> 0 -> hd 49 d <> 48).
Proof.
  intros P lit w post v z NL W V. destruct (integer_text P lit w (doubled post) post v z NL W (literal_doubled post) V) as (t & E & F). exists t, (if z <? 0 then [45] else []), (format_nat 10 (Z.abs z)).
  split; [exact E|]. split; [|split; [|split; [apply format_nat_digits; lia|split; [apply format_nat_whole; lia|intros N; apply head_not_zero; lia]]]].
  - replace ((if z <? 0 then [45] else []) ++ format_nat 10 (Z.abs z)) with (format_int 10 z); [exact F|]. unfold format_int. destruct (Z.ltb_spec z 0); cbn [app]; f_equal; f_equal; lia.
  - exact (sign_spec (inject_Z z)).
Qed.
Print Assumptions integers_shown.
(* A rational: the format with the numerator, a slash, the format with the denominator. *)
Theorem rationals_shown : forall P lit w post q, ~ In 37 lit -> 0 < w ->
  exists a b, fmt_text P (AVector (map (fun r => Ex (VChar r)) (lit ++ [37] ++ format_nat 10 w ++ [100] ++ doubled post))) (AScalar (Ex (VRat q))) = Ok (a ++ [47] ++ b) /\
    fmt_text P (AVector (map (fun r => Ex (VChar r)) (lit ++ [37] ++ format_nat 10 w ++ [100] ++ doubled post))) (AScalar (Ex (VBig (Qnum q)))) = Ok a /\
    fmt_text P (AVector (map (fun r => Ex (VChar r)) (lit ++ [37] ++ format_nat 10 w ++ [100] ++ doubled post))) (AScalar (Ex (VBig (Zpos (Qden q))))) = Ok b.
Proof. intros P lit w post q NL W. exact (rational_text P lit w (doubled post) post q NL W (literal_doubled post)). Qed.
Print Assumptions rationals_shown.
Example integers_example : fmt_text 256 (str "<%6d>") (AScalar (Ex (VBig (- 10 ^ 10)))) = Ok (zs "<-10000000000>") /\ fmt_text 256 (str "6d") (AScalar (int 42)) = Ok (zs "    42") /\
  fmt_text 256 (str "%d") (AScalar (Ex (VRat (22 # 7)))) = Ok (zs "22/7").
Proof. vm_compute. repeat split. Qed.

(* ---- C104 ---- *)
(* The elements of a vector are formatted one by one, with a space between; those of a matrix are arranged in rows,
   planes and so on. *)
Theorem vector_formatted : forall P u s vb l ts, format_string u = Ok (s, vb) -> (all_chars l && string_verb vb)%bool = false ->
  Forall2 (fun v t => format_one P s vb v = Ok t) l ts -> fmt_text P u (AVector l) = Ok (joined [32] ts).
Proof. intros P u s vb l ts E A H. unfold fmt_text. rewrite E. cbn [bind]. rewrite A. apply format_all_each in H. rewrite H. cbn [bind]. rewrite join_space_joined. reflexivity. Qed.
Print Assumptions vector_formatted.
Theorem matrix_formatted : forall P u s vb shape l ts, format_string u = Ok (s, vb) -> Forall (fun n => (0 < n)%nat) shape -> shape <> [] -> length l = size shape ->
  Forall2 (fun v t => format_one P s vb v = Ok t) l ts -> fmt_text P u (AMatrix shape l) = Ok (arranged shape ts).
Proof.
  intros P u s vb shape l ts E F NE L H. assert (LT : length ts = length l) by (clear -H; induction H; cbn; lia).
  unfold fmt_text. rewrite E. cbn [bind]. destruct shape as [|n sh]; [contradiction|]. destruct l as [|v l].
  - exfalso. assert (X : forall s, Forall (fun n => (0 < n)%nat) s -> (0 < size s)%nat) by (clear; intros s F; induction F; cbn [size]; [lia|apply Nat.mul_pos_pos; assumption]). specialize (X _ F). cbn [length] in L. lia.
  - apply format_all_each in H. rewrite H. cbn [bind]. rewrite matrix_arranged; [reflexivity|exact F|congruence].
Qed.
Print Assumptions matrix_formatted.
Theorem formatted_alone : forall P u s vb v, format_string u = Ok (s, vb) -> fmt_text P u (AScalar v) = format_one P s vb v.
Proof. intros P u s vb v E. unfold fmt_text. rewrite E. reflexivity. Qed.
Print Assumptions formatted_alone.
Example matrix_example : fmt_text 256 (str "3d") (AMatrix [2; 2; 2]%nat [int 1; int 2; int 3; int 4; int 5; int 6; int 7; int 8]) =
  Ok (zs "  1   2" ++ [10] ++ zs "  3   4" ++ [10; 10] ++ zs "  5   6" ++ [10] ++ zs "  7   8").
Proof. vm_compute. reflexivity. Qed.

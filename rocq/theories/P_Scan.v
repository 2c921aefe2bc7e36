(* The scanner: C71-C75. *)
From Coq Require Import String.
From Verif Require Import Value ScanModel ScanSpec ScanProofs ScanLex ScanNext ScanLine ScanForm TextSpec TextScan ReadScan ScanName ScanEnd.
Open Scope string_scope.
Open Scope list_scope.
Open Scope Z_scope.

(* The built-in operators, a user-defined one, and no letters beyond ASCII. *)
Definition one_of (l : list string) (w : text) : bool := existsb (fun s => teq (zs s) w) l.
Definition binary_names := ["j";"+";"-";"*";"/";"idiv";"imod";"mdiv";"div";"mod";"**";"log";"!";"&";"|";"^";"<<";">>";"==";"!=";"<";"<=";">";">=";
  "and";"or";"xor";"nand";"nor";"?";"decode";"encode";"in";"iota";"min";"max";"rho";",";",%";"take";"drop";"rot";"flip";"fill";"sel";"part";"transp";"===";"!==";"intersect";"union";"text"].
Definition unary_names := ["?";"rand";"j";"split";"mix";"+";"-";"/";"inv";"sgn";"conj";"!";"^";"not";"abs";"real";"imag";"phase";"floor";"ceil";"iota";"rho";"count";"where";
  "flatten";"print";",";"up";"down";"rot";"flip";"transp";"log";"cos";"sin";"tan";"asin";"acos";"atan";"**";"sinh";"cosh";"asinh";"acosh";"atanh";"tanh";"sqrt";"char";"code";"text";"ivy";"float";"unique";"box";"first";"sys"].
Definition ctx_base (b : Z) : sctx :=
  mkSctx b (one_of binary_names) (one_of (binary_names ++ unary_names)) (one_of ["avg"]) (one_of ["avg"]) (fun _ => false) (fun _ => false) (fun _ => false) (fun _ => false).

(* every state met is one between tokens *)
Lemma scanning_between : forall c t, 0 <= ibase c <= 36 -> Forall (fun r => 0 <= r) t -> forall s, scanning c t s -> between_tokens s.
Proof.
  intros c t B T s R. induction R as [|s k s' R IH E]; [apply new_between, T|].
  destruct (next_delivers c B s IH) as (k1 & s1 & E1 & _ & Q). rewrite E in E1. injection E1 as -> ->. exact Q.
Qed.

(* C71: every state of the scanner has a next token; what the token does with the text is
   what [delivers] says, and the state it leaves is again one between tokens. *)
Theorem scan_step : forall c t s, 0 <= ibase c <= 36 -> Forall (fun r => 0 <= r) t -> scanning c t s ->
  exists k s', Next c s = Some (k, s') /\ delivers (to_come s) k (to_come s').
Proof.
  intros c t s B T R. assert (between_tokens s) as G.
  { induction R as [|s k s' R IH E]; [apply new_between, T|]. destruct (next_delivers c B s IH) as (k1 & s1 & E1 & _ & Q). rewrite E in E1. injection E1 as -> ->. exact Q. }
  destruct (next_delivers c B s G) as (k & s' & E & D & _). eauto.
Qed.
Print Assumptions scan_step.
Theorem scan_loses_nothing : forall c t, 0 <= ibase c <= 36 -> Forall (fun r => 0 <= r) t ->
  exists l, all_tokens c (S (length (nocr t))) (new_scanner t) = Some l /\ covers l (nocr t).
Proof.
  intros c t B T. destruct (new_between t T) as [G E]. rewrite <-E. apply all_tokens_cover; auto.
Qed.
Print Assumptions scan_loses_nothing.
Example scan_example : tokens_of (ctx_base 0) (zs "x = 3 rho 1j-2 -x # five") =
  Some [(TIdent, zs "x"); (TAssign, zs "="); (TNumber, zs "3"); (TIdent, zs "rho"); (TNumber, zs "1j-2"); (TOperator, zs "-"); (TIdent, zs "x"); (TEof, [])].
Proof. vm_compute. reflexivity. Qed.
Example scan_example_avg : tokens_of (ctx_base 0) (zs "1 avg@ (max/ 'a\'b')-2/3" ++ [13; 10]) =
  Some [(TNumber, zs "1"); (TOperator, zs "avg@"); (TLParen, zs "("); (TOperator, zs "max/"); (TString, zs "'a\'b'"); (TRParen, zs ")"); (TOperator, zs "-"); (TNumber, zs "2/3"); (TNewline, [10]); (TEof, [])].
Proof. vm_compute. reflexivity. Qed.

(* C72: a program means the same whether or not its last line ends in a newline: false. *)
Theorem final_newline_refuted : exists t l,
  tokens_of (ctx_base 0) (t ++ [nl]) = Some (l ++ [(TNewline, [nl]); (TEof, [])]) /\
  tokens_of (ctx_base 0) t <> Some (l ++ [(TEof, [])]) /\
  exists l', tokens_of (ctx_base 0) t = Some (l' ++ [(TErr, [])]).
Proof.
  exists (zs "2 * -x"), [(TNumber, zs "2"); (TOperator, zs "*"); (TOperator, zs "-"); (TIdent, zs "x")].
  split; [vm_compute; reflexivity|]. split; [vm_compute; discriminate|].
  exists [(TNumber, zs "2"); (TOperator, zs "*")]. vm_compute. reflexivity.
Qed.
Print Assumptions final_newline_refuted.
(* It is true of a text that does not end in a point and has no sign among its last two
   characters: the same tokens, with one for the newline (which takes a comment before it
   along) in the second case, or an error in both. *)
Lemma covers_newline : forall l v k, covers l v -> In k l -> t_type k = TNewline -> exists cm, comment cm /\ t_text k = cm ++ [nl].
Proof.
  intros l v k C. induction C as [t v v' T D|t l v v' T1 T2 D C IH]; intros [<-|I] E.
  - destruct T; congruence.
  - destruct I.
  - destruct D as (gap & _ & D). rewrite E in D. destruct D as (_ & cm & D1 & D2). eauto.
  - auto.
Qed.
Theorem final_newline_partial : forall c t, 0 <= ibase c <= 36 -> Forall (fun r => 0 <= r) t -> calm_end (nocr t) ->
  exists l, (tokens_of c t = Some (l ++ [(TErr, [])]) /\ tokens_of c (t ++ [nl]) = Some (l ++ [(TErr, [])])) \/
  (exists cm, comment cm /\ tokens_of c t = Some (l ++ [(TEof, [])]) /\ tokens_of c (t ++ [nl]) = Some (l ++ [(TNewline, cm ++ [nl]); (TEof, [])])).
Proof.
  intros c t B T P. assert (T' : Forall (fun r => 0 <= r) (t ++ [nl])) by (apply Forall_app; split; [exact T|constructor; [unfold nl; lia|constructor]]).
  destruct (scan_loses_nothing c t B T) as (l & E & _). destruct (scan_loses_nothing c (t ++ [nl]) B T') as (l2 & E2 & C2).
  assert (LN : length (nocr (t ++ [nl])) = S (length (nocr t))). { unfold nocr. rewrite filter_app, app_length. cbn. lia. }
  rewrite LN in E2. unfold tokens_of. rewrite LN, E, E2. cbn [option_map].
  destruct (all_tokens_sim c _ _ _ l (sim_new t T P) E) as [(l' & -> & R)|(l' & k & -> & TK & R)]; rewrite R in E2; injection E2 as <-.
  - exists (map (fun k => (t_type k, t_text k)) l'). left. rewrite map_app. auto.
  - exists (map (fun k => (t_type k, t_text k)) l'). right. destruct (covers_newline _ _ k C2) as (cm & D1 & D2); [apply in_or_app; right; left; reflexivity|exact TK|].
    exists cm. split; [exact D1|]. rewrite !map_app. cbn [map t_type t_text]. rewrite TK, D2. auto.
Qed.
Print Assumptions final_newline_partial.
Example final_newline_case : calm_end (nocr (zs "2 * -xy # sum")) /\
  tokens_of (ctx_base 0) (zs "2 * -xy # sum") = Some [(TNumber, zs "2"); (TOperator, zs "*"); (TOperator, zs "-"); (TIdent, zs "xy"); (TEof, [])] /\
  tokens_of (ctx_base 0) (zs "2 * -xy # sum" ++ [nl]) = Some [(TNumber, zs "2"); (TOperator, zs "*"); (TOperator, zs "-"); (TIdent, zs "xy"); (TNewline, zs "# sum" ++ [nl]); (TEof, [])].
Proof.
  split; [|split; vm_compute; reflexivity]. change (nocr (zs "2 * -xy # sum")) with (zs "2 * -xy # sum"). intros a r l E.
  do 13 (destruct a as [|? a]; [injection E as <- <-; cbn; split; (discriminate || (intros [X|X]; (discriminate || lia)))|injection E as _ E]). destruct a; discriminate.
Qed.

(* C73: a letter that is not a digit of the base is a name, after a sign as elsewhere: false.
   In base 10 the sign before the name a makes the line an error; before b it does not. *)
Theorem name_after_sign_refuted : exists t,
  (exists l, tokens_of (ctx_base 10) (zs "2 * -b" ++ [nl]) = Some (l ++ [(TOperator, zs "-"); (TIdent, zs "b"); (TNewline, [nl]); (TEof, [])])) /\
  (exists l, tokens_of (ctx_base 0) (zs "2 * -a" ++ [nl]) = Some (l ++ [(TOperator, zs "-"); (TIdent, zs "a"); (TNewline, [nl]); (TEof, [])])) /\
  t = zs "2 * -a" ++ [nl] /\ exists l, tokens_of (ctx_base 10) t = Some (l ++ [(TErr, [])]).
Proof.
  eexists. split; [|split; [|split; [reflexivity|]]].
  - exists [(TNumber, zs "2"); (TOperator, zs "*")]. vm_compute. reflexivity.
  - exists [(TNumber, zs "2"); (TOperator, zs "*")]. vm_compute. reflexivity.
  - exists [(TNumber, zs "2"); (TOperator, zs "*")]. vm_compute. reflexivity.
Qed.
Print Assumptions name_after_sign_refuted.
(* A name is one token of its own wherever it stands, in every base.  What is missing: names
   all of whose letters are digits of the base or a single j, such as j1 (see below). *)
Theorem names_in_every_base_partial : forall c t s gap w l, 0 <= ibase c <= 36 -> Forall (fun r => 0 <= r) t -> scanning c t s ->
  Forall blank gap -> to_come s = gap ++ w ++ l -> name_text c w -> number_end l ->
  exists s', Next c s = Some (mkTok TIdent w, s') /\ to_come s' = l.
Proof.
  intros c t s gap w l B T R BG E W N. pose proof (scanning_between c t B T s R) as G.
  destruct (next_emits c TIdent w l false s gap (emits_variable c w l (named_variable c w W) (number_end_stop l N))) as (s' & A1 & A2 & _); auto; try apply W.
  - destruct W as (NE & F & _). destruct w as [|x w]; [contradiction|]. pose proof (alnum_spec c x (Forall_inv F)). cbn [hd]. unfold is_space. lia.
  - discriminate.
  - exists s'. auto.
Qed.
Print Assumptions names_in_every_base_partial.
(* After a sign: the sign is an operator and the name follows.  What is missing: the name that
   begins with a digit of the base or with the first letter beyond, and the name at the very
   end of the text (C72). *)
Theorem name_after_sign_partial : forall c t s gap sg w x l, 0 <= ibase c <= 36 -> Forall (fun r => 0 <= r) t -> scanning c t s ->
  Forall blank gap -> sg = 43 \/ sg = 45 -> to_come s = gap ++ [sg] ++ w ++ x :: l -> name_text c w -> number_end (x :: l) ->
  (10 <= ibase c -> ~ 97 <= hd 0 w <= 97 + (ibase c - 10) /\ ~ 65 <= hd 0 w <= 65 + (ibase c - 10)) ->
  exists s1 s2, Next c s = Some (mkTok TOperator [sg], s1) /\ Next c s1 = Some (mkTok TIdent w, s2) /\ to_come s2 = x :: l.
Proof.
  intros c t s gap sg w x l B T R BG SG E W N H. pose proof (scanning_between c t B T s R) as G.
  pose proof W as (NE & F & D & _). destruct w as [|y w]; [contradiction|]. pose proof (Forall_inv F) as A. cbn [hd] in D, H.
  assert (NN : is_numeral c y = false).
  { unfold is_numeral. replace (between 48 y 57) with false by (unfold between; lia). destruct (ibase c <? 10) eqn:Q; [reflexivity|]. unfold between. lia. }
  assert (EM : emits c TOperator [sg] ((y :: w) ++ x :: l) false).
  { destruct w as [|z w]; cbn [app]; apply emits_sign; assumption. }
  destruct (next_emits c TOperator [sg] _ false s gap EM) as (s1 & A1 & A2 & _); auto; try discriminate.
  { cbn [hd]. unfold is_space. lia. }
  destruct (names_in_every_base_partial c t s1 [] (y :: w) (x :: l) B T (sc_next c t s _ s1 R A1)) as (s2 & C1 & C2); auto.
  exists s1, s2. auto.
Qed.
Print Assumptions name_after_sign_partial.
Example name_case : name_text (ctx_base 16) (zs "xa9_") /\ hd 0 (zs "xa9_") <> 103 /\
  tokens_of (ctx_base 16) (zs "3 *-xa9_" ++ [nl]) = Some [(TNumber, zs "3"); (TOperator, zs "*"); (TOperator, zs "-"); (TIdent, zs "xa9_"); (TNewline, [nl]); (TEof, [])].
Proof.
  split; [|split; [discriminate|vm_compute; reflexivity]]. unfold name_text. split; [discriminate|]. split; [repeat (apply Forall_cons; [reflexivity|]); apply Forall_nil|].
  cbn [hd zs]. split; [vm_compute; intros [A C]; apply C; reflexivity|]. split; [discriminate|]. split; [discriminate|]. split; [reflexivity|].
  apply Exists_cons_hd. unfold beyond. vm_compute. repeat split; try (intros [A C]; (apply A; reflexivity) || (apply C; reflexivity) || discriminate); discriminate.
Qed.
(* The letter j followed by digits is a name in no base: it is taken as a number, and is no
   number either. *)
Theorem name_of_j_refuted : exists w, is_identifier (ctx_base 0) w = true /\ defined (ctx_base 0) w = false /\
  Forall (fun b => tokens_of (ctx_base b) (w ++ zs " = 5") = Some [(TNumber, w); (TAssign, zs "="); (TNumber, zs "5"); (TEof, [])] /\
                   TextModel.parse_num b w = Err) [0; 2; 8; 10; 16].
Proof.
  exists (zs "j1"). split; [reflexivity|]. split; [reflexivity|]. repeat (apply Forall_cons; [split; vm_compute; reflexivity|]). apply Forall_nil.
Qed.
Print Assumptions name_of_j_refuted.

(* C74: tokens stay on their line and an error loses the rest of its line only.  What is
   missing: raw strings, which may run over lines, and an operator ending in a point, for
   which the statement is false. *)
Theorem tokens_on_one_line_partial : forall c t s k s', 0 <= ibase c <= 36 -> Forall (fun r => 0 <= r) t ->
  scanning c t s -> Next c s = Some (k, s') ->
  match t_type k with
  | TErr => loses_one_line (to_come s) (to_come s')
  | TNewline | TEof => True
  | _ => on_one_line k
  end.
Proof.
  intros c t s k s' B T R E. assert (between_tokens s /\ loaded_line s) as [G L].
  { clear E k s'. induction R as [|s k s' R IH E]; [split; [apply new_between, T|exact Logic.I]|]. destruct IH as [IH L].
    destruct (next_delivers c B s IH) as (k1 & s1 & E1 & _ & Q). rewrite E in E1. injection E1 as -> ->. split; [exact Q|]. exact (proj1 (next_line_ok c B s _ _ IH L E)). }
  exact (proj2 (next_line_ok c B s k s' G L E)).
Qed.
Print Assumptions tokens_on_one_line_partial.
Theorem tokens_on_one_line_refuted : exists t l, tokens_of (ctx_base 0) t = Some l /\
  (exists k w, In (k, w) l /\ hd 0 w <> 96 /\ k <> TNewline /\ In nl w).
Proof.
  exists (zs "1 +." ++ [nl] ++ zs "2+2" ++ [nl]). eexists. split; [vm_compute; reflexivity|].
  exists TOperator, (zs "+." ++ [nl]). split; [vm_compute; auto|]. vm_compute. repeat split; try discriminate. tauto.
Qed.
Print Assumptions tokens_on_one_line_refuted.
(* The error in the first line costs that line; the second is read. *)
Example error_one_line :
  match Next (ctx_base 0) (new_scanner (zs "12x 3" ++ [nl] ++ zs "4" ++ [nl])) with
  | Some (k, s) => t_type k = TErr /\ option_map fst (Next (ctx_base 0) s) = Some (mkTok TNumber (zs "4"))
  | None => False
  end.
Proof. vm_compute. split; reflexivity. Qed.

(* C75: the text of a token has the form of its kind. *)
Theorem token_forms : forall c t s k s', 0 <= ibase c <= 36 -> Forall (fun r => 0 <= r) t ->
  scanning c t s -> Next c s = Some (k, s') -> token_form c k.
Proof.
  intros c t s k s' B T R E. refine (next_form c B s k s' _ E). clear E k s'.
  induction R as [|s k s' R IH E]; [apply new_between, T|]. destruct (next_delivers c B s IH) as (k1 & s1 & E1 & _ & Q). rewrite E in E1. injection E1 as -> ->. exact Q.
Qed.
Print Assumptions token_forms.
Example token_forms_example : tokens_of (ctx_base 0) (zs "op avg@ x = 'it\'s' ; _a1 avg@ `\`") =
  Some [(TOp, zs "op"); (TOperator, zs "avg@"); (TIdent, zs "x"); (TAssign, [61]); (TString, zs "'it\'s'"); (TSemi, [59]); (TIdent, zs "_a1"); (TOperator, zs "avg@"); (TString, zs "`\`"); (TEof, [])].
Proof. vm_compute. reflexivity. Qed.

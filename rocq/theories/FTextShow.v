(* The texts of floats: their values, their layout, and reading them again. *)
From Coq Require Import QArith Qabs Qpower Lqa Lia ZifyBool.
From Verif Require Import Value NumModel NumSpec NumProofs ScanModel TextModel TextSpec TextProofs TextNum FloatModel FloatProofs FloatMono FloatSign TimeModel MixModel FmtModel FmtSpec FmtProofs FmtText FTextModel FTextSpec FTextProofs FTextDigits.
Open Scope list_scope.
Open Scope Z_scope.

Lemma mem_in x t : In x t -> mem x t = true.
Proof. intros H. apply existsb_exists. exists x. split; [exact H|apply Z.eqb_refl]. Qed.
Lemma gives_compat r x y : (x == y)%Q -> gives r x -> gives r y.
Proof. intros E (v & z & A & B & C & D). exists v, z. rewrite <- E. auto. Qed.

(* ---- whole numbers ---- *)
Lemma read_digits_whole us w : digits w -> forall acc, read_digits 10 us w acc = Some (whole w acc).
Proof.
  induction 1 as [|r w R D IH]; intros acc; [reflexivity|]. cbn [read_digits whole]. destruct (Z.eqb_spec r 95); [lia|]. rewrite andb_false_r.
  unfold digit_val, between. replace ((48 <=? r) && (r <=? 57)) with true by lia. replace (r - 48 <? 10) with true by lia. rewrite IH. f_equal. f_equal. lia.
Qed.
Lemma parse_whole neg base w : base = 0 \/ base = 10 -> digits w -> w <> [] -> hd 0 w <> 48 -> gives (parse_num base (signed_dec neg w)) (sgq neg * inject_Z (whole w 0)).
Proof.
  intros B D N Hd.
  assert (forall x, x = 47 \/ x = 106 -> mem x (signed_dec neg w) = false) as M.
  { intros x X. apply mem_no. unfold signed_dec. destruct neg; [constructor; [lia|]|]; (eapply Forall_impl; [|exact D]; cbn; lia). }
  unfold parse_num, parse_real. rewrite !M by auto. unfold parse_int.
  assert (read_unsigned base w = Some (whole w 0)) as R.
  { unfold read_unsigned. destruct w as [|c r]; [contradiction|]. destruct B as [->| ->]; cbn [Z.eqb]; [|apply read_digits_whole; exact D].
    assert (prefix (c :: r) = (10, c :: r, false)) as ->. { unfold prefix. cbn [hd] in Hd. destruct c as [|p|p]; try reflexivity. do 6 (destruct p as [p|p|]; try reflexivity). contradiction. }
    rewrite seps_ok; [apply read_digits_whole; exact D| |discriminate]. eapply Forall_impl; [|exact D]. cbn. lia. }
  assert (read_int base (signed_dec neg w) = Some ((if neg then -1 else 1) * whole w 0)) as ->.
  { unfold read_int, signed_dec. destruct neg; [rewrite R; cbn [option_map]; f_equal; lia|].
    assert (hd 0 w <> 43 /\ hd 0 w <> 45) as [H1 H2] by (destruct w; [contradiction|]; inversion D; cbn [hd]; lia).
    destruct w as [|c r]; [contradiction|]. cbn [hd] in *. transitivity (read_unsigned base (c :: r)); [|rewrite R; f_equal; lia].
    destruct c as [|p|p]; try reflexivity. do 6 (destruct p as [p|p|]; try reflexivity); contradiction. }
  set (z := (if neg then -1 else 1) * whole w 0).
  apply (gives_compat _ (inject_Z z)); [unfold z; rewrite inject_Z_mult; destruct neg; reflexivity|].
  destruct ((- 2 ^ 31 <=? z) && (z <? 2 ^ 31)) eqn:E.
  - exists (VInt z), (inject_Z z). split; [reflexivity|]. split; [cbn; lia|]. split; reflexivity.
  - exists (shrink_big z), (inject_Z z). split; [reflexivity|]. split; [apply shrink_big_valid|]. split; [apply shrink_big_val|reflexivity].
Qed.

(* ---- the layouts again ---- *)
Lemma fmt_e_has ch prec d : In ch (fmt_e ch prec d).
Proof. unfold fmt_e. right. apply in_or_app. right. left. reflexivity. Qed.
Lemma fmt_fixed_chars prec d : digits (dmant d) -> Forall (fun r => 48 <= r <= 57 \/ r = 46) (fmt_fixed prec d).
Proof.
  intros D. assert (forall l, digits l -> Forall (fun r => 48 <= r <= 57 \/ r = 46) l) as W by (intros l H; eapply Forall_impl; [|exact H]; cbn; lia).
  unfold fmt_fixed. apply Forall_app. split.
  - destruct (0 <? dexp d); [|repeat constructor; lia]. apply W, Forall_firstn', Forall_app. split; [exact D|apply zeros_digits].
  - destruct (0 <? prec); [|constructor]. constructor; [right; reflexivity|]. apply W, Forall_firstn', Forall_app. split; [|apply zeros_digits].
    apply Forall_skipn', Forall_app. split; [apply zeros_digits|exact D].
Qed.
Lemma signed_in x neg t : x <> 45 -> In x (signed_dec neg t) <-> In x t.
Proof. intros X. unfold signed_dec. destruct neg; [|tauto]. cbn [In]. split; [intros [C|C]; [congruence|exact C]|auto]. Qed.
Lemma fmt_e_read neg ch prec d y base : (ch = 101 \/ ch = 69) -> base = 0 \/ base = 10 -> decimal_text (signed_dec neg (fmt_e ch prec d)) y -> gives (parse_num base (signed_dec neg (fmt_e ch prec d))) y.
Proof.
  intros C B H. apply decimal_exact; [exact H|]. right. left. split; [|lia].
  assert (In ch (signed_dec neg (fmt_e ch prec d))) as I by (apply signed_in; [lia|apply fmt_e_has]).
  destruct C as [-> | ->]; rewrite (mem_in _ _ I); [reflexivity|apply orb_true_r].
Qed.
Lemma fmt_fixed_read neg prec d y base : good d -> 0 < prec \/ 0 < dexp d -> base = 0 \/ base = 10 -> Z.of_nat (length (dmant d)) - dexp d <= prec -> 0 <= prec ->
  decimal_text (signed_dec neg (fmt_fixed prec d)) y -> (y == sgq neg * dval d)%Q -> gives (parse_num base (signed_dec neg (fmt_fixed prec d))) y.
Proof.
  intros G H B L P0 T Y. destruct (Z.ltb_spec 0 prec) as [P|P].
  - apply decimal_exact; [exact T|]. left. apply mem_in. apply signed_in; [lia|]. unfold fmt_fixed. apply in_or_app. right. destruct (Z.ltb_spec 0 prec); [left; reflexivity|lia].
  - destruct H as [H|H]; [lia|]. assert (prec = 0) as -> by lia. clear T.
    assert (fmt_fixed 0 d = dmant d ++ zeros (dexp d - Z.of_nat (length (dmant d)))) as E.
    { unfold fmt_fixed. destruct (Z.ltb_spec 0 (dexp d)); [|lia]. cbn [Z.ltb Z.compare]. rewrite app_nil_r. apply firstn_pad. lia. }
    rewrite E. destruct G as (c & r & Em & N & D). eapply gives_compat; [|apply parse_whole; [exact B| | |]].
    + rewrite Y, whole_zeros_r. unfold dval. rewrite inject_Z_mult, <- T_Z by lia. replace (Z.max 0 (dexp d - Z.of_nat (length (dmant d)))) with (dexp d - Z.of_nat (length (dmant d))) by lia. reflexivity.
    + apply Forall_app. split; [exact D|apply zeros_digits].
    + rewrite Em. discriminate.
    + rewrite Em. exact N.
Qed.

Lemma fmt_g_shown neg ch n d : (ch = 101 \/ ch = 69) -> good d -> 1 <= n <= 800000 -> Z.of_nat (length (dmant d)) <= n -> Z.abs (dexp d) <= 90000 ->
  exists y, decimal_text (signed_dec neg (fmt_g ch n d)) y /\ (y == sgq neg * dval d)%Q /\
    (scientific (signed_dec neg (fmt_g ch n d)) <-> dexp d - 1 < -4 \/ n <= dexp d - 1) /\
    (forall base, base = 0 \/ base = 10 -> gives (parse_num base (signed_dec neg (fmt_g ch n d))) y).
Proof.
  intros C G N L X. pose proof G as (c & r & Em & Nc & D). assert (1 <= Z.of_nat (length (dmant d))) as L1 by (rewrite Em; cbn [length]; lia).
  unfold fmt_g. set (len := Z.of_nat (length (dmant d))) in *. set (t1 := (dexp d - 1 <? -4) || _).
  assert (t1 = (dexp d - 1 <? -4) || (n <=? dexp d - 1)) as E1.
  { unfold t1. f_equal. destruct ((len <? n) && (dexp d <=? len)) eqn:E; [|reflexivity]. lia. }
  destruct t1.
  - set (p := (if len <? n then len else n) - 1). assert (len - 1 <= p <= 900000) as Hp by (unfold p; destruct (Z.ltb_spec len n); lia).
    destruct (fmt_e_value neg ch p d C G ltac:(fold len; lia) ltac:(lia) X) as (y & A & B). exists y. split; [exact A|]. split; [exact B|]. split.
    + split; [intros _; lia|]. intros _. unfold scientific. rewrite !signed_in by lia. pose proof (fmt_e_has ch p d). destruct C; subst; auto.
    + intros base Hb. apply fmt_e_read; assumption.
  - set (p := Z.max ((if dexp d <? n then len else n) - dexp d) 0).
    assert (len - dexp d <= p /\ 0 <= p <= 900000 /\ (0 < p \/ 0 < dexp d)) as (P1 & P2 & P3) by (unfold p; destruct (Z.ltb_spec (dexp d) n); lia).
    destruct (fmt_fixed_value neg p d G P1 P2) as (y & A & B). exists y. split; [exact A|]. split; [exact B|]. split.
    + split; [|lia]. unfold scientific. rewrite !signed_in by lia. pose proof (fmt_fixed_chars p d D) as F. rewrite Forall_forall in F. intros [I|I]; apply F in I; lia.
    + intros base Hb. apply fmt_fixed_read; try assumption. lia.
Qed.

(* ---- the size of the exponent ---- *)
Lemma dexp_bound n q : 1 <= n -> ~ (q == 0)%Q -> Z.abs (snd (mant_exp q)) <= 10000 -> Z.abs (dexp (round_dec n (Qabs q))) <= 90000.
Proof.
  intros N Q0 M. assert (0 < Qabs q)%Q as P. { destruct (Qlt_le_dec 0 (Qabs q)) as [A|A]; [exact A|]. pose proof (Qabs_nonneg q). exfalso. apply Q0. rewrite <- (Qabs_sg q). assert (Qabs q == 0)%Q as -> by lra. ring. }
  destruct (round_dec_spec n _ N P) as (_ & _ & D & _). destruct (exp10_spec _ P) as [L U]. unfold mant_exp in M. destruct (Z.eqb_spec (Qnum q) 0) as [Z0|_]; [exfalso; apply Q0; unfold Qeq; cbn; lia|]. cbn [snd] in M.
  assert (ilog2 (Qabs q) = ilog2 q) as EI by (unfold ilog2; destruct q as [a b]; unfold Qabs; cbn [Qnum Qden]; rewrite Z.abs_involutive; reflexivity).
  destruct (ilog2_pos _ P) as [A B]. rewrite EI in *. set (k := ilog2 q) in *. set (e := exp10 (Qabs q)) in *.
  assert (forall a, pow2 a <= inject_Z 10 ^ Z.max 0 a)%Q as UP.
  { intros a. destruct (Z.le_gt_cases 0 a) as [H|H].
    - replace (Z.max 0 a) with a by lia. rewrite T_Z by lia. unfold pow2. replace (0 <=? a) with true by lia. rewrite <- Zle_Qle. apply Z.pow_le_mono_l. lia.
    - replace (Z.max 0 a) with 0 by lia. change (inject_Z 10 ^ 0)%Q with 1%Q. eapply Qle_trans; [apply (pow2_le a 0); lia|]. vm_compute. discriminate. }
  assert (e - 1 < 10000 + 1) as H1. { apply T_lt_inv. eapply Qle_lt_trans; [exact L|]. eapply Qlt_le_trans; [exact B|]. eapply Qle_trans; [apply UP|]. apply T_mono. lia. }
  assert (- 10002 < e) as H2.
  { apply T_lt_inv. eapply Qle_lt_trans; [|exact U]. eapply Qle_trans; [|exact A]. pose proof (UP (- k)) as V. pose proof (pow2_pos k) as P1. pose proof (pow2_pos (- k)) as P2.
    assert (pow2 k * pow2 (- k) == 1)%Q as I by (rewrite <- pow2_add, Z.add_opp_diag_r; reflexivity).
    assert (inject_Z 10 ^ (-10002) * inject_Z 10 ^ Z.max 0 (- k) <= 1)%Q as W. { rewrite <- T_add. change 1%Q with (inject_Z 10 ^ 0)%Q. apply T_mono. lia. }
    pose proof (T_pos (-10002)). set (x := (inject_Z 10 ^ (-10002))%Q) in *. set (w := (inject_Z 10 ^ Z.max 0 (- k))%Q) in *.
    assert (x * pow2 (- k) <= 1)%Q by nra. nra. }
  lia.
Qed.

(* ---- formats ---- *)
Lemma last_index_digits d v : digits d -> v <> 46 -> forall i o, last_index 46 (d ++ [v]) i o = o.
Proof.
  induction 1 as [|r d R D IH]; intros V i o; cbn [app last_index].
  - destruct (Z.eqb_spec v 46); [lia|reflexivity].
  - destruct (Z.eqb_spec r 46); [lia|]. apply IH, V.
Qed.
Lemma set_format_is n v : 0 <= n < 2 ^ 31 -> In v [102; 70; 103; 71; 101; 69] -> set_format ([37; 46] ++ format_nat 10 n ++ [v]) = Some (v, n).
Proof.
  intros N V. destruct (format_nat_digits n ltac:(lia)) as [D NE].
  assert (existsb (Z.eqb v) [102; 70; 103; 71; 101; 69] = true) as EV by (apply existsb_exists; exists v; split; [exact V|apply Z.eqb_refl]).
  assert (v <> 46) as V46 by (intros ->; discriminate EV).
  unfold set_format. rewrite !rev_app_distr. cbn [rev app]. rewrite EV.
  change ([37; 46] ++ format_nat 10 n ++ [v]) with (37 :: 46 :: format_nat 10 n ++ [v]).
  assert (last_index 46 (37 :: 46 :: format_nat 10 n ++ [v]) 0 None = Some 1%nat) as ->. { cbn [last_index Z.eqb Pos.eqb]. apply last_index_digits; assumption. }
  assert (removelast (37 :: 46 :: format_nat 10 n ++ [v]) = 37 :: 46 :: format_nat 10 n) as ->.
  { change (37 :: 46 :: format_nat 10 n ++ [v]) with ((37 :: 46 :: format_nat 10 n) ++ [v]). apply removelast_last. }
  cbn [skipn]. unfold parse_prec.
  assert (match format_nat 10 n with 43 :: s' => s' | _ => format_nat 10 n end = format_nat 10 n) as ->.
  { destruct (format_nat 10 n) as [|c r]; [reflexivity|]. inversion D; subst. destruct c as [|p|p]; try reflexivity. do 6 (destruct p as [p|p|]; try reflexivity). lia. }
  pose proof (take_digits_app (format_nat 10 n) [] D eq_refl) as T. rewrite app_nil_r in T. rewrite T. rewrite decimal_whole, format_nat_whole by lia. replace (n <? 2 ^ 31) with true by lia.
  destruct (format_nat 10 n); [contradiction|]. reflexivity.
Qed.
Lemma digits_format_text format n : digits_format format n -> 1 <= n <= 800000 /\ exists ch, (ch = 101 \/ ch = 69) /\
  forall q, print_float format q = if 10000 <? Z.abs (snd (mant_exp q)) then Unmod else Ok (signed_dec (Qnum q <? 0) (fmt_g ch n (round_dec n (Qabs q)))).
Proof.
  intros [[-> ->]|(v & k & V & K & -> & ->)].
  - split; [lia|]. exists 101. split; [auto|]. reflexivity.
  - split; [lia|]. exists (v - 2). split; [lia|]. intros q. unfold print_float. rewrite (set_format_is k v ltac:(lia) ltac:(destruct V; subst; cbn; tauto)).
    unfold float_text. replace ((v =? 101) || (v =? 69)) with false by lia. replace (v =? 102) with false by lia. replace ((v =? 103) || (v =? 71)) with true by lia.
    replace (if k =? 0 then 1 else k) with (Z.max 1 k) by (destruct (Z.eqb_spec k 0); lia). reflexivity.
Qed.
Lemma exponent_format_text format n : exponent_format format n -> 0 <= n <= 800000 /\ exists ch, (ch = 101 \/ ch = 69) /\
  forall q, print_float format q = if 10000 <? Z.abs (snd (mant_exp q)) then Unmod else Ok (signed_dec (Qnum q <? 0) (fmt_e ch n (round_dec (1 + n) (Qabs q)))).
Proof.
  intros (v & V & K & ->). split; [lia|]. exists v. split; [exact V|]. intros q. unfold print_float. rewrite (set_format_is n v ltac:(lia) ltac:(destruct V; subst; cbn; tauto)).
  unfold float_text. replace ((v =? 101) || (v =? 69)) with true by lia. reflexivity.
Qed.
Lemma limited q (t u : text) : (if 10000 <? Z.abs (snd (mant_exp q)) then Unmod else Ok u) = Ok t -> Z.abs (snd (mant_exp q)) <= 10000 /\ t = u.
Proof. destruct (Z.ltb_spec 10000 (Z.abs (snd (mant_exp q)))); [discriminate|]. intros E. injection E as E. auto. Qed.
Lemma abs_pos q : ~ (q == 0)%Q -> (0 < Qabs q)%Q.
Proof. intros Q0. destruct (Qlt_le_dec 0 (Qabs q)) as [A|A]; [exact A|]. pose proof (Qabs_nonneg q). exfalso. apply Q0. rewrite <- (Qabs_sg q). assert (Qabs q == 0)%Q as -> by lra. ring. Qed.
Lemma abs_signed neg x y : (0 <= x)%Q -> (y == sgq neg * x)%Q -> (Qabs y == x)%Q.
Proof. intros H E. rewrite E. destruct neg; unfold sgq; [setoid_replace (-1 * x)%Q with (- x)%Q by ring; rewrite Qabs_opp|setoid_replace (1 * x)%Q with x by ring]; apply Qabs_pos, H. Qed.

Theorem shown_digits' format n q t : digits_format format n -> ~ (q == 0)%Q -> print_float format q = Ok t ->
  exists y, (y == sgq (Qnum q <? 0) * dval (round_dec n (Qabs q)))%Q /\ decimal_text t y /\ nearest_decimal n q y /\
    (scientific t <-> Qabs y < 1 # 10000 \/ inject_Z 10 ^ n <= Qabs y)%Q /\
    (forall base, base = 0 \/ base = 10 -> gives (parse_num base t) y).
Proof.
  intros F Q0 P. destruct (digits_format_text _ _ F) as (N & ch & C & T). rewrite T in P. apply limited in P as [M ->]. pose proof (abs_pos q Q0) as A.
  destruct (round_dec_spec n _ ltac:(lia) A) as (G & L & _ & _). pose proof (dexp_bound n q ltac:(lia) Q0 M) as B.
  destruct (fmt_g_shown (Qnum q <? 0) ch n _ C G N L B) as (y & D & Y & S & R). set (d := round_dec n (Qabs q)) in *. exists y. split; [exact Y|]. split; [exact D|]. split; [exact (round_nearest n q ltac:(lia) Q0 y Y)|]. split; [|exact R].
  destruct (dval_range d G) as [LO HI]. pose proof (T_pos (dexp d - 1)) as P1.
  assert (Qabs y == dval d)%Q as E by (apply (abs_signed (Qnum q <? 0)); [lra|exact Y]). rewrite S, E. change (1 # 10000)%Q with (inject_Z 10 ^ (-4))%Q.
  split; (intros [H|H]; [left|right]).
  - eapply Qlt_le_trans; [exact HI|]. apply T_mono. lia.
  - eapply Qle_trans; [|exact LO]. apply T_mono. lia.
  - apply T_lt_inv. eapply Qle_lt_trans; [exact LO|exact H].
  - assert (n < dexp d); [|lia]. apply T_lt_inv. eapply Qle_lt_trans; [exact H|exact HI].
Qed.
Theorem shown_digits format n q t : digits_format format n -> ~ (q == 0)%Q -> print_float format q = Ok t ->
  exists y, decimal_text t y /\ nearest_decimal n q y /\
    (scientific t <-> Qabs y < 1 # 10000 \/ inject_Z 10 ^ n <= Qabs y)%Q /\
    (forall base, base = 0 \/ base = 10 -> gives (parse_num base t) y).
Proof. intros F Q0 P. destruct (shown_digits' _ _ _ _ F Q0 P) as (y & _ & H). exists y. exact H. Qed.
Theorem shown_exponent format n q t : exponent_format format n -> ~ (q == 0)%Q -> print_float format q = Ok t ->
  exists y, decimal_text t y /\ nearest_decimal (n + 1) q y /\ scientific t /\ (forall base, base = 0 \/ base = 10 -> gives (parse_num base t) y).
Proof.
  intros F Q0 P. destruct (exponent_format_text _ _ F) as (N & ch & C & T). rewrite T in P. apply limited in P as [M ->]. pose proof (abs_pos q Q0) as A.
  destruct (round_dec_spec (1 + n) _ ltac:(lia) A) as (G & L & _ & _). pose proof (dexp_bound (1 + n) q ltac:(lia) Q0 M) as B.
  destruct (fmt_e_value (Qnum q <? 0) ch n _ C G ltac:(lia) ltac:(lia) B) as (y & D & Y). exists y. split; [exact D|].
  split; [rewrite Z.add_comm; exact (round_nearest (1 + n) q ltac:(lia) Q0 y Y)|]. split; [|intros base Hb; apply fmt_e_read; assumption].
  unfold scientific. rewrite !signed_in by lia. pose proof (fmt_e_has ch n (round_dec (1 + n) (Qabs q))). destruct C; subst; auto.
Qed.
Lemma moderate_within q a : 0 <= a <= 10000 -> (pow2 (- a) <= Qabs q)%Q -> (Qabs q < pow2 a)%Q -> Z.abs (snd (mant_exp q)) <= a.
Proof.
  intros A0 A B. unfold mant_exp. destruct (Z.eqb_spec (Qnum q) 0); [cbn [snd]; lia|]. cbn [snd].
  assert (0 < Qabs q)%Q as P. { destruct q as [x b]. unfold Qabs, Qlt. cbn in *. lia. }
  assert (ilog2 (Qabs q) = ilog2 q) as EI by (unfold ilog2; destruct q as [x b]; unfold Qabs; cbn [Qnum Qden]; rewrite Z.abs_involutive; reflexivity).
  destruct (ilog2_pos _ P) as [L U]. rewrite EI in *.
  assert (- a < ilog2 q + 1) by (apply pow2_lt_inv; eapply Qle_lt_trans; [exact A|exact U]).
  assert (ilog2 q < a) by (apply pow2_lt_inv; eapply Qle_lt_trans; [exact L|exact B]). lia.
Qed.
Lemma moderate_prints format q : moderate q -> exists t, print_float format q = Ok t.
Proof.
  intros [A B]. change (inject_Z 2) with 2%Q in A, B. rewrite <- pow2_spec in A, B. pose proof (moderate_within q 9990 ltac:(lia) A B) as M.
  unfold print_float. destruct (match set_format format with Some vp => vp | None => (103, 12) end) as [v p]. destruct (Z.ltb_spec 10000 (Z.abs (snd (mant_exp q)))); [lia|]. eauto.
Qed.

(* ---- showing what was shown ---- *)
Lemma digits_unique a : forall b, digits a -> digits b -> length a = length b -> whole a 0 = whole b 0 -> a = b.
Proof.
  induction a as [|x a IH]; intros [|y b] A B L W; try discriminate; [reflexivity|]. inversion A; inversion B; subst. cbn [length] in L. injection L as L.
  cbn [whole] in W. rewrite (whole_acc a), (whole_acc b), L in W. pose proof (whole_nonneg a 0 H2 ltac:(lia)). pose proof (whole_nonneg b 0 H6 ltac:(lia)).
  pose proof (whole_upper a H2) as U1. pose proof (whole_upper b H6) as U2. rewrite L in U1. set (k := 10 ^ Z.of_nat (length b)) in *.
  assert (x = y) by nia. subst y. f_equal. apply IH; [assumption..|lia].
Qed.
Lemma trim0_repeat k : trim0 (49 :: repeat 48 k) = [49].
Proof. cbn [trim0]. assert (trim0 (repeat 48 k) = []) as ->; [|reflexivity]. induction k; [reflexivity|]. cbn [repeat trim0]. rewrite IHk. reflexivity. Qed.
Lemma trim0_power k : 0 <= k -> trim0 (format_nat 10 (10 ^ k)) = [49].
Proof.
  intros K. rewrite <- (trim0_repeat (Z.to_nat k)). f_equal. pose proof (Z.pow_pos_nonneg 10 k ltac:(lia) K) as P.
  destruct (len_range (10 ^ k) P) as [[A B] C]. destruct (format_nat_digits (10 ^ k) ltac:(lia)) as [D _].
  assert (Z.of_nat (length (format_nat 10 (10 ^ k))) - 1 < k + 1 - 0) by (assert (Z.of_nat (length (format_nat 10 (10 ^ k))) - 1 <= k); [apply (Z.pow_le_mono_r_iff 10); lia|lia]).
  assert (k < Z.of_nat (length (format_nat 10 (10 ^ k)))) by (apply (Z.pow_lt_mono_r_iff 10); lia).
  apply digits_unique; [exact D|constructor; [lia|apply (zeros_digits k)]|cbn [length]; rewrite repeat_length; lia|].
  rewrite format_nat_whole by lia. change (49 :: repeat 48 (Z.to_nat k)) with ([49] ++ zeros k). rewrite whole_zeros_r. cbn [whole]. replace (Z.max 0 k) with k by lia. lia.
Qed.
Lemma rne_close q m : (Qabs (q - inject_Z m) < 1 # 2)%Q -> rne q = m.
Proof.
  intros H. pose proof (rne_half q) as R. apply Qabs_Qlt_condition in H. apply Qabs_Qle_condition in R.
  assert (rne q < m + 1) by (rewrite Zlt_Qlt, inject_Z_plus; change (inject_Z 1) with 1%Q; lra).
  assert (m < rne q + 1) by (rewrite Zlt_Qlt, inject_Z_plus; change (inject_Z 1) with 1%Q; lra). lia.
Qed.
Lemma exp10_unique q e : (inject_Z 10 ^ (e - 1) <= q)%Q -> (q < inject_Z 10 ^ e)%Q -> exp10 q = e.
Proof.
  intros A B. pose proof (T_pos (e - 1)). destruct (exp10_spec q ltac:(lra)) as [L U].
  assert (e - 1 < exp10 q) by (apply T_lt_inv; lra). assert (exp10 q - 1 < e) by (apply T_lt_inv; lra). lia.
Qed.
Lemma round_dec_near n e m q : 1 <= n -> 10 ^ (n - 1) <= m < 10 ^ n -> (Qabs (q - inject_Z m * inject_Z 10 ^ (e - n)) < (1 # 2) * inject_Z 10 ^ (e - n - 1))%Q ->
  round_dec n q = mkDec (trim0 (format_nat 10 m)) e.
Proof.
  intros N M D. pose proof (T_pos (e - n - 1)) as P. set (u := (inject_Z 10 ^ (e - n - 1))%Q) in *.
  assert (inject_Z 10 ^ (e - n) == 10 * u)%Q as E1 by (replace (e - n) with ((e - n - 1) + 1) by lia; rewrite T_add; change (inject_Z 10 ^ 1)%Q with 10%Q; fold u; ring).
  assert (1 <= inject_Z (10 ^ (n - 1)))%Q as P1 by (change 1%Q with (inject_Z 1); rewrite <- Zle_Qle; pose proof (Z.pow_pos_nonneg 10 (n - 1) ltac:(lia) ltac:(lia)); lia).
  assert (inject_Z 10 ^ (e - 1) == inject_Z (10 ^ (n - 1)) * (10 * u))%Q as E2 by (replace (e - 1) with ((n - 1) + (e - n)) by lia; rewrite T_add, E1, T_Z by lia; reflexivity).
  assert (inject_Z 10 ^ e == inject_Z (10 ^ n) * (10 * u))%Q as E3 by (replace e with (n + (e - n)) at 1 by lia; rewrite T_add, E1, T_Z by lia; reflexivity).
  assert (inject_Z (10 ^ (n - 1)) <= inject_Z m)%Q as M1 by (rewrite <- Zle_Qle; lia). assert (inject_Z m + 1 <= inject_Z (10 ^ n))%Q as M2 by (change 1%Q with (inject_Z 1); rewrite <- inject_Z_plus, <- Zle_Qle; lia).
  rewrite E1 in D. pose proof D as D'. apply Qabs_Qlt_condition in D' as [D1 D2].
  assert (0 < q)%Q as Q0 by nra.
  assert (q < inject_Z 10 ^ e)%Q as HI by (rewrite E3; nra).
  unfold round_dec. destruct (Z.eqb_spec (Qnum q) 0) as [Z0|_]; [destruct q as [x y]; unfold Qlt in Q0; cbn in *; lia|].
  destruct (Qlt_le_dec q (inject_Z 10 ^ (e - 1))) as [LO|LO].
  - (* below the power of ten *)
    assert (m = 10 ^ (n - 1)) as ->.
    { assert (m < 10 ^ (n - 1) + 1); [|lia]. rewrite Zlt_Qlt, inject_Z_plus. change (inject_Z 1) with 1%Q. rewrite E2 in LO. nra. }
    assert (exp10 q = e - 1) as X.
    { apply exp10_unique; [|exact LO]. replace (e - 1) with ((e - 1 - 1) + 1) in E2 by lia. rewrite T_add in E2. change (inject_Z 10 ^ 1)%Q with 10%Q in E2. nra. }
    rewrite X. replace (n - (e - 1)) with (- (e - n - 1)) by lia.
    assert (rne (q * qpow 10 (- (e - n - 1))) = 10 ^ n) as ->.
    { apply rne_close. rewrite qpow_power by lia. pose proof (T_inv (e - n - 1)) as I. fold u in I. set (w := (inject_Z 10 ^ (- (e - n - 1)))%Q) in *.
      assert (0 < w)%Q by apply T_pos. replace n with (1 + (n - 1)) by lia. rewrite Z.pow_add_r, inject_Z_mult by lia. change (inject_Z (10 ^ 1)) with 10%Q.
      set (t := inject_Z (10 ^ (n - 1))) in *. assert (u * t * w == t)%Q as G by (rewrite <- Qmult_assoc, (Qmult_comm t), Qmult_assoc, I; ring).
      apply Qabs_Qlt_condition. split; nra. }
    rewrite Z.eqb_refl, trim0_power by lia. f_equal. lia.
  - rewrite (exp10_unique q e LO HI). replace (n - e) with (- (e - n)) by lia.
    assert (rne (q * qpow 10 (- (e - n))) = m) as ->.
    { apply rne_close. rewrite qpow_power by lia. pose proof (T_inv (e - n)) as I. rewrite E1 in I. set (w := (inject_Z 10 ^ (- (e - n)))%Q) in *.
      assert (0 < w)%Q by apply T_pos. apply Qabs_Qlt_condition. split; nra. }
    destruct (Z.eqb_spec m (10 ^ n)); [lia|reflexivity].
Qed.
Lemma round_dec_form n q : 1 <= n -> (0 < q)%Q -> exists m e, 10 ^ (n - 1) <= m < 10 ^ n /\ round_dec n q = mkDec (trim0 (format_nat 10 m)) e /\ (dval (round_dec n q) == inject_Z m * inject_Z 10 ^ (e - n))%Q.
Proof.
  intros N H. destruct (round_dec_spec n q N H) as (_ & _ & _ & V). revert V. unfold round_dec. destruct (Z.eqb_spec (Qnum q) 0) as [Z0|_]; [destruct q as [a b]; unfold Qlt in H; cbn in *; lia|].
  destruct (exp10_spec q H) as [L U]. set (e := exp10 q) in *. set (m := rne (q * qpow 10 (n - e))).
  assert (q * qpow 10 (n - e) == q * inject_Z 10 ^ (n - e))%Q as EX by (rewrite qpow_power by lia; reflexivity).
  pose proof (T_pos (n - e)) as P.
  assert (10 ^ (n - 1) <= m <= 10 ^ n) as M.
  { rewrite <- (rne_Z (inject_Z 10 ^ (n - 1)) (10 ^ (n - 1))) at 1 by (apply T_Z; lia). rewrite <- (rne_Z (inject_Z 10 ^ n) (10 ^ n)) by (apply T_Z; lia).
    unfold m. rewrite (rne_compat _ _ EX). split; apply rne_mono.
    - replace (n - 1) with ((e - 1) + (n - e)) by lia. rewrite T_add. nra.
    - replace n with (e + (n - e)) at 2 by lia. rewrite T_add. nra. }
  destruct (Z.eqb_spec m (10 ^ n)) as [EM|NM]; cbn zeta; intros V.
  - exists (10 ^ (n - 1)), (e + 1). split; [split; [lia|apply Z.pow_lt_mono_r; lia]|]. rewrite trim0_power by lia. split; [reflexivity|]. rewrite V, EM, <- !T_Z, <- !T_add by lia. replace (n - 1 + (e + 1 - n)) with (n + (e - n)) by lia. reflexivity.
  - exists m, e. split; [lia|]. split; [reflexivity|exact V].
Qed.
Lemma round_dec_again n P q x : 1 <= n -> 2 * 10 ^ (n + 1) < 2 ^ P -> (0 < q)%Q -> (Qabs (x - dval (round_dec n q)) <= dval (round_dec n q) * pow2 (- P))%Q -> round_dec n x = round_dec n q.
Proof.
  intros N HP H D. destruct (round_dec_form n q N H) as (m & e & M & E & V). rewrite E. apply round_dec_near; [exact N|exact M|].
  rewrite V in D. eapply Qle_lt_trans; [exact D|]. clear D V E.
  assert (0 <= P) as P0. { destruct (Z.lt_ge_cases P 0) as [L|L]; [|exact L]. rewrite (Z.pow_neg_r 2 P) in HP by lia. pose proof (Z.pow_pos_nonneg 10 (n + 1) ltac:(lia) ltac:(lia)). lia. }
  pose proof (T_pos (e - n - 1)) as P1. set (u := (inject_Z 10 ^ (e - n - 1))%Q) in *.
  assert (inject_Z 10 ^ (e - n) == 10 * u)%Q as -> by (replace (e - n) with ((e - n - 1) + 1) by lia; rewrite T_add; change (inject_Z 10 ^ 1)%Q with 10%Q; fold u; ring).
  pose proof (pow2_opp P) as I. rewrite (pow2_Z P P0) in I. pose proof (pow2_pos (- P)) as W0. set (w := pow2 (- P)) in *.
  assert (inject_Z m < inject_Z (10 ^ n))%Q as M1 by (rewrite <- Zlt_Qlt; lia). rewrite Zlt_Qlt in HP. rewrite Z.pow_add_r, !inject_Z_mult in HP by lia. change (inject_Z 2) with 2%Q in HP. change (inject_Z (10 ^ 1)) with 10%Q in HP.
  set (t := inject_Z (10 ^ n)) in *. assert (0 < t)%Q by (unfold t; rewrite (Zlt_Qlt 0 (10 ^ n)) || idtac; change 0%Q with (inject_Z 0); rewrite <- Zlt_Qlt; apply Z.pow_pos_nonneg; lia).
  set (b := inject_Z (2 ^ P)) in *. assert (20 * t * w < 1)%Q as K by nra.
  assert (inject_Z m * w <= t * w)%Q by nra. nra.
Qed.
Lemma sign_near q x e : (0 <= e)%Q -> (e < 1)%Q -> ~ (q == 0)%Q -> (Qabs (x - q) <= Qabs q * e)%Q -> (Qnum x <? 0) = (Qnum q <? 0) /\ ~ (x == 0)%Q.
Proof.
  intros E0 E1 Q0 H. assert (forall z, (Qnum z <? 0) = true <-> (z < 0)%Q) as S by (intros [a b]; unfold Qlt; cbn [Qnum Qden]; split; intros; lia).
  apply Qabs_Qle_condition in H. destruct (Qlt_le_dec q 0) as [L|L].
  - rewrite (Qabs_neg q) in H by lra. assert (0 < - q * (1 - e))%Q by (apply Qmult_lt_0_compat; lra). assert (x < 0)%Q by lra. split; [|lra]. rewrite (proj2 (S x)), (proj2 (S q)) by assumption. reflexivity.
  - rewrite (Qabs_pos q) in H by lra. assert (0 < q)%Q by (destruct (Qlt_le_dec 0 q); [assumption|exfalso; apply Q0; lra]). assert (0 < q * (1 - e))%Q by (apply Qmult_lt_0_compat; lra). assert (0 < x)%Q by lra. split; [|lra].
    destruct (Qnum x <? 0) eqn:A; [apply S in A; lra|]. destruct (Qnum q <? 0) eqn:B; [apply S in B; lra|reflexivity].
Qed.
Theorem shown_again format n P q t : digits_format format n -> 2 * 10 ^ (n + 1) < 2 ^ P -> ~ (q == 0)%Q -> moderate q -> print_float format q = Ok t ->
  forall base, base = 0 \/ base = 10 -> exists v x, parse_num base t = Ok v /\ to_float P (Ex v) = Ok x /\ print_float format x = Ok t.
Proof.
  intros F HP Q0 MQ PF base Hb. destruct (shown_digits' format n q t F Q0 PF) as (y & Y0 & _ & ND & _ & G). destruct (G base Hb) as (v & z & PV & V & NV & Z).
  destruct (digits_format_text _ _ F) as (N & ch & C & T). rewrite T in PF. apply limited in PF as [_ ->].
  assert (2 <= P) as P1. { destruct (Z.lt_ge_cases P 2) as [L|L]; [|lia]. pose proof (Z.pow_le_mono_r 2 P 1 ltac:(lia) ltac:(lia)). pose proof (Z.pow_pos_nonneg 10 (n + 1) ltac:(lia) ltac:(lia)). lia. }
  assert (to_float P (Ex v) = Ok (rnd P z)) as TF by (destruct v; cbn in NV; try discriminate; injection NV as <-; reflexivity).
  exists v, (rnd P z). split; [exact PV|]. split; [exact TF|].
  pose proof (abs_pos q Q0) as A. destruct ND as (e & k & [L U] & _ & DY & _).
  destruct (round_dec_spec n _ ltac:(lia) A) as (GD & _). set (d := round_dec n (Qabs q)) in *. destruct (dval_range d GD) as [R1 _]. pose proof (T_pos (dexp d - 1)) as R0.
  assert (Qabs y == dval d)%Q as AY by (apply (abs_signed (Qnum q <? 0)); [lra|exact Y0]).
  assert (~ (y == 0)%Q) as Y1 by (intros E; rewrite E in AY; change (Qabs 0) with 0%Q in AY; lra).
  pose proof (rnd_error P z) as ER. set (x := rnd P z) in *. rewrite Z in ER. pose proof (pow2_pos (- P)) as W0. assert (pow2 (- P) <= 1 # 4)%Q as W1 by (eapply Qle_trans; [apply (pow2_le (- P) (-2)); lia|vm_compute; discriminate]).
  destruct (sign_near y x (pow2 (- P)) ltac:(lra) ltac:(lra) Y1 ER) as [SX X0].
  assert (forall b r, (0 < r)%Q -> (Qnum (sgq b * r) <? 0) = b) as SG. { intros [|] [a b] R; unfold Qlt in R; cbn in R; cbn [sgq Qmult Qnum]; lia. }
  assert (forall a b, (a == b)%Q -> (Qnum a <? 0) = (Qnum b <? 0)) as SE. { intros [a1 a2] [b1 b2] E. unfold Qeq in E. cbn [Qnum Qden] in *. nia. }
  assert ((Qnum y <? 0) = (Qnum q <? 0)) as SY by (rewrite (SE _ _ Y0); apply SG; lra).
  assert (Qabs (Qabs x - dval d) <= dval d * pow2 (- P))%Q as NX.
  { rewrite <- AY. eapply Qle_trans; [|exact ER]. apply Qabs_Qle_condition. pose proof (Qabs_triangle_reverse x y) as T1. pose proof (Qabs_triangle_reverse y x) as T2. rewrite (Qabs_Qminus y x) in T2. lra. }
  assert (round_dec n (Qabs x) = d) as RD by (apply (round_dec_again n P); [lia|exact HP|exact A|exact NX]).
  assert (Z.abs (snd (mant_exp x)) <= 10000) as MX.
  { destruct MQ as [M1 M2]. change (inject_Z 2) with 2%Q in M1, M2. rewrite <- pow2_spec in M1, M2. apply Qabs_Qle_condition in NX.
    assert (Qabs (y - q) <= (1 # 2) * Qabs q)%Q as DQ. { eapply Qle_trans; [exact DY|]. pose proof (T_mono (e - n) (e - 1) ltac:(lia)). lra. }
    pose proof (Qabs_triangle_reverse y q) as T1. pose proof (Qabs_triangle_reverse q y) as T2. rewrite (Qabs_Qminus q y) in T2. rewrite AY in T1, T2.
    assert (0 <= dval d)%Q as D0 by lra. assert (dval d * pow2 (- P) <= dval d * (1 # 4))%Q as DW by (rewrite !(Qmult_comm (dval d)); apply Qmult_le_compat_r; assumption).
    assert (pow2 (-9990) == 4 * pow2 (-9992))%Q as Q1 by reflexivity. assert (pow2 9992 == 4 * pow2 9990)%Q as Q2 by reflexivity.
    assert (Z.abs (snd (mant_exp x)) <= 9992); [|lia]. apply moderate_within; [lia| |].
    - change (- (9992)) with (-9992). clear - M1 NX DQ T1 T2 D0 DW Q1 A. generalize dependent (pow2 (-9992)). intros a Q1. generalize dependent (pow2 (-9990)). intros. lra.
    - clear - M2 NX DQ T1 T2 D0 DW Q2 A. generalize dependent (pow2 9992). intros a Q2. generalize dependent (pow2 9990). intros. lra. }
  rewrite T. destruct (Z.ltb_spec 10000 (Z.abs (snd (mant_exp x)))); [lia|]. rewrite RD, SX, SY. reflexivity.
Qed.

(* ---- the digits themselves ---- *)
Lemma trim0_last t : trim0 t = [] \/ List.last (trim0 t) 48 <> 48.
Proof.
  induction t as [|r t IH]; [left; reflexivity|]. cbn [trim0]. destruct (trim0 t) as [|x u].
  - destruct (Z.eqb_spec r 48); [left; reflexivity|right; exact n].
  - right. destruct IH as [C|C]; [discriminate|]. exact C.
Qed.
Lemma last_app_ne {A} (a b : list A) d : b <> [] -> List.last (a ++ b) d = List.last b d.
Proof. intros H. induction a as [|x a IH]; [reflexivity|]. cbn [app]. destruct (a ++ b) eqn:E; [apply app_eq_nil in E as [_ E]; contradiction|]. rewrite <- E in IH |- *. cbn [List.last]. rewrite E. rewrite E in IH. exact IH. Qed.
Lemma zeros_0 n : n <= 0 -> zeros n = [].
Proof. intros H. unfold zeros. replace (Z.to_nat n) with O by lia. reflexivity. Qed.
Lemma fmt_e_length n neg ch d : (ch = 101 \/ ch = 69) -> good d -> 0 <= n -> Z.of_nat (length (dmant d)) - 1 <= n -> one_and n (signed_dec neg (fmt_e ch n d)).
Proof.
  intros C (c & r & E & _ & D) N L. rewrite E in *. cbn [length] in L. inversion D as [|? ? Dc Dr]; subst. unfold fmt_e. rewrite E. cbn [hd tl].
  set (x := pad_left 2 (format_nat 10 (Z.abs (dexp d - 1)))). destruct (format_nat_digits (Z.abs (dexp d - 1)) ltac:(lia)) as [Dx Nx].
  assert (digits x) as D1 by (apply Forall_app; split; [apply zeros_digits|exact Dx]).
  assert ((2 <= length x)%nat) as L2. { unfold x, pad_left. rewrite app_length. pose proof (zeros_length (2 - Z.of_nat (length (format_nat 10 (Z.abs (dexp d - 1)))))) as ZL. lia. }
  exists (if neg then [45] else []), c, (firstn (Z.to_nat n) (r ++ zeros n)), ch, (if dexp d - 1 <? 0 then 45 else 43), x.
  split; [unfold signed_dec; destruct neg; destruct (0 <? n); reflexivity|]. split; [destruct neg; auto|]. split; [constructor; [exact Dc|constructor]|].
  split; [apply Forall_firstn', Forall_app; split; [exact Dr|apply zeros_digits]|]. split; [rewrite firstn_pad, app_length, Nat2Z.inj_add, zeros_length by lia; lia|].
  split; [exact C|]. split; [destruct (dexp d - 1 <? 0); auto|]. split; assumption.
Qed.
Lemma digits_no_point l : digits l -> ~ In 46 l.
Proof. intros D I. unfold digits in D. rewrite Forall_forall in D. apply D in I. lia. Qed.
Lemma fmt_g_trimmed neg ch n d : (ch = 101 \/ ch = 69) -> good d -> Z.of_nat (length (dmant d)) <= n -> List.last (dmant d) 48 <> 48 -> trimmed (signed_dec neg (fmt_g ch n d)).
Proof.
  intros C (c & r & E & _ & D) L La. assert (1 <= Z.of_nat (length (dmant d))) as L1 by (rewrite E; cbn [length]; lia).
  assert (forall l, ~ In 46 l -> ~ In 46 (signed_dec neg l)) as SI by (intros l H I; apply signed_in in I; [contradiction|lia]).
  assert (forall u v, signed_dec neg (u ++ v) = signed_dec neg u ++ v) as SA by (intros; unfold signed_dec; destruct neg; reflexivity).
  unfold fmt_g. set (len := Z.of_nat (length (dmant d))) in *. set (t1 := (dexp d - 1 <? -4) || _).
  assert (t1 = (dexp d - 1 <? -4) || (n <=? dexp d - 1)) as E1.
  { unfold t1. f_equal. destruct ((len <? n) && (dexp d <=? len)) eqn:X; [|reflexivity]. lia. }
  destruct t1.
  - assert ((if len <? n then len else n) - 1 = len - 1) as -> by (destruct (Z.ltb_spec len n); lia). unfold fmt_e. rewrite E. cbn [hd tl]. rewrite E in D. inversion D as [|? ? Dc Dr]; subst.
    destruct (format_nat_digits (Z.abs (dexp d - 1)) ltac:(lia)) as [Dx _]. set (x := pad_left 2 (format_nat 10 (Z.abs (dexp d - 1)))).
    assert (digits x) as D1 by (apply Forall_app; split; [apply zeros_digits|exact Dx]).
    assert (len = 1 + Z.of_nat (length r)) as Er by (unfold len; rewrite E; cbn [length]; lia).
    destruct (Z.ltb_spec 0 (len - 1)) as [H|H].
    + right. exists (signed_dec neg [c]), r, ([ch; if dexp d - 1 <? 0 then 45 else 43] ++ x). rewrite firstn_pad, zeros_0, app_nil_r by lia.
      split; [unfold signed_dec; destruct neg; reflexivity|]. split; [apply SI, digits_no_point; constructor; [exact Dc|constructor]|]. split; [exact Dr|].
      split; [intros ->; cbn [length] in *; lia|]. split; [|right; eexists _, _; split; [reflexivity|exact C]]. rewrite E in La. change (c :: r) with ([c] ++ r) in La. rewrite last_app_ne in La by (intros ->; cbn [length] in *; lia). exact La.
    + left. apply SI. intros I. cbn [app] in I. destruct I as [I|[I|[I|I]]]; [lia|lia|destruct (dexp d - 1 <? 0); lia|]. exact (digits_no_point x D1 I).
  - assert (dexp d < n \/ dexp d = n) as [H|H] by lia.
    + replace (dexp d <? n) with true by lia. unfold fmt_fixed. destruct (Z.ltb_spec 0 (Z.max (len - dexp d) 0)) as [P|P].
      * right. set (a := if 0 <? dexp d then _ else [48]).
        assert (digits a) as Da by (unfold a; destruct (0 <? dexp d); [apply Forall_firstn', Forall_app; split; [exact D|apply zeros_digits]|constructor; [lia|constructor]]).
        set (f := firstn _ _). assert (exists p, f = skipn (Z.to_nat (dexp d)) (zeros (- dexp d) ++ dmant d) /\ p ++ f = zeros (- dexp d) ++ dmant d) as (p & Ef & Ep).
        { exists (firstn (Z.to_nat (dexp d)) (zeros (- dexp d) ++ dmant d)). assert (f = skipn (Z.to_nat (dexp d)) (zeros (- dexp d) ++ dmant d)) as Ef.
          { unfold f. rewrite firstn_pad by (rewrite skipn_length, app_length; pose proof (zeros_length (- dexp d)); lia). match goal with |- _ ++ zeros ?k = _ => rewrite (zeros_0 k), app_nil_r; [reflexivity|] end. rewrite skipn_length, app_length. pose proof (zeros_length (- dexp d)). lia. }
          split; [exact Ef|]. rewrite Ef. apply firstn_skipn. }
        assert (f <> []) as Nf. { intros X. assert (length f = O) as Y by (rewrite X; reflexivity). rewrite Ef, skipn_length, app_length in Y. pose proof (zeros_length (- dexp d)). lia. }
        exists (signed_dec neg a), f, []. split; [rewrite SA, app_nil_r; reflexivity|]. split; [apply SI, digits_no_point, Da|]. split; [rewrite Ef; apply Forall_skipn', Forall_app; split; [apply zeros_digits|exact D]|].
        split; [exact Nf|]. split; [|left; reflexivity]. rewrite <- (last_app_ne p f 48 Nf), Ep, last_app_ne by (rewrite E; discriminate). exact La.
      * left. apply SI. rewrite app_nil_r. apply digits_no_point. destruct (0 <? dexp d); [apply Forall_firstn', Forall_app; split; [exact D|apply zeros_digits]|constructor; [lia|constructor]].
    + left. apply SI. replace (dexp d <? n) with false by lia. replace (Z.max (n - dexp d) 0) with 0 by lia. unfold fmt_fixed. change (0 <? 0) with false. cbv iota. rewrite app_nil_r. apply digits_no_point.
      destruct (0 <? dexp d); [apply Forall_firstn', Forall_app; split; [exact D|apply zeros_digits]|constructor; [lia|constructor]].
Qed.
Theorem shown_trimmed format n q t : digits_format format n -> ~ (q == 0)%Q -> print_float format q = Ok t -> trimmed t.
Proof.
  intros F Q0 P. destruct (digits_format_text _ _ F) as (N & ch & C & T). rewrite T in P. apply limited in P as [_ ->]. pose proof (abs_pos q Q0) as A.
  destruct (round_dec_spec n _ ltac:(lia) A) as (G & L & _). apply fmt_g_trimmed; [exact C|exact G|exact L|].
  destruct (round_dec_form n _ ltac:(lia) A) as (m & e & _ & E & _). rewrite E. cbn [dmant]. destruct G as (c & r & Em & _). rewrite E in Em. cbn [dmant] in Em. destruct (trim0_last (format_nat 10 m)) as [Z|Z]; [rewrite Z in Em; discriminate|exact Z].
Qed.
Theorem shown_one_and format n q t : exponent_format format n -> ~ (q == 0)%Q -> print_float format q = Ok t -> one_and n t.
Proof.
  intros F Q0 P. destruct (exponent_format_text _ _ F) as (N & ch & C & T). rewrite T in P. apply limited in P as [_ ->]. pose proof (abs_pos q Q0) as A.
  destruct (round_dec_spec (1 + n) _ ltac:(lia) A) as (G & L & _). apply fmt_e_length; [exact C|exact G|lia|lia].
Qed.

From Coq Require Import QArith Qabs Qpower Lqa Lia ZifyBool.
From Verif Require Import Value NumModel NumSpec NumProofs ScanModel TextModel TextSpec TextProofs TextNum FloatModel FloatProofs FloatMono FloatSign TimeModel MixModel FmtModel FmtSpec FmtProofs FmtText FTextModel FTextSpec FTextProofs FTextDigits FTextShow EFmtModel EFmtSpec EFmtProofs EFmtRat.
Open Scope list_scope.
Open Scope Z_scope.

Lemma signed_cat neg u : signed_dec neg u = (if neg then [45] else []) ++ u.
Proof. unfold signed_dec. destruct neg; reflexivity. Qed.
Lemma format_int_signed z : format_int 10 z = signed_dec (z <? 0) (format_nat 10 (Z.abs z)).
Proof. unfold format_int, signed_dec. destruct (Z.ltb_spec z 0); [f_equal; f_equal; lia|f_equal; lia]. Qed.
(* ---- fixed ---- *)
Lemma print_fixed format n v : fixed_format format n -> exists verb, (verb = 102 \/ verb = 70) /\ 0 <= n <= 800000 /\ print_exact format v = exact_text verb n v.
Proof. intros (w & W & N & ->). exists w. split; [exact W|]. split; [exact N|]. unfold print_exact. rewrite set_format_is; [reflexivity|lia|]. destruct W as [-> | ->]; cbn [In]; tauto. Qed.
Lemma print_exponent format n v : exponent_format format n -> exists verb, (verb = 101 \/ verb = 69) /\ 0 <= n <= 800000 /\ print_exact format v = exact_text verb n v.
Proof. intros (w & W & N & ->). exists w. split; [exact W|]. split; [exact N|]. unfold print_exact. rewrite set_format_is; [reflexivity|lia|]. destruct W as [-> | ->]; cbn [In]; tauto. Qed.
Lemma print_general format n v : general_format format n -> exists verb, (verb = 101 \/ verb = 69) /\ 1 <= n <= 800000 /\ print_exact format v = exact_text (verb + 2) n v.
Proof. intros (w & W & N & ->). exists (w - 2). split; [lia|]. split; [exact N|]. unfold print_exact. rewrite set_format_is; [replace (w - 2 + 2) with w by lia; reflexivity|lia|]. destruct W as [-> | ->]; cbn [In]; tauto. Qed.
Lemma int_fixed n z : 0 <= n -> exists t y, format_int 10 z ++ (if 0 <? n then 46 :: zeros n else []) = (if z <? 0 then [45] else []) ++ t /\ fixed n t y /\ (y == inject_Z (Z.abs z))%Q.
Proof.
  intros N. rewrite format_int_signed, signed_cat, <- app_assoc. destruct (format_nat_digits (Z.abs z) ltac:(lia)) as [D NE].
  exists (format_nat 10 (Z.abs z) ++ (if 0 <? n then 46 :: zeros n else [])), (inject_Z (Z.abs z)). split; [reflexivity|]. split; [|reflexivity].
  exists (format_nat 10 (Z.abs z)), (zeros n). split; [reflexivity|]. split; [exact NE|]. split; [exact D|]. split; [apply zeros_digits|]. split; [rewrite zeros_length; lia|].
  rewrite format_nat_whole, fraction_eq by lia. pose proof (zeros_whole n []) as H. rewrite app_nil_r in H. rewrite H. cbn [whole]. change (inject_Z 0) with 0%Q. ring.
Qed.
Lemma float_string_fixed n x : 0 <= n -> (0 <= x)%Q -> exists y, fixed n (float_string n x) y /\ (Qabs (y - x) <= 1 / (2 * inject_Z (10 ^ n)))%Q.
Proof.
  intros N X. destruct (float_string_parts n x N X) as (m & f & Em & Mp & FS & Df & Lf & W). pose proof (Z.pow_pos_nonneg 10 n ltac:(lia) N) as T. destruct (format_nat_digits (m / 10 ^ n) ltac:(apply Z.div_pos; lia)) as [D NE].
  exists (inject_Z m * inject_Z 10 ^ (- n))%Q. split.
  - exists (format_nat 10 (m / 10 ^ n)), f. rewrite point_value, W, Lf. auto 7 using Qeq_refl.
  - assert (TQ : (0 < inject_Z (10 ^ n))%Q) by (change 0%Q with (inject_Z 0); rewrite <-Zlt_Qlt; exact T). destruct (half_up_half (x * inject_Z (10 ^ n))) as [H1 H2]. rewrite <- Em in H1, H2.
    pose proof (T_inv n) as TI. rewrite (T_Z n) in TI by lia. set (i := (inject_Z 10 ^ (- n))%Q) in *. pose proof (T_pos (- n)) as IP. fold i in IP. set (p := inject_Z (10 ^ n)) in *.
    setoid_replace (1 / (2 * p))%Q with ((1 # 2) * i)%Q by (rewrite <- TI; field; lra). setoid_replace (inject_Z m * i - x)%Q with ((inject_Z m - x * p) * i)%Q.
    + rewrite Qabs_Qmult, (Qabs_pos i) by lra. apply Qmult_le_compat_r; [|lra]. apply Qabs_Qle_condition. lra.
    + setoid_replace x with (x * (p * i))%Q at 1 by (rewrite TI; ring). ring.
Qed.
Theorem shown_fixed format n v x : fixed_format format n -> valid v -> numval v = Some x ->
  exists s t y, print_exact format v = Ok (s ++ t) /\ minus_sign x s /\ fixed n t y /\ (Qabs (y - Qabs x) <= 1 / (2 * inject_Z (10 ^ n)))%Q /\ (intval v <> None -> y == Qabs x)%Q.
Proof.
  intros F VA NV. destruct (print_fixed format n v F) as (verb & V & N & P). rewrite P. clear P.
  assert (forall z, exists t y, Ok (format_int 10 z ++ (if 0 <? n then 46 :: zeros n else [])) = Ok ((if z <? 0 then [45] else []) ++ t) /\ fixed n t y /\ (Qabs (y - Qabs (inject_Z z)) <= 1 / (2 * inject_Z (10 ^ n)))%Q /\ (y == Qabs (inject_Z z))%Q) as I.
  { intros z. destruct (int_fixed n z ltac:(lia)) as (t & y & E & FX & Y). exists t, y. rewrite E. split; [reflexivity|]. split; [exact FX|]. change (Qabs (inject_Z z)) with (inject_Z (Z.abs z)). split; [|exact Y]. rewrite Y. setoid_replace (inject_Z (Z.abs z) - inject_Z (Z.abs z))%Q with 0%Q by ring.
    pose proof (Z.pow_pos_nonneg 10 n ltac:(lia) ltac:(lia)) as T. assert (TQ : (0 < inject_Z (10 ^ n))%Q) by (change 0%Q with (inject_Z 0); rewrite <-Zlt_Qlt; exact T). change (Qabs 0) with 0%Q. apply Qle_shift_div_l; lra. }
  destruct v as [z|z|z|q|a b|l|sh l]; try discriminate; cbn [exact_text valid] in *; injection NV as <-.
  - destruct (I z) as (t & y & E & FX & A & B). exists (if z <? 0 then [45] else []), t, y. split; [unfold int_text; destruct V as [-> | ->]; exact E|]. split; [exact (sign_spec (inject_Z z))|]. auto.
  - destruct (I z) as (t & y & E & FX & A & B). exists (if z <? 0 then [45] else []), t, y. split; [unfold big_text; destruct V as [-> | ->]; exact E|]. split; [exact (sign_spec (inject_Z z))|]. auto.
  - destruct (float_string_fixed n (Qabs q) ltac:(lia) (Qabs_nonneg q)) as (y & FX & A). exists (if Qnum q <? 0 then [45] else []), (float_string n (Qabs q)), y. split; [unfold rat_text; destruct V as [-> | ->]; cbn [Z.eqb Pos.eqb orb]; rewrite minus_signed, signed_cat; reflexivity|].
    split; [apply sign_spec|]. split; [exact FX|]. split; [exact A|]. intros C. exfalso. apply C. reflexivity.
Qed.
(* ---- integers ---- *)
Lemma sized_bound z e : 0 <= e -> 10 ^ e <= Z.abs z < 10 ^ (e + 1) -> sized (inject_Z z) -> e < 80000.
Proof. intros E B (e0 & M & L). pose proof (magnitude_unique _ _ _ M (magnitude_Z z e E B)). lia. Qed.
Theorem shown_integer_e format n v z : exponent_format format n -> intval v = Some z -> z <> 0 -> sized (inject_Z z) ->
  exists t y, print_exact format v = Ok t /\ decimal_text t y /\ one_and n t /\ cut_after (n + 1) (inject_Z z) y.
Proof.
  intros F IV Z0 SZ. destruct (print_exponent format n v F) as (verb & V & N & P). rewrite P. clear P.
  destruct (int_exponent_spec z Z0) as [B1 E1], (big_exponent_spec z Z0) as [B2 E2]. pose proof (sized_bound z _ E1 B1 SZ) as L1. pose proof (sized_bound z _ E2 B2 SZ) as L2.
  destruct v as [w|w|w|w|a b|l|sh l]; try discriminate; injection IV as ->; cbn [exact_text].
  - destruct (int_e_shown verb n z _ V N Z0 L1 B1 E1) as (t & t' & y & y' & T & _ & D & _ & O & _ & _ & _ & _ & C). exists t, y. split; [unfold int_text; destruct V as [-> | ->]; exact T|]. auto.
  - destruct (int_e_shown verb n z _ V N Z0 L2 B2 E2) as (t & t' & y & y' & T & _ & D & _ & O & _ & _ & _ & _ & C). exists t, y. split; [unfold big_text; destruct V as [-> | ->]; exact T|]. auto.
Qed.
Theorem shown_integer_g format n v z : general_format format n -> intval v = Some z -> Z.abs z < 10 ^ n -> print_exact format v = Ok (format_int 10 z).
Proof.
  intros F IV L. destruct (print_general format n v F) as (verb & V & N & P). rewrite P. clear P.
  assert (n <=? int_exponent z = false /\ n <=? big_exponent z = false) as [L1 L2].
  { destruct (Z.eq_dec z 0) as [-> |Z0]; [change (int_exponent 0) with 0; change (big_exponent 0) with 0; lia|].
    destruct (int_exponent_spec z Z0) as [B1 E1], (big_exponent_spec z Z0) as [B2 E2]. split; apply Z.leb_gt; apply (Z.pow_lt_mono_r_iff 10); lia. }
  destruct v as [w|w|w|w|a b|l|sh l]; try discriminate; injection IV as ->; cbn [exact_text]; unfold int_text, big_text; rewrite ?L1, ?L2; destruct V as [-> | ->]; reflexivity.
Qed.
Theorem shown_integer_g_large format n v z : general_format format n -> intval v = Some z -> 10 ^ n <= Z.abs z -> sized (inject_Z z) ->
  exists t y, print_exact format v = Ok t /\ decimal_text t y /\ scientific t /\ cut_after n (inject_Z z) y /\ match v with VInt _ => one_and (n - 1) t | _ => trimmed t end.
Proof.
  intros F IV L SZ. destruct (print_general format n v F) as (verb & V & N & P). rewrite P. clear P. pose proof (Z.pow_pos_nonneg 10 n ltac:(lia) ltac:(lia)) as T0. assert (z <> 0) as Z0 by lia.
  destruct (int_exponent_spec z Z0) as [B1 E1], (big_exponent_spec z Z0) as [B2 E2]. pose proof (sized_bound z _ E1 B1 SZ) as L1. pose proof (sized_bound z _ E2 B2 SZ) as L2.
  assert (n <=? int_exponent z = true /\ n <=? big_exponent z = true) as [G1 G2].
  { split; apply Z.leb_le; [assert (n < int_exponent z + 1); [|lia]|assert (n < big_exponent z + 1); [|lia]]; apply (Z.pow_lt_mono_r_iff 10); lia. }
  assert (forall t, In verb t -> scientific t) as SC by (intros t I; unfold scientific; destruct V as [-> | ->]; auto).
  destruct v as [w|w|w|w|a b|l|sh l]; try discriminate; injection IV as ->; cbn [exact_text].
  - destruct (int_e_shown verb (n - 1) z _ V ltac:(lia) Z0 L1 B1 E1) as (t & t' & y & y' & T & _ & D & _ & O & _ & I & _ & _ & C). exists t, y. replace (n - 1 + 1) with n in C by lia. split; [|auto].
    unfold int_text. rewrite G1. replace (verb + 2 - 2) with verb by lia. destruct V as [-> | ->]; exact T.
  - destruct (int_e_shown verb (n - 1) z _ V ltac:(lia) Z0 L2 B2 E2) as (t & t' & y & y' & T & T' & _ & D & _ & TR & _ & I & YY & C). exists t', y'. replace (n - 1 + 1) with n in C by lia. split; [|split; [exact D|]; split; [auto|]; split; [exact (cut_compat _ _ _ _ YY C)|exact TR]].
    unfold big_text. rewrite G2. replace (verb + 2 - 2) with verb by lia. rewrite T. cbn [bind]. destruct V as [-> | ->]; exact T'.
Qed.
(* ---- fractions ---- *)
Lemma about_compat n q y y' : (y' == y)%Q -> about n q y -> about n q y'.
Proof. intros E (e & k & M & A & B). exists e, k. split; [exact M|]. rewrite !E. auto. Qed.
Lemma rat_text_e verb n q : (verb = 101 \/ verb = 69) -> rat_text verb n q = rat_e verb n q.
Proof. intros [-> | ->]; unfold rat_text, rat_e; cbv zeta; cbn [Z.eqb Pos.eqb orb]; reflexivity. Qed.
Lemma rat_text_far verb n q : (verb = 101 \/ verb = 69) -> (rat_exponent q <? -4) || (n <=? rat_exponent q) = true -> rat_text (verb + 2) n q = let! t := rat_e verb (n - 1) q in trim_e verb t.
Proof. intros V G. unfold rat_text. cbv zeta. rewrite G. unfold rat_e. cbv zeta. destruct V as [-> | ->]; cbn [Z.eqb Pos.eqb orb Z.add Pos.add Pos.succ Z.sub Z.opp Z.pos_sub Z.pred_double Z.succ_double Z.double Pos.pred_double]; reflexivity. Qed.
Lemma rat_text_near verb n q : (verb = 101 \/ verb = 69) -> (rat_exponent q <? -4) || (n <=? rat_exponent q) = false -> rat_text (verb + 2) n q =
  let str := EFmtModel.minus (Qnum q <? 0) (float_string (n - rat_exponent q - 1) (Qabs q)) in
  match index 46 str with Some (S _) => let! t := strip0 str in Ok (no_point t) | _ => Ok str end.
Proof. intros V G. unfold rat_text. cbv zeta. rewrite G. destruct V as [-> | ->]; cbn [Z.eqb Pos.eqb orb Z.add Pos.add Pos.succ]; reflexivity. Qed.
Theorem shown_rational_e format n q : exponent_format format n -> valid (VRat q) -> not_billionth q -> stays_below (n + 2) q -> sized q ->
  exists t y, print_exact format (VRat q) = Ok t /\ decimal_text t y /\ one_and n t /\ about (n + 1) q y.
Proof.
  intros F [R D] NB SB SZ. destruct (print_exponent format n (VRat q) F) as (verb & V & N & P). rewrite P. clear P.
  destruct (rat_e_shown verb n q V N R D NB SB SZ) as (t & t' & y & y' & T & _ & DT & _ & O & _ & _ & _ & _ & C). exists t, y. split; [|auto]. cbn [exact_text]. rewrite rat_text_e by exact V. exact T.
Qed.
Theorem shown_rational_g_far format n q : general_format format n -> valid (VRat q) -> (Qabs q < 1 # 10000)%Q \/ (inject_Z 10 ^ n <= Qabs q)%Q -> not_billionth q -> stays_below (n + 1) q -> sized q ->
  exists t y, print_exact format (VRat q) = Ok t /\ decimal_text t y /\ scientific t /\ trimmed t /\ about n q y.
Proof.
  intros F [R D] FA NB SB SZ. destruct (print_general format n (VRat q) F) as (verb & V & N & P). rewrite P. clear P. replace (n + 1) with (n - 1 + 2) in SB by lia.
  destruct (rat_e_shown verb (n - 1) q V ltac:(lia) R D NB SB SZ) as (t & t' & y & y' & T & T' & _ & DT & _ & TR & _ & I & YY & C). exists t', y'. replace (n - 1 + 1) with n in C by lia.
  split; [|split; [exact DT|]; split; [unfold scientific; destruct V as [-> | ->]; auto|]; split; [exact TR|exact (about_compat _ _ _ _ YY C)]].
  cbn [exact_text]. destruct (rat_exponent_spec q R D NB) as [M1 M2]. replace (rat_exponent q + 1 - 1) with (rat_exponent q) in M1 by lia.
  assert ((rat_exponent q <? -4) || (n <=? rat_exponent q) = true) as G.
  { destruct FA as [A|A]; apply orb_true_iff; [left; apply Z.ltb_lt|right; apply Z.leb_le; assert (n < rat_exponent q + 1); [|lia]]; apply T_lt_inv; [change (inject_Z 10 ^ -4)%Q with (1 # 10000)%Q|]; lra. }
  rewrite rat_text_far, T by assumption. exact T'.
Qed.
(* the value of digits with a point *)
Lemma pointed_value (neg : bool) i f : digits i -> i <> [] -> digits f -> Z.of_nat (length f) <= 900000 ->
  exists y, decimal_text (signed_dec neg (pointed i f)) y /\ (y == sgq neg * (inject_Z (whole (i ++ f) 0) * inject_Z 10 ^ (- Z.of_nat (length f))))%Q.
Proof.
  intros Di Ni Df Lf. exists (inject_Z (if neg then -1 else 1) * (inject_Z (whole i 0) + fraction f) * inject_Z 10 ^ 0)%Q. split.
  - exists (if neg then [45] else []), (if neg then -1 else 1), (pointed i f), (Z.of_nat (length f)), (inject_Z (whole i 0) + fraction f)%Q, [], 10, 0.
    split; [rewrite app_nil_r; apply signed_cat|]. split; [apply sign_is|]. split; [|split; [left; auto|split; [|reflexivity]]].
    + exists i, f. split; [exact Di|]. split; [exact Df|]. split; [intros A; apply app_eq_nil in A as [A _]; contradiction|]. split; [reflexivity|]. split; [reflexivity|]. unfold pointed. destruct f; [right; rewrite app_nil_r; auto|left; reflexivity].
    + split; [lia|]. cbn [Z.eqb Pos.eqb]. lia.
  - rewrite point_value. destruct neg; unfold sgq; cbn [inject_Z]; change (inject_Z 10 ^ 0)%Q with 1%Q; ring.
Qed.
Theorem shown_rational_g format n q : general_format format n -> valid (VRat q) -> (1 # 10000 <= Qabs q)%Q -> (Qabs q < inject_Z 10 ^ n)%Q ->
  exists t y, print_exact format (VRat q) = Ok t /\ decimal_text t y /\ ~ scientific t /\ trimmed t /\ rounded n q y.
Proof.
  intros F [R D] A B. destruct (print_general format n (VRat q) F) as (verb & V & N & P). rewrite P. clear P.
  assert (not_billionth q) as NB. { intros j J E. pose proof (T_mono (- (9 * j)) (-9) ltac:(lia)) as T. change (inject_Z 10 ^ -9)%Q with (1 # 1000000000)%Q in T. lra. }
  pose proof (rat_exponent_spec q R D NB) as M. pose proof M as [M1 M2]. cbn [exact_text]. pose proof (rat_text_near verb n q V) as RT. cbv zeta in RT. set (E := rat_exponent q) in *. replace (E + 1 - 1) with E in M1 by lia.
  assert (E < n) as E1 by (apply T_lt_inv; lra). assert (-4 < E + 1) as E2 by (apply T_lt_inv; change (inject_Z 10 ^ -4)%Q with (1 # 10000)%Q; lra).
  specialize (RT ltac:(lia)). set (k := n - E - 1) in *. assert (0 <= k) as K by lia.
  destruct (float_string_parts k (Qabs q) K (Qabs_nonneg q)) as (m & f & Em & Mp & FS & Df & Lf & W). destruct (half_up_half (Qabs q * inject_Z (10 ^ k))) as [H1 H2]. rewrite <- Em in H1, H2. clear Em.
  set (i := format_nat 10 (m / 10 ^ k)) in *. destruct (format_nat_digits (m / 10 ^ k) ltac:(apply Z.div_pos; [lia|apply Z.pow_pos_nonneg; lia])) as [Di Ni]. fold i in Di, Ni. set (neg := Qnum q <? 0) in *.
  assert (digits (trim0 f)) as Dt by (apply trim0_digits, Df). destruct (trim0_zeros f) as [j Ef].
  assert (Z.of_nat (length f) = Z.of_nat (length (trim0 f)) + Z.of_nat j) as Lj by (rewrite Ef at 1; rewrite app_length, repeat_length; lia).
  destruct (pointed_value neg i (trim0 f) Di Ni Dt ltac:(lia)) as (y & DT & Y). exists (signed_dec neg (pointed i (trim0 f))), y.
  assert (y == sgq neg * (inject_Z m * inject_Z 10 ^ (- k)))%Q as Y2.
  { rewrite Y, <- W. rewrite Ef at 3. rewrite app_assoc. replace (repeat 48 j) with (zeros (Z.of_nat j)) by (unfold zeros; rewrite Nat2Z.id; reflexivity). rewrite whole_zeros_r. replace (Z.max 0 (Z.of_nat j)) with (Z.of_nat j) by lia. rewrite inject_Z_mult, <- (T_Z (Z.of_nat j)), <- Qmult_assoc, <- T_add by lia.
    replace (Z.of_nat j + - k) with (- Z.of_nat (length (trim0 f))) by lia. reflexivity. }
  split; [|split; [exact DT|]; split; [|split]].
  - assert (~ In 46 ((if neg then [45] else []) ++ i)) as NP. { intros I. apply in_app_or in I as [I|I]; [destruct neg; cbn [In] in I; lia|exact (digits_no_point i Di I)]. }
    rewrite RT, minus_signed, FS.
    assert (match index 46 (signed_dec neg (i ++ (if 0 <? k then 46 :: f else []))) with Some (S _) => let! t := strip0 (signed_dec neg (i ++ (if 0 <? k then 46 :: f else []))) in Ok (no_point t) | _ => Ok (signed_dec neg (i ++ (if 0 <? k then 46 :: f else []))) end = Ok (signed_dec neg (pointed i (trim0 f)))) as G.
    { rewrite !signed_cat. destruct (Z.ltb_spec 0 k) as [KP|KP].
      - rewrite !app_assoc, index_app by exact NP. set (a := _ ++ i) in *. destruct (length a) as [|la] eqn:La; [apply length_zero_iff_nil in La; unfold a in La; apply app_eq_nil in La as [_ La]; contradiction|].
        destruct (strip_pointed a f Df) as [S1 S2]. rewrite S1. cbn [bind]. rewrite S2. unfold pointed, a. rewrite <- app_assoc. reflexivity.
      - assert (f = []) as -> by (destruct f; [reflexivity|cbn [length] in Lf; lia]). rewrite !app_nil_r, index_none by exact NP. unfold pointed. cbn [trim0]. rewrite app_nil_r. reflexivity. }
    exact G.
  - intros SCI. assert (forall r, In r (signed_dec neg (pointed i (trim0 f))) -> r = 45 \/ r = 46 \/ 48 <= r <= 57) as CH.
    { intros r I. rewrite signed_cat in I. unfold pointed in I. apply in_app_or in I as [I|I]; [destruct neg; cbn [In] in I; lia|]. apply in_app_or in I as [I|I]; [unfold digits in Di; rewrite Forall_forall in Di; apply Di in I; lia|].
      destruct (trim0 f) as [|a u] eqn:Et; [contradiction|]. destruct I as [I|I]; [lia|]. unfold digits in Dt. rewrite Forall_forall in Dt. apply Dt in I. lia. }
    destruct SCI as [I|I]; apply CH in I; lia.
  - destruct (trim0_last f) as [El|El].
    + left. rewrite El. unfold pointed. rewrite app_nil_r. intros I. apply signed_in in I; [|lia]. exact (digits_no_point i Di I).
    + right. exists (signed_dec neg i), (trim0 f), []. assert (trim0 f <> []) as NE by (intros Z; rewrite Z in El; apply El; reflexivity). split; [rewrite app_nil_r, !signed_cat, <- app_assoc; unfold pointed; destruct (trim0 f); [contradiction|reflexivity]|].
      split; [intros I; apply signed_in in I; [exact (digits_no_point i Di I)|lia]|]. auto 6.
  - exists (E + 1), ((if neg then -1 else 1) * m). split; [exact M|]. replace (E + 1 - n) with (- k) by lia. split; [rewrite Y2, inject_Z_mult; destruct neg; unfold sgq; cbn [inject_Z]; ring|].
    pose proof (T_inv k) as TI. rewrite (T_Z k) in TI by lia. set (u := (inject_Z 10 ^ (- k))%Q) in *. pose proof (T_pos (- k)) as UP. fold u in UP. set (p := inject_Z (10 ^ k)) in *. set (w := (Qabs q * p)%Q) in *.
    assert (Qabs q == w * u)%Q as WU by (unfold w; rewrite <- Qmult_assoc, TI; ring).
    assert (Qabs (y - q) == Qabs (inject_Z m - w) * u)%Q as AB. { rewrite Y2, <- (Qabs_sg q) at 1. fold neg. rewrite qabs_scale, WU. setoid_replace (inject_Z m * u - w * u)%Q with ((inject_Z m - w) * u)%Q by ring. rewrite Qabs_Qmult, (Qabs_pos u) by lra. reflexivity. }
    rewrite AB. split; [apply Qmult_le_compat_r; [|lra]; apply Qabs_Qle_condition; lra|]. intros TE. assert (Qabs (inject_Z m - w) == 1 # 2)%Q as TE2 by (apply Qmult_inj_r with u; [lra|exact TE]).
    assert (inject_Z m == w + (1 # 2))%Q as MW. { destruct (Qlt_le_dec (inject_Z m - w) 0) as [L|L]; [rewrite Qabs_neg in TE2 by lra; lra|rewrite Qabs_pos in TE2 by exact L; lra]. }
    assert (Qabs y == inject_Z m * u)%Q as -> by (apply (abs_signed neg); [apply Qmult_le_0_compat; [change 0%Q with (inject_Z 0); rewrite <- Zle_Qle; exact Mp|lra]|exact Y2]). rewrite WU. apply Qmult_lt_compat_r; [exact UP|lra].
Qed.

(* Numbers with decimals, integers, and arrays of them. *)
From Coq Require Import QArith Qabs Qpower Lqa ZifyBool.
From Verif Require Import Value ScanModel TextModel TextSpec TextProofs TextNum FloatModel FloatProofs FloatMono FloatSign RandSpec NumModel TimeModel NumModel MixModel MixSpec MixProofs FmtModel FmtSpec FmtProofs.
Open Scope list_scope.
Open Scope Z_scope.

(* ---- decimal digits ---- *)
Lemma format_nat_digits n : 0 <= n -> digits (format_nat 10 n) /\ format_nat 10 n <> [].
Proof.
  intros H. split.
  - pose proof (format_nat_digs 10 n ltac:(lia) H) as F. eapply Forall_impl; [|exact F]. intros r (d & D & ->). unfold digit_char. destruct (Z.ltb_spec d 10); lia.
  - destruct (format_nat_ne 10 n ltac:(lia) H) as (r & t & -> & _). discriminate.
Qed.
Lemma format_digits_whole f : forall n acc, 0 <= n < 2 ^ Z.of_nat f -> whole (format_digits f 10 n acc) 0 = whole acc n.
Proof.
  induction f as [|f IH]; intros n acc H; cbn [format_digits].
  - change (2 ^ Z.of_nat 0) with 1 in H. replace n with 0 by lia. reflexivity.
  - destruct (Z.ltb_spec n 10) as [L|L].
    + cbn [whole]. unfold digit_char. destruct (Z.ltb_spec n 10); [|lia]. f_equal. lia.
    + rewrite Nat2Z.inj_succ, Z.pow_succ_r in H by lia. pose proof (Z.div_mod n 10 ltac:(lia)) as D. pose proof (Z.mod_pos_bound n 10 ltac:(lia)) as B. rewrite IH by lia.
      cbn [whole]. unfold digit_char. destruct (Z.ltb_spec (n mod 10) 10); [|lia]. f_equal. lia.
Qed.
Lemma format_nat_whole n : 0 <= n -> whole (format_nat 10 n) 0 = n.
Proof.
  intros H. unfold format_nat. rewrite format_digits_whole; [reflexivity|]. rewrite Nat2Z.inj_succ, Z2Nat.id by apply Z.log2_nonneg. destruct (Z.eq_dec n 0) as [->|N]; [cbn; lia|]. pose proof (Z.log2_spec n ltac:(lia)). lia.
Qed.
Lemma decimal_whole d : decimal d = whole d 0.
Proof. pose proof (decimal_app d []) as H. rewrite app_nil_r in H. rewrite H. cbn [length whole]. change (10 ^ Z.of_nat 0) with 1. lia. Qed.
Lemma opt_format n : 0 <= n -> opt (format_nat 10 n) = Some n.
Proof.
  intros H. unfold opt. destruct (format_nat 10 n) eqn:E; [exfalso; apply (proj2 (format_nat_digits n H)), E|]. rewrite <-E, decimal_whole, format_nat_whole by exact H. reflexivity.
Qed.
Lemma format_digits_length f : forall k n acc, 0 <= n < 10 ^ Z.of_nat (S k) -> (length (format_digits f 10 n acc) <= length acc + S k)%nat.
Proof.
  induction f as [|f IH]; intros k n acc H; cbn [format_digits]; [lia|]. destruct (Z.ltb_spec n 10) as [L|L]; [cbn [length]; lia|]. destruct k as [|k]; [change (10 ^ Z.of_nat 1) with 10 in H; lia|].
  rewrite Nat2Z.inj_succ, Z.pow_succ_r in H by lia. specialize (IH k (n / 10) (digit_char (n mod 10) :: acc)). cbn [length] in IH. assert (B : 0 <= n / 10 < 10 ^ Z.of_nat (S k)); [|specialize (IH B); lia]. split; [apply Z.div_pos; lia|]. apply Z.div_lt_upper_bound; lia.
Qed.
Lemma zeros_digits n : digits (zeros n).
Proof. unfold zeros. induction (Z.to_nat n); cbn [repeat]; constructor; [lia|assumption]. Qed.
Lemma zeros_length n : Z.of_nat (length (zeros n)) = Z.max 0 n.
Proof. unfold zeros. rewrite repeat_length. lia. Qed.
Lemma zeros_whole n t : whole (zeros n ++ t) 0 = whole t 0.
Proof. unfold zeros. induction (Z.to_nat n) as [|k IH]; cbn [repeat app whole]; [reflexivity|exact IH]. Qed.
Lemma pad_left_ok n m : 0 < n -> 0 <= m < 10 ^ n -> digits (pad_left n (format_nat 10 m)) /\ Z.of_nat (length (pad_left n (format_nat 10 m))) = n /\ whole (pad_left n (format_nat 10 m)) 0 = m.
Proof.
  intros N M. unfold pad_left. split; [apply Forall_app; split; [apply zeros_digits|apply format_nat_digits; lia]|]. split; [|rewrite zeros_whole; apply format_nat_whole; lia].
  rewrite app_length, Nat2Z.inj_add, zeros_length. assert (L : (length (format_nat 10 m) <= Z.to_nat n)%nat); [|lia].
  pose proof (format_digits_length (S (Z.to_nat (Z.log2 m))) (Z.to_nat n - 1) m []) as H. replace (S (Z.to_nat n - 1)) with (Z.to_nat n) in H by lia. rewrite Z2Nat.id in H by lia. cbn [length] in H. unfold format_nat. apply H, M.
Qed.
Lemma pow10_inv n : 0 <= n -> (inject_Z 10 ^ (- n) == 1 / inject_Z (10 ^ n))%Q.
Proof.
  intros H. rewrite Qpower_opp. unfold Qdiv. rewrite Qmult_1_l. apply Qinv_comp. rewrite <-(Z2Nat.id n H). generalize (Z.to_nat n). intros k. induction k as [|k IH]; [reflexivity|].
  rewrite Nat2Z.inj_succ. unfold Z.succ. rewrite Qpower_plus by discriminate. rewrite IH, Z.pow_add_r by lia. rewrite inject_Z_mult. reflexivity.
Qed.
Lemma decimals_fixed n q : 0 <= n -> (0 <= q)%Q -> exists y, fixed n (decimals n q) y /\ (Qabs (y - q) <= 1 / (2 * inject_Z (10 ^ n)))%Q.
Proof.
  intros N Q0. pose proof (Z.pow_pos_nonneg 10 n ltac:(lia) N) as T. unfold decimals. set (m := rne (q * inject_Z (10 ^ n))).
  assert (TQ : (0 < inject_Z (10 ^ n))%Q) by (change 0%Q with (inject_Z 0); rewrite <-Zlt_Qlt; exact T).
  assert (M : 0 <= m). { unfold m. rewrite <-(rne_Z 0 0) by reflexivity. apply rne_mono. apply Qmult_le_0_compat; lra. }
  exists (inject_Z m / inject_Z (10 ^ n))%Q. split.
  - destruct (format_nat_digits (m / 10 ^ n) ltac:(apply Z.div_pos; lia)) as [D NE]. exists (format_nat 10 (m / 10 ^ n)), (if 0 <? n then pad_left n (format_nat 10 (m mod 10 ^ n)) else []).
    destruct (Z.ltb_spec 0 n) as [L|L].
    + destruct (pad_left_ok n (m mod 10 ^ n) L (Z.mod_pos_bound _ _ T)) as (PD & PL & PW). split; [reflexivity|]. split; [exact NE|]. split; [exact D|]. split; [exact PD|]. split; [exact PL|].
      rewrite format_nat_whole by (apply Z.div_pos; lia). rewrite fraction_eq, PL, PW, pow10_inv by exact N. rewrite (Z.div_mod m (10 ^ n)) at 1 by lia. rewrite inject_Z_plus, inject_Z_mult. field. lra.
    + replace n with 0 by lia. split; [reflexivity|]. split; [replace n with 0 in NE by lia; exact NE|]. split; [replace n with 0 in D by lia; exact D|]. split; [constructor|]. split; [reflexivity|].
      change (10 ^ 0) with 1. rewrite Z.div_1_r, format_nat_whole by exact M. cbn [fraction]. change (inject_Z 1) with 1%Q. field.
  - pose proof (rne_half (q * inject_Z (10 ^ n))) as H. fold m in H. apply Qabs_Qle_condition in H.
    assert (E : (inject_Z m / inject_Z (10 ^ n) - q == (inject_Z m - q * inject_Z (10 ^ n)) / inject_Z (10 ^ n))%Q) by (field; lra). rewrite E.
    assert (E2 : (1 / (2 * inject_Z (10 ^ n)) == (1 # 2) / inject_Z (10 ^ n))%Q) by (field; lra). rewrite E2. set (w := (inject_Z m - q * inject_Z (10 ^ n))%Q) in *. unfold Qdiv. set (i := (/ inject_Z (10 ^ n))%Q). assert (I : (0 < i)%Q) by (apply Qinv_lt_0_compat; exact TQ).
    rewrite Qabs_Qmult, (Qabs_pos i) by lra. apply Qmult_le_compat_r; [|lra]. apply Qabs_Qle_condition. exact H.
Qed.
(* ---- fields ---- *)
Lemma field_plain w p v neg t : 0 <= w -> exists r, field (mkDir false false false (Some w) p v) neg t = r /\ in_field w ((if neg then [45] else []) ++ t) r.
Proof.
  intros W. eexists. split; [reflexivity|]. unfold field. cbn [minus plus zero wid]. set (sg := if neg then [45] else []). exists (Z.to_nat (w - Z.of_nat (length sg + length t))). destruct (Z.ltb_spec w 0); [lia|].
  unfold spaces. split; [reflexivity|]. rewrite !app_length, repeat_length. lia.
Qed.
Lemma field_minus w p v neg t : 0 < w -> exists r, field (mkDir true false false (Some w) p v) neg t = r /\ in_field (- w) ((if neg then [45] else []) ++ t) r.
Proof.
  intros W. eexists. split; [reflexivity|]. unfold field. cbn [minus plus zero wid]. set (sg := if neg then [45] else []). exists (Z.to_nat (w - Z.of_nat (length sg + length t))). destruct (Z.ltb_spec (- w) 0); [|lia].
  unfold spaces. split; [rewrite app_assoc; reflexivity|]. rewrite !app_length, repeat_length. lia.
Qed.
Lemma field_none p v neg t : field (mkDir false false false None p v) neg t = (if neg then [45] else []) ++ t.
Proof. reflexivity. Qed.

(* ---- the formats of numbers ---- *)
Lemma format_int_nonneg z : 0 <= z -> format_int 10 z = format_nat 10 z.
Proof. intros H. unfold format_int. destruct (Z.ltb_spec z 0); [lia|reflexivity]. Qed.
Lemma head_not_zero z : 0 < z -> hd 49 (format_nat 10 z) <> 48.
Proof. intros H. destruct (format_nat_ne 10 z ltac:(lia) ltac:(lia)) as (r & t & -> & N & _). cbn. apply N. lia. Qed.
Lemma parse_prec n r : 0 <= n -> is_verb r = true -> parse_format ([37; 46] ++ format_int 10 n ++ [r]) = Ok (Out [] (mkDir false false false None (Some n) r) []).
Proof.
  intros N V. rewrite format_int_nonneg by exact N.
  assert (F : plain_form ([37; 46] ++ format_nat 10 n ++ [r]) [] [] [] (46 :: format_nat 10 n) r [] []).
  { split; [reflexivity|]. split; [intros []|]. split; [constructor|]. split; [constructor|]. split; [discriminate|]. split; [right; eexists; split; [reflexivity|apply format_nat_digits, N]|]. split; [exact V|reflexivity]. }
  destruct (plain_parse _ _ _ _ _ _ _ _ F) as [_ ->]. rewrite opt_format by exact N. reflexivity.
Qed.
Lemma parse_wid_prec w n r : 0 <= n -> is_verb r = true -> exists d, parse_format ([37] ++ format_int 10 w ++ [46] ++ format_int 10 n ++ [r]) = Ok (Out [] d []) /\ verb d = r /\ prec d = Some n /\ plus d = false /\
  ((0 < w /\ minus d = false /\ zero d = false /\ wid d = Some w) \/ (w < 0 /\ minus d = true /\ zero d = false /\ wid d = Some (- w)) \/ (w = 0 /\ minus d = false /\ zero d = true /\ wid d = None)).
Proof.
  intros N V. rewrite (format_int_nonneg n) by exact N. destruct (Z.eq_dec w 0) as [->|W0]; [|destruct (Z_lt_le_dec w 0) as [W|W]].
  - assert (F : plain_form ([37] ++ format_int 10 0 ++ [46] ++ format_nat 10 n ++ [r]) [] [48] [] (46 :: format_nat 10 n) r [] []).
    { split; [reflexivity|]. split; [intros []|]. split; [constructor; [unfold flag; tauto|constructor]|]. split; [constructor|]. split; [discriminate|]. split; [right; eexists; split; [reflexivity|apply format_nat_digits, N]|]. split; [exact V|reflexivity]. }
    destruct (plain_parse _ _ _ _ _ _ _ _ F) as [_ ->]. rewrite opt_format by exact N. eexists. split; [reflexivity|]. cbn. repeat (split; [reflexivity|]). right. right. auto.
  - assert (F : plain_form ([37] ++ format_int 10 w ++ [46] ++ format_nat 10 n ++ [r]) [] [45] (format_nat 10 (- w)) (46 :: format_nat 10 n) r [] []).
    { unfold format_int. destruct (Z.ltb_spec w 0); [|lia]. split; [reflexivity|]. split; [intros []|]. split; [constructor; [unfold flag; tauto|constructor]|]. split; [apply format_nat_digits; lia|]. split; [apply head_not_zero; lia|]. split; [right; eexists; split; [reflexivity|apply format_nat_digits, N]|]. split; [exact V|reflexivity]. }
    destruct (plain_parse _ _ _ _ _ _ _ _ F) as [_ ->]. rewrite !opt_format by lia. eexists. split; [reflexivity|]. cbn. repeat (split; [reflexivity|]). right. left. auto.
  - assert (F : plain_form ([37] ++ format_int 10 w ++ [46] ++ format_nat 10 n ++ [r]) [] [] (format_nat 10 w) (46 :: format_nat 10 n) r [] []).
    { rewrite format_int_nonneg by lia. split; [reflexivity|]. split; [intros []|]. split; [constructor|]. split; [apply format_nat_digits; lia|]. split; [apply head_not_zero; lia|]. split; [right; eexists; split; [reflexivity|apply format_nat_digits, N]|]. split; [exact V|reflexivity]. }
    destruct (plain_parse _ _ _ _ _ _ _ _ F) as [_ ->]. rewrite !opt_format by lia. eexists. split; [reflexivity|]. cbn. repeat (split; [reflexivity|]). left. repeat split; lia.
Qed.
Lemma to_float_operand P v : 1 <= P -> real v -> exists x, to_float P v = Ok x /\ operand P v x.
Proof.
  intros HP R. destruct v as [[z|ch|z|q|a b|l|s l]|p q]; try contradiction; cbn [to_float operand val]; eexists; (split; [reflexivity|]); try (apply rnd_nearest, HP); reflexivity.
Qed.
Lemma sign_spec x : minus_sign x (if Qnum x <? 0 then [45] else []).
Proof. unfold minus_sign. destruct x as [n d]. cbn [Qnum]. unfold Qlt, Qle. cbn. destruct (Z.ltb_spec n 0); [left|right]; (split; [lia|reflexivity]). Qed.
Lemma abs_mul_10 x : (0 <= Qabs x)%Q.
Proof. apply Qabs_nonneg. Qed.
Theorem decimals_text P n v : 1 <= P -> 0 <= n -> real v ->
  exists x s t y, fmt_text P (AScalar (Ex (VInt n))) (AScalar v) = Ok (s ++ t) /\ operand P v x /\ minus_sign x s /\ fixed n t y /\ (Qabs (y - Qabs x) <= 1 / (2 * inject_Z (10 ^ n)))%Q.
Proof.
  intros HP N R. destruct (to_float_operand P v HP R) as (x & E & O). destruct (decimals_fixed n (Qabs x) N (Qabs_nonneg x)) as (y & F & A). exists x, (if Qnum x <? 0 then [45] else []), (decimals n (Qabs x)), y.
  split; [|split; [exact O|]; split; [apply sign_spec|]; split; assumption].
  unfold fmt_text. cbn [format_string bind]. unfold format_one. rewrite parse_prec by (try exact N; reflexivity). cbn [bind verb]. cbn [Z.eqb Pos.eqb negb]. rewrite E. cbn [bind around]. unfold fmt_f. cbn [minus zero andb prec]. cbn [bind]. rewrite field_none, app_nil_r. reflexivity.
Qed.
Theorem width_text P w n v : 1 <= P -> 0 <= n -> real v ->
  exists x s t y r, fmt_text P (AVector [Ex (VInt w); Ex (VInt n)]) (AScalar v) = Ok r /\ in_field w (s ++ t) r /\ operand P v x /\ minus_sign x s /\ fixed n t y /\ (Qabs (y - Qabs x) <= 1 / (2 * inject_Z (10 ^ n)))%Q.
Proof.
  intros HP N R. destruct (to_float_operand P v HP R) as (x & E & O). destruct (decimals_fixed n (Qabs x) N (Qabs_nonneg x)) as (y & F & A). exists x, (if Qnum x <? 0 then [45] else []), (decimals n (Qabs x)), y.
  cut (exists r, fmt_text P (AVector [Ex (VInt w); Ex (VInt n)]) (AScalar v) = Ok r /\ in_field w ((if Qnum x <? 0 then [45] else []) ++ decimals n (Qabs x)) r).
  { intros (r & E1 & E2). exists r. split; [exact E1|]. split; [exact E2|]. split; [exact O|]. split; [apply sign_spec|]. split; assumption. }
  unfold fmt_text. cbn [format_string all_chars forallb is_char andb is_int_num bind]. unfold format_one. destruct (parse_wid_prec w n 102 N eq_refl) as (d & PF & V & PR & PL & C). rewrite PF. cbn [bind]. rewrite V. cbn [Z.eqb Pos.eqb negb]. rewrite E. cbn [bind around]. unfold fmt_f. rewrite PR.
  destruct d as [mi pl ze wd pr vb]. cbn [minus plus zero wid prec verb] in *. subst pl. destruct C as [(W & -> & -> & ->) | [(W & -> & -> & ->) | (-> & -> & -> & ->)]]; cbn [andb bind app].
  - destruct (field_plain w pr vb (Qnum x <? 0) (decimals n (Qabs x)) ltac:(lia)) as (r & <- & IF). rewrite app_nil_r. eexists. split; [reflexivity|exact IF].
  - destruct (field_minus (- w) pr vb (Qnum x <? 0) (decimals n (Qabs x)) ltac:(lia)) as (r & <- & IF). rewrite app_nil_r. eexists. split; [reflexivity|]. rewrite Z.opp_involutive in IF. exact IF.
  - rewrite app_nil_r. eexists. split; [reflexivity|]. exists 0%nat. cbn [repeat app]. unfold field. cbn [minus plus zero wid]. unfold zeros. cbn [Z.to_nat repeat app]. split; [reflexivity|]. lia.
Qed.
(* %d with a width *)
Theorem integer_text P lit w rest post v z : ~ In 37 lit -> 0 < w -> literal rest = Some post ->
  (v = Ex (VInt z) \/ v = Ex (VBig z)) ->
  exists t, fmt_text P (AVector (map (fun r => Ex (VChar r)) (lit ++ [37] ++ format_nat 10 w ++ [100] ++ rest))) (AScalar v) = Ok (lit ++ t ++ post) /\ in_field w (format_int 10 z) t.
Proof.
  intros NL W L V. set (s := lit ++ [37] ++ format_nat 10 w ++ [100] ++ rest).
  assert (F : plain_form s lit [] (format_nat 10 w) [] 100 rest post).
  { split; [reflexivity|]. split; [exact NL|]. split; [constructor|]. split; [apply format_nat_digits; lia|]. split; [apply head_not_zero, W|]. split; [left; reflexivity|]. split; [reflexivity|exact L]. }
  destruct (plain_parse _ _ _ _ _ _ _ _ F) as [VO PF]. rewrite opt_format in PF by lia.
  assert (AC : all_chars (map (fun r => Ex (VChar r)) s) = true) by (unfold all_chars; apply forallb_forall; intros x X; apply in_map_iff in X; destruct X as (r & <- & _); reflexivity).
  assert (CO : chars_of (map (fun r => Ex (VChar r)) s) = s) by (unfold chars_of; generalize s; intros k; induction k as [|r k IH]; [reflexivity|]; cbn [map flat_map is_char app]; rewrite IH; reflexivity).
  assert (P37 : existsb (Z.eqb 37) s = true) by (apply existsb_exists; exists 37; split; [unfold s; apply in_or_app; right; left; reflexivity|reflexivity]).
  unfold fmt_text. cbn [format_string]. rewrite AC, CO, P37, VO. cbn [bind]. 
  destruct (field_plain w None 100 (z <? 0) (format_nat 10 (Z.abs z)) ltac:(lia)) as (t & FE & IF). exists t. split.
  - unfold format_one. rewrite PF. cbn [bind verb Z.eqb Pos.eqb negb existsb]. destruct V as [-> | ->]; unfold around, fmt_d; cbn [prec bind]; rewrite FE; reflexivity.
  - replace (format_int 10 z) with ((if z <? 0 then [45] else []) ++ format_nat 10 (Z.abs z)); [exact IF|]. unfold format_int. destruct (Z.ltb_spec z 0); cbn [app]; f_equal; f_equal; lia.
Qed.

Lemma rational_text P lit w rest post q : ~ In 37 lit -> 0 < w -> literal rest = Some post ->
  let f := AVector (map (fun r => Ex (VChar r)) (lit ++ [37] ++ format_nat 10 w ++ [100] ++ rest)) in
  exists a b, fmt_text P f (AScalar (Ex (VRat q))) = Ok (a ++ [47] ++ b) /\
    fmt_text P f (AScalar (Ex (VBig (Qnum q)))) = Ok a /\ fmt_text P f (AScalar (Ex (VBig (Zpos (Qden q))))) = Ok b.
Proof.
  intros NL W L f. unfold f. set (s := lit ++ [37] ++ format_nat 10 w ++ [100] ++ rest).
  assert (F : plain_form s lit [] (format_nat 10 w) [] 100 rest post).
  { split; [reflexivity|]. split; [exact NL|]. split; [constructor|]. split; [apply format_nat_digits; lia|]. split; [apply head_not_zero, W|]. split; [left; reflexivity|]. split; [reflexivity|exact L]. }
  destruct (plain_parse _ _ _ _ _ _ _ _ F) as [VO PF]. rewrite opt_format in PF by lia.
  assert (AC : all_chars (map (fun r => Ex (VChar r)) s) = true) by (unfold all_chars; apply forallb_forall; intros x X; apply in_map_iff in X; destruct X as (r & <- & _); reflexivity).
  assert (CO : chars_of (map (fun r => Ex (VChar r)) s) = s) by (unfold chars_of; generalize s; intros k; induction k as [|r k IH]; [reflexivity|]; cbn [map flat_map is_char app]; rewrite IH; reflexivity).
  assert (P37 : existsb (Z.eqb 37) s = true) by (apply existsb_exists; exists 37; split; [unfold s; apply in_or_app; right; left; reflexivity|reflexivity]).
  unfold fmt_text. cbn [format_string]. rewrite AC, CO, P37, VO. cbn [bind].
  unfold format_one. rewrite PF. cbn [bind verb Z.eqb Pos.eqb negb existsb]. unfold around, fmt_d; cbn [prec bind].
  eexists _, _. split; [reflexivity|]. split; reflexivity.
Qed.

Lemma percent_before s : ~ In 37 s -> s <> [] -> format_string (AVector (map (fun r => Ex (VChar r)) s)) =
  format_string (AVector (map (fun r => Ex (VChar r)) (37 :: s))).
Proof.
  intros N NE. assert (AC : forall s, all_chars (map (fun r => Ex (VChar r)) s) = true) by (intros k; unfold all_chars; apply forallb_forall; intros x X; apply in_map_iff in X; destruct X as (r & <- & _); reflexivity).
  assert (CO : forall s, chars_of (map (fun r => Ex (VChar r)) s) = s) by (intros k; unfold chars_of; induction k as [|r k IH]; [reflexivity|]; cbn [map flat_map is_char app]; rewrite IH; reflexivity).
  unfold format_string. rewrite !AC, !CO. cbn [existsb]. rewrite Z.eqb_refl. cbn [orb].
  destruct (existsb (Z.eqb 37) s) eqn:E; [|reflexivity]. apply existsb_exists in E. destruct E as (x & X & Y). apply Z.eqb_eq in Y. subst x. contradiction.
Qed.

(* ---- arrays ---- *)
Lemma lay_block : forall sh out cs sp blk rest, Forall (fun n => (0 < n)%nat) sh -> length blk = size (rev sh) -> length cs = length out ->
  lay (sh ++ out) (repeat O (length sh) ++ cs) sp (blk ++ rest) =
  (if sp then [32] else []) ++ arranged (rev sh) blk ++
  match rest with [] => [] | _ => let (j, cs') := bump out cs in repeat 10 (length sh + j) ++ lay (sh ++ out) (repeat O (length sh) ++ cs') (length sh + j =? 0)%nat rest end.
Proof.
  induction sh as [|n sh IH] using rev_ind; intros out cs sp blk rest F L CL.
  - cbn [rev size] in L. destruct blk as [|x [|y blk]]; try discriminate. cbn [app repeat length lay rev arranged concat]. rewrite app_nil_r. destruct (bump out cs) as [j cs']. cbn [Nat.add]. reflexivity.
  - rewrite rev_app_distr in *. cbn [rev app size arranged] in *. apply Forall_app in F. destruct F as [F N]. apply Forall_inv in N. rewrite app_length. cbn [length].
    assert (R1 : forall X : list nat, repeat O (length sh + 1) ++ X = repeat O (length sh) ++ O :: X) by (intros X; rewrite repeat_app, <-app_assoc; reflexivity).
    rewrite R1. rewrite <-app_assoc. cbn [app].
    (* the sub-blocks from the k-th on *)
    assert (G : forall m k sp blk, (k + m = n)%nat -> (0 < m)%nat -> length blk = (m * size (rev sh))%nat ->
      lay (sh ++ n :: out) (repeat O (length sh) ++ k :: cs) sp (blk ++ rest) =
      (if sp then [32] else []) ++ joined (separator (length sh)) (map (arranged (rev sh)) (chunks m (size (rev sh)) blk)) ++
      match rest with [] => [] | _ => let (j, cs') := bump out cs in repeat 10 (length sh + 1 + j) ++ lay (sh ++ n :: out) (repeat O (length sh) ++ O :: cs') (length sh + 1 + j =? 0)%nat rest end).
    { clear blk sp L R1. induction m as [|m IHm]; intros k sp blk K M L; [lia|]. cbn [chunks map].
      assert (SZ : length (firstn (size (rev sh)) blk) = size (rev sh)) by (rewrite firstn_length; cbn [Nat.mul] in L; lia).
      rewrite <-(firstn_skipn (size (rev sh)) blk) at 1. rewrite <-app_assoc. rewrite (IH (n :: out) (k :: cs) sp _ _ F SZ) by (cbn; lia). f_equal.
      assert (LS : length (skipn (size (rev sh)) blk) = (m * size (rev sh))%nat) by (rewrite skipn_length; cbn [Nat.mul] in L; lia).
      cbn [bump]. destruct m as [|m].
      - assert (SE : skipn (size (rev sh)) blk = []) by (apply length_zero_iff_nil; lia). rewrite SE. cbn [app chunks map joined]. f_equal. destruct (Nat.ltb_spec (S k) n) as [X|X]; [lia|]. destruct rest as [|r rest]; [reflexivity|]. destruct (bump out cs) as [j cs']. replace (length sh + S j)%nat with (length sh + 1 + j)%nat by lia. reflexivity.
      - destruct (Nat.ltb_spec (S k) n) as [X|X]; [|lia]. assert (SP : (0 < size (rev sh))%nat). { clear -F. assert (FR : Forall (fun n => (0 < n)%nat) (rev sh)) by (apply Forall_rev, F). induction FR as [|a b A B I]; cbn [size]; [lia|]. apply Nat.mul_pos_pos; assumption. }
        destruct (skipn (size (rev sh)) blk ++ rest) as [|b0 br] eqn:SB; [exfalso; apply app_eq_nil in SB; destruct SB as [SB _]; rewrite SB in LS; cbn in LS; lia|]. rewrite <-SB. rewrite (IHm (S k) _ _ ltac:(lia) ltac:(lia) LS). rewrite Nat.add_0_r.
        cbn [chunks map]. set (ch := arranged (rev sh) (firstn (size (rev sh)) (skipn (size (rev sh)) blk)) :: map (arranged (rev sh)) (chunks m (size (rev sh)) (skipn (size (rev sh)) (skipn (size (rev sh)) blk)))). 
        change (joined (separator (length sh)) (arranged (rev sh) (firstn (size (rev sh)) blk) :: ch)) with (arranged (rev sh) (firstn (size (rev sh)) blk) ++ separator (length sh) ++ joined (separator (length sh)) ch).
        rewrite <-!app_assoc. f_equal. destruct (length sh) as [|q]; reflexivity. }
    rewrite (G n O sp blk ltac:(lia) N L). rewrite rev_length. f_equal. f_equal. destruct rest as [|r rest]; [reflexivity|]. destruct (bump out cs) as [j cs']. rewrite R1. reflexivity.
Qed.
Theorem matrix_arranged shape l : Forall (fun n => (0 < n)%nat) shape -> length l = size shape -> lay_matrix shape l = arranged shape l.
Proof.
  intros F L. unfold lay_matrix. pose proof (lay_block (rev shape) [] [] false l [] (Forall_rev F)) as H. rewrite rev_involutive, !app_nil_r, rev_length in H. rewrite H by (try exact L; reflexivity). cbn [app]. reflexivity.
Qed.
Lemma join_space_joined l : join_space l = joined [32] l.
Proof. induction l as [|x l IH]; [reflexivity|]. cbn [join_space joined]. destruct l; [reflexivity|]. rewrite IH. reflexivity. Qed.
Theorem format_all_each P f vb l ts : format_all P f vb l = Ok ts <-> Forall2 (fun v t => format_one P f vb v = Ok t) l ts.
Proof.
  revert ts. induction l as [|v l IH]; intros ts; cbn [format_all].
  - split; intros H; [injection H as <-; constructor|inversion H; reflexivity].
  - split; intros H.
    + destruct (format_one P f vb v) as [t| | |] eqn:E; cbn [bind] in H; try discriminate. destruct (format_all P f vb l) as [tl| | |]; cbn [bind] in H; try discriminate. injection H as <-. constructor; [exact E|]. apply IH. reflexivity.
    + inversion H as [|v0 t l0 tl E1 E2]; subst. rewrite E1. cbn [bind]. apply IH in E2. rewrite E2. reflexivity.
Qed.

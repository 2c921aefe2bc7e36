From Coq Require Import QArith Qabs Qpower Lqa Lia ZifyBool.
From Verif Require Import Value NumModel NumSpec NumProofs ScanModel TextModel TextSpec TextProofs TextNum FloatModel FloatProofs FloatMono FloatSign TimeModel MixModel FmtModel FmtSpec FmtProofs FmtText FTextModel FTextSpec FTextProofs FTextDigits FTextShow EFmtModel EFmtSpec EFmtProofs.
Open Scope list_scope.
Open Scope Z_scope.

(* ---- dividing until it is small ---- *)
Lemma Qle_bool_lt a b : Qle_bool a b = false -> (b < a)%Q.
Proof. intros H. destruct (Qlt_le_dec b a) as [L|L]; [exact L|]. apply Qle_bool_iff in L. congruence. Qed.
Lemma power_succ k n : ~ (k == 0)%Q -> (k ^ (n + 1) == k ^ n * k)%Q.
Proof. intros H. rewrite Qpower_plus by exact H. reflexivity. Qed.
Lemma divide_q_spec strict k : (2 <= k)%Q -> forall f q, (1 <= q)%Q -> (q < inject_Z (2 ^ Z.of_nat f))%Q ->
  let (n, r) := divide_q f strict k q in 0 <= n /\ (q == r * k ^ n)%Q /\ (1 <= r)%Q /\ (r <= q)%Q /\ (if strict then (r <= k)%Q /\ (n = 0 \/ (1 < r)%Q) else (r < k)%Q).
Proof.
  intros K. induction f as [|f IH]; intros q Q1 QB; cbn [divide_q].
  - change (inject_Z (2 ^ Z.of_nat 0)) with 1%Q in QB. lra.
  - set (b := if strict then negb (Qle_bool q k) else Qle_bool k q).
    assert (b = false -> (if strict then q <= k else q < k))%Q as BF. { unfold b. destruct strict; intros B; [apply negb_false_iff, Qle_bool_iff in B; exact B|apply Qle_bool_lt, B]. }
    assert (b = true -> (k <= q)%Q /\ (strict = true -> k < q)%Q) as BT. { unfold b. destruct strict; intros B; [apply negb_true_iff, Qle_bool_lt in B; split; [lra|auto]|apply Qle_bool_iff in B; split; [exact B|discriminate]]. }
    destruct b; [|specialize (BF eq_refl); split; [lia|]; split; [rewrite Qmult_1_r; reflexivity|]; split; [exact Q1|]; split; [lra|]; destruct strict; [split; [exact BF|left; reflexivity]|exact BF]].
    destruct (BT eq_refl) as [B1 B2]. set (q' := Qred (q / k)). assert (q' * k == q)%Q as E by (unfold q'; rewrite Qred_correct; field; lra).
    assert (1 <= q')%Q as L1. { destruct (Qlt_le_dec q' 1) as [L|L]; [|exact L]. assert (q' * k < 1 * k)%Q by (apply Qmult_lt_compat_r; lra). lra. }
    assert (q' < inject_Z (2 ^ Z.of_nat f))%Q as L2.
    { rewrite Nat2Z.inj_succ, Z.pow_succ_r, inject_Z_mult in QB by lia. change (inject_Z 2) with 2%Q in QB. assert (q' * 2 <= q' * k)%Q by (apply Qmult_le_l; lra). lra. }
    specialize (IH q' L1 L2). destruct (divide_q f strict k q') as [n r]. destruct IH as (N & Er & R1 & R2 & R3). split; [lia|]. split; [rewrite power_succ by lra; rewrite <- E, Er at 1; ring|].
    split; [exact R1|]. assert (q' <= q)%Q by (assert (q' * 1 <= q' * k)%Q by (apply Qmult_le_l; lra); lra). split; [lra|]. destruct strict; [|exact R3]. destruct R3 as [R3 R4]. split; [exact R3|]. right.
    destruct R4 as [-> |R4]; [|exact R4]. rewrite Qmult_1_r in Er. specialize (B2 eq_refl). rewrite <- Er. destruct (Qlt_le_dec 1 q') as [L|L]; [exact L|]. assert (q' * k <= 1 * k)%Q by (apply Qmult_le_compat_r; lra). lra.
Qed.
Lemma fuel_q_ok q : ~ (q == 0)%Q -> (Qabs q < inject_Z (2 ^ Z.of_nat (fuel_q q)))%Q /\ (/ Qabs q < inject_Z (2 ^ Z.of_nat (fuel_q q)))%Q.
Proof.
  intros H. pose proof (fuel_ok (Z.abs (Qnum q) + Zpos (Qden q)) ltac:(lia)) as F. fold (fuel_q q) in F. unfold fuel_q. set (m := 2 ^ _) in *. change (2 ^ _) with m in F. destruct q as [a b]. cbn [Qnum Qden] in *.
  assert (a <> 0) as A by (intros ->; apply H; reflexivity). split.
  - unfold Qabs, Qlt, inject_Z. cbn [Qnum Qden]. nia.
  - assert (0 < Qabs (a # b))%Q as P by (unfold Qlt, Qabs; cbn; lia). setoid_replace (/ Qabs (a # b))%Q with (inject_Z (Zpos b) / inject_Z (Z.abs a))%Q.
    + apply Qlt_shift_div_r; [change 0%Q with (inject_Z 0); rewrite <- Zlt_Qlt; lia|]. rewrite <- inject_Z_mult, <- Zlt_Qlt. nia.
    + assert (~ (inject_Z (Z.abs a) == 0))%Q as NA by (change 0%Q with (inject_Z 0); rewrite inject_Z_injective; lia). setoid_replace (Qabs (a # b)) with (inject_Z (Z.abs a) / inject_Z (Zpos b))%Q; [field; split; [exact NA|intros X; discriminate]|].
      unfold Qabs. rewrite (Qmake_Qdiv (Z.abs a) b). reflexivity.
Qed.
Lemma not_integer q z : Qred q = q -> Qden q <> 1%positive -> ~ (Qabs q == inject_Z z)%Q.
Proof.
  intros R D E. assert (exists w, q == inject_Z w)%Q as [w W].
  { destruct (Qlt_le_dec q 0) as [L|L]; [exists (- z); rewrite inject_Z_opp, <- E, (Qabs_neg q) by lra; ring|exists z; rewrite <- E, (Qabs_pos q) by exact L; reflexivity]. }
  apply Qred_complete in W. rewrite R in W. rewrite W in D. rewrite red_inject in D. apply D. reflexivity.
Qed.
Lemma billion_power n : 0 <= n -> (inject_Z (10 ^ 9) ^ n == inject_Z 10 ^ (9 * n))%Q.
Proof. intros N. rewrite <- Zpower_Qpower, <- Z.pow_mul_r, T_Z by lia. reflexivity. Qed.
Lemma rat_exponent_spec q : Qred q = q -> Qden q <> 1%positive -> not_billionth q -> magnitude q (rat_exponent q + 1).
Proof.
  intros R D NB. assert (~ (q == 0)%Q) as Q0. { intros Z. apply (not_integer q 0 R D). rewrite Z. reflexivity. }
  assert (0 < Qabs q)%Q as P. { pose proof (Qabs_nonneg q). destruct (Qlt_le_dec 0 (Qabs q)) as [L|L]; [exact L|]. exfalso. apply (not_integer q 0 R D). change (inject_Z 0) with 0%Q. lra. }
  destruct (fuel_q_ok q Q0) as [F1 F2]. unfold magnitude, rat_exponent. cbv zeta. set (x := Qabs q) in *.
  assert (T10 : forall k, (inject_Z 10 ^ (k + 1) == 10 * inject_Z 10 ^ k)%Q) by (intros k; rewrite T_add; change (inject_Z 10 ^ 1)%Q with 10%Q; ring).
  assert ((Qnum x <? Zpos (Qden x)) = true -> (x < 1)%Q) as X1 by (intros H; apply Z.ltb_lt in H; unfold Qlt; cbn [Qnum Qden]; lia).
  assert ((Qnum x <? Zpos (Qden x)) = false -> (1 <= x)%Q) as X2 by (intros H; apply Z.ltb_ge in H; unfold Qle; cbn [Qnum Qden]; lia).
  assert (L : forall u, (1 <= u)%Q -> (u < inject_Z (2 ^ Z.of_nat (fuel_q q)))%Q -> exists n m s, 0 <= n /\ 0 <= m /\ (let (n, x) := divide_q (fuel_q q) false (inject_Z (10 ^ 9)) u in 9 * n + fst (divide_q (fuel_q q) true 10 x)) = 9 * n + m /\
    (u == s * inject_Z 10 ^ (9 * n + m))%Q /\ (1 <= s <= 10)%Q /\ (m = 0 \/ (1 < s)%Q)).
  { intros u U1 U2. pose proof (divide_q_spec false (inject_Z (10 ^ 9)) ltac:(unfold Qle; cbn; lia) (fuel_q q) u U1 U2) as S1. destruct (divide_q (fuel_q q) false _ u) as [n r]. destruct S1 as (N & E1 & R1 & R2 & R3).
    pose proof (divide_q_spec true 10 ltac:(lra) (fuel_q q) r R1 ltac:(lra)) as S2. destruct (divide_q (fuel_q q) true 10 r) as [m s]. destruct S2 as (M & E2 & S1 & S2 & S3 & S4). exists n, m, s. cbn [fst].
    split; [exact N|]. split; [exact M|]. split; [reflexivity|]. split; [|split; [split; assumption|exact S4]]. rewrite E1, E2, billion_power, T_add by exact N. change (10 ^ m)%Q with (inject_Z 10 ^ m)%Q. ring. }
  destruct (Qnum x <? Zpos (Qden x)).
  - specialize (X1 eq_refl). assert (x * / x == 1)%Q as I by (field; lra). assert (1 <= / x)%Q as I1. { destruct (Qlt_le_dec (/ x) 1) as [C|C]; [|exact C]. pose proof (Qinv_lt_0_compat x P). assert (x * / x < 1 * 1)%Q; [|lra]. apply Qle_lt_trans with (x * 1)%Q; [apply Qmult_le_l; lra|lra]. }
    destruct (L (/ x)%Q I1 F2) as (n & m & s & N & M & E & U & [S1 S2] & S3). destruct (divide_q (fuel_q q) false _ (/ x)) as [n' x']. replace (- (1 + 9 * n' + fst (divide_q (fuel_q q) true 10 x'))) with (- (1 + (9 * n + m))) by lia. clear E L.
    set (k := 9 * n + m) in *. pose proof (T_inv k) as TI. set (a := (inject_Z 10 ^ (- k))%Q) in *. assert (x * s == a)%Q as A. { rewrite U in I. pose proof (T_pos k). assert (x * s * inject_Z 10 ^ k * a == 1 * a)%Q as HX by (rewrite <- (Qmult_assoc x), I; reflexivity). rewrite <- Qmult_assoc, TI in HX. lra. }
    assert (1 < s)%Q as S4. { destruct (Qlt_le_dec 1 s) as [C|C]; [exact C|]. assert (s == 1)%Q as S5 by lra. destruct S3 as [-> |S3]; [|lra]. exfalso. unfold a, k in A. rewrite S5, Z.add_0_r, Qmult_1_r in A. destruct (Z.eq_dec n 0) as [-> |N0]; [change (inject_Z 10 ^ (- (9 * 0)))%Q with 1%Q in A; lra|]. apply (NB n); [lia|exact A]. }
    replace (- (1 + k) + 1 - 1) with (- k - 1) by lia. replace (- (1 + k) + 1) with (- k) by lia. fold a. pose proof (T10 (- k - 1)) as T1. replace (- k - 1 + 1) with (- k) in T1 by lia. fold a in T1.
    assert (x * s <= x * 10)%Q by (apply Qmult_le_l; lra). assert (x * 1 < x * s)%Q by (apply Qmult_lt_l; lra). lra.
  - specialize (X2 eq_refl). destruct (L x X2 F1) as (n & m & s & N & M & E & U & [S1 S2] & S3). destruct (divide_q (fuel_q q) false _ x) as [n' x']. replace (0 + 9 * n' + fst (divide_q (fuel_q q) true 10 x')) with (9 * n + m) by lia. clear E L.
    set (k := 9 * n + m) in *. replace (k + 1 - 1) with k by lia. rewrite T10. pose proof (T_pos k) as TP. rewrite U. assert (s < 10)%Q as S4. { destruct (Qlt_le_dec s 10) as [C|C]; [exact C|]. exfalso. apply (not_integer q (10 ^ (k + 1)) R D). fold x. rewrite U, <- T_Z, T10 by lia. assert (s == 10)%Q as -> by lra. reflexivity. }
    split; [setoid_replace (inject_Z 10 ^ k)%Q with (1 * inject_Z 10 ^ k)%Q at 1 by ring; apply Qmult_le_compat_r; lra|apply Qmult_lt_compat_r; assumption].
Qed.
Lemma scale_down_spec n : forall x, (scale_down n x == x * inject_Z 10 ^ (- Z.of_nat n))%Q.
Proof.
  induction n as [|n IH]; intros x; cbn [scale_down]; [change (inject_Z 10 ^ (- Z.of_nat 0))%Q with 1%Q; ring|]. rewrite IH, Qred_correct. replace (- Z.of_nat (S n)) with (- Z.of_nat n + -1) by lia. rewrite T_add. change (inject_Z 10 ^ -1)%Q with (1 # 10)%Q. field.
Qed.
Lemma rat_scale_spec x e : (0 < x)%Q -> (rat_scale x e == x * inject_Z 10 ^ (- e))%Q.
Proof.
  intros P. unfold rat_scale. destruct (Z.ltb_spec e 0) as [L|L]; rewrite scale_down_spec, Z2Nat.id by lia; [|reflexivity]. rewrite Z.opp_involutive. pose proof (T_inv e) as TI. pose proof (T_pos e). pose proof (T_pos (- e)).
  setoid_replace (inject_Z 10 ^ e)%Q with (/ inject_Z 10 ^ (- e))%Q; [field; split; lra|]. rewrite <- (Qmult_1_l (/ _)), <- TI. field. lra.
Qed.
Lemma half_up_half q : (inject_Z (half_up q) - q <= 1 # 2)%Q /\ (q - inject_Z (half_up q) < 1 # 2)%Q.
Proof.
  destruct q as [a b]. unfold half_up. cbn [Qnum Qden]. set (m := (2 * a + Zpos b) / (2 * Zpos b)). pose proof (Z.div_mod (2 * a + Zpos b) (2 * Zpos b) ltac:(lia)) as DM. pose proof (Z.mod_pos_bound (2 * a + Zpos b) (2 * Zpos b) ltac:(lia)) as MB. fold m in DM.
  unfold Qle, Qlt, Qminus, Qplus, Qopp, inject_Z. cbn [Qnum Qden]. split; nia.
Qed.
Lemma half_up_compat a b : (a == b)%Q -> half_up a = half_up b.
Proof.
  intros E. destruct (half_up_half a) as [A1 A2], (half_up_half b) as [B1 B2]. revert A1 A2. generalize (half_up a). intros h A1 A2. rewrite E in A1, A2.
  assert (inject_Z (h) < inject_Z (half_up b + 1))%Q as H1 by (rewrite inject_Z_plus; change (inject_Z 1) with 1%Q; lra).
  assert (inject_Z (half_up b) < inject_Z (h + 1))%Q as H2 by (rewrite inject_Z_plus; change (inject_Z 1) with 1%Q; lra). rewrite <- Zlt_Qlt in H1, H2. lia.
Qed.
(* ---- big.Rat.FloatString ---- *)
Lemma float_string_parts n x : 0 <= n -> (0 <= x)%Q -> exists m f, m = half_up (x * inject_Z (10 ^ n)) /\ 0 <= m /\ float_string n x = format_nat 10 (m / 10 ^ n) ++ (if 0 <? n then 46 :: f else []) /\
  digits f /\ Z.of_nat (length f) = n /\ whole (format_nat 10 (m / 10 ^ n) ++ f) 0 = m.
Proof.
  intros N X. pose proof (Z.pow_pos_nonneg 10 n ltac:(lia) N) as T. unfold float_string. set (m := half_up (x * inject_Z (10 ^ n))).
  assert (TQ : (0 < inject_Z (10 ^ n))%Q) by (change 0%Q with (inject_Z 0); rewrite <-Zlt_Qlt; exact T).
  assert (0 <= m) as M. { destruct (half_up_half (x * inject_Z (10 ^ n))) as [_ H]. fold m in H. assert (0 <= x * inject_Z (10 ^ n))%Q by (apply Qmult_le_0_compat; lra). assert (inject_Z (-1) < inject_Z m)%Q as L by (change (inject_Z (-1)) with (-1)%Q; lra). rewrite <- Zlt_Qlt in L. lia. }
  exists m, (if 0 <? n then pad_left n (format_nat 10 (m mod 10 ^ n)) else []). split; [reflexivity|]. split; [exact M|]. destruct (Z.ltb_spec 0 n) as [L|L].
  - destruct (pad_left_ok n (m mod 10 ^ n) L (Z.mod_pos_bound _ _ T)) as (PD & PL & PW). split; [reflexivity|]. split; [exact PD|]. split; [exact PL|]. rewrite whole_app, PL, PW, format_nat_whole by (apply Z.div_pos; lia). pose proof (Z.div_mod m (10 ^ n) ltac:(lia)). lia.
  - split; [reflexivity|]. split; [constructor|]. split; [cbn; lia|]. rewrite app_nil_r, format_nat_whole by (apply Z.div_pos; lia). replace n with 0 by lia. apply Z.div_1_r.
Qed.
Lemma one_digit d : 1 <= d <= 9 -> format_nat 10 d = [48 + d].
Proof. intros H. assert (d = 1 \/ d = 2 \/ d = 3 \/ d = 4 \/ d = 5 \/ d = 6 \/ d = 7 \/ d = 8 \/ d = 9) as C by lia. repeat destruct C as [-> |C]; try reflexivity. subst d. reflexivity. Qed.
Lemma point_removed c f (e : Z) : c <> 48 -> match c :: 46 :: f with 48 :: _ => (skipn 2 (c :: 46 :: f), e - 1) | c :: 46 :: f => (c :: f, e) | _ => (c :: 46 :: f, e) end = (c :: f, e).
Proof. intros H. destruct c as [|p|p]; try reflexivity. do 6 (destruct p as [p|p|]; try reflexivity). contradiction. Qed.
Lemma magnitude_unique q e e' : magnitude q e -> magnitude q e' -> e = e'.
Proof. intros [A B] [C D]. assert (e - 1 < e') by (apply T_lt_inv; lra). assert (e' - 1 < e) by (apply T_lt_inv; lra). lia. Qed.
Definition rat_e (verb prec : Z) (q : Q) : res text :=
  let exp := rat_exponent q in
  let str := float_string (prec + 1) (rat_scale (Qabs q) exp) in
  let '(str, exp) := match str with
                     | 48 :: _ => (skipn 2 str, exp - 1)
                     | c :: 46 :: f => (c :: f, exp)
                     | _ => (str, exp)
                     end in
  e_format verb prec (Qnum q <? 0) str exp.
Lemma rat_e_shown verb n q : (verb = 101 \/ verb = 69) -> 0 <= n <= 800000 -> Qred q = q -> Qden q <> 1%positive -> not_billionth q -> stays_below (n + 2) q -> sized q ->
  exists t t' y y', rat_e verb n q = Ok t /\ trim_e verb t = Ok t' /\ decimal_text t y /\ decimal_text t' y' /\ one_and n t /\ trimmed t' /\ In verb t /\ In verb t' /\ (y' == y)%Q /\ about (n + 1) q y.
Proof.
  intros V N R D NB SB (e0 & M0 & E0). pose proof (rat_exponent_spec q R D NB) as M. pose proof (magnitude_unique _ _ _ M0 M) as ->. clear M0. specialize (SB _ M). destruct M as [M1 M2]. unfold rat_e. set (E := rat_exponent q) in *. replace (E + 1 - 1) with E in M1 by lia.
  pose proof (T_pos E) as TP. assert (0 < Qabs q)%Q as P by lra. pose proof (rat_scale_spec (Qabs q) E P) as RS. set (s := rat_scale (Qabs q) E) in *. pose proof (T_pos (- E)) as TM. 
  assert (0 <= s)%Q as S0 by (rewrite RS; apply Qmult_le_0_compat; lra).
  destruct (float_string_parts (n + 1) s ltac:(lia) S0) as (m & f & Em & Mp & FS & Df & Lf & W). destruct (half_up_half (s * inject_Z (10 ^ (n + 1)))) as [H1 H2]. rewrite <- Em in H1, H2. clear Em.
  (* |q| in units of the last digit shown but one *)
  set (u := (inject_Z 10 ^ (E - (n + 1)))%Q) in *. pose proof (T_pos (E - (n + 1))) as UP. fold u in UP.
  assert (s * inject_Z (10 ^ (n + 1)) * u == Qabs q)%Q as SU. { rewrite RS, <- T_Z by lia. unfold u. rewrite <- !Qmult_assoc, <- !T_add. replace (- E + (n + 1 + (E - (n + 1)))) with 0 by lia. change (inject_Z 10 ^ 0)%Q with 1%Q. ring. }
  set (w := (s * inject_Z (10 ^ (n + 1)))%Q) in *.
  assert (inject_Z 10 ^ E == inject_Z (10 ^ (n + 1)) * u)%Q as TE by (unfold u; rewrite <- T_Z, <- T_add by lia; replace (n + 1 + (E - (n + 1))) with E by lia; reflexivity).
  assert (inject_Z 10 ^ (E + 1) == inject_Z (10 ^ (n + 2)) * u)%Q as TE1 by (unfold u; rewrite <- T_Z, <- T_add by lia; replace (n + 2 + (E - (n + 1))) with (E + 1) by lia; reflexivity).
  replace (E + 1 - (n + 2)) with (E - (n + 1)) in SB by lia. fold u in SB. rewrite TE1, <- SU in SB. rewrite TE, <- SU in M1.
  assert (inject_Z (10 ^ (n + 1)) <= w)%Q as W1 by (apply Qmult_le_r with u; assumption).
  assert (w + (1 # 2) < inject_Z (10 ^ (n + 2)))%Q as W2 by (apply Qmult_lt_r with u; [exact UP|]; lra).
  assert (10 ^ (n + 1) <= m < 10 ^ (n + 2)) as MB. { split; [|rewrite Zlt_Qlt; lra]. assert (inject_Z (10 ^ (n + 1) - 1) < inject_Z m)%Q as L by (unfold Z.sub; rewrite inject_Z_plus, inject_Z_opp; change (inject_Z 1) with 1%Q; lra). rewrite <- Zlt_Qlt in L. lia. }
  set (T := 10 ^ (n + 1)) in *. assert (10 ^ (n + 2) = 10 * T) as T2 by (unfold T; replace (n + 2) with (1 + (n + 1)) by lia; rewrite Z.pow_add_r by lia; reflexivity). assert (0 < T) as T0 by (apply Z.pow_pos_nonneg; lia).
  assert (1 <= m / T <= 9) as DB by (split; [apply Z.div_le_lower_bound; lia|]; assert (m / T < 10) by (apply Z.div_lt_upper_bound; lia); lia).
  rewrite (one_digit _ DB) in FS, W. set (c := 48 + m / T) in *. assert (c <> 48) as C by (unfold c; lia).
  destruct (Z.ltb_spec 0 (n + 1)) as [_|]; [|lia]. cbn [app] in FS, W. rewrite FS. rewrite point_removed by exact C.
  assert (digits (c :: f)) as D1 by (constructor; [unfold c; lia|exact Df]).
  destruct (e_text_value (Qnum q <? 0) verb n c f E V N D1 C ltac:(lia)) as (t & t' & y & y' & T1 & T1' & DT & DT' & O & TR & I & I' & YY & Y). exists t, t', y, y'. do 9 (split; [assumption|]).
  rewrite W in Y. cbn [length] in Y. replace (Z.of_nat (S (length f) - Z.to_nat (1 + n))) with 1 in Y by lia. change (10 ^ 1) with 10 in Y. replace (E + 1 - Z.min (Z.of_nat (S (length f))) (1 + n)) with (E - n) in Y by lia.
  exists (E + 1), ((if Qnum q <? 0 then -1 else 1) * (m / 10)). split; [split; [replace (E + 1 - 1) with E by lia; rewrite TE, <- SU; exact M1|exact M2]|]. replace (E + 1 - (n + 1)) with (E - n) by lia. split; [rewrite Y, inject_Z_mult; destruct (Qnum q <? 0); unfold sgq; cbn [inject_Z]; ring|].
  assert (inject_Z 10 ^ (E - n) == 10 * u)%Q as EU by (unfold u; replace (E - n) with (E - (n + 1) + 1) by lia; rewrite T_add; change (inject_Z 10 ^ 1)%Q with 10%Q; ring).
  rewrite <- (Qabs_sg q), Y, qabs_scale, EU, <- SU. pose proof (Z.div_mod m 10 ltac:(lia)) as DM. pose proof (Z.mod_pos_bound m 10 ltac:(lia)) as MM.
  assert (inject_Z m == 10 * inject_Z (m / 10) + inject_Z (m mod 10))%Q as IM by (rewrite DM at 1; rewrite inject_Z_plus, inject_Z_mult; reflexivity).
  assert (0 <= inject_Z (m mod 10))%Q by (change 0%Q with (inject_Z 0); rewrite <- Zle_Qle; lia). assert (inject_Z (m mod 10) <= 9)%Q by (change 9%Q with (inject_Z 9); rewrite <- Zle_Qle; lia).
  set (z := inject_Z (m / 10)) in *. setoid_replace (z * (10 * u) - w * u)%Q with ((10 * z - w) * u)%Q by ring. rewrite Qabs_Qmult, (Qabs_pos u) by lra. apply Qmult_lt_compat_r; [exact UP|]. apply Qabs_Qlt_condition. lra.
Qed.

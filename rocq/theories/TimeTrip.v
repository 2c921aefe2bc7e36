From Coq Require Import QArith Qabs Lqa.
From Verif Require Import Value FloatModel FloatProofs RandSpec FloatMono FloatSign TimeModel TimeSpec TimeProofs.
Open Scope list_scope.
Open Scope Z_scope.

(* ---- days ---- *)
Lemma day_number_civil n : day_number n (civil n).
Proof.
  assert (P : forall k, 0 <= k -> day_number k (civil k)).
  { apply natlike_ind; [apply day_epoch|]. intros k K IH. eapply day_after; [exact IH|apply civil_next]. }
  assert (M : forall k, 0 <= k -> day_number (- k) (civil (- k))).
  { apply natlike_ind; [apply day_epoch|]. intros k K IH. replace (- Z.succ k) with (- k - 1) by lia. eapply day_before; [exact IH|]. replace (- k) with (- k - 1 + 1) at 2 by lia. apply civil_next. }
  destruct (Z_le_gt_dec 0 n) as [H|H]; [apply P, H|]. replace n with (- - n) by lia. apply M. lia.
Qed.
Lemma day_number_days n a : day_number n a -> match a with (y, m, d) => date y m d /\ days_of y m d = n end.
Proof.
  induction 1 as [|n a b H IH X|n a b H IH X].
  - split; [exists 31; split; [apply md31; cbn; tauto|lia]|reflexivity].
  - pose proof (days_next _ _ X) as D. destruct a as [[y m] d], b as [[y' m'] d']. destruct D as (_ & D1 & D2). split; [exact D1|]. lia.
  - pose proof (days_next _ _ X) as D. destruct a as [[y m] d], b as [[y' m'] d']. destruct D as (D0 & D1 & D2). split; [exact D0|]. lia.
Qed.
Lemma day_number_unique n a b : day_number n a -> day_number n b -> a = b.
Proof.
  intros A B. apply day_number_days in A. apply day_number_days in B. destruct a as [[y m] d], b as [[y' m'] d']. destruct A as [A1 A2], B as [B1 B2]. apply civil_days in A1. apply civil_days in B1. congruence.
Qed.
Lemma date_number y m d : date y m d -> day_number (days_of y m d) (y, m, d).
Proof. intros D. pose proof (day_number_civil (days_of y m d)) as H. rewrite (civil_days _ _ _ D) in H. exact H. Qed.
Lemma clock_unix t off y m d h mi s : clock t off y m d h mi s -> unix_of y m d h mi s off = t.
Proof. intros (_ & _ & _ & n & D & E). apply day_number_days in D. destruct D as [_ D]. unfold unix_of. rewrite D. lia. Qed.
Lemma clock_of y m d h mi s off : date y m d -> 0 <= h < 24 -> 0 <= mi < 60 -> 0 <= s < 60 -> clock (unix_of y m d h mi s off) off y m d h mi s.
Proof. intros D H M S. split; [exact H|]. split; [exact M|]. split; [exact S|]. exists (days_of y m d). split; [apply date_number, D|]. unfold unix_of. lia. Qed.
Lemma clock_unique t off y m d h mi s y' m' d' h' mi' s' : clock t off y m d h mi s -> clock t off y' m' d' h' mi' s' -> (y, m, d) = (y', m', d') /\ h = h' /\ mi = mi' /\ s = s'.
Proof.
  intros (A1 & A2 & A3 & n & D & E) (B1 & B2 & B3 & n' & D' & E'). assert (N : n = n') by lia. subst n'. split; [eapply day_number_unique; eassumption|]. lia.
Qed.

(* ---- the seconds of a time vector ---- *)
Definition sec53 (s ns : Z) : Q := rnd 53 (inject_Z s + rnd 53 (ns # 1000000000)).
Lemma ns_q ns : 0 <= ns < 1000000000 -> (0 <= ns # 1000000000)%Q /\ (ns # 1000000000 <= 1 - (1 # 1000000000))%Q.
Proof. intros H. split; unfold Qle, Qminus, Qplus, Qopp; cbn; lia. Qed.
Lemma ns_mul ns : ((ns # 1000000000) * inject_Z 1000000000 == inject_Z ns)%Q.
Proof. unfold Qeq, Qmult. cbn. lia. Qed.
Lemma inj_le a b : a <= b -> (inject_Z a <= inject_Z b)%Q. Proof. rewrite <-Zle_Qle. auto. Qed.
Lemma sec53_near s ns : 0 <= s < 60 -> 0 <= ns < 1000000000 ->
  (inject_Z s <= sec53 s ns)%Q /\ (inject_Z s + (ns # 1000000000) - (1 # 100000000000000) <= sec53 s ns)%Q /\ (sec53 s ns <= inject_Z s + (ns # 1000000000) + (1 # 100000000000000))%Q.
Proof.
  intros S N. destruct (ns_q ns N) as [A0 A1]. set (a := (ns # 1000000000)%Q) in *. unfold sec53. fold a. assert (S0 : (0 <= inject_Z s)%Q) by (apply (inj_le 0); lia). assert (S1 : (inject_Z s <= 59)%Q) by (apply (inj_le s 59); lia).
  pose proof (rnd_nonneg' 53 a ltac:(lia) A0) as R0. destruct (rnd_near 53 a 1 ltac:(lia) ltac:(lra) ltac:(lra)) as [R1 R2]. set (r := rnd 53 a) in *. clearbody r a. destruct (rnd_near 53 (inject_Z s + r) 61 ltac:(lia) ltac:(lra) ltac:(lra)) as [X1 X2].
  assert (E : (rnd 53 (inject_Z s) == inject_Z s)%Q) by (apply rnd_int; [lia|lia|reflexivity]). pose proof (rnd_mono 53 (inject_Z s) (inject_Z s + r) ltac:(lia) S0 ltac:(lra)) as M. split; [|split]; lra.
Qed.
(* what secNsec makes of a float that is not negative *)
Lemma frac_ns_near p q : 53 <= p -> (0 <= q)%Q -> let d := ((q - inject_Z (trunc q)) * inject_Z 1000000000 + (1 # 2))%Q in
  (d - (1 # 1000000) <= frac_ns p q)%Q /\ (frac_ns p q <= d + (1 # 1000000))%Q /\ (0 <= frac_ns p q)%Q.
Proof.
  intros P Q0 d. destruct (trunc_pos q Q0) as (T0 & T1 & T2). unfold frac_ns, d. clear d. set (e := (q - inject_Z (trunc q))%Q). assert (E0 : (0 <= e)%Q) by (unfold e; lra). assert (E1 : (e <= 1)%Q) by (unfold e; lra). clearbody e. change (inject_Z 1000000000) with 1000000000%Q.
  pose proof (rnd_nonneg' p e ltac:(lia) E0) as R0. destruct (rnd_near p e 1 P ltac:(lra) ltac:(lra)) as [R1 R2]. set (r := rnd p e) in *. clearbody r.
  pose proof (rnd_nonneg' p (r * 1000000000) ltac:(lia) ltac:(lra)) as Y0. destruct (rnd_near p (r * 1000000000) 1000000001 P ltac:(lra) ltac:(lra)) as [Y1 Y2]. set (y := rnd p (r * 1000000000)) in *. clearbody y.
  pose proof (rnd_nonneg' p (y + (1 # 2)) ltac:(lia) ltac:(lra)) as Z0. destruct (rnd_near p (y + (1 # 2)) 1000000003 P ltac:(lra) ltac:(lra)) as [Z1 Z2].
  split; [|split]; lra.
Qed.
Lemma sec_nsec_close p q s ns : 53 <= p -> 0 <= s -> 0 <= ns < 1000000000 -> (inject_Z s <= q)%Q ->
  (inject_Z s + (ns # 1000000000) - (1 # 2100000000) <= q)%Q -> (q <= inject_Z s + (ns # 1000000000) + (1 # 2100000000))%Q -> trunc q = s /\ trunc (frac_ns p q) = ns.
Proof.
  intros P S N Q1 Q2 Q3. destruct (ns_q ns N) as [A0 A1]. pose proof (ns_mul ns) as NM. set (a := (ns # 1000000000)%Q) in *. clearbody a. assert (S0 : (0 <= inject_Z s)%Q) by (apply (inj_le 0); lia).
  assert (T : trunc q = s) by (apply trunc_is; [lia|lra|lra]). split; [exact T|].
  destruct (frac_ns_near p q P ltac:(lra)) as (F1 & F2 & F3). rewrite T in F1, F2. change (inject_Z 1000000000) with 1000000000%Q in *. apply trunc_is; [lia|lra|lra].
Qed.
Lemma sec53_back s ns : 0 <= s < 60 -> 0 <= ns < 1000000000 -> trunc (sec53 s ns) = s /\ trunc (frac_ns 53 (sec53 s ns)) = ns.
Proof. intros S N. destruct (sec53_near s ns S N) as (A & B & C). apply sec_nsec_close; try lia; lra. Qed.

(* ---- the vector ---- *)
Lemma time_vec_clock t ns off : exists y m d h mi s, clock t off y m d h mi s /\ time_vec t ns off = [TInt y; TInt m; TInt d; TInt h; TInt mi; TFloat 53 (sec53 s ns); TInt off].
Proof.
  unfold time_vec. destruct (civil_ok ((t + off) / 86400)) as (y & m & d & C & D & N). rewrite C. exists y, m, d, ((t + off) mod 86400 / 3600), ((t + off) mod 86400 mod 3600 / 60), ((t + off) mod 86400 mod 60).
  split; [|reflexivity]. split; [zdiv|]. split; [zdiv|]. split; [zdiv|]. exists ((t + off) / 86400). split; [rewrite <-C; apply day_number_civil|zdiv].
Qed.
Lemma civil_year n y m d : civil n = (y, m, d) -> date y m d -> 365 * Z.abs y <= Z.abs n + 720000.
Proof.
  intros C D. pose proof (civil_ok n) as (y' & m' & d' & C' & D' & N). rewrite C in C'. injection C' as <- <- <-. destruct D as (k & M & K). apply month_days_is in M. destruct M as [M ->].
  rewrite days_of_in in N by exact M. destruct (month_fits (leap y) m M) as (F1 & F2 & _). unfold epoch_days, year_start in N.
  assert (F3 : month_start (leap y) m + (d - 1) <= 366) by (destruct (leap y); lia). generalize dependent (month_start (leap y) m). intros ms F1 F2 N F3. zdiv.
Qed.
Lemma clock_year t off y m d h mi s : clock t off y m d h mi s -> Z.abs t <= 10 ^ 13 -> Z.abs off <= 10 ^ 8 -> Z.abs y <= 10 ^ 6 /\ 1 <= m <= 12 /\ 1 <= d <= 31.
Proof.
  intros (H & M & S & n & D & E) T O. pose proof (day_number_days _ _ D) as [DD DN]. pose proof (civil_days _ _ _ DD) as C. rewrite DN in C. pose proof (civil_year _ _ _ _ C DD) as Y.
  split; [lia|]. destruct DD as (k & MD & K). apply month_days_is in MD. destruct MD as [M1 ->]. split; [exact M1|]. months m M1; cbn in K; destruct (leap y); lia.
Qed.

(* ---- the result of decode ---- *)
Lemma result_whole t : Z.abs t <= 9 * 10 ^ 12 -> (result t 0 == inject_Z t)%Q.
Proof.
  intros T. unfold result.
  assert (A : (rnd 64 (inject_Z (t * 1000)) == inject_Z (t * 1000))%Q) by (apply rnd_int; [lia|lia|reflexivity]).
  assert (R : forall q, (q == inject_Z (t * 1000000000))%Q -> (rnd 64 q == inject_Z (t * 1000000000))%Q).
  { intros q E. rewrite rnd_exact; [exact E|lia|]. exists (t * 1953125), 9. split; [lia|]. rewrite E. change (pow2 9) with (inject_Z 512). rewrite <-inject_Z_mult. replace (t * 1953125 * 512) with (t * 1000000000) by lia. reflexivity. }
  set (a := rnd 64 (inject_Z (t * 1000))) in *. assert (B : (rnd 64 (a * inject_Z 1000000) == inject_Z (t * 1000000000))%Q). { apply R. rewrite A, <-inject_Z_mult. replace (t * 1000 * 1000000) with (t * 1000000000) by lia. reflexivity. }
  set (b := rnd 64 (a * inject_Z 1000000)) in *. assert (C : (rnd 64 (b + inject_Z 0) == inject_Z (t * 1000000000))%Q) by (apply R; rewrite B; ring).
  set (cc := rnd 64 (b + inject_Z 0)) in *. apply rnd_int; [lia|lia|]. rewrite C, inject_Z_mult. field.
Qed.
Lemma result_near t ns : Z.abs t <= 10 ^ 10 -> 0 <= ns < 1000000000 -> (result t ns == rnd 64 (t * 1000000000 + ns # 1000000000))%Q.
Proof.
  intros T N. unfold result.
  assert (A : (rnd 64 (inject_Z (t * 1000)) == inject_Z (t * 1000))%Q) by (apply rnd_int; [lia|lia|reflexivity]). set (a := rnd 64 (inject_Z (t * 1000))) in *.
  assert (B : (rnd 64 (a * inject_Z 1000000) == inject_Z (t * 1000000000))%Q). { apply rnd_int; [lia|lia|]. rewrite A, <-inject_Z_mult. replace (t * 1000 * 1000000) with (t * 1000000000) by lia. reflexivity. }
  set (b := rnd 64 (a * inject_Z 1000000)) in *. assert (C : (rnd 64 (b + inject_Z ns) == inject_Z (t * 1000000000 + ns))%Q). { apply rnd_int; [lia|lia|]. rewrite B, <-inject_Z_plus. reflexivity. }
  set (cc := rnd 64 (b + inject_Z ns)) in *. apply rnd_compat; [lia|]. rewrite C. unfold Qeq, Qdiv, Qmult, Qinv. cbn. lia.
Qed.

(* ---- decode of what encode gives ---- *)
Lemma decode_fields c y m d h mi s ns off : 0 <= s < 60 -> 0 <= ns < 1000000000 -> Z.abs y <= 10 ^ 8 -> Z.abs m <= 10 ^ 8 -> Z.abs d <= 10 ^ 8 -> Z.abs h <= 10 ^ 8 -> Z.abs mi <= 10 ^ 8 -> Z.abs off <= 10 ^ 8 ->
  (off <> machine c \/ off = location c) ->
  exists q, decode_time c [TInt y; TInt m; TInt d; TInt h; TInt mi; TFloat 53 (sec53 s ns); TInt off] = Ok (result (unix_of y m d h mi s off) ns, [TInt y; TInt m; TInt d; TInt h; TInt mi; TFloat 53 q; TInt off]).
Proof.
  intros S N Y M D H MI O OK. destruct (sec53_back s ns S N) as [B1 B2]. exists (frac_ns 53 (sec53 s ns)). unfold decode_time.
  cbn [length Nat.eqb Nat.ltb Nat.leb orb nth_error to_int bind opt_int seconds sec_nsec fst snd firstn skipn app]. rewrite B1, B2.
  replace (if off =? machine c then location c else off) with off by (destruct (Z.eqb_spec off (machine c)); lia).
  cbn [forallb]. unfold small. replace (Z.abs y <=? 100000000) with true by lia. replace (Z.abs m <=? 100000000) with true by lia. replace (Z.abs d <=? 100000000) with true by lia. replace (Z.abs h <=? 100000000) with true by lia. replace (Z.abs mi <=? 100000000) with true by lia. replace (Z.abs s <=? 100000000) with true by lia. replace (Z.abs off <=? 100000000) with true by lia. reflexivity.
Qed.
Lemma decode_vec c t ns : Z.abs t <= 10 ^ 13 -> 0 <= ns < 1000000000 -> zone_ok c t -> exists v, decode_time c (time_vec t ns (zone c t)) = Ok (result t ns, v).
Proof.
  intros T N (Z1 & Z2 & Z3). destruct (time_vec_clock t ns (zone c t)) as (y & m & d & h & mi & s & C & E). rewrite E. pose proof (clock_year _ _ _ _ _ _ _ _ C T Z1) as (Y & M & D). pose proof C as (H & MI & S & _).
  destruct (decode_fields c y m d h mi s ns (zone c t)) as (q & Q); try lia. rewrite Q, (clock_unix _ _ _ _ _ _ _ _ C). eexists. reflexivity.
Qed.
(* ---- encode ---- *)
Lemma encode_whole c p q s : 53 <= p -> (q == inject_Z s)%Q -> Z.abs s < 2 ^ 53 -> encode_time c p q = Ok (time_vec s 0 (zone c s)).
Proof.
  intros P E S. unfold encode_time, sec_nsec. rewrite (trunc_int _ _ E). replace (Z.abs s <? 2 ^ 53) with true by lia.
  assert (F : trunc (frac_ns p q) = 0).
  { unfold frac_ns. rewrite (trunc_int _ _ E). rewrite (rnd_zero p (q - inject_Z s)) by (rewrite E; ring). rewrite (rnd_zero p (0 * _)) by ring. assert (X : (rnd p (0 + (1 # 2)) == 1 # 2)%Q). { rewrite rnd_exact; [reflexivity|lia|]. exists 1, (-1). split; [|reflexivity]. pose proof (Z.pow_pos_nonneg 2 p). lia. }
    apply trunc_is; [lia| |]; rewrite X; vm_compute; [discriminate|reflexivity]. }
  rewrite F. cbn [unix_time]. unfold unix_time. replace (0 / 1000000000) with 0 by reflexivity. replace (0 mod 1000000000) with 0 by reflexivity. rewrite Z.add_0_r. reflexivity.
Qed.
Lemma encode_near c p q : 53 <= p -> (0 <= q)%Q -> (q < inject_Z (2 ^ 53))%Q -> exists t ns, encode_time c p q = Ok (time_vec t ns (zone c t)) /\ 0 <= t /\ 0 <= ns < 1000000000 /\ (Qabs (inject_Z t + (ns # 1000000000) - q) <= 51 # 100000000000)%Q.
Proof.
  intros P Q0 Q1. destruct (trunc_pos q Q0) as (T0 & T1 & T2). assert (TB : trunc q < 2 ^ 53). { rewrite Zlt_Qlt. lra. }
  unfold encode_time, sec_nsec. replace (Z.abs (trunc q) <? 2 ^ 53) with true by lia. unfold unix_time.
  destruct (frac_ns_near p q P Q0) as (F1 & F2 & F3). destruct (trunc_pos _ F3) as (G0 & G1 & G2). set (n := trunc (frac_ns p q)) in *. exists (trunc q + n / 1000000000), (n mod 1000000000). split; [reflexivity|]. split; [zdiv|]. split; [zdiv|].
  assert (E : (inject_Z (trunc q + n / 1000000000) + (n mod 1000000000 # 1000000000) == inject_Z (trunc q) + (n # 1000000000))%Q).
  { pose proof (Z_div_mod_eq_full n 1000000000) as DM. unfold Qeq, Qplus, inject_Z. cbn. lia. }
  rewrite E. pose proof (ns_mul n) as NM. set (a := (n # 1000000000)%Q) in *. clearbody a. change (inject_Z 1000000000) with 1000000000%Q in *. apply Qabs_Qle_condition. split; lra.
Qed.
(* the float that decode gives is encoded as the same time again *)
Lemma encode_result c t ns q : (q == rnd 64 (t * 1000000000 + ns # 1000000000))%Q -> 0 <= t < 2 ^ 33 -> 0 <= ns < 1000000000 -> encode_time c 64 q = Ok (time_vec t ns (zone c t)).
Proof.
  intros E T N. set (x := (t * 1000000000 + ns # 1000000000)%Q) in *. assert (X : (x == inject_Z t + (ns # 1000000000))%Q) by (unfold x, Qeq, Qplus, inject_Z; cbn; lia).
  destruct (ns_q ns N) as [A0 A1]. assert (T0 : (0 <= inject_Z t)%Q) by (apply (inj_le 0); lia). assert (T1 : (inject_Z t <= inject_Z (2 ^ 33 - 1))%Q) by (apply inj_le; lia). change (inject_Z (2 ^ 33 - 1)) with 8589934591%Q in T1.
  pose proof (rnd_error 64 x) as R. assert (AX : (Qabs x <= 8589934592)%Q) by (apply Qabs_Qle_condition; split; rewrite X; lra). assert (U : (Qabs x * pow2 (- (64)) <= 1 # 2147483648)%Q).
  { eapply Qle_trans; [apply mul_l_le; [apply pow2_pos|exact AX]|]. vm_compute. discriminate. }
  apply Qabs_Qle_condition in R. rewrite <-E in R. assert (R1 : (x - (1 # 2147483648) <= q)%Q) by lra. assert (R2 : (q <= x + (1 # 2147483648))%Q) by lra. clear R U AX.
  assert (TI : (rnd 64 (inject_Z t) == inject_Z t)%Q) by (apply rnd_int; [lia|lia|reflexivity]). assert (LO : (inject_Z t <= q)%Q). { rewrite E, <-TI. apply rnd_mono; [lia|exact T0|]. rewrite X. lra. }
  destruct (sec_nsec_close 64 q t ns) as [B1 B2]; try lia; try lra.
  { unfold encode_time, sec_nsec. rewrite B1, B2. replace (Z.abs t <? 2 ^ 53) with true by lia. unfold unix_time. replace (ns / 1000000000) with 0 by zdiv. replace (ns mod 1000000000) with ns by zdiv. rewrite Z.add_0_r. reflexivity. }
Qed.

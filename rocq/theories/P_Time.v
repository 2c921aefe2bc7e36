(* Times: 'T' encode and 'T' decode (C92-C96). *)
From Coq Require Import QArith Qabs Lqa.
From Verif Require Import Value FloatModel FloatMono FloatSign TimeModel TimeSpec TimeProofs TimeTrip.
Open Scope list_scope.
Open Scope Z_scope.

(* The calendar of TimeSpec is one: every day has one date and every date is one day. *)
Theorem calendar_dates : forall n, exists! a, day_number n a.
Proof. intros n. exists (civil n). split; [apply day_number_civil|]. intros a A. eapply day_number_unique; [apply day_number_civil|exact A]. Qed.
Theorem calendar_days : forall y m d, date y m d -> exists! n, day_number n (y, m, d).
Proof. intros y m d D. exists (days_of y m d). split; [apply date_number, D|]. intros n N. apply day_number_days in N. apply N. Qed.

Lemma time_op c prec u v x : time_operand u -> encode_op c prec u (x :: v) = bind (to_float prec x) (fun pq => encode_time c (fst pq) (snd pq)).
Proof. intros (r & u' & -> & R). cbn [encode_op]. replace (is_t r) with true by (unfold is_t; lia). reflexivity. Qed.
Lemma time_dec c u x v : time_operand u -> decode_op c u (x :: v) = decode_time c (x :: v).
Proof. intros (r & u' & -> & R). cbn [decode_op]. replace (is_t r) with true by (unfold is_t; lia). reflexivity. Qed.
Lemma whole_vec c prec u x v s : time_operand u -> 53 <= prec -> whole x s -> Z.abs s < 2 ^ 53 -> encode_op c prec u (x :: v) = Ok (time_vec s 0 (zone c s)).
Proof.
  intros U P W S. rewrite time_op by exact U. assert (E : (rnd prec (inject_Z s) == inject_Z s)%Q). { apply rnd_int; [lia| |reflexivity]. pose proof (Z.pow_le_mono_r 2 53 prec ltac:(lia) P). lia. }
  destruct W as [-> |[-> | (p & q & P' & -> & Q)]]; cbn [to_float bind fst snd]; apply encode_whole; auto.
Qed.

(* C92.  A whole number s of seconds is encoded as the date and the time of day of the moment s seconds
   after the beginning of 1970, on a clock in the configured zone, with the offset of the zone at that
   moment. *)
Theorem time_encoded : forall c prec u x v s, time_operand u -> 53 <= prec -> whole x s -> Z.abs s < 2 ^ 53 ->
  exists y m d h mi sec q, encode_op c prec u (x :: v) = Ok [TInt y; TInt m; TInt d; TInt h; TInt mi; TFloat 53 q; TInt (zone c s)] /\
    clock s (zone c s) y m d h mi sec /\ (q == inject_Z sec)%Q.
Proof.
  intros c prec u x v s U P W S. rewrite (whole_vec c prec u x v s U P W S). destruct (time_vec_clock s 0 (zone c s)) as (y & m & d & h & mi & sec & C & E). exists y, m, d, h, mi, sec, (sec53 sec 0). rewrite E. split; [reflexivity|]. split; [exact C|].
  unfold sec53. rewrite (rnd_zero 53 (0 # 1000000000)) by reflexivity. apply rnd_int; [lia| |ring]. destruct C as (_ & _ & B & _). lia.
Qed.
Print Assumptions time_encoded.
(* Any other number of seconds that is not negative is taken to the nearest nanosecond, nearly. *)
Theorem fraction_encoded_partial : forall c prec u p q v, time_operand u -> 53 <= p -> (0 <= q)%Q -> (q < inject_Z (2 ^ 53))%Q ->
  exists t ns y m d h mi sec x, encode_op c prec u (TFloat p q :: v) = Ok [TInt y; TInt m; TInt d; TInt h; TInt mi; TFloat 53 x; TInt (zone c t)] /\
    clock t (zone c t) y m d h mi sec /\ 0 <= ns < 10 ^ 9 /\
    (Qabs (inject_Z t + (ns # 1000000000) - q) <= 51 # 100000000000)%Q /\ (Qabs (x - (inject_Z sec + (ns # 1000000000))) <= 1 # 100000000000000)%Q.
Proof.
  intros c prec u p q v U P Q0 Q1. rewrite time_op by exact U. cbn [to_float bind fst snd]. destruct (encode_near c p q P Q0 Q1) as (t & ns & E & T & N & A). rewrite E.
  destruct (time_vec_clock t ns (zone c t)) as (y & m & d & h & mi & sec & C & E2). exists t, ns, y, m, d, h, mi, sec, (sec53 sec ns). rewrite E2. split; [reflexivity|]. split; [exact C|]. split; [exact N|]. split; [exact A|].
  destruct C as (_ & _ & B & _). destruct (sec53_near sec ns B N) as (_ & X1 & X2). apply Qabs_Qle_condition. split; lra.
Qed.
Print Assumptions fraction_encoded_partial.
(* Before 1970, it may be more than a nanosecond away: -1.4 nanoseconds are encoded as the beginning of 1970. *)
Theorem fraction_encoded_refuted : exists q, let c := mkTconf (fun _ => 0) 0 0 in (q < - (13 # 10000000000))%Q /\
  encode_op c 256 [84] [TFloat 256 q] = encode_op c 256 [84] [TInt 0].
Proof. exists (rnd 256 (- (14 # 10000000000))). split; [vm_compute; reflexivity|vm_compute; reflexivity]. Qed.
Print Assumptions fraction_encoded_refuted.
(* An hour ahead of UTC, 1e9 seconds are 2001-09-09 02:46:40; and the day before March 1, 1900 was the 28th. *)
Example time_encoded_case : encode_op (mkTconf (fun _ => 3600) 0 0) 256 [84] [TInt 1000000000] = Ok [TInt 2001; TInt 9; TInt 9; TInt 2; TInt 46; TFloat 53 40; TInt 3600].
Proof. vm_compute. reflexivity. Qed.
Example before_1970_case : encode_op (mkTconf (fun _ => 0) 0 0) 256 [116] [TInt (-2203891201)] = Ok [TInt 1900; TInt 2; TInt 28; TInt 23; TInt 59; TFloat 53 59; TInt 0].
Proof. vm_compute. reflexivity. Qed.
Example fraction_case : (0 <= 5 # 4)%Q /\ encode_op (mkTconf (fun _ => 0) 0 0) 256 [84] [TFloat 256 (5 # 4)] = Ok [TInt 1970; TInt 1; TInt 1; TInt 0; TInt 0; TFloat 53 (5 # 4); TInt 0].
Proof. split; [lra|vm_compute; reflexivity]. Qed.

(* C93.  'T' decode 'T' encode s is s, for whole numbers up to the year 287000, if the offset of the zone at
   that moment is not the machine's own at present, or is the one the zone had when )timezone was given. *)
Theorem decode_encode_partial : forall c prec u u' x v s, time_operand u -> time_operand u' -> 53 <= prec -> whole x s -> Z.abs s <= 9 * 10 ^ 12 -> zone_ok c s ->
  exists t q t', encode_op c prec u (x :: v) = Ok t /\ decode_op c u' t = Ok (q, t') /\ (q == inject_Z s)%Q.
Proof.
  intros c prec u u' x v s U U' P W S Z1. assert (S' : Z.abs s < 2 ^ 53) by lia. exists (time_vec s 0 (zone c s)). destruct (decode_vec c s 0 ltac:(lia) ltac:(lia) Z1) as (t' & D). exists (result s 0), t'. split; [apply whole_vec; assumption|]. split; [|apply result_whole, S].
  destruct (time_vec_clock s 0 (zone c s)) as (y & m & d & h & mi & sec & C & E). rewrite E in *. rewrite time_dec by exact U'. exact D.
Qed.
Print Assumptions decode_encode_partial.
(* Otherwise it may be an hour off: on a machine in UTC, with )timezone "Europe/London" given in July 2024. *)
Definition london : tconf := mkTconf (fun t => if (1711846800 <=? t) && (t <? 1729990800) then 3600 else 0) 1720000000 0.
Theorem decode_encode_refuted : exists s t q t', encode_op london 256 [84] [TInt s] = Ok t /\ decode_op london [84] t = Ok (q, t') /\ (q == inject_Z (s - 3600))%Q.
Proof. exists 1705320000. eexists _, _, _. split; [vm_compute; reflexivity|]. split; vm_compute; reflexivity. Qed.
Print Assumptions decode_encode_refuted.
(* Of any other number of seconds, up to the year 2242, the nanoseconds come back: the time encoded once more is the same. *)
Theorem encode_decode_encode_partial : forall c prec u p q v, time_operand u -> 53 <= p -> (0 <= q)%Q -> (q < inject_Z (2 ^ 33 - 1))%Q -> (forall t, zone_ok c t) ->
  exists t r t', encode_op c prec u (TFloat p q :: v) = Ok t /\ decode_op c u t = Ok (r, t') /\ encode_op c prec u [TFloat 64 r] = Ok t /\ (Qabs (r - q) <= 1 # 1000000000)%Q.
Proof.
  intros c prec u p q v U P Q0 Q1 ZO. assert (Q2 : (q < inject_Z (2 ^ 53))%Q) by (eapply Qlt_trans; [exact Q1|rewrite <-Zlt_Qlt; lia]). destruct (encode_near c p q P Q0 Q2) as (t & ns & E & T & N & A).
  assert (TB : t < 2 ^ 33). { apply Qabs_Qle_condition in A. destruct (ns_q ns N) as [N0 N1]. rewrite Zlt_Qlt. replace (2 ^ 33) with (2 ^ 33 - 1 + 1) by lia. rewrite inject_Z_plus. change (inject_Z 1) with 1%Q. lra. }
  exists (time_vec t ns (zone c t)). destruct (decode_vec c t ns ltac:(lia) N (ZO t)) as (t' & D). exists (result t ns), t'. rewrite !time_op by exact U. cbn [to_float bind fst snd]. split; [exact E|].
  assert (R : (result t ns == rnd 64 (t * 1000000000 + ns # 1000000000))%Q) by (apply result_near; [lia|exact N]).
  split; [destruct (time_vec_clock t ns (zone c t)) as (y & m & d & h & mi & sec & C & E2); rewrite E2 in *; rewrite time_dec by exact U; exact D|]. split; [apply encode_result; [exact R|lia|exact N]|].
  set (x := (t * 1000000000 + ns # 1000000000)%Q) in *. assert (X : (x == inject_Z t + (ns # 1000000000))%Q) by (unfold x, Qeq, Qplus, inject_Z; cbn; lia). destruct (ns_q ns N) as [N0 N1].
  assert (T0 : (0 <= inject_Z t)%Q) by (apply (inj_le 0); lia). assert (T1 : (inject_Z t <= inject_Z (2 ^ 33 - 1))%Q) by (apply inj_le; lia). change (inject_Z (2 ^ 33 - 1)) with 8589934591%Q in *.
  pose proof (FloatProofs.rnd_error 64 x) as RE. assert (AX : (Qabs x <= 8589934592)%Q) by (apply Qabs_Qle_condition; split; rewrite X; lra). assert (UU : (Qabs x * pow2 (- (64)) <= 48 # 100000000000)%Q).
  { eapply Qle_trans; [apply mul_l_le; [apply FloatProofs.pow2_pos|exact AX]|]. vm_compute. discriminate. }
  apply Qabs_Qle_condition in RE. apply Qabs_Qle_condition in A. apply Qabs_Qle_condition. rewrite <-R in RE. lra.
Qed.
Print Assumptions encode_decode_encode_partial.
(* It is not so before 1970: the time gains a nanosecond. *)
Theorem encode_decode_encode_refuted : exists c q t r t' t2, (forall t, zone_ok c t) /\ encode_op c 256 [84] [TFloat 256 q] = Ok t /\ decode_op c [84] t = Ok (r, t') /\ encode_op c 256 [84] [TFloat 64 r] = Ok t2 /\ t2 <> t.
Proof.
  exists (mkTconf (fun _ => 0) 0 0), (rnd 256 (- (3 # 10))). do 4 eexists. split; [intros t; split; [cbn; lia|]; split; [cbn; lia|]; right; reflexivity|]. split; [vm_compute; reflexivity|]. split; [vm_compute; reflexivity|]. split; [vm_compute; reflexivity|]. vm_compute. discriminate.
Qed.
Print Assumptions encode_decode_encode_refuted.
Example decode_encode_case : zone_ok london 1720000000 /\ whole (TInt 1720000000) 1720000000 /\
  match encode_op london 256 [84] [TInt 1720000000] with Ok t => match decode_op london [84] t with Ok (q, _) => q = inject_Z 1720000000 | _ => False end | _ => False end.
Proof. split; [split; [vm_compute; discriminate|]; split; [vm_compute; discriminate|]; left; vm_compute; discriminate|]. split; [left; reflexivity|vm_compute; reflexivity]. Qed.

(* C94.  The vector of a date, a time of day and an offset is decoded as that moment, and the moment is
   encoded as the vector, if the zone has that offset then and is as in C93. *)
Lemma unix_bound y m d h mi s off : Z.abs y <= 200000 -> date y m d -> 0 <= h < 24 -> 0 <= mi < 60 -> 0 <= s < 60 -> Z.abs off <= 10 ^ 8 -> Z.abs (unix_of y m d h mi s off) <= 9 * 10 ^ 12.
Proof.
  intros Y (n & MD & D) H MI S O. apply month_days_is in MD. destruct MD as [M ->]. unfold unix_of. rewrite days_of_in by exact M. destruct (month_fits (leap y) m M) as (F1 & F2 & _). unfold epoch_days, year_start.
  assert (F3 : month_start (leap y) m + (d - 1) <= 366) by (destruct (leap y); lia). generalize dependent (month_start (leap y) m). intros ms F1 F2 F3. clear F2 M. assert (D1 : 1 <= d) by lia. clear D. zdiv.
Qed.
Lemma dec_ints c y m d h mi s off : Z.abs y <= 10 ^ 8 -> Z.abs m <= 10 ^ 8 -> Z.abs d <= 10 ^ 8 -> Z.abs h <= 10 ^ 8 -> Z.abs mi <= 10 ^ 8 -> Z.abs s <= 10 ^ 8 -> Z.abs off <= 10 ^ 8 -> (off <> machine c \/ off = location c) ->
  decode_time c [TInt y; TInt m; TInt d; TInt h; TInt mi; TInt s; TInt off] = Ok (result (unix_of y m d h mi s off) 0, [TInt y; TInt m; TInt d; TInt h; TInt mi; TInt s; TInt off]).
Proof.
  intros Y M D H MI S O OK. unfold decode_time. cbn [length Nat.eqb Nat.ltb Nat.leb orb nth_error to_int bind opt_int seconds sec_nsec fst snd firstn skipn app].
  replace (if off =? machine c then location c else off) with off by (destruct (Z.eqb_spec off (machine c)); lia).
  cbn [forallb]. unfold small. replace (Z.abs y <=? 100000000) with true by lia. replace (Z.abs m <=? 100000000) with true by lia. replace (Z.abs d <=? 100000000) with true by lia. replace (Z.abs h <=? 100000000) with true by lia. replace (Z.abs mi <=? 100000000) with true by lia. replace (Z.abs s <=? 100000000) with true by lia. replace (Z.abs off <=? 100000000) with true by lia. reflexivity.
Qed.
Theorem decode_moment_partial : forall c u y m d h mi s off t, time_operand u -> clock t off y m d h mi s -> Z.abs y <= 200000 -> Z.abs off <= 10 ^ 8 -> (off <> machine c \/ off = location c) ->
  let v := [TInt y; TInt m; TInt d; TInt h; TInt mi; TInt s; TInt off] in exists q, decode_op c u v = Ok (q, v) /\ (q == inject_Z t)%Q.
Proof.
  intros c u y m d h mi s off t U C Y O OK v. pose proof C as (H & MI & S & n & DN & _). apply day_number_days in DN. destruct DN as [D _]. pose proof (unix_bound y m d h mi s off Y D H MI S O) as B. pose proof (clock_unix _ _ _ _ _ _ _ _ C) as E. rewrite E in B.
  destruct (clock_year _ _ _ _ _ _ _ _ C ltac:(lia) O) as (_ & M1 & D1). exists (result t 0). unfold v. rewrite time_dec by exact U. rewrite dec_ints by lia. rewrite E. split; [reflexivity|apply result_whole, B].
Qed.
Print Assumptions decode_moment_partial.
Theorem encode_decode_partial : forall c prec u y m d h mi s t, time_operand u -> clock t (zone c t) y m d h mi s -> Z.abs y <= 200000 -> zone_ok c t ->
  let v x := [TInt y; TInt m; TInt d; TInt h; TInt mi; x; TInt (zone c t)] in exists q x, decode_op c u (v (TInt s)) = Ok (q, v (TInt s)) /\ encode_op c prec u [TFloat 64 q] = Ok (v (TFloat 53 x)) /\ (x == inject_Z s)%Q.
Proof.
  intros c prec u y m d h mi s t U C Y (O1 & O2 & OK) v. destruct (decode_moment_partial c u y m d h mi s (zone c t) t U C Y O1 OK) as (q & D & Q). pose proof C as (H & MI & S & n & DN & _). apply day_number_days in DN. destruct DN as [DD _].
  pose proof (unix_bound y m d h mi s (zone c t) Y DD H MI S O1) as B. rewrite (clock_unix _ _ _ _ _ _ _ _ C) in B. exists q, (sec53 s 0). split; [exact D|].
  assert (W : whole (TFloat 64 q) t) by (right; right; exists 64, q; split; [lia|]; split; [reflexivity|exact Q]). split.
  - rewrite time_op by exact U. cbn [to_float bind fst snd]. rewrite (encode_whole c 64 q t) by (try lia; exact Q). destruct (time_vec_clock t 0 (zone c t)) as (y' & m' & d' & h' & mi' & s' & C' & E). rewrite E.
    destruct (clock_unique _ _ _ _ _ _ _ _ _ _ _ _ _ _ C C') as (DE & -> & -> & ->). injection DE as -> -> ->. reflexivity.
  - unfold sec53. rewrite (rnd_zero 53 (0 # 1000000000)) by reflexivity. apply rnd_int; [lia|lia|ring].
Qed.
Print Assumptions encode_decode_partial.
(* A shorter vector is the beginning of the year, month, day, hour or minute, in the zone as it was when )timezone was given. *)
Theorem decode_shorter_partial : forall c u y m d h mi s, time_operand u -> Z.abs (location c) <= 10 ^ 8 -> Z.abs y <= 200000 -> date y m d -> 0 <= h < 24 -> 0 <= mi < 60 -> 0 <= s < 60 ->
  forall v y' m' d' h' mi' s', In (v, (y', m', d', h', mi', s')) [([TInt y], (y, 1, 1, 0, 0, 0)); ([TInt y; TInt m], (y, m, 1, 0, 0, 0)); ([TInt y; TInt m; TInt d], (y, m, d, 0, 0, 0)); ([TInt y; TInt m; TInt d; TInt h], (y, m, d, h, 0, 0));
     ([TInt y; TInt m; TInt d; TInt h; TInt mi], (y, m, d, h, mi, 0)); ([TInt y; TInt m; TInt d; TInt h; TInt mi; TInt s], (y, m, d, h, mi, s))] ->
  exists q t, decode_op c u v = Ok (q, v) /\ clock t (location c) y' m' d' h' mi' s' /\ (q == inject_Z t)%Q.
Proof.
  intros c u y m d h mi s U L Y D H MI S v y' m' d' h' mi' s' I.
  assert (D1 : date y 1 1) by (exists 31; split; [apply md31; cbn; tauto|lia]).
  assert (Dm : date y m 1) by (destruct D as (n & MD & K); exists n; split; [exact MD|lia]).
  pose proof (clock_year _ _ _ _ _ _ _ _ (clock_of y m d h mi s 0 D H MI S)) as CY. pose proof (unix_bound y m d h mi s 0 Y D H MI S ltac:(lia)) as B0. destruct (CY ltac:(lia) ltac:(lia)) as (_ & M1 & DD1).
  cbn [In] in I. repeat destruct I as [I|I]; try contradiction; injection I as <- <- <- <- <- <- <-;
  rewrite time_dec by exact U; unfold decode_time; cbn [length Nat.eqb Nat.ltb Nat.leb orb nth_error to_int bind opt_int seconds sec_nsec fst snd firstn skipn app forallb]; unfold small;
  repeat match goal with |- context [Z.abs ?z <=? 100000000] => replace (Z.abs z <=? 100000000) with true by lia end; cbn [andb negb];
  match goal with |- context [result ?t 0] => exists (result t 0), t end; (split; [reflexivity|]); (split; [apply clock_of; auto; lia|apply result_whole, unix_bound; auto; lia]).
Qed.
Print Assumptions decode_shorter_partial.
(* The wall clock does not come back when the offset has changed since: noon on January 15 is decoded with the
   offset of July, and encoded as 11 o'clock. *)
Theorem encode_decode_refuted : exists q t, decode_op london [84] [TInt 2024; TInt 1; TInt 15; TInt 12] = Ok (q, t) /\
  encode_op london 256 [84] [TFloat 64 q] = Ok [TInt 2024; TInt 1; TInt 15; TInt 11; TInt 0; TFloat 53 0; TInt 0].
Proof. eexists _, _. split; [vm_compute; reflexivity|vm_compute; reflexivity]. Qed.
Print Assumptions encode_decode_refuted.
(* A month after the twelfth is a month of the next year, and so on. *)
Theorem months_carry : forall y m d h mi s off, unix_of y (m + 12) d h mi s off = unix_of (y + 1) m d h mi s off.
Proof.
  intros. unfold unix_of, days_of. replace ((m + 12 - 1) / 12) with ((m - 1) / 12 + 1) by zdiv. replace ((m + 12 - 1) mod 12) with ((m - 1) mod 12) by zdiv. replace (y + ((m - 1) / 12 + 1)) with (y + 1 + (m - 1) / 12) by lia. reflexivity.
Qed.
Print Assumptions months_carry.
Example decode_case : clock 951782400 0 2000 2 29 0 0 0 /\ decode_op (mkTconf (fun _ => 0) 0 0) [84] [TInt 2000; TInt 2; TInt 29] = Ok (inject_Z 951782400, [TInt 2000; TInt 2; TInt 29]).
Proof.
  split; [|vm_compute; reflexivity]. split; [lia|]. split; [lia|]. split; [lia|]. exists 11016. split; [|reflexivity]. change (2000, 2, 29) with (civil 11016). apply day_number_civil.
Qed.

(* C95.  decode leaves its operand as it was if there are no floats in it. *)
Theorem decode_preserves_partial : forall c u v q v', (forall p x, nth_error v 5 <> Some (TFloat p x)) -> decode_op c u v = Ok (q, v') -> v' = v.
Proof.
  intros c u v q v' NF H. destruct u as [|r u]; [cbn in H; congruence|]. destruct v as [|x v]; [cbn in H; congruence|]. cbn [decode_op] in H. destruct (is_t r); [|discriminate]. set (w := x :: v) in *. clearbody w. unfold decode_time in H.
  destruct ((length w =? 0)%nat || (7 <? length w)%nat); [discriminate|]. match type of H with bind ?a _ = _ => destruct a as [loc| | |]; try discriminate end. cbn [bind] in H.
  destruct (nth_error w 5) as [s|] eqn:E.
  - assert (SP : firstn 5 w ++ s :: skipn 6 w = w) by (clear - E; do 6 (destruct w as [|? w]; [discriminate|]); cbn in E; injection E as ->; reflexivity).
    assert (X : forall z, seconds s = Ok z -> snd z = s).
    { intros z Z1. destruct s as [n|n|qq|p qq|]; cbn [seconds] in Z1; [injection Z1 as <-; reflexivity|destruct (int64 n); [injection Z1 as <-; reflexivity|discriminate]| |exfalso; exact (NF p qq eq_refl)|discriminate]. cbn zeta in Z1. unfold sec_nsec in Z1. injection Z1 as <-. reflexivity. }
    destruct (seconds s) as [z| | |] eqn:SE; cbn [bind] in H; try discriminate. specialize (X z eq_refl). rewrite X, SP in H.
    destruct (opt_int w 4 0); cbn [bind] in H; try discriminate. destruct (opt_int w 3 0); cbn [bind] in H; try discriminate. destruct (opt_int w 2 1); cbn [bind] in H; try discriminate. destruct (opt_int w 1 1); cbn [bind] in H; try discriminate. destruct (opt_int w 0 0); cbn [bind] in H; try discriminate.
    destruct (negb _); [discriminate|]. injection H as _ <-. reflexivity.
  - cbn [bind] in H. destruct (opt_int w 4 0); cbn [bind] in H; try discriminate. destruct (opt_int w 3 0); cbn [bind] in H; try discriminate. destruct (opt_int w 2 1); cbn [bind] in H; try discriminate. destruct (opt_int w 1 1); cbn [bind] in H; try discriminate. destruct (opt_int w 0 0); cbn [bind] in H; try discriminate.
    destruct (negb _); [discriminate|]. injection H as _ <-. reflexivity.
Qed.
Print Assumptions decode_preserves_partial.
(* But every time that encode gives has one: after x = 'T' encode 5, 'T' decode x is 5, and then it is 0, as
   the seconds of x have become half a second. *)
Theorem decode_preserves_refuted : exists x x' q q' x'', let c := mkTconf (fun _ => 0) 0 0 in
  encode_op c 256 [84] [TInt 5] = Ok x /\ decode_op c [84] x = Ok (q, x') /\ (q == 5)%Q /\ x' <> x /\ decode_op c [84] x' = Ok (q', x'') /\ ~ (q' == 5)%Q.
Proof. do 5 eexists. split; [vm_compute; reflexivity|]. split; [vm_compute; reflexivity|]. split; [reflexivity|]. split; [discriminate|]. split; [vm_compute; reflexivity|]. vm_compute. discriminate. Qed.
Print Assumptions decode_preserves_refuted.
Example decode_preserves_case : match decode_op london [84] [TInt 2024; TInt 7; TInt 1; TInt 12; TInt 30; TRat (5 # 2)] with
  | Ok (q, v) => (q == 1719833402 + (1 # 2))%Q /\ v = [TInt 2024; TInt 7; TInt 1; TInt 12; TInt 30; TRat (5 # 2)] | _ => False end.
Proof. vm_compute. split; reflexivity. Qed.

(* C96.  Times do not make it panic, unless an operand is empty. *)
Theorem times_total_partial : forall c prec u v, u <> [] -> v <> [] -> encode_op c prec u v <> Crash /\ decode_op c u v <> Crash.
Proof.
  intros c prec u v U V. destruct u as [|r u]; [congruence|]. destruct v as [|x v]; [congruence|]. cbn [encode_op decode_op]. destruct (is_t r); [|split; discriminate]. split.
  - destruct x; cbn [to_float bind]; try discriminate; unfold encode_time, sec_nsec; destruct (_ <? _); try discriminate; unfold unix_time; discriminate.
  - assert (TI : forall v, to_int v <> Crash) by (intros [z|z|q|p q|]; cbn; try discriminate; destruct (int64 z); discriminate).
    assert (OI : forall l k d, opt_int l k d <> Crash) by (intros l k d; unfold opt_int; destruct (nth_error l k); [apply TI|discriminate]).
    assert (SC : forall v, seconds v <> Crash) by (intros [z|z|q|p q|]; cbn -[sec_nsec]; try discriminate; try (destruct (int64 z); discriminate); unfold sec_nsec; discriminate).
    set (w := x :: v). unfold decode_time. destruct (_ || _); [discriminate|].
    match goal with |- bind ?a _ <> _ => assert (A : a <> Crash); [|destruct a; cbn [bind]; try discriminate; try congruence] end.
    { destruct (nth_error w 6) as [o|]; [|discriminate]. specialize (TI o). destruct (to_int o); cbn [bind]; congruence. }
    match goal with |- bind ?a _ <> _ => assert (B : a <> Crash); [|destruct a; cbn [bind]; try discriminate; try congruence] end.
    { destruct (nth_error w 5) as [o|]; [|discriminate]. specialize (SC o). destruct (seconds o); cbn [bind]; congruence. }
    pose proof (OI w 4%nat 0). destruct (opt_int w 4 0); cbn [bind]; try congruence. pose proof (OI w 3%nat 0). destruct (opt_int w 3 0); cbn [bind]; try congruence. pose proof (OI w 2%nat 1). destruct (opt_int w 2 1); cbn [bind]; try congruence. pose proof (OI w 1%nat 1). destruct (opt_int w 1 1); cbn [bind]; try congruence. pose proof (OI w 0%nat 0). destruct (opt_int w 0 0); cbn [bind]; try congruence.
    destruct (negb _); discriminate.
Qed.
Print Assumptions times_total_partial.
(* Decode does not panic on any operand, and an empty one gives 0. *)
Theorem decode_total : forall c u v, decode_op c u v <> Crash /\ (u = [] \/ v = [] -> decode_op c u v = Ok (0%Q, v)).
Proof.
  intros c u v. split.
  - destruct u as [|r u]; [discriminate|]. destruct v as [|x v]; [discriminate|]. apply (proj2 (times_total_partial c 256 (r :: u) (x :: v) ltac:(discriminate) ltac:(discriminate))).
  - intros [-> | ->]; [reflexivity|]. destruct u; reflexivity.
Qed.
Print Assumptions decode_total.
(* (iota 0) encode 5 and 'T' encode iota 0. *)
Theorem times_total_refuted : forall c prec, encode_op c prec [] [TInt 5] = Crash /\ encode_op c prec [84] [] = Crash.
Proof. split; reflexivity. Qed.
Print Assumptions times_total_refuted.

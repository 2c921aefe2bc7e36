(* Printed numbers have the form of numbers; decimal notation is read exactly. *)
From Coq Require Import String QArith Qpower Lqa Qfield.
From Verif Require Import Value NumModel NumSpec NumProofs ScanModel ScanSpec ScanProofs ScanNext TextModel TextSpec TextProofs TextScan.
Open Scope string_scope.
Open Scope list_scope.
Open Scope Z_scope.

Section Base.
Variables (ib ob : Z).
Hypothesis lib : legal_base ib.
Hypothesis same : real_base ib = real_base ob.
Lemma dig_base : forall r, dig (real_base ob) r -> base_digit ib r.
Proof.
  intros r (d & H & ->). rewrite <-same in H. unfold digit_char, base_digit, real_base in *. destruct (d <? 10) eqn:E; [lia|]. right. destruct (ib =? 0) eqn:Z; [lia|]. lia.
Qed.
Lemma nat_digits : forall n, 0 <= n -> base_digits ib (format_nat (real_base ob) n).
Proof.
  intros n N. pose proof (rb ib ob lib same) as R. split.
  - destruct (format_nat_ne (real_base ob) n ltac:(lia) N) as (r & t & -> & _). discriminate.
  - eapply Forall_impl; [exact dig_base|]. apply format_nat_digs; lia.
Qed.
Lemma int_text : forall z, real_text ib (format_int (real_base ob) z).
Proof.
  intros z. unfold format_int. destruct (z <? 0) eqn:E; [right; eexists; split; [|reflexivity]|left]; left; apply nat_digits; lia.
Qed.
Lemma real_text_print : forall c v t, obase c = ob -> print_real c v = Ok t -> real_text ib t.
Proof.
  intros c v t HO P. destruct v as [z|z|z|q|a b|l|s l]; try discriminate; cbn [print_real] in P.
  - injection P as <-. unfold print_int. rewrite HO. apply int_text.
  - apply print_big_int in P. unfold prints_int in P. rewrite P, HO. apply int_text.
  - destruct (print_big c (Qnum q)) as [n| | |] eqn:P1; try discriminate. cbn [bind] in P.
    destruct (print_big c (Z.pos (Qden q))) as [d| | |] eqn:P2; try discriminate. cbn [bind] in P. injection P as <-.
    apply print_big_int in P1, P2. unfold prints_int in *. rewrite P1, P2, HO. 
    assert (D : base_digits ib (format_int (real_base ob) (Z.pos (Qden q)))) by (unfold format_int; cbn [Z.ltb Z.compare]; apply nat_digits; lia).
    unfold format_int at 1. destruct (Qnum q <? 0) eqn:E.
    + right. exists (format_nat (real_base ob) (- Qnum q) ++ [47] ++ format_int (real_base ob) (QDen q)). split; [|reflexivity].
      right. exists (format_nat (real_base ob) (- Qnum q)), (format_int (real_base ob) (QDen q)). split; [apply nat_digits; lia|]. split; [exact D|reflexivity].
    + left. right. exists (format_nat (real_base ob) (Qnum q)), (format_int (real_base ob) (QDen q)). split; [apply nat_digits; lia|]. split; [exact D|reflexivity].
Qed.
Lemma number_text_print : forall c v t, obase c = ob -> print_num c v = Ok t -> number_text ib t.
Proof.
  intros c v t HO P. destruct v as [z|z|z|q|a b|l|s l]; try (left; eapply real_text_print; [exact HO|exact P]).
  cbn [print_num] in P. destruct (print_real c a) as [x| | |] eqn:P1; try discriminate. cbn [bind] in P.
  destruct (print_real c b) as [y| | |] eqn:P2; try discriminate. cbn [bind] in P. injection P as <-.
  right. exists x, y. split; [eapply real_text_print; eauto|]. split; [eapply real_text_print; eauto|reflexivity].
Qed.
Lemma numbers_print : forall c l t, obase c = ob -> l <> [] -> print_numbers c l = Ok t ->
  exists ts, t = spaced ts /\ ts <> [] /\ Forall (number_text ib) ts /\ Forall2 (fun v x => print_num c v = Ok x) l ts.
Proof.
  intros c l t HO N. revert t. induction l as [|v l IH]; [contradiction|]. intros t P. destruct l as [|w l].
  - exists [t]. split; [reflexivity|]. split; [discriminate|]. split; [constructor; [|constructor]; eapply number_text_print; eauto|]. constructor; [exact P|constructor].
  - change (print_numbers c (v :: w :: l)) with (let! x := print_num c v in let! y := print_numbers c (w :: l) in Ok (x ++ [32] ++ y)) in P.
    destruct (print_num c v) as [x| | |] eqn:P1; try discriminate. cbn [bind] in P.
    destruct (print_numbers c (w :: l)) as [y| | |] eqn:P2; try discriminate. cbn [bind] in P. injection P as <-.
    destruct (IH ltac:(discriminate) y eq_refl) as (ts & -> & T1 & T2 & T3). exists (x :: ts).
    split; [destruct ts; [contradiction|reflexivity]|]. split; [discriminate|]. split; [constructor; [eapply number_text_print; eauto|exact T2]|]. constructor; auto.
Qed.
Lemma real_chars : forall t, real_text ib t -> Forall (fun r => 0 <= r /\ r <> 13) t.
Proof.
  assert (D : forall d, base_digits ib d -> Forall (fun r => 0 <= r /\ r <> 13) d).
  { intros d [_ D]. eapply Forall_impl; [|exact D]. intros r [H|H]; lia. }
  assert (U : forall u, unsigned_text ib u -> Forall (fun r => 0 <= r /\ r <> 13) u).
  { intros u [H|(a & b & Ha & Hb & ->)]; [apply D, H|]. apply Forall_app; split; [apply D, Ha|]. constructor; [lia|apply D, Hb]. }
  intros t [H|(u & H & ->)]; [apply U, H|]. constructor; [lia|apply U, H].
Qed.
Lemma number_chars : forall t, number_text ib t -> Forall (fun r => 0 <= r /\ r <> 13) t.
Proof.
  intros t [H|(a & b & Ha & Hb & ->)]; [apply real_chars, H|]. apply Forall_app; split; [apply real_chars, Ha|]. constructor; [lia|apply real_chars, Hb].
Qed.
Lemma spaced_chars : forall ts, Forall (number_text ib) ts -> Forall (fun r => 0 <= r /\ r <> 13) (spaced ts).
Proof.
  intros ts F. induction F as [|t ts H F IH]; [constructor|]. destruct ts; [apply number_chars, H|].
  change (spaced (t :: t0 :: ts)) with (t ++ [32] ++ spaced (t0 :: ts)). apply Forall_app; split; [apply number_chars, H|]. constructor; [lia|exact IH].
Qed.
End Base.

Lemma nocr_id : forall t, Forall (fun r => 0 <= r /\ r <> 13) t -> nocr t = t.
Proof. intros t F. unfold nocr. induction F as [|x t H F IH]; [reflexivity|]. cbn [filter]. destruct (x =? 13) eqn:E; [lia|]. cbn [negb]. rewrite IH. reflexivity. Qed.

(* printed numbers, at the beginning of a text, are scanned as the tokens they were printed as *)
Theorem printed_numbers : forall c pc vs t l, legal_base (ibase c) -> real_base (ibase c) = real_base (obase pc) -> no_digit_operators c ->
  vs <> [] -> Forall canonical_num vs -> print_numbers pc vs = Ok t -> number_end l -> Forall (fun r => 0 <= r) l -> ~ In 13 l ->
  exists ts s, reads c (new_scanner (t ++ l)) (map (mkTok TNumber) ts) s /\ to_come s = l /\
    Forall2 (fun x v => parse_num (ibase c) x = Ok v) ts vs.
Proof.
  intros c pc vs t l LB SB ND N C P E NN CR. destruct (numbers_print (ibase c) (obase pc) LB SB pc vs t eq_refl N P) as (ts & -> & T1 & T2 & T3).
  pose proof (spaced_chars (ibase c) ts T2) as SC.
  assert (LC : Forall (fun r => 0 <= r /\ r <> 13) l). { rewrite Forall_forall in *. intros r Hr. split; [apply NN, Hr|intros ->; contradiction]. }
  assert (AC : Forall (fun r => 0 <= r /\ r <> 13) (spaced ts ++ l)) by (apply Forall_app; auto).
  destruct (new_between (spaced ts ++ l)) as [B TC]; [eapply Forall_impl; [|exact AC]; cbn; intros; lia|].
  rewrite nocr_id in TC by exact AC.
  destruct (numbers_read c LB ND ts (new_scanner (spaced ts ++ l)) l B T1 T2 TC E) as (s & S1 & S2 & S3); [left; reflexivity|].
  exists ts, s. split; [exact S1|]. split; [exact S2|].
  clear -C T3 LB SB. induction T3 as [|v x vs ts H T3 IH]; [constructor|]. inversion C; subst. constructor; [|apply IH; assumption].
  apply (print_parse (ibase c) (obase pc) LB SB pc v x eq_refl); assumption.
Qed.

(* ---- decimal notation ---- *)
Lemma take_digits_app : forall d l, digits d -> between 48 (hd (-1) l) 57 = false -> take_digits (d ++ l) = (d, l).
Proof.
  intros d l D H. induction D as [|r d R D IH]; cbn [app take_digits].
  - destruct l as [|x l]; [reflexivity|]. cbn [hd] in H. cbn [take_digits]. rewrite H. reflexivity.
  - assert (between 48 r 57 = true) as -> by (unfold between; lia). rewrite IH. reflexivity.
Qed.
Lemma whole_fold : forall d acc, whole d acc = fold_left (fun a r => a * 10 + (r - 48)) d acc.
Proof. induction d as [|r d IH]; intros acc; [reflexivity|]. cbn [whole fold_left]. rewrite IH. f_equal. lia. Qed.
Lemma whole_acc : forall d acc, whole d acc = acc * 10 ^ Z.of_nat (length d) + whole d 0.
Proof.
  induction d as [|r d IH]; intros acc; [cbn [whole length]; change (10 ^ Z.of_nat 0) with 1; lia|]. cbn [whole length]. rewrite (IH (10 * acc + (r - 48))), (IH (10 * 0 + (r - 48))), Nat2Z.inj_succ, Z.pow_succ_r by lia. ring.
Qed.
Lemma decimal_app : forall a f, decimal (a ++ f) = whole a 0 * 10 ^ Z.of_nat (length f) + whole f 0.
Proof. intros a f. unfold decimal. rewrite fold_left_app, <-!whole_fold. apply whole_acc. Qed.
Lemma whole_nonneg : forall d acc, digits d -> 0 <= acc -> 0 <= whole d acc.
Proof. intros d acc D. revert acc. induction D; intros acc A; [exact A|]. cbn [whole]. apply IHD. lia. Qed.
Open Scope Q_scope.
Lemma qpow_power : forall b n, (0 < b)%Z -> qpow b n == inject_Z b ^ n.
Proof.
  intros b n B. unfold qpow. destruct (n <? 0)%Z eqn:E.
  - rewrite <-(Z.opp_involutive n) at 2. rewrite Qpower_opp. assert (X : inject_Z b ^ (- n) == inject_Z (b ^ (- n))) by (symmetry; apply Zpower_Qpower; lia).
    rewrite X. pose proof (Z.pow_pos_nonneg b (- n) B ltac:(lia)) as P. destruct (b ^ (- n))%Z eqn:Eb; try lia. reflexivity.
  - apply Zpower_Qpower. lia.
Qed.
Lemma fraction_eq : forall f, fraction f == inject_Z (whole f 0) * inject_Z 10 ^ (- Z.of_nat (length f)).
Proof.
  induction f as [|r f IH]; [reflexivity|]. cbn [fraction whole length]. rewrite IH, (whole_acc f (10 * 0 + (r - 48))).
  rewrite Nat2Z.inj_succ. replace (- Z.succ (Z.of_nat (length f)))%Z with (- Z.of_nat (length f) + -1)%Z by lia.
  rewrite Qpower_plus by (unfold Qeq; cbn; lia). rewrite inject_Z_plus, inject_Z_mult, (Zpower_Qpower 10 (Z.of_nat (length f))) by lia.
  rewrite Qpower_opp. change (inject_Z 10 ^ (-1)) with (1 # 10). change (10 * 0 + (r - 48))%Z with (r - 48)%Z. set (p := inject_Z 10 ^ Z.of_nat (length f)).
  assert (~ p == 0). { unfold p. rewrite <-Zpower_Qpower by lia. pose proof (Z.pow_pos_nonneg 10 (Z.of_nat (length f)) ltac:(lia) ltac:(lia)). unfold Qeq, inject_Z; cbn. lia. }
  field. assumption.
Qed.
Close Scope Q_scope.
Lemma exponent_read : forall e base k, exponent_text e base k -> exists two, read_exponent e = Some (two, k) /\ base = (if two then 2 else 10) /\
  between 48 (hd (-1) e) 57 = false /\ (hd (-1) e =? 46) = false /\ Forall (fun r => r <> 95 /\ r <> 47 /\ r <> 106 /\ r <> 46) e.
Proof.
  intros e base k [(-> & -> & ->)|(r & s & x & sg & -> & R & S & D & N & K)].
  - exists false. cbn. repeat split; constructor.
  - assert (DX : Forall (fun r => r <> 95 /\ r <> 47 /\ r <> 106 /\ r <> 46) x) by (eapply Forall_impl; [|exact D]; cbn; intros; lia).
    assert (DS : Forall (fun r => r <> 95 /\ r <> 47 /\ r <> 106 /\ r <> 46) s) by (destruct S as [(-> & _)|[(-> & _)|(-> & _)]]; repeat constructor; lia).
    assert (M : mem r (zs "eEpP") = true /\ (Z.lor r 32 =? 112) = (base =? 2) /\ (base = 10 \/ base = 2) /\ (r = 101 \/ r = 69 \/ r = 112 \/ r = 80)).
    { destruct R as [[[ -> | -> ] -> ]|[[ -> | -> ] -> ]]; repeat split; auto. }
    destruct M as (M1 & M2 & M3 & M4). exists (base =? 2).
    assert (T : take_digits x = (x, [])) by (rewrite <-(app_nil_r x) at 1; apply take_digits_app; [exact D|reflexivity]).
    assert (SG : match s ++ x with 43 :: t => (false, t) | 45 :: t => (true, t) | _ => (false, s ++ x) end = ((sg =? -1), x)).
    { destruct S as [(-> & ->)|[(-> & ->)|(-> & ->)]]; try reflexivity. destruct x as [|y x]; [contradiction|]. cbn [app]. inversion D; subst. clear -H1.
      destruct y as [|p|p]; try lia. repeat (destruct p as [p|p|]; try lia; try reflexivity). }
    cbn [read_exponent]. rewrite M1, M2, SG, T. split.
    + destruct x as [|y x]; [contradiction|]. destruct S as [(_ & ->)|[(_ & ->)|(_ & ->)]]; cbn [Z.eqb Pos.eqb]; unfold decimal; rewrite <-whole_fold, K; do 2 f_equal; lia.
    + split; [destruct M3 as [-> | ->]; reflexivity|]. cbn [hd]. split; [unfold between; lia|]. split; [lia|]. constructor; [lia|]. apply Forall_app; auto.
Qed.
(* no integer is read from a text with a character that is no digit *)
Definition bad (b r : Z) : Prop := r <> 95 /\ match digit_val r with Some d => b <= d | None => True end.
Lemma read_digits_bad : forall b us s acc, Exists (bad b) s -> read_digits b us s acc = None.
Proof.
  intros b us s acc E. revert acc. induction E as [r s [N H]|r s E IH]; intros acc; cbn [read_digits].
  - assert ((r =? 95) = false) as -> by lia. rewrite andb_false_r. destruct (digit_val r); [|reflexivity]. assert ((z <? b) = false) as -> by lia. reflexivity.
  - destruct (us && _); [apply IH|]. destruct (digit_val r); [|reflexivity]. destruct (_ <? _); [apply IH|reflexivity].
Qed.
Definition plain_second (s : text) : Prop :=
  match s with 48 :: x :: _ => 48 <= x <= 57 \/ x = 46 \/ x = 101 \/ x = 69 \/ x = 112 \/ x = 80 | _ => True end.
Lemma lor_plain : forall x, 48 <= x <= 57 \/ x = 46 \/ x = 101 \/ x = 69 \/ x = 112 \/ x = 80 ->
  (Z.lor x 32 =? 98) = false /\ (Z.lor x 32 =? 111) = false /\ (Z.lor x 32 =? 120) = false.
Proof.
  intros x H. assert (I : In x [48; 49; 50; 51; 52; 53; 54; 55; 56; 57; 46; 101; 69; 112; 80]) by (cbn; lia). clear H.
  repeat (destruct I as [<-|I]; [repeat split|]). destruct I.
Qed.
Lemma read_unsigned_bad : forall base s, plain_second s -> Exists (bad (if base =? 0 then 10 else base)) s -> read_unsigned base s = None.
Proof.
  intros base s HP E. unfold read_unsigned. destruct s as [|r s]; [reflexivity|]. destruct (base =? 0) eqn:B; [|apply read_digits_bad, E].
  assert (E8 : Exists (bad 8) (r :: s)).
  { eapply Exists_impl; [|exact E]. intros y [Y1 Y2]. split; [exact Y1|]. destruct (digit_val y); [lia|exact Logic.I]. }
  assert (P : exists b d p, prefix (r :: s) = (b, d, p) /\ Exists (bad b) d).
  { destruct (Z.eq_dec r 48) as [->|R].
    - assert (E8' : Exists (bad 8) s). { inversion E8 as [? ? Y|]; subst; [|assumption]. destruct Y as [_ Y]. cbn in Y. lia. }
      destruct s as [|x [|y s]]; [exists 8, [], true; split; [reflexivity|exact E8']|exists 8, [x], true; split; [reflexivity|exact E8']|].
      cbn [prefix]. cbv zeta. cbn [plain_second] in HP. destruct (lor_plain x HP) as (-> & -> & ->). exists 8, (x :: y :: s), true. split; [reflexivity|exact E8'].
    - exists 10, (r :: s), false. split; [|exact E]. cbn [prefix]. destruct r as [|p|p]; try reflexivity. repeat (destruct p as [p|p|]; try reflexivity). contradiction. }
  destruct P as (b & d & p & -> & EB). destruct (separators_ok p d); [apply read_digits_bad, EB|reflexivity].
Qed.
Lemma plain_no_prefix : forall s, plain_second s -> has_prefix s = false.
Proof.
  intros s H. destruct s as [|r [|x s]]; [reflexivity|destruct r as [|p|p]; try reflexivity; repeat (destruct p as [p|p|]; try reflexivity)|].
  destruct (Z.eq_dec r 48) as [->|R].
  - cbn [has_prefix plain_second] in *. change (zs "xXoObB") with [120; 88; 111; 79; 98; 66]. unfold mem. cbn [existsb]. lia.
  - destruct r as [|p|p]; try reflexivity. repeat (destruct p as [p|p|]; try reflexivity). contradiction.
Qed.
(* reading with the sign taken off *)
Lemma signed : forall A (f : bool -> text -> A) s sg u, sign_text s sg -> hd 0 u <> 43 -> hd 0 u <> 45 ->
  match s ++ u with 43 :: t => f false t | 45 :: t => f true t | _ => f false (s ++ u) end = f (sg =? -1) u.
Proof.
  intros A f s sg u S N1 N2. destruct S as [(-> & ->)|[(-> & ->)|(-> & ->)]]; try reflexivity. cbn [app]. destruct u as [|y u]; [reflexivity|]. cbn [hd] in *.
  destruct y as [|p|p]; try reflexivity. repeat (destruct p as [p|p|]; try reflexivity; try contradiction).
Qed.
Theorem decimal_exact : forall base t q, decimal_text t q -> mem 46 t = true \/ mem 101 t || mem 69 t = true /\ base <= 14 \/ mem 112 t || mem 80 t = true /\ base <= 25 ->
  gives (parse_num base t) q.
Proof.
  intros base t q (s & sg & m & places & x & e & b & k & Et & S & (a & f & Da & Df & Na & Pl & Ex & Em) & E & R & Eq) HB.
  destruct (exponent_read e b k E) as (two & E1 & E2 & E3 & E4 & E5).
  assert (DA : forall d, digits d -> Forall (fun r => r <> 95 /\ r <> 47 /\ r <> 106 /\ r <> 46) d) by (intros d D; eapply Forall_impl; [|exact D]; cbn; intros; lia).
  assert (M0 : Forall (fun r => r <> 95 /\ r <> 47 /\ r <> 106) m).
  { assert (DA' : forall d, digits d -> Forall (fun r => r <> 95 /\ r <> 47 /\ r <> 106) d) by (intros d D; eapply Forall_impl; [|exact D]; cbn; intros; lia).
    destruct Em as [->|[-> ->]]; [|apply DA', Da]. apply Forall_app; split; [apply DA', Da|]. constructor; [lia|apply DA', Df]. }
  set (u := m ++ e). assert (U0 : Forall (fun r => r <> 95 /\ r <> 47 /\ r <> 106) u).
  { apply Forall_app; split; [exact M0|]. eapply Forall_impl; [|exact E5]. cbn. intros; tauto. }
  assert (T0 : Forall (fun r => r <> 47 /\ r <> 106) t).
  { rewrite Et. apply Forall_app; split; [destruct S as [(-> & _)|[(-> & _)|(-> & _)]]; repeat constructor; lia|]. eapply Forall_impl; [|exact U0]. cbn. intros; tauto. }
  assert (HU : hd 0 u <> 43 /\ hd 0 u <> 45).
  { unfold u. destruct Em as [->|[-> ->]]; destruct a as [|y a]; cbn [app hd]; try lia; try (inversion Da; subst; lia). rewrite app_nil_r in Na. contradiction. }
  destruct HU as [HU1 HU2].
  assert (PS : plain_second u).
  { unfold u. assert (PE : forall z e', e = z :: e' -> 48 <= z <= 57 \/ z = 46 \/ z = 101 \/ z = 69 \/ z = 112 \/ z = 80).
    { intros z e' ->. destruct E as [(Y & _)|(r & ? & ? & ? & Y & Rr & _)]; [discriminate Y|]. injection Y as <- _. lia. }
    destruct Em as [->|[-> ->]]; (destruct a as [|y [|z a]]; [cbn [app]|cbn [app]|cbn [app]]).
    - exact Logic.I.
    - cbn [plain_second]. destruct y as [|p|p]; try exact Logic.I. repeat (destruct p as [p|p|]; try exact Logic.I). lia.
    - inversion Da as [|? ? _ D2]; subst. inversion D2; subst. cbn [plain_second]. destruct y as [|p|p]; try exact Logic.I. repeat (destruct p as [p|p|]; try exact Logic.I). lia.
    - rewrite app_nil_r in Na. contradiction.
    - destruct e as [|z e']; [destruct y as [|p|p]; try exact Logic.I; repeat (destruct p as [p|p|]; try exact Logic.I)|]. specialize (PE z e' eq_refl). cbn [plain_second]. destruct y as [|p|p]; try exact Logic.I. repeat (destruct p as [p|p|]; try exact Logic.I). exact PE.
    - inversion Da as [|? ? _ D2]; subst. inversion D2; subst. cbn [plain_second]. destruct y as [|p|p]; try exact Logic.I. repeat (destruct p as [p|p|]; try exact Logic.I). lia. }
  assert (SM : forall y, y <> 43 -> y <> 45 -> mem y t = true -> In y u).
  { intros y Y1 Y2 M. rewrite Et in M. change (m ++ e) with u in M. unfold mem in M. rewrite existsb_app in M. apply orb_true_iff in M. destruct M as [M|M].
    - exfalso. destruct S as [(-> & _)|[(-> & _)|(-> & _)]]; cbn in M; lia.
    - apply existsb_exists in M. destruct M as (w & W1 & W2). apply Z.eqb_eq in W2. subst w. exact W1. }
  assert (BD : Exists (bad (if base =? 0 then 10 else base)) u).
  { assert (IN : forall y, In y u -> bad (if base =? 0 then 10 else base) y -> Exists (bad (if base =? 0 then 10 else base)) u) by (intros y Y1 Y2; apply Exists_exists; eauto).
    destruct HB as [M|[[M B]|[M B]]].
    - apply (IN 46); [apply SM; auto; lia|]. split; [lia|exact Logic.I].
    - apply orb_true_iff in M. destruct M as [M|M]; [apply (IN 101)|apply (IN 69)]; try (apply SM; auto; lia); (split; [lia|]); cbn; destruct (base =? 0); lia.
    - apply orb_true_iff in M. destruct M as [M|M]; [apply (IN 112)|apply (IN 80)]; try (apply SM; auto; lia); (split; [lia|]); cbn; destruct (base =? 0); lia. }
  assert (RI : read_int base t = None).
  { rewrite Et. change (m ++ e) with u. unfold read_int. pose proof (signed (option Z) (fun n w => if n then option_map Z.opp (read_unsigned base w) else read_unsigned base w) s sg u S HU1 HU2) as G.
    cbv beta iota in G. rewrite G, read_unsigned_bad by assumption. destruct (sg =? -1); reflexivity. }
  assert (FL : existsb (fun r => mem r (zs ".eEpP")) t = true).
  { apply existsb_exists. destruct HB as [M|[[M _]|[M _]]]; [|apply orb_true_iff in M; destruct M as [M|M] ..];
    apply existsb_exists in M; destruct M as (w & W1 & W2); apply Z.eqb_eq in W2; subst w; eexists; (split; [exact W1|reflexivity]). }
  unfold parse_num, parse_real. rewrite !mem_no by (eapply Forall_impl; [|exact T0]; cbn; intros; tauto).
  unfold parse_int. rewrite RI, FL. unfold parse_float. 
  rewrite Et. change (m ++ e) with u. match goal with |- gives (let '(neg, s1) := ?x in _) _ => assert (SGN : x = (sg =? -1, u)) by exact (signed (bool * text) (fun n w => (n, w)) s sg u S HU1 HU2); rewrite SGN; clear SGN end.
  rewrite plain_no_prefix, orb_false_r by exact PS.
  assert (existsb (fun r => r =? 95) u = false) as ->.
  { destruct (existsb (fun r => r =? 95) u) eqn:Q; [|reflexivity]. apply existsb_exists in Q. destruct Q as (w & W1 & W2). rewrite Forall_forall in U0. specialize (U0 w W1). lia. }
  assert (TD : exists s2, take_digits u = (a, s2) /\ match s2 with 46 :: t => take_digits t | _ => ([], s2) end = (f, e)).
  { unfold u. destruct Em as [->|[-> ->]].
    - exists (46 :: f ++ e). rewrite <-app_assoc. split; [apply take_digits_app; [exact Da|reflexivity]|]. apply take_digits_app; assumption.
    - exists e. split; [apply take_digits_app; assumption|]. destruct e as [|z e']; [reflexivity|]. cbn [hd] in E4. destruct z as [|p|p]; try reflexivity. repeat (destruct p as [p|p|]; try reflexivity). discriminate E4. }
  destruct TD as (s2 & -> & ->). destruct (a ++ f) as [|d0 d] eqn:Eaf; [contradiction|]. rewrite <-Eaf, E1.
  rewrite decimal_app, <-Pl. set (mm := whole a 0 * 10 ^ places + whole f 0).
  assert (P0 : 0 <= places) by lia.
  assert (VAL : (q == inject_Z (sg * mm) * inject_Z 10 ^ (- places) * inject_Z b ^ k)%Q).
  { rewrite Eq, Ex, fraction_eq, <-Pl. unfold mm. rewrite inject_Z_mult, inject_Z_plus, inject_Z_mult, Zpower_Qpower by lia. rewrite Qpower_opp. set (pp := (inject_Z 10 ^ places)%Q).
    assert (~ (pp == 0)%Q). { unfold pp. rewrite <-Zpower_Qpower by lia. pose proof (Z.pow_pos_nonneg 10 places ltac:(lia) ltac:(lia)). unfold Qeq, inject_Z; cbn. lia. }
    field. assumption. }
  destruct R as [KB R].
  assert (KC : ((1000000 <? Z.abs ((if two then 0 else k) - places)) || (10000000 <? Z.abs (k - places))) = false).
  { rewrite E2 in R. destruct two; cbn [Z.eqb Pos.eqb] in R; lia. }
  replace ((- 2 ^ 63 <=? k) && (k <? 2 ^ 63)) with true by lia. cbn [negb]. rewrite KC.
  assert (SS : (if sg =? -1 then - mm else mm) = sg * mm) by (destruct S as [(_ & ->)|[(_ & ->)|(_ & ->)]]; cbn [Z.eqb Pos.eqb]; lia).
  rewrite SS. destruct (mm =? 0) eqn:Z0.
  - apply Z.eqb_eq in Z0. exists (VInt 0), (inject_Z 0). split; [reflexivity|]. split; [cbn; lia|]. split; [reflexivity|]. rewrite VAL, Z0, Z.mul_0_r. unfold Qeq. cbn. reflexivity.
  - set (qq := Qred _). exists (shrink_rat qq), qq. split; [reflexivity|]. split; [apply near_valid, shrink_rat_near; unfold qq; apply Qred_complete, Qred_correct|]. split; [apply shrink_rat_val|].
    unfold qq. rewrite Qred_correct, VAL, !qpow_power by lia.
    assert (T52 : (inject_Z 10 == inject_Z 5 * inject_Z 2)%Q) by reflexivity.
    assert (N5 : ~ (inject_Z 5 == 0)%Q) by (unfold Qeq; cbn; lia). assert (N2 : ~ (inject_Z 2 == 0)%Q) by (unfold Qeq; cbn; lia).
    assert (PM : forall n, (inject_Z 10 ^ n == inject_Z 5 ^ n * inject_Z 2 ^ n)%Q) by (intros n; rewrite T52; apply Qmult_power).
    rewrite E2. destruct two.
    + rewrite PM. unfold Z.sub. rewrite Z.add_0_l, !Qpower_plus by assumption. ring.
    + rewrite !PM. unfold Z.sub. rewrite !Qpower_plus by assumption. ring.
Qed.

(* ---- what can be printed ---- *)
Lemma bitlen_fits : forall z m, 0 <= m -> Z.abs z < 2 ^ m -> bitlen z <= m.
Proof.
  intros z m M H. unfold bitlen. destruct (z =? 0) eqn:E; [lia|]. assert (Z.log2 (Z.abs z) < m); [|lia]. apply Z.log2_lt_pow2; lia.
Qed.
Lemma print_big_ok : forall c z, 0 <= maxdigits c -> printable_int c z -> exists t, print_big c z = Ok t.
Proof.
  intros c z M [F B]. unfold print_big. cbv zeta.
  assert (negb (maxdigits c * 33222 / 10000 =? 0) && (maxdigits c * 33222 / 10000 <? bitlen z) = false) as ->.
  { apply andb_false_iff. destruct F as [F|F]; [left; rewrite F; reflexivity|right]. apply bitlen_fits in F; [lia|]. apply Z.div_pos; lia. }
  destruct (bitlen z <? intBits) eqn:E; [eauto|]. destruct B as [B|B].
  - apply (bitlen_fits z 31) in B || (assert (Z.abs z < 2 ^ 31) as B' by lia; apply (bitlen_fits z 31) in B'; [unfold intBits in E; lia|lia]).
  - cbn in B. destruct B as [<-|[<-|[<-|[<-|[<-|[]]]]]]; cbn; eauto.
Qed.
Theorem prints : forall c v, 0 <= maxdigits c -> printable c v -> exists t, print_num c v = Ok t.
Proof.
  intros c v M P.
  assert (R : forall v, printable_real c v -> exists t, print_real c v = Ok t).
  { clear v P. intros v P. destruct v as [z|z|z|q|a b|l|s l]; try contradiction; cbn [printable_real print_real] in *; [eauto|apply print_big_ok; assumption|].
    destruct P as [P1 P2]. destruct (print_big_ok c _ M P1) as (n & ->). destruct (print_big_ok c _ M P2) as (d & ->). cbn [bind]. eauto. }
  destruct v as [z|z|z|q|a b|l|s l]; try (apply R; exact P). destruct P as [Pa Pb]. cbn [print_num]. destruct (R a Pa) as (x & ->). destruct (R b Pb) as (y & ->). cbn [bind]. eauto.
Qed.

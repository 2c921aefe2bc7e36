(* Printing and reading numbers. *)
From Coq Require Import String.
From Verif Require Import Value NumModel NumSpec ScanModel TextModel TextSpec.
Open Scope list_scope.
Open Scope Z_scope.

Definition dig (b r : Z) : Prop := exists d, 0 <= d < b /\ r = digit_char d.
Lemma digit_char_val : forall d, 0 <= d < 36 -> digit_val (digit_char d) = Some d.
Proof.
  intros d H. unfold digit_val, digit_char, between. destruct (d <? 10) eqn:E.
  - replace ((48 <=? 48 + d) && (48 + d <=? 57)) with true by lia. f_equal. lia.
  - replace ((48 <=? 87 + d) && (87 + d <=? 57)) with false by lia.
    assert (L : Z.lor (87 + d) 32 = 87 + d).
    { assert (A : forallb (fun d => Z.lor (87 + d) 32 =? 87 + d) (map Z.of_nat (seq 10 26)) = true) by (vm_compute; reflexivity).
      rewrite forallb_forall in A. apply Z.eqb_eq, A. apply in_map_iff. exists (Z.to_nat d). split; [lia|]. apply in_seq. lia. }
    rewrite L. replace ((97 <=? 87 + d) && (87 + d <=? 122)) with true by lia. f_equal. lia.
Qed.
Lemma dig_char : forall b r, 2 <= b <= 16 -> dig b r -> (48 <= r <= 57 \/ 97 <= r <= 102).
Proof. intros b r B (d & H & ->). unfold digit_char. destruct (d <? 10) eqn:E; lia. Qed.

Lemma read_format : forall us b, 2 <= b <= 16 -> forall f n acc, (0 < f)%nat -> 0 <= n < 2 ^ Z.of_nat f ->
  read_digits b us (format_digits f b n acc) 0 = read_digits b us acc n.
Proof.
  intros us b B. assert (R : forall d acc a, 0 <= d < b -> read_digits b us (digit_char d :: acc) a = read_digits b us acc (a * b + d)).
  { intros d acc a D. cbn [read_digits]. assert ((digit_char d =? 95) = false) as ->.
    { destruct (dig_char b (digit_char d) B); [exists d; auto| |]; lia. }
    rewrite andb_false_r, digit_char_val by lia. replace (d <? b) with true by lia. reflexivity. }
  induction f; intros n acc F N; [lia|]. cbn [format_digits]. destruct (n <? b) eqn:E.
  - rewrite R by lia. f_equal; lia.
  - destruct f.
    { change (Z.of_nat 1) with 1 in N. lia. }
    rewrite IHf; [| lia |].
    + rewrite R by (apply Z.mod_pos_bound; lia). f_equal. pose proof (Z.div_mod n b ltac:(lia)). lia.
    + split; [apply Z.div_pos; lia|]. apply Z.div_lt_upper_bound; [lia|]. replace (Z.of_nat (S (S f))) with (Z.of_nat (S f) + 1) in N by lia.
      rewrite Z.pow_add_r in N by lia. pose proof (Z.pow_pos_nonneg 2 (Z.of_nat (S f)) ltac:(lia) ltac:(lia)). nia.
Qed.
Lemma format_digs : forall b, 2 <= b -> forall f n acc, 0 <= n -> Forall (dig b) acc -> Forall (dig b) (format_digits f b n acc).
Proof.
  intros b B. induction f; intros n acc N A; cbn [format_digits]; [assumption|]. destruct (n <? b) eqn:E.
  - constructor; [exists n; split; [lia|reflexivity]|assumption].
  - apply IHf; [apply Z.div_pos; lia|]. constructor; [|assumption]. exists (n mod b). split; [apply Z.mod_pos_bound; lia|reflexivity].
Qed.
Lemma format_head : forall b, 2 <= b -> forall f n acc, 0 < n < 2 ^ Z.of_nat f -> exists r t, format_digits f b n acc = r :: t /\ r <> 48.
Proof.
  intros b B. induction f; intros n acc N; [cbn in N; lia|]. cbn [format_digits]. destruct (n <? b) eqn:E.
  - eexists. eexists. split; [reflexivity|]. unfold digit_char. destruct (n <? 10); lia.
  - apply IHf. split; [apply Z.div_str_pos; lia|]. apply Z.div_lt_upper_bound; [lia|]. replace (Z.of_nat (S f)) with (Z.of_nat f + 1) in N by lia.
    rewrite Z.pow_add_r in N by lia. pose proof (Z.pow_pos_nonneg 2 (Z.of_nat f) ltac:(lia) ltac:(lia)). nia.
Qed.
Lemma fuel_ok : forall n, 0 <= n -> n < 2 ^ Z.of_nat (S (Z.to_nat (Z.log2 n))).
Proof.
  intros n N. destruct (Z.eq_dec n 0) as [->|Z]; [vm_compute; reflexivity|]. pose proof (Z.log2_spec n ltac:(lia)) as [_ H].
  replace (Z.of_nat (S (Z.to_nat (Z.log2 n)))) with (Z.succ (Z.log2 n)); [exact H|]. pose proof (Z.log2_nonneg n). lia.
Qed.
Lemma format_nat_digs : forall b n, 2 <= b -> 0 <= n -> Forall (dig b) (format_nat b n).
Proof. intros. apply format_digs; auto. Qed.
Lemma format_nat_ne : forall b n, 2 <= b -> 0 <= n -> exists r t, format_nat b n = r :: t /\ (n <> 0 -> r <> 48) /\ (n = 0 -> r = 48 /\ t = []).
Proof.
  intros b n B N. destruct (Z.eq_dec n 0) as [->|Z].
  - exists 48, []. unfold format_nat. cbn [format_digits]. replace (0 <? b) with true by lia. split; [reflexivity|]. split; [congruence|auto].
  - unfold format_nat. destruct (format_head b B (S (Z.to_nat (Z.log2 n))) n []) as (r & t & H1 & H2); [pose proof (fuel_ok n N); lia|].
    exists r, t. split; [exact H1|]. split; auto. congruence.
Qed.
Lemma seps_ok : forall s p, Forall (fun r => r <> 95) s -> (s = [] -> p = true) -> separators_ok p s = true.
Proof.
  induction s as [|r s IH]; intros p F E; [apply E; reflexivity|]. cbn [separators_ok]. inversion F; subst. destruct (r =? 95) eqn:Q; [apply Z.eqb_eq in Q; contradiction|]. apply IH; auto.
Qed.
Lemma dig_facts : forall b r, 2 <= b <= 16 -> dig b r -> r <> 95 /\ r <> 47 /\ r <> 106 /\ r <> 43 /\ r <> 45 /\ 0 <= r.
Proof. intros b r B D. destruct (dig_char b r B D); lia. Qed.
Lemma read_unsigned_format : forall ib n, legal_base ib -> 0 <= n -> read_unsigned ib (format_nat (real_base ib) n) = Some n.
Proof.
  intros ib n L N. assert (RB : 2 <= real_base ib <= 16) by (unfold real_base; destruct L as [->|L]; [cbn; lia|destruct (ib =? 0); lia]).
  destruct (format_nat_ne (real_base ib) n ltac:(lia) N) as (r & t & E & E1 & E2).
  pose proof (format_nat_digs (real_base ib) n ltac:(lia) N) as D.
  assert (RF : forall us, read_digits (real_base ib) us (format_nat (real_base ib) n) 0 = Some n).
  { intros us. unfold format_nat. rewrite read_format; [reflexivity|assumption|lia|]. pose proof (fuel_ok n N). lia. }
  unfold read_unsigned. rewrite E in *. unfold real_base in *. destruct (ib =? 0) eqn:Eb; [|apply RF].
  assert (NU : Forall (fun r => r <> 95) (r :: t)) by (eapply Forall_impl; [|exact D]; intros a Ha; apply (dig_facts 10 a); [lia|exact Ha]).
  destruct (Z.eq_dec n 0) as [->|Z].
  - destruct (E2 eq_refl) as [-> ->]. reflexivity.
  - specialize (E1 Z). assert (P : prefix (r :: t) = (10, r :: t, false)).
    { clear -E1. unfold prefix. destruct r as [|p|p]; try reflexivity. repeat (destruct p as [p|p|]; try reflexivity). contradiction. }
    rewrite P, seps_ok by (auto; discriminate). apply RF.
Qed.
Lemma read_int_format : forall ib z, legal_base ib -> read_int ib (format_int (real_base ib) z) = Some z.
Proof.
  intros ib z L. unfold format_int. destruct (z <? 0) eqn:E.
  - cbn [read_int]. rewrite read_unsigned_format by (auto; lia). cbn. f_equal. lia.
  - assert (RB : 2 <= real_base ib <= 16) by (unfold real_base; destruct L as [->|L]; [cbn; lia|destruct (ib =? 0); lia]).
    pose proof (read_unsigned_format ib z L ltac:(lia)) as R. pose proof (format_nat_digs (real_base ib) z ltac:(lia) ltac:(lia)) as D.
    destruct (format_nat_ne (real_base ib) z ltac:(lia) ltac:(lia)) as (r & t & H & _). rewrite H in *. inversion D as [|? ? D1]; subst.
    destruct (dig_facts _ _ RB D1) as (_ & _ & _ & N1 & N2 & N3). unfold read_int. clear -R N1 N2 N3.
    destruct r as [|p|p]; [exact R| |lia]. repeat (destruct p as [p|p|]; try exact R); try (exfalso; apply N1; reflexivity); try (exfalso; apply N2; reflexivity).
Qed.

(* characters of a printed integer *)
Definition int_char (r : Z) : Prop := r = 45 \/ 48 <= r <= 57 \/ 97 <= r <= 102.
Lemma format_chars : forall b z, 2 <= b <= 16 -> Forall int_char (format_int b z) /\ format_int b z <> [].
Proof.
  intros b z B. assert (G : forall n, 0 <= n -> Forall int_char (format_nat b n) /\ format_nat b n <> []).
  { intros n N. split.
    - eapply Forall_impl; [|apply format_nat_digs; [|exact N]; lia]. intros a Ha. right. apply (dig_char b); auto.
    - destruct (format_nat_ne b n ltac:(lia) N) as (r & t & -> & _). discriminate. }
  unfold format_int. destruct (z <? 0) eqn:E; [|apply G; lia]. split; [|discriminate]. constructor; [left; reflexivity|apply G; lia].
Qed.
Lemma mem_app' : forall x a b, mem x (a ++ b) = mem x a || mem x b.
Proof. intros. apply existsb_app. Qed.
Lemma mem_no : forall x t, Forall (fun r => r <> x) t -> mem x t = false.
Proof. intros x t F. unfold mem. induction F; [reflexivity|]. cbn. destruct (x =? x0) eqn:E; [apply Z.eqb_eq in E; congruence|assumption]. Qed.
Lemma cut_app : forall sep a b, Forall (fun r => r <> sep) a -> cut sep (a ++ sep :: b) = Some (a, b).
Proof.
  intros sep a b F. induction F; cbn [app cut]; [rewrite Z.eqb_refl; reflexivity|]. destruct (x =? sep) eqn:E; [apply Z.eqb_eq in E; contradiction|]. rewrite IHF. reflexivity.
Qed.
Lemma two_parts_app : forall sep a b, Forall (fun r => r <> sep) a -> Forall (fun r => r <> sep) b -> a <> [] -> b <> [] -> two_parts sep (a ++ [sep] ++ b) = Ok (a, b).
Proof.
  intros sep a b Fa Fb Na Nb. unfold two_parts. cbn [app]. rewrite cut_app by assumption. rewrite mem_no by assumption. destruct a, b; try contradiction. reflexivity.
Qed.

(* what an integer is printed as *)
Definition prints_int (ob z : Z) (t : text) : Prop := t = format_int (real_base ob) z.
Lemma print_big_int : forall c z t, print_big c z = Ok t -> prints_int (obase c) z t.
Proof.
  intros c z t. unfold print_big, prints_int, print_int. destruct (_ && _); [discriminate|]. destruct (_ <? _); [intros [= <-]; reflexivity|]. unfold real_base.
  destruct (obase c =? 0) eqn:E0; [intros [= <-]; reflexivity|].
  destruct (obase c =? 10) eqn:E1; [apply Z.eqb_eq in E1; rewrite E1; intros [= <-]; reflexivity|].
  destruct (obase c =? 2) eqn:E2; [apply Z.eqb_eq in E2; rewrite E2; intros [= <-]; reflexivity|].
  destruct (obase c =? 8) eqn:E3; [apply Z.eqb_eq in E3; rewrite E3; intros [= <-]; reflexivity|].
  destruct (obase c =? 16) eqn:E4; [apply Z.eqb_eq in E4; rewrite E4; intros [= <-]; reflexivity|]. discriminate.
Qed.
Definition int_value (z : Z) : value := if (- 2 ^ 31 <=? z) && (z <? 2 ^ 31) then VInt z else shrink_big z.
Lemma bitlen_out : forall z, ~ (- 2 ^ 31 <= z < 2 ^ 31) -> (bitlen z <? intBits) = false.
Proof.
  intros z H. unfold bitlen, intBits. destruct (z =? 0) eqn:E; [lia|]. assert (31 <= Z.log2 (Z.abs z)); [|lia]. apply Z.log2_le_pow2; lia.
Qed.
Lemma int_value_eq : forall z, int_value z = if (- 2 ^ 31 <=? z) && (z <? 2 ^ 31) then VInt z else VBig z.
Proof.
  intros z. unfold int_value. destruct ((- 2 ^ 31 <=? z) && (z <? 2 ^ 31)) eqn:E; [reflexivity|]. unfold shrink_big. rewrite bitlen_out by lia. reflexivity.
Qed.
Section Base.
Variables (ib ob : Z).
Hypothesis lib : legal_base ib.
Hypothesis same : real_base ib = real_base ob.
Lemma rb : 2 <= real_base ob <= 16.
Proof. rewrite <-same. unfold real_base. destruct lib as [->|L]; [cbn; lia|destruct (ib =? 0); lia]. Qed.
Lemma parse_int_print : forall z t, prints_int ob z t -> parse_int ib t = Ok (int_value z).
Proof.
  intros z t ->. unfold parse_int. rewrite <-same, read_int_format by exact lib. unfold int_value. destruct (_ && _); reflexivity.
Qed.
Lemma prints_chars : forall z t, prints_int ob z t -> Forall int_char t /\ t <> [].
Proof. intros z t ->. apply format_chars, rb. Qed.
Lemma no_slash : forall t, Forall int_char t -> Forall (fun r => r <> 47) t.
Proof. intros t F. eapply Forall_impl; [|exact F]. intros a [->|H]; lia. Qed.
Lemma no_j : forall t, Forall int_char t -> Forall (fun r => r <> 106) t.
Proof. intros t F. eapply Forall_impl; [|exact F]. intros a [->|H]; lia. Qed.

(* a canonical real: its text has no j, is not empty, and reads back *)
Lemma real_print : forall c v t, obase c = ob -> canonical v -> print_real c v = Ok t ->
  parse_real ib t = Ok v /\ Forall (fun r => r <> 106) t /\ t <> [].
Proof.
  intros c v t HO C P. destruct v as [z|z|z|q|a b|l|s l]; try contradiction; cbn [print_real canonical] in *.
  - injection P as <-. assert (PI : prints_int ob z (print_int c z)) by (unfold prints_int, print_int; rewrite HO; reflexivity).
    destruct (prints_chars _ _ PI) as [F N]. unfold parse_real. rewrite mem_no by (apply no_slash; assumption).
    rewrite (parse_int_print z) by assumption. split; [|split; [apply no_j; assumption|assumption]]. rewrite int_value_eq. replace ((- 2 ^ 31 <=? z) && (z <? 2 ^ 31)) with true by lia. reflexivity.
  - apply print_big_int in P. rewrite HO in P. destruct (prints_chars _ _ P) as [F N]. unfold parse_real. rewrite mem_no by (apply no_slash; assumption).
    rewrite (parse_int_print z) by assumption. split; [|split; [apply no_j; assumption|assumption]]. rewrite int_value_eq. replace ((- 2 ^ 31 <=? z) && (z <? 2 ^ 31)) with false by lia. reflexivity.
  - destruct (print_big c (Qnum q)) as [n| | |] eqn:P1; try discriminate. cbn [bind] in P. destruct (print_big c (Z.pos (Qden q))) as [d| | |] eqn:P2; try discriminate. cbn [bind] in P.
    injection P as <-. apply print_big_int in P1, P2. rewrite HO in P1, P2. destruct (prints_chars _ _ P1) as [F1 N1]. destruct (prints_chars _ _ P2) as [F2 N2].
    split; [|split; [apply Forall_app; split; [apply no_j; assumption|constructor; [discriminate|apply no_j; assumption]]|destruct n; [contradiction|discriminate]]].
    change (n ++ 47 :: d) with (n ++ [47] ++ d). unfold parse_real. assert (mem 47 (n ++ [47] ++ d) = true) as ->. { rewrite !mem_app'. cbn. apply orb_true_r. }
    rewrite two_parts_app by (auto using no_slash). cbn [bind fst snd]. rewrite (parse_int_print _ _ P1), (parse_int_print _ _ P2). cbn [bind].
    destruct C as [C1 C2]. destruct q as [qn qd]. cbn [Qnum Qden] in *.
    assert (SH : shrink_rat (qn # qd) = VRat (qn # qd)). { unfold shrink_rat. cbn [Qden]. destruct (Pos.eqb qd 1) eqn:E; [apply Pos.eqb_eq in E; contradiction|reflexivity]. }
    assert (G : forall v1 v2, v1 = VInt qn \/ v1 = VBig qn -> v2 = VInt (Z.pos qd) \/ v2 = VBig (Z.pos qd) ->
      match v1, v2 with
      | VInt x, VInt y => if y =? 0 then Err else Ok (shrink_rat (set_frac x y))
      | _, _ => let! y := to_rat v2 in if Qnum y =? 0 then Err else let! x := to_rat v1 in Ok (shrink_rat (Qred (x / y)))
      end = Ok (VRat (qn # qd))).
    { intros v1 v2 [-> | ->] [-> | ->]; cbn [to_rat bind inject_Z Qnum Z.eqb set_frac]; rewrite <-SH.
      all: repeat f_equal. exact C1.
      all: rewrite <-C1; apply Qred_complete; unfold Qeq, Qdiv, Qmult, Qinv, inject_Z; cbn; lia. }
    apply G; rewrite int_value_eq; destruct (_ && _); auto.
Qed.
Theorem print_parse : forall c v t, obase c = ob -> canonical_num v -> print_num c v = Ok t -> parse_num ib t = Ok v.
Proof.
  intros c v t HO C P. assert (R : canonical v -> print_real c v = Ok t -> parse_num ib t = Ok v).
  { intros C' P'. destruct (real_print c v t HO C' P') as (R1 & R2 & _). unfold parse_num. rewrite mem_no by assumption. exact R1. }
  destruct v as [z|z|z|q|a b|l|s l]; try (apply R; assumption). clear R. cbn [canonical_num print_num] in *. destruct C as (C1 & C2 & C3).
  destruct (print_real c a) as [x| | |] eqn:P1; try discriminate. cbn [bind] in P. destruct (print_real c b) as [y| | |] eqn:P2; try discriminate. cbn [bind] in P. injection P as <-.
  destruct (real_print _ _ _ HO C1 P1) as (A1 & A2 & A3). destruct (real_print _ _ _ HO C2 P2) as (B1 & B2 & B3).
  change (x ++ 106 :: y) with (x ++ [106] ++ y). unfold parse_num. assert (mem 106 (x ++ [106] ++ y) = true) as ->. { rewrite !mem_app'. cbn. apply orb_true_r. }
  rewrite two_parts_app by assumption. cbn [bind fst snd]. rewrite A1, B1. cbn [bind].
  assert (CS : forall w, canonical w -> simple_number w = true /\ shrink_real w = w).
  { intros w Cw. destruct w as [z|z|z|q| | |]; try contradiction; cbn in *; split; auto.
    - unfold shrink_big. rewrite bitlen_out by assumption. reflexivity.
    - unfold shrink_rat. destruct (Pos.eqb (Qden q) 1) eqn:E; [apply Pos.eqb_eq in E; destruct Cw; contradiction|reflexivity]. }
  destruct (CS a C1) as [S1 S2]. destruct (CS b C2) as [S3 S4]. unfold new_cplx. rewrite S1, S3. cbn [andb bind fst snd]. unfold shrink_cplx. rewrite S2, S4.
  assert (isZero b = false) as ->; [|reflexivity]. destruct b as [z|z|z|q| | |]; try contradiction; cbn in *.
  - destruct (z =? 0) eqn:E; [apply Z.eqb_eq in E; congruence|reflexivity].
  - lia.
  - destruct q as [qn qd]. cbn in *. destruct (qn =? 0) eqn:E; [|reflexivity]. apply Z.eqb_eq in E. subst qn. destruct C2 as [C2 C4]. cbn in C2. exfalso. apply C4. injection C2 as <-. reflexivity.
Qed.
End Base.

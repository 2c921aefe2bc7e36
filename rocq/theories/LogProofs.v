(* Facts about the exact part of the logarithm. *)
From Verif Require Import Value LogModel.
Open Scope Z_scope.

Lemma lor1 i : 0 <= i -> Z.lor (2 * i) 1 = 2 * i + 1.
Proof. intros H. destruct i; [reflexivity|reflexivity|lia]. Qed.
Lemma lor01 : Z.lor 0 1 = 1. Proof. reflexivity. Qed.
Lemma sq_pow b n : 0 <= n -> (b * b) ^ n = b ^ (2 * n).
Proof. intros H. rewrite Z.pow_mul_r by lia. f_equal. ring. Qed.
Lemma div_pow b v i : 2 <= b -> 0 <= i -> v / b ^ i / b = v / b ^ (i + 1).
Proof.
  intros Hb Hi. assert (0 < b ^ i) by (apply Z.pow_pos_nonneg; lia).
  rewrite Z.div_div by lia. rewrite Z.pow_add_r by lia. rewrite Z.pow_1_r. reflexivity.
Qed.
Lemma pow_tower b f : b ^ (2 ^ Z.of_nat (S f)) = (b * b) ^ (2 ^ Z.of_nat f).
Proof. rewrite Nat2Z.inj_succ, Z.pow_succ_r by lia. rewrite sq_pow by (apply Z.pow_nonneg; lia). reflexivity. Qed.

Definition part (b v i r : Z) : Prop := 0 <= i /\ r = v / b ^ i /\ (1 <= v -> 1 <= r).
Lemma part_0 b v : part b v 0 v.
Proof. split; [lia|]. rewrite Z.pow_0_r, Z.div_1_r. auto. Qed.
Lemma part_sq b v i r : part (b * b) v i r -> part b v (2 * i) r.
Proof. intros (A & B & C). split; [lia|]. rewrite sq_pow in B by lia. auto. Qed.
Lemma part_next b v i r : 2 <= b -> b <= r -> part b v i r -> part b v (i + 1) (r / b).
Proof.
  intros Hb Hr (A & B & C). split; [lia|]. split; [rewrite B; apply div_pow; lia|].
  intros _. apply Z.div_le_lower_bound; lia.
Qed.

Lemma uint64_part : forall fuel b v i r, 2 <= b < 2 ^ 64 -> 0 <= v -> uint64_log fuel b v = Some (i, r) -> part b v i r.
Proof.
  induction fuel as [|f IH]; intros b v i r Hb Hv; cbn [uint64_log].
  - destruct (_ || _); [|discriminate]. intros [= <- <-]. apply part_0.
  - destruct (_ || _); [intros [= <- <-]; apply part_0|].
    destruct (Z.eqb_spec (b mod 2 ^ 32) b) as [S|S].
    + assert (b < 2 ^ 32) by (rewrite <-S; apply Z.mod_pos_bound; lia).
      rewrite Z.mod_small by nia. destruct (uint64_log f (b * b) v) as [[i0 v0]|] eqn:E; [|discriminate].
      apply IH in E; [|nia|assumption]. pose proof E as (A & _). apply part_sq in E.
      rewrite lor1 by assumption.
      destruct (Z.leb_spec b v0) as [L|L]; intros [= <- <-]; [|exact E]. exact (part_next b v (2 * i0) v0 (proj1 Hb) L E).
    + pose proof (part_0 b v). destruct (Z.leb_spec b v); intros [= <- <-]; [|assumption].
      apply (part_next b v 0 v); auto. lia.
Qed.
Lemma big_part : forall fuel b v i r, 2 <= b -> 0 <= v -> big_int_log fuel b v = Some (i, r) -> part b v i r.
Proof.
  induction fuel as [|f IH]; intros b v i r Hb Hv; cbn [big_int_log].
  - destruct (_ || _); [intros [= <- <-]; apply part_0|]. destruct (negb _); [|discriminate]. intros [= <- <-]. apply part_0.
  - destruct (_ || _); [intros [= <- <-]; apply part_0|]. destruct (negb _); [intros [= <- <-]; apply part_0|].
    destruct (_ <=? _).
    + destruct (big_int_log f (b * b) v) as [[i0 v0]|] eqn:E; [|discriminate].
      apply IH in E; [|nia|assumption]. pose proof E as (A & _). apply part_sq in E.
      rewrite lor1 by assumption.
      destruct (Z.leb_spec b v0) as [L|L]; intros [= <- <-]; [|exact E]. exact (part_next b v (2 * i0) v0 Hb L E).
    + pose proof (part_0 b v). destruct (Z.leb_spec b v); intros [= <- <-]; [|assumption].
      apply (part_next b v 0 v); auto.
Qed.

(* the recursion ends *)
Lemma uint64_ends : forall fuel b v, 2 <= b < 2 ^ 64 -> v < b ^ (2 ^ Z.of_nat fuel) -> uint64_log fuel b v <> None.
Proof.
  induction fuel as [|f IH]; intros b v Hb Hv; cbn [uint64_log].
  - change (2 ^ Z.of_nat 0) with 1 in Hv. rewrite Z.pow_1_r in Hv.
    assert (v <? b = true) as -> by (apply Z.ltb_lt; lia). rewrite orb_true_r. discriminate.
  - destruct (_ || _); [discriminate|]. destruct (Z.eqb_spec (b mod 2 ^ 32) b) as [S|S]; [|discriminate].
    assert (b < 2 ^ 32) by (rewrite <-S; apply Z.mod_pos_bound; lia). rewrite Z.mod_small by nia.
    destruct (uint64_log f (b * b) v) as [[i0 v0]|] eqn:E; [discriminate|]. exfalso.
    apply (IH (b * b) v); [nia| |exact E]. rewrite <-pow_tower. exact Hv.
Qed.
Lemma big_ends : forall fuel b v, 2 <= b -> v < b ^ (2 ^ Z.of_nat fuel) -> big_int_log fuel b v <> None.
Proof.
  induction fuel as [|f IH]; intros b v Hb Hv; cbn [big_int_log].
  - change (2 ^ Z.of_nat 0) with 1 in Hv. rewrite Z.pow_1_r in Hv.
    assert (v <? b = true) as -> by (apply Z.ltb_lt; lia). rewrite orb_true_r. discriminate.
  - destruct (_ || _); [discriminate|]. destruct (negb _); [discriminate|]. destruct (_ <=? _); [|discriminate].
    destruct (big_int_log f (b * b) v) as [[i0 v0]|] eqn:E; [discriminate|]. exfalso.
    apply (IH (b * b) v); [nia| |exact E]. rewrite <-pow_tower. exact Hv.
Qed.

(* b**n * c with 0 < c < b *)
Lemma digit_guard b n c : 2 <= b -> 1 <= c < b -> 0 < n -> c * b ^ n <? b = false /\ (c * b ^ n) mod b =? 0 = true.
Proof.
  intros Hb Hc Hn. replace n with (1 + (n - 1)) by lia. rewrite Z.pow_add_r, Z.pow_1_r by lia.
  assert (0 < b ^ (n - 1)) by (apply Z.pow_pos_nonneg; lia). split; [apply Z.ltb_ge; assert (b <= b * b ^ (n - 1)) by nia; nia|].
  apply Z.eqb_eq. replace (c * (b * b ^ (n - 1))) with (c * b ^ (n - 1) * b) by ring. apply Z.mod_mul. lia.
Qed.
Lemma halves n : 0 <= n -> exists k, 0 <= k /\ (n = 2 * k \/ n = 2 * k + 1).
Proof. intros H. exists (n / 2). pose proof (Z.div_mod n 2 ltac:(lia)). pose proof (Z.mod_pos_bound n 2 ltac:(lia)). split; [apply Z.div_pos; lia|lia]. Qed.
Lemma uint64_digit : forall fuel b n c, 2 <= b < 2 ^ 64 -> 1 <= c < b -> 0 <= n -> c * b ^ n < 2 ^ 64 ->
  uint64_log fuel b (c * b ^ n) <> None -> uint64_log fuel b (c * b ^ n) = Some (n, c).
Proof.
  induction fuel as [|f IH]; intros b n c Hb Hc Hn Hv HN.
  - cbn [uint64_log] in *. destruct (Z.eq_dec n 0) as [-> | Hn0].
    + rewrite Z.pow_0_r, Z.mul_1_r in *. assert (c <? b = true) as E by (apply Z.ltb_lt; lia). rewrite E in *. rewrite orb_true_r. reflexivity.
    + destruct (digit_guard b n c) as [G1 G2]; try lia. rewrite G1, G2 in HN. assert (b <=? 1 = false) as E by (apply Z.leb_gt; lia).
      rewrite E in HN. exfalso. apply HN. reflexivity.
  - revert HN. cbn [uint64_log]. destruct (Z.eq_dec n 0) as [-> | Hn0].
    + rewrite Z.pow_0_r, Z.mul_1_r in *. assert (c <? b = true) as E by (apply Z.ltb_lt; lia). rewrite E in *. rewrite orb_true_r. reflexivity.
    + destruct (digit_guard b n c) as [G1 G2]; try lia. rewrite G1, G2. assert (b <=? 1 = false) as -> by (apply Z.leb_gt; lia).
      cbn [orb negb]. destruct (Z.eqb_spec (b mod 2 ^ 32) b) as [S|S].
      * assert (b < 2 ^ 32) by (rewrite <-S; apply Z.mod_pos_bound; lia). rewrite Z.mod_small by nia.
        destruct (halves n Hn) as (k & Hk & [-> | ->]).
        -- rewrite <-sq_pow by lia. intros HN. rewrite IH; try nia.
           ++ destruct (Z.leb_spec b c); [lia|reflexivity].
           ++ rewrite sq_pow by lia. assumption.
           ++ intros C. apply HN. rewrite C. reflexivity.
        -- assert (c * b ^ (2 * k + 1) = (c * b) * (b * b) ^ k) as Ev by (rewrite sq_pow, Z.pow_add_r, Z.pow_1_r by lia; ring).
           rewrite Ev in *. intros HN. rewrite IH; try nia.
           ++ destruct (Z.leb_spec b (c * b)); [|nia]. rewrite lor1 by assumption. rewrite Z.div_mul by lia. reflexivity.
           ++ intros C. apply HN. rewrite C. reflexivity.
      * assert (2 ^ 32 <= b). { destruct (Z.le_gt_cases (2 ^ 32) b); [assumption|]. exfalso. apply S. apply Z.mod_small. lia. }
        intros _. assert (n = 1) as ->.
        { destruct (Z.eq_dec n 1); [assumption|]. exfalso. assert (b ^ 2 <= b ^ n) by (apply Z.pow_le_mono_r; lia). rewrite Z.pow_2_r in *. nia. }
        rewrite Z.pow_1_r in *. destruct (Z.leb_spec b (c * b)); [|nia]. rewrite Z.div_mul by lia. reflexivity.
Qed.
Lemma bit_len_spec n : 0 < n -> 2 ^ (bit_len n - 1) <= n < 2 ^ bit_len n.
Proof.
  intros H. unfold bit_len. destruct (Z.eqb_spec n 0); [lia|]. rewrite Z.abs_eq by lia. rewrite Z.add_simpl_r.
  pose proof (Z.log2_spec n H). unfold Z.succ in *. assumption.
Qed.
Lemma bit_len_sq b v : 2 <= b -> 0 < v -> bit_len v < 2 * bit_len b - 1 -> v < b * b.
Proof.
  intros Hb Hv H. pose proof (bit_len_spec b ltac:(lia)) as [B1 _]. pose proof (bit_len_spec v Hv) as [_ V2].
  assert (1 <= bit_len b). { unfold bit_len. destruct (b =? 0) eqn:E; [lia|]. pose proof (Z.log2_nonneg (Z.abs b)). lia. }
  assert (2 ^ (bit_len b - 1) * 2 ^ (bit_len b - 1) = 2 ^ (2 * bit_len b - 2)) as E. { rewrite <-Z.pow_add_r by lia. f_equal. lia. }
  assert (0 <= bit_len v). { unfold bit_len. destruct (v =? 0); [lia|]. pose proof (Z.log2_nonneg (Z.abs v)). lia. }
  assert (2 ^ bit_len v <= 2 ^ (2 * bit_len b - 2)) by (apply Z.pow_le_mono_r; lia).
  assert (0 < 2 ^ (bit_len b - 1)) by (apply Z.pow_pos_nonneg; lia). nia.
Qed.
Lemma big_digit : forall fuel b n c, 2 <= b -> 1 <= c < b -> 0 <= n ->
  big_int_log fuel b (c * b ^ n) <> None -> big_int_log fuel b (c * b ^ n) = Some (n, c).
Proof.
  induction fuel as [|f IH]; intros b n c Hb Hc Hn HN.
  - cbn [big_int_log] in *. destruct (Z.eq_dec n 0) as [-> | Hn0].
    + rewrite Z.pow_0_r, Z.mul_1_r in *. assert (c <? b = true) as E by (apply Z.ltb_lt; lia). rewrite E in *. rewrite orb_true_r. reflexivity.
    + destruct (digit_guard b n c) as [G1 G2]; try lia. rewrite G1, G2 in HN. assert (b <=? 1 = false) as E by (apply Z.leb_gt; lia).
      rewrite E in HN. exfalso. apply HN. reflexivity.
  - revert HN. cbn [big_int_log]. destruct (Z.eq_dec n 0) as [-> | Hn0].
    + rewrite Z.pow_0_r, Z.mul_1_r in *. assert (c <? b = true) as E by (apply Z.ltb_lt; lia). rewrite E in *. rewrite orb_true_r. reflexivity.
    + destruct (digit_guard b n c) as [G1 G2]; try lia. rewrite G1, G2. assert (b <=? 1 = false) as -> by (apply Z.leb_gt; lia).
      cbn [orb negb]. destruct (Z.leb_spec (2 * bit_len b - 1) (bit_len (c * b ^ n))) as [S|S].
      * destruct (halves n Hn) as (k & Hk & [-> | ->]).
        -- rewrite <-sq_pow by lia. intros HN. rewrite IH; try nia.
           ++ destruct (Z.leb_spec b c); [lia|reflexivity].
           ++ intros C. apply HN. rewrite C. reflexivity.
        -- assert (c * b ^ (2 * k + 1) = (c * b) * (b * b) ^ k) as Ev by (rewrite sq_pow, Z.pow_add_r, Z.pow_1_r by lia; ring).
           rewrite Ev in *. intros HN. rewrite IH; try nia.
           ++ destruct (Z.leb_spec b (c * b)); [|nia]. rewrite lor1 by assumption. rewrite Z.div_mul by lia. reflexivity.
           ++ intros C. apply HN. rewrite C. reflexivity.
      * assert (0 < b ^ n) by (apply Z.pow_pos_nonneg; lia). apply bit_len_sq in S; [|assumption|nia].
        intros _. assert (n = 1) as ->.
        { destruct (Z.eq_dec n 1); [assumption|]. exfalso. assert (b ^ 2 <= b ^ n) by (apply Z.pow_le_mono_r; lia). rewrite Z.pow_2_r in *. nia. }
        rewrite Z.pow_1_r in *. destruct (Z.leb_spec b (c * b)); [|nia]. rewrite Z.div_mul by lia. reflexivity.
Qed.

(* how deep the recursion goes: 6 squarings for 64 bits; as many as v has bits otherwise *)
Lemma tower6 b v : 2 <= b -> v < 2 ^ 64 -> forall fuel, (6 <= fuel)%nat -> v < b ^ (2 ^ Z.of_nat fuel).
Proof.
  intros Hb Hv fuel Hf. assert (2 ^ 6 <= 2 ^ Z.of_nat fuel) by (apply Z.pow_le_mono_r; lia).
  assert (b ^ 64 <= b ^ (2 ^ Z.of_nat fuel)) by (apply Z.pow_le_mono_r; lia).
  assert (2 ^ 64 <= b ^ 64) by (apply Z.pow_le_mono_l; lia). lia.
Qed.
Lemma tower_big b v : 2 <= b -> forall fuel, bit_len v <= Z.of_nat fuel -> v < b ^ (2 ^ Z.of_nat fuel).
Proof.
  intros Hb fuel Hf. assert (0 < 2 ^ Z.of_nat fuel) as P by (apply Z.pow_pos_nonneg; lia).
  destruct (Z.le_gt_cases v 0); [assert (0 < b ^ (2 ^ Z.of_nat fuel)) by (apply Z.pow_pos_nonneg; lia); lia|].
  pose proof (bit_len_spec v ltac:(lia)) as [_ V]. assert (2 ^ bit_len v <= 2 ^ Z.of_nat fuel) by (apply Z.pow_le_mono_r; lia).
  pose proof (Z.pow_gt_lin_r b (2 ^ Z.of_nat fuel) ltac:(lia) ltac:(lia)). lia.
Qed.

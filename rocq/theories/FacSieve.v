(* The sieve of FacModel.v lists the numbers from 2 to n that have no smaller
   divisor above 1. *)
From Coq Require Import ZArith List Bool Arith Lia ZifyBool ZifyNat.
From Verif Require Import FacModel.
Import ListNotations.
Ltac Zify.zify_post_hook ::= Z.div_mod_to_equations.

Lemma nth_set_true l k m : nth m (set_true l k) false = true <-> (m = k /\ m < length l) \/ nth m l false = true.
Proof.
  revert k m. induction l as [|b l IH]; intros [|k] [|m]; simpl; try (split; [intros H; discriminate|intros [H|H]; [lia|discriminate]]);
    try (split; [intros H|intros [H|H]]; [right; exact H|lia|exact H]).
  - split; [intros _; left; lia|reflexivity].
  - rewrite IH. split; intros [H|H]; [left; lia|right; exact H|left; lia|right; exact H].
Qed.
Lemma length_set_true l k : length (set_true l k) = length l.
Proof. revert k. induction l as [|b l IH]; intros [|k]; simpl; congruence. Qed.
Lemma length_mark fuel n i j l : length (mark_multiples fuel n i j l) = length l.
Proof. revert j l. induction fuel as [|f IH]; intros j l; simpl; [reflexivity|]. destruct (j <=? n); [rewrite IH, length_set_true|]; reflexivity. Qed.

Lemma nth_mark fuel n i j l m : 0 < i -> length l = n + 1 -> n < j + fuel ->
  nth m (mark_multiples fuel n i j l) false = true <-> (m <= n /\ exists k, m = j + k * i) \/ nth m l false = true.
Proof.
  intros Hi. revert j l. induction fuel as [|f IH]; intros j l Hl Hf; simpl.
  - split; [auto|]. intros [(H & k & Hk)|H]; [nia|assumption].
  - destruct (j <=? n) eqn:E.
    + rewrite IH by (rewrite ?length_set_true; lia). rewrite nth_set_true. split.
      * intros [(H & k & Hk)|[H|H]]; [left; split; [lia|]; exists (S k); lia|left; split; [lia|]; exists 0; lia|right; assumption].
      * intros [(H & [|k] & Hk)|H]; [right; left; lia|left; split; [lia|]; exists k; lia|right; right; assumption].
    + split; [auto|]. intros [(H & k & Hk)|H]; [nia|assumption].
Qed.

Definition has_small_divisor (i : nat) : bool := existsb (fun d => i mod d =? 0) (seq 2 (i - 2)).
Lemma has_small_divisor_spec i : has_small_divisor i = true <-> exists d k, 2 <= d < i /\ i = d * k.
Proof.
  unfold has_small_divisor. rewrite existsb_exists. split.
  - intros (d & H1 & H2). apply in_seq in H1. exists d, (i / d). split; [lia|].
    apply Nat.eqb_eq in H2. apply Nat.div_exact; lia.
  - intros (d & k & H1 & H2). exists d. split; [apply in_seq; lia|].
    apply Nat.eqb_eq. rewrite H2, Nat.mul_comm. apply Nat.mod_mul. lia.
Qed.

Definition sieved (n i : nat) (l : list bool) : Prop :=
  length l = n + 1 /\
  forall m, m <= n -> (nth m l false = true <-> exists d k, 2 <= d < i /\ 0 < k /\ m = d * k).

Lemma prime_loop_spec fuel n i l : 2 <= i -> n < i + fuel -> sieved n i l ->
  prime_loop fuel n i l = filter (fun i => negb (has_small_divisor i)) (seq i (n + 1 - i)).
Proof.
  revert i l. induction fuel as [|f IH]; intros i l Hi Hf [Hl Hs]; cbn [prime_loop].
  - replace (n + 1 - i) with 0 by lia. reflexivity.
  - destruct (i <=? n) eqn:E; [|replace (n + 1 - i) with 0 by lia; reflexivity].
    replace (n + 1 - i) with (S (n + 1 - (i + 1))) by lia. cbn [seq filter].
    assert (nth i l false = has_small_divisor i) as Hn.
    { destruct (nth i l false) eqn:E1; symmetry.
      - apply Hs in E1; [|lia]. destruct E1 as (d & k & H1 & H2 & H3). apply has_small_divisor_spec. exists d, k. lia.
      - apply not_true_is_false. intros H. apply has_small_divisor_spec in H. destruct H as (d & k & H1 & H2).
        assert (nth i l false = true); [|congruence]. apply Hs; [lia|]. exists d, k. nia. }
    rewrite Hn. replace (S i) with (i + 1) by lia. destruct (has_small_divisor i) eqn:E1; simpl.
    + apply IH; [lia|lia|]. split; [assumption|]. intros m Hm. rewrite (Hs m Hm). split.
      * intros (d & k & H1 & H2 & H3). exists d, k. lia.
      * intros (d & k & H1 & H2 & H3). destruct (Nat.eq_dec d i) as [->|]; [|exists d, k; lia].
        apply has_small_divisor_spec in E1. destruct E1 as (d' & k' & H4 & H5).
        exists d', (k' * k). nia.
    + f_equal. apply IH; [lia|lia|]. split; [rewrite length_mark; assumption|].
      intros m Hm. rewrite nth_mark by lia. rewrite (Hs m Hm). split.
      * intros [(_ & k & Hk)|(d & k & H1 & H2 & H3)]; [exists i, (1 + k); lia|exists d, k; lia].
      * intros (d & k & H1 & H2 & H3). destruct (Nat.eq_dec d i) as [->|]; [left|right; exists d, k; lia].
        split; [assumption|]. exists (k - 1). nia.
Qed.

Lemma prime_gen_spec n : prime_gen n = filter (fun i => negb (has_small_divisor i)) (seq 2 (n - 1)).
Proof.
  unfold prime_gen. rewrite prime_loop_spec; [|lia|lia|].
  - replace (n + 1 - 2) with (n - 1) by lia. reflexivity.
  - split; [apply repeat_length|]. intros m Hm. rewrite nth_repeat. split; [discriminate|].
    intros (d & k & H & _). lia.
Qed.

(* ---- the product ---- *)
Fixpoint prodz (l : list nat) : Z := match l with [] => 1%Z | x :: l' => (Z.of_nat x * prodz l')%Z end.
Lemma prodz_app a b : prodz (a ++ b) = (prodz a * prodz b)%Z.
Proof. induction a as [|x a IH]; cbn [app prodz]; [lia|]. rewrite IH. ring. Qed.
Lemma product1_spec fuel f : length f <= fuel -> product1 fuel f = prodz f.
Proof.
  revert f. induction fuel as [|k IH]; intros f H.
  - destruct f; [reflexivity|simpl in H; lia].
  - destruct f as [|x [|y f]]; [reflexivity|cbn; lia|].
    set (F := x :: y :: f) in *. assert (2 <= length F) by (unfold F; simpl; lia).
    change (product1 (S k) F) with (product1 k (firstn (length F / 2) F) * product1 k (skipn (length F / 2) F))%Z.
    rewrite !IH by (rewrite ?firstn_length, ?skipn_length; lia).
    rewrite <-prodz_app, firstn_skipn. reflexivity.
Qed.
Lemma product_spec f : product f = prodz f.
Proof.
  destruct f as [|x [|y f]]; [reflexivity|cbn; lia|]. set (F := x :: y :: f) in *.
  change (product F) with (product1 (length F) (firstn (length F / 2) F) * product1 (length F) (skipn (length F / 2) F))%Z.
  rewrite !product1_spec by (rewrite ?firstn_length, ?skipn_length; lia).
  rewrite <-prodz_app, firstn_skipn. reflexivity.
Qed.
Lemma prodz_filter f : (forall x, In x f -> 1 <= x) -> prodz (filter (fun p => 1 <? p) f) = prodz f.
Proof.
  induction f as [|x f IH]; intros H; [reflexivity|]. cbn [filter prodz]. specialize (H x) as Hx. simpl in Hx.
  destruct (1 <? x) eqn:E; cbn [prodz]; rewrite IH by (intros; apply H; right; assumption); [reflexivity|].
  assert (x = 1) by (specialize (Hx (or_introl eq_refl)); lia). subst. lia.
Qed.

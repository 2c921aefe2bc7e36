(* The algorithm of FacModel.v computes n!. *)
From Coq Require Import ZArith List Bool Arith Lia ZifyBool ZifyNat.
From Verif Require Import FacModel FacSieve.
From Verif Require NumSpec.
Import ListNotations.
Notation fact_z := NumSpec.fact_z.
Ltac Zify.zify_post_hook ::= Z.div_mod_to_equations.

(* ---- primes ---- *)
Definition is_prime (p : nat) : Prop := 1 < p /\ forall d, Nat.divide d p -> d = 1 \/ d = p.

Lemma no_small_divisor p : 1 < p -> (has_small_divisor p = false <-> is_prime p).
Proof.
  intros H. split.
  - intros N. split; [assumption|]. intros d [k Hk].
    destruct (Nat.eq_dec d 1); [auto|]. destruct (Nat.eq_dec d p); [auto|]. exfalso.
    assert (has_small_divisor p = true); [|congruence]. apply has_small_divisor_spec. exists d, k.
    assert (d <> 0) by (intros ->; lia). split; [|lia]. split; [lia|]. destruct k; [lia|]. nia.
  - intros [_ P]. apply not_true_is_false. intros N. apply has_small_divisor_spec in N.
    destruct N as (d & k & N1 & N2). destruct (P d) as [E|E]; [exists k; lia|lia|lia].
Qed.

Lemma prime_euclid p a b : is_prime p -> Nat.divide p (a * b) -> Nat.divide p a \/ Nat.divide p b.
Proof.
  intros [H1 H] D. destruct (H (Nat.gcd p a) (Nat.gcd_divide_l p a)) as [E|E].
  - right. apply (Nat.gauss p a b); assumption.
  - left. rewrite <-E. apply Nat.gcd_divide_r.
Qed.

Lemma prime_divisor n : 1 < n -> exists p, is_prime p /\ Nat.divide p n.
Proof.
  induction n as [n IH] using lt_wf_ind. intros H.
  destruct (has_small_divisor n) eqn:E.
  - apply has_small_divisor_spec in E. destruct E as (d & k & H1 & H2).
    destruct (IH d) as (p & Hp & D); [lia|lia|]. exists p. split; [assumption|].
    apply Nat.divide_trans with d; [assumption|]. exists k. lia.
  - exists n. split; [apply no_small_divisor; assumption|apply Nat.divide_refl].
Qed.

(* ---- p-adic valuation ---- *)
Definition vp (p n e : nat) : Prop := exists m, n = p ^ e * m /\ ~ Nat.divide p m.

Lemma vp_mul p a b e f : is_prime p -> vp p a e -> vp p b f -> vp p (a * b) (e + f).
Proof.
  intros P (m & -> & Hm) (k & -> & Hk). exists (m * k). split; [rewrite Nat.pow_add_r; ring|].
  intros D. destruct (prime_euclid p m k P D); contradiction.
Qed.
Lemma pow_pos p e : 1 < p -> 0 < p ^ e.
Proof. intros H. apply Nat.neq_0_lt_0. apply Nat.pow_nonzero. lia. Qed.
Lemma vp_divide p n e j : is_prime p -> vp p n e -> (Nat.divide (p ^ j) n <-> j <= e).
Proof.
  intros [P1 P] (m & -> & Hm). split.
  - intros [k Hk]. destruct (le_lt_dec j e) as [|L]; [assumption|]. exfalso. apply Hm.
    exists (k * p ^ (j - S e)).
    assert (p ^ j = p ^ e * (p ^ (j - S e) * p)) as E.
    { rewrite <-(Nat.mul_comm p), <-Nat.pow_succ_r', <-Nat.pow_add_r. f_equal. lia. }
    rewrite E in Hk. pose proof (pow_pos p e P1). apply Nat.mul_cancel_l with (p := p ^ e); [lia|]. rewrite Hk. ring.
  - intros L. exists (p ^ (e - j) * m). replace (p ^ e) with (p ^ (e - j) * p ^ j); [ring|].
    rewrite <-Nat.pow_add_r. f_equal. lia.
Qed.
Lemma vp_unique p n e f : is_prime p -> vp p n e -> vp p n f -> e = f.
Proof.
  intros P H1 H2. assert (e <= f) by (rewrite <-(vp_divide p n f e P H2), (vp_divide p n e e P H1); lia).
  assert (f <= e) by (rewrite <-(vp_divide p n e f P H1), (vp_divide p n f f P H2); lia). lia.
Qed.
Lemma vp_exists p n : is_prime p -> 0 < n -> exists e, vp p n e.
Proof.
  intros [P1 P]. induction n as [n IH] using lt_wf_ind. intros H.
  destruct (n mod p) eqn:E.
  - destruct (IH (n / p)) as (e & m & Hm & Nm).
    + apply Nat.div_lt; lia.
    + assert (n = p * (n / p)) by (apply Nat.div_exact; lia). nia.
    + exists (S e), m. split; [|assumption]. rewrite Nat.pow_succ_r', <-Nat.mul_assoc, <-Hm. apply Nat.div_exact; lia.
  - exists 0, n. split; [simpl; lia|]. intros D. apply Nat.mod_divide in D; lia.
Qed.
Lemma vp_one p : is_prime p -> vp p 1 0.
Proof. intros [P _]. exists 1. split; [reflexivity|]. intros D. apply Nat.divide_1_r in D. lia. Qed.

Lemma eq_from_vp a b : 0 < a -> 0 < b -> (forall p e, is_prime p -> vp p a e -> vp p b e) -> a = b.
Proof.
  revert b. induction a as [a IH] using lt_wf_ind. intros b Ha Hb H.
  destruct (Nat.eq_dec a 1) as [->|N].
  - destruct (Nat.eq_dec b 1); [lia|]. destruct (prime_divisor b) as (p & Pp & D); [lia|]. exfalso.
    pose proof (H p 0 Pp (vp_one p Pp)) as V. assert (1 <= 0); [|lia].
    apply (vp_divide p b 0 1 Pp V). rewrite Nat.pow_1_r. assumption.
  - destruct (prime_divisor a) as (p & Pp & [a' E]); [lia|].
    assert (Nat.divide p b) as [b' E'].
    { destruct (vp_exists p a Pp Ha) as [e V]. pose proof (H p e Pp V) as V'.
      rewrite <-(Nat.pow_1_r p) at 1. apply (vp_divide p b e 1 Pp V'). apply (vp_divide p a e 1 Pp V).
      rewrite Nat.pow_1_r. exists a'. assumption. }
    assert (a' = b'); [|congruence]. destruct Pp as [P1 P]. apply IH; [nia|nia|nia|].
    intros q e Pq V. destruct (vp_exists q p Pq) as [f F]; [lia|].
    assert (vp q b (f + e)) as V1.
    { apply H; [assumption|]. rewrite E, Nat.mul_comm. apply vp_mul; assumption. }
    destruct (vp_exists q b' Pq) as [g G]; [nia|].
    assert (f + e = f + g) as E1.
    { apply (vp_unique q b _ _ Pq V1). rewrite E', Nat.mul_comm. apply vp_mul; assumption. }
    assert (e = g) by lia. subst g. assumption.
Qed.

(* ---- sums over k < N ---- *)
Fixpoint sum (N : nat) (f : nat -> nat) : nat := match N with O => 0 | S k => sum k f + f k end.
Lemma sum_ext N f g : (forall k, k < N -> f k = g k) -> sum N f = sum N g.
Proof. induction N as [|N IH]; intros H; [reflexivity|]. simpl. rewrite IH, H by (intros; auto with arith || (apply H; lia)). reflexivity. Qed.
Lemma sum_add N f g : sum N (fun k => f k + g k) = sum N f + sum N g.
Proof. induction N as [|N IH]; simpl; [reflexivity|]. rewrite IH. lia. Qed.
Lemma sum_zero N : sum N (fun _ => 0) = 0.
Proof. induction N as [|N IH]; simpl; [reflexivity|]. rewrite IH. lia. Qed.
Lemma sum_head N f : sum (S N) f = f 0 + sum N (fun k => f (S k)).
Proof. induction N as [|N IH]; [simpl; lia|]. change (sum (S (S N)) f) with (sum (S N) f + f (S N)). rewrite IH. simpl. lia. Qed.
Lemma sum_below N e : sum N (fun k => Nat.b2n (k <? e)) = Nat.min N e.
Proof.
  induction N as [|N IH]; [reflexivity|]. cbn [sum]. rewrite IH. unfold Nat.b2n. destruct (N <? e) eqn:E; lia.
Qed.

(* ---- Legendre's formula ---- *)
Lemma div_succ n m : 0 < m -> S n / m = n / m + Nat.b2n (S n mod m =? 0).
Proof.
  intros H. pose proof (Nat.div_mod (S n) m ltac:(lia)) as D. pose proof (Nat.mod_upper_bound (S n) m ltac:(lia)) as U.
  set (q := S n / m) in *. set (r := S n mod m) in *. destruct (r =? 0) eqn:E; cbn [Nat.b2n].
  - apply Nat.eqb_eq in E. destruct q as [|k]; [lia|]. rewrite (Nat.div_unique n m k (m - 1)); nia.
  - apply Nat.eqb_neq in E. rewrite <-(Nat.div_unique n m q (r - 1)); lia.
Qed.
Lemma vp_count p n N : is_prime p -> 0 < n <= N -> vp p n (sum N (fun k => Nat.b2n (n mod p ^ S k =? 0))).
Proof.
  intros P H. destruct (vp_exists p n P) as [e V]; [lia|].
  assert (e <= N) as L.
  { destruct P as [P1 P]. assert (Nat.divide (p ^ e) n) as D by (apply (vp_divide p n e e (conj P1 P) V); lia).
    apply Nat.divide_pos_le in D; [|lia]. pose proof (Nat.pow_gt_lin_r p e P1). lia. }
  replace (sum N _) with e; [assumption|].
  rewrite (sum_ext N _ (fun k => Nat.b2n (k <? e))).
  - rewrite sum_below. lia.
  - intros k Hk. f_equal. pose proof (vp_divide p n e (S k) P V) as D.
    assert (p ^ S k <> 0) as Z by (pose proof (pow_pos p (S k) (proj1 P)); lia).
    destruct (n mod p ^ S k =? 0) eqn:E; symmetry.
    + apply Nat.eqb_eq, (Nat.mod_divide n _ Z), D in E. apply Nat.ltb_lt. lia.
    + apply Nat.ltb_ge. apply Nat.eqb_neq in E. destruct (le_lt_dec e k); [assumption|]. exfalso.
      apply E, (Nat.mod_divide n _ Z), D. lia.
Qed.
Lemma legendre p n N : is_prime p -> n <= N -> vp p (fact n) (sum N (fun k => n / p ^ S k)).
Proof.
  intros P. induction n as [|n IH]; intros H.
  - rewrite (sum_ext N _ (fun _ => 0)); [rewrite sum_zero; apply vp_one; assumption|].
    intros k _. apply Nat.div_0_l. pose proof (pow_pos p (S k) (proj1 P)). lia.
  - rewrite (sum_ext N _ (fun k => n / p ^ S k + Nat.b2n (S n mod p ^ S k =? 0))).
    + rewrite sum_add. change (fact (S n)) with (S n * fact n). rewrite Nat.mul_comm. apply vp_mul; [assumption| |].
      * apply IH. lia.
      * apply vp_count; [assumption|lia].
    + intros k _. apply div_succ. apply (pow_pos p (S k) (proj1 P)).
Qed.

(* ---- the swing ---- *)
Definition swing_exp (n p : nat) : nat := sum (n + 1) (fun k => Nat.b2n (Nat.odd (n / p ^ S k))).

Lemma swing_factorE fuel q a p : 0 < p ->
  swing_factor fuel q a p = a * p ^ (sum fuel (fun k => Nat.b2n (Nat.odd (q / p ^ S k)))).
Proof.
  intros H. revert q a. induction fuel as [|f IH]; intros q a; [simpl; lia|].
  cbn [swing_factor]. destruct (q =? 0) eqn:E.
  - apply Nat.eqb_eq in E. subst q.
    rewrite (sum_ext (S f) _ (fun _ => 0)); [rewrite sum_zero; simpl; lia|].
    intros k _. rewrite Nat.div_0_l; [reflexivity|]. apply Nat.pow_nonzero. lia.
  - rewrite IH, sum_head, Nat.pow_1_r.
    rewrite (sum_ext f (fun k => Nat.b2n (Nat.odd (q / p / p ^ S k))) (fun k => Nat.b2n (Nat.odd (q / p ^ S (S k))))).
    + destruct (Nat.odd (q / p)); unfold Nat.b2n at 2; [|reflexivity]. rewrite Nat.pow_add_r, Nat.pow_1_r. ring.
    + intros k _. f_equal. f_equal. rewrite Nat.div_div by (try apply Nat.pow_nonzero; lia). f_equal.
Qed.

Fixpoint prodn (l : list nat) : nat := match l with [] => 1 | x :: l' => x * prodn l' end.
Definition swingn (n : nat) : nat := prodn (map (fun p => swing_factor (n + 1) n 1 p) (prime_gen n)).

Lemma prime_gen_in n p : In p (prime_gen n) <-> is_prime p /\ p <= n.
Proof.
  rewrite prime_gen_spec, filter_In, in_seq, negb_true_iff. split.
  - intros [H1 H2]. split; [apply no_small_divisor; [lia|assumption]|lia].
  - intros [H1 H2]. pose proof (proj1 H1). split; [lia|]. apply no_small_divisor; assumption.
Qed.
Lemma prime_gen_nodup n : NoDup (prime_gen n).
Proof. rewrite prime_gen_spec. apply NoDup_filter, seq_NoDup. Qed.

Lemma vp_pow p e : is_prime p -> vp p (p ^ e) e.
Proof. intros P. exists 1. split; [lia|]. intros D. apply Nat.divide_1_r in D. destruct P. lia. Qed.
Lemma vp_pow_other q p e : is_prime p -> is_prime q -> q <> p -> vp q (p ^ e) 0.
Proof.
  intros P Q N. exists (p ^ e). split; [simpl; lia|]. induction e as [|e IH]; intros D.
  - apply Nat.divide_1_r in D. destruct Q. lia.
  - rewrite Nat.pow_succ_r' in D. destruct (prime_euclid q _ _ Q D) as [D1|D1]; [|auto].
    destruct P as [P1 P]. destruct (P q D1); [destruct Q; lia|lia].
Qed.
Lemma vp_prod q l e : is_prime q -> NoDup l -> (forall p, In p l -> is_prime p) ->
  (In q l -> vp q (prodn (map (fun p => p ^ e p) l)) (e q)) /\
  (~ In q l -> vp q (prodn (map (fun p => p ^ e p) l)) 0).
Proof.
  intros Q. induction l as [|p l IH]; intros N A.
  - split; [intros []|]. intros _. apply vp_one. assumption.
  - inversion N as [|? ? N1 N2]; subst. destruct IH as [IH1 IH2]; [assumption|intros; apply A; right; assumption|].
    cbn [map prodn]. assert (is_prime p) as P by (apply A; left; reflexivity). split.
    + intros [->|I]; [|].
      * rewrite <-(Nat.add_0_r (e q)) at 2. apply vp_mul; [assumption|apply vp_pow; assumption|apply IH2; assumption].
      * rewrite <-(Nat.add_0_l (e q)). apply vp_mul; [assumption| |apply IH1; assumption].
        apply vp_pow_other; [assumption|assumption|]. intros ->. contradiction.
    + intros I. rewrite <-(Nat.add_0_l 0). apply vp_mul; [assumption| |apply IH2; intros J; apply I; right; assumption].
      apply vp_pow_other; [assumption|assumption|]. intros ->. apply I. left. reflexivity.
Qed.

Lemma swingnE n : swingn n = prodn (map (fun p => p ^ swing_exp n p) (prime_gen n)).
Proof.
  unfold swingn. f_equal. apply map_ext_in. intros p Hp. apply prime_gen_in in Hp. destruct Hp as [[H _] _].
  rewrite swing_factorE by lia. unfold swing_exp. lia.
Qed.
Lemma swingn_vp n q : is_prime q -> vp q (swingn n) (swing_exp n q).
Proof.
  intros Q. rewrite swingnE.
  destruct (vp_prod q (prime_gen n) (swing_exp n) Q (prime_gen_nodup n)) as [H1 H2].
  { intros p Hp. apply prime_gen_in in Hp. apply Hp. }
  destruct (in_dec Nat.eq_dec q (prime_gen n)) as [I|I]; [auto|].
  replace (swing_exp n q) with 0; [auto|]. unfold swing_exp.
  rewrite (sum_ext _ _ (fun _ => 0)); [symmetry; apply sum_zero|]. intros k _.
  rewrite Nat.div_small; [reflexivity|]. rewrite prime_gen_in in I.
  assert (n < q) by (destruct (le_lt_dec q n); [exfalso; apply I; auto|assumption]).
  rewrite Nat.pow_succ_r'. pose proof (pow_pos q k (proj1 Q)). nia.
Qed.

Lemma fact_swingn n : fact n = fact (n / 2) * fact (n / 2) * swingn n.
Proof.
  assert (0 < swingn n) as Hs.
  { rewrite swingnE. assert (forall p, In p (prime_gen n) -> 0 < p) as A.
    { intros p Hp. apply prime_gen_in in Hp. destruct Hp as [[? _] _]. lia. }
    induction (prime_gen n) as [|p l IH]; [simpl; lia|]. cbn [map prodn].
    assert (0 < prodn (map (fun p => p ^ swing_exp n p) l)) by (apply IH; intros; apply A; right; assumption).
    assert (p ^ swing_exp n p <> 0) by (apply Nat.pow_nonzero; specialize (A p (or_introl eq_refl)); lia). nia. }
  pose proof (lt_O_fact n). pose proof (lt_O_fact (n / 2)).
  apply eq_from_vp; [assumption|nia|]. intros q e Q V.
  pose proof (legendre q n (n + 1) Q ltac:(lia)) as L.
  pose proof (legendre q (n / 2) (n + 1) Q ltac:(lia)) as L2.
  rewrite (vp_unique q _ _ _ Q V L).
  replace (sum (n + 1) (fun k => n / q ^ S k)) with
    (sum (n + 1) (fun k => n / 2 / q ^ S k) + sum (n + 1) (fun k => n / 2 / q ^ S k) + swing_exp n q).
  - apply vp_mul; [assumption| |apply swingn_vp; assumption]. apply vp_mul; assumption.
  - unfold swing_exp. rewrite <-!sum_add. apply sum_ext. intros k _.
    assert (q ^ S k <> 0) by (pose proof (pow_pos q (S k) (proj1 Q)); lia).
    rewrite Nat.div_div, (Nat.mul_comm 2), <-Nat.div_div by lia.
    set (m := n / q ^ S k). pose proof (Nat.div2_odd m) as D. rewrite Nat.div2_div in D. lia.
Qed.

(* ---- back to Z ---- *)
Lemma prodzE l : prodz l = Z.of_nat (prodn l).
Proof. induction l as [|x l IH]; [reflexivity|]. cbn [prodz prodn]. rewrite IH, Nat2Z.inj_mul. reflexivity. Qed.
Lemma swingE n : swing n = Z.of_nat (swingn n).
Proof.
  unfold swing. rewrite product_spec, prodz_filter; [apply prodzE|].
  intros x Hx. apply in_map_iff in Hx. destruct Hx as (p & <- & Hp). apply prime_gen_in in Hp. destruct Hp as [[Hp _] _].
  rewrite swing_factorE by lia. rewrite Nat.mul_1_l. apply pow_pos. assumption.
Qed.
Lemma fact_swingS f n : fact_swing (S f) n =
  if n <? 2 then 1%Z else (fact_swing f (n / 2) * fact_swing f (n / 2) * swing n)%Z.
Proof. reflexivity. Qed.
Lemma fact_swingE fuel n : n < fuel -> fact_swing fuel n = Z.of_nat (fact n).
Proof.
  revert n. induction fuel as [|f IH]; intros n H; [lia|]. rewrite fact_swingS. destruct (n <? 2) eqn:E.
  - assert (n = 0 \/ n = 1) as [->| ->] by lia; reflexivity.
  - rewrite IH by lia. rewrite swingE, <-!Nat2Z.inj_mul. f_equal. symmetry. apply fact_swingn.
Qed.
Lemma fact_zE n : fact_z n = Z.of_nat (fact n).
Proof.
  induction n as [|n IH]; [reflexivity|]. change (fact (S n)) with (S n * fact n).
  change (fact_z (S n)) with (Z.of_nat (S n) * fact_z n)%Z. rewrite Nat2Z.inj_mul, IH. reflexivity.
Qed.
Lemma fact_swing_fact n : fact_swing (S n) n = fact_z n.
Proof. rewrite fact_zE. apply fact_swingE. lia. Qed.

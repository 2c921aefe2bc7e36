(* The argument reduction of sin, cos and tan ends; exponentials of positive numbers are
   positive. *)
From Coq Require Import QArith Qabs Qpower Setoid Lqa.
From Verif Require Import Value FloatModel FloatProofs FloatSqrt.
Open Scope Z_scope.

Lemma pow2_512 p : 9 <= p -> (0 < pow2 (- p) /\ pow2 (- p) <= 1 # 512)%Q.
Proof. intros H. split; [apply pow2_pos|]. change (1 # 512) with (pow2 (-9)). apply pow2_le. lia. Qed.

(* one subtraction *)
Lemma sub_step p x m : 9 <= p -> (0 < m)%Q -> (m <= x)%Q -> (x <= 172 * m)%Q ->
  (0 <= fsub (rnd p) x m /\ fsub (rnd p) x m <= x - (1 # 2) * m)%Q.
Proof.
  intros Hp Hm Hx HK. unfold fsub. split; [apply rnd_nonneg; [lia|lra]|].
  pose proof (rnd_error p (x - m)) as E. rewrite (Qabs_pos (x - m)) in E by lra. apply abs_bd in E.
  destruct (pow2_512 p Hp) as [U1 U2].
  pose proof (mul_le (x - m) (171 * m) (pow2 (- p)) (1 # 512) ltac:(lra) ltac:(lra) ltac:(lra) U2). lra.
Qed.
Lemma subtract_ends p m : 9 <= p -> (0 < m)%Q -> forall n x, (0 <= x)%Q -> (x <= 172 * m)%Q ->
  (x < m + inject_Z (Z.of_nat n) * ((1 # 2) * m))%Q ->
  exists x', (0 <= x' /\ x' < m)%Q /\ forall fuel, (n < fuel)%nat -> subtract (rnd p) fuel x m = Some x'.
Proof.
  intros Hp Hm. induction n as [|n IH]; intros x H0 HK Hn.
  - exists x. split; [change (inject_Z (Z.of_nat 0)) with 0%Q in Hn; lra|]. intros [|f] Hf; [lia|]. cbn [subtract].
    destruct (Qle_bool m x) eqn:E; [|reflexivity]. apply Qle_bool_iff in E. change (inject_Z (Z.of_nat 0)) with 0%Q in Hn. exfalso. lra.
  - destruct (Qle_bool m x) eqn:E.
    + apply Qle_bool_iff in E. destruct (sub_step p x m Hp Hm E HK) as [S1 S2].
      destruct (IH (fsub (rnd p) x m) S1 ltac:(lra)) as (x' & B & F).
      { rewrite Nat2Z.inj_succ in Hn. unfold Z.succ in Hn. rewrite inject_Z_plus in Hn. change (inject_Z 1) with 1%Q in Hn. lra. }
      exists x'. split; [exact B|]. intros [|f] Hf; [lia|]. cbn [subtract]. apply Qle_bool_iff in E. rewrite E. apply F. lia.
    + exists x. split. { split; [exact H0|]. apply Qnot_le_lt. intros C. apply Qle_bool_iff in C. congruence. }
      intros [|f] Hf; [lia|]. cbn [subtract]. rewrite E. reflexivity.
Qed.
Lemma subtract_ends' p m x : 9 <= p -> (0 < m)%Q -> (0 <= x)%Q -> (x <= 172 * m)%Q ->
  exists x', (0 <= x' /\ x' < m)%Q /\ forall fuel, (343 < fuel)%nat -> subtract (rnd p) fuel x m = Some x'.
Proof.
  intros Hp Hm H0 HK. eapply subtract_ends; eauto. change (inject_Z (Z.of_nat 343)) with 343%Q. lra.
Qed.

(* the collected multiples: each is at most 17 times the next smaller one *)
Fixpoint ladder (top : Q) (ms : list Q) (base : Q) : Prop :=
  match ms with
  | [] => (top <= 17 * base)%Q
  | m :: ms' => (0 < m)%Q /\ (top <= 17 * m)%Q /\ ladder m ms' base
  end.
Lemma subtract_all_ends p base : 9 <= p -> (0 < base)%Q -> forall ms x top, (0 <= x)%Q -> (x <= top)%Q -> ladder top ms base ->
  exists x', (0 <= x' /\ x' <= 17 * base)%Q /\ forall fuel, (343 < fuel)%nat -> subtract_all (rnd p) fuel x ms = Some x'.
Proof.
  intros Hp Hb. induction ms as [|m ms IH]; intros x top H0 Hx L; cbn [ladder] in L.
  - exists x. split; [lra|reflexivity].
  - destruct L as (Hm & L1 & L2). destruct (subtract_ends' p m x Hp Hm H0 ltac:(lra)) as (x1 & B & F).
    destruct (IH x1 m (proj1 B) ltac:(lra) L2) as (x2 & B2 & F2). exists x2. split; [exact B2|].
    intros fuel Hf. cbn [subtract_all]. rewrite F by assumption. apply F2, Hf.
Qed.
Lemma mul16 p m : 9 <= p -> (0 < m)%Q -> (15 * m <= fmul (rnd p) m (fint (rnd p) 16) /\ fmul (rnd p) m (fint (rnd p) 16) <= 17 * m)%Q.
Proof.
  intros Hp Hm. unfold fmul, fint. assert (8 <= p) as H8 by lia.
  pose proof (rnd_pos p (inject_Z 16) H8 eq_refl) as [A1 A2]. change (inject_Z 16) with 16%Q in *. set (s := rnd p 16) in *.
  assert (0 < m * s)%Q as P by nra. pose proof (rnd_pos p _ H8 P) as [B1 B2]. split; nra.
Qed.
Lemma q15_S n : (15 ^ Z.of_nat (S n) == 15 * 15 ^ Z.of_nat n)%Q.
Proof. rewrite Nat2Z.inj_succ. unfold Z.succ. rewrite Qpower_plus by lra. change (15 ^ 1)%Q with 15%Q. ring. Qed.
Lemma q15_pos n : (0 < 15 ^ Z.of_nat n)%Q.
Proof. induction n as [|n IH]; [reflexivity|]. rewrite q15_S. lra. Qed.
Lemma multiples_end p x base : 9 <= p -> forall n m acc, (0 < m)%Q -> (x < 15 ^ (Z.of_nat n) * m)%Q ->
  (forall top, (top <= 17 * m)%Q -> ladder top acc base) ->
  exists ms, ladder x ms base /\ forall fuel, (n <= fuel)%nat -> (0 < fuel)%nat -> multiples (rnd p) fuel x m acc = Some ms.
Proof.
  intros Hp. induction n as [|n IH]; intros m acc Hm Hx Inv; destruct (mul16 p m Hp Hm) as [A1 A2].
  - change (15 ^ Z.of_nat 0)%Q with 1%Q in Hx. exists acc. split; [apply Inv; lra|]. intros [|f] _ Hf; [lia|]. cbn [multiples].
    destruct (Qle_bool _ x) eqn:E; [|reflexivity]. apply Qle_bool_iff in E. exfalso. lra.
  - set (m' := fmul (rnd p) m (fint (rnd p) 16)) in *. destruct (Qle_bool m' x) eqn:E.
    + destruct (IH m' (m' :: acc)) as (ms & L & F).
      * lra.
      * rewrite q15_S in Hx. pose proof (q15_pos n) as P.
        pose proof (mul_le (15 ^ Z.of_nat n) (15 ^ Z.of_nat n) (15 * m) m' ltac:(lra) ltac:(lra) ltac:(lra) A1). lra.
      * intros top Ht. cbn [ladder]. split; [lra|]. split; [exact Ht|]. apply Inv. exact A2.
      * exists ms. split; [exact L|]. intros [|f] Hf _; [lia|]. cbn [multiples]. fold m'. rewrite E. 
        destruct f as [|f].
        { destruct n as [|n]; [|lia]. change (15 ^ Z.of_nat 1)%Q with 15%Q in Hx. apply Qle_bool_iff in E. exfalso. lra. }
        apply F; lia.
    + exists acc. split. { apply Inv. assert (x < m')%Q; [|lra]. apply Qnot_le_lt. intros C. apply Qle_bool_iff in C. congruence. }
      intros [|f] Hf H1; [lia|]. cbn [multiples]. fold m'. rewrite E. reflexivity.
Qed.
Lemma pow15_above x m : (0 < m)%Q -> exists n, (x < 15 ^ (Z.of_nat n) * m)%Q.
Proof.
  intros Hm. exists (Z.to_nat (Z.abs (Qnum (x / m)) + 1)). 
  assert (forall k : nat, (inject_Z (Z.of_nat k) <= 15 ^ Z.of_nat k)%Q) as G.
  { induction k as [|k IH]; [discriminate|]. rewrite q15_S, Nat2Z.inj_succ.
    unfold Z.succ. rewrite inject_Z_plus. change (inject_Z 1) with 1%Q.
    assert (1 <= 15 ^ Z.of_nat k)%Q; [|lra]. clear IH. induction k as [|k IH]; [discriminate|].
    rewrite q15_S. lra. }
  specialize (G (Z.to_nat (Z.abs (Qnum (x / m)) + 1))). rewrite Z2Nat.id in * by lia.
  assert (x / m < inject_Z (Z.abs (Qnum (x / m)) + 1))%Q as L.
  { destruct (x / m)%Q as [n d]. unfold Qlt, inject_Z. cbn. nia. }
  assert (x == x / m * m)%Q as E by (field; lra). rewrite E at 1. apply Qmult_lt_compat_r; lra.
Qed.

Theorem two_pi_reduce_ends p pi x : 9 <= p -> (3 <= pi)%Q -> (0 <= x)%Q ->
  exists x' n, (0 <= x' /\ x' < fmul (rnd p) (fint (rnd p) 2) pi)%Q /\
    forall fuel, (n <= fuel)%nat -> two_pi_reduce (rnd p) fuel pi x = Some x'.
Proof.
  intros Hp Hpi Hx. unfold two_pi_reduce. set (T := fmul (rnd p) (fint (rnd p) 2) pi).
  assert ((59 # 10) <= T)%Q as HT.
  { unfold T, fmul, fint. assert (8 <= p) as H8 by lia. destruct (pow2_512 p Hp) as [U1 U2].
    pose proof (rnd_error p (inject_Z 2)) as A. rewrite (Qabs_pos (inject_Z 2)) in A by discriminate. apply abs_bd in A. change (inject_Z 2) with 2%Q in *.
    set (s := rnd p 2) in *. assert ((1022 # 512) <= s)%Q as S1 by lra.
    pose proof (mul_le (1022 # 512) s 3 pi ltac:(lra) S1 ltac:(lra) Hpi) as M.
    pose proof (rnd_error p (s * pi)) as B. rewrite (Qabs_pos (s * pi)) in B by lra. apply abs_bd in B.
    pose proof (mul_le (s * pi) (s * pi) (pow2 (- p)) (1 # 512) ltac:(lra) ltac:(lra) ltac:(lra) U2). lra. }
  assert (0 < T)%Q as T0 by lra.
  destruct (Qle_bool x (fint (rnd p) 1000)) eqn:E.
  - apply Qle_bool_iff in E. assert (x <= 172 * T)%Q as B.
    { unfold fint in E. pose proof (rnd_error p (inject_Z 1000)) as A. rewrite (Qabs_pos (inject_Z 1000)) in A by discriminate. apply abs_bd in A. change (inject_Z 1000) with 1000%Q in *.
      destruct (pow2_512 p Hp) as [U1 U2]. lra. }
    destruct (subtract_ends' p T x Hp T0 Hx B) as (x' & Bx & F). exists x', 344%nat. split; [exact Bx|]. intros fuel Hf. apply F. lia.
  - destruct (pow15_above x T T0) as (n & Hn).
    destruct (multiples_end p x T Hp n T [] T0 Hn) as (ms & L & F); [intros top Ht; exact Ht|].
    destruct (subtract_all_ends p T Hp T0 ms x x Hx (Qle_refl x) L) as (x1 & B1 & F1).
    destruct (subtract_ends' p T x1 Hp T0 (proj1 B1) ltac:(lra)) as (x2 & B2 & F2).
    exists x2, (n + 344)%nat. split; [exact B2|]. intros fuel Hf.
    rewrite F by lia. rewrite F1 by lia. apply F2. lia.
Qed.

(* at low precision the subtraction may not change the number *)
Lemma subtract_stuck R x m : Qle_bool m x = true -> fsub R x m = x -> forall fuel, subtract R fuel x m = None.
Proof. intros H E. induction fuel as [|f IH]; [reflexivity|]. cbn [subtract]. rewrite H, E. exact IH. Qed.

(* ---- exponentials ---- *)
Lemma fint_pos p n : 8 <= p -> 0 < n -> (0 < fint (rnd p) n)%Q.
Proof.
  intros Hp Hn. unfold fint. assert (0 < inject_Z n)%Q as P. { unfold Qlt. cbn. lia. }
  pose proof (rnd_pos p _ Hp P). lra.
Qed.
Lemma fmul_nonneg p a b : 8 <= p -> (0 <= a -> 0 <= b -> 0 <= fmul (rnd p) a b)%Q.
Proof. intros. apply rnd_nonneg; [assumption|]. apply Qmult_le_0_compat; assumption. Qed.
Lemma fmul_pos p a b : 8 <= p -> (0 < a -> 0 < b -> 0 < fmul (rnd p) a b)%Q.
Proof. intros Hp A B. assert (0 < a * b)%Q as P by (apply Qmult_lt_0_compat; assumption). pose proof (rnd_pos p _ Hp P). unfold fmul. lra. Qed.

Definition pw_inv (l : looper) (s : pw) : Prop := let '(z, xN, f) := s in (0 < z)%Q /\ (0 <= xN)%Q /\ (0 < f)%Q /\ 0 <= l_i l.
Lemma pw_body_pos p s i s' : 8 <= p -> let '(z, xN, f) := s in (0 < z)%Q -> (0 <= xN)%Q -> (0 < f)%Q ->
  pw_body (rnd p) i s = Ok s' -> exists z', s' = (z', xN, f) /\ (0 < z')%Q.
Proof.
  intros Hp. destruct s as [[z xN] f]. intros Hz Hx Hf. unfold pw_body, fquo.
  destruct (Qeq_bool f 0); [discriminate|]. cbn [bind]. intros [= <-]. eexists. split; [reflexivity|].
  assert (0 <= xN / f)%Q as Q0. { apply Qle_shift_div_l; lra. }
  pose proof (rnd_nonneg p _ Hp Q0). unfold fadd. assert (0 < z + rnd p (xN / f))%Q as P by lra. pose proof (rnd_pos p _ Hp P). lra.
Qed.
Lemma done_next R p l z l' : done R p l z = More l' -> 0 <= l_i l'.
Proof.
  unfold done. destruct (_ && _); [discriminate|]. destruct (_ && _); [discriminate|]. destruct (_ =? _); [discriminate|].
  intros [= <-]. cbn [l_i]. apply Z.mod_pos_bound. reflexivity.
Qed.
Lemma result_ok {S} (zof : S -> Q) r z : result zof r = Some (Ok z) -> exists s, r = Some (Ok s) /\ zof s = z.
Proof. destruct r as [[s| | |]|]; simpl; try discriminate. intros [= <-]. eauto. Qed.
Section Pw.
Variables (p : Z) (nx : Z -> pw -> pw) (k : Z).
Hypothesis Hp : 8 <= p.
Hypothesis nx_inv : forall l s, pw_inv l s -> pw_inv l (nx (l_i l) s).
Lemma pw_series_pos fuel s z : pw_inv (new_loop k p) s ->
  result pw_z (series (rnd p) p pw pw_z (pw_body (rnd p)) nx fuel (new_loop k p) s) = Some (Ok z) -> (0 < z)%Q.
Proof.
  intros I0 H. apply result_ok in H. destruct H as (s' & H & <-).
  eapply series_inv with (I := pw_inv) in H; [|clear - Hp nx_inv|exact I0].
  - destruct H as (l & [[z0 xN] f] & (I1 & I2 & I3 & I4) & B & _).
    destruct (pw_body_pos p (z0, xN, f) (l_i l) s' Hp I1 I2 I3 B) as (z' & -> & P). exact P.
  - intros l [[z xN] f] s' l' (I1 & I2 & I3 & I4) B D. destruct (pw_body_pos p (z, xN, f) (l_i l) s' Hp I1 I2 I3 B) as (z' & -> & P).
    apply nx_inv. apply done_next in D. repeat split; assumption.
Qed.
End Pw.
Theorem exp_positive p fuel x z : 8 <= p -> (0 <= x)%Q -> exponential (rnd p) p fuel x = Some (Ok z) -> (0 < z)%Q.
Proof.
  intros Hp Hx H. eapply (pw_series_pos p (exp_next (rnd p) x) 10 Hp); [| |exact H].
  - intros l [[z0 xN] f] (I1 & I2 & I3 & I4). unfold exp_next, pw_inv. split; [exact I1|]. split; [apply fmul_nonneg; assumption|].
    split; [apply fmul_pos; auto; apply fint_pos; lia|assumption].
  - unfold pw_inv. split; [apply fint_pos; lia|]. split; [assumption|]. split; [apply fint_pos; lia|cbn; lia].
Qed.
Lemma rnd_nonpos p q : 8 <= p -> (q <= 0)%Q -> (rnd p q <= 0)%Q.
Proof.
  intros Hp H. pose proof (rnd_error p q) as E. rewrite (Qabs_neg q) in E by lra. apply abs_bd in E.
  destruct (pow2_small p Hp) as [U1 U2]. pose proof (mul_le (- q) (- q) (pow2 (- p)) 1 ltac:(lra) ltac:(lra) ltac:(lra) ltac:(lra)). lra.
Qed.
Lemma square_nonneg p a x : 8 <= p -> (0 <= a)%Q -> (0 <= fmul (rnd p) (fmul (rnd p) a x) x)%Q.
Proof.
  intros Hp Ha. destruct (Qlt_le_dec x 0) as [N|N]; [|auto using fmul_nonneg].
  apply rnd_nonneg; [exact Hp|]. assert (fmul (rnd p) a x <= 0)%Q as B.
  { apply rnd_nonpos; [exact Hp|]. assert (0 <= a * (- x))%Q by (apply Qmult_le_0_compat; lra). lra. }
  assert (0 <= (- fmul (rnd p) a x) * (- x))%Q by (apply Qmult_le_0_compat; lra). lra.
Qed.
Theorem cosh_positive p fuel x z : 8 <= p -> float_cosh (rnd p) p fuel x = Some (Ok z) -> (0 < z)%Q.
Proof.
  intros Hp H. eapply (pw_series_pos p (cosh_next (rnd p) x) 10 Hp); [| |exact H].
  - intros l [[z0 xN] f] (I1 & I2 & I3 & I4). unfold cosh_next, pw_inv. split; [exact I1|]. split; [apply square_nonneg; assumption|].
    split; [|assumption]. apply fmul_pos; [assumption| |apply fint_pos; lia]. apply fmul_pos; auto. apply fint_pos; lia.
  - unfold pw_inv. split; [apply fint_pos; lia|]. split; [|split; [apply fint_pos; lia|cbn; lia]].
    apply rnd_nonneg; [exact Hp|]. nra.
Qed.

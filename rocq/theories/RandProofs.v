From Coq Require Import QArith Qabs Permutation Lqa String.
From Verif Require Import Value NumModel NumSpec ArrModel ArrSpec ArrSel EvalModel FloatModel FloatProofs FloatSqrt FloatMono ParModel ParProofs RandModel RandSpec.
Open Scope list_scope.
Open Scope Z_scope.

Section Roll.
Variable gen : generator.
Variable origin : Z.
Hypothesis H : honest gen.
Notation roll := (roll gen origin).
Lemma roll_all : forall l, (forall v, In v l -> forall g, dice v -> exists r, fst (roll v g) = Ok r /\ rolled origin v r) ->
  forall g, Forall dice l -> exists r, fst (in_turn gen roll l g) = Ok r /\ Forall2 (rolled origin) l r.
Proof using H.
  induction l as [|x l IH]; intros IN g D.
  - exists []. split; [reflexivity|constructor].
  - inversion D as [|? ? D1 D2]; subst. destruct (IN x (or_introl eq_refl) g D1) as (y & Y & R). cbn [in_turn]. destruct (roll x g) as [ry g1]. cbn [fst] in Y. subst ry.
    destruct (IH (fun v I => IN v (or_intror I)) g1 D2) as (r & E & F). destruct (in_turn gen roll l g1) as [rr g2]. cbn [fst] in E. subst rr.
    exists (y :: r). split; [reflexivity|constructor; assumption].
Qed.
Lemma roll_list : forall l g, (fix go (l : list value) (g : state gen) : res (list value) * state gen :=
    match l with
    | [] => (Ok [], g)
    | x :: l' =>
      match roll x g with
      | (Ok y, g1) => match go l' g1 with (Ok r, g2) => (Ok (y :: r), g2) | e => e end
      | (Err, g1) => (Err, g1) | (Crash, g1) => (Crash, g1) | (Unmod, g1) => (Unmod, g1)
      end
    end) l g = in_turn gen roll l g.
Proof using Type. reflexivity. Qed.
Lemma dice_all : forall l, (fix all (l : list value) := match l with [] => True | x :: l' => dice x /\ all l' end) l <-> Forall dice l.
Proof using Type. induction l as [|x l IH]; [split; constructor|]. rewrite IH. split; [intros []; constructor; assumption|intros X; inversion X; auto]. Qed.
Theorem roll_ok : forall v g, dice v -> exists r, fst (roll v g) = Ok r /\ rolled origin v r.
Proof using H.
  destruct H as (H1 & _ & _).
  induction v as [n|c|b|q|a b IHa IHb|l H0|s l H0] using value_ind'; intros g D; try contradiction.
  - cbn [RandModel.roll dice] in *. unfold roll_scalar. replace (n <=? 0) with false by lia. specialize (H1 g n D). destruct (int64n gen g n) as [r g']. cbn [fst] in *.
    eexists. split; [reflexivity|]. constructor; [exact D|lia].
  - cbn [dice] in D. apply dice_all in D. cbn [RandModel.roll]. rewrite roll_list. rewrite Forall_forall in H0. destruct (roll_all l (fun v I => H0 v I) g D) as (r & E & F).
    destruct (in_turn gen roll l g) as [rr g2]. cbn [fst] in E. subst rr. exists (VVec r). split; [reflexivity|constructor; exact F].
  - cbn [dice] in D. apply dice_all in D. cbn [RandModel.roll]. rewrite roll_list. rewrite Forall_forall in H0. destruct (roll_all l (fun v I => H0 v I) g D) as (r & E & F).
    destruct (in_turn gen roll l g) as [rr g2]. cbn [fst] in E. subst rr. eexists. split; [reflexivity|constructor; exact F].
Qed.
End Roll.

(* ---- deal ---- *)
Lemma map_inj_NoDup {A B} (f : A -> B) : (forall x y, f x = f y -> x = y) -> forall l, NoDup l -> NoDup (map f l).
Proof. intros I. induction 1 as [|x l N D IH]; [constructor|]. cbn. constructor; [|exact IH]. intros X. apply in_map_iff in X. destruct X as (y & E & Y). apply I in E. subst. contradiction. Qed.
Lemma firstn_sub {A} n (l : list A) x : In x (firstn n l) -> In x l.
Proof. intros X. rewrite <-(firstn_skipn n l). apply in_or_app. left. exact X. Qed.
Lemma NoDup_firstn {A} n (l : list A) : NoDup l -> NoDup (firstn n l).
Proof.
  revert n. induction l as [|x l IH]; intros [|n] D; cbn [firstn]; try constructor; inversion D; subst; auto.
  intros X. apply firstn_sub in X. contradiction.
Qed.
Lemma firsts_NoDup n : NoDup (map Z.of_nat (seq 0 n)).
Proof. apply map_inj_NoDup; [intros; lia|apply seq_NoDup]. Qed.
Lemma firsts_in n z : In z (map Z.of_nat (seq 0 n)) <-> 0 <= z < Z.of_nat n.
Proof. rewrite in_map_iff. split; [intros (k & <- & K); apply in_seq in K; lia|]. intros L. exists (Z.to_nat z). rewrite in_seq. lia. Qed.
Theorem deal_ok : forall gen origin a b g, honest gen -> 0 <= a -> a <= b -> b <= maxInt ->
  exists l, fst (deal gen origin (VInt a) (VInt b) g) = Ok (VVec (map VInt l)) /\ Z.of_nat (length l) = a /\ NoDup l /\ Forall (fun z => origin <= z < origin + b) l.
Proof.
  intros gen origin a b g (_ & _ & H) A AB B. unfold deal. replace (a <? 0) with false by lia. replace (maxInt <? a) with false by lia. replace (b <? 0) with false by lia. replace (maxInt <? b) with false by lia.
  cbn [orb]. replace (b <? a) with false by lia. specialize (H g (Z.to_nat b)). destruct (perm gen g (Z.to_nat b)) as [ints g']. cbn [fst] in *.
  pose proof (Permutation_length H) as L. rewrite map_length, seq_length in L. replace (Z.to_nat a <=? length ints)%nat with true by (symmetry; apply Nat.leb_le; lia).
  exists (map (fun i => i + origin) (firstn (Z.to_nat a) ints)). split; [rewrite map_map; reflexivity|]. split; [rewrite map_length, firstn_length; lia|]. split.
  - apply map_inj_NoDup; [intros; lia|]. apply NoDup_firstn. apply (Permutation_NoDup (Permutation_sym H)), firsts_NoDup.
  - apply Forall_forall. intros z Z1. apply in_map_iff in Z1. destruct Z1 as (i & <- & I). apply firstn_sub in I. apply (Permutation_in _ H) in I. apply firsts_in in I. lia.
Qed.
Lemma NoDup_app2 {A} (a b : list A) : NoDup a -> NoDup b -> (forall x, In x a -> In x b -> False) -> NoDup (a ++ b).
Proof.
  induction 1 as [|x l N D IH]; intros B X; [exact B|]. cbn. constructor; [|apply IH; [exact B|intros y Y; apply X; right; exact Y]].
  intros I. apply in_app_or in I. destruct I as [I|I]; [contradiction|]. apply (X x); [left; reflexivity|exact I].
Qed.
(* a generator with the given results *)
Definition choose (l : list Z) (r : Z) : generator :=
  mkGen unit (fun g n => (if (0 <=? r) && (r <? n) then r else 0, g)) (fun g n => (if (0 <=? r) && (r <? n) then r else 0, g))
    (fun g n => (if (length l <=? n)%nat && forallb (fun z => (0 <=? z) && (z <? Z.of_nat n)) l then l ++ filter (fun z => negb (existsb (Z.eqb z) l)) (map Z.of_nat (seq 0 n)) else map Z.of_nat (seq 0 n), g)) (fun _ => tt).
Lemma choose_honest : forall l r, NoDup l -> honest (choose l r).
Proof.
  intros l r ND. split; [|split]; intros g n.
  - intros N. cbn. destruct ((0 <=? r) && (r <? n)) eqn:E; lia.
  - intros N. cbn. destruct ((0 <=? r) && (r <? n)) eqn:E; lia.
  - cbn. destruct ((length l <=? n)%nat && forallb _ l) eqn:E; [|reflexivity]. apply andb_prop in E. destruct E as [_ E]. rewrite forallb_forall in E.
    assert (EX : forall z, existsb (Z.eqb z) l = true <-> In z l) by (intros z; rewrite existsb_exists; split; [intros (x & X & Y); apply Z.eqb_eq in Y; subst; exact X|intros X; exists z; split; [exact X|apply Z.eqb_refl]]).
    apply NoDup_Permutation; [|apply firsts_NoDup|].
    + apply NoDup_app2; [exact ND|apply NoDup_filter, firsts_NoDup|]. intros z Z1 Z2. apply filter_In in Z2. destruct Z2 as [_ Z2]. apply EX in Z1. rewrite Z1 in Z2. discriminate.
    + intros z. rewrite in_app_iff, filter_In, firsts_in. split.
      * intros [X|X]; [specialize (E z X); lia|tauto].
      * intros X. destruct (existsb (Z.eqb z) l) eqn:Q; [left; apply EX, Q|right; split; [exact X|reflexivity]].
Qed.
Theorem deal_any : forall origin b l, Z.of_nat (length l) <= b <= maxInt -> NoDup l -> Forall (fun z => origin <= z < origin + b) l ->
  exists gen g, honest gen /\ fst (deal gen origin (VInt (Z.of_nat (length l))) (VInt b) g) = Ok (VVec (map VInt l)).
Proof.
  intros origin b l B ND F. set (l0 := map (fun z => z - origin) l). exists (choose l0 0), tt.
  assert (N0 : NoDup l0) by (apply map_inj_NoDup; [intros; lia|exact ND]). assert (L0 : length l0 = length l) by apply map_length.
  split; [apply choose_honest, N0|]. unfold deal.
  replace (Z.of_nat (length l) <? 0) with false by lia. replace (maxInt <? Z.of_nat (length l)) with false by lia. replace (b <? 0) with false by lia. replace (maxInt <? b) with false by lia.
  cbn [orb]. replace (b <? Z.of_nat (length l)) with false by lia. cbn [perm choose fst].
  assert (X : forallb (fun z => (0 <=? z) && (z <? Z.of_nat (Z.to_nat b))) l0 = true).
  { apply forallb_forall. intros z Z1. apply in_map_iff in Z1. destruct Z1 as (y & <- & Y). rewrite Forall_forall in F. specialize (F y Y). lia. }
  rewrite X. replace (length l0 <=? Z.to_nat b)%nat with true by (symmetry; apply Nat.leb_le; lia). cbn [andb].
  rewrite Nat2Z.id, app_length, L0. replace (length l <=? length l + _)%nat with true by (symmetry; apply Nat.leb_le; lia).
  rewrite <-L0, firstn_app, Nat.sub_diag, firstn_all, firstn_O, app_nil_r. unfold l0. rewrite map_map. do 2 f_equal. apply map_ext. intros z. f_equal. lia.
Qed.
Theorem roll_any : forall origin n z, 0 < n -> origin <= z < origin + n -> exists gen g, honest gen /\ fst (roll gen origin (VInt n) g) = Ok (VInt z).
Proof.
  intros origin n z N Z1. exists (choose [] (z - origin)), tt. split; [apply choose_honest; constructor|]. cbn [roll]. unfold roll_scalar. replace (n <=? 0) with false by lia.
  cbn [int64n choose fst]. replace ((0 <=? z - origin) && (z - origin <? n)) with true by lia. cbn. do 2 f_equal. lia.
Qed.
Theorem roll_big : forall gen origin n g, honest gen -> 0 < n -> exists z, fst (roll gen origin (VBig n) g) = Ok (shrink_big z) /\ 0 <= z < n.
Proof.
  intros gen origin n g (_ & H & _) N. cbn [roll]. unfold roll_scalar. replace (n <=? 0) with false by lia. specialize (H g n N). destruct (big_int gen g n) as [r g']. exists r. split; [reflexivity|exact H].
Qed.

(* ---- rand ---- *)
Lemma rep_Z p n : 0 <= n <= 2 ^ p -> representable p (inject_Z n).
Proof. intros N. exists n, 0. split; [lia|]. change (pow2 0) with 1%Q. ring. Qed.
Lemma rand_parts : forall p r, 1 <= p -> 0 <= r <= 2 ^ p -> let M := rnd 53 (inject_Z (2 ^ p + 1)) in
  (0 < M)%Q /\ (0 <= rnd 53 (inject_Z r))%Q /\ (rnd 53 (inject_Z r) <= M)%Q.
Proof.
  intros p r P R M. assert (R0 : (0 <= inject_Z r)%Q) by (change 0%Q with (inject_Z 0); rewrite <-Zle_Qle; lia).
  assert (M0 : (0 < inject_Z (2 ^ p + 1))%Q) by (change 0%Q with (inject_Z 0); rewrite <-Zlt_Qlt; lia).
  split; [|split].
  - destruct (rnd_pos 53 _ ltac:(lia) M0) as [A _]. unfold M. set (q := inject_Z (2 ^ p + 1)) in *. lra.
  - apply rnd_nonneg; [lia|exact R0].
  - apply rnd_mono; [lia|exact R0|]. rewrite <-Zle_Qle. lia.
Qed.
Lemma rand_value : forall gen p f g, honest gen -> 1 <= p -> (0 <= f)%Q -> exists r, 0 <= r <= 2 ^ p /\
  fst (rand_float gen p f g) = Ok (rnd 53 (rnd 53 (rnd 53 (inject_Z r) / rnd 53 (inject_Z (2 ^ p + 1))) * f)).
Proof.
  intros gen p f g (_ & H & _) P F. unfold rand_float. replace (Qle_bool 0 f) with true by (symmetry; apply Qle_bool_iff, F). cbv zeta.
  assert (0 < 2 ^ p) by (apply Z.pow_pos_nonneg; lia). specialize (H g (2 ^ p + 1) ltac:(lia)). destruct (big_int gen g (2 ^ p + 1)) as [r g']. cbn [fst] in *. exists r. split; [lia|reflexivity].
Qed.
Theorem rand_ok : forall gen p f g, honest gen -> 1 <= p -> (0 <= f)%Q -> exists q, fst (rand_float gen p f g) = Ok q /\ (0 <= q)%Q /\ (q <= rnd 53 f)%Q.
Proof.
  intros gen p f g H P F. destruct (rand_value gen p f g H P F) as (r & R & E). eexists. split; [exact E|]. destruct (rand_parts p r P R) as (M0 & X0 & XM).
  set (M := rnd 53 (inject_Z (2 ^ p + 1))) in *. set (x := rnd 53 (inject_Z r)) in *.
  assert (Y0 : (0 <= x / M)%Q) by (apply Qle_shift_div_l; [exact M0|lra]). assert (Y1 : (x / M <= 1)%Q) by (apply Qle_shift_div_r; [exact M0|lra]).
  assert (Z0 : (0 <= rnd 53 (x / M))%Q) by (apply rnd_nonneg; [lia|exact Y0]).
  assert (Z1 : (rnd 53 (x / M) <= 1)%Q). { rewrite <-(rnd_fix 53 1) by (try lia; try lra; exact (rep_Z 53 1 ltac:(lia))). apply rnd_mono; [lia|exact Y0|exact Y1]. }
  set (y := rnd 53 (x / M)) in *. assert (W : (0 <= y * f)%Q) by nra. split; [apply rnd_nonneg; [lia|exact W]|]. apply rnd_mono; [lia|exact W|]. nra.
Qed.
Lemma rnd_rep : forall p q, 1 <= p -> (0 <= q)%Q -> representable p (rnd p q).
Proof.
  intros p q P H. destruct (Qlt_le_dec 0 q) as [F|F].
  2:{ exists 0, 0. split; [cbn; lia|]. rewrite rnd_zero by lra. reflexivity. }
  exists (rne (q * pow2 (p - 1 - ilog2 q))), (ilog2 q - p + 1). split; [|apply rnd_is, F]. destruct (ilog2_pos q F) as [L1 L2]. set (k := ilog2 q) in *.
  pose proof (pow2_pos (p - 1 - k)) as PK. apply Z.abs_le. split.
  - assert (0 <= 2 ^ p) by lia. assert (0 <= rne (q * pow2 (p - 1 - k))); [|lia]. rewrite <-(rne_Z 0 0) by reflexivity. apply rne_mono. nra.
  - rewrite <-(rne_Z (inject_Z (2 ^ p)) (2 ^ p)) by reflexivity. apply rne_mono. rewrite <-pow2_Z by lia. replace p with (k + 1 + (p - 1 - k)) at 2 by lia. rewrite pow2_add. apply mul_l_le; [apply pow2_pos|lra].
Qed.
Theorem rand_rep : forall gen p v g q, honest gen -> 1 <= p -> fst (rand gen p v g) = Ok q -> representable 53 q.
Proof.
  intros gen p v g q HG P H. unfold rand in H. destruct (rand_operand v) as [f| | |]; try discriminate. destruct (Qle_bool 0 f) eqn:F; [|unfold rand_float in H; rewrite F in H; discriminate].
  apply Qle_bool_iff in F. destruct (rand_value gen p f g HG P F) as (r & R & E). rewrite E in H. injection H as <-. destruct (rand_parts p r P R) as (M0 & X0 & XM).
  apply rnd_rep; [lia|]. apply Qmult_le_0_compat; [|exact F]. apply rnd_nonneg; [lia|]. apply Qle_shift_div_l; [exact M0|lra].
Qed.
Theorem rand_below : forall gen p f g, honest gen -> 1 <= p <= 51 -> (0 < f)%Q -> representable 53 f -> exists q, fst (rand_float gen p f g) = Ok q /\ (0 <= q)%Q /\ (q < f)%Q.
Proof.
  intros gen p f g H P F RF. destruct (rand_value gen p f g H ltac:(lia) ltac:(lra)) as (r & R & E). eexists. split; [exact E|]. destruct (rand_parts p r ltac:(lia) R) as (M0 & X0 & XM).
  assert (PP : 2 ^ p <= 2 ^ 51) by (apply Z.pow_le_mono_r; lia). assert (P0 : 0 < 2 ^ p) by (apply Z.pow_pos_nonneg; lia).
  assert (K53 : 2 ^ 51 + 1 <= 2 ^ 53) by (vm_compute; discriminate).
  assert (EM : (rnd 53 (inject_Z (2 ^ p + 1)) == inject_Z (2 ^ p + 1))%Q). { apply rnd_fix; [lia| |apply rep_Z; lia]. change 0%Q with (inject_Z 0). rewrite <-Zle_Qle. lia. }
  assert (EX : (rnd 53 (inject_Z r) == inject_Z r)%Q). { apply rnd_fix; [lia| |apply rep_Z; lia]. change 0%Q with (inject_Z 0). rewrite <-Zle_Qle. lia. }
  set (M := rnd 53 (inject_Z (2 ^ p + 1))) in *. set (x := rnd 53 (inject_Z r)) in *. set (c := (inject_Z (2 ^ 52 - 1) * pow2 (-52))%Q).
  assert (C : (c == 1 - pow2 (-52))%Q) by (vm_compute; reflexivity).
  assert (Y0 : (0 <= x / M)%Q) by (apply Qle_shift_div_l; [exact M0|lra]).
  assert (Y1 : (x / M <= c)%Q).
  { apply Qle_shift_div_r; [exact M0|]. rewrite EM, EX. unfold c, pow2. cbn [Z.leb]. unfold Qle, Qmult, inject_Z. cbn -[Z.mul Z.pow]. change (2 ^ 52 - 1) with 4503599627370495. change (2 ^ 51) with 2251799813685248 in PP.
    change (Pos.mul 1 4503599627370496) with 4503599627370496%positive. lia. }
  assert (RC : representable 53 c) by (exists (2 ^ 52 - 1), (-52); split; [vm_compute; discriminate|reflexivity]).
  assert (Z0 : (0 <= rnd 53 (x / M))%Q) by (apply rnd_nonneg; [lia|exact Y0]).
  assert (Z1 : (rnd 53 (x / M) <= c)%Q). { rewrite <-(rnd_fix 53 c) by (try lia; try exact RC; vm_compute; discriminate). apply rnd_mono; [lia|exact Y0|exact Y1]. }
  set (y := rnd 53 (x / M)) in *. assert (W : (0 <= y * f)%Q) by nra. split; [apply rnd_nonneg; [lia|exact W]|].
  pose proof (rnd_fix 53 f ltac:(lia) ltac:(lra) RF) as FF. rewrite (rnd_is 53 f F) in FF. destruct (ilog2_pos f F) as [L1 L2]. destruct (rnd_binade 53 f ltac:(lia) F) as [L3 _]. rewrite (rnd_is 53 f F) in L3.
  set (k := ilog2 f) in *. set (n := rne (f * pow2 (53 - 1 - k))) in *. replace (k - 53 + 1) with (k - 52) in * by lia.
  assert (D : (pow2 (k - 52) == pow2 k * pow2 (-52))%Q) by (rewrite <-pow2_add; replace (k + -52) with (k - 52) by lia; reflexivity).
  pose proof (pow2_pos (k - 52)) as PK. pose proof (pow2_pos (-52)) as PM.
  assert (N1 : 1 <= n <= 2 ^ 53).
  { split.
    - destruct (Z_lt_le_dec n 1) as [Q|Q]; [|exact Q]. assert (inject_Z n <= 0)%Q by (change 0%Q with (inject_Z 0); rewrite <-Zle_Qle; lia). nra.
    - rewrite <-(rne_Z (inject_Z (2 ^ 53)) (2 ^ 53)) by reflexivity. apply rne_mono. rewrite <-pow2_Z by lia. replace 53 with (k + 1 + (53 - 1 - k)) at 2 by lia. rewrite pow2_add. apply mul_l_le; [apply pow2_pos|lra]. }
  assert (CF : (y * f <= inject_Z (n - 1) * pow2 (k - 52))%Q).
  { unfold Z.sub at 1. rewrite inject_Z_plus. change (inject_Z (-(1))) with (-(1))%Q.
    assert (A1 : (y * f <= (1 - pow2 (-52)) * f)%Q) by (rewrite <-C; nra). assert (A2 : (pow2 (k - 52) <= f * pow2 (-52))%Q) by (rewrite D; nra).
    set (P1 := pow2 (k - 52)) in *. set (P2 := pow2 (-52)) in *. set (N := inject_Z n) in *. assert ((N + - (1)) * P1 == f - P1)%Q by (rewrite <-FF; ring). lra. }
  assert (NN : (0 <= inject_Z (n - 1) * pow2 (k - 52))%Q) by (apply Qmult_le_0_compat; [change 0%Q with (inject_Z 0); rewrite <-Zle_Qle; lia|lra]).
  apply Qle_lt_trans with (inject_Z (n - 1) * pow2 (k - 52))%Q.
  - rewrite <-(rnd_fix 53 (inject_Z (n - 1) * pow2 (k - 52)) ltac:(lia) NN) by (exists (n - 1), (k - 52); split; [lia|reflexivity]). apply rnd_mono; [lia|exact W|exact CF].
  - rewrite <-FF. apply Qmult_lt_compat_r; [exact PK|]. rewrite <-Zlt_Qlt. lia.
Qed.

(* ---- the generator shared by goroutines ---- *)
Open Scope nat_scope.
Lemma concat_set : forall (todo : list (list nat)) i k rest, nth_error todo i = Some (k :: rest) ->
  S (length (concat (set_nth todo i rest))) = length (concat todo) /\ (forall j, In j (concat (set_nth todo i rest)) -> In j (concat todo)) /\ In k (concat todo).
Proof.
  induction todo as [|l todo IH]; intros [|i] k rest E; cbn [nth_error] in E; try discriminate.
  - injection E as ->. cbn [set_nth concat]. rewrite !app_length. cbn [length]. split; [lia|]. split; [intros j J; right; exact J|left; reflexivity].
  - destruct (IH i k rest E) as (L & S1 & I). cbn [set_nth concat]. rewrite !app_length. split; [lia|]. split; [|apply in_or_app; right; exact I].
    intros j J. apply in_app_or in J. apply in_or_app. destruct J as [J|J]; [left; exact J|right; apply S1, J].
Qed.
Lemma all_or_one : forall (todo : list (list nat)), Forall (fun l => l = []) todo \/ exists i k rest, nth_error todo i = Some (k :: rest).
Proof.
  induction todo as [|[|k rest] todo IH]; [left; constructor| |right; exists 0, k, rest; reflexivity].
  destruct IH as [IH|(i & k & rest & E)]; [left; constructor; auto|right; exists (S i), k, rest; exact E].
Qed.
Section Sched.
Variable A : Type.
Variable gen : generator.
Variable draw : nat -> state gen -> A * state gen.
Notation step := (par_step A gen draw).
Notation run := (par_run A gen draw).
Notation finished := (par_done A gen).
Lemma run_single : forall schedule l g cells, finished (run ([l], g, cells) schedule) -> run ([l], g, cells) schedule = run ([l], g, cells) (repeat 0 (length l)).
Proof using A gen draw.
  induction schedule as [|i schedule IH]; intros l g cells D.
  - cbn in D. inversion D as [|? ? E]; subst. reflexivity.
  - change (run ([l], g, cells) (i :: schedule)) with (run (step ([l], g, cells) i) schedule) in *. destruct i as [|i].
    + destruct l as [|k rest]; [apply IH, D|]. cbn [par_step nth_error length repeat] in *. change (run ([k :: rest], g, cells) (0 :: repeat 0 (length rest))) with (run (step ([k :: rest], g, cells) 0) (repeat 0 (length rest))).
      cbn [par_step nth_error]. destruct (draw k g) as [x g']. cbn [set_nth] in *. apply IH, D.
    + assert (E : step ([l], g, cells) (S i) = ([l], g, cells)) by (unfold par_step; destruct i; reflexivity). rewrite E in *. apply IH, D.
Qed.
Lemma finish : forall n todo g cells, length (concat todo) = n -> exists schedule, finished (run (todo, g, cells) schedule) /\
  forall j, ~ In j (concat todo) -> par_cells A gen (run (todo, g, cells) schedule) j = cells j.
Proof using A gen draw.
  induction n as [|n IH]; intros todo g cells N; destruct (all_or_one todo) as [D|(i & k & rest & E)].
  - exists []. split; [exact D|reflexivity].
  - destruct (concat_set todo i k rest E) as (L & _). lia.
  - exists []. split; [exact D|reflexivity].
  - destruct (concat_set todo i k rest E) as (L & S1 & I). destruct (draw k g) as [x g'] eqn:DR.
    destruct (IH (set_nth todo i rest) g' (fun j => if j =? k then Some x else cells j) ltac:(lia)) as (schedule & D & C).
    assert (ST : step (todo, g, cells) i = (set_nth todo i rest, g', fun j => if j =? k then Some x else cells j)) by (unfold par_step; rewrite E, DR; reflexivity).
    exists (i :: schedule). change (run (todo, g, cells) (i :: schedule)) with (run (step (todo, g, cells) i) schedule). rewrite ST.
    split; [exact D|]. intros j J. rewrite C by (intros X; apply J, S1, X). destruct (j =? k) eqn:Q; [|reflexivity]. apply Nat.eqb_eq in Q. subst. contradiction.
Qed.
End Sched.
Close Scope nat_scope.
Theorem roll_reproducible : forall A gen draw procs n g s1 s2, let st := par_start A gen (unary_plan procs "?" n) g in
  par_done A gen (par_run A gen draw st s1) -> par_done A gen (par_run A gen draw st s2) -> par_run A gen draw st s1 = par_run A gen draw st s2.
Proof.
  intros A gen draw procs n g s1 s2 st D1 D2. unfold st, par_start in *. change (unary_plan procs "?" n) with [(0%nat, n)] in *. cbn [map fst snd] in *.
  rewrite (run_single A gen draw s1), (run_single A gen draw s2); auto.
Qed.
Lemma rand_plan : forall procs n, (2 <= procs)%nat -> (200 <= n)%nat -> exists rest k rest2 more,
  map (fun r => seq (fst r) (snd r - fst r)) (unary_plan procs "rand" n) = (0%nat :: rest) :: (k :: rest2) :: more /\ (0%nat :: rest) ++ (k :: rest2) ++ concat more = seq 0 n.
Proof.
  intros procs n P N. pose proof (plan_tiles true procs 100 1 n ltac:(lia) ltac:(lia)) as T. rewrite flat_map_concat_map in T.
  unfold unary_plan. change (safe ["rand"%string] "rand") with true. unfold plan in *. cbn [negb orb] in *.
  replace (procs =? 1)%nat with false in * by (symmetry; apply Nat.eqb_neq; lia). replace (n <=? 1)%nat with false in * by (symmetry; apply Nat.leb_gt; lia).
  replace (n * 1 <? 100 * 2)%nat with false in * by (symmetry; apply Nat.ltb_ge; lia). cbn [orb] in *. cbv zeta in *. rewrite Nat.mul_1_r in *.
  assert (Q : (2 <= n / 100)%nat) by (apply Nat.div_le_lower_bound; lia). assert (Q2 : (n / 100 <= n)%nat) by (apply Nat.div_le_upper_bound; lia).
  set (p := Nat.min (procs * 4) (n / 100)) in *. assert (P2 : (2 <= p <= n)%nat) by lia. clearbody p. destruct p as [|[|p]]; [lia|lia|].
  cbn [seq map] in *. cbn [fst snd] in *. set (q := S (S p)) in *.
  assert (E0 : (0 * n / q = 0)%nat) by (cbn [Nat.mul]; apply Nat.div_0_l; unfold q; lia).
  assert (E1 : ((0 + 1) * n / q >= 1)%nat) by (replace ((0 + 1) * n)%nat with n by lia; apply Nat.div_le_lower_bound; unfold q in *; lia).
  assert (E2 : ((1 + 1) * n / q >= 1 * n / q + 1)%nat).
  { replace ((1 + 1) * n)%nat with (2 * n)%nat by lia. rewrite Nat.mul_1_l. unfold ge; transitivity ((n + 1 * q) / q)%nat; [|apply Nat.div_le_mono; unfold q in *; lia]. rewrite Nat.div_add by (unfold q; lia). lia. }
  rewrite E0 in *. set (a := ((0 + 1) * n / q)%nat) in *. set (b := (1 * n / q)%nat) in *. set (c := ((1 + 1) * n / q)%nat) in *.
  replace (a - 0)%nat with (S (a - 1)) in * by lia. replace (c - b)%nat with (S (c - b - 1)) in * by lia. cbn [seq] in *.
  do 4 eexists. split; [reflexivity|]. cbn [concat] in T. exact T.
Qed.
Theorem rand_schedules : forall A gen (next : state gen -> A * state gen) procs n g, (2 <= procs)%nat -> (200 <= n)%nat -> fst (next g) <> fst (next (snd (next g))) ->
  let draw := fun _ : nat => next in let st := par_start A gen (unary_plan procs "rand" n) g in
  exists s1 s2, par_done A gen (par_run A gen draw st s1) /\ par_done A gen (par_run A gen draw st s2) /\ par_cells A gen (par_run A gen draw st s1) 0%nat <> par_cells A gen (par_run A gen draw st s2) 0%nat.
Proof.
  intros A gen next procs n g P N NE draw st. destruct (rand_plan procs n P N) as (rest & k & rest2 & more & E & T). unfold st, par_start. rewrite E.
  destruct n as [|n]; [lia|]. cbn [seq app] in T. injection T as T. assert (Z0 : ~ In 0%nat (rest ++ (k :: rest2) ++ concat more)) by (cbn [app]; rewrite T, in_seq; lia).
  destruct (next g) as [x g1] eqn:D1. cbn [fst snd] in NE. destruct (next g1) as [y g2] eqn:D2. cbn [fst] in NE.
  assert (K0 : k <> 0%nat) by (intros ->; apply Z0, in_or_app; right; left; reflexivity).
  set (c1 := fun j => if (j =? 0)%nat then Some x else None). destruct (finish A gen draw _ (rest :: (k :: rest2) :: more) g1 c1 eq_refl) as (s1 & F1 & C1).
  set (c2 := fun j => if (j =? 0)%nat then Some y else if (j =? k)%nat then Some x else None). destruct (finish A gen draw _ (rest :: rest2 :: more) g2 c2 eq_refl) as (s2 & F2 & C2).
  exists (0%nat :: s1), (1%nat :: 0%nat :: s2).
  set (st0 := ((0%nat :: rest) :: (k :: rest2) :: more, g, fun _ : nat => None) : par_state A gen).
  assert (R1 : par_run A gen draw st0 (0%nat :: s1) = par_run A gen draw (rest :: (k :: rest2) :: more, g1, c1) s1).
  { unfold par_run. cbn [fold_left]. f_equal. unfold st0, par_step. cbn [nth_error]. unfold draw at 1. rewrite D1. reflexivity. }
  assert (R2 : par_run A gen draw st0 (1%nat :: 0%nat :: s2) = par_run A gen draw (rest :: rest2 :: more, g2, c2) s2).
  { unfold par_run. cbn [fold_left]. f_equal. unfold st0, par_step. cbn [nth_error]. unfold draw. rewrite D1. cbn [set_nth nth_error]. rewrite D2. reflexivity. }
  rewrite R1, R2. split; [exact F1|]. split; [exact F2|]. rewrite C1, C2.
  - unfold c1, c2. cbn. intros X. apply NE. congruence.
  - cbn [concat]. intros X. apply Z0. apply in_app_or in X. apply in_or_app. destruct X as [X|X]; [left; exact X|right; right; exact X].
  - exact Z0.
Qed.
Theorem rand_short : forall A gen draw procs n g s1 s2, (procs = 1 \/ n < 200)%nat -> let st := par_start A gen (unary_plan procs "rand" n) g in
  par_done A gen (par_run A gen draw st s1) -> par_done A gen (par_run A gen draw st s2) -> par_run A gen draw st s1 = par_run A gen draw st s2.
Proof.
  intros A gen draw procs n g s1 s2 H st D1 D2. assert (E : unary_plan procs "rand" n = [(0%nat, n)]).
  { unfold unary_plan, plan. destruct H as [-> | H]; [reflexivity|]. replace (n * 1 <? 100 * 2)%nat with true by (symmetry; apply Nat.ltb_lt; lia). rewrite !orb_true_r. reflexivity. }
  unfold st, par_start in *. rewrite E in *. cbn [map fst snd] in *. rewrite (run_single A gen draw s1), (run_single A gen draw s2); auto.
Qed.

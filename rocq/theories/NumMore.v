(* Proofs about the scalar operators, continued: unary operators, powers, bits,
   logic, combinations. *)
From Verif Require Import Value NumModel NumSpec NumProofs NumArith.
From Coq Require Import QArith Qreduction Qround Qabs Qpower ZifyBool Lqa.
Open Scope Z_scope.
Ltac Zify.zify_post_hook ::= Z.div_mod_to_equations.

Ltac onecase Ha Va :=
  let x := fresh "x" in
  destruct (numval_cases _ _ Ha Va) as [(x & -> & -> & ?)|[(x & -> & ->)|(-> & ? & ?)]].

Lemma gives_rat' q : Qred q = q -> gives (Ok (shrink_rat q)) q.
Proof.
  intros H. exists (shrink_rat q), q. split; [reflexivity|].
  split; [apply near_valid, shrink_rat_near, H|]. split; [apply shrink_rat_val|reflexivity].
Qed.
Lemma gives_self v x : valid v -> numval v = Some x -> gives (Ok v) x.
Proof. intros. exists v, x. repeat split; auto; reflexivity. Qed.

(* ---- unary ---- *)
Lemma neg_exact c a x : valid a -> numval a = Some x -> gives (eval_unary_scalar c UNeg a) (- x).
Proof.
  intros Va Ha. onecase Ha Va.
  - change (gives (Ok (VInt (wrap64 (- x0)))) (- inject_Z x0)). rewrite wrap64_id by lia.
    eapply gives_eq; [apply gives_int_v; lia|]. rewrite inject_Z_opp. reflexivity.
  - change (gives (Ok (shrink_big (- x0))) (- inject_Z x0)).
    eapply gives_eq; [apply gives_big|]. rewrite inject_Z_opp. reflexivity.
  - apply gives_rat'. apply red_opp. assumption.
Qed.

Lemma red_abs q : Qred q = q -> Qred (Qabs q) = Qabs q.
Proof.
  intros H. destruct q as [n d]. destruct n as [|n|n].
  - exact H.
  - exact H.
  - change (Qabs (Z.neg n # d)) with (Qopp (Z.neg n # d)). apply red_opp, H.
Qed.

Lemma abs_exact c a x : valid a -> numval a = Some x -> gives (eval_unary_scalar c UAbs a) (Qabs x).
Proof.
  intros Va Ha. onecase Ha Va.
  - change (gives (Ok (VInt (if x0 <? 0 then wrap64 (- x0) else x0))) (Qabs (inject_Z x0))).
    destruct (x0 <? 0) eqn:E; rewrite ?wrap64_id by lia; (eapply gives_eq; [apply gives_int_v; lia|]);
      rewrite Qabs_inject; apply injq_eq; lia.
  - change (gives (Ok (shrink_big (Z.abs x0))) (Qabs (inject_Z x0))).
    eapply gives_eq; [apply gives_big|]. reflexivity.
  - apply gives_rat'. apply red_abs. assumption.
Qed.

Lemma sgn_exact c a x : valid a -> numval a = Some x ->
  ((x < 0)%Q /\ eval_unary_scalar c USgn a = Ok (VInt (-1))) \/
  ((x == 0)%Q /\ eval_unary_scalar c USgn a = Ok (VInt 0)) \/
  ((0 < x)%Q /\ eval_unary_scalar c USgn a = Ok (VInt 1)).
Proof.
  intros Va Ha.
  assert (eval_unary_scalar c USgn a = Ok (VInt (Z.sgn (Qnum x)))) as ->.
  { onecase Ha Va; try reflexivity. destruct x0; reflexivity. }
  unfold Qlt, Qeq. simpl. destruct (Qnum x); simpl; [right; left|right; right|left]; split; try reflexivity; lia.
Qed.

Lemma set_frac_val n d : d <> 0 -> (set_frac n d == inject_Z n / inject_Z d)%Q /\ Qred (set_frac n d) = set_frac n d.
Proof.
  intros H. destruct d as [|p|p]; [contradiction| |]; unfold set_frac; (split; [|apply red_red]); rewrite Qred_correct.
  - rewrite (Qmake_Qdiv n p). reflexivity.
  - rewrite (Qmake_Qdiv (- n) p). change (Z.neg p) with (- Z.pos p). rewrite !inject_Z_opp. field.
    intros E. apply (proj1 (injq_eq _ 0)) in E. discriminate.
Qed.

Lemma inj_nz z : z <> 0 -> ~ (inject_Z z == 0)%Q.
Proof. intros H E. apply (proj1 (injq_eq _ 0)) in E. contradiction. Qed.

Lemma inverse_real_exact a x : valid a -> numval a = Some x ->
  ((x == 0)%Q /\ inverse_real a = Err) \/ (~ (x == 0)%Q /\ gives (inverse_real a) (/ x)).
Proof.
  intros Va Ha. onecase Ha Va; simpl.
  1,2: (destruct (x0 =? 0) eqn:E; [left|right]; (split; [|try reflexivity]);
     [assert (x0 = 0) by lia; subst; reflexivity|apply inj_nz; lia|];
     destruct (set_frac_val 1 x0 ltac:(lia)) as [A B];
     eapply gives_eq; [apply gives_rat', B|]; rewrite A; field; apply inj_nz; lia).
  destruct (Qnum x =? 0) eqn:E; [left|right].
  - split; [apply Qnum0, E|reflexivity].
  - split; [rewrite <-Qnum0; congruence|].
    destruct (set_frac_val (Zpos (Qden x)) (Qnum x) ltac:(lia)) as [A B].
    eapply gives_eq; [apply gives_rat', B|]. rewrite A.
    destruct x as [n d]. simpl in *. rewrite (Qmake_Qdiv n d). field.
    split; apply inj_nz; lia.
Qed.
Lemma inv_exact c a x : valid a -> numval a = Some x ->
  ((x == 0)%Q /\ eval_unary_scalar c UInv a = Err) \/ (~ (x == 0)%Q /\ gives (eval_unary_scalar c UInv a) (/ x)).
Proof.
  intros Va Ha. pose proof (inverse_real_exact a x Va Ha). onecase Ha Va; assumption.
Qed.

Lemma floor_exact c a x : valid a -> numval a = Some x ->
  exists k, gives (eval_unary_scalar c UFloor a) (inject_Z k) /\ (inject_Z k <= x)%Q /\ (x < inject_Z k + 1)%Q.
Proof.
  intros Va Ha. onecase Ha Va.
  1,2: (exists x0; split; [apply gives_self; [exact Va|reflexivity]|lra]).
  unfold eval_unary_scalar, eval_unary_real.
  destruct (Pos.eqb_spec (Qden x) 1) as [|Dx]; [contradiction|]. cbv zeta.
  eexists. split; [apply gives_big|].
  unfold Qle, Qlt, Qplus, inject_Z. destruct x as [n d]. simpl in *. rewrite !Z.mul_1_r.
  rewrite Z.quot_div_nonneg by lia.
  destruct (0 <=? n) eqn:E.
  - rewrite Z.abs_eq by lia. nia.
  - rewrite Z.abs_neq by lia.
    assert (- n mod Z.pos d <> 0) as M.
    { intros M. apply Z.mod_divide in M; [|lia]. destruct M as [k Hk].
      assert (n # d == inject_Z (- k))%Q as Q1 by (unfold Qeq, inject_Z; simpl; lia).
      apply Qred_complete in Q1. rewrite red_inject in Q1. assert (Qred (n # d) = n # d) as R by assumption. rewrite R in Q1. apply Dx. injection Q1. auto. }
    pose proof (Z.div_mod (- n) (Z.pos d) ltac:(lia)).
    pose proof (Z.mod_pos_bound (- n) (Z.pos d) ltac:(lia)). split; nia.
Qed.

Lemma ceil_exact c a x : valid a -> numval a = Some x ->
  exists k, gives (eval_unary_scalar c UCeil a) (inject_Z k) /\ (x <= inject_Z k)%Q /\ (inject_Z k - 1 < x)%Q.
Proof.
  intros Va Ha. onecase Ha Va.
  1,2: (exists x0; split; [apply gives_self; [exact Va|reflexivity]|lra]).
  unfold eval_unary_scalar, eval_unary_real.
  destruct (Pos.eqb_spec (Qden x) 1) as [|Dx]; [contradiction|]. cbv zeta.
  eexists. split; [apply gives_big|].
  unfold Qle, Qlt, Qminus, Qplus, Qopp, inject_Z. destruct x as [n d]. simpl in *. rewrite !Z.mul_1_r.
  rewrite Z.quot_div_nonneg by lia.
  assert (n mod Z.pos d <> 0) as M.
  { intros M. apply Z.mod_divide in M; [|lia]. destruct M as [k Hk].
    assert (n # d == inject_Z k)%Q as Q1 by (unfold Qeq, inject_Z; simpl; lia).
    apply Qred_complete in Q1. rewrite red_inject in Q1. assert (Qred (n # d) = n # d) as R by assumption. rewrite R in Q1. apply Dx. injection Q1. auto. }
  destruct (0 <=? n) eqn:E.
  - rewrite Z.abs_eq by lia.
    pose proof (Z.div_mod n (Z.pos d) ltac:(lia)).
    pose proof (Z.mod_pos_bound n (Z.pos d) ltac:(lia)). split; nia.
  - rewrite Z.abs_neq by lia.
    pose proof (Z.div_mod (- n) (Z.pos d) ltac:(lia)).
    pose proof (Z.mod_pos_bound (- n) (Z.pos d) ltac:(lia)). split; nia.
Qed.

(* ---- powers ---- *)
Lemma wrap64_le m : 0 <= m -> wrap64 m <= m.
Proof. intros H. unfold wrap64. pose proof (Z.mod_le (m + 2 ^ 63) (2 ^ 64) ltac:(lia) ltac:(lia)). lia. Qed.

Lemma big_int_exp_spec c j k : 0 < k -> 0 <= maxbits c ->
  big_int_exp c j k = Ok (j ^ k) \/
  (big_int_exp c j k = Err /\ 1 < Z.abs j /\
   (2 ^ 63 <= k \/ (maxbits c <> 0 /\ maxbits c < bitlen j * k))).
Proof.
  intros Hk Hm. unfold big_int_exp.
  destruct ((j =? 1) || (j =? 0)) eqn:E1.
  - left. f_equal. apply orb_true_iff in E1. destruct E1.
    + assert (j = 1) by lia. subst. rewrite Z.pow_1_l by lia. reflexivity.
    + assert (j = 0) by lia. subst. rewrite Z.pow_0_l by lia. reflexivity.
  - destruct (j =? -1) eqn:E2.
    + assert (j = -1) by lia. subst. left. destruct (Z.even k) eqn:E.
      * f_equal. apply Z.even_spec in E. destruct E as [m ->].
        change (-1) with (- (1)). rewrite Z.pow_opp_even by (exists m; reflexivity). rewrite Z.pow_1_l by lia. reflexivity.
      * f_equal. assert (Z.odd k = true) as O by (rewrite <-Z.negb_even, E; reflexivity).
        apply Z.odd_spec in O. change (-1) with (- (1)). rewrite Z.pow_opp_odd by assumption. rewrite Z.pow_1_l by lia. reflexivity.
    + assert (1 < Z.abs j) as Bj by lia.
      destruct (63 <? bitlen k) eqn:E3.
      * right. split; [reflexivity|]. split; [assumption|]. left.
        assert ((bitlen k <=? 63) = false) as F by lia. rewrite bitlen_lt in F by lia. lia.
      * destruct (j =? 2) eqn:E4.
        -- left. assert (j = 2) by lia. subst. rewrite Z.shiftl_1_l, Z.abs_eq by lia. reflexivity.
        -- rewrite Z.abs_eq by lia.
           destruct (must_fit_cases c (wrap64 (bitlen j * k))) as [[-> _]|[-> [N B]]]; simpl; [left; reflexivity|right].
           split; [reflexivity|]. split; [assumption|]. right. split; [assumption|].
           pose proof (wrap64_le (bitlen j * k)). pose proof (bitlen_nonneg j). nia.
Qed.

Lemma pow_nz j k : j <> 0 -> 0 < k -> j ^ k <> 0.
Proof. intros. apply Z.pow_nonzero; lia. Qed.

Lemma qpow_int x n : 0 <= n -> (inject_Z (x ^ n) == (inject_Z x) ^ n)%Q.
Proof. apply Zpower_Qpower. Qed.
Lemma qpow_frac x k : 0 <= k -> (x ^ k == inject_Z (Qnum x ^ k) / inject_Z (Zpos (Qden x) ^ k))%Q.
Proof.
  intros H. destruct x as [n d]. simpl. rewrite (Qmake_Qdiv n d), Qdiv_power, <-!qpow_int by lia. reflexivity.
Qed.

Lemma abs1_int z : (Qabs (inject_Z z) == 1)%Q -> Z.abs z = 1.
Proof. rewrite Qabs_inject. change 1%Q with (inject_Z 1). apply injq_eq. Qed.

Lemma pow_big_exact c x n : 0 <= maxbits c ->
  (x = 0 /\ n < 0 /\ fn_big c BPow x n = Err) \/
  (~ (x = 0 /\ n < 0) /\ (gives (fn_big c BPow x n) (inject_Z x ^ n) \/
     (fn_big c BPow x n = Err /\ pow_limit c (inject_Z x) n))).
Proof.
  intros Hm. unfold fn_big.
  assert (1 < Z.abs x -> (2 ^ 63 <= Z.abs n \/ maxbits c <> 0 /\ maxbits c < bitlen x * Z.abs n) -> pow_limit c (inject_Z x) n) as PL.
  { intros B L. split; [|split].
    - intros E. apply abs1_int in E. lia.
    - apply inj_nz. lia.
    - destruct L as [L|[L1 L2]]; [left; assumption|right]. split; [assumption|].
      change zbits with bitlen. change (Qnum (inject_Z x)) with x. pose proof (Z.le_max_l (bitlen x) (bitlen (Zpos (Qden (inject_Z x))))). nia. }
  destruct (n =? 0) eqn:E0.
  { right. split; [lia|]. left. assert (n = 0) by lia. subst. apply (gives_int_v 1). lia. }
  destruct (n <? 0) eqn:E1.
  - destruct (x =? 0) eqn:Ex; [left; repeat split; lia|right]. split; [lia|].
    destruct (big_int_exp_spec c x (- n)) as [->|(-> & B & L)]; [lia|assumption| |]; simpl.
    + left. destruct (inverse_real_exact (shrink_big (x ^ (- n))) (inject_Z (x ^ (- n)))) as [[Z1 _]|[_ G]].
      * apply shrink_big_valid.
      * apply shrink_big_val.
      * exfalso. revert Z1. apply inj_nz, pow_nz; lia.
      * eapply gives_eq; [exact G|]. rewrite qpow_int by lia. rewrite Qpower_opp. apply Qinv_involutive.
    + right. split; [reflexivity|]. apply PL; [assumption|]. rewrite Z.abs_neq by lia. assumption.
  - right. split; [lia|]. destruct ((x =? 1) || (x =? 0)) eqn:Ex.
    + left. exists (VBig x), (inject_Z x). repeat split; try reflexivity.
      rewrite <-qpow_int by lia. apply injq_eq. apply orb_true_iff in Ex. destruct Ex.
      * assert (x = 1) by lia. subst. rewrite Z.pow_1_l by lia. reflexivity.
      * assert (x = 0) by lia. subst. rewrite Z.pow_0_l by lia. reflexivity.
    + destruct (big_int_exp_spec c x n) as [->|(-> & B & L)]; [lia|assumption| |]; simpl.
      * left. eapply gives_eq; [apply gives_big|]. apply qpow_int. lia.
      * right. split; [reflexivity|]. apply PL; [assumption|]. rewrite Z.abs_eq by lia. assumption.
Qed.

Lemma pow_rat_exact c x n : 0 <= maxbits c -> Qred x = x -> Qden x <> 1%positive ->
  gives (fn_rat c BPow x (inject_Z n)) (x ^ n) \/ (fn_rat c BPow x (inject_Z n) = Err /\ pow_limit c x n).
Proof.
  intros Hm Rx Dx.
  assert (Qnum x <> 0) as Nx. { intros E. apply red_num0 in E; [|assumption]. apply Dx. rewrite E. reflexivity. }
  unfold fn_rat. change (Qnum (inject_Z n)) with n.
  destruct (n =? 0) eqn:E0.
  { left. assert (n = 0) by lia. subst. apply (gives_int_v 1). lia. }
  assert ((n <? 0) && (Qnum x =? 0) = false) as -> by lia.
  cbv zeta.
  assert ((if n <? 0 then (- inject_Z n)%Q else inject_Z n) = inject_Z (Z.abs n)) as ->.
  { destruct (n <? 0) eqn:E; [rewrite Z.abs_neq by lia; reflexivity|rewrite Z.abs_eq by lia; reflexivity]. }
  change (Qnum (inject_Z (Z.abs n))) with (Z.abs n). cbn [Qden inject_Z Pos.eqb negb].
  assert ((2 ^ 63 <= Z.abs n \/ maxbits c <> 0 /\ maxbits c < Z.max (bitlen (Qnum x)) (bitlen (Z.pos (Qden x))) * Z.abs n) -> pow_limit c x n) as PL.
  { intros L. split; [|split; [|exact L]].
    - intros E. apply Dx. assert (Qabs x = inject_Z 1).
      { rewrite <-(red_abs x Rx). apply Qred_complete in E. rewrite E. reflexivity. }
      destruct x as [a b]. simpl in *. unfold Qabs in H. injection H. auto.
    - intros E. apply Qnum0 in E. lia. }
  destruct (big_int_exp_spec c (Qnum x) (Z.abs n)) as [->|(-> & B & L)]; [lia|assumption| |]; simpl.
  2:{ right. split; [reflexivity|]. apply PL. destruct L as [L|[L1 L2]]; [left; assumption|right]. split; [assumption|]. nia. }
  destruct (big_int_exp_spec c (Z.pos (Qden x)) (Z.abs n)) as [->|(-> & B & L)]; [lia|assumption| |]; simpl.
  2:{ right. split; [reflexivity|]. apply PL. destruct L as [L|[L1 L2]]; [left; assumption|right]. split; [assumption|]. nia. }
  left.
  assert (Qnum x ^ Z.abs n <> 0) by (apply pow_nz; lia).
  assert (Z.pos (Qden x) ^ Z.abs n <> 0) by (apply pow_nz; lia).
  destruct (n <? 0) eqn:E.
  - destruct (set_frac_val (Z.pos (Qden x) ^ Z.abs n) (Qnum x ^ Z.abs n)) as [A R]; [assumption|].
    eapply gives_eq; [apply gives_rat', R|]. rewrite A.
    replace n with (- Z.abs n) at 3 by lia. rewrite Qpower_opp, qpow_frac by lia. field.
    split; apply inj_nz; assumption.
  - destruct (set_frac_val (Qnum x ^ Z.abs n) (Z.pos (Qden x) ^ Z.abs n)) as [A R]; [assumption|].
    eapply gives_eq; [apply gives_rat', R|]. rewrite A.
    replace n with (Z.abs n) at 3 by lia. rewrite qpow_frac by lia. reflexivity.
Qed.

Lemma pow_exact c a b x n : 0 <= maxbits c -> valid a -> valid b -> numval a = Some x -> intval b = Some n ->
  ((x == 0)%Q /\ n < 0 /\ eval_scalar c BPow a b = Err) \/
  (~ ((x == 0)%Q /\ n < 0) /\ (gives (eval_scalar c BPow a b) (x ^ n) \/
     (eval_scalar c BPow a b = Err /\ pow_limit c x n))).
Proof.
  intros Hm Va Vb Ha Hb.
  destruct (numval_cases _ _ Ha Va) as [(x0 & -> & -> & ?)|[(x0 & -> & ->)|(-> & Rx & Dx)]].
  1,2: (assert (forall v, intval v = Some n -> eval_scalar c BPow (VInt x0) v = fn_big c BPow x0 n /\
            eval_scalar c BPow (VBig x0) v = fn_big c BPow x0 n) as EV by
          (intros v Hv; destruct v; inversion Hv; subst; split; reflexivity);
        destruct (EV b Hb) as [-> ->] || idtac;
        first [rewrite (proj1 (EV b Hb)) | rewrite (proj2 (EV b Hb))];
        destruct (pow_big_exact c x0 n Hm) as [(E1 & E2 & E3)|(N & G)]; [left; subst; repeat split; auto|right; split; [|exact G]];
        intros [E1 E2]; apply N; apply (proj1 (injq_eq _ 0)) in E1; auto).
  right. split.
  - intros [E _]. apply Qnum0 in E. apply Dx. assert (Qnum x = 0) as Z0 by lia. apply red_num0 in Z0; [|assumption]. rewrite Z0. reflexivity.
  - assert (eval_scalar c BPow (VRat x) b = fn_rat c BPow x (inject_Z n)) as ->.
    { destruct b; inversion Hb; subst; reflexivity. }
    apply pow_rat_exact; assumption.
Qed.

(* ---- bits ---- *)
Definition bit_z (o : bop) : Z -> Z -> Z :=
  match o with BAnd => Z.land | BOr => Z.lor | _ => Z.lxor end.

Lemma bit_eval c o f a b x y : bit_fn o = Some f -> intval a = Some x -> intval b = Some y ->
  exists v, eval_scalar c o a b = Ok v /\ intval v = Some (bit_z o x y) /\
    (v = VInt (bit_z o x y) \/ v = shrink_big (bit_z o x y)).
Proof.
  intros Ho Ha Hb.
  assert (forall x, Z.land x (-1) = x) as L1 by apply Z.land_m1_r.
  assert (forall x, Z.land (-1) x = x) as L2 by (intros; rewrite Z.land_comm; apply L1).
  assert (forall x, Z.lor x (-1) = -1) as L3 by apply Z.lor_m1_r.
  assert (forall x, Z.lor (-1) x = -1) as L4 by (intros; rewrite Z.lor_comm; apply L3).
  destruct a as [xa| |xa| | | |], b as [yb| |yb| | | |]; inversion Ha; inversion Hb; subst;
    destruct o; inversion Ho; subst;
    try (eexists; split; [reflexivity|]; split; [apply shrink_big_int|auto]; fail);
    cbn [eval_scalar]; unfold eval_scalar, eval_real, fn_int; cbn -[Z.land Z.lor Z.lxor Z.eqb];
    repeat match goal with |- context [if ?b then _ else _] => let E := fresh "E" in destruct b eqn:E;
      [eexists; split; [reflexivity|]; cbn -[Z.land Z.lor Z.lxor]|] end;
    try (eexists; split; [reflexivity|]; split; [reflexivity|left; reflexivity]);
    repeat match goal with H : (_ || _)%bool = true |- _ => apply orb_true_iff in H; destruct H end;
    repeat match goal with H : (?x =? ?k) = true |- _ => apply Z.eqb_eq in H; subst x end;
    rewrite ?L1, ?L2, ?L3, ?L4, ?Z.land_0_l, ?Z.land_0_r, ?Z.lor_0_l, ?Z.lor_0_r, ?Z.lxor_0_l, ?Z.lxor_0_r; auto.
Qed.

Lemma bit_exact c o f a b x y : bit_fn o = Some f -> intval a = Some x -> intval b = Some y ->
  exists z, gives_int (eval_scalar c o a b) z /\
    forall i, 0 <= i -> Z.testbit z i = f (Z.testbit x i) (Z.testbit y i).
Proof.
  intros Ho Ha Hb. destruct (bit_eval c o f a b x y Ho Ha Hb) as (v & E & I & _).
  exists (bit_z o x y). split; [exists v; auto|].
  intros i Hi. destruct o; inversion Ho; subst; simpl;
    [apply Z.land_spec|apply Z.lor_spec|apply Z.lxor_spec].
Qed.

Lemma int32_shift z : (- 2 ^ 31 <= z < 2 ^ 31) <-> (Z.shiftr z 31 = 0 \/ Z.shiftr z 31 = -1).
Proof. rewrite Z.shiftr_div_pow2 by lia. split; intros; lia. Qed.
Lemma bit_int32 o x y : - 2 ^ 31 <= x < 2 ^ 31 -> - 2 ^ 31 <= y < 2 ^ 31 -> - 2 ^ 31 <= bit_z o x y < 2 ^ 31.
Proof.
  rewrite !int32_shift. intros Hx Hy.
  destruct o; simpl; rewrite ?Z.shiftr_land, ?Z.shiftr_lor, ?Z.shiftr_lxor;
    destruct Hx as [-> | ->], Hy as [-> | ->]; auto.
Qed.
Lemma bit_valid c o f a b x y : bit_fn o = Some f -> intval a = Some x -> intval b = Some y ->
  canonical a -> canonical b -> gives (eval_scalar c o a b) (inject_Z (bit_z o x y)).
Proof.
  intros Ho Ha Hb Ca Cb. destruct (bit_eval c o f a b x y Ho Ha Hb) as (v & E & I & D).
  rewrite E. exists v, (inject_Z (bit_z o x y)). split; [reflexivity|].
  destruct (ty a) eqn:Ta, (ty b) eqn:Tb; destruct a; try discriminate; destruct b; try discriminate; inversion Ha; inversion Hb; subst;
  try (assert (v = shrink_big (bit_z o x y)) as -> by (destruct o; inversion Ho; subst; inversion E; reflexivity);
    split; [apply shrink_big_valid|split; [apply shrink_big_val|reflexivity]]).
  simpl in Ca, Cb. pose proof (bit_int32 o x y Ca Cb). destruct D as [-> | ->].
  - split; [simpl; lia|split; reflexivity].
  - split; [apply shrink_big_valid|split; [apply shrink_big_val|reflexivity]].
Qed.

Lemma not_exact c a x : intval a = Some x ->
  exists z, gives_int (eval_unary_scalar c UNot a) z /\ forall i, 0 <= i -> Z.testbit z i = negb (Z.testbit x i).
Proof.
  intros Ha. exists (Z.lnot x). split; [|intros; apply Z.lnot_spec; assumption].
  destruct a; inversion Ha; subst.
  - exists (VInt (Z.lnot x)). split; reflexivity.
  - exists (shrink_big (Z.lxor x (-1))). split; [reflexivity|]. rewrite shrink_big_int, Z.lxor_m1_r. reflexivity.
Qed.

Lemma shift_exact c a b x n : intval a = Some x -> intval b = Some n ->
  (0 <= n < 2 ^ 31 - 1 /\ gives (eval_scalar c BLsh a b) (inject_Z (x * 2 ^ n)) /\
                          gives (eval_scalar c BRsh a b) (inject_Z (x / 2 ^ n))) \/
  (~ (0 <= n < 2 ^ 31 - 1) /\ eval_scalar c BLsh a b = Err /\ eval_scalar c BRsh a b = Err).
Proof.
  intros Ha Hb.
  assert (eval_scalar c BLsh a b = let! k := shift_count n in Ok (shrink_big (Z.shiftl x k))) as ->.
  { destruct a, b; inversion Ha; inversion Hb; subst; reflexivity. }
  assert (eval_scalar c BRsh a b = let! k := shift_count n in Ok (shrink_big (Z.shiftr x k))) as ->.
  { destruct a, b; inversion Ha; inversion Hb; subst; reflexivity. }
  assert (shift_count n = if (0 <=? n) && (n <? 2 ^ 31 - 1) then Ok n else Err) as ->.
  { unfold shift_count, shrink_big. rewrite bitlen_small. unfold maxInt.
    destruct (Z.abs n <? 2 ^ 31) eqn:E1; [|destruct ((0 <=? n) && (n <? 2 ^ 31 - 1)) eqn:E2; [lia|reflexivity]].
    destruct ((n <? 0) || (2 ^ 31 - 1 <=? n)) eqn:E2, ((0 <=? n) && (n <? 2 ^ 31 - 1)) eqn:E3; try reflexivity; lia. }
  destruct ((0 <=? n) && (n <? 2 ^ 31 - 1)) eqn:E; simpl.
  - left. split; [lia|]. split.
    + rewrite Z.shiftl_mul_pow2 by lia. apply gives_big.
    + rewrite Z.shiftr_div_pow2 by lia. apply gives_big.
  - right. split; [lia|split; reflexivity].
Qed.

(* ---- logic ---- *)
Definition logic_fn (o : bop) : bool -> bool -> bool :=
  match o with LAnd => andb | LOr => orb | LXor => xorb | LNand => fun a b => negb (a && b) | _ => fun a b => negb (a || b) end.

Lemma qnz q : is_true_q q <-> negb (Qnum q =? 0) = true.
Proof. unfold is_true_q. rewrite <-Qnum0. destruct (Qnum q =? 0); simpl; split; intros; congruence || auto. Qed.

Lemma lnot_exact c a x : valid a -> numval a = Some x -> truth (eval_unary_scalar c ULNot a) (~ is_true_q x).
Proof.
  intros Va Ha.
  assert (eval_unary_scalar c ULNot a = Ok (to_int (Qnum x =? 0))) as ->.
  { onecase Ha Va; reflexivity || (simpl; destruct (_ =? 0); reflexivity). }
  unfold truth. pose proof (qnz x) as Hx. destruct (Qnum x =? 0); simpl in *; intuition congruence.
Qed.

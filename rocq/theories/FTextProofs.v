From Coq Require Import QArith Qabs Qpower Lqa Lia ZifyBool.
From Verif Require Import Value ScanModel TextModel TextSpec TextProofs TextNum FloatModel FloatProofs FloatMono FloatSign TimeModel FmtModel FmtSpec FmtProofs FmtText FTextModel FTextSpec.
Open Scope list_scope.
Open Scope Z_scope.

(* ---- powers of ten ---- *)
Notation T := (fun k => Qpower (inject_Z 10) k).
Lemma T_pos k : (0 < inject_Z 10 ^ k)%Q.
Proof.
  rewrite <- qpow_power by lia. unfold qpow. destruct (k <? 0) eqn:E; [reflexivity|].
  apply (Qlt_le_trans _ (inject_Z 1)); [reflexivity|]. rewrite <- Zle_Qle. pose proof (Z.pow_pos_nonneg 10 k ltac:(lia) ltac:(lia)). lia.
Qed.
Lemma T_add a b : (inject_Z 10 ^ (a + b) == inject_Z 10 ^ a * inject_Z 10 ^ b)%Q.
Proof. apply Qpower_plus. discriminate. Qed.
Lemma T_Z k : 0 <= k -> (inject_Z 10 ^ k == inject_Z (10 ^ k))%Q.
Proof. intros H. symmetry. apply Zpower_Qpower, H. Qed.
Lemma T_inv k : (inject_Z 10 ^ k * inject_Z 10 ^ (- k) == 1)%Q.
Proof. rewrite <- T_add. rewrite Z.add_opp_diag_r. reflexivity. Qed.
Lemma T_mono a b : a <= b -> (inject_Z 10 ^ a <= inject_Z 10 ^ b)%Q.
Proof.
  intros H. replace b with (a + (b - a)) by lia. rewrite T_add, (T_Z (b - a)) by lia.
  pose proof (T_pos a). pose proof (Z.pow_pos_nonneg 10 (b - a) ltac:(lia) ltac:(lia)) as P.
  assert (1 <= inject_Z (10 ^ (b - a)))%Q by (change 1%Q with (inject_Z 1); rewrite <- Zle_Qle; lia). nra.
Qed.
Lemma T_lt_inv a b : (inject_Z 10 ^ a < inject_Z 10 ^ b)%Q -> a < b.
Proof. intros H. destruct (Z.lt_ge_cases a b) as [L|L]; [exact L|]. pose proof (T_mono b a L). lra. Qed.

(* ---- digits ---- *)
Lemma Forall_firstn' {A} (P : A -> Prop) n l : Forall P l -> Forall P (firstn n l).
Proof. intros H. revert n. induction H; destruct n; cbn; constructor; auto. Qed.
Lemma Forall_skipn' {A} (P : A -> Prop) n l : Forall P l -> Forall P (skipn n l).
Proof. intros H. revert n. induction H; destruct n; cbn; auto. Qed.
Lemma whole_app a f : whole (a ++ f) 0 = whole a 0 * 10 ^ Z.of_nat (length f) + whole f 0.
Proof. rewrite <- decimal_whole. apply decimal_app. Qed.
Lemma whole_zeros_r a n : whole (a ++ zeros n) 0 = whole a 0 * 10 ^ Z.max 0 n.
Proof.
  rewrite whole_app. pose proof (zeros_whole n []) as H. rewrite app_nil_r in H. rewrite H. cbn [whole].
  unfold zeros. rewrite repeat_length. replace (Z.of_nat (Z.to_nat n)) with (Z.max 0 n) by lia. lia.
Qed.
Lemma whole_upper d : digits d -> whole d 0 < 10 ^ Z.of_nat (length d).
Proof.
  intros D. induction D as [|r d R D IH]; [cbn; lia|]. cbn [whole length]. rewrite whole_acc.
  rewrite Nat2Z.inj_succ, Z.pow_succ_r by lia. pose proof (Z.pow_pos_nonneg 10 (Z.of_nat (length d)) ltac:(lia) ltac:(lia)). nia.
Qed.
Lemma whole_lower r d : digits (r :: d) -> r <> 48 -> 10 ^ Z.of_nat (length d) <= whole (r :: d) 0.
Proof.
  intros D N. inversion D; subst. cbn [whole]. rewrite whole_acc.
  pose proof (whole_nonneg d 0 H2 ltac:(lia)). pose proof (Z.pow_pos_nonneg 10 (Z.of_nat (length d)) ltac:(lia) ltac:(lia)). nia.
Qed.
(* the value of digits around a point *)
Lemma point_value a f : (inject_Z (whole a 0) + fraction f == inject_Z (whole (a ++ f) 0) * inject_Z 10 ^ (- Z.of_nat (length f)))%Q.
Proof.
  rewrite fraction_eq, whole_app, inject_Z_plus, inject_Z_mult, <- T_Z by lia.
  rewrite Qmult_plus_distr_l. rewrite <- Qmult_assoc, T_inv. ring.
Qed.
Lemma trim0_zeros t : exists j, t = trim0 t ++ repeat 48 j.
Proof.
  induction t as [|r t [j IH]]; [exists O; reflexivity|]. cbn [trim0]. destruct (trim0 t) as [|x u] eqn:E.
  - cbn [app] in IH. subst t. destruct (Z.eqb_spec r 48) as [->|N].
    + exists (S j). reflexivity.
    + exists j. reflexivity.
  - exists j. rewrite IH at 1. reflexivity.
Qed.

(* a decimal with digits, the first one not zero *)
Definition good (d : dec) : Prop := exists c r, dmant d = c :: r /\ c <> 48 /\ digits (dmant d).
Definition dval (d : dec) : Q := (inject_Z (whole (dmant d) 0) * inject_Z 10 ^ (dexp d - Z.of_nat (length (dmant d))))%Q.
Lemma dval_range d : good d -> (inject_Z 10 ^ (dexp d - 1) <= dval d)%Q /\ (dval d < inject_Z 10 ^ (dexp d))%Q.
Proof.
  intros (c & r & E & N & D). unfold dval. rewrite E in *.
  pose proof (whole_lower c r D N) as L. pose proof (whole_upper _ D) as U. cbn [length] in *.
  set (w := whole (c :: r) 0) in *. rewrite Nat2Z.inj_succ in *. set (n := Z.of_nat (length r)) in *.
  assert (0 <= n) by (unfold n; lia).
  split.
  - replace (dexp d - 1) with (n + (dexp d - Z.succ n)) by lia. rewrite T_add, (T_Z n) by lia.
    pose proof (T_pos (dexp d - Z.succ n)). rewrite Zle_Qle in L. nra.
  - replace (dexp d) with (Z.succ n + (dexp d - Z.succ n)) at 2 by lia. rewrite T_add, (T_Z (Z.succ n)) by lia.
    pose proof (T_pos (dexp d - Z.succ n)). rewrite Zlt_Qlt in U. nra.
Qed.

(* ---- the two layouts ---- *)
Lemma firstn_pad (l : text) n : Z.of_nat (length l) <= n -> firstn (Z.to_nat n) (l ++ zeros n) = l ++ zeros (n - Z.of_nat (length l)).
Proof.
  intros H. rewrite firstn_app, firstn_all2 by lia. f_equal. unfold zeros.
  replace (Z.to_nat n) with (Z.to_nat (n - Z.of_nat (length l)) + length l)%nat at 2 by lia. rewrite repeat_app.
  rewrite firstn_app, firstn_all2 by (rewrite repeat_length; lia). rewrite repeat_length.
  replace (Z.to_nat n - length l - Z.to_nat (n - Z.of_nat (length l)))%nat with O by lia. cbn [firstn]. apply app_nil_r.
Qed.
Definition signed_dec (neg : bool) (t : text) : text := if neg then 45 :: t else t.
Definition sgq (neg : bool) : Q := if neg then (-1)%Q else 1%Q.
Lemma sign_is (neg : bool) : sign_text (if neg then [45] else []) (if neg then -1 else 1).
Proof. destruct neg; [right; right; auto|left; auto]. Qed.

Lemma fmt_e_value neg ch prec d : (ch = 101 \/ ch = 69) -> good d -> Z.of_nat (length (dmant d)) - 1 <= prec -> prec <= 900000 -> Z.abs (dexp d) <= 90000 ->
  exists y, decimal_text (signed_dec neg (fmt_e ch prec d)) y /\ (y == sgq neg * dval d)%Q.
Proof.
  intros Hch (c & r & E & N & D) Hp Hp2 He. unfold fmt_e. rewrite E in *. cbn [hd tl length] in *.
  assert (0 <= prec) by lia. inversion D as [|? ? Dc Dr]; subst.
  set (f := if 0 <? prec then firstn (Z.to_nat prec) (r ++ zeros prec) else []).
  assert (f = r ++ zeros (prec - Z.of_nat (length r))) as Ef.
  { unfold f. destruct (Z.ltb_spec 0 prec); [apply firstn_pad; lia|].
    assert (r = []) as -> by (destruct r; [reflexivity|cbn [length] in *; lia]). replace prec with 0 by lia. reflexivity. }
  assert (Z.of_nat (length f) = prec) as Lf.
  { rewrite Ef, app_length, Nat2Z.inj_add, zeros_length. lia. }
  assert (digits f) as Df by (rewrite Ef; apply Forall_app; split; [assumption|apply zeros_digits]).
  set (exp := dexp d - 1).
  destruct (format_nat_digits (Z.abs exp) ltac:(lia)) as [Dx NE].
  set (x := pad_left 2 (format_nat 10 (Z.abs exp))).
  assert (digits x) as Hx by (apply Forall_app; split; [apply zeros_digits|exact Dx]).
  assert (x <> []) as Nx by (unfold x, pad_left; intros A; apply app_eq_nil in A as [_ A]; contradiction).
  assert (whole x 0 = Z.abs exp) as Wx by (unfold x, pad_left; rewrite zeros_whole; apply format_nat_whole; lia).
  exists (inject_Z (if neg then -1 else 1) * (inject_Z (whole [c] 0) + fraction f) * inject_Z 10 ^ exp)%Q. split.
  - exists (if neg then [45] else []), (if neg then -1 else 1), (c :: (if 0 <? prec then 46 :: f else [])), prec,
      (inject_Z (whole [c] 0) + fraction f)%Q, ([ch; if exp <? 0 then 45 else 43] ++ x), 10, exp.
    split; [|split; [apply sign_is|split; [|split; [|split; [|reflexivity]]]]].
    + unfold f, signed_dec. destruct neg; destruct (0 <? prec); reflexivity.
    + exists [c], f. split; [constructor; [exact Dc|constructor]|]. split; [exact Df|]. split; [discriminate|]. split; [lia|]. split; [reflexivity|].
      unfold f. destruct (Z.ltb_spec 0 prec); [left; reflexivity|right; auto].
    + right. exists ch, [if exp <? 0 then 45 else 43], x, (if exp <? 0 then -1 else 1). split; [reflexivity|]. split; [left; split; [exact Hch|reflexivity]|].
      split; [destruct (exp <? 0); [right; right; auto|right; left; auto]|]. split; [exact Hx|]. split; [exact Nx|]. rewrite Wx. destruct (Z.ltb_spec exp 0); lia.
    + split; [lia|]. cbn [Z.eqb Pos.eqb]. lia.
  - rewrite point_value. rewrite Ef at 1. rewrite app_assoc, whole_zeros_r. rewrite Lf.
    replace (Z.max 0 (prec - Z.of_nat (length r))) with (prec - Z.of_nat (length r)) by lia.
    rewrite inject_Z_mult, <- T_Z by lia. unfold dval. rewrite E. change ([c] ++ r) with (c :: r). cbn [length]. rewrite Nat2Z.inj_succ.
    replace (dexp d - Z.succ (Z.of_nat (length r))) with ((prec - Z.of_nat (length r)) + - prec + exp) by (unfold exp; lia).
    rewrite !T_add. destruct neg; unfold sgq; cbn [inject_Z]; ring.
Qed.

Lemma fmt_fixed_value neg prec d : good d -> Z.of_nat (length (dmant d)) - dexp d <= prec -> 0 <= prec <= 900000 ->
  exists y, decimal_text (signed_dec neg (fmt_fixed prec d)) y /\ (y == sgq neg * dval d)%Q.
Proof.
  intros (c & r & E & N & D) Hp H0.
  assert (1 <= Z.of_nat (length (dmant d))) as L1 by (rewrite E; cbn [length]; lia).
  set (mt := dmant d) in *. set (x := dexp d) in *.
  set (a := if 0 <? x then firstn (Z.to_nat x) (mt ++ zeros x) else [48]).
  set (f := if 0 <? prec then firstn (Z.to_nat prec) (skipn (Z.to_nat x) (zeros (- x) ++ mt) ++ zeros prec) else []).
  assert (exists z j, a ++ f = repeat 48 z ++ mt ++ zeros j /\ 0 <= j /\ Z.of_nat (length f) = j + Z.of_nat (length mt) - x /\ Z.of_nat (length f) = prec /\ digits a /\ digits f /\ a <> []) as (z & j & Eaf & Hj & Lf & Lp & Da & Df & Na).
  { unfold a, f. destruct (Z.ltb_spec 0 x) as [X|X].
    - replace (- x) with (- Z.of_nat (Z.to_nat x)) by lia. assert (zeros (- Z.of_nat (Z.to_nat x)) = []) as -> by (unfold zeros; replace (Z.to_nat (- Z.of_nat (Z.to_nat x))) with O by lia; reflexivity).
      cbn [app]. destruct (Z.lt_ge_cases x (Z.of_nat (length mt))) as [M|M].
      + (* the point is within the digits *)
        rewrite firstn_app. replace (Z.to_nat x - length mt)%nat with O by lia. cbn [firstn]. rewrite app_nil_r.
        destruct (Z.ltb_spec 0 prec) as [P|P]; [|lia].
        rewrite firstn_pad by (rewrite skipn_length; lia). rewrite skipn_length.
        exists O, (prec - (Z.of_nat (length mt) - x)). cbn [repeat app].
        replace (prec - Z.of_nat (length mt - Z.to_nat x)) with (prec - (Z.of_nat (length mt) - x)) by lia.
        split; [rewrite app_assoc, firstn_skipn; reflexivity|]. split; [lia|].
        rewrite app_length, skipn_length, Nat2Z.inj_add, zeros_length. split; [lia|]. split; [lia|].
        split; [apply Forall_firstn'; exact D|]. split; [apply Forall_app; split; [apply Forall_skipn'; exact D|apply zeros_digits]|].
        rewrite E. destruct (Z.to_nat x) eqn:Ex; [lia|discriminate].
      + rewrite firstn_pad by lia. rewrite skipn_all2 by lia. cbn [app].
        assert ((if 0 <? prec then firstn (Z.to_nat prec) (zeros prec) else []) = zeros prec) as ->.
        { destruct (Z.ltb_spec 0 prec); [apply firstn_all2; unfold zeros; rewrite repeat_length; lia|]. replace prec with 0 by lia. reflexivity. }
        exists O, (x - Z.of_nat (length mt) + prec). cbn [repeat app]. split.
        { rewrite <- app_assoc. f_equal. unfold zeros. rewrite <- repeat_app. f_equal. lia. }
        split; [lia|]. rewrite zeros_length. split; [lia|]. split; [lia|]. split; [apply Forall_app; split; [exact D|apply zeros_digits]|]. split; [apply zeros_digits|].
        rewrite E. discriminate.
    - destruct (Z.ltb_spec 0 prec) as [P|P]; [|lia]. replace (Z.to_nat x) with O by lia. cbn [skipn].
      rewrite firstn_pad by (rewrite app_length, Nat2Z.inj_add, zeros_length; lia).
      rewrite app_length, Nat2Z.inj_add, zeros_length.
      exists (S (Z.to_nat (- x))), (prec - (Z.of_nat (length mt) - x)). replace (prec - (Z.max 0 (- x) + Z.of_nat (length mt))) with (prec - (Z.of_nat (length mt) - x)) by lia.
      split; [unfold zeros at 1; cbn [repeat app]; rewrite <- app_assoc; reflexivity|]. split; [lia|].
      rewrite !app_length, !Nat2Z.inj_add, !zeros_length. split; [lia|]. split; [lia|].
      split; [constructor; [lia|constructor]|]. split; [|discriminate]. apply Forall_app; split; [apply Forall_app; split; [apply zeros_digits|exact D]|apply zeros_digits]. }
  exists (inject_Z (if neg then -1 else 1) * (inject_Z (whole a 0) + fraction f) * inject_Z 10 ^ 0)%Q. split.
  - exists (if neg then [45] else []), (if neg then -1 else 1), (a ++ (if 0 <? prec then 46 :: f else [])), prec,
      (inject_Z (whole a 0) + fraction f)%Q, [], 10, 0.
    split; [|split; [apply sign_is|split; [|split; [left; auto|split; [|reflexivity]]]]].
    + unfold signed_dec, fmt_fixed. fold x. fold mt. rewrite app_nil_r. unfold f, a. destruct neg; destruct (0 <? prec); reflexivity.
    + exists a, f. split; [exact Da|]. split; [exact Df|]. split; [intros A; apply app_eq_nil in A as [A _]; contradiction|]. split; [lia|]. split; [reflexivity|].
      destruct (Z.ltb_spec 0 prec); [left; reflexivity|right]. unfold f. rewrite app_nil_r. split; [reflexivity|]. destruct (Z.ltb_spec 0 prec); [lia|reflexivity].
    + split; [lia|]. cbn [Z.eqb Pos.eqb]. lia.
  - rewrite point_value, Eaf. pose proof (zeros_whole (Z.of_nat z) (mt ++ zeros j)) as ZW. unfold zeros in ZW at 1. rewrite Nat2Z.id in ZW. rewrite ZW, whole_zeros_r.
    replace (Z.max 0 j) with j by lia. rewrite inject_Z_mult, <- T_Z by lia. unfold dval. fold mt. fold x.
    replace (x - Z.of_nat (length mt)) with (j + - Z.of_nat (length f)) by lia. rewrite T_add. destruct neg; unfold sgq; cbn [inject_Z]; change (inject_Z 10 ^ 0)%Q with 1%Q; ring.
Qed.

From Coq Require Import QArith Qabs Qpower Lqa Lia ZifyBool.
From Verif Require Import Value NumModel NumSpec NumProofs ScanModel TextModel TextSpec TextProofs TextNum FloatModel FloatProofs FloatMono FloatSign TimeModel MixModel FmtModel FmtSpec FmtProofs FmtText FTextModel FTextSpec FTextProofs FTextDigits FTextShow EFmtModel EFmtSpec.
Open Scope list_scope.
Open Scope Z_scope.

(* ---- int.go:122 eFormat is fmt_e on the first digits ---- *)
Lemma minus_signed neg t : EFmtModel.minus neg t = signed_dec neg t.
Proof. reflexivity. Qed.
Lemma e_format_is verb n neg c f e : 0 <= n -> e_format verb n neg (c :: f) e = Ok (signed_dec neg (fmt_e verb n (mkDec (firstn (Z.to_nat (1 + n)) (c :: f)) (e + 1)))).
Proof.
  intros N. unfold e_format, fmt_e. cbn [dmant dexp]. replace (Z.to_nat (1 + n)) with (S (Z.to_nat n)) by lia. cbn [firstn hd tl]. replace (e + 1 - 1) with e by lia. cbn [length].
  destruct (Z.ltb_spec (Z.of_nat (S (length f)) - 1) n) as [L|L].
  - cbn [app]. rewrite minus_signed. do 2 f_equal. cbn [app]. f_equal. destruct (Z.eqb_spec n 0); [lia|]. destruct (Z.ltb_spec 0 n); [|lia]. cbn [app]. f_equal.
    rewrite (firstn_all2 f) by lia. rewrite firstn_pad by lia. replace (n - Z.of_nat (S (length f)) + 1) with (n - Z.of_nat (length f)) by lia. reflexivity.
  - rewrite minus_signed. do 2 f_equal. cbn [app]. f_equal. destruct (Z.eqb_spec n 0) as [->|H].
    + cbn [Z.ltb Z.compare Z.to_nat firstn app]. reflexivity.
    + destruct (Z.ltb_spec 0 n); [|lia]. cbn [app]. f_equal. f_equal. rewrite firstn_app, firstn_firstn, Nat.min_id, firstn_length, Nat.min_l by lia. rewrite Nat.sub_diag. cbn [firstn]. rewrite app_nil_r. reflexivity.
Qed.
Lemma whole_firstn k s : digits s -> whole (firstn k s) 0 = whole s 0 / 10 ^ Z.of_nat (length s - k).
Proof.
  intros D. rewrite <- (firstn_skipn k s) at 2. rewrite whole_app, skipn_length. pose proof (Forall_skipn' _ k s D) as D2.
  pose proof (whole_upper _ D2) as U. pose proof (whole_nonneg _ 0 D2 ltac:(lia)) as P. rewrite skipn_length in U. pose proof (Z.pow_pos_nonneg 10 (Z.of_nat (length s - k)) ltac:(lia) ltac:(lia)) as T.
  rewrite Z.add_comm, Z.div_add by lia. rewrite Z.div_small by lia. lia.
Qed.
(* ---- trailing zeros ---- *)
Lemma trim0_app a b : trim0 (a ++ b) = match trim0 b with [] => trim0 a | u => a ++ u end.
Proof.
  induction a as [|r a IH]; [cbn [app trim0]; destruct (trim0 b); reflexivity|]. cbn [app trim0]. rewrite IH. destruct (trim0 b) as [|x u]; [reflexivity|]. destruct a; reflexivity.
Qed.
Lemma trim0_end a r : r <> 48 -> trim0 (a ++ [r]) = a ++ [r].
Proof. intros H. rewrite trim0_app. cbn [trim0]. destruct (Z.eqb_spec r 48); [contradiction|reflexivity]. Qed.
Lemma index_app b l m : ~ In b l -> index b (l ++ b :: m) = Some (length l).
Proof.
  induction l as [|r l IH]; intros H; cbn [app index length]; [rewrite Z.eqb_refl; reflexivity|].
  destruct (Z.eqb_spec r b) as [->|_]; [exfalso; apply H; left; reflexivity|]. rewrite IH; [reflexivity|]. intros I. apply H. right. exact I.
Qed.
Lemma index_none b l : ~ In b l -> index b l = None.
Proof. induction l as [|r l IH]; intros H; [reflexivity|]. cbn [index]. destruct (Z.eqb_spec r b) as [->|_]; [exfalso; apply H; left; reflexivity|]. rewrite IH; [reflexivity|]. intros I. apply H. right. exact I. Qed.
Lemma no_point_end l r : r <> 46 -> no_point (l ++ [r]) = l ++ [r].
Proof. intros H. unfold no_point. rewrite rev_app_distr. cbn [rev app]. destruct r as [|p|p]; try reflexivity. do 6 (destruct p as [p|p|]; try reflexivity). contradiction. Qed.
Lemma no_point_point l : no_point (l ++ [46]) = l.
Proof. unfold no_point. rewrite rev_app_distr. cbn [rev app]. apply rev_involutive. Qed.
Lemma snoc {A} (l : list A) : l <> [] -> exists u x, l = u ++ [x].
Proof. intros H. destruct (exists_last H) as (u & x & E). eauto. Qed.
(* what bigint.go:174 makes of the digits before and after the point *)
Definition pointed (a f : text) : text := a ++ (match f with [] => [] | _ => 46 :: f end).
Lemma strip_pointed a f : digits f -> strip0 (a ++ 46 :: f) = Ok (a ++ 46 :: trim0 f) /\ no_point (a ++ 46 :: trim0 f) = pointed a (trim0 f).
Proof.
  intros D. unfold strip0, pointed. change (a ++ 46 :: f) with (a ++ [46] ++ f). rewrite app_assoc, trim0_app. destruct (trim0 f) as [|x u] eqn:E.
  - rewrite trim0_end by lia. split; [destruct a; reflexivity|]. rewrite no_point_point, app_nil_r. reflexivity.
  - split; [rewrite <- app_assoc; destruct a; reflexivity|]. destruct (snoc (x :: u)) as (w & y & Ew); [discriminate|]. rewrite Ew. change (46 :: w ++ [y]) with ((46 :: w) ++ [y]). rewrite app_assoc. apply no_point_end.
    destruct (trim0_zeros f) as [j Ef]. rewrite E, Ew in Ef. unfold digits in D. rewrite Ef in D. apply Forall_app in D as [D _]. apply Forall_app in D as [_ D]. inversion D; subst. lia.
Qed.
Lemma trim_e_pointed v a f rest : digits f -> ~ In v (a ++ 46 :: f) -> trim_e v (a ++ (46 :: f) ++ v :: rest) = Ok (pointed a (trim0 f) ++ v :: rest).
Proof.
  intros D H. unfold trim_e. rewrite app_assoc, index_app by exact H. rewrite firstn_app, Nat.sub_diag, firstn_all, skipn_app, Nat.sub_diag, skipn_all. cbn [firstn skipn app]. rewrite app_nil_r.
  destruct (strip_pointed a f D) as [E1 E2]. rewrite E1. cbn [bind]. rewrite E2. reflexivity.
Qed.
Lemma trim_e_plain v a c rest : c <> 48 -> c <> 46 -> ~ In v (a ++ [c]) -> trim_e v ((a ++ [c]) ++ v :: rest) = Ok ((a ++ [c]) ++ v :: rest).
Proof.
  intros C1 C2 H. unfold trim_e. rewrite index_app by exact H. rewrite firstn_app, Nat.sub_diag, firstn_all, skipn_app, Nat.sub_diag, skipn_all. cbn [firstn skipn app]. rewrite app_nil_r.
  unfold strip0. rewrite trim0_end by exact C1. destruct (a ++ [c]) eqn:E; [destruct a; discriminate|]. rewrite <- E. cbn [bind]. rewrite no_point_end by exact C2. reflexivity.
Qed.
Lemma trim0_app_zeros f n : trim0 (f ++ zeros n) = trim0 f.
Proof. rewrite trim0_app. assert (trim0 (zeros n) = []) as ->; [|reflexivity]. unfold zeros. induction (Z.to_nat n) as [|k IH]; [reflexivity|]. cbn [repeat trim0]. rewrite IH. reflexivity. Qed.
Lemma digits_not v l : digits l -> (v = 101 \/ v = 69) -> ~ In v l.
Proof. intros D V I. unfold digits in D. rewrite Forall_forall in D. apply D in I. lia. Qed.
Lemma trim0_digits f : digits f -> digits (trim0 f).
Proof. intros D. destruct (trim0_zeros f) as [j E]. unfold digits in *. rewrite E in D. apply Forall_app in D. apply D. Qed.
(* a text of eFormat without its zeros is again one of fmt_e *)
Lemma trim_e_is v n neg c f x : (v = 101 \/ v = 69) -> 0 <= n -> digits (c :: f) -> c <> 48 -> Z.of_nat (length f) <= n ->
  trim_e v (signed_dec neg (fmt_e v n (mkDec (c :: f) x))) = Ok (signed_dec neg (fmt_e v (Z.of_nat (length (trim0 f))) (mkDec (c :: trim0 f) x))).
Proof.
  intros V N D C L. inversion D as [|? ? Dc Df]; subst. unfold fmt_e. cbn [dmant dexp hd tl]. set (e := pad_left 2 _). set (sg := if x - 1 <? 0 then 45 else 43).
  assert (forall u, signed_dec neg u = (if neg then [45] else []) ++ u) as SD by (intros; unfold signed_dec; destruct neg; reflexivity). rewrite !SD. set (s := if neg then [45] else []).
  assert (~ In v s) as Ns by (unfold s; destruct neg; cbn [In]; lia).
  assert (~ In v (s ++ [c])) as Nc by (rewrite in_app_iff; cbn [In]; intros [A|[A|[]]]; [contradiction|lia]).
  assert (firstn (Z.to_nat (Z.of_nat (length (trim0 f)))) (trim0 f ++ zeros (Z.of_nat (length (trim0 f)))) = trim0 f) as ->.
  { rewrite firstn_pad by lia. rewrite Z.sub_diag. apply app_nil_r. }
  destruct (Z.ltb_spec 0 n) as [P|P].
  - rewrite firstn_pad by exact L. set (g := f ++ zeros (n - Z.of_nat (length f))). assert (digits g) as Dg by (apply Forall_app; split; [exact Df|apply zeros_digits]).
    change (s ++ c :: (46 :: g) ++ [v; sg] ++ e) with (s ++ [c] ++ (46 :: g) ++ v :: [sg] ++ e). rewrite (app_assoc s [c]), trim_e_pointed; [|exact Dg|].
    + unfold g. rewrite trim0_app_zeros. unfold pointed. rewrite <- !app_assoc. cbn [app]. do 3 f_equal. destruct (trim0 f) as [|y u]; [reflexivity|]. cbn [length]. destruct (Z.ltb_spec 0 (Z.of_nat (S (length u)))); [reflexivity|lia].
    + rewrite in_app_iff. cbn [In]. pose proof (digits_not v g Dg V). tauto || (intros [A|[A|A]]; [tauto|lia|tauto]).
  - assert (f = []) as -> by (destruct f; [reflexivity|cbn [length] in L; lia]). cbn [app trim0 length Z.of_nat Z.ltb Z.compare]. change (s ++ c :: v :: sg :: e) with (s ++ [c] ++ v :: [sg] ++ e). rewrite (app_assoc s [c]), trim_e_plain; [reflexivity|exact C|lia|exact Nc].
Qed.
Lemma dval_trim c f x : (dval (mkDec (c :: trim0 f) x) == dval (mkDec (c :: f) x))%Q.
Proof.
  destruct (trim0_zeros f) as [j E]. unfold dval. cbn [dmant dexp]. rewrite E at 3 4. change (c :: trim0 f ++ repeat 48 j) with ((c :: trim0 f) ++ repeat 48 j). replace (repeat 48 j) with (zeros (Z.of_nat j)) by (unfold zeros; rewrite Nat2Z.id; reflexivity).
  rewrite whole_zeros_r, app_length, Nat2Z.inj_add, zeros_length. replace (Z.max 0 (Z.of_nat j)) with (Z.of_nat j) by lia. rewrite inject_Z_mult, <- T_Z, <- Qmult_assoc, <- T_add by lia. do 2 f_equal. match goal with |- (_ * ?a == _ * ?b)%Q => assert (a = b) as ->; [f_equal; lia|reflexivity] end.
Qed.
Lemma trimmed_e v neg c f x : (v = 101 \/ v = 69) -> digits (c :: f) -> trimmed (signed_dec neg (fmt_e v (Z.of_nat (length (trim0 f))) (mkDec (c :: trim0 f) x))).
Proof.
  intros V D. inversion D as [|? ? Dc Df]; subst. apply trim0_digits in Df. unfold fmt_e. cbn [dmant dexp hd tl]. set (e := pad_left 2 _). set (sg := if x - 1 <? 0 then 45 else 43).
  assert (digits e) as De by (apply Forall_app; split; [apply zeros_digits|apply format_nat_digits; lia]).
  rewrite firstn_pad, Z.sub_diag by lia. unfold zeros. cbn [Z.to_nat repeat]. rewrite app_nil_r. destruct (trim0_last f) as [E|E].
  - left. rewrite E. cbn [length Z.of_nat Z.ltb Z.compare app]. intros I. apply signed_in in I; [|lia]. cbn [In] in I. apply digits_no_point in De. unfold sg in I. destruct (x - 1 <? 0); lia || (destruct I as [I|[I|[I|I]]]; [lia|lia|lia|contradiction]).
  - right. exists (signed_dec neg [c]), (trim0 f), ([v; sg] ++ e). assert (trim0 f <> []) as NE by (intros Z; rewrite Z in E; apply E; reflexivity). destruct (Z.ltb_spec 0 (Z.of_nat (length (trim0 f)))) as [_|L]; [|destruct (trim0 f); [contradiction|cbn [length] in L; lia]].
    split; [unfold signed_dec; destruct neg; reflexivity|]. split; [intros I; apply signed_in in I; [cbn [In] in I; lia|lia]|]. split; [exact Df|]. split; [exact NE|]. split; [exact E|]. right. exists v, (sg :: e). auto.
Qed.
(* the first n+1 digits of c :: f, shown with an exponent, with and without zeros at the end *)
Lemma e_text_value neg verb n c f e : (verb = 101 \/ verb = 69) -> 0 <= n <= 800000 -> digits (c :: f) -> c <> 48 -> Z.abs (e + 1) <= 90000 ->
  exists t t' y y', e_format verb n neg (c :: f) e = Ok t /\ trim_e verb t = Ok t' /\ decimal_text t y /\ decimal_text t' y' /\ one_and n t /\ trimmed t' /\ In verb t /\ In verb t' /\ (y' == y)%Q /\
    (y == sgq neg * (inject_Z (whole (c :: f) 0 / 10 ^ Z.of_nat (length (c :: f) - Z.to_nat (1 + n))) * inject_Z 10 ^ (e + 1 - Z.min (Z.of_nat (length (c :: f))) (1 + n))))%Q.
Proof.
  intros V N D C E. set (s := c :: f) in *. set (g := firstn (Z.to_nat n) f). set (d := mkDec (c :: g) (e + 1)). set (d' := mkDec (c :: trim0 g) (e + 1)).
  assert (firstn (Z.to_nat (1 + n)) s = c :: g) as Es by (replace (Z.to_nat (1 + n)) with (S (Z.to_nat n)) by lia; reflexivity).
  assert (digits (c :: g)) as Dg by (rewrite <- Es; apply Forall_firstn', D). assert (Z.of_nat (length g) <= n) as Lg by (unfold g; rewrite firstn_length; lia).
  assert (good d) as G by (exists c, g; auto).
  assert (good d') as G'. { exists c, (trim0 g). split; [reflexivity|]. split; [exact C|]. unfold d'. cbn [dmant]. inversion Dg; subst. constructor; [assumption|]. apply trim0_digits. assumption. }
  assert (Z.of_nat (length (trim0 g)) <= n) as Lt. { destruct (trim0_zeros g) as [j Eg]. rewrite Eg, app_length in Lg. lia. }
  assert (Z.of_nat (length (dmant d)) = Z.min (Z.of_nat (length s)) (1 + n)) as L by (unfold d; cbn [dmant]; rewrite <- Es, firstn_length; lia).
  destruct (fmt_e_value neg verb n d V G ltac:(lia) ltac:(lia) E) as (y & T & Y).
  destruct (fmt_e_value neg verb (Z.of_nat (length (trim0 g))) d' V G' ltac:(unfold d'; cbn [dmant length]; lia) ltac:(lia) E) as (y' & T' & Y').
  exists (signed_dec neg (fmt_e verb n d)), (signed_dec neg (fmt_e verb (Z.of_nat (length (trim0 g))) d')), y, y'. split; [unfold s; rewrite e_format_is by lia; fold s; rewrite Es; reflexivity|].
  split; [unfold d; rewrite trim_e_is by (assumption || lia); reflexivity|]. split; [exact T|]. split; [exact T'|]. split; [apply fmt_e_length; [exact V|exact G|lia|lia]|]. split; [apply trimmed_e; assumption|].
  split; [apply signed_in; [lia|apply fmt_e_has]|]. split; [apply signed_in; [lia|apply fmt_e_has]|]. split; [rewrite Y, Y'; unfold d'; rewrite dval_trim; reflexivity|].
  rewrite Y. unfold dval. rewrite L. unfold d. cbn [dmant dexp]. rewrite <- Es, whole_firstn by exact D. reflexivity.
Qed.
Lemma cut_compat n q y y' : (y' == y)%Q -> cut_after n q y -> cut_after n q y'.
Proof. intros E (e & k & M & A & B & C & D). exists e, k. split; [exact M|]. rewrite !E. auto. Qed.
(* ---- the exponents of integers ---- *)
Lemma divide_spec k : 2 <= k -> forall f z, 0 <= z < 2 ^ Z.of_nat f -> let (n, r) := divide f k z in 0 <= n /\ 0 <= r < k /\ k ^ n * r <= z < k ^ n * (r + 1) /\ (1 <= z -> 1 <= r).
Proof.
  intros K. induction f as [|f IH]; intros z H; cbn [divide].
  - change (2 ^ Z.of_nat 0) with 1 in H. rewrite Z.pow_0_r. lia.
  - destruct (Z.leb_spec k z) as [L|L]; [|rewrite Z.pow_0_r; lia].
    assert (0 <= z / k < 2 ^ Z.of_nat f) as B.
    { split; [apply Z.div_pos; lia|]. apply Z.div_lt_upper_bound; [lia|]. rewrite Nat2Z.inj_succ, Z.pow_succ_r in H by lia. pose proof (Z.pow_pos_nonneg 2 (Z.of_nat f) ltac:(lia) ltac:(lia)). nia. }
    specialize (IH (z / k) B). destruct (divide f k (z / k)) as [n r]. destruct IH as (N & R & Z1 & Z2). pose proof (Z.div_mod z k ltac:(lia)) as D. pose proof (Z.mod_pos_bound z k ltac:(lia)) as M.
    rewrite Z.pow_add_r, Z.pow_1_r by lia. pose proof (Z.pow_pos_nonneg k n ltac:(lia) ltac:(lia)) as P. split; [lia|]. split; [lia|]. split; [split; nia|].
    intros _. apply Z2. apply Z.div_le_lower_bound; lia.
Qed.
Lemma fuel_for_ok z : 0 <= Z.abs z < 2 ^ Z.of_nat (fuel_for z).
Proof. split; [lia|]. unfold fuel_for. apply fuel_ok. lia. Qed.
Lemma int_exponent_spec z : z <> 0 -> 10 ^ int_exponent z <= Z.abs z < 10 ^ (int_exponent z + 1) /\ 0 <= int_exponent z.
Proof.
  intros H. unfold int_exponent. pose proof (divide_spec 10 ltac:(lia) (fuel_for z) (Z.abs z) (fuel_for_ok z)) as S. destruct (divide (fuel_for z) 10 (Z.abs z)) as [n r]. cbn [fst].
  destruct S as (N & R & Z1 & Z2). specialize (Z2 ltac:(lia)). pose proof (Z.pow_pos_nonneg 10 n ltac:(lia) N). rewrite Z.pow_add_r, Z.pow_1_r by lia. split; [|exact N]. nia.
Qed.
Lemma big_exponent_spec z : z <> 0 -> 10 ^ big_exponent z <= Z.abs z < 10 ^ (big_exponent z + 1) /\ 0 <= big_exponent z.
Proof.
  intros H. unfold big_exponent. pose proof (divide_spec (10 ^ 9) ltac:(lia) (fuel_for z) (Z.abs z) (fuel_for_ok z)) as S. destruct (divide (fuel_for z) (10 ^ 9) (Z.abs z)) as [n r].
  destruct S as (N & R & Z1 & Z2). specialize (Z2 ltac:(lia)).
  assert (0 <= r < 2 ^ Z.of_nat (fuel_for z)) as F. { pose proof (fuel_for_ok z). pose proof (Z.pow_pos_nonneg (10 ^ 9) n ltac:(lia) N). nia. }
  pose proof (divide_spec 10 ltac:(lia) (fuel_for z) r F) as S. destruct (divide (fuel_for z) 10 r) as [m q]. cbn [fst]. destruct S as (M & Q & Y1 & Y2). specialize (Y2 Z2).
  rewrite <- Z.pow_mul_r in Z1 by lia. pose proof (Z.pow_pos_nonneg 10 (9 * n) ltac:(lia) ltac:(lia)). pose proof (Z.pow_pos_nonneg 10 m ltac:(lia) ltac:(lia)).
  rewrite !Z.pow_add_r, Z.pow_1_r by lia. split; [|lia]. nia.
Qed.
Lemma exponent_length z e : z <> 0 -> 10 ^ e <= Z.abs z < 10 ^ (e + 1) -> 0 <= e -> Z.of_nat (length (format_nat 10 (Z.abs z))) = e + 1.
Proof.
  intros H B E. destruct (len_range (Z.abs z) ltac:(lia)) as [[A1 A2] A3]. set (l := Z.of_nat (length (format_nat 10 (Z.abs z)))) in *.
  assert (e < l) by (apply (Z.pow_lt_mono_r_iff 10); lia). assert (l - 1 < e + 1) by (apply (Z.pow_lt_mono_r_iff 10); lia). lia.
Qed.
Lemma magnitude_Z z e : 0 <= e -> 10 ^ e <= Z.abs z < 10 ^ (e + 1) -> magnitude (inject_Z z) (e + 1).
Proof.
  intros E [A B]. unfold magnitude. change (Qabs (inject_Z z)) with (inject_Z (Z.abs z)). replace (e + 1 - 1) with e by lia. rewrite !T_Z, <- Zle_Qle, <- Zlt_Qlt by lia. auto.
Qed.
Lemma int_e_shown verb n z e : (verb = 101 \/ verb = 69) -> 0 <= n <= 800000 -> z <> 0 -> e < 80000 -> 10 ^ e <= Z.abs z < 10 ^ (e + 1) -> 0 <= e ->
  exists t t' y y', e_format verb n (z <? 0) (format_nat 10 (Z.abs z)) e = Ok t /\ trim_e verb t = Ok t' /\ decimal_text t y /\ decimal_text t' y' /\ one_and n t /\ trimmed t' /\ In verb t /\ In verb t' /\ (y' == y)%Q /\ cut_after (n + 1) (inject_Z z) y.
Proof.
  intros V N Z0 EB B E. pose proof (exponent_length z e Z0 B E) as L. destruct (format_nat_digits (Z.abs z) ltac:(lia)) as [D NE]. pose proof (head_not_zero (Z.abs z) ltac:(lia)) as H. pose proof (format_nat_whole (Z.abs z) ltac:(lia)) as W.
  destruct (format_nat 10 (Z.abs z)) as [|c f]; [contradiction|]. cbn [hd] in H.
  destruct (e_text_value (z <? 0) verb n c f e V N D H ltac:(lia)) as (t & t' & y & y' & T & T' & DT & DT' & O & TR & I & I' & YY & Y). exists t, t', y, y'.
  do 9 (split; [assumption|]).
  rewrite W, L in Y. set (j := Z.of_nat (length (c :: f) - Z.to_nat (1 + n))) in *. assert (j = Z.max 0 (e - n)) as J by (unfold j; lia).
  set (w := Z.abs z / 10 ^ j) in *. pose proof (Z.pow_pos_nonneg 10 j ltac:(lia) ltac:(lia)) as P. pose proof (Z.div_mod (Z.abs z) (10 ^ j) ltac:(lia)) as DM. pose proof (Z.mod_pos_bound (Z.abs z) (10 ^ j) P) as MB. fold w in DM.
  replace (e + 1 - Z.min (e + 1) (1 + n)) with j in Y by lia. assert (0 <= w) as W0 by (apply Z.div_pos; lia).
  assert (Qabs y == inject_Z (w * 10 ^ j))%Q as AY. { apply (abs_signed (z <? 0)); [change 0%Q with (inject_Z 0); rewrite <- Zle_Qle; nia|]. rewrite Y, inject_Z_mult, <- T_Z by lia. reflexivity. }
  exists (e + 1), ((if z <? 0 then -1 else 1) * (w * 10 ^ (j - (e - n)))). split; [apply magnitude_Z; assumption|]. split; [|split; [|split]].
  - rewrite Y. replace (e + 1 - (n + 1)) with (e - n) by lia. rewrite !inject_Z_mult, <- (T_Z (j - (e - n))) by lia. replace j with ((j - (e - n)) + (e - n)) at 1 by lia. rewrite T_add. destruct (z <? 0); unfold sgq; cbn [inject_Z]; ring.
  - rewrite Y, T_Z by lia. destruct (Z.ltb_spec z 0); unfold sgq; [setoid_replace (-1 * (inject_Z w * inject_Z (10 ^ j)) * inject_Z z)%Q with (inject_Z (w * 10 ^ j * - z))%Q by (rewrite !inject_Z_mult, inject_Z_opp; ring)|setoid_replace (1 * (inject_Z w * inject_Z (10 ^ j)) * inject_Z z)%Q with (inject_Z (w * 10 ^ j * z))%Q by (rewrite !inject_Z_mult; ring)]; change 0%Q with (inject_Z 0); rewrite <- Zle_Qle; nia.
  - rewrite AY. change (Qabs (inject_Z z)) with (inject_Z (Z.abs z)). rewrite <- Zle_Qle. lia.
  - rewrite AY. change (Qabs (inject_Z z)) with (inject_Z (Z.abs z)). replace (e + 1 - (n + 1)) with (e - n) by lia. destruct (Z.le_gt_cases 0 (e - n)) as [C|C].
    + rewrite T_Z, <- inject_Z_plus, <- Zlt_Qlt by lia. replace (e - n) with j by lia. lia.
    + pose proof (T_pos (e - n)). assert (inject_Z (w * 10 ^ j) == inject_Z (Z.abs z))%Q as ->; [|lra]. assert (j = 0) as J0 by lia. rewrite J0, Z.pow_0_r, Z.mul_1_r. assert (w = Z.abs z) as -> by (rewrite J0, Z.pow_0_r in DM, MB; lia). reflexivity.
Qed.

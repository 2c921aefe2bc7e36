From Coq Require Import QArith Qabs Lqa.
From Verif Require Import Value FloatModel FloatProofs RandSpec FloatMono TimeModel TimeSpec.
Open Scope list_scope.
Open Scope Z_scope.

(* ---- the calendar ---- *)
Ltac zdiv := Z.to_euclidean_division_equations; lia.
Lemma leap_is y : leap y = true <-> leap_year y.
Proof.
  unfold leap, leap_year. rewrite andb_true_iff, orb_true_iff, negb_true_iff, !Z.eqb_eq, Z.eqb_neq.
  rewrite <-!Z.mod_divide by lia. tauto.
Qed.
Lemma year_len k : year_start (k + 1) - year_start k = if leap (k + 1) then 366 else 365.
Proof.
  unfold year_start, leap. destruct (Z.eqb_spec ((k + 1) mod 4) 0), (Z.eqb_spec ((k + 1) mod 100) 0), (Z.eqb_spec ((k + 1) mod 400) 0); cbn [andb orb negb]; zdiv.
Qed.
Lemma year_of_ok n : year_start (year_of n) <= n < year_start (year_of n + 1).
Proof.
  unfold year_of. set (k := 400 * n / 146097). assert (K : 146097 * k <= 400 * n < 146097 * k + 146097) by (unfold k; zdiv). clearbody k.
  assert (B : forall j, 400 * year_start j <= 146097 * j + 400 /\ 146097 * j - 700 <= 400 * year_start j) by (intros j; unfold year_start; zdiv).
  pose proof (year_len (k - 1)) as Y1. replace (k - 1 + 1) with k in Y1 by lia. pose proof (year_len k) as Y2. pose proof (year_len (k + 1)) as Y3. pose proof (B k) as B0. pose proof (B (k + 1)) as B1. pose proof (B (k - 1)) as B2. pose proof (B (k + 1 + 1)) as B3.
  destruct (Z.ltb_spec n (year_start k)) as [L|L]; [replace (k - 1 + 1) with k by lia; destruct (leap k); lia|].
  destruct (Z.leb_spec (year_start (k + 1)) n) as [G|G]; [destruct (leap (k + 1)), (leap (k + 1 + 1)); lia|lia].
Qed.
Lemma year_mono j : forall n, 0 <= n -> year_start j + n <= year_start (j + n).
Proof.
  apply natlike_ind; [replace (j + 0) with j by lia; lia|]. intros n N IH. pose proof (year_len (j + n)) as Y. replace (j + Z.succ n) with (j + n + 1) by lia. destruct (leap (j + n + 1)); lia.
Qed.
Lemma year_unique j k n : year_start j <= n < year_start (j + 1) -> year_start k <= n < year_start (k + 1) -> j = k.
Proof.
  intros A B. destruct (Z.lt_trichotomy j k) as [L|[E|L]]; [|exact E|].
  - pose proof (year_mono (j + 1) (k - (j + 1)) ltac:(lia)) as M. replace (j + 1 + (k - (j + 1))) with k in M by lia. lia.
  - pose proof (year_mono (k + 1) (j - (k + 1)) ltac:(lia)) as M. replace (k + 1 + (j - (k + 1))) with j in M by lia. lia.
Qed.
Definition mlen (l : bool) (m : Z) : Z := match m with 4 | 6 | 9 | 11 => 30 | 2 => if l then 29 else 28 | _ => 31 end.
Lemma month_cases m : 1 <= m <= 12 -> m = 1 \/ m = 2 \/ m = 3 \/ m = 4 \/ m = 5 \/ m = 6 \/ m = 7 \/ m = 8 \/ m = 9 \/ m = 10 \/ m = 11 \/ m = 12.
Proof. lia. Qed.
Ltac months m H := destruct (month_cases m H) as [-> | [-> | [-> | [-> | [-> | [-> | [-> | [-> | [-> | [-> | [-> | ->]]]]]]]]]]].
Lemma month_of_ok (l : bool) (d : Z) : 0 <= d < (if l then 366 else 365) -> 1 <= month_of l d <= 12 /\ month_start l (month_of l d) <= d < month_start l (month_of l d) + mlen l (month_of l d).
Proof.
  intros D. unfold month_of, month_start. destruct l;
  repeat match goal with |- context [if ?a <? ?b then _ else _] => destruct (Z.ltb_spec a b) end; cbn [mlen]; lia.
Qed.
Lemma month_of_is l m d : 1 <= m <= 12 -> 0 <= d < mlen l m -> month_of l (month_start l m + d) = m.
Proof.
  intros M. months m M; destruct l; cbn [mlen]; intros D; unfold month_of, month_start;
  repeat match goal with |- context [if ?a <? ?b then _ else _] => destruct (Z.ltb_spec a b) end; lia.
Qed.
Lemma month_fits (l : bool) (m : Z) : 1 <= m <= 12 -> 0 <= month_start l m /\ month_start l m + mlen l m <= (if l then 366 else 365) /\ (m < 12 -> month_start l (m + 1) = month_start l m + mlen l m).
Proof. intros M. months m M; destruct l; cbn; lia. Qed.
Lemma month_days_is y m n : month_days y m n <-> 1 <= m <= 12 /\ n = mlen (leap y) m.
Proof.
  split.
  - intros H. inversion H as [m' I|m' I|L|L]; subst; cbn [In] in *.
    + repeat destruct I as [<- | I]; try contradiction; cbn; lia.
    + repeat destruct I as [<- | I]; try contradiction; cbn; lia.
    + apply leap_is in L. rewrite L. cbn. lia.
    + destruct (leap y) eqn:E; [apply leap_is in E; contradiction|]. cbn. lia.
  - intros [M ->]. months m M; cbn [mlen]; try (apply md31; cbn; tauto); try (apply md30; cbn; tauto). destruct (leap y) eqn:E; [apply md29, leap_is, E|apply md28; intros X; apply leap_is in X; congruence].
Qed.
Lemma days_of_in y m d : 1 <= m <= 12 -> days_of y m d = year_start (y - 1) + month_start (leap y) m + (d - 1) - epoch_days.
Proof. intros M. unfold days_of. replace ((m - 1) / 12) with 0 by zdiv. replace ((m - 1) mod 12 + 1) with m by zdiv. rewrite Z.add_0_r. reflexivity. Qed.
Lemma civil_days y m d : date y m d -> civil (days_of y m d) = (y, m, d).
Proof.
  intros (n & MD & D). apply month_days_is in MD. destruct MD as [M ->]. unfold days_of. replace ((m - 1) / 12) with 0 by zdiv. replace ((m - 1) mod 12 + 1) with m by zdiv. rewrite Z.add_0_r.
  unfold civil. destruct (month_fits (leap y) m M) as (F1 & F2 & _). set (ms := month_start (leap y) m) in *.
  replace (year_start (y - 1) + ms + (d - 1) - epoch_days + epoch_days) with (year_start (y - 1) + (ms + (d - 1))) by lia.
  pose proof (year_len (y - 1)) as YL. replace (y - 1 + 1) with y in YL by lia.
  assert (Y : year_of (year_start (y - 1) + (ms + (d - 1))) = y - 1).
  { eapply year_unique; [apply year_of_ok|]. replace (y - 1 + 1) with y by lia. destruct (leap y); lia. }
  rewrite Y. replace (y - 1 + 1) with y by lia. replace (year_start (y - 1) + (ms + (d - 1)) - year_start (y - 1)) with (ms + (d - 1)) by lia. assert (MO : month_of (leap y) (ms + (d - 1)) = m) by (apply month_of_is; [exact M|lia]). rewrite MO. fold ms. f_equal. lia.
Qed.
Lemma civil_ok n : exists y m d, civil n = (y, m, d) /\ date y m d /\ days_of y m d = n.
Proof.
  unfold civil. pose proof (year_of_ok (n + epoch_days)) as Y. set (k := year_of (n + epoch_days)) in *. pose proof (year_len k) as YL. set (d := n + epoch_days - year_start k).
  destruct (month_of_ok (leap (k + 1)) d) as [M D]; [unfold d; destruct (leap (k + 1)); lia|]. set (m := month_of (leap (k + 1)) d) in *.
  exists (k + 1), m, (d - month_start (leap (k + 1)) m + 1). split; [reflexivity|]. split; [exists (mlen (leap (k + 1)) m); split; [apply month_days_is; split; [exact M|reflexivity]|lia]|].
  unfold days_of. replace ((m - 1) / 12) with 0 by zdiv. replace ((m - 1) mod 12 + 1) with m by zdiv. rewrite Z.add_0_r. replace (k + 1 - 1) with k by lia. unfold d. lia.
Qed.
Lemma days_next a b : next_day a b -> match a, b with (y, m, d), (y', m', d') => date y m d /\ date y' m' d' /\ days_of y' m' d' = days_of y m d + 1 end.
Proof.
  intros H. inversion H as [y m d n MD D|y m n MD L|y]; subst.
  - split; [exists n; split; [exact MD|lia]|]. split; [exists n; split; [exact MD|lia]|]. unfold days_of. lia.
  - pose proof MD as MD'. apply month_days_is in MD. destruct MD as [M ->]. split; [exists (mlen (leap y) m); split; [exact MD'|destruct (leap y); months m M; cbn; lia]|].
    split; [exists (mlen (leap y) (m + 1)); split; [apply month_days_is; split; [lia|reflexivity]|months m M; destruct (leap y); cbn; lia]|].
    rewrite !days_of_in by lia.
    destruct (month_fits (leap y) m M) as (_ & _ & F). rewrite F by exact L. lia.
  - split; [exists 31; split; [apply md31; cbn; tauto|lia]|]. split; [exists 31; split; [apply md31; cbn; tauto|lia]|]. rewrite !days_of_in by lia. replace (y + 1 - 1) with y by lia.
    pose proof (year_len (y - 1)) as YL. replace (y - 1 + 1) with y in * by lia. unfold month_start. destruct (leap y), (leap (y + 1)); lia.
Qed.
Lemma date_next y m d : date y m d -> exists b, next_day (y, m, d) b.
Proof.
  intros (n & MD & D). destruct (Z.lt_ge_cases d n) as [L|L]; [eexists; eapply next_in_month; [exact MD|lia]|]. replace d with n by lia. pose proof MD as MD'. apply month_days_is in MD. destruct MD as [M E].
  destruct (Z.lt_ge_cases m 12) as [L2|L2]; [eexists; eapply next_month; [exact MD'|exact L2]|]. replace m with 12 in * by lia. cbn in E. rewrite E. eexists. apply next_year.
Qed.
Theorem civil_next n : next_day (civil n) (civil (n + 1)).
Proof.
  destruct (civil_ok n) as (y & m & d & C & D & N). rewrite C. destruct (date_next y m d D) as [[[y' m'] d'] B]. pose proof (days_next _ _ B) as (_ & D' & N'). rewrite <-N, <-N', civil_days by exact D'. exact B.
Qed.

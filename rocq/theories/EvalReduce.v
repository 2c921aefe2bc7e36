(* Proofs about EvalModel.v: reduce, scan, products, each. *)
From Verif Require Import Value ArrModel EvalModel ArrSpec EvalSpec ArrBase ArrRot ArrTransp ArrCat ArrSel ArrMix EvalProofs.
Open Scope nat_scope.

Lemma nth_firstn_lt {A} (d : A) l : forall n i, i < n -> nth i (firstn n l) d = nth i l d.
Proof. induction l as [|x l IH]; intros [|n] [|i] H; cbn; try lia; auto. apply IH. lia. Qed.
Lemma nth_skipn' {A} (d : A) l : forall n i, nth i (skipn n l) d = nth (n + i) l d.
Proof. induction l as [|x l IH]; intros [|n] i; cbn; auto. now destruct i. Qed.
Lemma Forall_firstn' {A} (P : A -> Prop) l : forall n, Forall P l -> Forall P (firstn n l).
Proof. induction l as [|x l IH]; intros [|n] H; cbn; auto. inversion H; auto. Qed.

Fixpoint rfold_acc (ev : value -> value -> res value) (l : list value) (acc : value) : res value :=
  match l with [] => Ok acc | x :: l' => let! r := rfold_acc ev l' acc in ev x r end.
Lemma rfold_snoc ev l z : rfold ev (l ++ [z]) = rfold_acc ev l z.
Proof.
  induction l as [|x l IH]; [reflexivity|]. cbn [rfold_acc]. rewrite <-IH. cbn [app rfold].
  destruct (l ++ [z]) eqn:E; [now destruct l|]. reflexivity.
Qed.
Lemma rfold_acc_snoc ev l x acc : rfold_acc ev (l ++ [x]) acc = let! a := ev x acc in rfold_acc ev l a.
Proof.
  induction l as [|y l IH]; cbn; [destruct (ev x acc); reflexivity|]. rewrite IH. destruct (ev x acc); reflexivity.
Qed.
Lemma map_seq_S {A} (f : nat -> A) n : map f (seq 0 (S n)) = map f (seq 0 n) ++ [f n].
Proof. now rewrite seq_S, map_app. Qed.
Lemma reduce_down_ok ev l step f : forall n pos acc, n * step <= pos ->
  (forall k, k < n -> at_ l (pos - (n - k) * step) = Ok (f k)) ->
  reduce_down ev l step pos n acc = rfold_acc ev (map f (seq 0 n)) acc.
Proof.
  induction n as [|n IH]; intros pos acc Hp H; [reflexivity|]. rewrite map_seq_S, rfold_acc_snoc. cbn [reduce_down].
  replace (at_ l (pos - step)) with (Ok (f n)).
  2: { rewrite <-(H n) by lia. f_equal. replace (S n - n) with 1 by lia. lia. }
  cbn [bind]. destruct (ev (f n) acc) as [a| | |]; try reflexivity. cbn [bind]. apply IH; [cbn in Hp; lia|].
  intros k Hk. rewrite <-(H k) by lia. f_equal. replace (S n - k) with (S (n - k)) by lia. cbn. lia.
Qed.
Lemma reduce_at ev l step f n pos : n <> 0 -> pos = f (n - 1) -> (forall k, k < n -> f k = f 0 + k * step) ->
  (forall k, k < n -> f k < length l) ->
  (let! a := at_ l pos in reduce_down ev l step pos (n - 1) a) = rfold ev (map (fun k => nth (f k) l dflt) (seq 0 n)).
Proof.
  intros Hn -> Hf Hl. destruct n as [|m]; [easy|]. replace (S m - 1) with m in * by lia.
  rewrite map_seq_S, rfold_snoc. rewrite at_nth by (apply Hl; lia).
  cbn [bind]. apply reduce_down_ok.
  - rewrite Hf by lia. lia.
  - intros k Hk. rewrite (Hf m) by lia. rewrite <-at_nth by (apply Hl; lia). f_equal. rewrite (Hf k) by lia.
    assert (E : m * step = k * step + (m - k) * step) by (rewrite <-Nat.mul_add_distr_r; f_equal; lia). lia.
Qed.
Lemma vec_reduce_ok ev l : l <> [] -> vec_reduce ev l = rfold ev l.
Proof.
  intros Hl. assert (length l <> 0) by (destruct l; cbn; easy).
  transitivity (let! a := at_ l (length l - 1) in reduce_down ev l 1 (length l - 1) (length l - 1) a).
  { unfold vec_reduce. destruct l; easy. }
  rewrite (reduce_at ev l 1 (fun k => k) (length l)) by (intros; lia). now rewrite map_nth_seq.
Qed.

Lemma reduce_mat ev s n d : s <> [] -> n <> 0 -> wf (VMat (s ++ [n]) d) ->
  computes (reduce ev (VMat (s ++ [n]) d)) s (fun c => rfold ev (row (VMat (s ++ [n]) d) n c)).
Proof.
  intros Hs Hn (_ & HL & Hl). unfold reduce. rewrite app_length. cbn [length].
  destruct (Nat.ltb_spec (length s + 1) 2); [destruct s; cbn in *; [easy|lia]|].
  rewrite last_snoc, init_snoc. destruct (Nat.eqb_spec n 0); [easy|]. rewrite vol_snoc in HL.
  apply (computes_vom s (size s)); auto.
  - intros c Hc. rewrite (row_eq _ s) by (cbn; auto; now rewrite vol_snoc). cbn [data_of].
    pose proof (ravel_lt _ _ Hc) as HR. apply (reduce_at ev d 1 (fun j => ravel s c * n + j)); auto; try lia.
    intros k Hk. rewrite HL. now apply mul_lt_bound.
  - intros k Hk. specialize (Hl k). rewrite app_length in Hl. cbn in Hl. rewrite firstn_app in Hl.
    replace (k - length s) with 0 in Hl by lia. rewrite app_nil_r in Hl. apply Hl. lia.
Qed.

Lemma column_eq v s n c : shape_of v = n :: s -> length (data_of v) = vol (n :: s) -> inb s c ->
  column v n c = map (fun j => nth (j * vol s + ravel s c) (data_of v) dflt) (seq 0 n).
Proof.
  intros E L Hc. unfold column. apply map_ext_in. intros j Hj. apply in_seq in Hj. unfold elem. rewrite E. cbn [ravel].
  destruct (nth_error (data_of v) (j * vol s + ravel s c)) eqn:N; [now rewrite (nth_error_nth _ _ dflt N)|].
  apply nth_error_None in N. pose proof (ravel_lt _ _ Hc) as HR. rewrite L in N. cbn in N. nia.
Qed.
Lemma legal_tail n s : n <> 0 -> legal (n :: s) -> legal s.
Proof.
  intros Hn H k Hk. specialize (H (S k)). cbn [length firstn vol] in H. specialize (H ltac:(lia)).
  generalize dependent (2 ^ 31 - 1)%Z. intros z H. nia.
Qed.
Lemma reduce_first_mat ev s n d : s <> [] -> n <> 0 -> vol s <> 0 -> wf (VMat (n :: s) d) ->
  computes (reduce_first ev (VMat (n :: s) d)) s (fun c => rfold ev (column (VMat (n :: s) d) n c)).
Proof.
  intros Hs Hn Hv (_ & HL & Hl). unfold reduce_first. cbn [length].
  destruct (Nat.ltb_spec (S (length s)) 2); [destruct s; cbn in *; [easy|lia]|].
  cbn [hd tl]. destruct (Nat.eqb_spec n 0); [easy|]. change (size s) with (vol s). destruct (Nat.eqb_spec (vol s) 0); [easy|].
  apply (computes_vom s (vol s)); auto.
  - intros c Hc. rewrite (column_eq _ s) by (cbn; auto). cbn [data_of]. pose proof (ravel_lt _ _ Hc) as HR. cbn [vol] in HL.
    assert (E : ravel s c + length d - vol s = (n - 1) * vol s + ravel s c).
    { rewrite HL. destruct n as [|m]; [easy|]. replace (S m - 1) with m by lia. cbn. lia. }
    rewrite E. rewrite (dm_div (n - 1)) by auto. apply (reduce_at ev d (vol s) (fun j => j * vol s + ravel s c)); auto; try lia.
    intros k Hk. rewrite HL. apply mul_lt_bound; auto.
  - now apply legal_tail in Hl.
Qed.

(* ---- scan ---- *)
Lemma mapM_rows {B C} (f : nat -> nat -> res B) (n m : nat) (k : list B -> res C) : n <> 0 ->
  (let! rows := mapM (fun i => mapM (f i) (seq 0 n)) (seq 0 m) in k (concat rows)) =
  (let! r := mapM (fun x => f (x / n) (x mod n)) (seq 0 (m * n)) in k r).
Proof.
  intros Hn. revert k. induction m as [|m IH]; intros k; [reflexivity|].
  rewrite seq_S. cbn [plus]. rewrite mapM_app. replace (S m * n) with (m * n + n) by lia. rewrite seq_app, mapM_app. cbn [plus].
  assert (E : mapM (fun x => f (x / n) (x mod n)) (seq (m * n) n) = mapM (f m) (seq 0 n)).
  { replace (seq (m * n) n) with (map (fun j => m * n + j) (seq 0 n)).
    - rewrite mapM_map. apply mapM_ext. intros j Hj. apply in_seq in Hj. rewrite dm_div, dm_mod by lia. reflexivity.
    - rewrite <-(map_id (seq (m * n) n)), (map_seq_shift (fun x => x)). reflexivity. }
  rewrite E. transitivity (let! rows := mapM (fun i => mapM (f i) (seq 0 n)) (seq 0 m) in
    (fun l => let! b := mapM (f m) (seq 0 n) in k (l ++ b)) (concat rows)).
  - destruct (mapM (fun i => mapM (f i) (seq 0 n)) (seq 0 m)); try reflexivity. cbn [bind mapM].
    destruct (mapM (f m) (seq 0 n)); try reflexivity. cbn [bind]. rewrite concat_app. cbn. now rewrite app_nil_r.
  - etransitivity; [apply (IH (fun l => let! b := mapM (f m) (seq 0 n) in k (l ++ b)))|]. destruct (mapM _ (seq 0 (m * n))); try reflexivity. cbn [bind]. destruct (mapM (f m) (seq 0 n)); reflexivity.
Qed.
Lemma slice_firstn (l : list value) index n j : j < n -> index + n <= length l ->
  slice l index (index + j + 1) = firstn (S j) (map (fun k => nth (index + k) l dflt) (seq 0 n)).
Proof.
  intros Hj Hl. unfold slice. replace (index + j + 1 - index) with (S j) by lia.
  apply (list_ext dflt).
  - rewrite !firstn_length, skipn_length, map_length, seq_length. lia.
  - intros i Hi. rewrite firstn_length, skipn_length in Hi. rewrite !nth_firstn_lt by lia.
    rewrite (nth_map_seq (fun k => nth (index + k) l dflt)) by lia. now rewrite nth_skipn'.
Qed.
Lemma scan_row_gen ev l index n : n <> 0 -> index + n <= length l ->
  scan_row ev false l index n = mapM (fun j => rfold ev (firstn (S j) (map (fun k => nth (index + k) l dflt) (seq 0 n)))) (seq 0 n).
Proof.
  intros Hn Hl. unfold scan_row. rewrite at_nth by lia. set (R := map _ _). replace (seq 0 n) with (0 :: seq 1 (n - 1)).
  2: { replace n with (S (n - 1)) at 2 by lia. reflexivity. }
  cbn [mapM]. assert (E : firstn 1 R = [nth index l dflt]).
  { unfold R. replace n with (S (n - 1)) by lia. cbn. now rewrite Nat.add_0_r. }
  rewrite E. cbn [rfold bind]. erewrite mapM_ext; [reflexivity|]. intros j Hj. cbn beta. apply in_seq in Hj.
  rewrite (slice_firstn l index n) by lia. fold R. apply vec_reduce_ok. unfold R. destruct n; [easy|]. easy.
Qed.

Section Assoc.
  Variable ev : value -> value -> res value.
  Variable D : value -> Prop.
  Hypothesis closed : forall a b, D a -> D b -> exists r, ev a b = Ok r /\ D r.
  Hypothesis assoc : forall a b c, D a -> D b -> D c -> (let! r := ev a b in ev r c) = (let! r := ev b c in ev a r).
  Lemma rfold_left l x : l <> [] -> Forall D l -> D x ->
    exists r, rfold ev l = Ok r /\ D r /\ rfold ev (l ++ [x]) = ev r x.
  Proof.
    induction l as [|a l IH]; [easy|]. intros _ Hl Hx. inversion Hl as [|? ? Ha Hl']; subst.
    destruct l as [|b l].
    - exists a. cbn. auto.
    - destruct (IH ltac:(easy) Hl' Hx) as (r & Hr & Dr & Er). destruct (closed a r Ha Dr) as (q & Eq & Dq).
      exists q. change (rfold ev (a :: b :: l)) with (let! r := rfold ev (b :: l) in ev a r). rewrite Hr. cbn [bind].
      split; [easy|]. split; [easy|].
      change (rfold ev ((a :: b :: l) ++ [x])) with (let! r := rfold ev ((b :: l) ++ [x]) in ev a r). rewrite Er.
      rewrite <-assoc by auto. rewrite Eq. reflexivity.
  Qed.
  Lemma scan_left_ok l index n : index + n <= length l ->
    Forall D (map (fun k => nth (index + k) l dflt) (seq 0 n)) ->
    forall m j acc, j + m = n -> j <> 0 ->
    rfold ev (firstn j (map (fun k => nth (index + k) l dflt) (seq 0 n))) = Ok acc ->
    scan_left ev l (index + j) m acc = mapM (fun j => rfold ev (firstn (S j) (map (fun k => nth (index + k) l dflt) (seq 0 n)))) (seq j m).
  Proof.
    intros Hl HD. set (R := map _ _) in *. assert (LR : length R = n) by (unfold R; now rewrite map_length, seq_length).
    induction m as [|m IH]; intros j acc Hj Hj0 Hacc; [reflexivity|]. cbn [scan_left seq mapM]. rewrite at_nth by lia. cbn [bind].
    assert (E : firstn (S j) R = firstn j R ++ [nth (index + j) l dflt]).
    { rewrite <-(firstn_skipn j R) at 1. rewrite firstn_app, firstn_firstn, firstn_length.
      replace (Nat.min (S j) j) with j by lia. replace (S j - Nat.min j (length R)) with 1 by lia. f_equal.
      destruct (skipn j R) as [|y k] eqn:Ey; [exfalso; apply (f_equal (@length _)) in Ey; rewrite skipn_length in Ey; cbn in Ey; lia|].
      cbn. f_equal. transitivity (nth 0 (skipn j R) dflt); [now rewrite Ey|]. rewrite nth_skipn', Nat.add_0_r. unfold R.
      rewrite (nth_map_seq (fun k => nth (index + k) l dflt)) by lia. reflexivity. }
    assert (Hx : D (nth (index + j) l dflt)).
    { rewrite Forall_forall in HD. apply HD. unfold R. apply in_map_iff. exists j. split; [easy|]. apply in_seq. lia. }
    destruct (rfold_left (firstn j R) (nth (index + j) l dflt)) as (r & Hr & Dr & Er); auto.
    { intros N. apply (f_equal (@length _)) in N. rewrite firstn_length in N. cbn in N. lia. }
    { now apply Forall_firstn'. }
    rewrite Hacc in Hr. injection Hr as <-. rewrite E, Er. destruct (closed acc _ Dr Hx) as (q & Eq & Dq). rewrite Eq. cbn [bind].
    replace (S (index + j)) with (index + S j) by lia. rewrite (IH (S j) q); try lia; [reflexivity|]. now rewrite E, Er.
  Qed.
  Lemma scan_row_assoc l index n : n <> 0 -> index + n <= length l ->
    Forall D (map (fun k => nth (index + k) l dflt) (seq 0 n)) ->
    scan_row ev true l index n = mapM (fun j => rfold ev (firstn (S j) (map (fun k => nth (index + k) l dflt) (seq 0 n)))) (seq 0 n).
  Proof.
    intros Hn Hl HD. unfold scan_row. rewrite at_nth by lia. cbn [bind].
    assert (E : firstn 1 (map (fun k => nth (index + k) l dflt) (seq 0 n)) = [nth index l dflt]).
    { replace n with (S (n - 1)) by lia. cbn. now rewrite Nat.add_0_r. }
    replace (S index) with (index + 1) by lia. rewrite (scan_left_ok l index n Hl HD (n - 1) 1); try lia.
    - set (R := map (fun k => nth (index + k) l dflt) (seq 0 n)) in *.
      replace (seq 0 n) with (0 :: seq 1 (n - 1)).
      2: { replace n with (S (n - 1)) at 2 by lia. reflexivity. }
      cbn [mapM]. rewrite E. reflexivity.
    - rewrite E. reflexivity.
  Qed.
End Assoc.

(* What scan_row must satisfy for the theorems about scan: both the general case and
   the fast case on associative operators do. *)
Definition prefixes (ev : value -> value -> res value) (assoc : bool) (l : list value) : Prop :=
  forall index n, n <> 0 -> index + n <= length l ->
    scan_row ev assoc l index n = mapM (fun j => rfold ev (firstn (S j) (map (fun k => nth (index + k) l dflt) (seq 0 n)))) (seq 0 n).
Lemma prefixes_gen ev l : prefixes ev false l.
Proof. intros index n. apply scan_row_gen. Qed.
Lemma prefixes_assoc (ev : value -> value -> res value) (D : value -> Prop) l :
  (forall a b, D a -> D b -> exists r, ev a b = Ok r /\ D r) ->
  (forall a b c, D a -> D b -> D c -> (let! r := ev a b in ev r c) = (let! r := ev b c in ev a r)) ->
  Forall D l -> prefixes ev true l.
Proof.
  intros H1 H2 HD index n Hn Hl. apply (scan_row_assoc ev D); auto. rewrite Forall_forall in *. intros x Hx.
  apply in_map_iff in Hx as (k & <- & Hk). apply in_seq in Hk. apply HD. apply nth_In. lia.
Qed.

Lemma scan_vec_ok ev assoc l : prefixes ev assoc l -> l <> [] ->
  computes (scan ev assoc (VVec l)) [length l] (fun c => rfold ev (firstn (S (last c 0)) l)).
Proof.
  intros P Hl. assert (length l <> 0) by (destruct l; cbn; easy).
  assert (E : scan ev assoc (VVec l) = let! r := scan_row ev assoc l 0 (length l) in Ok (VVec r)) by (destruct l; easy).
  rewrite E, P by lia. change (fun k => nth (0 + k) l dflt) with (fun k => nth k l dflt). rewrite map_nth_seq by auto.
  apply computes_vec. intros i Hi. reflexivity.
Qed.
Lemma scan_mat_ok ev assoc s n d : prefixes ev assoc d -> s <> [] -> n <> 0 -> wf (VMat (s ++ [n]) d) ->
  computes (scan ev assoc (VMat (s ++ [n]) d)) (s ++ [n])
    (fun c => rfold ev (firstn (S (last c 0)) (row (VMat (s ++ [n]) d) n (removelast c)))).
Proof.
  intros P Hs Hn (_ & HL & Hl). unfold scan. rewrite app_length. cbn [length].
  destruct (Nat.ltb_spec (length s + 1) 2); [destruct s; cbn in *; [easy|lia]|].
  rewrite last_snoc, init_snoc. destruct (Nat.eqb_spec n 0); [easy|]. change (size s) with (vol s).
  assert (LD : length d = vol s * n) by now rewrite vol_snoc in HL.
  assert (E : mapM (fun i => scan_row ev assoc d (i * n) n) (seq 0 (vol s)) =
     mapM (fun i => mapM (fun j => rfold ev (firstn (S j) (map (fun k => nth (i * n + k) d dflt) (seq 0 n)))) (seq 0 n)) (seq 0 (vol s))).
  { apply mapM_ext. intros i Hi. apply in_seq in Hi. apply P; auto. nia. }
  rewrite E, (mapM_rows (fun i j => rfold ev (firstn (S j) (map (fun k => nth (i * n + k) d dflt) (seq 0 n))))) by auto.
  apply (computes_mat_legal (s ++ [n]) (vol s * n)); auto; [apply snoc_nonnil|now rewrite vol_snoc|].
  intros c Hc. apply inb_snoc in Hc as (c' & j & -> & Hc & Hj). rewrite ravel_snoc by now apply inb_len in Hc.
  rewrite dm_div, dm_mod, last_last, removelast_last by auto. rewrite (row_eq _ s) by (cbn; auto). reflexivity.
Qed.

(* ---- scan along the first axis ---- *)
Lemma inb_rev_ s c : inb s c -> inb (rev s) (rev c).
Proof.
  intros H. induction H as [|x d c s Hx H IH]; [constructor|]. cbn. apply inb_app; [rewrite !rev_length; now apply inb_len|].
  split; auto. apply inb_cons; split; [auto|apply inb_nil].
Qed.
Lemma legal_rev s : vol s <> 0 -> legal s -> legal (rev s).
Proof.
  intros Hv Hl k Hk. rewrite rev_length in Hk. specialize (Hl (length s) ltac:(lia)). rewrite firstn_all in Hl.
  pose proof (firstn_skipn k (rev s)) as E. apply (f_equal vol) in E. rewrite vol_app, vol_rev in E.
  assert (vol (skipn k (rev s)) <> 0) by (intros Z; rewrite Z in E; lia). nia.
Qed.
Lemma scan_first_ok c ev assoc s n d : (forall l, (forall x, In x l -> In x d) -> prefixes ev assoc l) -> s <> [] -> n <> 0 -> vol s <> 0 ->
  wf (VMat (n :: s) d) ->
  computes (scan_first c ev assoc (VMat (n :: s) d)) (n :: s)
    (fun k => rfold ev (firstn (S (hd 0 k)) (column (VMat (n :: s) d) n (tl k)))).
Proof.
  intros P Hs Hn Hv W. pose proof W as (_ & HL & Hl). unfold scan_first. cbn [length].
  destruct (Nat.ltb_spec (S (length s)) 2); [destruct s; cbn in *; [easy|lia]|].
  assert (Hvv : vol (n :: s) <> 0) by (cbn; nia).
  destruct (Nat.eqb_spec (last_ (n :: s)) 0) as [E|E].
  { exfalso. apply Hvv. apply vol_zero. rewrite <-E. unfold last_. rewrite (app_removelast_last 0 (l := n :: s)) at 2 by easy.
    apply in_or_app. right. now left. }
  assert (T0 : forall x, n :: s <> [x; 0]) by (intros x Hx; rewrite Hx in Hvv; cbn in Hvv; lia).
  pose proof (transpose_ok c (n :: s) d ltac:(easy) HL T0) as HT. apply array_legal in HT; [|now apply legal_rev].
  destruct HT as (t & -> & Wt & St & Et). cbn [bind].
  assert (Mt : exists dt, t = VMat (rev (n :: s)) dt).
  { destruct t; cbn [shape_of] in St; try (apply (f_equal (@length _)) in St; rewrite rev_length in St; cbn in St; lia). rewrite <-St. eauto. }
  destruct Mt as (dt & ->). cbn [rev] in *. pose proof Wt as (_ & HLt & Hlt). rewrite vol_snoc, vol_rev in HLt.
  assert (Din : forall x, In x dt -> In x d).
  { intros x Hx. apply In_nth_error in Hx as (i & Hi). assert (i < length dt) by (apply nth_error_Some; congruence).
    assert (I : inb (rev s ++ [n]) (unravel (rev s ++ [n]) i)) by (apply unravel_inb; rewrite vol_snoc, vol_rev; lia).
    destruct (Et _ I) as [Ex _]. unfold elem in Ex. cbn [shape_of data_of] in Ex. rewrite ravel_unravel in Ex by (rewrite vol_snoc, vol_rev; lia).
    rewrite Hi in Ex. symmetry in Ex. now apply nth_error_In in Ex. }
  assert (Hrs : rev s <> []) by (intros Z; apply Hs; rewrite <-(rev_involutive s), Z; reflexivity).
  pose proof (scan_mat_ok ev assoc (rev s) n dt (P dt Din) Hrs Hn Wt) as HS.
  assert (Row : forall k j, inb (n :: s) (j :: k) -> row (VMat (rev s ++ [n]) dt) n (rev k) = column (VMat (n :: s) d) n k).
  { intros k j Hk. unfold row, column. apply map_ext_in. intros i Hi. apply in_seq in Hi. apply inb_cons in Hk as [_ Hk].
    assert (I : inb (rev s ++ [n]) (rev k ++ [i])).
    { apply inb_app; [rewrite !rev_length; now apply inb_len|]. split; [now apply inb_rev_|].
      apply inb_cons; split; [lia|apply inb_nil]. }
    destruct (Et _ I) as [-> _]. rewrite rev_app_distr, rev_involutive. reflexivity. }
  destruct HS as [(w & -> & Ww & Sw & Ew)|(k & Hk & HF)].
  - cbn [bind]. assert (Mw : exists dw, w = VMat (rev s ++ [n]) dw).
    { destruct w; cbn [shape_of] in Sw; try (apply (f_equal (@length _)) in Sw; rewrite app_length, rev_length in Sw; cbn in Sw; lia). rewrite <-Sw. eauto. }
    destruct Mw as (dw & ->). destruct Ww as (_ & HLw & Hlw).
    assert (T1 : forall x, rev s ++ [n] <> [x; 0]).
    { intros x Hx. change [x; 0] with ([x] ++ [0]) in Hx. apply app_inj_tail in Hx as [_ ->]. easy. }
    pose proof (transpose_ok c (rev s ++ [n]) dw (snoc_nonnil _ _) HLw T1) as HT. rewrite rev_app_distr in HT. cbn [rev app] in HT.
    rewrite rev_involutive in HT. apply array_legal in HT; [|auto]. destruct HT as (r & -> & Wr & Sr & Er).
    left. exists r. split; [easy|]. split; [easy|]. split; [easy|]. intros k Hk. destruct (Er k Hk) as [Ek Nk].
    destruct k as [|j k]; [now apply inb_len in Hk|].
    assert (I : inb (rev s ++ [n]) (rev k ++ [j])).
    { apply inb_cons in Hk as [Hj Hk]. apply inb_app; [rewrite !rev_length; now apply inb_len|]. split; [now apply inb_rev_|].
      apply inb_cons; split; [lia|apply inb_nil]. }
    destruct (Ew _ I) as (x & Ex & Rx). exists x. rewrite Ek. cbn [rev]. split; [exact Ex|].
    rewrite last_last, removelast_last in Rx. cbn [hd tl]. rewrite <-(Row k j) by auto. exact Rx.
  - right. apply inb_snoc in Hk as (k' & j & -> & Hk & Hj). exists (j :: rev k').
    rewrite last_last, removelast_last in HF.
    assert (I : inb (n :: s) (j :: rev k')).
    { apply inb_cons. split; [auto|]. rewrite <-(rev_involutive s). now apply inb_rev_. }
    split; [auto|]. cbn [hd tl]. rewrite <-(Row (rev k') j) by auto. rewrite rev_involutive. now apply fails_bind.
Qed.

(* ---- outer product ---- *)
Lemma outer_mat_arr ev u v : wf u -> wf v -> rank_of u <> 0 -> rank_of v <> 0 ->
  computes_if_legal (outer_mat ev (to_mat u) (to_mat v)) (shape_of u ++ shape_of v)
    (fun c => on2 ev (elem u (firstn (rank_of u) c)) (elem v (skipn (rank_of u) c))).
Proof.
  intros Wu Wv Ru Rv. destruct (to_mat_arr u Wu Ru) as (-> & Lu & _). destruct (to_mat_arr v Wv Rv) as (-> & Lv & _).
  unfold outer_mat. cbn [fst snd]. apply computes_mat.
  - unfold rank_of in Ru. now destruct (shape_of u).
  - rewrite vol_app. congruence.
  - intros c Hc. pose proof (inb_len _ _ Hc) as Lc. rewrite app_length in Lc.
    rewrite <-(firstn_skipn (rank_of u) c) in Hc |- * at 1 2. rewrite inb_app in Hc by (rewrite firstn_length; unfold rank_of; lia).
    destruct Hc as [Hc1 Hc2]. rewrite ravel_app by (rewrite firstn_length; unfold rank_of; lia).
    rewrite Lv, dm_div, dm_mod by now apply ravel_lt.
    destruct (at_elem u _ Wu Ru Hc1) as (x & Hx & Hx'). destruct (at_elem v _ Wv Rv Hc2) as (y & Hy & Hy').
    rewrite Hx, Hy. unfold pair_at. rewrite Hx', Hy'. reflexivity.
Qed.
Lemma outer_ok ev u v : wf u -> wf v -> rank_of u <> 0 -> rank_of v <> 0 ->
  computes_if_legal (outer ev u v) (shape_of u ++ shape_of v)
    (fun c => on2 ev (elem u (firstn (rank_of u) c)) (elem v (skipn (rank_of u) c))).
Proof.
  intros Wu Wv Ru Rv. unfold outer, at_least_vector. destruct (is_mat u || is_mat v) eqn:M; [now apply outer_mat_arr|].
  apply orb_false_iff in M as [Mu Mv]. destruct (to_vec_arr u Mu Ru) as (l & ->). destruct (to_vec_arr v Mv Rv) as (k & ->).
  cbn [to_vec bind]. exact (outer_mat_arr ev (VVec l) (VVec k) Wu Wv Ru Rv).
Qed.

(* ---- inner product ---- *)
Fixpoint rinner_acc (evl evr : value -> value -> res value) (ps : list (value * value)) (acc : value) : res value :=
  match ps with [] => Ok acc | (x, y) :: ps' => let! r := rinner_acc evl evr ps' acc in let! p := evr x y in evl p r end.
Lemma rinner_snoc evl evr ps x y : rinner evl evr (ps ++ [(x, y)]) = let! a := evr x y in rinner_acc evl evr ps a.
Proof.
  induction ps as [|[x' y'] ps IH]; [cbn; destruct (evr x y); reflexivity|]. cbn [rinner_acc].
  transitivity (let! r := rinner evl evr (ps ++ [(x, y)]) in let! p := evr x' y' in evl p r).
  - cbn [app rinner]. destruct (ps ++ [(x, y)]) eqn:E; [now destruct ps|]. reflexivity.
  - rewrite IH. destruct (evr x y); reflexivity.
Qed.
Lemma rinner_acc_snoc evl evr ps x y acc : rinner_acc evl evr (ps ++ [(x, y)]) acc =
  let! p := evr x y in let! a := evl p acc in rinner_acc evl evr ps a.
Proof.
  induction ps as [|[x' y'] ps IH]; cbn.
  - destruct (evr x y); cbn; auto. destruct (evl a acc); reflexivity.
  - rewrite IH. destruct (evr x y); cbn; auto. destruct (evl a acc); reflexivity.
Qed.
Lemma inner_down_ok evl evr ui vj f : forall n acc, (forall k, k < n -> ui k = Ok (fst (f k)) /\ vj k = Ok (snd (f k))) ->
  inner_down evl evr ui vj n acc = rinner_acc evl evr (map f (seq 0 n)) acc.
Proof.
  induction n as [|n IH]; intros acc H; [reflexivity|]. rewrite map_seq_S. cbn [inner_down].
  destruct (H n) as [-> ->]; [lia|]. cbn [bind]. destruct (f n) as [x y] eqn:E. rewrite rinner_acc_snoc. cbn [fst snd].
  destruct (evr x y); cbn [bind]; auto. destruct (evl a acc); cbn [bind]; auto. 
Qed.
Lemma inner_at_ok evl evr ui vj f n : n <> 0 -> (forall k, k < n -> ui k = Ok (fst (f k)) /\ vj k = Ok (snd (f k))) ->
  inner_at evl evr ui vj n = rinner evl evr (map f (seq 0 n)).
Proof.
  intros Hn H. unfold inner_at. destruct n as [|m]; [easy|]. replace (S m - 1) with m by lia. rewrite map_seq_S.
  destruct (H m) as [-> ->]; [lia|]. destruct (f m) as [x y] eqn:E. rewrite rinner_snoc. cbn [bind fst snd].
  destruct (evr x y); cbn [bind]; auto. apply inner_down_ok. intros k Hk. apply H. lia.
Qed.
Lemma inner_vec_ok evl evr l k : length l = length k -> l <> [] ->
  inner evl evr (VVec l) (VVec k) = rinner evl evr (combine l k).
Proof.
  intros E Hl. unfold inner, at_least_vector. cbn [is_mat orb to_vec bind]. unfold inner_vec. rewrite <-E, Nat.eqb_refl. cbn [negb].
  destruct (Nat.eqb_spec (length l) 0) as [Z|Z]; [now destruct l|].
  rewrite (inner_at_ok evl evr _ _ (fun i => (nth i l dflt, nth i k dflt))); auto.
  - f_equal. apply (list_ext (dflt, dflt)); [rewrite map_length, seq_length, combine_length; lia|].
    rewrite map_length, seq_length. intros i Hi. rewrite (nth_map_seq (fun i => (nth i l dflt, nth i k dflt))) by auto.
    rewrite combine_nth; auto.
  - intros i Hi. cbn [fst snd]. rewrite !at_nth by lia. auto.
Qed.
Lemma inner_vec_bad evl evr l k : length l <> length k \/ l = [] -> inner evl evr (VVec l) (VVec k) = Err.
Proof.
  intros H. unfold inner, at_least_vector. cbn [is_mat orb to_vec bind]. unfold inner_vec.
  destruct (Nat.eqb_spec (length l) (length k)) as [E|E]; [|reflexivity]. cbn [negb].
  destruct H as [H| ->]; [easy|]. reflexivity.
Qed.
Lemma combine_map2 {A B C} (f : A -> B) (g : A -> C) l : combine (map f l) (map g l) = map (fun x => (f x, g x)) l.
Proof. induction l; cbn; congruence. Qed.
Lemma inner_mat_ok evl evr u v s n t : wf u -> wf v -> shape_of u = s ++ [n] -> shape_of v = n :: t -> n <> 0 -> s ++ t <> [] ->
  computes_if_legal (inner evl evr u v) (s ++ t)
    (fun c => rinner evl evr (combine (row u n (firstn (length s) c)) (column v n (skipn (length s) c)))).
Proof.
  intros Wu Wv Su Sv Hn Hst. assert (Ru : rank_of u <> 0) by (rewrite (rank_snoc u s n Su); lia).
  assert (Rv : rank_of v <> 0) by (unfold rank_of; rewrite Sv; cbn; lia).
  destruct (to_mat_arr u Wu Ru) as (Tu & Lu & _). destruct (to_mat_arr v Wv Rv) as (Tv & Lv & _).
  unfold inner, at_least_vector. replace (is_mat u || is_mat v) with true.
  2: { symmetry. apply orb_true_iff. destruct (is_mat u) eqn:Mu; auto. destruct (is_mat v) eqn:Mv; auto. exfalso.
       destruct (to_vec_arr u Mu Ru) as (l & ->). destruct (to_vec_arr v Mv Rv) as (k & ->). cbn in Su, Sv.
       injection Sv as _ <-. change [length l] with ([] ++ [length l]) in Su. apply app_inj_tail in Su as [<- _]. easy. }
  rewrite Tu, Tv, Su, Sv. unfold inner_mat. cbn [hd tl]. rewrite last_snoc, init_snoc, Nat.eqb_refl.
  destruct (Nat.ltb_spec (length (s ++ [n])) 1) as [H1|H1]; [rewrite app_length in H1; cbn in H1; lia|].
  destruct (Nat.ltb_spec (length (n :: t)) 1) as [H2|H2]; [cbn in H2; lia|]. cbn [orb negb].
  destruct (Nat.eqb_spec n 0); [easy|]. rewrite Su, vol_snoc in Lu. rewrite Sv in Lv. cbn [vol] in Lv.
  rewrite Lu, Lv. rewrite (Nat.mul_comm n (vol t)), !Nat.div_mul by auto.
  apply computes_vom; auto; [now rewrite vol_app|].
  intros c Hc. pose proof (inb_len _ _ Hc) as Lc. rewrite app_length in Lc.
  assert (E : ravel (s ++ t) c = ravel s (firstn (length s) c) * vol t + ravel t (skipn (length s) c)).
  { rewrite <-(firstn_skipn (length s) c) at 1. apply ravel_app. rewrite firstn_length. lia. }
  rewrite <-(firstn_skipn (length s) c) in Hc. rewrite inb_app in Hc by (rewrite firstn_length; lia).
  destruct Hc as [Hc1 Hc2]. cbn beta zeta. rewrite E.
  rewrite dm_div, dm_mod by now apply ravel_lt.
  rewrite (row_eq u s n) by (auto; now rewrite vol_snoc). rewrite (column_eq v t n) by auto. rewrite combine_map2.
  apply inner_at_ok; auto. intros k Hk. cbn [fst snd].
  apply ravel_lt in Hc1. apply ravel_lt in Hc2. split.
  - apply at_nth. rewrite Lu. now apply mul_lt_bound.
  - rewrite Nat.add_comm. apply at_nth. rewrite Lv. apply mul_lt_bound; auto.
Qed.
Lemma inner_mat_bad evl evr u v : wf u -> wf v -> rank_of u <> 0 -> rank_of v <> 0 -> last (shape_of u) 0 <> hd 0 (shape_of v) ->
  inner evl evr u v = Err.
Proof.
  intros Wu Wv Ru Rv H. destruct (to_mat_arr u Wu Ru) as (Tu & Lu & _). destruct (to_mat_arr v Wv Rv) as (Tv & Lv & _).
  unfold inner, at_least_vector. destruct (is_mat u || is_mat v) eqn:M.
  - rewrite Tu, Tv. unfold inner_mat. unfold last_. rewrite (proj2 (Nat.eqb_neq _ _) H). cbn [negb]. rewrite !orb_true_r. reflexivity.
  - apply orb_false_iff in M as [Mu Mv]. destruct (to_vec_arr u Mu Ru) as (l & ->). destruct (to_vec_arr v Mv Rv) as (k & ->).
    cbn in H. apply (inner_vec_bad evl evr). now left.
Qed.
(* When every product succeeds, the inner product is the reduction of the products. *)
Lemma rinner_rfold evl evr ps : forall zs, mapM (fun p => evr (fst p) (snd p)) ps = Ok zs -> rinner evl evr ps = rfold evl zs.
Proof.
  induction ps as [|[x y] ps IH]; intros zs H; [injection H as <-; reflexivity|]. cbn [mapM fst snd] in H.
  destruct (evr x y) as [z| | |] eqn:E; try discriminate. cbn [bind] in H.
  destruct (mapM (fun p => evr (fst p) (snd p)) ps) as [zs'| | |] eqn:Em; try discriminate. injection H as <-.
  specialize (IH zs' eq_refl). destruct ps as [|p ps].
  - injection Em as <-. cbn. exact E.
  - destruct zs' as [|z' zs']; [now apply mapM_Ok_len in Em|].
    change (rinner evl evr ((x, y) :: p :: ps)) with (let! r := rinner evl evr (p :: ps) in let! p := evr x y in evl p r).
    change (rfold evl (z :: z' :: zs')) with (let! r := rfold evl (z' :: zs') in evl z r). rewrite IH, E. reflexivity.
Qed.

(* ---- each ---- *)
Lemma div_all_vol s : forall n, vol s <> 0 -> div_all (vol s * n) s = n.
Proof.
  induction s as [|a s IH]; intros n H; cbn in *; [lia|].
  replace (a * vol s * n) with ((vol s * n) * a) by lia. rewrite Nat.div_mul by lia. apply IH. lia.
Qed.
Lemma div_all_0 s : div_all 0 s = 0.
Proof. induction s as [|a s IH]; cbn; auto. destruct a; cbn; auto. Qed.
Lemma legal_skipn dim : forall s, vol s <> 0 -> legal s -> legal (skipn dim s).
Proof.
  induction dim; intros s Hv Hl; [auto|]. destruct s as [|a s]; [auto|]. cbn [skipn]. cbn in Hv. apply IHdim; [lia|].
  eapply legal_tail; [|eauto]. lia.
Qed.
Lemma legal_firstn dim s : legal s -> legal (firstn dim s).
Proof. intros Hl k Hk. rewrite firstn_length in Hk. specialize (Hl k ltac:(lia)). rewrite firstn_firstn. now rewrite Nat.min_l by lia. Qed.
Lemma elem_prefix s d dim c i : c <> [] -> length c = dim -> dim <= length s -> inb (firstn dim s) c -> i < vol (skipn dim s) -> length d = vol s ->
  match elem (VMat s d) (c ++ unravel (skipn dim s) i) with Some x => x | None => VInt 0 end
  = nth (ravel (firstn dim s) c * vol (skipn dim s) + i) d dflt.
Proof.
  intros Hc Lc Hd Hi Hv HL. unfold elem. cbn [shape_of data_of]. rewrite <-(firstn_skipn dim s) at 1.
  rewrite ravel_app by (rewrite firstn_length; lia). rewrite ravel_unravel by auto.
  destruct (nth_error d _) eqn:E; [now rewrite (nth_error_nth _ _ dflt E)|]. apply nth_error_None in E.
  apply ravel_lt in Hi. rewrite HL, <-(firstn_skipn dim s), vol_app in E. rewrite firstn_skipn in E. nia.
Qed.
Lemma each_matrix_ok s d dim : wf (VMat s d) -> 1 <= dim <= length s -> vol (skipn dim s) <> 0 ->
  each_matrix s d dim = Ok (map (fun i => part_at (VMat s d) (unravel (firstn dim s) i)) (seq 0 (vol (firstn dim s)))).
Proof.
  intros (Hs & HL & Hl) Hd Hv. unfold each_matrix.
  assert (Lf : length (firstn dim s) = dim) by (rewrite firstn_length; lia).
  assert (VV : vol s = vol (firstn dim s) * vol (skipn dim s)) by (rewrite <-vol_app, firstn_skipn; auto).
  assert (PA : forall i, i < vol (firstn dim s) -> let c := unravel (firstn dim s) i in
     part_at (VMat s d) c = match skipn dim s with
       | [] => nth i d dflt
       | [_] => VVec (map (fun j => nth (i * vol (skipn dim s) + j) d dflt) (seq 0 (vol (skipn dim s))))
       | _ => VMat (skipn dim s) (map (fun j => nth (i * vol (skipn dim s) + j) d dflt) (seq 0 (vol (skipn dim s)))) end).
  { intros i Hi c. assert (Lc : length c = dim) by (unfold c; rewrite unravel_len; auto).
    assert (Hc : c <> []) by (destruct c; cbn in *; [lia|easy]). unfold part_at. cbn [shape_of]. rewrite Lc.
    assert (E : map (fun i0 => match elem (VMat s d) (c ++ unravel (skipn dim s) i0) with Some x => x | None => VInt 0 end) (seq 0 (vol (skipn dim s)))
      = map (fun j => nth (i * vol (skipn dim s) + j) d dflt) (seq 0 (vol (skipn dim s)))).
    { apply map_ext_in. intros j Hj. apply in_seq in Hj. rewrite elem_prefix; auto; try lia; [|now apply unravel_inb].
      unfold c. rewrite ravel_unravel; auto. }
    rewrite E. destruct c; [easy|]. destruct (skipn dim s) as [|a [|b t]]; try reflexivity. cbn. now rewrite Nat.mul_1_r, Nat.add_0_r. }
  destruct (Nat.eqb_spec dim (length s)) as [E|E].
  - f_equal. rewrite E, firstn_all, <-HL. rewrite <-(map_nth_seq d dflt (length d)) at 1 by auto.
    apply map_ext_in. intros i Hi. apply in_seq in Hi. specialize (PA i). rewrite E, firstn_all, skipn_all in PA. rewrite PA by lia. reflexivity.
  - destruct (Nat.eq_dec (vol (firstn dim s)) 0) as [Z|Z].
    { rewrite Z in VV. cbn in VV. rewrite HL, VV, div_all_0, Z. reflexivity. }
    assert (SZ : div_all (length d) (firstn dim s) = vol (skipn dim s)) by (rewrite HL, VV; now apply div_all_vol).
    rewrite SZ. replace (length d / vol (skipn dim s)) with (vol (firstn dim s)) by (rewrite HL, VV, Nat.div_mul; auto).
    apply mapM_ok. intros i Hi. apply in_seq in Hi. cbn beta. rewrite (PA i) by lia.
    assert (SL : slice d (i * vol (skipn dim s)) (i * vol (skipn dim s) + vol (skipn dim s)) =
      map (fun j => nth (i * vol (skipn dim s) + j) d dflt) (seq 0 (vol (skipn dim s)))).
    { unfold slice. assert (i * vol (skipn dim s) + vol (skipn dim s) <= length d) by nia.
      apply (list_ext dflt); [rewrite firstn_length, skipn_length, map_length, seq_length; lia|].
      intros j Hj. rewrite firstn_length, skipn_length in Hj. rewrite nth_firstn_lt, nth_skipn' by lia.
      rewrite (nth_map_seq (fun j => nth (i * vol (skipn dim s) + j) d dflt)) by lia. reflexivity. }
    rewrite SL. assert (LS : length (skipn dim s) = length s - dim) by apply skipn_length.
    destruct (Nat.eqb_spec dim (length s - 1)) as [E1|E1].
    + destruct (skipn dim s) as [|a [|b t]]; cbn in LS; try lia. reflexivity.
    + destruct (skipn dim s) as [|a [|b t]] eqn:ES; cbn in LS; try lia. 
      destruct (new_matrix_ok (a :: b :: t) (map (fun j => nth (i * vol (a :: b :: t) + j) d dflt) (seq 0 (vol (a :: b :: t))))) as [[_ ->]|[N _]]; auto; [easy|now rewrite map_length, seq_length|].
      exfalso. apply N. rewrite <-ES. apply legal_skipn; auto. rewrite VV. nia.
Qed.
Lemma part_at_vec l i : i < length l -> part_at (VVec l) [i] = nth i l dflt.
Proof.
  intros H. unfold part_at. cbn [length shape_of skipn unravel vol seq map app]. unfold elem. cbn.
  rewrite Nat.mul_1_r, Nat.add_0_r, (nth_error_nth' l dflt) by auto. reflexivity.
Qed.
Lemma each_value_ok v dim : wf v -> rank_of v <> 0 -> 1 <= dim <= rank_of v -> vol (skipn dim (shape_of v)) <> 0 ->
  each_value v dim = Ok (map (fun i => part_at v (unravel (firstn dim (shape_of v)) i)) (seq 0 (vol (firstn dim (shape_of v))))).
Proof.
  intros W R Hd Hv. unfold each_value. destruct (Nat.eqb_spec dim 0); [lia|]. unfold rank_of in *.
  destruct v as [| | | | |l|s d]; cbn [shape_of length] in *; try lia.
  - assert (dim = 1) as -> by lia. cbn [Nat.eqb negb firstn]. f_equal. rewrite <-(map_nth_seq l dflt (length l)) at 1 by auto.
    cbn [vol]. rewrite Nat.mul_1_r. apply map_ext_in. intros i Hi. apply in_seq in Hi. cbn [unravel vol]. rewrite Nat.div_1_r.
    symmetry. apply part_at_vec. lia.
  - destruct (Nat.ltb_spec (length s) dim); [lia|]. apply each_matrix_ok; auto.
Qed.
Lemma to_mat_shape v : rank_of v <> 0 -> fst (to_mat v) = shape_of v.
Proof. destruct v; cbn; try lia; auto. Qed.
Lemma firstn_nonnil {A} n (l : list A) : n <> 0 -> l <> [] -> firstn n l <> [].
Proof. destruct n, l; easy. Qed.
Lemma each_ok ev1 n v d : wf v -> rank_of v <> 0 -> n <> 0 -> d = Nat.min n (rank_of v) -> vol (skipn d (shape_of v)) <> 0 ->
  computes (each ev1 n v) (firstn d (shape_of v)) (fun c => ev1 (n - d) (part_at v c)).
Proof.
  intros W R Hn Hd Hv. unfold each. rewrite (to_mat_shape v R). fold (rank_of v). rewrite <-Hd.
  assert (Hne : shape_of v <> []) by (unfold rank_of in R; now destruct (shape_of v)).
  destruct (Nat.eqb_spec d 0); [lia|]. rewrite (each_value_ok v d) by (auto; lia). cbn [bind]. rewrite mapM_map.
  assert (Lg : legal (firstn d (shape_of v))).
  { apply legal_firstn. destruct (to_mat_arr v W R) as (_ & _ & H). exact H. }
  assert (C : computes (let! r := build (vol (firstn d (shape_of v))) (fun i => ev1 (n - d) (part_at v (unravel (firstn d (shape_of v)) i))) in
             vec_or_mat (firstn d (shape_of v)) r) (firstn d (shape_of v)) (fun c => ev1 (n - d) (part_at v c))).
  { apply computes_vom; auto; [now apply firstn_nonnil|]. intros c Hc. now rewrite unravel_ravel. }
  unfold build in C. destruct (mapM _ _); try exact C. cbn [bind] in *.
  assert (Lf : length (firstn d (shape_of v)) = d) by (rewrite firstn_length; unfold rank_of in *; lia).
  destruct (Nat.eqb_spec d 1) as [E|E].
  - destruct (firstn d (shape_of v)) as [|x [|y t]]; cbn in Lf; try lia. exact C.
  - destruct (firstn d (shape_of v)) as [|x [|y t]]; cbn in Lf; try lia. exact C.
Qed.

(* binary each *)
Lemma mapM_pairs {B} (G : nat -> nat -> res B) n : forall m k,
  (let! r := mapM (fun i => mapM (fun j => G i j) (seq 0 n)) (seq k m) in Ok (concat r)) = mapM (fun x => G (x / n) (x mod n)) (seq (k * n) (m * n)).
Proof.
  induction m as [|m IH]; intros k; [reflexivity|]. cbn [seq mapM]. replace (S m * n) with (n + m * n) by lia. rewrite seq_app, mapM_app.
  replace (k * n + n) with (S k * n) by lia. rewrite <-IH.
  assert (E : mapM (fun j => G k j) (seq 0 n) = mapM (fun x => G (x / n) (x mod n)) (seq (k * n) n)).
  { replace (seq (k * n) n) with (map (fun j => k * n + j) (seq 0 n)).
    - rewrite mapM_map. apply mapM_ext. intros j Hj. apply in_seq in Hj. rewrite dm_div, dm_mod by lia. reflexivity.
    - clear. generalize (k * n). intros a. induction n as [|n IHn]; [reflexivity|]. rewrite !seq_S, map_app, IHn. reflexivity. }
  rewrite <-E. destruct (mapM (fun j => G k j) (seq 0 n)); auto. cbn [bind].
  destruct (mapM _ (seq (S k) m)); auto.
Qed.
Lemma each_value_any v n d : wf v -> (n <> 0 -> rank_of v <> 0) -> d = Nat.min n (rank_of v) -> vol (skipn d (shape_of v)) <> 0 ->
  each_value v d = Ok (map (fun i => part_at v (unravel (firstn d (shape_of v)) i)) (seq 0 (vol (firstn d (shape_of v))))) /\
  firstn d (fst (to_mat v)) = firstn d (shape_of v) /\ Nat.min n (length (fst (to_mat v))) = d /\ (d =? 0) && (0 <? n) = false.
Proof.
  intros W R Hd Hv. destruct (Nat.eq_dec n 0) as [Z|Z].
  - subst n. rewrite Nat.min_0_l in Hd |- *. subst d. repeat split.
  - specialize (R Z). rewrite (to_mat_shape v R). fold (rank_of v). split; [apply each_value_ok; auto; lia|].
    split; [reflexivity|]. split; [congruence|]. destruct (Nat.eqb_spec d 0); [lia|reflexivity].
Qed.
Lemma binary_each_ok ev nl nr u v ld rd : wf u -> wf v -> (nl <> 0 -> rank_of u <> 0) -> (nr <> 0 -> rank_of v <> 0) -> nl + nr <> 0 ->
  ld = Nat.min nl (rank_of u) -> rd = Nat.min nr (rank_of v) -> vol (skipn ld (shape_of u)) <> 0 -> vol (skipn rd (shape_of v)) <> 0 ->
  computes_if_legal (binary_each ev nl nr u v) (firstn ld (shape_of u) ++ firstn rd (shape_of v))
    (fun c => ev (nl - ld) (nr - rd) (part_at u (firstn ld c)) (part_at v (skipn ld c))).
Proof.
  intros Wu Wv Ru Rv N Hl Hr Vu Vv. unfold binary_each.
  destruct (each_value_any u nl ld Wu Ru Hl Vu) as (EU & FU & MU & TU).
  destruct (each_value_any v nr rd Wv Rv Hr Vv) as (EV & FV & MV & TV).
  cbv zeta. rewrite MU, MV, TU, TV, EU, EV, FU, FV. cbn [bind].
  assert (LU : length (firstn ld (shape_of u)) = ld) by (rewrite firstn_length; unfold rank_of in *; lia).
  assert (LV : length (firstn rd (shape_of v)) = rd) by (rewrite firstn_length; unfold rank_of in *; lia).
  assert (NZ : ld + rd <> 0) by lia.
  set (S1 := firstn ld (shape_of u)) in *. set (S2 := firstn rd (shape_of v)) in *.
  pose (G := fun i j => ev (nl - ld) (nr - rd) (part_at u (unravel S1 i)) (part_at v (unravel S2 j))).
  assert (C : computes_if_legal (let! r := build (vol S1 * vol S2) (fun x => G (x / vol S2) (x mod vol S2)) in vec_or_mat (S1 ++ S2) r) (S1 ++ S2)
    (fun c => ev (nl - ld) (nr - rd) (part_at u (firstn ld c)) (part_at v (skipn ld c)))).
  { apply computes_vom.
    - intros E. apply app_eq_nil in E. destruct E as [E1 E2]. rewrite E1 in LU. rewrite E2 in LV. cbn in *. lia.
    - now rewrite vol_app.
    - intros c Hc. pose proof (inb_len _ _ Hc) as Lc. rewrite app_length, LU, LV in Lc.
      rewrite <-(firstn_skipn ld c) in Hc |- * at 1 2. rewrite inb_app in Hc by (rewrite firstn_length; lia).
      destruct Hc as [H1 H2]. rewrite ravel_app by (rewrite firstn_length; lia). rewrite dm_div, dm_mod by now apply ravel_lt.
      unfold G. rewrite !unravel_ravel by assumption. reflexivity. }
  unfold build in C. pose proof (mapM_pairs G (vol S2) (vol S1) 0) as MP. cbn [Nat.mul] in MP. rewrite <-MP in C. clear MP. rewrite mapM_map.
  rewrite (mapM_ext _ (fun i => mapM (fun j => G i j) (seq 0 (vol S2)))) by (intros; now rewrite mapM_map).
  destruct (mapM _ (seq 0 (vol S1))) as [r| | |]; try exact C. cbn [bind] in *.
  assert (LS : length (S1 ++ S2) = ld + rd) by (rewrite app_length; lia).
  destruct (Nat.eqb_spec (ld + rd) 1) as [E|E]; destruct (S1 ++ S2) as [|x [|y t]]; cbn in LS; try lia; exact C.
Qed.

(* The loop bodies of ParModel.v: independent, and what they leave in the cells. *)
From Verif Require Import Value NumModel ArrBase ArrRot ArrTransp EvalModel EvalSpec EvalProofs EvalReduce ParModel ParSpec ParProofs.
Open Scope nat_scope.

Definition agrees {A} (P : A -> mem -> Prop) (r : res A) (s : res mem) : Prop :=
  match r, s with
  | Ok a, Ok m => P a m
  | Err, Err | Crash, Crash | Unmod, Unmod => True
  | _, _ => False
  end.
Lemma agrees_failure {A} P (r : res A) s : agrees P r s -> is_failure s -> same_failure s r.
Proof. destruct r, s; easy. Qed.

(* m' is m with l written from cell b on. *)
Definition wrote (m : mem) (b : nat) (l : list value) (m' : mem) : Prop :=
  forall x, m' x = if (b <=? x) && (x <? b + length l) then nth_error l (x - b) else m x.
Lemma wrote_nil m b : wrote m b [] m.
Proof. intros x. cbn [length]. destruct (Nat.leb_spec b x), (Nat.ltb_spec x (b + 0)); cbn [andb]; auto; lia. Qed.
Lemma wrote_cons m b v l m' : wrote (mset m b v) (S b) l m' -> wrote m b (v :: l) m'.
Proof.
  intros H x. rewrite H. unfold mset. cbn [length].
  destruct (Nat.eqb_spec x b) as [->|Hn].
  - rewrite Nat.sub_diag. destruct (Nat.leb_spec (S b) b), (Nat.leb_spec b b), (Nat.ltb_spec b (b + S (length l))); cbn [andb]; auto; lia.
  - destruct (Nat.leb_spec (S b) x), (Nat.leb_spec b x), (Nat.ltb_spec x (S b + length l)), (Nat.ltb_spec x (b + S (length l))); cbn [andb]; auto; try lia.
    replace (x - b) with (S (x - S b)) by lia. reflexivity.
Qed.
Lemma wrote_app m b l m1 l' m' : wrote m b l m1 -> wrote m1 (b + length l) l' m' -> wrote m b (l ++ l') m'.
Proof.
  intros H H' x. rewrite H', H, app_length.
  destruct (Nat.leb_spec b x), (Nat.ltb_spec x (b + length l)), (Nat.leb_spec (b + length l) x), (Nat.ltb_spec x (b + length l + length l')),
    (Nat.ltb_spec x (b + (length l + length l'))); cbn [andb]; auto; try lia.
  - now rewrite nth_error_app1 by lia.
  - rewrite nth_error_app2 by lia. f_equal. lia.
Qed.
Lemma wrote_holds l m : wrote nothing 0 l m -> holds l m.
Proof.
  intros H x. rewrite H. cbn [Nat.leb andb plus]. rewrite Nat.sub_0_r. destruct (Nat.ltb_spec x (length l)); [reflexivity|].
  symmetry. now apply nth_error_None.
Qed.

(* Rows of stride cells, written by a body that agrees with a computation of the row. *)
Section Rows.
Variables (stride : nat) (body : nat -> list action) (row : nat -> res (list value)).
Hypothesis Row : forall i m, agrees (fun l m' => length l = stride /\ wrote m (i * stride) l m') (row i) (in_order (body i) m).
Lemma rows_in_order n : 
  agrees (fun rows m => length (concat rows) = n * stride /\ wrote nothing 0 (concat rows) m) (mapM row (seq 0 n)) (in_order (flat_map body (seq 0 n)) nothing).
Proof.
  induction n as [|n IH]; [cbn; split; [easy|apply wrote_nil]|].
  rewrite seq_S, flat_map_app, in_order_app, mapM_app. cbn [plus flat_map]. rewrite app_nil_r.
  destruct (mapM row (seq 0 n)) as [rows| | |], (in_order (flat_map body (seq 0 n)) nothing) as [m| | |]; cbn [agrees] in IH; try easy.
  cbn [bind mapM]. pose proof (Row n m) as R. destruct IH as [L W].
  destruct (row n) as [l| | |], (in_order (body n) m) as [m'| | |]; cbn [agrees] in R; try easy. destruct R as [L' W'].
  cbn [bind agrees]. rewrite concat_app. cbn [concat]. rewrite app_nil_r, app_length. split; [lia|].
  eapply wrote_app; eauto. rewrite L. exact W'.
Qed.
Lemma rows_gives n r : as_if_sequential n body nothing r ->
  gives n row (let! rows := mapM row (seq 0 n) in Ok (concat rows)) r.
Proof.
  intros H. apply (gives_map n (fun k => in_order (body k) nothing)).
  - intros k _ Hf. eapply agrees_failure; [apply Row|exact Hf].
  - apply (seq_gives n body); auto. pose proof (rows_in_order n) as P.
    destruct (mapM row (seq 0 n)), (in_order (flat_map body (seq 0 n)) nothing); cbn [agrees bind] in *; try easy.
    now apply wrote_holds.
Qed.
End Rows.

Lemma row_owner stride i k : k < stride -> (i * stride + k) / stride = i.
Proof. intros H. rewrite Nat.div_add_l by lia. rewrite Nat.div_small by lia. lia. Qed.

(* ---- set_row ---- *)
Lemma set_row_independent n N f : independent (fun x => x / n) N (set_row n f).
Proof.
  intros i a Hi Ha. unfold set_row in Ha. apply in_map_iff in Ha as (k & <- & Hk). apply in_seq in Hk.
  split; [reflexivity|]. intros m x v H. destruct (f i k); cbn in H; try discriminate. injection H as <- _. apply row_owner. lia.
Qed.
Lemma set_row_ok n f i m :
  agrees (fun l m' => length l = n /\ wrote m (i * n) l m') (build n (f i)) (in_order (set_row n f i) m).
Proof.
  unfold set_row, build.
  assert (G : forall c j m, agrees (fun l m' => length l = c /\ wrote m (i * n + j) l m') (mapM (f i) (seq j c))
            (in_order (map (fun k (_ : mem) => let! x := f i k in Ok (i * n + k, x)) (seq j c)) m)).
  { clear m. induction c as [|c IH]; intros j m; [cbn; split; [easy|apply wrote_nil]|].
    cbn [seq mapM map in_order]. destruct (f i j) as [v| | |]; cbn [bind]; try easy.
    specialize (IH (S j) (mset m (i * n + j) v)).
    destruct (mapM (f i) (seq (S j) c)), (in_order (map (fun k (_ : mem) => let! x := f i k in Ok (i * n + k, x)) (seq (S j) c)) (mset m (i * n + j) v));
      cbn [agrees bind] in *; try easy. destruct IH as [L W]. split; [cbn; lia|]. apply wrote_cons. now replace (S (i * n + j)) with (i * n + S j) by lia. }
  specialize (G n 0 m). now rewrite Nat.add_0_r in G.
Qed.

(* ---- scan ---- *)
Lemma scan_independent ev assoc d stride N : stride <> 0 -> independent (fun x => x / stride) N (scan_body ev assoc d stride).
Proof.
  intros Hs i a Hi [<-|Ha].
  - split; [reflexivity|]. intros m x v H. destruct (at_ d (i * stride)); cbn in H; try discriminate. injection H as <- _.
    now apply Nat.div_mul.
  - apply in_map_iff in Ha as (k & <- & Hk). apply in_seq in Hk. destruct assoc.
    + split.
      * intros m m' E. rewrite (E (i * stride + k - 1)); [reflexivity|]. replace (i * stride + k - 1) with (i * stride + (k - 1)) by lia. apply row_owner. lia.
      * intros m x v H. destruct (m (i * stride + k - 1)); [|discriminate]. destruct (at_ d (i * stride + k)); cbn in H; try discriminate.
        destruct (ev v0 a); cbn in H; try discriminate. injection H as <- _. apply row_owner. lia.
    + split; [reflexivity|]. intros m x v H. destruct (vec_reduce _ _); cbn in H; try discriminate. injection H as <- _. apply row_owner. lia.
Qed.
Lemma scan_left_ok ev d index : forall n j m a, 1 <= j -> m (index + j - 1) = Some a ->
  agrees (fun l m' => length l = n /\ wrote m (index + j) l m') (scan_left ev d (index + j) n a)
    (in_order (map (fun j m => match m (index + j - 1) with
           | Some a => let! x := at_ d (index + j) in let! r := ev a x in Ok (index + j, r)
           | None => Crash end) (seq j n)) m).
Proof.
  induction n as [|n IH]; intros j m a Hj Ha; [cbn; split; [easy|apply wrote_nil]|].
  cbn [seq map in_order scan_left]. rewrite Ha. destruct (at_ d (index + j)) as [x| | |]; cbn [bind]; try easy.
  destruct (ev a x) as [r| | |]; cbn [bind]; try easy.
  specialize (IH (S j) (mset m (index + j) r) r ltac:(lia)).
  replace (index + S j - 1) with (index + j) in IH by lia. unfold mset at 1 in IH. rewrite Nat.eqb_refl in IH. specialize (IH eq_refl).
  replace (S (index + j)) with (index + S j) by lia. set (F := map _ _) in *.
  destruct (scan_left ev d (index + S j) n r), (in_order F (mset m (index + j) r)); cbn [agrees bind] in *; try easy.
  destruct IH as [L W]. split; [cbn; lia|]. apply wrote_cons. now replace (S (index + j)) with (index + S j) by lia.
Qed.
Lemma scan_gen_ok ev d index : forall n j m,
  agrees (fun l m' => length l = n /\ wrote m (index + j) l m') (mapM (fun j => vec_reduce ev (slice d index (index + j + 1))) (seq j n))
    (in_order (map (fun j (_ : mem) => let! r := vec_reduce ev (slice d index (index + j + 1)) in Ok (index + j, r)) (seq j n)) m).
Proof.
  induction n as [|n IH]; intros j m; [cbn; split; [easy|apply wrote_nil]|].
  cbn [seq map in_order mapM]. destruct (vec_reduce ev (slice d index (index + j + 1))) as [v| | |]; cbn [bind]; try easy.
  specialize (IH (S j) (mset m (index + j) v)). set (F := map _ _) in *.
  destruct (mapM _ (seq (S j) n)), (in_order F (mset m (index + j) v)); cbn [agrees bind] in *; try easy.
  destruct IH as [L W]. split; [cbn; lia|]. apply wrote_cons. now replace (S (index + j)) with (index + S j) by lia.
Qed.
Lemma scan_body_ok ev assoc d stride i m : stride <> 0 ->
  agrees (fun l m' => length l = stride /\ wrote m (i * stride) l m') (scan_row ev assoc d (i * stride) stride)
    (in_order (scan_body ev assoc d stride i) m).
Proof.
  intros Hs. unfold scan_row, scan_body. cbv zeta. cbn [in_order].
  destruct (at_ d (i * stride)) as [x| | |]; cbn [bind]; try easy. set (index := i * stride).
  assert (G : agrees (fun l m' => length l = stride - 1 /\ wrote (mset m index x) (index + 1) l m')
     (if assoc then scan_left ev d (S index) (stride - 1) x
      else mapM (fun j => vec_reduce ev (slice d index (index + j + 1))) (seq 1 (stride - 1)))
     (in_order (map (fun j m => if assoc then match m (index + j - 1) with
           | Some a => let! x := at_ d (index + j) in let! r := ev a x in Ok (index + j, r)
           | None => Crash end
         else let! r := vec_reduce ev (slice d index (index + j + 1)) in Ok (index + j, r)) (seq 1 (stride - 1))) (mset m index x))).
  { destruct assoc; [|apply scan_gen_ok]. replace (S index) with (index + 1) by lia. apply scan_left_ok; [lia|].
    replace (index + 1 - 1) with index by lia. unfold mset. now rewrite Nat.eqb_refl. }
  set (F := map _ _) in *. set (G' := if assoc then _ else _) in *.
  destruct G' as [l| | |], (in_order F (mset m index x)) as [m'| | |]; cbn [agrees bind] in *; try easy.
  destruct G as [L W]. split; [cbn; lia|]. apply wrote_cons. now rewrite <-Nat.add_1_r.
Qed.

(* ---- transposition ---- *)
Definition transp_body (d : list value) (xdim ydim k : nat) : list action :=
  match nth_error d k with Some v => [fun _ => Ok (k mod ydim * xdim + k / ydim, v)] | None => [] end.
Lemma transp_steps_each xdim ydim d : ydim <> 0 -> forall n lo, lo + n <= length d ->
  transp_steps (firstn n (skipn lo d)) xdim ydim (lo / ydim) (lo mod ydim) = flat_map (transp_body d xdim ydim) (seq lo n).
Proof.
  intros Hy. induction n as [|n IH]; intros lo H; [reflexivity|].
  destruct (nth_error d lo) as [v|] eqn:Ev; [|apply nth_error_None in Ev; lia].
  assert (Es : skipn lo d = v :: skipn (S lo) d).
  { clear -Ev. revert lo Ev. induction d as [|y d IH]; intros [|lo] Ev; try discriminate; cbn in *; [congruence|]. now apply IH. }
  rewrite Es. cbn [firstn seq flat_map]. unfold transp_body at 1. rewrite Ev. cbn [app transp_steps]. f_equal.
  rewrite <-IH by lia. pose proof (step_div lo ydim Hy) as SD. 
  destruct (ydim <=? S (lo mod ydim)); injection SD as <- <-; reflexivity.
Qed.
Lemma transp_range_each d xdim ydim lo hi : ydim <> 0 -> lo <= hi -> hi <= length d ->
  transp_range d xdim ydim (lo, hi) = each_k (transp_body d xdim ydim) (lo, hi).
Proof. intros Hy H1 H2. unfold transp_range, each_k, slice. cbn [fst snd]. apply transp_steps_each; lia. Qed.
Lemma transp_independent d xdim ydim : ydim <> 0 -> length d = xdim * ydim ->
  independent (fun q => if q <? xdim * ydim then psi xdim ydim q else xdim * ydim) (length d) (transp_body d xdim ydim).
Proof.
  intros Hy HL k a Hk Ha. unfold transp_body in Ha. destruct (nth_error d k) as [v|]; [|easy]. destruct Ha as [<-|[]].
  split; [reflexivity|]. intros m x w H. injection H as <- _.
  assert (k / ydim < xdim) by (apply div_lt_mul; lia). pose proof (Nat.mod_upper_bound k ydim Hy).
  rewrite (proj2 (Nat.ltb_lt _ _)) by onia. rewrite psi_phi by lia. reflexivity.
Qed.
Lemma transp_in_order d xdim ydim : ydim <> 0 -> length d = xdim * ydim -> forall n, n <= length d ->
  exists m, in_order (flat_map (transp_body d xdim ydim) (seq 0 n)) nothing = Ok m /\
  forall q, m q = if (q <? xdim * ydim) && (psi xdim ydim q <? n) then nth_error d (psi xdim ydim q) else None.
Proof.
  intros Hy HL. induction n as [|n IH]; intros Hn.
  - exists nothing. split; [reflexivity|]. intros q. destruct (_ && _) eqn:E; [|reflexivity].
    apply andb_true_iff in E as [_ E]. now apply Nat.ltb_lt in E.
  - destruct (IH ltac:(lia)) as (m & Hm & Nm). rewrite seq_S, flat_map_app, in_order_app, Hm. cbn [bind plus flat_map].
    rewrite app_nil_r. destruct (nth_error d n) as [v|] eqn:Ev; [|apply nth_error_None in Ev; lia].
    unfold transp_body. rewrite Ev. cbn [in_order]. eexists. split; [reflexivity|]. intros q.
    assert (Hd : n / ydim < xdim) by (apply div_lt_mul; lia). pose proof (Nat.mod_upper_bound n ydim Hy).
    assert (n mod ydim * xdim + n / ydim < xdim * ydim) by onia.
    pose proof (psi_phi xdim ydim n Hy ltac:(lia)) as PP.
    unfold mset. destruct (Nat.eqb_spec q (n mod ydim * xdim + n / ydim)) as [->|Hq].
    + rewrite PP. rewrite (proj2 (Nat.ltb_lt _ _)) by lia. rewrite (proj2 (Nat.ltb_lt n (S n))) by lia. cbn [andb]. now rewrite Ev.
    + rewrite Nm. destruct (Nat.ltb_spec q (xdim * ydim)) as [Hq'|]; cbn [andb]; [|reflexivity].
      assert (psi xdim ydim q <> n) by (intros X; apply Hq; apply (psi_inj xdim ydim); auto; congruence).
      destruct (Nat.ltb_spec (psi xdim ydim q) n), (Nat.ltb_spec (psi xdim ydim q) (S n)); auto; lia.
Qed.
Lemma transp_gives d xdim ydim r : ydim <> 0 -> length d = xdim * ydim ->
  as_if_sequential (length d) (transp_body d xdim ydim) nothing r ->
  exists l m, transp2_chunk d xdim ydim 0 (length d) (repeat vzero (length d)) = Ok l /\ r = Ok m /\ holds l m.
Proof.
  intros Hy HL H. unfold as_if_sequential in H.
  destruct (transp_in_order d xdim ydim Hy HL (length d) (Nat.le_refl _)) as (m & Em & Nm). rewrite Em in H. destruct H as (m' & -> & E).
  destruct (transp2_loop_ok xdim ydim Hy d 0 (repeat vzero (length d))) as (l & Hl & Ll & Nl).
  { now rewrite repeat_length. }
  { lia. }
  exists l, m'. split; [|split; [reflexivity|]].
  - unfold transp2_chunk. rewrite (proj2 (Nat.eqb_neq ydim 0) Hy). cbn [skipn]. rewrite Nat.sub_0_r, firstn_all. exact Hl.
  - intros q. rewrite E, Nm. destruct (Nat.ltb_spec q (xdim * ydim)) as [Hq|Hq]; cbn [andb].
    + rewrite Nl by auto. cbn [Nat.leb andb plus]. rewrite Nat.sub_0_r. pose proof (psi_lt xdim ydim q Hq).
      rewrite (proj2 (Nat.ltb_lt _ _)) by lia. reflexivity.
    + symmetry. apply nth_error_None. rewrite Ll, repeat_length. lia.
Qed.

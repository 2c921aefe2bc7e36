(* Transposition. *)
From Verif Require Import Value NumModel ArrModel ArrSpec ArrBase ArrRot ArrTake.
From Coq Require Import Arith ZifyBool ZifyNat.
Open Scope nat_scope.

Lemma new_dim_spec s : forall m i acc, length m = length s ->
  match new_dim s m i acc with
  | Some x => (acc = Some x \/ exists j, j < length m /\ nth j m 0 = i /\ nth j s 0 = x) /\
              (forall a, acc = Some a -> x <= a) /\ (forall j, j < length m -> nth j m 0 = i -> x <= nth j s 0)
  | None => acc = None /\ forall j, j < length m -> nth j m 0 <> i
  end.
Proof.
  induction s as [|d s IH]; intros [|k m] i acc L; simpl in L; try lia; cbn [new_dim].
  { destruct acc; [repeat split; auto; [intros a E; injection E; lia|simpl; lia]|split; auto; simpl; lia]. }
  set (acc' := if k =? i then match acc with None => Some d | Some a => Some (if d <? a then d else a) end else acc).
  specialize (IH m i acc' ltac:(lia)). destruct (new_dim s m i acc') as [x|].
  - destruct IH as (A & B & C). unfold acc' in *. destruct (Nat.eqb_spec k i) as [E|E].
    + destruct acc as [a|].
      * repeat split.
        -- destruct A as [A|(j & J1 & J2 & J3)].
           ++ injection A as A. destruct (Nat.ltb_spec d a); [right; exists 0; simpl; repeat split; lia|left; f_equal; lia].
           ++ right. exists (S j). simpl. repeat split; auto; lia.
        -- intros a' E'. injection E' as <-. specialize (B _ eq_refl). destruct (Nat.ltb_spec d a); lia.
        -- intros [|j] J1 J2; simpl in *; [|apply C; auto; lia]. specialize (B _ eq_refl). destruct (Nat.ltb_spec d a); lia.
      * repeat split; [|discriminate|].
        -- right. destruct A as [A|(j & J1 & J2 & J3)]; [injection A as <-; exists 0; simpl; repeat split; lia|].
           exists (S j). simpl. repeat split; auto; lia.
        -- intros [|j] J1 J2; simpl in *; [apply B; auto|apply C; auto; lia].
    + repeat split; auto.
      * destruct A as [A|(j & J1 & J2 & J3)]; [auto|]. right. exists (S j). simpl. repeat split; auto; lia.
      * intros [|j] J1 J2; simpl in *; [congruence|apply C; auto; lia].
  - destruct IH as [A B]. unfold acc' in A. destruct (Nat.eqb_spec k i) as [E|E]; [destruct acc; discriminate|].
    split; auto. intros [|j] J; simpl in *; auto. apply B. lia.
Qed.
Lemma all_some_spec l : match all_some l with
  | Some r => length r = length l /\ forall i, i < length l -> nth i l None = Some (nth i r 0)
  | None => In None l end.
Proof.
  induction l as [|[x|] l IH]; simpl; auto; [split; auto; lia|].
  destruct (all_some l) as [r|]; [|auto]. destruct IH as [A B]. simpl. split; [lia|].
  intros [|i] H; auto. apply B. lia.
Qed.
Lemma fold_max_ge l x : In x l -> x <= fold_right Nat.max 0 l.
Proof. induction l; simpl; [tauto|]. intros [->|H]; [lia|]. specialize (IHl H). lia. Qed.
Lemma fold_max_le l b : (forall x, In x l -> x <= b) -> fold_right Nat.max 0 l <= b.
Proof. induction l; simpl; intros H; [lia|]. apply Nat.max_lub; auto. Qed.
Lemma axis_rank s m t : axes_to s m t -> fold_right Nat.max 0 (map S m) = length t.
Proof.
  intros [A B]. apply Nat.le_antisymm.
  - apply fold_max_le. intros x Hx. apply in_map_iff in Hx. destruct Hx as (k & <- & Hk).
    destruct (In_nth _ _ 0 Hk) as (j & J & <-). apply A; auto.
  - destruct (Nat.eq_dec (length t) 0) as [E|E]; [lia|]. destruct (B (length t - 1) ltac:(lia)) as (j & J & K & _).
    enough (S (length t - 1) <= fold_right Nat.max 0 (map S m)) by lia.
    apply fold_max_ge. rewrite <-K. apply in_map. apply nth_In. auto.
Qed.
Definition bt_shape (s m : list nat) : option (list nat) :=
  all_some (map (fun i => new_dim s m i None) (seq 0 (fold_right Nat.max 0 (map S m)))).
Lemma bt_shape_spec s m t : length m = length s -> axes_to s m t -> bt_shape s m = Some t.
Proof.
  intros L AT. pose proof (axis_rank s m t AT) as R. destruct AT as [A B]. unfold bt_shape. rewrite R.
  pose proof (all_some_spec (map (fun i => new_dim s m i None) (seq 0 (length t)))) as S.
  destruct (all_some (map (fun i => new_dim s m i None) (seq 0 (length t)))) as [r|].
  - rewrite map_length, seq_length in S. destruct S as [S1 S2]. f_equal. apply nth_ext with (d := 0) (d' := 0); auto.
    intros i Hi. rewrite S1 in Hi. specialize (S2 i Hi). rewrite (nth_map_seq (fun i => new_dim s m i None)) in S2 by auto.
    pose proof (new_dim_spec s m i None L) as N. rewrite S2 in N. destruct N as ([N|(j & J1 & J2 & J3)] & _ & N2); [discriminate|].
    destruct (B i Hi) as (j' & K1 & K2 & K3). specialize (N2 j' K1 K2). destruct (A j J1) as [_ A2]. rewrite J2 in A2. lia.
  - exfalso. apply in_map_iff in S. destruct S as (i & E & I). apply in_seq in I.
    pose proof (new_dim_spec s m i None L) as N. rewrite E in N. destruct N as [_ N].
    destruct (B i ltac:(lia)) as (j & J1 & J2 & _). apply (N j J1 J2).
Qed.
Lemma bt_shape_inv s m t : length m = length s -> bt_shape s m = Some t -> axes_to s m t.
Proof.
  intros L. unfold bt_shape. set (R := fold_right Nat.max 0 (map S m)).
  pose proof (all_some_spec (map (fun i => new_dim s m i None) (seq 0 R))) as S.
  destruct (all_some (map (fun i => new_dim s m i None) (seq 0 R))) as [r|]; [|discriminate]. intros E. injection E as <-.
  rewrite map_length, seq_length in S. destruct S as [S1 S2]. 
  assert (forall i, i < R -> new_dim s m i None = Some (nth i r 0)) as ND.
  { intros i Hi. rewrite <-S2 by auto. symmetry. apply (nth_map_seq (fun i => new_dim s m i None)); auto. }
  split.
  - intros j J. assert (nth j m 0 < R) as HR.
    { unfold R. apply (fold_max_ge (map S m) (S (nth j m 0))). apply in_map, nth_In; auto. }
    split; [lia|]. pose proof (new_dim_spec s m (nth j m 0) None L) as N. rewrite ND in N by auto. apply N; auto.
  - intros i Hi. pose proof (new_dim_spec s m i None L) as N. rewrite ND in N by lia.
    destruct N as ([N|(j & J)] & _); [discriminate|eauto].
Qed.
Lemma old_index_spec s : forall m c acc, length m = length s -> old_index s m c acc = acc * vol s + ravel s (axes_from m c).
Proof.
  induction s as [|d s IH]; intros [|k m] c acc L; simpl in L; try lia; cbn [old_index axes_from map ravel vol]; [simpl; lia|].
  rewrite IH by lia. unfold axes_from. lia.
Qed.
Lemma axes_from_inb s m t c : length m = length s -> axes_to s m t -> inb t c -> inb s (axes_from m c).
Proof.
  intros L [A _] I. assert (forall i, i < length t -> nth i c 0 < nth i t 0) as P.
  { clear -I. induction I; intros [|i] Hi; simpl in *; try lia; auto. apply IHI. lia. }
  assert (forall j, j < length m -> nth (nth j m 0) c 0 < nth j s 0) as Q.
  { intros j J. destruct (A j J) as [A1 A2]. specialize (P _ A1). lia. }
  clear A P I t. revert s L Q. induction m as [|k m IH]; intros [|d s] L Q; simpl in L; try lia; [constructor|].
  cbn [axes_from map]. apply inb_cons. split; [apply (Q 0); simpl; lia|]. apply IH; [lia|].
  intros j J. apply (Q (S j)). simpl; lia.
Qed.

Definition with_origin (c : conf) (m : list nat) : list Z := map (fun j => (Z.of_nat j + origin c)%Z) m.
Lemma axis_map_ok c rank m : Forall (fun j => j < rank) m -> axis_map c rank (map VInt (with_origin c m)) = Ok m.
Proof.
  induction 1 as [|j m J F IH]; simpl; auto. fold (with_origin c m).
  destruct (Z.ltb_spec (Z.of_nat j + origin c) (origin c)); [lia|]. cbn [orb].
  destruct (Z.leb_spec (origin c + Z.of_nat rank) (Z.of_nat j + origin c)); [lia|].
  rewrite IH. cbn [bind]. f_equal. f_equal. lia.
Qed.
Lemma axis_map_bad c rank zs : (exists z, In z zs /\ ~ (origin c <= z < origin c + Z.of_nat rank)%Z) -> axis_map c rank (map VInt zs) = Err.
Proof.
  induction zs as [|z zs IH]; intros (x & I & X); [destruct I|]. cbn [map axis_map as_int bind].
  destruct ((z <? origin c)%Z || (origin c + Z.of_nat rank <=? z)%Z) eqn:E; auto.
  destruct I as [->|I]; [lia|]. rewrite IH by eauto. reflexivity.
Qed.
Lemma bt_len m : length (with_origin (mkConf 0 0) m) = length m.
Proof. apply map_length. Qed.
Lemma binary_transpose_ok c s d m t : length m = length s -> Forall (fun j => j < length s) m -> axes_to s m t -> t <> [] ->
  length d = vol s ->
  gives_array (binary_transpose c s d (map VInt (with_origin c m))) t (fun k => nth_error d (ravel s (axes_from m k))).
Proof.
  intros L F AT TN LD. unfold binary_transpose. unfold with_origin at 1. rewrite !map_length, L, Nat.eqb_refl. cbn [negb].
  rewrite axis_map_ok by auto. cbn [bind]. fold (bt_shape s m). rewrite (bt_shape_spec s m t L AT).
  unfold bt_chunk. rewrite Nat.sub_0_r. change (size t) with (vol t).
  assert (odo_run (vol t) t (fst (odo_start t 0)) = map (unravel t) (seq 0 (vol t))) as ->.
  { destruct (Nat.eq_dec (vol t) 0) as [E|E]; [rewrite E; reflexivity|]. rewrite odo_start_lt by lia. apply odo_run_unravel. lia. }
  rewrite mapM_map.
  rewrite mapM_ok with (g := fun p => nth (ravel s (axes_from m (unravel t p))) d dflt).
  2: { intros p P. apply in_seq in P. rewrite old_index_spec by auto. cbn [mult plus]. apply at_nth.
       rewrite LD. apply ravel_lt. eapply axes_from_inb; eauto. apply unravel_inb. lia. }
  cbn [bind]. apply new_matrix_build; auto. intros k I. rewrite unravel_ravel by auto.
  apply nth_error_nth'. rewrite LD. apply ravel_lt. eapply axes_from_inb; eauto.
Qed.
Lemma op_transp_ok c u v m t : int_vector u (with_origin c m) -> wf v -> rank_of v <> 0 -> length m = rank_of v ->
  Forall (fun j => j < rank_of v) m -> axes_to (shape_of v) m t ->
  gives_array (op_transp c u v) t (fun k => elem v (axes_from m k)).
Proof.
  intros Hu W R L F AT. destruct (to_mat_arr v W R) as (TM & LD & LG).
  assert (t <> []) as TN.
  { destruct AT as [A _]. destruct (A 0 ltac:(lia)) as [A1 _]. destruct t; [simpl in A1; lia|discriminate]. }
  unfold op_transp. rewrite (int_vector_vec _ _ Hu), TM. cbn [bind fst snd].
  destruct (binary_transpose_ok c (shape_of v) (data_of v) m t L F AT TN LD) as [[LT G]|[LT ->]]; [|right; auto].
  left. split; auto. destruct G as (r & -> & WR & SR & ER). cbn [bind].
  destruct r; cbn [shape_of] in SR; subst; try congruence; [exists (VVec l); auto|].
  destruct (Nat.leb_spec (length t) 1) as [H1|H1].
  - destruct t as [|n [|? ?]]; simpl in *; [congruence| |lia]. exists (VVec data). destruct WR as (_ & LD' & _).
    split; auto. split; [exact I|]. simpl in LD'. simpl. split; [f_equal; lia|]. intros k I. destruct (ER k I) as [E1 E2].
    unfold elem in *. simpl in *. destruct k; auto.
  - exists (VMat t data). auto.
Qed.
Lemma op_transp_missing c u v m : int_vector u (with_origin c m) -> wf v -> rank_of v <> 0 -> length m = rank_of v ->
  Forall (fun j => j < rank_of v) m -> (forall t, ~ axes_to (shape_of v) m t) -> op_transp c u v = Err.
Proof.
  intros Hu W R L F AT. destruct (to_mat_arr v W R) as (TM & LD & LG).
  unfold op_transp. rewrite (int_vector_vec _ _ Hu), TM. cbn [bind fst snd].
  unfold binary_transpose. unfold with_origin at 1. unfold rank_of in *. rewrite !map_length, L, Nat.eqb_refl. cbn [negb].
  rewrite axis_map_ok by auto. cbn [bind]. fold (bt_shape (shape_of v) m).
  destruct (bt_shape (shape_of v) m) as [t|] eqn:E; auto. exfalso. apply (AT t). apply bt_shape_inv; auto.
Qed.
Lemma op_transp_bad_axis c u v zs : int_vector u zs -> wf v -> rank_of v <> 0 ->
  length zs <> rank_of v \/ (exists z, In z zs /\ ~ (origin c <= z < origin c + Z.of_nat (rank_of v))%Z) -> op_transp c u v = Err.
Proof.
  intros Hu W R H. destruct (to_mat_arr v W R) as (TM & LD & LG).
  unfold op_transp. rewrite (int_vector_vec _ _ Hu), TM. cbn [bind fst snd]. unfold binary_transpose.
  rewrite map_length. unfold rank_of in *. destruct (Nat.eqb_spec (length zs) (length (shape_of v))) as [E|E]; auto.
  cbn [negb]. destruct H as [H|H]; [congruence|]. rewrite axis_map_bad by auto. reflexivity.
Qed.

(* ---- unary ---- *)
Definition psi (x y q : nat) : nat := q mod x * y + q / x.
Lemma div_lt_mul q x y : q < x * y -> q / x < y.
Proof. intros H. apply Nat.div_lt_upper_bound; [destruct x; simpl in *; lia|auto]. Qed.
Lemma psi_phi x y p : y <> 0 -> p < x * y -> psi x y (p mod y * x + p / y) = p.
Proof.
  intros Hy Hp. unfold psi. assert (p / y < x) by (apply div_lt_mul; lia).
  rewrite dm_div, dm_mod by auto. pose proof (Nat.div_mod p y Hy). olia.
Qed.
Lemma psi_lt x y q : q < x * y -> psi x y q < x * y.
Proof.
  intros H. unfold psi. assert (x <> 0) as Hx by (destruct x; simpl in *; lia).
  pose proof (Nat.mod_upper_bound q x Hx). pose proof (div_lt_mul q x y H). onia.
Qed.
Lemma psi_inj x y q r : q < x * y -> r < x * y -> psi x y q = psi x y r -> q = r.
Proof.
  unfold psi. intros Hq Hr E. assert (x <> 0) as Hx by (destruct x; simpl in *; lia).
  pose proof (div_lt_mul q x y Hq). pose proof (div_lt_mul r x y Hr).
  assert (q mod x = r mod x) as E1 by (rewrite <-(dm_div (q mod x) y (q / x)), E, dm_div by auto; auto).
  assert (q / x = r / x) as E2 by (rewrite <-(dm_mod (q mod x) y (q / x)), E, dm_mod by auto; auto).
  rewrite (Nat.div_mod q x Hx), (Nat.div_mod r x Hx), E1, E2. reflexivity.
Qed.
Lemma step_div p y : y <> 0 -> (if y <=? S (p mod y) then (S (p / y), 0) else (p / y, S (p mod y))) = (S p / y, S p mod y).
Proof.
  intros H. pose proof (Nat.div_mod p y H) as D. pose proof (Nat.mod_upper_bound p y H) as B.
  set (q := p / y) in *. set (r := p mod y) in *. clearbody q r. subst p. destruct (Nat.leb_spec y (S r)) as [A|A].
  - assert (S (y * q + r) = S q * y + 0) as -> by nia. rewrite dm_div, dm_mod by lia. reflexivity.
  - assert (S (y * q + r) = q * y + S r) as -> by nia. rewrite dm_div, dm_mod by lia. reflexivity.
Qed.
Lemma transp2_loop_ok xdim ydim : ydim <> 0 -> forall xs lo out, length out = xdim * ydim -> lo + length xs <= xdim * ydim ->
  exists r, transp2_loop xs xdim ydim (lo / ydim) (lo mod ydim) out = Ok r /\ length r = length out /\
  forall q, q < xdim * ydim -> nth_error r q =
    if (lo <=? psi xdim ydim q) && (psi xdim ydim q <? lo + length xs) then nth_error xs (psi xdim ydim q - lo) else nth_error out q.
Proof.
  intros Hy. induction xs as [|v xs IH]; intros lo out Lo Lx; cbn [transp2_loop].
  { exists out. repeat split; auto. intros q Hq. simpl length. destruct (Nat.leb_spec lo (psi xdim ydim q)); cbn [andb]; auto.
    destruct (Nat.ltb_spec (psi xdim ydim q) (lo + 0)); auto. lia. }
  simpl length in Lx. assert (lo < xdim * ydim) as Hlo by lia.
  assert (lo / ydim < xdim) as H1 by (apply div_lt_mul; lia).
  pose proof (Nat.mod_upper_bound lo ydim Hy) as H2.
  destruct (set_at_ok out (lo mod ydim * xdim + lo / ydim) v) as (o1 & -> & L1 & N1); [rewrite Lo; onia|]. cbn [bind].
  pose proof (step_div lo ydim Hy) as SD.
  assert ((if ydim <=? S (lo mod ydim) then transp2_loop xs xdim ydim (S (lo / ydim)) 0 o1 else transp2_loop xs xdim ydim (lo / ydim) (S (lo mod ydim)) o1)
    = transp2_loop xs xdim ydim (S lo / ydim) (S lo mod ydim) o1) as ->.
  { destruct (ydim <=? S (lo mod ydim)); injection SD as <- <-; reflexivity. }
  destruct (IH (S lo) o1) as (r & -> & Lr & Nr); [lia|lia|]. exists r. split; auto. split; [lia|].
  intros q Hq. rewrite (Nr q Hq). rewrite N1. simpl length.
  pose proof (psi_phi xdim ydim lo Hy Hlo) as PP.
  destruct (Nat.eqb_spec q (lo mod ydim * xdim + lo / ydim)) as [E|E].
  - rewrite <-E in PP. rewrite PP. rewrite Nat.sub_diag.
    destruct (Nat.leb_spec (S lo) lo); [lia|]. destruct (Nat.leb_spec lo lo); [|lia]. destruct (Nat.ltb_spec lo (lo + S (length xs))); [|lia]. reflexivity.
  - assert (psi xdim ydim q <> lo) as NE.
    { intros X. apply E. apply (psi_inj xdim ydim); auto; [onia|lia]. }
    destruct (Nat.leb_spec (S lo) (psi xdim ydim q)), (Nat.leb_spec lo (psi xdim ydim q)),
      (Nat.ltb_spec (psi xdim ydim q) (S lo + length xs)), (Nat.ltb_spec (psi xdim ydim q) (lo + S (length xs))); cbn [andb]; try lia; auto.
    replace (psi xdim ydim q - lo) with (S (psi xdim ydim q - S lo)) by lia. reflexivity.
Qed.
Lemma axes_from_rev n c : length c = n -> axes_from (map (fun i => n - 1 - i) (seq 0 n)) c = rev c.
Proof.
  intros L. unfold axes_from. rewrite map_map. apply nth_ext with (d := 0) (d' := 0); [rewrite rev_length, map_length, seq_length; auto|].
  intros i Hi. rewrite map_length, seq_length in Hi. rewrite (nth_map_seq (fun x => nth (n - 1 - x) c 0)) by auto.
  rewrite rev_nth by lia. f_equal. lia.
Qed.
Lemma transpose_ok c s d : s <> [] -> length d = vol s -> (forall x, s <> [x; 0]) ->
  gives_array (transpose c s d) (rev s) (fun k => nth_error d (ravel s (rev k))).
Proof.
  intros Hs L H0.
  assert (gives_array (binary_transpose c s d (map (fun i => VInt (Z.of_nat (length s - 1 - i) + origin c)) (seq 0 (length s))))
            (rev s) (fun k => nth_error d (ravel s (rev k)))) as G.
  { set (m := map (fun i => length s - 1 - i) (seq 0 (length s))).
    assert (length m = length s) as Lm by (unfold m; rewrite map_length, seq_length; auto).
    replace (map (fun i => VInt (Z.of_nat (length s - 1 - i) + origin c)) (seq 0 (length s))) with (map VInt (with_origin c m)).
    2: { unfold with_origin, m. rewrite !map_map. reflexivity. }
    assert (forall j, j < length s -> nth j m 0 = length s - 1 - j) as NM.
    { intros j J. unfold m. apply (nth_map_seq (fun i => length s - 1 - i)); auto. }
    assert (axes_to s m (rev s)) as AT.
    { split.
      - intros j J. rewrite Lm in J. rewrite NM by auto. rewrite rev_length. split; [lia|]. rewrite rev_nth by lia.
        replace (length s - S (length s - 1 - j)) with j by lia. lia.
      - rewrite rev_length. intros i I. exists (length s - 1 - i). rewrite Lm, NM by lia. split; [lia|]. split; [lia|].
        rewrite rev_nth by lia. f_equal. lia. }
    destruct (binary_transpose_ok c s d m (rev s) Lm) as [[A B]|[A B]]; auto; [|intros E; apply (f_equal (@rev nat)) in E; rewrite rev_involutive in E; auto | | right; auto].
    - apply Forall_forall. intros x X. apply in_map_iff in X. destruct X as (i & <- & X). apply in_seq in X. lia.
    - left. split; auto. eapply is_array_ext; [|exact B]. intros k I. cbn beta. unfold m. rewrite axes_from_rev; auto.
      apply inb_len in I. rewrite rev_length in I. auto. }
  unfold transpose. destruct s as [|xdim [|ydim [|z s]]]; auto.
  assert (ydim <> 0) as Hy by (intros ->; apply (H0 xdim); auto).
  cbn [vol] in L. rewrite Nat.mul_1_r in L.
  unfold transp2_chunk. destruct (Nat.eqb_spec ydim 0); [congruence|]. rewrite Nat.sub_0_r. simpl skipn. rewrite firstn_all.
  destruct (transp2_loop_ok xdim ydim Hy d 0 (repeat vzero (length d))) as (r & -> & Lr & Nr); [rewrite repeat_length; auto|lia|].
  cbn [bind]. rewrite repeat_length in Lr. change (rev [xdim; ydim]) with [ydim; xdim].
  apply new_matrix_array; [discriminate|cbn [vol]; lia|].
  intros k I. destruct k as [|a [|b [|]]]; try (apply inb_len in I; simpl in I; lia).
  apply inb_cons in I. destruct I as [A I]. apply inb_cons in I. destruct I as [B _].
  cbn [ravel vol rev app]. rewrite !Nat.mul_1_r, !Nat.add_0_r.
  assert (a * xdim + b < xdim * ydim) as Q by nia.
  rewrite Nr by auto. unfold psi. rewrite dm_div, dm_mod by auto. cbn [plus leb]. rewrite Nat.sub_0_r.
  destruct (Nat.ltb_spec (b * ydim + a) (length d)); [reflexivity|nia].
Qed.
Lemma op_transp1_ok c v : wf v -> 2 <= rank_of v -> (forall x, shape_of v <> [x; 0]) ->
  gives_array (op_transp1 c v) (rev (shape_of v)) (fun k => elem v (rev k)).
Proof.
  unfold rank_of, elem. destruct v; simpl shape_of; simpl length; try lia. intros (A & B & C) R H. cbn [op_transp1].
  destruct shape as [|x [|y s]]; simpl in R; try lia. apply transpose_ok; auto.
Qed.

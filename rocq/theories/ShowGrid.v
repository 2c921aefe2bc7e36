(* Matrices whose elements take one line each. *)
From Coq Require Import String.
From Verif Require Import Value NumModel NumSpec ScanModel TextModel ShowModel ShowSpec ShowProofs.
Open Scope list_scope.
Open Scope nat_scope.

Lemma max_len_app a b : max_len (a ++ b) = Nat.max (max_len a) (max_len b).
Proof. induction a as [|x a IH]; [reflexivity|]. cbn [app max_len fold_right] in *. unfold max_len in *. rewrite IH. lia. Qed.
Lemma max_len_in t l : In t l -> length t <= max_len l.
Proof. induction l as [|x l IH]; [intros []|]. intros [<-|I]; cbn [max_len fold_right]; [lia|]. specialize (IH I). unfold max_len in IH. lia. Qed.
(* the texts whose place, counted from n, is j modulo k *)
Fixpoint every (k j n : nat) (l : list text) : list text :=
  match l with [] => [] | t :: l' => (if (n mod k =? j) then [t] else []) ++ every k j (S n) l' end.
Lemma every_app k j : forall a b n, every k j n (a ++ b) = every k j n a ++ every k j (n + length a) b.
Proof. induction a as [|t a IH]; intros b n; cbn [app every length]; [rewrite Nat.add_0_r; reflexivity|]. rewrite IH, <-app_assoc. replace (n + S (length a)) with (S n + length a) by lia. reflexivity. Qed.
Definition widths_of (k : nat) (done : list text) : widths :=
  mkWidths (map (fun j => max_len (every k j 0 done)) (seq 0 (Nat.min (length done) k))) (max_len done).
Lemma max_nth_map (f : nat -> nat) x : forall n i a, i < n -> max_nth (map f (seq a n)) i x = map (fun j => if j =? a + i then Nat.max x (f j) else f j) (seq a n).
Proof.
  induction n as [|n IH]; intros i a L; [lia|]. destruct i as [|i]; cbn [seq map max_nth].
  - rewrite Nat.add_0_r, Nat.eqb_refl. f_equal. apply map_ext_in. intros j J. apply in_seq in J. replace (j =? a) with false by (symmetry; apply Nat.eqb_neq; lia). reflexivity.
  - replace (a =? a + S i) with false by (symmetry; apply Nat.eqb_neq; lia). f_equal. rewrite IH by lia. replace (S a + i) with (a + S i) by lia. reflexivity.
Qed.
Lemma add_column_is k done t : 0 < k -> add_column (widths_of k done) (length done mod k) (length t) = Ok (widths_of k (done ++ [t])).
Proof.
  intros K. unfold add_column, widths_of. cbn [wid wmax]. rewrite map_length, seq_length, app_length. cbn [length].
  assert (M : Nat.max (max_len done) (length t) = max_len (done ++ [t])) by (rewrite max_len_app; cbn; lia).
  assert (EV : forall j, every k j 0 (done ++ [t]) = every k j 0 done ++ (if length done mod k =? j then [t] else [])) by (intros j; rewrite every_app; cbn [every Nat.add]; rewrite app_nil_r; reflexivity).
  destruct (Nat.ltb_spec (length done) k) as [L|L].
  - rewrite (Nat.mod_small _ _ L) in *. replace (Nat.min (length done) k) with (length done) by lia. rewrite Nat.ltb_irrefl, Nat.eqb_refl.
    replace (Nat.min (length done + 1) k) with (S (length done)) by lia. f_equal. rewrite M. f_equal. rewrite seq_S, map_app. f_equal; cbn [map Nat.add].
    + apply map_ext_in. intros j J. apply in_seq in J. rewrite EV. replace (length done =? j) with false by (symmetry; apply Nat.eqb_neq; lia). rewrite app_nil_r. reflexivity.
    + rewrite EV, Nat.eqb_refl. f_equal. assert (N : forall l n, n + length l <= length done -> every k (length done) n l = []).
      { induction l as [|x l IH]; intros n LE; [reflexivity|]. cbn [every length] in *. replace (n mod k =? length done) with false; [apply IH; lia|]. symmetry. apply Nat.eqb_neq. rewrite Nat.mod_small by lia. lia. }
      rewrite (N done 0) by lia. cbn. lia.
  - pose proof (Nat.mod_upper_bound (length done) k ltac:(lia)) as B. replace (Nat.min (length done) k) with k by lia. replace (Nat.min (length done + 1) k) with k by lia.
    rewrite (proj2 (Nat.ltb_lt _ _) B). f_equal. rewrite M. f_equal. rewrite max_nth_map by exact B. apply map_ext. intros j. cbn [Nat.add]. rewrite EV.
    rewrite (Nat.eqb_sym (length done mod k) j). destruct (j =? length done mod k); [rewrite max_len_app; cbn; lia|rewrite app_nil_r; reflexivity].
Qed.
Lemma slice_mid a b c : slice (a ++ b ++ c) (length a) (length a + length b) = Ok b.
Proof.
  unfold slice. replace (length a <=? length a + length b) with true by (symmetry; apply Nat.leb_le; lia). rewrite !app_length.
  replace (length a + length b <=? length a + (length b + length c)) with true by (symmetry; apply Nat.leb_le; lia). cbn [andb].
  rewrite skipn_app, skipn_all, Nat.sub_diag. cbn [skipn app]. replace (length a + length b - length a) with (length b) by lia. rewrite firstn_app, Nat.sub_diag, firstn_all, firstn_O, app_nil_r. reflexivity.
Qed.
Lemma cut_one l lo hi col w s w1 : l <> [] -> slice l lo hi = Ok s -> add_column w col (length s) = Ok w1 -> cut_rows [l] lo hi col w = Ok ([s], w1).
Proof. intros N S A. destruct l as [|r l]; [contradiction|]. cbn [cut_rows]. rewrite S. cbn [bind]. rewrite A. reflexivity. Qed.
Lemma cut_flat k : 0 < k -> forall todo done, Forall (fun t => t <> []) todo ->
  cut_elems [concat (done ++ todo)] (ends false [] (length (concat done)) todo) (length done) (length (concat done)) k (widths_of k done) = Ok (map (fun t => [t]) todo, widths_of k (done ++ todo)).
Proof.
  intros K. induction todo as [|t todo IH]; intros done F; [rewrite app_nil_r; reflexivity|]. inversion F as [|? ? F1 F2]; subst. cbn [ends cut_elems map]. rewrite Nat.add_0_r.
  assert (C : concat (done ++ t :: todo) = concat done ++ t ++ concat todo) by (rewrite concat_app; reflexivity).
  rewrite (cut_one _ _ _ _ _ t (widths_of k (done ++ [t]))); [| |rewrite C; apply slice_mid|apply add_column_is, K].
  2:{ rewrite C. intros X. apply F1. destruct (concat done); [|discriminate]. destruct t; [reflexivity|discriminate]. }
  cbn [bind fst snd]. specialize (IH (done ++ [t]) F2). rewrite <-app_assoc in IH. cbn [app] in IH.
  assert (L1 : length (done ++ [t]) = S (length done)) by (rewrite app_length; cbn; lia). assert (L2 : length (concat (done ++ [t])) = length (concat done) + length t) by (rewrite concat_app, app_length; cbn [concat]; rewrite app_nil_r; reflexivity).
  rewrite L1, L2 in IH. rewrite IH. reflexivity.
Qed.
Lemma elem_strs_flat : forall es k, 0 < k -> Forall (fun e => flat (etext e)) es -> Forall (fun t => t <> []) (map item es) ->
  elem_strs es k = Ok (map (fun t => [t]) (map item es), widths_of k (map item es)).
Proof.
  intros es k K F N. unfold elem_strs. rewrite multi_flat by exact F. cbn [bind fst snd sep_of]. rewrite join_nil.
  assert (E : ends true [] 0 (map item es) = ends false [] 0 (map item es)) by (destruct (map item es); reflexivity). rewrite E.
  exact (cut_flat k K (map item es) [] N).
Qed.

(* ---- rows ---- *)
Lemma every_rows k : forall rows j, j < k -> Forall (fun row => length row = k) rows -> forall n, n mod k = 0 -> every k j n (concat rows) = map (fun row => nth j row []) rows.
Proof.
  intros rows j J. induction rows as [|row rows IH]; intros F n N; [reflexivity|]. inversion F as [|? ? F1 F2]; subst. cbn [concat map]. rewrite every_app.
  assert (R : forall l a, a + length l <= length row -> every (length row) j (n + a) l = if (a <=? j) && (j <? a + length l) then [nth (j - a) l []] else []).
  { induction l as [|t l IHl]; intros a A.
    - cbn [every length]. destruct ((a <=? j) && (j <? a + 0)) eqn:Q; [|reflexivity]. apply andb_prop in Q. destruct Q as [Q1 Q2]. apply Nat.leb_le in Q1. apply Nat.ltb_lt in Q2. lia.
    - cbn [every length] in *. assert (MO : (n + a) mod length row = a) by (rewrite Nat.add_mod, N by lia; cbn [Nat.add]; rewrite Nat.mod_mod by lia; apply Nat.mod_small; lia).
      rewrite MO. replace (S (n + a)) with (n + S a) by lia. rewrite IHl by lia. destruct (Nat.eqb_spec a j) as [->|NE].
      + rewrite Nat.leb_refl, Nat.sub_diag. replace (S j <=? j) with false by (symmetry; apply Nat.leb_gt; lia). replace (j <? j + S (length l)) with true by (symmetry; apply Nat.ltb_lt; lia). reflexivity.
      + destruct (Nat.leb_spec a j) as [L|L].
        * replace (S a <=? j) with true by (symmetry; apply Nat.leb_le; lia). replace (j <? a + S (length l)) with (j <? S a + length l) by (f_equal; lia). cbn [andb app].
          destruct (j <? S a + length l); [|reflexivity]. replace (j - a) with (S (j - S a)) by lia. reflexivity.
        * replace (S a <=? j) with false by (symmetry; apply Nat.leb_gt; lia). reflexivity. }
  specialize (R row 0 ltac:(lia)). rewrite Nat.add_0_r in R. rewrite R. replace (j <? 0 + length row) with true by (symmetry; apply Nat.ltb_lt; lia). cbn [Nat.leb andb app]. rewrite Nat.sub_0_r. f_equal. apply IH; [exact F2|].
  rewrite Nat.add_mod, N, Nat.mod_same by lia. apply Nat.mod_0_l. lia.
Qed.
Lemma column_is k (rows : list (list text)) : 0 < k -> rows <> [] -> Forall (fun row => length row = k) rows -> forall j, j < k ->
  column (widths_of k (concat rows)) j = Ok (nth j (grid_widths k rows) 0).
Proof.
  intros K NE F j J. unfold column, grid_widths, widths_of. cbn [wid wmax]. change widthThreshold with 5. destruct (max_len (concat rows) <? 5).
  - rewrite (nth_indep (repeat (max_len (concat rows)) k) 0 (max_len (concat rows))) by (rewrite repeat_length; lia). rewrite nth_repeat. reflexivity.
  - assert (L : k <= length (concat rows)) by (destruct rows as [|row rows]; [contradiction|]; inversion F; subst; cbn [concat]; rewrite app_length; lia).
    replace (Nat.min (length (concat rows)) k) with k by lia. rewrite nth_error_map. rewrite nth_error_nth' with (d := 0) by (rewrite seq_length; exact J). cbn [option_map]. rewrite seq_nth by exact J. cbn [Nat.add].
    rewrite every_rows by (auto; apply Nat.mod_0_l; lia). f_equal. rewrite nth_indep with (d := 0) (d' := (fun j => max_len (map (fun row => nth j row []) rows)) 0) by (rewrite map_length, seq_length; exact J).
    rewrite map_nth with (f := fun j => max_len (map (fun row => nth j row []) rows)). rewrite seq_nth by exact J. reflexivity.
Qed.
Lemma widths_len k (rows : list (list text)) : length (grid_widths k rows) = k.
Proof. unfold grid_widths. destruct (max_len (concat rows) <? 5); [apply repeat_length|rewrite map_length, seq_length; reflexivity]. Qed.
Lemma grid_fits k (rows : list (list text)) : Forall (fun row => length row = k) rows -> forall row j, In row rows -> j < k -> length (nth j row []) <= nth j (grid_widths k rows) 0.
Proof.
  intros F row j I J. rewrite Forall_forall in F. pose proof (F row I) as LR. unfold grid_widths. destruct (max_len (concat rows) <? 5).
  - rewrite (nth_indep (repeat (max_len (concat rows)) k) 0 (max_len (concat rows))) by (rewrite repeat_length; lia). rewrite nth_repeat. apply max_len_in. apply in_concat. exists row. split; [exact I|apply nth_In; lia].
  - rewrite nth_indep with (d := 0) (d' := (fun j => max_len (map (fun row => nth j row []) rows)) 0) by (rewrite map_length, seq_length; exact J).
    rewrite map_nth with (f := fun j => max_len (map (fun row => nth j row []) rows)). rewrite seq_nth by exact J. apply max_len_in. apply in_map_iff. exists row. split; [reflexivity|exact I].
Qed.
Lemma cells_line w ws : forall (row : list text) col b, (forall j, j < length row -> column w (col + j) = Ok (nth j ws 0)) -> (forall j, j < length row -> length (nth j row []) <= nth j ws 0) -> length row <= length ws ->
  write_cells (map (fun t => [t]) row) 0 col w b = Ok (b ++ grid_line ws row).
Proof.
  revert ws. intros ws row. revert ws. induction row as [|t row IH]; intros ws col b C G L; [destruct ws; cbn; rewrite app_nil_r; reflexivity|]. destruct ws as [|x ws]; [cbn in L; lia|].
  cbn [map write_cells nth_error grid_line]. pose proof (C 0 ltac:(cbn; lia)) as C0. rewrite Nat.add_0_r in C0. rewrite C0. cbn [bind nth]. pose proof (G 0 ltac:(cbn; lia)) as G0. cbn [nth] in G0.
  unfold blanks_diff. rewrite (proj2 (Nat.leb_le _ _) G0). cbn [bind].
  rewrite (IH ws).
  - f_equal. rewrite <-!app_assoc. f_equal. unfold rjust. rewrite <-app_assoc. f_equal. f_equal. destruct row; [destruct ws; reflexivity|reflexivity].
  - intros j J. specialize (C (S j) ltac:(cbn; lia)). cbn [nth] in C. rewrite <-C. f_equal. lia.
  - intros j J. specialize (G (S j) ltac:(cbn; lia)). exact G.
  - cbn in L. lia.
Qed.
Lemma no_more_lines : forall row, fold_left (fun n strs => last_nonblank 0 n strs) (map (fun t : text => [t]) row) 0 = 0.
Proof. induction row as [|t row IH]; [reflexivity|]. cbn [map fold_left last_nonblank]. destruct (negb (blank_text t)); exact IH. Qed.
Lemma write2d_flat k ws w nested : length ws = k -> (forall j, j < k -> column w j = Ok (nth j ws 0)) ->
  forall (rows : list (list text)) first b, Forall (fun row => length row = k) rows -> (forall row j, In row rows -> j < k -> length (nth j row []) <= nth j ws 0) -> (nested = true -> rows = [] \/ length rows = 1 /\ first = true) ->
  write2d (length rows) first k (map (fun t : text => [t]) (concat rows)) nested w b = Ok (glue first [newline] b (map (grid_line ws) rows)).
Proof.
  intros LW C. induction rows as [|row rows IH]; intros first b F G N; [reflexivity|]. pose proof (Forall_inv F) as F1; pose proof (Forall_inv_tail F) as F2; cbv beta in F1. cbn [length write2d concat].
  set (b1 := if first then b else b ++ [newline]).
  assert (E : (if first then Ok b else if nested then match rev b with [] => Crash | r :: _ => Ok ((if (r =? newline)%Z then b else b ++ [newline]) ++ [newline]) end else Ok (b ++ [newline])) = Ok b1).
  { unfold b1. destruct first; [reflexivity|]. destruct nested; [destruct (N eq_refl) as [X|[_ X]]; discriminate|reflexivity]. }
  rewrite E. cbn [bind]. rewrite map_app. rewrite app_length, map_length. replace (length row + _ <? k) with false by (symmetry; apply Nat.ltb_ge; lia).
  assert (ML : length (map (fun t : text => [t]) row) = k) by (rewrite map_length; exact F1).
  rewrite firstn_app, skipn_app, ML, Nat.sub_diag, firstn_O, app_nil_r. rewrite <-ML at 1 2. rewrite firstn_all, skipn_all2 by lia. cbn [skipn app].
  rewrite no_more_lines. cbn [write_lines Nat.ltb Nat.leb]. rewrite (cells_line w ws).
  - cbn [bind]. rewrite IH.
    + cbn [map]. rewrite glue_cons. f_equal. f_equal. unfold b1. destruct first; cbn [app]; rewrite <-?app_assoc; reflexivity.
    + exact F2.
    + intros row' j I. apply G. right. exact I.
    + intros X. left. destruct (N X) as [N1|[N1 _]]; [discriminate|]. cbn in N1. destruct rows; [reflexivity|cbn in N1; lia].
  - intros j J. cbn [Nat.add]. apply C. rewrite <-F1. exact J.
  - intros j J. apply G; [left; reflexivity|rewrite <-F1; exact J].
  - rewrite LW, <-F1. apply Nat.le_refl.
Qed.

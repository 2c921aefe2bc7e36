(* Arrays whose elements are rectangles of text. *)
From Coq Require Import String.
From Verif Require Import Value NumModel NumSpec ScanModel TextModel ShowModel ShowSpec ShowProofs ShowGrid.
Open Scope list_scope.
Open Scope nat_scope.

Lemma on_nth_nth f : forall ls k n, nth_error (on_nth k f ls) n = if n =? k then option_map f (nth_error ls n) else nth_error ls n.
Proof. induction ls as [|l ls IH]; intros [|k] [|n]; cbn [on_nth nth_error]; try reflexivity; try (destruct (_ =? _); reflexivity). rewrite IH. reflexivity. Qed.
Lemma on_nth_len f : forall ls k, length (on_nth k f ls) = length ls.
Proof. induction ls as [|l ls IH]; intros [|k]; cbn; auto. Qed.
Lemma on_first_nth f ls : on_first f ls = on_nth 0 f ls.
Proof. destruct ls; reflexivity. Qed.
Lemma pad_nth f h (ls : list line) n : h <= length ls -> nth_error (firstn h ls ++ map f (skipn h ls)) n = if n <? h then nth_error ls n else option_map f (nth_error ls n).
Proof.
  intros L. destruct (Nat.ltb_spec n h) as [N|N].
  - rewrite nth_error_app1 by (rewrite firstn_length; lia). rewrite <-(firstn_skipn h ls) at 2. rewrite nth_error_app1 by (rewrite firstn_length; lia). reflexivity.
  - rewrite nth_error_app2 by (rewrite firstn_length; lia). rewrite firstn_length. replace (Nat.min h (length ls)) with h by lia. rewrite nth_error_map. f_equal.
    rewrite <-(firstn_skipn h ls) at 2. rewrite nth_error_app2 by (rewrite firstn_length; lia). rewrite firstn_length. replace (Nat.min h (length ls)) with h by lia. reflexivity.
Qed.
Definition bars (parens first : bool) (h n : nat) (s : text) : text :=
  (if parens && negb (first && (n =? 0)) then [124%Z] else []) ++ s ++ (if parens && (S n <? h) then [124%Z] else []).
Lemma write_rows_nth parens mat : forall strs ls first n, length strs <= length ls -> (mat = false \/ Forall (fun s => s <> []) strs) ->
  nth_error (write_rows parens mat first strs ls) n =
  match nth_error strs n, nth_error ls n with
  | Some s, Some l => let t := fst l ++ bars parens first (length strs) n s in Some (t, length t)
  | _, o => o
  end.
Proof.
  induction strs as [|s strs IH]; intros ls first n L M.
  - destruct n; destruct ls; reflexivity.
  - destruct ls as [|l ls]; [cbn in L; lia|]. cbn [write_rows]. destruct n as [|n].
    + cbn [nth_error]. assert (Q : mat && match s with [] => true | _ => false end = false) by (destruct M as [-> | M]; [reflexivity|]; inversion M; subst; destruct s; [contradiction|destruct mat; reflexivity]). rewrite Q.
      unfold bars, write_mark. cbn [fst Nat.eqb length]. rewrite andb_true_r. destruct strs as [|s2 strs]; cbn [length Nat.ltb Nat.leb]; destruct parens, first; cbn [andb negb fst]; rewrite ?app_nil_r, <-?app_assoc; cbn [app]; reflexivity.
    + cbn [nth_error]. rewrite IH.
      * destruct (nth_error strs n); [|reflexivity]. destruct (nth_error ls n); [|reflexivity]. unfold bars. cbn [length Nat.eqb negb andb]. rewrite andb_false_r. cbn [negb]. reflexivity.
      * cbn in L. lia.
      * destruct M as [M|M]; [left; exact M|right; inversion M; assumption].
Qed.
Lemma write_rows_len parens mat : forall strs ls first, length (write_rows parens mat first strs ls) = length ls.
Proof. induction strs as [|s strs IH]; intros [|l ls] first; try reflexivity. cbn [write_rows length]. rewrite IH. reflexivity. Qed.

(* lines of equal length *)
Definition even (n : nat) (ls : list line) : Prop := forall k l, nth_error ls k = Some l -> length (fst l) = n /\ snd l <= n /\ flat (fst l).
Lemma flat_app a b : flat a -> flat b -> flat (a ++ b).
Proof. intros A B X. apply in_app_or in X. destruct X; auto. Qed.
Lemma flat_one x : x <> newline -> flat [x].
Proof. intros N [X|[]]. auto. Qed.
Lemma flat_nil : flat [].
Proof. intros []. Qed.
Lemma flat_spaces n : flat (repeat space n).
Proof. intros X. apply repeat_spec in X. discriminate. Qed.
Lemma flat_split t : Forall flat (split_lines t).
Proof.
  induction t as [|r t IH]; [constructor; [apply flat_nil|constructor]|]. cbn [split_lines]. destruct (split_lines t) as [|l ls] eqn:Q; [exfalso; exact (split_nonempty t Q)|].
  destruct (Z.eqb_spec r newline) as [-> | N]; [constructor; [apply flat_nil|exact IH]|]. constructor; [|exact (Forall_inv_tail IH)]. apply (flat_app [r] l (flat_one r N)), (Forall_inv IH).
Qed.
Lemma widest_even n ls : even n ls -> ls <> [] -> widest ls = n.
Proof.
  unfold widest. assert (G : forall ls w, even n ls -> w <= n -> fold_left (fun w l => Nat.max w (length (fst l))) ls w = if ls then w else n).
  { clear ls. induction ls as [|l ls IH]; intros w E W; [reflexivity|]. destruct (E 0 l eq_refl) as [E0 _]. cbn [fold_left].
    match goal with |- fold_left _ _ ?x = _ => replace x with n by (unfold text in *; lia) end. rewrite IH; [destruct ls; reflexivity|intros k; apply (E (S k))|lia]. }
  intros E N. rewrite G by (auto; lia). destruct ls; [contradiction|reflexivity].
Qed.
Definition extends (ls ls' : list line) : Prop := forall n l, nth_error ls n = Some l -> exists x k, nth_error ls' n = Some (fst l ++ x, k) /\ snd l <= k.
Definition gap (spaces first : bool) : nat := if spaces && negb first then 1 else 0.
(* the lines before the element is written *)
Lemma start_lines spaces first h ls n : even n ls -> (ls = [] <-> first = true) -> (first = true -> n = 0) ->
  exists ls1, (let ls := if length ls <? h then add_lines ls h else ls in if spaces && negb first then map (write [space]) ls else ls) = ls1 /\
    even (n + gap spaces first) ls1 /\ length ls1 = Nat.max (length ls) h /\ extends ls ls1.
Proof.
  intros E F Z. eexists. split; [reflexivity|]. set (l1 := if length ls <? h then add_lines ls h else ls).
  assert (A : even n l1 /\ length l1 = Nat.max (length ls) h /\ (forall k l, nth_error ls k = Some l -> nth_error l1 k = Some l)).
  { unfold l1. destruct (Nat.ltb_spec (length ls) h) as [L|L].
    - unfold add_lines. split; [|split].
      + intros k l K. destruct (Nat.lt_ge_cases k (length ls)) as [Q|Q].
        * rewrite nth_error_app1 in K by exact Q. apply (E k l K).
        * rewrite nth_error_app2 in K by exact Q. apply nth_error_In, repeat_spec in K. subst l. cbn [fst snd]. rewrite repeat_length. split; [|split; [lia|apply flat_spaces]].
          destruct ls as [|l0 ls]; [cbn; symmetry; apply Z, F; reflexivity|]. apply widest_even; [exact E|discriminate].
      + rewrite app_length, repeat_length. lia.
      + intros k l K. rewrite nth_error_app1; [exact K|]. apply nth_error_Some. congruence.
    - split; [exact E|]. split; [lia|auto]. }
  destruct A as (A1 & A2 & A3). unfold gap. destruct (spaces && negb first).
  - split; [|split].
    + intros k l K. rewrite nth_error_map in K. destruct (nth_error l1 k) as [l0|] eqn:Q; [|discriminate]. injection K as <-. destruct (A1 k l0 Q) as (? & ? & ?). unfold write. cbn [fst snd]. rewrite app_length. cbn [length]. split; [lia|]. split; [lia|]. apply flat_app; [assumption|apply flat_one; discriminate].
    + rewrite map_length. exact A2.
    + intros k l K. rewrite nth_error_map, (A3 k l K). cbn [option_map]. unfold write. exists [space], (snd l). split; [reflexivity|lia].
  - rewrite Nat.add_0_r. split; [exact A1|]. split; [exact A2|]. intros k l K. rewrite (A3 k l K). exists [], (snd l). rewrite app_nil_r. destruct l. split; [reflexivity|cbn; lia].
Qed.
Lemma extends_trans a b c : extends a b -> extends b c -> extends a c.
Proof. intros X Y n l N. destruct (X n l N) as (x & k & A & B). destruct (Y n _ A) as (y & m & C & D). cbn [fst snd] in *. exists (x ++ y), m. rewrite app_assoc. split; [exact C|lia]. Qed.
Definition mat_ok (e : elem) (strs : list text) : Prop := is_mat e = false \/ Forall (fun s => s <> []) strs.
(* where the rows of an element stand *)
Definition placed (ls : list line) (a : nat) (strs : list text) : Prop :=
  forall n s, nth_error strs n = Some s -> exists b x k, nth_error ls n = Some (b ++ s ++ x, k) /\ length b = a /\ a + length s <= k.
Lemma placed_extends ls ls' a strs : extends ls ls' -> placed ls a strs -> placed ls' a strs.
Proof.
  intros X P n s S. destruct (P n s S) as (b & x & k & A & B & C). destruct (X n _ A) as (y & m & D & G). cbn [fst snd] in *. exists b, (x ++ y), m. rewrite <-!app_assoc in D. split; [exact D|]. split; [exact B|lia].
Qed.
Lemma put_scalar spaces first e ls n : is_scalar_elem e = true -> flat (etext e) -> even n ls -> (ls = [] <-> first = true) -> (first = true -> n = 0) ->
  let m := n + gap spaces first + length (etext e) in
  exists ls', put_elem spaces first e ls = Ok (ls', m) /\ even m ls' /\ ls' <> [] /\ extends ls ls' /\ placed ls' (n + gap spaces first) [etext e].
Proof.
  intros SC F E FI Z m. unfold put_elem. rewrite (split_flat _ F). destruct (start_lines spaces first 1 ls n E FI Z) as (ls1 & Q & E1 & L1 & X1). cbv zeta in Q. cbn [length]. rewrite Q.
  rewrite SC. cbn [negb]. set (g := n + gap spaces first) in *. set (ls2 := write_rows false (is_mat e) true [etext e] ls1). assert (L1' : 1 <= length ls1) by lia.
  assert (M : is_mat e = false) by (destruct e as [[]]; try discriminate; reflexivity).
  assert (N2 : forall k, nth_error ls2 k = match k with 0 => option_map (fun l : line => (fst l ++ etext e, length (fst l ++ etext e))) (nth_error ls1 0) | _ => nth_error ls1 k end).
  { intros k. unfold ls2. rewrite write_rows_nth by (cbn [length]; auto). destruct k as [|k]; cbn [nth_error]; [|destruct k; reflexivity]. destruct ls1 as [|l ls1]; [reflexivity|]. cbn [nth_error option_map]. unfold bars. cbn [andb app]. rewrite app_nil_r. reflexivity. }
  assert (LL : length ls2 = length ls1) by apply write_rows_len.
  destruct ls1 as [|l0 rest] eqn:EL; [cbn in L1'; lia|]. destruct (E1 0 l0 eq_refl) as [E0 _]. assert (N20 : nth_error ls2 0 = Some (fst l0 ++ etext e, length (fst l0 ++ etext e))) by exact (N2 0).
  assert (C : line_len ls2 0 = m) by (unfold line_len; rewrite N20; cbn [fst]; rewrite app_length, E0; reflexivity). rewrite C.
  assert (X2 : extends (l0 :: rest) ls2).
  { intros k l K. rewrite N2. destruct k as [|k]; [cbn [nth_error option_map] in *; injection K as <-; eexists _, _; split; [reflexivity|]; rewrite app_length; destruct (E1 0 l0 eq_refl); lia|]. rewrite K. exists [], (snd l). rewrite app_nil_r. destruct l; split; [reflexivity|cbn; lia]. }
  assert (P2 : placed ls2 g [etext e]).
  { intros k s K. destruct k as [|k]; [|destruct k; discriminate]. injection K as <-. rewrite N20. exists (fst l0), [], (length (fst l0 ++ etext e)). rewrite app_nil_r, app_length, E0. repeat split; lia. }
  destruct (Nat.ltb_spec 1 (length ls2)) as [H|H].
  - assert (LAST : line_len ls2 (length ls2 - 1) = g).
    { unfold line_len. rewrite N2. replace (length ls2 - 1) with (S (length ls2 - 2)) by lia. destruct (nth_error (l0 :: rest) (S (length ls2 - 2))) as [l|] eqn:K; [apply (E1 _ _ K)|]. apply nth_error_None in K. cbn [length] in *. lia. }
    rewrite LAST. unfold blanks_diff. replace (g <=? m) with true by (symmetry; apply Nat.leb_le; unfold m; lia). cbn [bind]. eexists. split; [reflexivity|]. set (f := write (repeat space (m - g))).
    assert (N3 : forall k, nth_error (firstn 1 ls2 ++ map f (skipn 1 ls2)) k = if k <? 1 then nth_error ls2 k else option_map f (nth_error ls2 k)) by (intros k; apply pad_nth; lia).
    assert (X3 : extends ls2 (firstn 1 ls2 ++ map f (skipn 1 ls2))).
    { intros k l K. rewrite N3, K. destruct (k <? 1); [exists [], (snd l); rewrite app_nil_r; destruct l; split; [reflexivity|cbn; lia]|]. cbn [option_map]. unfold f, write. eexists _, _. split; [reflexivity|lia]. }
    split; [|split; [|split]].
    + intros k l K. rewrite N3 in K. destruct k as [|k]; cbn [Nat.ltb Nat.leb] in K.
      * rewrite N20 in K. injection K as <-. cbn [fst snd]. rewrite app_length, E0. unfold m. fold g. split; [lia|]. split; [lia|]. apply flat_app; [apply (E1 0 l0 eq_refl)|exact F].
      * rewrite N2 in K. destruct (nth_error (l0 :: rest) (S k)) as [l1|] eqn:K1; [|discriminate]. cbn [option_map] in K. injection K as <-. destruct (E1 _ _ K1) as (? & ? & ?). unfold f, write. cbn [fst snd]. rewrite app_length, repeat_length. unfold m in *. split; [lia|]. split; [lia|]. apply flat_app; [assumption|apply flat_spaces].
    + destruct ls2; [cbn in H; lia|discriminate].
    + apply (extends_trans _ _ _ X1), (extends_trans _ _ _ X2), X3.
    + apply (placed_extends _ _ _ _ X3 P2).
  - cbn [bind]. eexists. split; [reflexivity|]. split; [|split; [|split]].
    + intros k l K. rewrite N2 in K. destruct k as [|k]; [cbn [nth_error option_map] in K; injection K as <-; cbn [fst snd]; rewrite app_length, E0; unfold m; split; [lia|]; split; [lia|]; apply flat_app; [apply (E1 0 l0 eq_refl)|exact F]|].
      assert (k < length rest) by (apply nth_error_Some; cbn in K; congruence). cbn [length] in *. lia.
    + destruct ls2; [cbn in LL; lia|discriminate].
    + apply (extends_trans _ _ _ X1), X2.
    + exact P2.
Qed.
Lemma put_array spaces first e ls n w : is_scalar_elem e = false -> Forall (fun s => length s = w) (split_lines (etext e)) -> 2 <= length (split_lines (etext e)) -> 0 < w ->
  even n ls -> (ls = [] <-> first = true) -> (first = true -> n = 0) ->
  let m := n + gap spaces first + 2 + w in
  exists ls', put_elem spaces first e ls = Ok (ls', m) /\ even m ls' /\ ls' <> [] /\ extends ls ls' /\ placed ls' (n + gap spaces first + 1) (split_lines (etext e)).
Proof.
  intros SC W H W0 E FI Z m. unfold put_elem. set (strs := split_lines (etext e)) in *. set (h := length strs) in *. destruct (start_lines spaces first h ls n E FI Z) as (ls1 & Q & E1 & L1 & X1). cbv zeta in Q. rewrite Q.
  rewrite SC. cbn [negb]. set (g := n + gap spaces first) in *. rewrite on_first_nth. set (ls2 := write_rows true (is_mat e) true strs (on_nth 0 (write_mark [40%Z]) ls1)).
  assert (NB : Forall (fun s => s <> []) strs) by (eapply Forall_impl; [|exact W]; intros s L X; subst s; cbn in L; lia).
  assert (LS : forall k s, nth_error strs k = Some s -> length s = w) by (intros k s K; apply nth_error_In in K; rewrite Forall_forall in W; apply W, K).
  set (body := fun k s => (if k =? 0 then [40%Z] else [124%Z]) ++ s ++ (if S k <? h then [124%Z] else [])).
  assert (N2 : forall k, nth_error ls2 k = match nth_error strs k, nth_error ls1 k with Some s, Some l => let t := fst l ++ body k s in Some (t, length t) | _, o => o end).
  { intros k. unfold ls2. rewrite write_rows_nth; [|rewrite on_nth_len; fold h; rewrite L1; apply Nat.le_max_r|right; exact NB]. rewrite on_nth_nth. cbv zeta. destruct (nth_error strs k) as [s|] eqn:K; fold strs h; unfold text in *; rewrite K.
    - destruct k as [|k]; cbn [Nat.eqb]; [destruct (nth_error ls1 0) as [l|]; [|reflexivity]; cbn [option_map]; unfold bars, body, write_mark; cbn [fst andb negb Nat.eqb app]; rewrite <-!app_assoc; reflexivity|].
      destruct (nth_error ls1 (S k)) as [l|]; [|reflexivity]. unfold bars, body. cbn [Nat.eqb andb negb]. reflexivity.
    - destruct k as [|k]; [|reflexivity]. exfalso. apply nth_error_None in K. fold h in K. lia. }
  assert (LL : length ls2 = length ls1) by (unfold ls2; rewrite write_rows_len, on_nth_len; reflexivity).
  assert (G1 : forall k, k < length ls1 -> exists l, nth_error ls1 k = Some l) by (intros k K; destruct (nth_error ls1 k) as [l|] eqn:Y; [exists l; reflexivity|apply nth_error_None in Y; lia]).
  assert (GS : forall k, k < h -> exists s, nth_error strs k = Some s) by (intros k K; destruct (nth_error strs k) as [s|] eqn:Y; [exists s; reflexivity|apply nth_error_None in Y; fold h in Y; lia]).
  assert (BL : forall k s, nth_error strs k = Some s -> length (body k s) = if S k <? h then w + 2 else w + 1).
  { intros k s K. unfold body. rewrite !app_length, (LS k s K). destruct (k =? 0), (S k <? h); cbn [length]; lia. }
  assert (C : line_len ls2 0 = m).
  { unfold line_len. rewrite N2. destruct (GS 0 ltac:(lia)) as [s0 S0]. destruct (G1 0 ltac:(lia)) as [l0 L0]. rewrite S0, L0. cbn [fst]. rewrite app_length, (BL 0 s0 S0). destruct (E1 0 l0 L0) as [E0 _]. rewrite E0. replace (1 <? h) with true by (symmetry; apply Nat.ltb_lt; lia). unfold m. lia. }
  rewrite C.
  set (ls3 := if h <? length ls2 then firstn h ls2 ++ map (write (repeat space (w + 2))) (skipn h ls2) else ls2).
  assert (P3 : (if h <? length ls2 then let! padding := blanks_diff m (line_len ls2 (length ls2 - 1)) in Ok (firstn h ls2 ++ map (write padding) (skipn h ls2)) else Ok ls2) = Ok ls3).
  { unfold ls3. destruct (Nat.ltb_spec h (length ls2)) as [Y|Y]; [|reflexivity].
    assert (LAST : line_len ls2 (length ls2 - 1) = g).
    { unfold line_len. rewrite N2. destruct (nth_error strs (length ls2 - 1)) as [s|] eqn:K; [assert (length ls2 - 1 < h) by (unfold h; apply nth_error_Some; intros AB; unfold text in *; rewrite AB in K; discriminate); lia|]. destruct (G1 (length ls2 - 1) ltac:(lia)) as [l K1]. rewrite K1. apply (E1 _ _ K1). }
    rewrite LAST. unfold blanks_diff. replace (g <=? m) with true by (symmetry; apply Nat.leb_le; unfold m; lia). cbn [bind]. replace (m - g) with (w + 2) by (unfold m; lia). reflexivity. }
  rewrite P3. cbn [bind].
  assert (N3 : forall k, nth_error ls3 k = match nth_error strs k, nth_error ls1 k with Some s, Some l => let t := fst l ++ body k s in Some (t, length t) | None, Some l => Some (write (repeat space (w + 2)) l) | _, None => None end).
  { intros k. unfold ls3. destruct (Nat.ltb_spec h (length ls2)) as [Y|Y].
    - rewrite pad_nth by lia. rewrite N2. destruct (Nat.ltb_spec k h) as [V|V].
      + destruct (GS k V) as [s K]. rewrite K. destruct (nth_error ls1 k); reflexivity.
      + assert (K : nth_error strs k = None) by (apply nth_error_None; exact V). rewrite K. destruct (nth_error ls1 k); reflexivity.
    - rewrite N2. destruct (nth_error strs k) as [s|] eqn:K; [destruct (nth_error ls1 k); reflexivity|]. apply nth_error_None in K. fold h in K. assert (K1 : nth_error ls1 k = None) by (apply nth_error_None; lia). rewrite K1. reflexivity. }
  set (ls4 := on_nth (h - 1) (write_mark [41%Z]) ls3).
  set (full := fun k s => (if k =? 0 then [40%Z] else [124%Z]) ++ s ++ (if S k <? h then [124%Z] else [41%Z])).
  assert (N4 : forall k, nth_error ls4 k = match nth_error strs k, nth_error ls1 k with Some s, Some l => let t := fst l ++ full k s in Some (t, length t) | None, Some l => Some (write (repeat space (w + 2)) l) | _, None => None end).
  { intros k. unfold ls4. rewrite on_nth_nth, N3. destruct (Nat.eqb_spec k (h - 1)) as [-> | NE].
    - destruct (GS (h - 1) ltac:(lia)) as [s K]. rewrite K. destruct (nth_error ls1 (h - 1)) as [l|]; [|reflexivity]. cbn [option_map]. unfold write_mark, body, full. cbn [fst]. replace (S (h - 1) <? h) with false by (symmetry; apply Nat.ltb_ge; lia). cbv zeta. rewrite app_nil_r, <-!app_assoc. reflexivity.
    - destruct (nth_error strs k) as [s|] eqn:K; [|reflexivity]. destruct (nth_error ls1 k) as [l|]; [|reflexivity]. assert (k < h) by (unfold h; apply nth_error_Some; intros AB; unfold text in *; rewrite AB in K; discriminate). unfold body, full. replace (S k <? h) with true by (symmetry; apply Nat.ltb_lt; lia). reflexivity. }
  assert (FLN : forall k s, nth_error strs k = Some s -> length (full k s) = w + 2) by (intros k s K; unfold full; rewrite !app_length, (LS k s K); destruct (k =? 0), (S k <? h); cbn [length]; lia).
  assert (E4 : even m ls4).
  { intros k l K. rewrite N4 in K. destruct (nth_error ls1 k) as [l1|] eqn:K1; [|destruct (nth_error strs k); discriminate]. destruct (E1 k l1 K1) as (EA & EB & EC).
    destruct (nth_error strs k) as [s|] eqn:KS; injection K as <-; cbn [fst snd write]; rewrite ?app_length, ?repeat_length; [rewrite (FLN k s KS)|]; unfold m; (split; [lia|]; split; [lia|]); apply flat_app; try exact EC; try apply flat_spaces.
    unfold full. apply flat_app; [destruct (k =? 0); apply flat_one; discriminate|]. apply flat_app; [|destruct (S k <? h); apply flat_one; discriminate]. apply nth_error_In in KS. pose proof (flat_split (etext e)) as FS. rewrite Forall_forall in FS. apply FS, KS. }
  assert (LAST : line_len ls4 (h - 1) = m) by (unfold line_len; destruct (GS (h - 1) ltac:(lia)) as [s K]; destruct (G1 (h - 1) ltac:(lia)) as [l K1]; pose proof (N4 (h - 1)) as Y; rewrite K, K1 in Y; rewrite Y; apply (E4 _ _ Y)).
  rewrite LAST, Nat.max_id. exists ls4. split; [reflexivity|]. split; [exact E4|]. split; [|split].
  - destruct (G1 0 ltac:(lia)) as [l K1]. destruct (GS 0 ltac:(lia)) as [s K]. pose proof (N4 0) as Y. rewrite K, K1 in Y. destruct ls4; discriminate.
  - apply (extends_trans _ _ _ X1). intros k l K. rewrite N4, K. destruct (E1 k l K). destruct (nth_error strs k) as [s|] eqn:KS; [eexists _, _; split; [reflexivity|]; rewrite app_length; lia|]. unfold write. eexists _, _. split; [reflexivity|lia].
  - intros k s K. destruct (G1 k) as [l K1]; [assert (k < h) by (unfold h; apply nth_error_Some; intros AB; unfold text in *; rewrite AB in K; discriminate); lia|]. pose proof (N4 k) as Y. rewrite K, K1 in Y. rewrite Y. destruct (E1 k l K1) as (EA & EB & _).
    exists (fst l ++ (if k =? 0 then [40%Z] else [124%Z])), (if S k <? h then [124%Z] else [41%Z]). eexists. split; [unfold full; rewrite <-!app_assoc; reflexivity|]. unfold full. rewrite !app_length, EA. destruct (k =? 0), (S k <? h); cbn [length]; lia.
Qed.

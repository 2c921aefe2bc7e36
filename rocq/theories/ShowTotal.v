(* When an array can be displayed. *)
From Coq Require Import String.
From Verif Require Import Value NumModel NumSpec ScanModel TextModel ShowModel ShowSpec ShowProofs ShowGrid ShowRect.
Open Scope list_scope.
Open Scope nat_scope.

Definition solid (e : elem) : Prop :=
  etext e <> [] /\ if is_scalar_elem e then flat (etext e) else 2 <= length (split_lines (etext e)) /\ exists w, 0 < w /\ Forall (fun l => length l = w) (split_lines (etext e)).
Fixpoint rising (n : nat) (cols : list nat) (m : nat) : Prop := match cols with [] => n <= m | c :: cols' => n < c /\ rising c cols' m end.
Fixpoint laid (spaces first : bool) (from : nat) (ls : list line) (es : list elem) : Prop :=
  match es with
  | [] => True
  | e :: es' => exists a w, from + gap spaces first <= a /\ Forall (fun s => length s = w) (split_lines (etext e)) /\ placed ls a (split_lines (etext e)) /\ laid spaces false (a + w) ls es'
  end.
Lemma laid_extends spaces ls ls' : extends ls ls' -> forall es first from, laid spaces first from ls es -> laid spaces first from ls' es.
Proof. intros X. induction es as [|e es IH]; intros first from L; [exact Logic.I|]. destruct L as (a & w & A & W & P & L). exists a, w. split; [exact A|]. split; [exact W|]. split; [apply (placed_extends _ _ _ _ X P)|apply IH, L]. Qed.
Lemma laid_from spaces ls : forall es first from from', from' <= from -> laid spaces first from ls es -> laid spaces first from' ls es.
Proof. destruct es as [|e es]; intros first from from' F L; [exact Logic.I|]. destruct L as (a & w & A & W & P & L). exists a, w. split; [lia|]. auto. Qed.
Lemma extends_refl ls : extends ls ls.
Proof. intros k l K. exists [], (snd l). rewrite app_nil_r. destruct l. split; [exact K|cbn; lia]. Qed.
Lemma rising_le : forall cols n m, rising n cols m -> n <= m.
Proof. induction cols as [|c cols IH]; intros n m R; [exact R|]. destruct R as [A B]. apply IH in B. lia. Qed.
Lemma put_solid spaces first e ls n : solid e -> even n ls -> (ls = [] <-> first = true) -> (first = true -> n = 0) ->
  exists ls' m a w, put_elem spaces first e ls = Ok (ls', m) /\ even m ls' /\ ls' <> [] /\ extends ls ls' /\ n + gap spaces first <= a /\ Forall (fun s => length s = w) (split_lines (etext e)) /\ placed ls' a (split_lines (etext e)) /\ a + w <= m /\ n < m.
Proof.
  intros [NE S] E FI Z. destruct (is_scalar_elem e) eqn:SC.
  - destruct (put_scalar spaces first e ls n SC S E FI Z) as (ls' & P & E' & N & X & PL). assert (0 < length (etext e)) by (destruct (etext e); [contradiction|cbn; lia]).
    exists ls', (n + gap spaces first + length (etext e)), (n + gap spaces first), (length (etext e)). rewrite (split_flat _ S). split; [exact P|]. split; [exact E'|]. split; [exact N|]. split; [exact X|]. split; [lia|]. split; [constructor; [reflexivity|constructor]|]. split; [exact PL|lia].
  - destruct S as (H & w & W0 & W). destruct (put_array spaces first e ls n w SC W H W0 E FI Z) as (ls' & P & E' & N & X & PL).
    exists ls', (n + gap spaces first + 2 + w), (n + gap spaces first + 1), w. split; [exact P|]. split; [exact E'|]. split; [exact N|]. split; [exact X|]. split; [lia|]. split; [exact W|]. split; [exact PL|lia].
Qed.
Lemma puts_solid spaces : forall es first ls n, Forall solid es -> even n ls -> (ls = [] <-> first = true) -> (first = true -> n = 0) ->
  exists ls' cols m, put_elems spaces first es ls = Ok (ls', cols) /\ even m ls' /\ (es = [] \/ ls' <> []) /\ length cols = length es /\ extends ls ls' /\ rising n cols m /\ laid spaces first n ls' es.
Proof.
  induction es as [|e es IH]; intros first ls n S E FI Z.
  - exists ls, [], n. split; [reflexivity|]. split; [exact E|]. split; [left; reflexivity|]. split; [reflexivity|]. split; [apply extends_refl|]. split; [cbn; lia|exact Logic.I].
  - inversion S as [|? ? S1 S2]; subst. destruct (put_solid spaces first e ls n S1 E FI Z) as (ls1 & m1 & a & w & P & E1 & N1 & X1 & A & W & PL & AW & NM).
    destruct (IH false ls1 m1 S2 E1) as (ls2 & cols & m & Q & E2 & N2 & LC & X2 & R & LD); [split; [intros C; contradiction|discriminate]|discriminate|].
    exists ls2, (m1 :: cols), m. cbn [put_elems]. rewrite P. cbn [bind fst snd]. rewrite Q. cbn [bind fst snd]. split; [reflexivity|]. split; [exact E2|]. split.
    { right. destruct ls1 as [|l1 ls1]; [contradiction|]. destruct (X2 0 l1 eq_refl) as (x & k & Y & _). destruct ls2; discriminate. }
    split; [cbn; lia|]. split; [apply (extends_trans _ _ _ X1 X2)|]. split; [split; [exact NM|exact R]|]. exists a, w. split; [exact A|]. split; [exact W|]. split; [apply (placed_extends _ _ _ _ X2 PL)|]. apply (laid_from _ _ _ _ m1); [exact AW|exact LD].
Qed.

(* ---- the lines of a matrix ---- *)
Definition tidy (e : elem) : Prop := flat (etext e) /\ item e <> [].
Definition displayable (es : list elem) : Prop := Forall tidy es \/ Forall solid es.
Lemma ends_rising : forall items n, Forall (fun t : text => t <> []) items -> rising n (ends false [] n items) (n + length (concat items)).
Proof.
  induction items as [|t items IH]; intros n F; [cbn; lia|]. inversion F as [|? ? F1 F2]; subst. cbn [ends rising concat length]. rewrite Nat.add_0_r, app_length, Nat.add_assoc. split; [destruct t; [contradiction|cbn; lia]|apply IH, F2].
Qed.
Lemma ends_len : forall items first sep n, length (ends first sep n items) = length items.
Proof. induction items as [|t items IH]; intros; [reflexivity|]. cbn [ends length]. rewrite IH. reflexivity. Qed.
Lemma even_nil : even 0 [].
Proof. intros k l K. destruct k; discriminate. Qed.
Lemma multi_ok es : displayable es -> exists lines cols m, multi_line es false false = Ok (lines, cols) /\ Forall (fun l => length l = m) lines /\ length cols = length es /\ rising 0 cols m /\ (es = [] \/ lines <> []).
Proof.
  intros [D|D].
  - exists [join [] (map item es)], (ends true [] 0 (map item es)), (length (concat (map item es))).
    rewrite multi_flat by (eapply Forall_impl; [|exact D]; intros e [H _]; exact H). split; [reflexivity|]. rewrite join_nil. split; [constructor; [reflexivity|constructor]|]. rewrite ends_len, map_length. split; [reflexivity|]. split; [|right; discriminate].
    assert (E : ends true [] 0 (map item es) = ends false [] 0 (map item es)) by (destruct (map item es); reflexivity). rewrite E. apply (ends_rising (map item es) 0). clear E. induction D as [|e es [_ H] D IH]; constructor; auto.
  - unfold multi_line. destruct (forallb is_scalar_elem es) eqn:S.
    + rewrite one_line_is by exact S. exists [glue true (sep_of false) [] (map item es)], (ends true (sep_of false) 0 (map item es)), (length (concat (map item es))). split; [reflexivity|]. rewrite ends_len, map_length. unfold glue. cbn [sep_of]. split.
      { constructor; [|constructor]. destruct (map item es) eqn:M; [reflexivity|]. cbn [app]. rewrite join_nil. reflexivity. }
      split; [reflexivity|]. split; [|right; discriminate].
      assert (E : ends true [] 0 (map item es) = ends false [] 0 (map item es)) by (destruct (map item es); reflexivity). rewrite E. apply (ends_rising (map item es) 0). clear E. revert S. induction D as [|e es [H _] D IH]; intros S; constructor; cbn in S; apply andb_prop in S; destruct S as [S1 S2]; [unfold item; rewrite S1; exact H|apply IH, S2].
    + destruct (puts_solid false es true [] 0 D even_nil) as (ls & cols & m & P & E & N & LC & X & R & L); [split; reflexivity|reflexivity|]. rewrite P. cbn [bind fst snd]. exists (map fst ls), cols, m. split; [reflexivity|]. split.
      { rewrite Forall_forall. intros l I. apply in_map_iff in I. destruct I as (x & <- & I). apply In_nth_error in I. destruct I as [k K]. apply (E k x K). }
      split; [exact LC|]. split; [exact R|]. destruct N as [N|N]; [left; exact N|right]. destruct ls; [contradiction|discriminate].
Qed.
(* widths *)
Definition grows (w w' : widths) : Prop := wmax w <= wmax w' /\ length (wid w) <= length (wid w') /\ forall j x, nth_error (wid w) j = Some x -> exists y, nth_error (wid w') j = Some y /\ x <= y.
Definition room (w : widths) (j x : nat) : Prop := x <= wmax w /\ exists y, nth_error (wid w) j = Some y /\ x <= y.
Lemma grows_refl w : grows w w.
Proof. repeat split; auto. intros j x J. exists x. auto. Qed.
Lemma grows_trans a b c : grows a b -> grows b c -> grows a c.
Proof. intros (A & B & C) (D & E & F). split; [lia|]. split; [lia|]. intros j x J. destruct (C j x J) as (y & Y & L). destruct (F j y Y) as (z & Z & L2). exists z. split; [exact Z|lia]. Qed.
Lemma room_grows w w' j x : grows w w' -> room w j x -> room w' j x.
Proof. intros (A & B & C) (D & y & Y & L). split; [lia|]. destruct (C j y Y) as (z & Z & L2). exists z. split; [exact Z|lia]. Qed.
Lemma room_column w j x : room w j x -> 0 < x -> exists y, column w j = Ok y /\ x <= y /\ 0 < y.
Proof. intros (A & y & Y & L) P. unfold column. destruct (wmax w <? widthThreshold); [exists (wmax w)|rewrite Y; exists y]; repeat split; lia. Qed.
Lemma max_nth_nth x : forall l i j, nth_error (max_nth l i x) j = if j =? i then option_map (Nat.max x) (nth_error l j) else nth_error l j.
Proof. induction l as [|y l IH]; intros [|i] [|j]; cbn [max_nth nth_error Nat.eqb]; try reflexivity; try (destruct (_ =? _); reflexivity). apply IH. Qed.
Lemma max_nth_len x : forall l i, length (max_nth l i x) = length l.
Proof. induction l as [|y l IH]; intros [|i]; cbn; auto. Qed.
Lemma add_ok w j x : j <= length (wid w) -> exists w', add_column w j x = Ok w' /\ grows w w' /\ room w' j x /\ length (wid w') = Nat.max (length (wid w)) (S j).
Proof.
  intros J. unfold add_column. destruct (Nat.ltb_spec j (length (wid w))) as [L|L].
  - eexists. split; [reflexivity|]. split; [|split].
    + split; [cbn; lia|]. cbn [wid]. rewrite max_nth_len. split; [lia|]. intros i y Y. rewrite max_nth_nth, Y. destruct (i =? j); [eexists; split; [reflexivity|lia]|exists y; auto].
    + split; [cbn; lia|]. cbn [wid]. rewrite max_nth_nth, Nat.eqb_refl. destruct (nth_error (wid w) j) as [y|] eqn:Y; [eexists; split; [reflexivity|lia]|]. apply nth_error_None in Y. lia.
    + cbn [wid]. rewrite max_nth_len. lia.
  - replace j with (length (wid w)) by lia. rewrite Nat.eqb_refl. eexists. split; [reflexivity|]. split; [|split].
    + split; [cbn; lia|]. cbn [wid]. rewrite app_length. split; [lia|]. intros i y Y. exists y. split; [|lia]. rewrite nth_error_app1; [exact Y|]. apply nth_error_Some. congruence.
    + split; [cbn; lia|]. cbn [wid]. exists x. split; [|lia]. rewrite nth_error_app2, Nat.sub_diag by lia. reflexivity.
    + cbn [wid]. rewrite app_length. cbn. lia.
Qed.
Lemma cut_rows_ok m lo hi j : lo < hi -> hi <= m -> forall lines w, Forall (fun l : text => length l = m) lines -> j <= length (wid w) ->
  exists cell w', cut_rows lines lo hi j w = Ok (cell, w') /\ length cell = length lines /\ Forall (fun s => length s = hi - lo) cell /\ grows w w' /\ (lines = [] \/ room w' j (hi - lo) /\ length (wid w') = Nat.max (length (wid w)) (S j)).
Proof.
  intros LH HM. induction lines as [|l lines IH]; intros w F J.
  - exists [], w. split; [reflexivity|]. split; [reflexivity|]. split; [constructor|]. split; [apply grows_refl|left; reflexivity].
  - pose proof (Forall_inv F) as F1. pose proof (Forall_inv_tail F) as F2. cbv beta in F1. cbn [cut_rows].
    assert (SL : slice l lo hi = Ok (firstn (hi - lo) (skipn lo l))). { unfold slice. replace (lo <=? hi) with true by (symmetry; apply Nat.leb_le; lia). unfold text in *. rewrite F1. replace (hi <=? m) with true by (symmetry; apply Nat.leb_le; lia). reflexivity. }
    assert (LS : length (firstn (hi - lo) (skipn lo l)) = hi - lo) by (rewrite firstn_length, skipn_length; unfold text in *; lia).
    destruct (add_ok w j (hi - lo) J) as (w1 & A & G & R & LW). destruct (IH w1 F2) as (cell & w2 & C & LC & FC & G2 & RC); [lia|].
    exists (firstn (hi - lo) (skipn lo l) :: cell), w2. split.
    { destruct l as [|x l]; [cbn in F1; lia|]. rewrite SL. cbn [bind]. rewrite LS, A. cbn [bind fst snd]. rewrite C. reflexivity. }
    split; [cbn; lia|]. split; [constructor; [exact LS|exact FC]|]. split; [apply (grows_trans _ _ _ G G2)|]. right. split; [apply (room_grows _ _ _ _ G2 R)|]. destruct RC as [-> | [_ RC]]; [|lia]. cbn in C. injection C as _ <-. exact LW.
Qed.
(* each cell has h lines, that fit in its column *)
Definition fits (k h : nat) (w : widths) (i : nat) (cells : list (list text)) : Prop :=
  forall n cell, nth_error cells n = Some cell -> length cell = h /\ Forall (fun s => exists y, column w ((i + n) mod k) = Ok y /\ length s <= y /\ 0 < y) cell.
Lemma cut_elems_ok k m lines : 0 < k -> lines <> [] -> Forall (fun l : text => length l = m) lines ->
  forall cols i lo w, rising lo cols m -> length (wid w) = Nat.min i k ->
  exists cells w', cut_elems lines cols i lo k w = Ok (cells, w') /\ length cells = length cols /\ grows w w' /\
    forall n cell, nth_error cells n = Some cell -> length cell = length lines /\ Forall (fun s => 0 < length s /\ room w' ((i + n) mod k) (length s)) cell.
Proof.
  intros K NE F. induction cols as [|c cols IH]; intros i lo w R W.
  - exists [], w. split; [reflexivity|]. split; [reflexivity|]. split; [apply grows_refl|]. intros [|n] cell X; discriminate.
  - destruct R as [R1 R2]. pose proof (rising_le _ _ _ R2) as CM. pose proof (Nat.mod_upper_bound i k ltac:(lia)) as MU. pose proof (Nat.mod_le i k ltac:(lia)) as ML.
    destruct (cut_rows_ok m lo c (i mod k) R1 CM lines w F) as (cell & w1 & C & LC & FC & G & RM); [lia|]. destruct RM as [RM|[RM LW]]; [contradiction|].
    destruct (IH (S i) c w1 R2) as (cells & w2 & C2 & LC2 & G2 & FC2).
    { rewrite LW, W. destruct (Nat.lt_ge_cases i k) as [Q|Q]; [rewrite Nat.mod_small by exact Q; lia|lia]. }
    exists (cell :: cells), w2. cbn [cut_elems]. rewrite C. cbn [bind fst snd]. rewrite C2. cbn [bind fst snd]. split; [reflexivity|]. split; [cbn; lia|]. split; [apply (grows_trans _ _ _ G G2)|].
    intros [|n] x X.
    + injection X as <-. split; [exact LC|]. rewrite Nat.add_0_r. eapply Forall_impl; [|exact FC]. cbv beta. intros s LS. unfold text in *. rewrite LS. split; [lia|apply (room_grows _ _ _ _ G2 RM)].
    + replace (i + S n) with (S i + n) by lia. apply (FC2 n x X).
Qed.
Lemma elem_strs_ok es k : 0 < k -> displayable es -> es <> [] -> exists cells w h, elem_strs es k = Ok (cells, w) /\ length cells = length es /\ 0 < h /\ fits k h w 0 cells.
Proof.
  intros K D NE. destruct (multi_ok es D) as (lines & cols & m & M & F & LC & R & N). destruct N as [N|N]; [contradiction|].
  destruct (cut_elems_ok k m lines K N F cols 0 0 (mkWidths [] 0) R) as (cells & w & C & L & G & FC); [cbn; lia|].
  exists cells, w, (length lines). unfold elem_strs. rewrite M. cbn [bind fst snd]. rewrite C. split; [reflexivity|]. split; [lia|]. split; [destruct lines; [contradiction|cbn; lia]|].
  intros n cell X. destruct (FC n cell X) as [A B]. split; [exact A|]. eapply Forall_impl; [|exact B]. cbv beta. intros s [P Q]. apply (room_column _ _ _ Q P) .
Qed.

(* ---- writing ---- *)
Lemma write_cells_ok h w line : line < h -> forall cells col b, cells <> [] -> (forall n cell, nth_error cells n = Some cell -> length cell = h /\ Forall (fun s => exists y, column w (col + n) = Ok y /\ length s <= y /\ 0 < y) cell) ->
  exists t, write_cells cells line col w b = Ok t /\ length b < length t.
Proof.
  intros LH. induction cells as [|strs cells IH]; intros col b NE F; [contradiction|]. cbn [write_cells]. destruct (F 0 strs eq_refl) as [LS FS]. destruct (@nth_error text strs line) as [s|] eqn:SE; [|apply nth_error_None in SE; unfold text in *; lia].
  rewrite Forall_forall in FS. destruct (FS s (nth_error_In _ _ SE)) as (y & C & L & P). rewrite Nat.add_0_r in C. rewrite C. cbn [bind]. unfold blanks_diff. destruct (Nat.leb_spec (length s) y) as [L2|L2]; [|unfold text in *; lia]. cbn [bind].
  match goal with |- context [write_cells cells line (S col) w ?x] => set (b1 := x) end. assert (B : length b < length b1) by (unfold b1; rewrite !app_length, repeat_length; unfold text in *; lia).
  destruct cells as [|c2 cells]; [exists b1; split; [reflexivity|exact B]|]. destruct (IH (S col) b1) as (t & T & LT); [discriminate|intros n cell X; specialize (F (S n) cell X); replace (S col + n) with (col + S n) by lia; exact F|]. exists t. split; [exact T|lia].
Qed.
Lemma write_lines_ok h w cells : cells <> [] -> (forall n cell, nth_error cells n = Some cell -> length cell = h /\ Forall (fun s => exists y, column w n = Ok y /\ length s <= y /\ 0 < y) cell) ->
  forall n line b, line + n <= h -> exists t, write_lines n line cells w b = Ok t /\ length b + n <= length t.
Proof.
  intros NE F. induction n as [|n IH]; intros line b L; [exists b; split; [reflexivity|lia]|]. cbn [write_lines]. destruct (write_cells_ok h w line ltac:(lia) cells 0 (if 0 <? line then b ++ [newline] else b) NE F) as (t & T & LT). rewrite T. cbn [bind].
  destruct (IH (S line) t ltac:(lia)) as (u & U & LU). exists u. split; [exact U|]. destruct (0 <? line); rewrite ?app_length in LT; lia.
Qed.
Lemma last_nonblank_lt h : forall strs line n, n < h -> line + length strs <= h -> last_nonblank line n strs < h.
Proof. induction strs as [|s strs IH]; intros line n N L; [exact N|]. cbn [last_nonblank length] in *. apply IH; [destruct (negb (blank_text s)); lia|lia]. Qed.
Lemma last_lines_lt h : forall cells n, n < h -> (forall k cell, nth_error cells k = Some cell -> length cell = h) -> fold_left (fun n strs => last_nonblank 0 n strs) cells n < h.
Proof. induction cells as [|c cells IH]; intros n N F; [exact N|]. cbn [fold_left]. apply IH; [apply last_nonblank_lt; [exact N|rewrite (F 0 c eq_refl); lia]|intros k cell K; apply (F (S k) cell K)]. Qed.
Lemma nth_firstn {A} (l : list A) k n x : nth_error (firstn k l) n = Some x -> n < k /\ nth_error l n = Some x.
Proof. revert k n. induction l as [|y l IH]; intros [|k] [|n] H; try discriminate; cbn [firstn nth_error] in *; [split; [lia|exact H]|]. destruct (IH k n H). split; [lia|assumption]. Qed.
Lemma nth_skip {A} (l : list A) k n : nth_error (skipn k l) n = nth_error l (k + n).
Proof. revert k. induction l as [|y l IH]; intros [|k]; cbn [skipn Nat.add nth_error]; try reflexivity; [destruct n; reflexivity|apply IH]. Qed.
Lemma write2d_ok k h w nested : 0 < k -> 0 < h -> forall nrows first (cells : list (list text)) (b : text) i, nrows * k <= length cells -> fits k h w (i * k) cells -> (first = true \/ b <> []) ->
  exists t, write2d nrows first k cells nested w b = Ok t /\ length b <= length t.
Proof.
  intros K H. induction nrows as [|nrows IH]; intros first cells b i L F B; [exists b; split; [reflexivity|lia]|]. cbn [write2d].
  match goal with |- context [bind ?y _] => set (x := y) end.
  assert (X : exists b1, x = Ok b1 /\ length b <= length b1).
  { unfold x. destruct first; [exists b; auto|]. destruct B as [B|B]; [discriminate|]. destruct nested; [|exists (b ++ [newline]); rewrite app_length; split; [reflexivity|lia]].
    destruct (rev b) as [|r rb] eqn:R; [exfalso; apply B; apply (f_equal (@rev Z)) in R; rewrite rev_involutive in R; exact R|]. eexists. split; [reflexivity|]. rewrite app_length. destruct (r =? newline)%Z; rewrite ?app_length; lia. }
  destruct X as (b1 & X & LB). rewrite X. cbn [bind]. cbn [Nat.mul] in L. replace (length cells <? k) with false by (symmetry; apply Nat.ltb_ge; lia).
  assert (FR : forall n cell, nth_error (firstn k cells) n = Some cell -> length cell = h /\ Forall (fun s => exists y, column w n = Ok y /\ length s <= y /\ 0 < y) cell).
  { intros n cell N. apply nth_firstn in N. destruct N as [N1 N2]. destruct (F n cell N2) as [A C]. split; [exact A|]. rewrite Nat.add_comm, Nat.mod_add, Nat.mod_small in C by lia. exact C. }
  assert (NE : firstn k cells <> []) by (destruct k; [lia|]; destruct cells; [cbn in L; lia|discriminate]).
  pose proof (last_lines_lt h (firstn k cells) 0 H (fun n cell N => proj1 (FR n cell N))) as LN. destruct (write_lines_ok h w _ NE FR (S (fold_left (fun n strs => last_nonblank 0 n strs) (firstn k cells) 0)) 0 b1 ltac:(lia)) as (t & T & LT). rewrite T. cbn [bind].
  destruct (IH false (skipn k cells) t (S i)) as (u & U & LU); [rewrite skipn_length; lia|intros n cell N; rewrite nth_skip in N; specialize (F (k + n) cell N); replace (S i * k + n) with (i * k + (k + n)) by lia; exact F|right; intros ->; cbn in LT; lia|].
  exists u. split; [exact U|lia].
Qed.
Lemma fits_firstn k h w i cells n : fits k h w i cells -> fits k h w i (firstn n cells).
Proof. intros F j cell J. apply nth_firstn in J. apply (F j cell), J. Qed.
Lemma write3d_ok k r h w nested : 0 < k -> 0 < h -> forall planes first (cells : list (list text)) (b : text) i, planes * (r * k) <= length cells -> fits k h w (i * k) cells -> exists t, write3d planes first r k cells nested w b = Ok t.
Proof.
  intros K H. induction planes as [|planes IH]; intros first cells b i L F; [exists b; reflexivity|]. cbn [write3d]. cbn [Nat.mul] in L. replace (length cells <? r * k) with false by (symmetry; apply Nat.ltb_ge; lia).
  destruct (write2d_ok k h w nested K H r true (firstn (r * k) cells) (if first then b else b ++ [newline; newline]) i) as (t & T & _); [rewrite firstn_length; lia|apply fits_firstn, F|left; reflexivity|]. rewrite T. cbn [bind].
  apply (IH false (skipn (r * k) cells) t (i + r)); [rewrite skipn_length; lia|]. intros n cell N. rewrite nth_skip in N. specialize (F _ cell N). replace ((i + r) * k + n) with (i * k + (r * k + n)) by lia. exact F.
Qed.
Lemma vec_ok es : displayable es -> exists t, show_vec es = Ok t.
Proof.
  intros D. unfold show_vec. set (sp := negb (forallb is_char es)). destruct D as [D|D].
  - rewrite multi_flat by (eapply Forall_impl; [|exact D]; intros e [H _]; exact H). eexists. reflexivity.
  - unfold multi_line. destruct (forallb is_scalar_elem es); [destruct (one_line sp true [] es); eexists; reflexivity|].
    destruct (puts_solid sp es true [] 0 D even_nil) as (ls & cols & m & P & _); [split; reflexivity|reflexivity|]. rewrite P. eexists. reflexivity.
Qed.
Definition prod (s : list nat) : nat := fold_right Nat.mul 1 s.
Lemma mat3_ok shape es : shape <> [] -> length shape <= 3 -> displayable es -> (prod shape = 0 -> es = []) -> prod shape <= length es -> exists t, show_mat3 shape es = Ok t.
Proof.
  intros NE L3 D Z L. unfold show_mat3. destruct shape as [|a [|b [|c [|d shape]]]]; [contradiction| | | |cbn in L3; lia].
  - apply vec_ok, D.
  - destruct (Nat.eqb_spec a 0) as [A|A]; [eexists; reflexivity|]. destruct (Nat.eqb_spec b 0) as [B|B]; [eexists; reflexivity|]. cbn [orb]. destruct (forallb is_char es) eqn:C; [eexists; reflexivity|].
    assert (N : es <> []) by (intros ->; discriminate). destruct (elem_strs_ok es b ltac:(lia) D N) as (cells & w & h & E & LC & H & F). rewrite E. cbn [bind fst snd].
    destruct (write2d_ok b h w (nested_matrix [a; b] es) ltac:(lia) H a true cells [] 0) as (t & T & _); [rewrite LC; cbn [prod fold_right] in L; lia|exact F|left; reflexivity|]. exists t. exact T.
  - destruct (forallb is_char es) eqn:C; [eexists; reflexivity|]. assert (N : es <> []) by (intros ->; discriminate).
    assert (P : c <> 0) by (intros ->; apply N, Z; cbn [prod fold_right]; lia). destruct (elem_strs_ok es c ltac:(lia) D N) as (cells & w & h & E & LC & H & F). rewrite E. cbn [bind fst snd].
    apply (write3d_ok c b h w _ ltac:(lia) H a true cells [] 0); [rewrite LC; cbn [prod fold_right] in L; lia|exact F].
Qed.
Lemma displayable_skipn es n : displayable es -> displayable (skipn n es).
Proof. intros [D|D]; [left|right]; rewrite <-(firstn_skipn n es) in D; apply Forall_app in D; apply D. Qed.
Lemma higher_ok origin : forall shape prefix n es, shape <> [] -> displayable es -> (prod shape = 0 -> es = []) -> prod shape <= length es -> exists t, higher_dim origin prefix n shape es = Ok t.
Proof.
  assert (LOW : forall shape es n, shape <> [] -> length shape <= 3 -> displayable es -> (prod shape = 0 -> es = []) -> prod shape <= length es -> exists t, (let! s := show_mat3 shape es in Ok (indent n s)) = Ok t).
  { intros shape es n NE L3 D Z L. destruct (mat3_ok shape es NE L3 D Z L) as [t T]. rewrite T. eexists. reflexivity. }
  induction shape as [|dim inner IH]; intros prefix n es NE D Z L; [contradiction|]. cbn [higher_dim].
  destruct inner as [|a [|b [|c inner]]]; [apply LOW; auto; cbn; lia|apply LOW; auto; cbn; lia|apply LOW; auto; cbn; lia|].
  set (shape := a :: b :: c :: inner) in *. change (fold_right Nat.mul 1 shape) with (prod shape). cbn [prod fold_right] in L, Z. change (fold_right Nat.mul 1 shape) with (prod shape) in L, Z.
  match goal with |- context [?f dim 0 es []] => set (blocks := f) end.
  assert (G : forall k i es b, displayable es -> (k * prod shape = 0 -> k = 0 \/ es = []) -> k * prod shape <= length es -> exists t, blocks k i es b = Ok t).
  { clear Z L D NE es. induction k as [|k IHk]; intros i es b0 D Z L; [exists b0; reflexivity|]. cbn [blocks]. fold blocks. cbn [Nat.mul] in L, Z.
    match goal with |- context [higher_dim origin ?p (S n) shape es] => destruct (IH p (S n) es) as [s S] end; [discriminate|exact D|intros P; destruct Z as [Z|Z]; [rewrite P; lia|discriminate|exact Z]|lia|].
    rewrite S. cbn [bind]. apply IHk; [apply displayable_skipn, D| |rewrite skipn_length; lia].
    intros P. destruct k as [|k]; [left; reflexivity|]. right. destruct Z as [Z|Z]; [destruct (prod shape); [lia|cbn in P; lia]|discriminate|]. rewrite Z. destruct (prod shape); reflexivity. }
  apply G; [exact D|intros P; right; apply Z, P|exact L].
Qed.
Theorem mat_ok_all origin shape es : shape <> [] -> displayable es -> length es = prod shape -> exists t, show_mat origin shape es = Ok t.
Proof.
  intros NE D L. assert (Z : prod shape = 0 -> es = []) by (intros P; destruct es; [reflexivity|cbn in L; lia]).
  unfold show_mat. destruct (Nat.leb_spec (length shape) 3) as [L3|L3]; [apply mat3_ok; auto; lia|apply higher_ok; auto; lia].
Qed.

(* Displays of arrays: alignment, totality, and what can be read off them. *)
From Coq Require Import String.
From Verif Require Import Value NumModel NumSpec ScanModel TextModel TextSpec TextProofs ShowModel ShowSpec ShowProofs ShowGrid ShowVals ShowRect ShowTotal.
Open Scope list_scope.
Open Scope nat_scope.

Lemma solid_block v t : block v t -> solid (elem_for v t).
Proof. intros [N B]. split; [exact N|]. destruct v; exact B. Qed.
Lemma tidy_line v t : line_elem v t -> tidy (elem_for v t).
Proof. intros [F N]. split; [exact F|]. rewrite item_inside. exact N. Qed.
Lemma solids : forall l ts, Forall2 block l ts -> Forall solid (zip_elems l ts).
Proof. induction 1; cbn [zip_elems]; constructor; auto using solid_block. Qed.
Lemma tidies : forall l ts, Forall2 line_elem l ts -> Forall tidy (zip_elems l ts).
Proof. induction 1; cbn [zip_elems]; constructor; auto using tidy_line. Qed.
Theorem display_ok : forall c origin l ts, Forall2 (fun v t => show c origin v = Ok t) l ts -> Forall2 line_elem l ts \/ Forall2 block l ts ->
  (exists t, show c origin (VVec l) = Ok t) /\ (forall s, s <> [] -> length l = fold_right Nat.mul 1 s -> exists t, show c origin (VMat s l) = Ok t).
Proof.
  intros c origin l ts F D. assert (DI : displayable (zip_elems l ts)) by (destruct D as [D|D]; [left; apply tidies, D|right; apply solids, D]). split.
  - rewrite show_vector, (elems_ok _ _ _ _ F). cbn [bind]. apply vec_ok, DI.
  - intros s NE L. rewrite show_matrix, (elems_ok _ _ _ _ F). cbn [bind]. apply mat_ok_all; [exact NE|exact DI|]. rewrite zip_len by (apply (F2_len _ _ _ F)). exact L.
Qed.

(* ---- alignment ---- *)
Lemma stands_firstn a (b s x : text) k : length b = a -> a + length s <= k -> stands_at a s (firstn k (b ++ s ++ x)).
Proof.
  intros B K. unfold stands_at. rewrite firstn_app, B. rewrite (firstn_all2 b) by (unfold text in *; lia). rewrite firstn_app. rewrite (firstn_all2 s) by lia.
  rewrite skipn_app, skipn_all2 by (unfold text in *; lia). rewrite B, Nat.sub_diag. cbn [skipn app]. rewrite firstn_app, Nat.sub_diag, firstn_all, firstn_O, app_nil_r. reflexivity.
Qed.
Definition cut (l : line) : text := firstn (snd l) (fst l).
Lemma laid_lines ls : forall es first from, laid true first from ls es -> laid_out (if first then from else S from) (map cut ls) (map (fun e => split_lines (etext e)) es).
Proof.
  induction es as [|e es IH]; intros first from L; [exact Logic.I|]. destruct L as (a & w & A & W & P & L). cbn [map laid_out]. exists a, w. split; [unfold gap in A; destruct first; cbn in A; lia|]. split.
  - intros n s N. split; [rewrite Forall_forall in W; apply W; eapply nth_error_In; exact N|]. destruct (P n s N) as (b & x & k & K & B & AK). exists (firstn k (b ++ s ++ x)). rewrite nth_error_map. split; [unfold text, line in *; rewrite K; reflexivity|apply stands_firstn; assumption].
  - apply (IH false) in L. replace (a + w + 1) with (S (a + w)) by lia. exact L.
Qed.
Lemma texts_zip : forall l ts, length l = length ts -> map (fun e => split_lines (etext e)) (zip_elems l ts) = map split_lines ts.
Proof. induction l as [|v l IH]; intros [|t ts] L; try discriminate; [reflexivity|]. cbn [zip_elems map etext elem_for]. rewrite IH by (injection L; auto). reflexivity. Qed.
Lemma flat_firstn n t : flat t -> flat (firstn n t).
Proof. intros F X. apply F. rewrite <-(firstn_skipn n t). apply in_or_app. left. exact X. Qed.
Theorem vector_laid_out : forall c origin l ts t, Forall2 (fun v t => show c origin v = Ok t) l ts -> Forall2 block l ts -> ~ Forall is_a_char l ->
  show c origin (VVec l) = Ok t -> laid_out 0 (split_lines t) (map split_lines ts).
Proof.
  intros c origin l ts t F B NC S. pose proof (F2_len _ _ _ F) as LL. rewrite show_vector, (elems_ok _ _ _ _ F) in S. cbn [bind] in S. unfold show_vec in S.
  destruct (forallb is_char (zip_elems l ts)) eqn:C; [apply all_chars_zip in C; [contradiction|exact LL]|]. cbn [negb] in S. rewrite <-(texts_zip l ts LL).
  destruct (puts_solid true (zip_elems l ts) true [] 0 (solids _ _ B) even_nil) as (ls & cols & m & P & E & N & _ & _ & _ & LD); [split; reflexivity|reflexivity|].
  destruct N as [N|N]; [rewrite N in C; discriminate|]. apply (laid_lines _ _ true) in LD. cbn [negb] in LD.
  unfold multi_line in S. destruct (forallb is_scalar_elem (zip_elems l ts)) eqn:SC.
  - rewrite one_line_is in S by exact SC. cbn [bind fst join] in S. injection S as <-. 
    assert (G : forall es first from (b : text), Forall (fun e => is_scalar_elem e = true /\ flat (etext e)) es -> length b = from -> (first = true -> b = []) -> flat b ->
      let T := glue first (sep_of true) b (map item es) in flat T /\ (exists x, T = b ++ x) /\ laid_out (if first then from else S from) [T] (map (fun e => split_lines (etext e)) es)).
    { clear. induction es as [|e es IH]; intros first from b FE LB FB FL T.
      - unfold T, glue. cbn [map]. split; [exact FL|]. split; [exists []; rewrite app_nil_r; reflexivity|exact Logic.I].
      - inversion FE as [|? ? [SE FE1] FE2]; subst x l. unfold T. cbn [map]. rewrite glue_cons. assert (I : item e = etext e) by (unfold item; rewrite SE; reflexivity). rewrite I.
        set (b1 := b ++ (if first then [] else sep_of true) ++ etext e). destruct (IH false (length b1) b1 FE2 eq_refl) as (G1 & (x & G2) & G3); [discriminate|unfold b1; apply flat_app; [exact FL|apply flat_app; [destruct first; [apply flat_nil|apply flat_one; discriminate]|exact FE1]]|].
        split; [exact G1|]. split; [exists (((if first then [] else sep_of true) ++ etext e) ++ x); rewrite G2; unfold b1; rewrite <-!app_assoc; reflexivity|].
        cbn [map laid_out]. exists (length b + (if first then 0 else 1)), (length (etext e)). split; [destruct first; lia|]. split.
        + intros n s N. rewrite (split_flat _ FE1) in N. destruct n as [|n]; [|destruct n; discriminate]. injection N as <-. split; [reflexivity|]. eexists. split; [reflexivity|]. rewrite G2. unfold b1.
          rewrite <-!app_assoc, app_assoc. rewrite <-(firstn_all ((b ++ (if first then [] else sep_of true)) ++ etext e ++ x)). apply stands_firstn; [rewrite app_length; destruct first; cbn; lia|rewrite !app_length; destruct first; cbn; lia].
        + replace (length b + (if first then 0 else 1) + length (etext e) + 1) with (S (length b1)) by (unfold b1; rewrite !app_length; destruct first; cbn; lia). exact G3. }
    destruct (G (zip_elems l ts) true 0 [] ) as (G1 & _ & G3); [|reflexivity|reflexivity|apply flat_nil|].
    { pose proof (solids _ _ B) as SO. rewrite Forall_forall in SO |- *. intros e I. rewrite forallb_forall in SC. specialize (SC e I). split; [exact SC|]. destruct (SO e I) as [_ Q]. rewrite SC in Q. exact Q. }
    change [space] with (sep_of true). rewrite (split_flat _ G1). exact G3.
  - rewrite P in S. cbn [bind fst snd] in S. injection S as <-. rewrite split_join; [exact LD|destruct ls; [contradiction|discriminate]|].
    rewrite Forall_forall. intros x I. apply in_map_iff in I. destruct I as (y & <- & I). apply In_nth_error in I. destruct I as [k K]. apply flat_firstn. apply (E k y K).
Qed.

(* ---- the lines of a grid ---- *)
Lemma rjust_len w t : length t <= w -> length (rjust w t) = w.
Proof. intros L. unfold rjust. rewrite app_length, repeat_length. lia. Qed.
Fixpoint total (ws : list nat) : nat := match ws with [] => 0 | w :: ws' => w + match ws' with [] => 0 | _ => 1 + total ws' end end.
Lemma grid_line_len : forall ws row, length ws = length row -> (forall j, j < length row -> length (nth j row []) <= nth j ws 0) -> length (grid_line ws row) = total ws.
Proof.
  induction ws as [|w ws IH]; intros [|t row] L G; try discriminate; [reflexivity|]. cbn [grid_line total]. rewrite app_length, rjust_len by (apply (G 0); cbn; lia). injection L as L. destruct row as [|t2 row]; [destruct ws; [reflexivity|discriminate]|].
  destruct ws as [|w2 ws]; [discriminate|]. cbn [length]. rewrite IH; [reflexivity|exact L|]. intros j J. apply (G (S j)). cbn [length] in *. lia.
Qed.
Lemma grid_line_flat : forall ws row, Forall flat row -> flat (grid_line ws row).
Proof.
  induction ws as [|w ws IH]; intros [|t row] F; try apply flat_nil. inversion F; subst. cbn [grid_line]. apply flat_app; [apply flat_app; [apply flat_spaces|assumption]|]. destruct row; [apply flat_nil|].
  apply (flat_app [space]); [apply flat_one; discriminate|apply IH; assumption].
Qed.
Lemma cell_flat c origin v t : cell c origin v t -> flat t.
Proof. intros (s & S & F & _ & -> & _). unfold inside. destruct v; try exact F; apply (flat_app [40%Z]); try (apply flat_one; discriminate); apply flat_app; try exact F; apply flat_one; discriminate. Qed.
Lemma cells_flat c origin rows trows : Forall2 (Forall2 (cell c origin)) rows trows -> Forall (Forall flat) trows.
Proof. induction 1 as [|row trow rows trows R F IH]; constructor; [|exact IH]. clear F IH. induction R as [|v t row trow C R IH]; constructor; [apply (cell_flat _ _ _ _ C)|exact IH]. Qed.
(* all lines of the display of a matrix have the same length *)
Theorem matrix_lines : forall c origin ncols rows trows t, 0 < ncols -> rows <> [] -> Forall (fun row => length row = ncols) rows -> Forall2 (Forall2 (cell c origin)) rows trows -> ~ Forall is_a_char (concat rows) ->
  show c origin (VMat [length rows; ncols] (concat rows)) = Ok t ->
  split_lines t = map (grid_line (grid_widths ncols trows)) trows /\ length (split_lines t) = length rows /\ exists w, 0 < w /\ Forall (fun l => length l = w) (split_lines t).
Proof.
  intros c origin k rows trows t K NE LR F NC S. rewrite (matrix_text c origin k rows trows K NE LR F NC) in S. injection S as <-.
  pose proof (F2_row_len _ _ _ _ F LR) as LT. pose proof (F2_len _ _ _ F) as LL. assert (NT : trows <> []) by (intros ->; destruct rows; [contradiction|discriminate]).
  assert (SP : split_lines (join [newline] (map (grid_line (grid_widths k trows)) trows)) = map (grid_line (grid_widths k trows)) trows).
  { apply split_join; [destruct trows; [contradiction|discriminate]|]. pose proof (cells_flat _ _ _ _ F) as FL. clear -FL. revert FL. generalize (grid_widths k trows). induction trows; intros ws FL; constructor; inversion FL; subst; [apply grid_line_flat; assumption|apply IHtrows; assumption]. }
  split; [exact SP|]. rewrite SP. split; [rewrite map_length; unfold text in *; lia|]. exists (total (grid_widths k trows)).
  assert (LEN : Forall (fun l : text => length l = total (grid_widths k trows)) (map (grid_line (grid_widths k trows)) trows)).
  { rewrite Forall_forall. intros x I. apply in_map_iff in I. destruct I as (row & <- & I). rewrite Forall_forall in LT. pose proof (LT row I) as LI. apply grid_line_len; [rewrite widths_len; unfold text in *; lia|]. intros j J. apply (grid_fits k trows); [rewrite Forall_forall; exact LT|exact I|unfold text in *; lia]. }
  split; [|exact LEN]. destruct trows as [|trow trows]; [contradiction|]. pose proof (Forall_inv LEN) as L1. cbv beta in L1. rewrite <-L1.
  destruct (grid_widths k (trow :: trows)) as [|w0 ws] eqn:GW; [pose proof (widths_len k (trow :: trows)) as WL; rewrite GW in WL; cbn in WL; lia|].
  inversion F as [|row0 ? rows0 ? F1 F2]; subst. pose proof (Forall_inv LT) as LT1. cbv beta in LT1. destruct trow as [|t trow]; [cbn in LT1; lia|]. inversion F1 as [|v ? row1 ? C _]; subst. destruct C as (s & _ & _ & _ & _ & NB). cbn [grid_line]. rewrite app_length. unfold rjust. rewrite app_length. destruct t; [contradiction|cbn [length]; lia].
Qed.
(* ---- numbers in a grid ---- *)
Lemma strip_spaces : forall a b x s y s', x <> space -> y <> space -> repeat space a ++ x :: s = repeat space b ++ y :: s' -> x :: s = y :: s'.
Proof.
  induction a as [|a IH]; intros [|b] x s y s' X Y E; cbn [repeat app] in E; [exact E|injection E as E1 _; contradiction|injection E as E1 _; congruence|]. injection E as E. apply (IH b); assumption.
Qed.
Lemma grid_inj : forall ws row, length ws = length row -> Forall word row -> forall ws' row', length ws' = length row' -> Forall word row' -> row <> [] -> row' <> [] -> grid_line ws row = grid_line ws' row' -> row = row'.
Proof.
  induction ws as [|w ws IH]; intros [|t row] L W [|w' ws'] [|t' row'] L' W' N N' E; try discriminate; try contradiction. inversion W as [|? ? [W1 W2] W3]; subst. inversion W' as [|? ? [V1 V2] V3]; subst. cbn [grid_line] in E. unfold rjust in E. rewrite <-!app_assoc in E.
  set (R := match row with [] => [] | _ => space :: grid_line ws row end) in *. set (R' := match row' with [] => [] | _ => space :: grid_line ws' row' end) in *.
  assert (Q : t ++ R = t' ++ R').
  { destruct t as [|x t]; [contradiction|]. destruct t' as [|y t']; [contradiction|]. cbn [app] in *. inversion W2; inversion V2; subst. apply (strip_spaces _ _ x _ y _) in E; [exact E|unfold space; lia|unfold space; lia]. }
  apply word_prefix in Q; [|exact W2|exact V2|unfold R; destruct row; cbn; [exact Logic.I|unfold space; lia]|unfold R'; destruct row'; cbn; [exact Logic.I|unfold space; lia]].
  destruct Q as [-> Q]. f_equal. unfold R, R' in Q. injection L as L. injection L' as L'. destruct row as [|t2 row], row' as [|t2' row']; try discriminate; [reflexivity|]. injection Q as Q. apply (IH _ L W3 ws' _ L' V3); [discriminate|discriminate|exact Q].
Qed.
Lemma F2_unconcat {A B} (R : A -> B -> Prop) : forall rows ts, Forall2 R (concat rows) ts -> exists trows, Forall2 (Forall2 R) rows trows /\ concat trows = ts.
Proof.
  induction rows as [|row rows IH]; intros ts F; [inversion F; exists []; split; [constructor|reflexivity]|]. cbn [concat] in F. apply Forall2_app_inv_l in F. destruct F as (t1 & t2 & F1 & F2 & ->). destruct (IH t2 F2) as (trows & G & <-). exists (t1 :: trows). split; [constructor; assumption|reflexivity].
Qed.
Section NUM.
Variables (c : pconf) (origin : Z).
Hypothesis L : legal_base (obase c).
Definition numcell (v : value) (t : text) : Prop := canonical_num v /\ print_num c v = Ok t /\ word t.
Lemma numcells : forall rows t k, Forall (Forall canonical_num) rows -> show c origin (VMat [length rows; k] (concat rows)) = Ok t -> exists trows, Forall2 (Forall2 numcell) rows trows.
Proof using L.
  intros rows t k C S. rewrite show_matrix in S. destruct (elems c origin (concat rows)) as [es| | |] eqn:E; try discriminate. destruct (elems_inv _ _ _ _ E) as (ts & F & _). destruct (F2_unconcat _ _ _ F) as (trows & G & _). exists trows. clear E F S.
  induction G as [|row trow rows trows R G IH]; constructor; [|apply IH, (Forall_inv_tail C)]. pose proof (Forall_inv C) as C1. clear -R C1 L. induction R as [|v t row trow S R IH]; constructor; [|apply IH, (Forall_inv_tail C1)]. pose proof (Forall_inv C1) as C2. cbv beta in S. rewrite canonical_show in S by exact C2. split; [exact C2|]. split; [exact S|apply (num_word c _ _ L S)].
Qed.
Lemma numcell_cell v t : numcell v t -> cell c origin v t.
Proof using L. intros (C & P & W). exists t. rewrite canonical_show by exact C. split; [exact P|]. split; [apply word_flat, W|]. destruct v; try contradiction; (split; [intros []|]; split; [reflexivity|apply W]). Qed.
Lemma numcells_cells rows trows : Forall2 (Forall2 numcell) rows trows -> Forall2 (Forall2 (cell c origin)) rows trows /\ Forall (Forall word) trows.
Proof using L. induction 1 as [|row trow rows trows R F [IH1 IH2]]; split; constructor; auto; clear F IH1 IH2; induction R as [|v t row trow C R IH]; constructor; auto; [apply numcell_cell, C|apply C]. Qed.
Lemma not_char_rows rows k : 0 < k -> rows <> [] -> Forall (fun row => length row = k) rows -> Forall (Forall canonical_num) rows -> ~ Forall is_a_char (concat rows).
Proof using. intros K NE LR C X. destruct rows as [|row rows]; [contradiction|]. pose proof (Forall_inv LR) as L1. pose proof (Forall_inv C) as C1. cbv beta in L1. destruct row as [|v row]; [cbn in L1; lia|]. apply Forall_inv in C1. cbn [concat app] in X. apply Forall_inv in X. destruct v; contradiction. Qed.
Lemma cells_inj : forall rows rows' trows, Forall2 (Forall2 numcell) rows trows -> Forall2 (Forall2 numcell) rows' trows -> rows = rows'.
Proof using L.
  intros rows rows' trows A. revert rows'. induction A as [|row trow rows trows R F IH]; intros rows' B; inversion B as [|row' ? rows2 ? R' F']; subst; [reflexivity|]. f_equal; [|apply IH, F'].
  clear -R R' L. revert row' R'. induction R as [|v t row trow C R IH]; intros row' R'; inversion R' as [|v' ? row2 ? C' R2]; subst; [reflexivity|]. f_equal; [|apply IH, R2]. destruct C as (C1 & C2 & _), C' as (D1 & D2 & _). apply (num_inj c v v' t L C1 D1 C2 D2).
Qed.
Theorem number_matrix_unique : forall k k' rows rows' t, 0 < k -> 0 < k' -> rows <> [] -> rows' <> [] -> Forall (fun row => length row = k) rows -> Forall (fun row => length row = k') rows' ->
  Forall (Forall canonical_num) rows -> Forall (Forall canonical_num) rows' ->
  show c origin (VMat [length rows; k] (concat rows)) = Ok t -> show c origin (VMat [length rows'; k'] (concat rows')) = Ok t -> k = k' /\ rows = rows'.
Proof using L.
  intros k k' rows rows' t K K' N N' LR LR' C C' S S'. destruct (numcells _ _ _ C S) as [trows F]. destruct (numcells _ _ _ C' S') as [trows' F'].
  destruct (numcells_cells _ _ F) as [FC W]. destruct (numcells_cells _ _ F') as [FC' W'].
  destruct (matrix_lines c origin k rows trows t K N LR FC (not_char_rows _ _ K N LR C) S) as (P & _). destruct (matrix_lines c origin k' rows' trows' t K' N' LR' FC' (not_char_rows _ _ K' N' LR' C') S') as (P' & _).
  pose proof (F2_row_len _ _ _ _ F LR) as LT. pose proof (F2_row_len _ _ _ _ F' LR') as LT'. rewrite P in P'.
  assert (T : trows = trows').
  { pose proof (widths_len k trows) as WL. pose proof (widths_len k' trows') as WL'. revert P'. generalize dependent (grid_widths k trows). generalize dependent (grid_widths k' trows'). intros ws' WL' ws _ WL E. clear -K K' LT LT' W W' WL WL' E. revert trows' LT' W' E.
    induction trows as [|r trows IH]; intros [|r' trows'] LT' W' E; try discriminate; [reflexivity|]. cbn [map] in E. injection E as E1 E2. pose proof (Forall_inv LT) as A; pose proof (Forall_inv LT') as A'; cbv beta in A, A'. f_equal.
    - apply (grid_inj ws r) with (ws' := ws'); [unfold text in *; lia|apply (Forall_inv W)|unfold text in *; lia|apply (Forall_inv W')|intros ->; cbn in A; lia|intros ->; cbn in A'; lia|exact E1].
    - apply IH; [apply (Forall_inv_tail W)|apply (Forall_inv_tail LT)|apply (Forall_inv_tail LT')|apply (Forall_inv_tail W')|exact E2]. }
  subst trows'. assert (R : rows = rows') by (apply (cells_inj _ _ trows); assumption). split; [|exact R]. subst rows'. destruct rows as [|row rows]; [contradiction|]. apply Forall_inv in LR, LR'. congruence.
Qed.
(* two arrays of numbers *)
Theorem number_vector_unique : forall l l' t, numbers (VVec l) -> numbers (VVec l') -> show c origin (VVec l) = Ok t -> show c origin (VVec l') = Ok t -> l = l'.
Proof using L.
  intros l l' t N N' S S'. destruct (numbers_unique c origin L (VVec l) N (VVec l') N' t t [] [] S S' Logic.I Logic.I eq_refl) as [E _]. injection E as ->. reflexivity.
Qed.
(* arrays of numbers and of matrices of numbers *)
Lemma num_matrix_block v t : num_matrix v -> show c origin v = Ok t -> block v t.
Proof using L.
  intros (k & rows & K & R & LR & C & ->) S. assert (N : rows <> []) by (intros ->; cbn in R; lia). destruct (numcells _ _ _ C S) as [trows F]. destruct (numcells_cells _ _ F) as [FC _].
  destruct (matrix_lines c origin k rows trows t K N LR FC (not_char_rows _ _ K N LR C) S) as (_ & LL & w & W0 & W). split; [intros ->; cbn in LL; lia|]. cbn [is_scalar_value]. split; [rewrite LL; exact R|exists w; split; assumption].
Qed.
Lemma num_block v t : canonical_num v -> show c origin v = Ok t -> block v t.
Proof using L. intros C S. rewrite canonical_show in S by exact C. pose proof (num_word c _ _ L S) as W. split; [apply W|]. destruct v; try contradiction; cbn; apply word_flat, W. Qed.
Theorem matrices_display : forall l ts, Forall2 (fun v t => show c origin v = Ok t) l ts -> Forall (fun v => canonical_num v \/ num_matrix v) l -> Forall2 block l ts.
Proof using L. induction 1 as [|v t l ts S F IH]; intros A; constructor; [|apply IH, (Forall_inv_tail A)]. destruct (Forall_inv A) as [C|C]; [apply num_block|apply num_matrix_block]; assumption. Qed.
End NUM.

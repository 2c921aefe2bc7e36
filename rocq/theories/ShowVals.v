(* Arrays of values as text. *)
From Coq Require Import String.
From Verif Require Import Value NumModel NumSpec ArrSel ScanModel TextModel TextSpec TextProofs ShowModel ShowSpec ShowProofs ShowGrid.
Open Scope list_scope.
Open Scope nat_scope.

Section Vals.
Variable c : pconf.
Variable origin : Z.
Notation show := (show c origin).
Fixpoint elems (l : list value) : res (list elem) :=
  match l with
  | [] => Ok []
  | x :: l' => let! s := show x in let! es := elems l' in Ok (mkElem (kind_of x) s :: es)
  end.
Lemma show_vector l : show (VVec l) = let! es := elems l in show_vec es.
Proof using Type. reflexivity. Qed.
Lemma show_matrix s l : show (VMat s l) = let! es := elems l in show_mat origin s es.
Proof using Type. reflexivity. Qed.
Definition elem_for (v : value) (t : text) : elem := mkElem (kind_of v) t.
Fixpoint zip_elems (l : list value) (ts : list text) : list elem :=
  match l, ts with v :: l', t :: ts' => elem_for v t :: zip_elems l' ts' | _, _ => [] end.
Lemma elems_ok l ts : Forall2 (fun v t => show v = Ok t) l ts -> elems l = Ok (zip_elems l ts).
Proof using Type. induction 1 as [|v t l ts E F IH]; [reflexivity|]. cbn [elems]. rewrite E. cbn [bind]. rewrite IH. reflexivity. Qed.
Lemma elems_inv l : forall es, elems l = Ok es -> exists ts, Forall2 (fun v t => show v = Ok t) l ts /\ es = zip_elems l ts.
Proof using Type.
  induction l as [|v l IH]; intros es E; cbn [elems] in E; [injection E as <-; exists []; split; [constructor|reflexivity]|].
  destruct (show v) as [t| | |] eqn:S; try discriminate. cbn [bind] in E. destruct (elems l) as [es'| | |] eqn:E2; try discriminate. cbn [bind] in E. injection E as <-.
  destruct (IH es' eq_refl) as (ts & F & ->). exists (t :: ts). split; [constructor; assumption|reflexivity].
Qed.
Lemma item_inside v t : item (elem_for v t) = inside v t.
Proof using Type. destruct v; reflexivity. Qed.
Lemma items_inside : forall l ts, map item (zip_elems l ts) = insides l ts.
Proof using Type. induction l as [|v l IH]; intros [|t ts]; try reflexivity. cbn [zip_elems map insides]. rewrite IH, item_inside. reflexivity. Qed.
Lemma flats : forall l ts, Forall flat ts -> Forall (fun e => flat (etext e)) (zip_elems l ts).
Proof using Type. induction l as [|v l IH]; intros [|t ts] F; cbn [zip_elems]; constructor; inversion F; subst; auto. Qed.
Lemma all_chars_zip : forall l (ts : list text), length l = length ts -> forallb is_char (zip_elems l ts) = true <-> Forall is_a_char l.
Proof using Type.
  induction l as [|v l IH]; intros [|t ts] L; try discriminate; [split; [constructor|reflexivity]|]. cbn [zip_elems forallb]. injection L as L. rewrite andb_true_iff, IH by exact L. split.
  - intros [A B]. constructor; [destruct v; try discriminate; exact Logic.I|exact B].
  - intros F. inversion F as [|? ? F1 F2]; subst. split; [destruct v; try contradiction; reflexivity|exact F2].
Qed.
Lemma F2_len {A B} (R : A -> B -> Prop) l m : Forall2 R l m -> length l = length m.
Proof using Type. induction 1; cbn; congruence. Qed.
(* a vector whose elements take one line each *)
Theorem vector_text : forall l ts, Forall2 (fun v t => show v = Ok t) l ts -> Forall flat ts -> ~ Forall is_a_char l -> show (VVec l) = Ok (join [space] (insides l ts)).
Proof using Type.
  intros l ts F FL NC. rewrite show_vector, (elems_ok l ts F). cbn [bind]. unfold show_vec. rewrite multi_flat by (apply flats, FL). cbn [bind fst]. rewrite items_inside.
  destruct (forallb is_char (zip_elems l ts)) eqn:E; [apply all_chars_zip in E; [contradiction|apply (F2_len _ _ _ F)]|]. reflexivity.
Qed.
Theorem string_text : forall rs, show (VVec (map VChar rs)) = Ok (concat (map char_text rs)).
Proof using Type.
  intros rs. assert (F : Forall2 (fun v t => show v = Ok t) (map VChar rs) (map char_text rs)) by (induction rs; constructor; auto). rewrite show_vector, (elems_ok _ _ F). cbn [bind]. unfold show_vec.
  assert (C : forallb is_char (zip_elems (map VChar rs) (map char_text rs)) = true) by (apply all_chars_zip; [rewrite !map_length; reflexivity|induction rs; constructor; cbn; auto; apply IHrs; inversion F; assumption]).
  rewrite C. unfold multi_line. assert (S : forallb is_scalar_elem (zip_elems (map VChar rs) (map char_text rs)) = true) by (clear; induction rs; [reflexivity|exact IHrs]). rewrite S.
  rewrite one_line_is by exact S. cbn [negb sep_of bind fst join]. unfold glue. rewrite items_inside. rewrite join_nil.
  assert (I : insides (map VChar rs) (map char_text rs) = map char_text rs) by (clear; induction rs; [reflexivity|cbn [map insides]; rewrite IHrs; reflexivity]). rewrite I. destruct (map char_text rs); reflexivity.
Qed.

(* ---- matrices ---- *)
Lemma cells_split : forall row trow, Forall2 (cell c origin) row trow -> exists ts, Forall2 (fun v t => show v = Ok t) row ts /\ Forall flat ts /\ insides row ts = trow /\ Forall (fun t => t <> []) trow /\ Forall (fun v => ~ is_matrix v) row.
Proof using Type.
  induction 1 as [|v t row trow (s & S & FS & M & E & N) F IH]; [exists []; repeat split; constructor|]. destruct IH as (ts & A & B & C & D & G). exists (s :: ts). subst. cbn [insides]. repeat split; try constructor; auto.
Qed.
Lemma F2_concat {A B} (R : A -> B -> Prop) l m : Forall2 (Forall2 R) l m -> Forall2 R (concat l) (concat m).
Proof using Type. induction 1; cbn; [constructor|apply Forall2_app; assumption]. Qed.
Lemma no_mats : forall l ts, Forall (fun v => ~ is_matrix v) l -> filter is_mat (zip_elems l ts) = [].
Proof using Type. induction l as [|v l IH]; intros [|t ts] F; try reflexivity. inversion F as [|? ? F1 F2]; subst. cbn [zip_elems filter]. rewrite IH by exact F2. destruct v; try reflexivity. exfalso. apply F1. exact Logic.I. Qed.
Lemma zip_len : forall l (ts : list text), length l = length ts -> length (zip_elems l ts) = length l.
Proof using Type. induction l as [|v l IH]; intros [|t ts] L; try discriminate; [reflexivity|]. cbn in *. rewrite IH by congruence. reflexivity. Qed.
Lemma concat_len {A} k : forall rows : list (list A), Forall (fun row => length row = k) rows -> length (concat rows) = length rows * k.
Proof using Type. induction rows as [|row rows IH]; intros F; [reflexivity|]. inversion F; subst. cbn [concat length]. rewrite app_length, IH by assumption. reflexivity. Qed.
Lemma F2_row_len {A B} (R : A -> B -> Prop) k l m : Forall2 (Forall2 R) l m -> Forall (fun row => length row = k) l -> Forall (fun row => length row = k) m.
Proof using Type. induction 1 as [|x y l m E F IH]; intros H; [constructor|]. inversion H; subst. constructor; [symmetry; apply (F2_len _ _ _ E)|auto]. Qed.
Theorem matrix_text : forall ncols rows trows, 0 < ncols -> rows <> [] -> Forall (fun row => length row = ncols) rows -> Forall2 (Forall2 (cell c origin)) rows trows -> ~ Forall is_a_char (concat rows) ->
  show (VMat [length rows; ncols] (concat rows)) = Ok (join [newline] (map (grid_line (grid_widths ncols trows)) trows)).
Proof using Type.
  intros k rows trows K NE LR F NC. destruct (cells_split _ _ (F2_concat _ _ _ F)) as (ts & A & B & C & D & G). rewrite show_matrix, (elems_ok _ _ A). cbn [bind]. unfold show_mat. cbn [length Nat.leb]. unfold show_mat3.
  replace (length rows =? 0) with false by (symmetry; apply Nat.eqb_neq; destruct rows; [contradiction|discriminate]). replace (k =? 0) with false by (symmetry; apply Nat.eqb_neq; lia). cbn [orb].
  pose proof (F2_len _ _ _ A) as LA. destruct (forallb is_char (zip_elems (concat rows) ts)) eqn:E; [apply all_chars_zip in E; [contradiction|exact LA]|].
  rewrite elem_strs_flat by (rewrite ?items_inside, ?C; auto using flats). cbn [bind fst snd]. rewrite items_inside, C.
  pose proof (F2_row_len _ _ _ _ F LR) as LT. pose proof (F2_len _ _ _ F) as LN. assert (NT : trows <> []) by (intros ->; destruct rows; [contradiction|discriminate]).
  rewrite LN. rewrite (write2d_flat k (grid_widths k trows)).
  - unfold glue. destruct (map (grid_line (grid_widths k trows)) trows) eqn:Q; [destruct trows; [contradiction|discriminate]|reflexivity].
  - apply widths_len.
  - intros j J. apply column_is; auto.
  - exact LT.
  - apply grid_fits, LT.
  - intros N. right. split; [|reflexivity]. unfold nested_matrix in N. cbn [length Nat.ltb Nat.leb] in N. rewrite no_mats in N by exact G. cbn [length] in N. apply Nat.leb_le in N. rewrite zip_len in N by exact LA.
    rewrite (concat_len k _ LR) in N. rewrite <-LN. assert (length rows * k < 2) by (destruct (Nat.lt_ge_cases (length rows * k) 2) as [|Q]; [assumption|]; pose proof (Nat.div_le_mono 2 (length rows * k) 2 ltac:(lia) Q) as W; change (2 / 2) with 1 in W; lia).
    destruct rows as [|r1 [|r2 rows]]; [contradiction|reflexivity|]. cbn [length] in *. nia.
Qed.
(* planes *)
Lemma write3d_flat k n ws w nested : 0 < n -> length ws = k -> (forall j, j < k -> column w j = Ok (nth j ws 0)) ->
  forall (planes : list (list (list text))) first b, Forall (fun plane => length plane = n) planes -> Forall (Forall (fun row => length row = k)) planes ->
  (forall row j, In row (concat planes) -> j < k -> length (nth j row []) <= nth j ws 0) -> (nested = true -> n = 1) ->
  write3d (length planes) first n k (map (fun t : text => [t]) (concat (concat planes))) nested w b = Ok (glue first [newline; newline] b (map (fun plane => join [newline] (map (grid_line ws) plane)) planes)).
Proof using Type.
  intros N LW C. induction planes as [|plane planes IH]; intros first b LP LR G NE; [reflexivity|]. pose proof (Forall_inv LP) as P1; pose proof (Forall_inv_tail LP) as P2; pose proof (Forall_inv LR) as R1; pose proof (Forall_inv_tail LR) as R2; cbv beta in *.
  cbn [length write3d concat]. rewrite concat_app, map_app. assert (ML : length (map (fun t : text => [t]) (concat plane)) = n * k) by (rewrite map_length, (concat_len k _ R1), P1; reflexivity).
  rewrite app_length, ML. replace (n * k + _ <? n * k) with false by (symmetry; apply Nat.ltb_ge; lia). rewrite firstn_app, skipn_app, ML, Nat.sub_diag, firstn_O, app_nil_r. rewrite firstn_all2, skipn_all2 by (rewrite ML; apply Nat.le_refl). cbn [skipn app].
  assert (W2 : forall b, write2d n true k (map (fun t : text => [t]) (concat plane)) nested w b = Ok (glue true [newline] b (map (grid_line ws) plane))).
  { intros b0. rewrite <-P1. apply write2d_flat; [exact LW|exact C|exact R1|intros row j I; apply G; cbn [concat]; apply in_or_app; left; exact I|]. intros X. right. split; [rewrite P1; apply NE, X|reflexivity]. }
  rewrite W2.
  cbn [bind]. rewrite IH.
  - cbn [map]. rewrite glue_cons. f_equal. f_equal. unfold glue. destruct (map (grid_line ws) plane) as [|g gs] eqn:Q; [destruct plane; [cbn in P1; lia|discriminate]|]. destruct first; cbn [app]; rewrite <-?app_assoc; reflexivity.
  - exact P2.
  - exact R2.
  - intros row j I. apply G. cbn [concat]. apply in_or_app. right. exact I.
  - exact NE.
Qed.
Theorem planes_text : forall nrows ncols planes tplanes, 0 < ncols -> 0 < nrows -> planes <> [] -> Forall (fun plane => length plane = nrows) planes -> Forall (Forall (fun row => length row = ncols)) planes ->
  Forall2 (Forall2 (Forall2 (cell c origin))) planes tplanes -> ~ Forall is_a_char (concat (concat planes)) ->
  show (VMat [length planes; nrows; ncols] (concat (concat planes))) =
    Ok (join [newline; newline] (map (fun plane => join [newline] (map (grid_line (grid_widths ncols (concat tplanes))) plane)) tplanes)).
Proof using Type.
  intros n k planes tplanes K N NE LP LR F NC. pose proof (F2_concat _ _ _ F) as F1. destruct (cells_split _ _ (F2_concat _ _ _ F1)) as (ts & A & B & C & D & G). rewrite show_matrix, (elems_ok _ _ A). cbn [bind]. unfold show_mat. cbn [length Nat.leb]. unfold show_mat3.
  pose proof (F2_len _ _ _ A) as LA. destruct (forallb is_char (zip_elems (concat (concat planes)) ts)) eqn:E; [apply all_chars_zip in E; [contradiction|exact LA]|].
  rewrite elem_strs_flat by (rewrite ?items_inside, ?C; auto using flats). cbn [bind fst snd]. rewrite items_inside, C.
  assert (LC : Forall (fun row => length row = k) (concat planes)) by (clear -LR; induction LR; cbn; [constructor|apply Forall_app; auto]).
  pose proof (F2_row_len _ _ _ _ F1 LC) as LT. pose proof (F2_len _ _ _ F) as LN. pose proof (F2_row_len _ _ _ _ F LP) as LQ.
  assert (LS : Forall (Forall (fun row => length row = k)) tplanes) by (clear -F LR; induction F as [|x y l m E F IH]; [constructor|]; inversion LR; subst; constructor; [apply (F2_row_len _ _ _ _ E); assumption|auto]).
  assert (NT : tplanes <> []) by (intros ->; destruct planes; [contradiction|discriminate]).
  assert (NR : concat tplanes <> []) by (destruct tplanes as [|p ps]; [contradiction|]; inversion LQ; subst; destruct p; [cbn in N; lia|discriminate]).
  rewrite LN. rewrite (write3d_flat k n (grid_widths k (concat tplanes))).
  - unfold glue. destruct tplanes; [contradiction|reflexivity].
  - exact N.
  - apply widths_len.
  - intros j J. apply column_is; auto.
  - exact LQ.
  - exact LS.
  - apply grid_fits, LT.
  - intros X. unfold nested_matrix in X. cbn [length Nat.ltb Nat.leb] in X. rewrite no_mats in X by exact G. cbn [length] in X. apply Nat.leb_le in X. rewrite zip_len in X by exact LA.
    rewrite (concat_len k _ LC), (concat_len n _ LP) in X. assert (length planes * n * k < 2) by (destruct (Nat.lt_ge_cases (length planes * n * k) 2) as [|Q]; [assumption|]; pose proof (Nat.div_le_mono 2 (length planes * n * k) 2 ltac:(lia) Q) as W; change (2 / 2) with 1 in W; lia).
    destruct planes as [|p1 planes]; [contradiction|]. cbn [length] in *. nia.
Qed.
(* chars *)
Lemma chunks_concat {A} k : forall rows : list (list A), Forall (fun row => length row = k) rows -> chunks (length rows) k (concat rows) = rows.
Proof using Type.
  induction rows as [|row rows IH]; intros F; [reflexivity|]. pose proof (Forall_inv F) as F1; pose proof (Forall_inv_tail F) as F2; cbv beta in *. cbn [length chunks concat]. rewrite firstn_app, skipn_app, F1, Nat.sub_diag, firstn_O, app_nil_r.
  rewrite firstn_all2, skipn_all2 by (rewrite F1; apply Nat.le_refl). cbn [skipn app]. rewrite IH by exact F2. reflexivity.
Qed.
Definition char_elem (r : Z) : elem := mkElem KChar (char_text r).
Lemma chars_zip rs : elems (map VChar rs) = Ok (map char_elem rs).
Proof using Type. induction rs as [|r rs IH]; [reflexivity|]. cbn [map elems]. cbn [ShowModel.show bind]. rewrite IH. reflexivity. Qed.
Theorem char_matrix_text : forall ncols rows, 0 < ncols -> rows <> [] -> Forall (fun row => length row = ncols) rows ->
  show (VMat [length rows; ncols] (map VChar (concat rows))) = Ok (join [newline] (map (fun row => concat (map char_text row)) rows)).
Proof using Type.
  intros k rows K NE LR. rewrite show_matrix, chars_zip. cbn [bind]. unfold show_mat. cbn [length Nat.leb]. unfold show_mat3, show_chars2.
  replace (length rows =? 0) with false by (symmetry; apply Nat.eqb_neq; destruct rows; [contradiction|discriminate]). replace (k =? 0) with false by (symmetry; apply Nat.eqb_neq; lia). cbn [orb].
  assert (C : forallb is_char (map char_elem (concat rows)) = true) by (apply forallb_forall; intros x X; apply in_map_iff in X; destruct X as (r & <- & _); reflexivity). rewrite C.
  rewrite concat_map. rewrite <-(map_length (map char_elem) rows). rewrite (chunks_concat k) by (apply Forall_forall; intros x X; apply in_map_iff in X; destruct X as (r & <- & I); rewrite map_length; rewrite Forall_forall in LR; apply LR, I).
  rewrite map_map. do 2 f_equal. apply map_ext. intros row. rewrite map_map. reflexivity.
Qed.
End Vals.

(* ---- numbers ---- *)
Definition word (t : text) : Prop := t <> [] /\ Forall (fun r => (41 < r)%Z) t.
Lemma word_flat t : word t -> flat t.
Proof. intros [_ F] I. rewrite Forall_forall in F. specialize (F _ I). unfold newline in F. lia. Qed.
Lemma int_word b z : legal_base b -> word (format_int (real_base b) z).
Proof.
  intros L. destruct (format_chars (real_base b) z) as [F N]; [unfold real_base; destruct L as [-> | L]; [cbn; lia|destruct (b =? 0)%Z; lia]|]. split; [exact N|].
  eapply Forall_impl; [|exact F]. intros r [-> | R]; lia.
Qed.
Lemma word_join a x b : word a -> (41 < x)%Z -> word b -> word (a ++ [x] ++ b).
Proof. intros [A1 A2] X [B1 B2]. split; [destruct a; [contradiction|discriminate]|]. apply Forall_app. split; [exact A2|]. apply Forall_app. split; [constructor; [exact X|constructor]|exact B2]. Qed.
Lemma real_word c v t : legal_base (obase c) -> print_real c v = Ok t -> word t.
Proof.
  intros L P. destruct v as [z|z|z|q|a b|l|s l]; try discriminate; cbn [print_real] in P.
  - injection P as <-. apply int_word, L.
  - apply print_big_int in P. rewrite P. apply int_word, L.
  - destruct (print_big c (Qnum q)) as [n| | |] eqn:P1; try discriminate. cbn [bind] in P. destruct (print_big c (Z.pos (Qden q))) as [d| | |] eqn:P2; try discriminate. cbn [bind] in P. injection P as <-.
    apply print_big_int in P1, P2. change (n ++ 47%Z :: d) with (n ++ [47%Z] ++ d). apply word_join; [rewrite P1; apply int_word, L|lia|rewrite P2; apply int_word, L].
Qed.
Lemma num_word c v t : legal_base (obase c) -> print_num c v = Ok t -> word t.
Proof.
  intros L P. destruct v as [z|z|z|q|a b|l|s l]; try (apply (real_word c _ _ L P)). cbn [print_num] in P.
  destruct (print_real c a) as [x| | |] eqn:P1; try discriminate. cbn [bind] in P. destruct (print_real c b) as [y| | |] eqn:P2; try discriminate. cbn [bind] in P. injection P as <-.
  change (x ++ 106%Z :: y) with (x ++ [106%Z] ++ y). apply word_join; [apply (real_word c _ _ L P1)|lia|apply (real_word c _ _ L P2)].
Qed.
Lemma canonical_show c o v : canonical_num v -> show c o v = print_num c v.
Proof. destruct v; try reflexivity; try contradiction; cbn; intros []. Qed.
Lemma num_inj c v w t : legal_base (obase c) -> canonical_num v -> canonical_num w -> print_num c v = Ok t -> print_num c w = Ok t -> v = w.
Proof.
  intros L V W P Q. pose proof (print_parse (obase c) (obase c) L eq_refl c v t eq_refl V P) as A. pose proof (print_parse (obase c) (obase c) L eq_refl c w t eq_refl W Q) as B. congruence.
Qed.

(* how numbers and vectors of them are read off their text *)
Section Read.
Variable c : pconf.
Variable origin : Z.
Hypothesis L : legal_base (obase c).
Notation show := (show c origin).
Lemma numbers_all : forall l, numbers (VVec l) <-> Forall numbers l.
Proof using Type. induction l as [|v l IH]; [split; [constructor|intros; exact Logic.I]|]. cbn [numbers] in *. rewrite IH. split; [intros [A B]; constructor; assumption|intros F; inversion F; auto]. Qed.
Lemma not_chars l : Forall numbers l -> l <> [] -> ~ Forall is_a_char l.
Proof using Type. intros N NE F. destruct l as [|v l]; [contradiction|]. inversion N; inversion F; subst. destruct v; contradiction. Qed.
(* what the text of a vector of numbers is *)
Lemma numbers_text : forall v, numbers v -> forall t, show v = Ok t -> flat t /\ (canonical_num v /\ word t \/ exists l ts, v = VVec l /\ Forall2 (fun v t => show v = Ok t) l ts /\ t = join [space] (insides l ts)).
Proof using L.
  induction v as [n|ch|b|q|a b IHa IHb|l H0|s l H0] using value_ind'; intros N t S; cbn [numbers] in N; try (rewrite canonical_show in S by exact N; pose proof (num_word c _ _ L S) as W; split; [apply word_flat, W|left; split; [exact N|exact W]]); try contradiction.
  change (numbers (VVec l)) in N. rewrite numbers_all in N. rewrite show_vector in S. destruct (elems c origin l) as [es| | |] eqn:E; try discriminate. destruct (elems_inv _ _ _ _ E) as (ts & F & ->).
  assert (FL : Forall flat ts). { clear S E. revert H0 N. induction F as [|x y l ts SX F IH]; intros H0 N; [constructor|]. pose proof (Forall_inv H0) as HA; pose proof (Forall_inv N) as NA; constructor; [apply (HA NA y SX)|apply IH; [exact (Forall_inv_tail H0)|exact (Forall_inv_tail N)]]. }
  destruct l as [|v l].
  - inversion F; subst. cbn in S. injection S as <-. split; [intros []|]. right. exists [], []. repeat split; constructor.
  - assert (S2 : show (VVec (v :: l)) = Ok (join [space] (insides (v :: l) ts))) by (apply vector_text; [exact F|exact FL|apply not_chars; [exact N|discriminate]]).
    rewrite show_vector, E in S2. rewrite S in S2. injection S2 as ->. split.
    + assert (FI : forall (l : list value) ts, Forall flat ts -> flat (join [space] (insides l ts))).
      { clear. induction l as [|v l IH]; intros [|t ts] F I; try (exact I). inversion F as [|? ? F1 F2]; subst. assert (IN : flat (inside v t)) by (intros X; apply F1; destruct v; try exact X; (cbn [inside] in X; apply in_app_or in X; destruct X as [[X|[]]|X]; [discriminate|apply in_app_or in X; destruct X as [X|[X|[]]]; [exact X|discriminate]])).
        cbn [insides] in I. destruct (insides l ts) as [|i is] eqn:Q; [apply IN, I|]. change (join [space] (inside v t :: i :: is)) with (inside v t ++ [space] ++ join [space] (i :: is)) in I.
        apply in_app_or in I. destruct I as [I|I]; [apply IN, I|]. apply in_app_or in I. destruct I as [[I|[]]|I]; [discriminate|]. rewrite <-Q in I. apply (IH ts F2 I). }
      exact (FI (v :: l) ts FL).
    + right. exists (v :: l), ts. repeat split. exact F.
Qed.
Definition stops (r : text) : Prop := match r with [] => True | x :: _ => (x <= 41)%Z end.
Definition closes (r : text) : Prop := match r with [] => True | x :: _ => x = 41%Z end.
Lemma word_prefix : forall a b r r', Forall (fun r => (41 < r)%Z) a -> Forall (fun r => (41 < r)%Z) b -> stops r -> stops r' -> a ++ r = b ++ r' -> a = b /\ r = r'.
Proof using Type.
  induction a as [|x a IH]; intros [|y b] r r' A B R R' E; cbn [app] in E.
  - auto.
  - subst r. inversion B; subst. cbn in R. lia.
  - subst r'. inversion A; subst. cbn in R'. lia.
  - injection E as -> E. inversion A; inversion B; subst. destruct (IH b r r') as [-> ->]; auto.
Qed.
Lemma numbers_unique : forall v, numbers v -> forall w, numbers w -> forall t u r r', show v = Ok t -> show w = Ok u -> stops r -> stops r' -> inside v t ++ r = inside w u ++ r' -> v = w /\ r = r'.
Proof using L.
  assert (LISTS : forall l, Forall (fun v => numbers v -> forall w, numbers w -> forall t u r r', show v = Ok t -> show w = Ok u -> stops r -> stops r' -> inside v t ++ r = inside w u ++ r' -> v = w /\ r = r') l -> Forall numbers l ->
    forall l' ts us r r', Forall numbers l' -> Forall2 (fun v t => show v = Ok t) l ts -> Forall2 (fun v t => show v = Ok t) l' us -> closes r -> closes r' -> join [space] (insides l ts) ++ r = join [space] (insides l' us) ++ r' -> l = l' /\ r = r').
  { assert (START : forall v t (rest : text), numbers v -> show v = Ok t -> exists x s, inside v t = x :: s /\ (x = 40 \/ 41 < x)%Z).
    { intros v t _ N S. destruct (numbers_text v N t S) as (_ & [(CN & W)|(l & ts & -> & _)]); [|eexists _, _; split; [reflexivity|left; reflexivity]].
      assert (I : inside v t = t) by (destruct v; try reflexivity; try contradiction; destruct CN). rewrite I. destruct W as [W1 W2]. destruct t as [|x s]; [contradiction|]. inversion W2; subst. eauto. }
    induction l as [|v l IH]; intros H N l' ts us r r' N' F F' C C' E.
    - inversion F; subst. destruct l' as [|w l']; inversion F'; subst; [auto|]. pose proof (Forall_inv N') as NA. match goal with SW : show w = Ok ?y |- _ => destruct (START w _ [] NA SW) as (x & s & I & X); rename y into yy end. cbn [insides] in E. exfalso.
      assert (J : exists z, join [space] (inside w yy :: insides l' l'0) = x :: z) by (rewrite I; destruct (insides l' l'0); eexists; reflexivity). destruct J as [z J]. rewrite J in E. cbn in E. subst r. cbn in C. lia.
    - inversion F as [|? t ? ts' SV F1]; subst. destruct l' as [|w l']; inversion F' as [|? u ? us' SW F1']; subst.
      + pose proof (Forall_inv N) as NA. destruct (START v _ [] NA SV) as (x & s & I & X). cbn [insides] in E. exfalso.
        assert (J : exists z, join [space] (inside v t :: insides l ts') = x :: z) by (rewrite I; destruct (insides l ts'); eexists; reflexivity). destruct J as [z J]. rewrite J in E. cbn in E. subst r'. cbn in C'. lia.
      + pose proof (Forall_inv N) as NA; pose proof (Forall_inv N') as NB; pose proof (Forall_inv H) as HA; cbv beta in HA. cbn [insides] in E.
        set (rest := match insides l ts' with [] => r | i :: is => [space] ++ join [space] (i :: is) ++ r end). set (rest' := match insides l' us' with [] => r' | i :: is => [space] ++ join [space] (i :: is) ++ r' end).
        assert (E1 : join [space] (inside v t :: insides l ts') ++ r = inside v t ++ rest) by (unfold rest; destruct (insides l ts'); cbn [join]; rewrite <-?app_assoc; reflexivity).
        assert (E2 : join [space] (inside w u :: insides l' us') ++ r' = inside w u ++ rest') by (unfold rest'; destruct (insides l' us'); cbn [join]; rewrite <-?app_assoc; reflexivity).
        rewrite E1, E2 in E. assert (S1 : stops rest) by (unfold rest; destruct (insides l ts'); [destruct r; cbn in *; [exact Logic.I|lia]|cbn; unfold space; lia]). assert (S2 : stops rest') by (unfold rest'; destruct (insides l' us'); [destruct r'; cbn in *; [exact Logic.I|lia]|cbn; unfold space; lia]).
        destruct (HA NA w NB t u rest rest' SV SW S1 S2 E) as [-> RR].
        assert (G : join [space] (insides l ts') ++ r = join [space] (insides l' us') ++ r').
        { unfold rest, rest' in RR. destruct (insides l ts') as [|i is], (insides l' us') as [|i' is']; cbn [app join] in *.
          - exact RR. - exfalso. rewrite RR in C. cbn in C. discriminate. - exfalso. rewrite <-RR in C'. cbn in C'. discriminate. - injection RR as RR. exact RR. }
        destruct (IH (Forall_inv_tail H) (Forall_inv_tail N) l' ts' us' r r' (Forall_inv_tail N') F1 F1' C C' G) as [-> ->]. auto. }
  induction v as [n|ch|b|q|a b IHa IHb|l H0|s l H0] using value_ind'; intros N w NW t u r r' S SW R R' E.
  all: destruct (numbers_text _ N _ S) as (_ & [(CN & [W1 W2])|(l1 & ts & EQ & F & ->)]); try discriminate; try contradiction;
    destruct (numbers_text _ NW _ SW) as (_ & [(CW & [V1 V2])|(l2 & us & -> & F' & ->)]).
  all: try (assert (I : inside w u = u) by (destruct w; try reflexivity; try contradiction; destruct CW)).
  all: try (cbn [inside] in E; rewrite I in E; destruct (word_prefix _ _ _ _ W2 V2 R R' E) as [-> ->]; split; [|reflexivity]; apply (num_inj c _ _ u L CN CW); [rewrite <-(canonical_show c origin) by exact CN; exact S|rewrite <-(canonical_show c origin) by exact CW; exact SW]).
  all: try (exfalso; cbn [inside app] in E; destruct t as [|x t]; [contradiction|]; cbn in E; injection E as E1 _; inversion W2; subst; lia).
  - injection EQ as <-. exfalso. cbn [inside app] in E. rewrite I in E. destruct u as [|x u]; [contradiction|]. cbn in E. injection E as E1 _. inversion V2; subst. lia.
  - injection EQ as <-. cbn [inside] in E. rewrite <-!app_assoc in E. cbn [app] in E. injection E as E. rewrite numbers_all in N, NW.
    destruct (LISTS l H0 N l2 ts us (41%Z :: r) (41%Z :: r') NW F F' eq_refl eq_refl E) as [-> RR]. injection RR as ->. auto.
Qed.
End Read.

(* The display of arrays: C88-C91. *)
From Coq Require Import String.
From Verif Require Import Value NumModel NumSpec ScanModel ScanSpec TextModel TextSpec TextNum ReadModel ShowModel ShowSpec ShowProofs ShowGrid ShowVals ShowRect ShowTotal ShowMore P_Scan P_Text.
Open Scope string_scope.
Open Scope list_scope.
Open Scope nat_scope.

(* The text with the given lines, as it stands in the source of this file. *)
Definition lines (l : list string) : text := join [newline] (map zs l).
Definition dec : pconf := mkPconf 0 0.
Fixpoint cyc (n : nat) (l : list value) (k : nat) : list value := match k with O => [] | S k' => nth (n mod length l) l (VInt 0) :: cyc (S n) l k' end.
Definition io k := map (fun i => VInt (Z.of_nat i)) (seq 1 k).
Definition rho s l := VMat s (cyc 0 l (fold_right Nat.mul 1 s)).

(* ---- C88: vectors ---- *)
(* A vector whose elements take one line each is displayed on one line: the elements, with the arrays
   among them in parentheses, with a space between any two. *)
Theorem vector_display : forall c origin l ts, Forall2 (fun v t => show c origin v = Ok t) l ts -> Forall flat ts -> ~ Forall is_a_char l ->
  show c origin (VVec l) = Ok (join [space] (insides l ts)).
Proof. exact vector_text. Qed.
Print Assumptions vector_display.
(* A vector of chars is displayed as the chars, with nothing between them. *)
Theorem string_display : forall c origin rs, show c origin (VVec (map VChar rs)) = Ok (concat (map char_text rs)).
Proof. exact string_text. Qed.
Print Assumptions string_display.
(* Two vectors of numbers, and of vectors of numbers to any depth, that display alike are equal. *)
Theorem number_display_unique : forall c origin l l' t, legal_base (obase c) -> numbers (VVec l) -> numbers (VVec l') -> show c origin (VVec l) = Ok t -> show c origin (VVec l') = Ok t -> l = l'.
Proof. intros c origin l l' t L. exact (number_vector_unique c origin L l l' t). Qed.
Print Assumptions number_display_unique.
(* The display of a vector of numbers is read back as these numbers. *)
Lemma show_numbers : forall c origin vs, vs <> [] -> Forall canonical_num vs -> show c origin (VVec vs) = print_numbers c vs \/ (forall t, show c origin (VVec vs) <> Ok t).
Proof.
  intros c origin vs NE C. rewrite show_vector. destruct (elems c origin vs) as [es| | |] eqn:E; try (right; discriminate). left. destruct (elems_inv _ _ _ _ E) as (ts & F & ->).
  assert (P : Forall2 (fun v t => print_num c v = Ok t) vs ts) by (clear E NE; induction F as [|v t vs ts S F IH]; constructor; [rewrite canonical_show in S by exact (Forall_inv C); exact S|apply IH, (Forall_inv_tail C)]).
  assert (S : forallb is_scalar_elem (zip_elems vs ts) = true) by (clear -F C; induction F as [|v t vs ts S F IH]; [reflexivity|]; cbn [zip_elems forallb]; rewrite IH by exact (Forall_inv_tail C); pose proof (Forall_inv C) as C1; destruct v; try contradiction; reflexivity).
  cbn [bind]. unfold show_vec, multi_line. rewrite S. rewrite one_line_is by exact S.
  assert (NC : forallb is_char (zip_elems vs ts) = false) by (destruct F as [|v t vs ts SV F]; [contradiction|]; pose proof (Forall_inv C) as C1; destruct v; try contradiction; reflexivity). rewrite NC. cbn [negb bind fst join sep_of].
  assert (I : forall vs ts, Forall canonical_num vs -> Forall2 (fun v t => print_num c v = Ok t) vs ts -> vs <> [] -> print_numbers c vs = Ok (join [space] (map item (zip_elems vs ts)))).
  { clear. intros vs ts C P. induction P as [|v t vs ts P1 P IH]; intros NE; [contradiction|]. assert (IT : item (elem_for v t) = t) by (pose proof (Forall_inv C) as C1; destruct v; try contradiction; reflexivity).
    destruct vs as [|v2 vs]; inversion P as [|? t2 ? ts2 P2 P3]; subst; [cbn [zip_elems map join]; rewrite IT; exact P1|].
    change (print_numbers c (v :: v2 :: vs)) with (let! x := print_num c v in let! y := print_numbers c (v2 :: vs) in Ok (x ++ [32%Z] ++ y)). rewrite P1. cbn [bind]. rewrite IH by (try exact (Forall_inv_tail C); discriminate). cbn [bind zip_elems map]. rewrite IT. reflexivity. }
  rewrite (I vs ts C P NE). unfold glue. destruct vs as [|v vs]; [contradiction|]. inversion F; subst. cbn [zip_elems map app]. reflexivity.
Qed.
Theorem vector_display_reads_back : forall c pc origin vs t l, legal_base (ibase c) -> real_base (ibase c) = real_base (obase pc) ->
  no_digit_operators c -> vs <> [] -> Forall canonical_num vs -> show pc origin (VVec vs) = Ok t ->
  number_end l -> Forall (fun r => 0 <= r)%Z l -> ~ In 13%Z l ->
  exists ts s, reads c (new_scanner (t ++ l)) (map (mkTok TNumber) ts) s /\ to_come s = l /\ Forall2 (fun x v => parse_num (ibase c) x = Ok v) ts vs.
Proof. intros c pc origin vs t l LB RB ND NE C S. destruct (show_numbers pc origin vs NE C) as [Q|Q]; [|exfalso; exact (Q t S)]. rewrite Q in S. apply (printed_line_reads_back c pc vs t l LB RB ND NE C S). Qed.
Print Assumptions vector_display_reads_back.
(* That is false of arrays in general: different arrays display alike. *)
Theorem display_unique_refuted : exists v w t, v <> w /\ show dec 1 v = Ok t /\ show dec 1 w = Ok t.
Proof. exists (VVec [VChar 49]), (VInt 1), [49%Z]. split; [discriminate|]. split; vm_compute; reflexivity. Qed.
Print Assumptions display_unique_refuted.
Definition nested_numbers : list value := [VInt 1; VVec [VInt 2; VVec [VRat (1 # 2); VVec []]]; VBig (2 ^ 70); VCplx (VInt 0) (VInt (-1))].
Example nested_numbers_ok : numbers (VVec nested_numbers).
Proof. cbn. repeat split; try lia; discriminate. Qed.
Example nested_numbers_shown : show (mkPconf 0 1000) 1 (VVec nested_numbers) = Ok (zs "1 (2 (1/2 ())) 1180591620717411303424 0j-1").
Proof. vm_compute. reflexivity. Qed.
Example mixed_shown : show (mkPconf 16 1000) 1 (VVec mixed) = Ok (zs "-ff -a/1b 400000000000000000 abj-1/c").
Proof. vm_compute. reflexivity. Qed.
(* testdata/print.ivy *)
Example strings_shown : show dec 1 (VVec [VVec [VChar 97; VChar 98]; VInt 3; VChar 99; VVec [VVec [VChar 100]]]) = Ok (zs "(ab) 3 c ((d))").
Proof. vm_compute. reflexivity. Qed.

(* ---- C89: matrices ---- *)
(* A matrix whose elements take one line each is displayed as a grid: a line for each row, each
   element moved to the right of its column, with a space between columns. *)
Theorem matrix_display : forall c origin ncols rows trows, 0 < ncols -> rows <> [] -> Forall (fun row => length row = ncols) rows -> Forall2 (Forall2 (cell c origin)) rows trows -> ~ Forall is_a_char (concat rows) ->
  show c origin (VMat [length rows; ncols] (concat rows)) = Ok (join [newline] (map (grid_line (grid_widths ncols trows)) trows)).
Proof. exact matrix_text. Qed.
Print Assumptions matrix_display.
(* All its lines have the same length, and there is one for each row. *)
Theorem matrix_display_lines : forall c origin ncols rows trows t, 0 < ncols -> rows <> [] -> Forall (fun row => length row = ncols) rows -> Forall2 (Forall2 (cell c origin)) rows trows -> ~ Forall is_a_char (concat rows) ->
  show c origin (VMat [length rows; ncols] (concat rows)) = Ok t ->
  split_lines t = map (grid_line (grid_widths ncols trows)) trows /\ length (split_lines t) = length rows /\ exists w, 0 < w /\ Forall (fun l => length l = w) (split_lines t).
Proof. exact matrix_lines. Qed.
Print Assumptions matrix_display_lines.
(* With three dimensions there is a grid for each plane, all with the same columns, and an empty line
   between planes. *)
Theorem planes_display : forall c origin nrows ncols planes tplanes, 0 < ncols -> 0 < nrows -> planes <> [] -> Forall (fun plane => length plane = nrows) planes -> Forall (Forall (fun row => length row = ncols)) planes ->
  Forall2 (Forall2 (Forall2 (cell c origin))) planes tplanes -> ~ Forall is_a_char (concat (concat planes)) ->
  show c origin (VMat [length planes; nrows; ncols] (concat (concat planes))) =
    Ok (join [newline; newline] (map (fun plane => join [newline] (map (grid_line (grid_widths ncols (concat tplanes))) plane)) tplanes)).
Proof. exact planes_text. Qed.
Print Assumptions planes_display.
(* A matrix of chars is displayed with nothing between the columns. *)
Theorem char_matrix_display : forall c origin ncols rows, 0 < ncols -> rows <> [] -> Forall (fun row => length row = ncols) rows ->
  show c origin (VMat [length rows; ncols] (map VChar (concat rows))) = Ok (join [newline] (map (fun row => concat (map char_text row)) rows)).
Proof. exact char_matrix_text. Qed.
Print Assumptions char_matrix_display.
(* Two matrices of numbers that display alike are equal, in shape and elements. *)
Theorem number_matrix_display_unique : forall c origin k k' rows rows' t, legal_base (obase c) -> 0 < k -> 0 < k' -> rows <> [] -> rows' <> [] -> Forall (fun row => length row = k) rows -> Forall (fun row => length row = k') rows' ->
  Forall (Forall canonical_num) rows -> Forall (Forall canonical_num) rows' ->
  show c origin (VMat [length rows; k] (concat rows)) = Ok t -> show c origin (VMat [length rows'; k'] (concat rows')) = Ok t -> k = k' /\ rows = rows'.
Proof. intros c origin k k' rows rows' t L. exact (number_matrix_unique c origin L k k' rows rows' t). Qed.
Print Assumptions number_matrix_display_unique.
(* With more dimensions the columns of a block are as wide as the block needs: false, the blocks that
   follow count too. *)
Theorem block_width_refuted : exists b b', show dec 1 (VMat [1; 1; 1; 2] [VInt 1; VInt 2]) = Ok (lines ["[1 * * *]:"; "  1 2"]) /\
  show dec 1 (VMat [2; 1; 1; 2] [VInt 1; VInt 2; VInt 100; VInt 3]) = Ok (lines (b ++ [""] ++ b')) /\ b = ["[1 * * *]:"; "    1   2"].
Proof. exists ["[1 * * *]:"; "    1   2"], ["[2 * * *]:"; "  100   3"]. repeat split; vm_compute; reflexivity. Qed.
Print Assumptions block_width_refuted.
Example matrix_shown : show dec 1 (VMat [2; 3] [VInt 1; VVec [VInt 1; VInt 2; VInt 3]; VInt (-4); VInt 50; VChar 120; VRat (1 # 3)]) = Ok (lines [" 1 (1 2 3)  -4"; "50       x 1/3"]).
Proof. vm_compute. reflexivity. Qed.
Example planes_shown : show dec 1 (rho [2; 2; 3] (io 12)) = Ok (lines [" 1  2  3"; " 4  5  6"; ""; " 7  8  9"; "10 11 12"]).
Proof. vm_compute. reflexivity. Qed.
Example chars_shown : show dec 1 (VMat [2; 2] (map VChar [97; 98; 233; 100]%Z)) = Ok ([97; 98; 10; 195; 169; 100]%Z).
Proof. vm_compute. reflexivity. Qed.
Example cells_met : exists trows, Forall2 (Forall2 (cell dec 1)) [[VInt 1; VVec [VInt 1; VInt 2]]; [VInt 50; VChar 120]] trows.
Proof.
  exists [[zs "1"; zs "(1 2)"]; [zs "50"; zs "x"]]. repeat constructor; eexists; (split; [vm_compute; reflexivity|]); (split; [intros X; vm_compute in X; repeat destruct X as [X|X]; try discriminate; exact X|]); (split; [intros X; exact X|]); (split; [vm_compute; reflexivity|discriminate]).
Qed.

(* ---- C90: every array can be displayed ---- *)
(* If every element takes one line, or else every element is a scalar or a rectangle of several
   lines, the vector and every matrix of these elements, of any shape, is displayed. *)
Theorem display_total_partial : forall c origin l ts, Forall2 (fun v t => show c origin v = Ok t) l ts -> Forall2 line_elem l ts \/ Forall2 block l ts ->
  (exists t, show c origin (VVec l) = Ok t) /\ (forall s, s <> [] -> length l = fold_right Nat.mul 1 s -> exists t, show c origin (VMat s l) = Ok t).
Proof. exact display_ok. Qed.
Print Assumptions display_total_partial.
(* In particular arrays of numbers and matrices of numbers. *)
Theorem matrices_display_total : forall c origin l ts, legal_base (obase c) -> Forall2 (fun v t => show c origin v = Ok t) l ts -> Forall (fun v => canonical_num v \/ num_matrix v) l ->
  (exists t, show c origin (VVec l) = Ok t) /\ (forall s, s <> [] -> length l = fold_right Nat.mul 1 s -> exists t, show c origin (VMat s l) = Ok t).
Proof. intros c origin l ts L F A. apply (display_ok c origin l ts F). right. exact (matrices_display c origin L l ts F A). Qed.
Print Assumptions matrices_display_total.
(* It is false of other arrays: a matrix with a matrix and a vector in it; a matrix with an array of
   three dimensions, or with a vector that has a matrix in it, and a number; a vector with a string of
   two lines and numbers.  The program panics. *)
Definition b22 : value := rho [2; 2] (io 4).
Theorem display_panics_refuted :
  show dec 1 (VMat [1; 2] [b22; VVec [VInt 1; VInt 2]]) = Crash /\
  show dec 1 (VMat [1; 2] [rho [2; 2; 2] (io 8); VInt 7]) = Crash /\
  show dec 1 (VMat [1; 2] [VInt 7; VVec [VInt 1; b22; VInt 5]]) = Crash /\
  show dec 1 (VVec [VVec [VChar 97; VChar 10; VChar 98; VChar 99; VChar 100]; VInt 1; VInt 2]) = Crash.
Proof. repeat split; vm_compute; reflexivity. Qed.
Print Assumptions display_panics_refuted.
Example elements_ok : Forall (fun v => canonical_num v \/ num_matrix v) [VInt 1; b22; rho [3; 1] [VInt 10]; VRat (1 # 2)].
Proof.
  repeat (apply Forall_cons; [|]); try apply Forall_nil.
  - left. cbn. lia.
  - right. exists 2, [[VInt 1; VInt 2]; [VInt 3; VInt 4]]. repeat (split; [cbn; lia|]). split; [repeat constructor|]. split; [repeat constructor; cbn; lia|reflexivity].
  - right. exists 1, [[VInt 10]; [VInt 10]; [VInt 10]]. repeat (split; [cbn; lia|]). split; [repeat constructor|]. split; [repeat constructor; cbn; lia|reflexivity].
  - left. cbn. repeat split; try lia; discriminate.
Qed.
Example elements_shown : show dec 1 (VMat [2; 2] [VInt 1; b22; rho [3; 1] [VInt 10]; VRat (1 # 2)]) = Ok (lines ["   1 (1 2|"; "     |3 4)"; ""; "(10|   1/2"; "|10|      "; "|10)      "]).
Proof. vm_compute. reflexivity. Qed.

(* ---- C91: the rows of an element stand below each other ---- *)
Theorem vector_laid_out_partial : forall c origin l ts t, Forall2 (fun v t => show c origin v = Ok t) l ts -> Forall2 block l ts -> ~ Forall is_a_char l ->
  show c origin (VVec l) = Ok t -> laid_out 0 (split_lines t) (map split_lines ts).
Proof. exact vector_laid_out. Qed.
Print Assumptions vector_laid_out_partial.
(* False when a vector stands between matrices: the second row of the last matrix is one column to
   the left of its first. *)
Theorem laid_out_refuted : exists l ts t, Forall2 (fun v t => show dec 1 v = Ok t) l ts /\ show dec 1 (VVec l) = Ok t /\ ~ laid_out 0 (split_lines t) (map split_lines ts).
Proof.
  exists [b22; VVec [VInt 1; VInt 2]; b22], [lines ["1 2"; "3 4"]; zs "1 2"; lines ["1 2"; "3 4"]], (lines ["(1 2| (1 2) (1 2|"; "|3 4)      |3 4)"]).
  split; [repeat constructor; vm_compute; reflexivity|]. split; [vm_compute; reflexivity|]. unfold lines at 1. rewrite split_join by (try discriminate; repeat constructor; intros X; vm_compute in X; repeat destruct X as [X|X]; try discriminate; exact X).
  intros (a & w & A & R & a2 & w2 & A2 & R2 & a3 & w3 & A3 & R3 & _). destruct (R 0 (zs "1 2") eq_refl) as [W _]. destruct (R2 0 (zs "1 2") eq_refl) as [W2 _]. cbn in W, W2. subst w w2.
  destruct (R3 0 (zs "1 2") eq_refl) as [_ (l0 & L0 & S0)]. destruct (R3 1 (zs "3 4") eq_refl) as [_ (l1 & L1 & S1)]. injection L0 as <-. injection L1 as <-. assert (8 <= a3) by lia. clear - H S0 S1.
  do 8 (destruct a3 as [|a3]; [lia|]). clear H. do 10 (destruct a3 as [|a3]; [vm_compute in S0, S1; discriminate|]). vm_compute in S0. destruct a3; discriminate.
Qed.
Print Assumptions laid_out_refuted.
(* testdata/print.ivy *)
Example vector_shown : show dec 1 (VVec [VInt 1; VInt 2; VInt 3; rho [2; 2] (io 10); VInt 5; VInt 6; rho [4; 4] (io 10); VInt 7]) =
  Ok (lines ["1 2 3 (1 2| 5 6 ( 1  2  3  4| 7"; "      |3 4)     | 5  6  7  8|"; "                | 9 10  1  2|"; "                | 3  4  5  6)"]).
Proof. vm_compute. reflexivity. Qed.

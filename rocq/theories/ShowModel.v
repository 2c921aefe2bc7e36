(* The text of arrays as ivy prints them: value/vector.go:113-280, value/matrix.go:53-160, 199-318.
   Texts are bytes.  Executable; no proofs.
   Simplified: the texts of all elements are made first, so that an element that cannot be printed is
   reported before a panic of the layout of the elements before it. *)
From Coq Require Import String.
From Verif Require Import Value NumModel ScanModel TextModel StrModel ReadModel.
Open Scope string_scope.
Open Scope list_scope.
Open Scope nat_scope.

(* An element of an array, after its Sprint: what vector.go asks of its type (IsScalarType,
   eval.go:761; *Matrix, vector.go:241; Char, 343-350), and its text. *)
Inductive kind := KChar | KNum | KVec | KMat.
Record elem := mkElem { ekind : kind; etext : text }.
Definition is_char (e : elem) : bool := match ekind e with KChar => true | _ => false end.
Definition is_scalar_elem (e : elem) : bool := match ekind e with KChar | KNum => true | _ => false end.
Definition is_mat (e : elem) : bool := match ekind e with KMat => true | _ => false end.
Definition newline : Z := 10%Z.
Definition space : Z := 32%Z.

(* strings.Split(s, "\n") *)
Fixpoint split_lines (s : text) : list text :=
  match s with
  | [] => [[]]
  | r :: s' => match split_lines s' with
               | l :: ls => if (r =? newline)%Z then [] :: l :: ls else (r :: l) :: ls
               | [] => [[r]]
               end
  end.
(* the lines with sep between them *)
Fixpoint join (sep : text) (ls : list text) : text :=
  match ls with [] => [] | [l] => l | l :: ls' => l ++ sep ++ join sep ls' end.
(* vector.go:287-309 blanks; a negative n is a slice out of bounds, so the difference a - b is
   passed as two numbers. *)
Definition blanks_diff (a b : nat) : res text := if b <=? a then Ok (repeat space (a - b)) else Crash.

(* vector.go:154-174 oneLineSprint with parens false *)
Fixpoint one_line (spaces : bool) (first : bool) (b : text) (es : list elem) : text * list nat :=
  match es with
  | [] => (b, [])
  | e :: es' =>
    let b1 := (if spaces && negb first then b ++ [space] else b) ++ etext e in
    let (s, cols) := one_line spaces false b1 es' in (s, length b1 :: cols)
  end.

(* A line under construction (vector.go:208-209): its text and lastColumn. *)
Definition line := (text * nat)%type.
Definition write (s : text) (l : line) : line := (fst l ++ s, snd l).
Definition write_mark (s : text) (l : line) : line := (fst l ++ s, length (fst l ++ s)).
Definition widest (ls : list line) : nat := fold_left (fun w l => Nat.max w (length (fst l))) ls 0.
(* 212-229: the lines that the element adds below; line 0, the only one that is not indented, is new
   for the first element only, for which the width is 0 *)
Definition add_lines (ls : list line) (n : nat) : list line := ls ++ repeat (repeat space (widest ls), 0) (n - length ls).
(* 239-256: the rows of the element; first is n = 0 *)
Fixpoint write_rows (parens mat first : bool) (strs : list text) (ls : list line) : list line :=
  match strs, ls with
  | s :: strs', l :: ls' =>
    (if mat && match s with [] => true | _ => false end then l
     else let l := if parens && negb first then write_mark [124%Z] l else l in
          let l := write_mark s l in
          match strs' with [] => l | _ => if parens then write_mark [124%Z] l else l end) :: write_rows parens mat false strs' ls'
  | _, _ => ls
  end.
Definition on_first (f : line -> line) (ls : list line) : list line := match ls with l :: ls' => f l :: ls' | [] => [] end.
Fixpoint on_nth (n : nat) (f : line -> line) (ls : list line) : list line :=
  match ls, n with l :: ls', O => f l :: ls' | l :: ls', S n' => l :: on_nth n' f ls' | [], _ => [] end.
Definition line_len (ls : list line) (n : nat) : nat := match nth_error ls n with Some l => length (fst l) | None => 0 end.
(* 210-270: one element; the lines and the column after it *)
Definition put_elem (spaces first : bool) (e : elem) (ls : list line) : res (list line * nat) :=
  let strs := split_lines (etext e) in
  let ls := if (length ls <? length strs) then add_lines ls (length strs) else ls in
  let ls := if spaces && negb first then map (write [space]) ls else ls in
  let parens := negb (is_scalar_elem e) in
  let ls := if parens then on_first (write_mark [40%Z]) ls else ls in
  let ls := write_rows parens (is_mat e) true strs ls in
  let col := line_len ls 0 in
  let! ls := (if length strs <? length ls then
                let! padding := blanks_diff col (line_len ls (length ls - 1)) in
                Ok (firstn (length strs) ls ++ map (write padding) (skipn (length strs) ls))
              else Ok ls) in
  if parens then
    let ls := on_nth (length strs - 1) (write_mark [41%Z]) ls in
    Ok (ls, Nat.max col (line_len ls (length strs - 1)))
  else Ok (ls, col).
Fixpoint put_elems (spaces first : bool) (es : list elem) (ls : list line) : res (list line * list nat) :=
  match es with
  | [] => Ok (ls, [])
  | e :: es' =>
    let! p := put_elem spaces first e ls in
    let! q := put_elems spaces false es' (fst p) in Ok (fst q, snd p :: snd q)
  end.
(* vector.go:190-280 multiLineSprint.  The case of a vector of chars (197-206) is never reached,
   since chars are scalars. *)
Definition multi_line (es : list elem) (spaces trim : bool) : res (list text * list nat) :=
  if forallb is_scalar_elem es then let (s, cols) := one_line spaces true [] es in Ok ([s], cols)
  else let! p := put_elems spaces true es [] in
       Ok (map (fun l => if trim then firstn (snd l) (fst l) else fst l) (fst p), snd p).
(* vector.go:113-131 Sprint *)
Definition show_vec (es : list elem) : res text :=
  let! p := multi_line es (negb (forallb is_char es)) true in Ok (join [newline] (fst p)).

(* matrix.go:57-87 widths *)
Record widths := mkWidths { wid : list nat; wmax : nat }.
Definition widthThreshold : nat := 5.
Fixpoint max_nth (l : list nat) (i w : nat) : list nat :=
  match l, i with x :: l', O => Nat.max w x :: l' | x :: l', S i' => x :: max_nth l' i' w | [], _ => [] end.
Definition add_column (w : widths) (i x : nat) : res widths :=
  if i <? length (wid w) then Ok (mkWidths (max_nth (wid w) i x) (Nat.max (wmax w) x))
  else if i =? length (wid w) then Ok (mkWidths (wid w ++ [x]) (Nat.max (wmax w) x))
  else Err.
Definition column (w : widths) (i : nat) : res nat :=
  if wmax w <? widthThreshold then Ok (wmax w) else match nth_error (wid w) i with Some x => Ok x | None => Crash end.
(* line[lo:hi] *)
Definition slice (l : text) (lo hi : nat) : res text := if (lo <=? hi) && (hi <=? length l) then Ok (firstn (hi - lo) (skipn lo l)) else Crash.
(* matrix.go:101-117: the rows of element i, between lo and hi in the lines *)
Fixpoint cut_rows (lines : list text) (lo hi col : nat) (w : widths) : res (list text * widths) :=
  match lines with
  | [] => Ok ([], w)
  | l :: lines' =>
    let! p := match l with
              | [] => Ok ([], w)
              | _ => let! s := slice l lo hi in let! w1 := add_column w col (length s) in Ok (s, w1)
              end in
    let! q := cut_rows lines' lo hi col (snd p) in Ok (fst p :: fst q, snd q)
  end.
Fixpoint cut_elems (lines : list text) (cols : list nat) (i lo last_dim : nat) (w : widths) : res (list (list text) * widths) :=
  match cols with
  | [] => Ok ([], w)
  | hi :: cols' =>
    let! p := cut_rows lines lo hi (i mod last_dim) w in
    let! q := cut_elems lines cols' (S i) hi last_dim (snd p) in Ok (fst p :: fst q, snd q)
  end.
(* matrix.go:89-121 elemStrs *)
Definition elem_strs (es : list elem) (last_dim : nat) : res (list (list text) * widths) :=
  let! p := multi_line es false false in cut_elems (fst p) (snd p) 0 0 last_dim (mkWidths [] 0).

Definition blank_text (s : text) : bool := forallb (fun r => (r =? space)%Z) s.
(* matrix.go:138-150: the last line that is not blank; it starts from n and never decreases *)
Fixpoint last_nonblank (line n : nat) (strs : list text) : nat :=
  match strs with [] => n | s :: strs' => last_nonblank (S line) (if negb (blank_text s) then Nat.max n line else n) strs' end.
(* matrix.go:155-163 *)
Fixpoint write_cells (cells : list (list text)) (line col : nat) (w : widths) (b : text) : res text :=
  match cells with
  | [] => Ok b
  | strs :: cells' =>
    match nth_error strs line with
    | None => Crash
    | Some s =>
      let! x := column w col in
      let! pad := blanks_diff x (length s) in
      write_cells cells' line (S col) w (b ++ pad ++ s ++ match cells' with [] => [] | _ => [space] end)
    end
  end.
(* matrix.go:151-164: n lines from the given one *)
Fixpoint write_lines (n line : nat) (cells : list (list text)) (w : widths) (b : text) : res text :=
  match n with
  | O => Ok b
  | S n' => let! b1 := write_cells cells line 0 w (if 0 <? line then b ++ [newline] else b) in write_lines n' (S line) cells w b1
  end.
(* matrix.go:126-167 write2d: rows of ncols elements each *)
Fixpoint write2d (nrows : nat) (first : bool) (ncols : nat) (elems : list (list text)) (nested : bool) (w : widths) (b : text) : res text :=
  match nrows with
  | O => Ok b
  | S nrows' =>
    let! b1 := (if first then Ok b
                else if nested then match rev b with [] => Crash | r :: _ => Ok ((if (r =? newline)%Z then b else b ++ [newline]) ++ [newline]) end
                else Ok (b ++ [newline])) in
    if length elems <? ncols then Crash
    else
      let cells := firstn ncols elems in
      let n := fold_left (fun n strs => last_nonblank 0 n strs) cells 0 in
      let! b2 := write_lines (S n) 0 cells w b1 in
      write2d nrows' false ncols (skipn ncols elems) nested w b2
  end.

(* matrix.go:222-231, for one plane of chars: its rows, each as a vector *)
Fixpoint chunks {A} (k n : nat) (l : list A) : list (list A) :=
  match k with O => [] | S k' => firstn n l :: chunks k' n (skipn n l) end.
Definition show_chars2 (nrows ncols : nat) (es : list elem) : text :=
  if (nrows =? 0) || (ncols =? 0) then [] else join [newline] (map (fun row => concat (map etext row)) (chunks nrows ncols es)).
(* matrix.go:258-269 *)
Fixpoint write3d (planes : nat) (first : bool) (nrows ncols : nat) (elems : list (list text)) (nested : bool) (w : widths) (b : text) : res text :=
  match planes with
  | O => Ok b
  | S planes' =>
    if length elems <? nrows * ncols then Crash
    else
      let! b1 := write2d nrows true ncols (firstn (nrows * ncols) elems) nested w (if first then b else b ++ [newline; newline]) in
      write3d planes' false nrows ncols (skipn (nrows * ncols) elems) nested w b1
  end.
(* matrix.go:199-271 Sprint for a rank of 1 to 3 *)
Definition nested_matrix (shape : list nat) (es : list elem) : bool :=
  (length es / 2 <=? if 1 <? length shape then length (filter is_mat es) else 0).
Definition show_mat3 (shape : list nat) (es : list elem) : res text :=
  match shape with
  | [] => Err
  | [_] => show_vec es
  | [nrows; ncols] =>
    if (nrows =? 0) || (ncols =? 0) then Ok []
    else if forallb is_char es then Ok (show_chars2 nrows ncols es)
    else let! p := elem_strs es ncols in write2d nrows true ncols (fst p) (nested_matrix shape es) (snd p) []
  | [planes; nrows; ncols] =>
    if forallb is_char es then Ok (join [newline; newline] (map (show_chars2 nrows ncols) (chunks planes (nrows * ncols) es)))
    else let! p := elem_strs es ncols in write3d planes true nrows ncols (fst p) (nested_matrix shape es) (snd p) []
  | _ => Unmod
  end.
(* matrix.go:300-325 indent and spaces *)
Definition indent (n : nat) (s : text) : text :=
  let pad := repeat space (2 * Nat.min n 10) in
  if n =? 0 then s
  else (fix go (bol : bool) (s : text) : text :=
    match s with [] => [] | r :: s' => (if bol then pad else []) ++ r :: go (r =? newline)%Z s' end) true s.
(* matrix.go:278-297 higherDim; the elements of the inner matrices go on to the end of the data *)
Fixpoint higher_dim (origin : Z) (prefix : text) (n : nat) (shape : list nat) (es : list elem) {struct shape} : res text :=
  match shape with
  | dim :: ((_ :: _ :: _ :: _) as inner) =>
    let size := fold_right Nat.mul 1 inner in
    let rest := tl (concat (repeat [space; 42%Z] (length inner))) in
    (fix blocks (k i : nat) (es : list elem) (b : text) : res text :=
       match k with
       | O => Ok b
       | S k' =>
         let inner_prefix := prefix ++ format_int 10 (Z.of_nat i + origin) ++ [space] in
         let b1 := (if 0 <? i then b ++ [newline; newline] else b) ++ indent n (inner_prefix ++ rest ++ [93; 58; newline]%Z) in
         let! s := higher_dim origin inner_prefix (S n) inner es in
         blocks k' (S i) (skipn size es) (b1 ++ s)
       end) dim 0 es []
  | _ => let! s := show_mat3 shape es in Ok (indent n s)
  end.
(* matrix.go:199-271 Sprint *)
Definition show_mat (origin : Z) (shape : list nat) (es : list elem) : res text :=
  if length shape <=? 3 then show_mat3 shape es else higher_dim origin [91%Z] 0 shape es.

(* char.go:29-33: string(c), where an invalid rune becomes U+FFFD *)
Definition char_text (r : Z) : text := utf8 (if valid_rune r then r else 0xFFFD%Z).
Definition kind_of (v : value) : kind := match v with VChar _ => KChar | VVec _ => KVec | VMat _ _ => KMat | _ => KNum end.
(* Sprint *)
Fixpoint show (c : pconf) (origin : Z) (v : value) {struct v} : res text :=
  let elems := (fix go (l : list value) : res (list elem) :=
    match l with
    | [] => Ok []
    | x :: l' => let! s := show c origin x in let! es := go l' in Ok (mkElem (kind_of x) s :: es)
    end) in
  match v with
  | VVec l => let! es := elems l in show_vec es
  | VMat s l => let! es := elems l in show_mat origin s es
  | VChar r => Ok (char_text r)
  | _ => print_num c v
  end.

(* What is said about the text of arrays. *)
From Verif Require Import Value NumSpec ScanModel TextModel TextSpec ShowModel.
Open Scope list_scope.
Open Scope nat_scope.

(* The text is on one line. *)
Definition flat (t : text) : Prop := ~ In newline t.
Definition is_matrix (v : value) : Prop := match v with VMat _ _ => True | _ => False end.
Definition is_array (v : value) : Prop := match v with VVec _ | VMat _ _ => True | _ => False end.
(* An element of an array as it appears inside: arrays are in parentheses. *)
Definition inside (v : value) (t : text) : text := match v with VVec _ | VMat _ _ => [40%Z] ++ t ++ [41%Z] | _ => t end.
(* The elements l, whose texts are ts, as they appear inside an array. *)
Fixpoint insides (l : list value) (ts : list text) : list text := match l, ts with v :: l', t :: ts' => inside v t :: insides l' ts' | _, _ => [] end.
(* t is how the element v, which is no matrix and takes one line, appears in an array. *)
Definition cell (c : pconf) (origin : Z) (v : value) (t : text) : Prop :=
  exists s, show c origin v = Ok s /\ flat s /\ ~ is_matrix v /\ t = inside v s /\ t <> [].

Definition is_a_char (v : value) : Prop := match v with VChar _ => True | _ => False end.
(* Numbers in canonical form, and vectors of such numbers and vectors. *)
Fixpoint numbers (v : value) : Prop :=
  match v with
  | VVec l => (fix all (l : list value) := match l with [] => True | x :: l' => numbers x /\ all l' end) l
  | _ => TextSpec.canonical_num v
  end.

(* ---- a grid of texts ---- *)
Definition max_len (l : list text) : nat := fold_right (fun t m => Nat.max (length t) m) 0 l.
(* The widths of the columns: the same for all when all texts are short, else that of the longest in
   the column. *)
Definition grid_widths (ncols : nat) (rows : list (list text)) : list nat :=
  if max_len (concat rows) <? 5 then repeat (max_len (concat rows)) ncols
  else map (fun j => max_len (map (fun row => nth j row []) rows)) (seq 0 ncols).
Definition rjust (w : nat) (t : text) : text := repeat space (w - length t) ++ t.
Fixpoint grid_line (ws : list nat) (row : list text) : text :=
  match ws, row with
  | w :: ws', t :: row' => rjust w t ++ match row' with [] => [] | _ => space :: grid_line ws' row' end
  | _, _ => []
  end.

(* ---- rectangles ---- *)
(* s stands in the line from column a on. *)
Definition stands_at (a : nat) (s l : text) : Prop := firstn (length s) (skipn a l) = s.
(* The elements, given by their rows, stand in the lines one after the other, each row of an element
   in its own line and all rows of an element in the same columns, with a column between elements. *)
Fixpoint laid_out (from : nat) (lines : list text) (elements : list (list text)) : Prop :=
  match elements with
  | [] => True
  | rows :: elements' =>
    exists a w, from <= a /\ (forall n s, nth_error rows n = Some s -> length s = w /\ exists l, nth_error lines n = Some l /\ stands_at a s l) /\
      laid_out (a + w + 1) lines elements'
  end.
Definition is_scalar_value (v : value) : bool := match v with VVec _ | VMat _ _ => false | _ => true end.
(* The element v with text t: a scalar on one line, or an array whose text is a rectangle of several lines. *)
Definition block (v : value) (t : text) : Prop :=
  t <> [] /\ if is_scalar_value v then flat t else 2 <= length (split_lines t) /\ exists w, 0 < w /\ Forall (fun l => length l = w) (split_lines t).
(* The element takes one line. *)
Definition line_elem (v : value) (t : text) : Prop := flat t /\ inside v t <> [].
(* A matrix of numbers with at least two rows. *)
Definition num_matrix (v : value) : Prop := exists k rows, 0 < k /\ 2 <= length rows /\ Forall (fun row => length row = k) rows /\ Forall (Forall canonical_num) rows /\ v = VMat [length rows; k] (concat rows).

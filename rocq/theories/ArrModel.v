(* Model of the structural array operators: value/vector.go, value/matrix.go and
   the vector and matrix entries of value/binary.go and value/unary.go.
   Executable; no proofs.
   Conventions.  A loop "editor of length n; for i < n { editor.Set(i, e_i) }" is
   [build n e]; reading out of range (Vector.At) is a Go panic: Crash.  Loops run
   by pfor are modelled as one range; ParModel.v treats the chunks.  Shapes are
   nat: dimensions are never negative.  int64 arithmetic on sizes is exact here:
   NewMatrix keeps every partial product of a shape below 2^31, so the products
   the code forms stay below 2^63 (take, which multiplies unchecked counts, ends
   in the error of NewMatrix when the product wraps). *)
From Verif Require Export Value.
From Verif Require Import NumModel.
Open Scope nat_scope.

Definition at_ (l : list value) (i : nat) : res value :=
  match nth_error l i with Some v => Ok v | None => Crash end.
Definition build (n : nat) (f : nat -> res value) : res (list value) := mapM f (seq 0 n).
(* vectorEditor.Set *)
Fixpoint upd (l : list value) (i : nat) (x : value) : option (list value) :=
  match l, i with
  | [], _ => None
  | _ :: l', O => Some (x :: l')
  | y :: l', S i' => match upd l' i' x with Some r => Some (y :: r) | None => None end
  end.
Definition set_at (l : list value) (i : nat) (x : value) : res (list value) :=
  match upd l i x with Some r => Ok r | None => Crash end.
Fixpoint foldM {A B} (f : A -> B -> res A) (l : list B) (a : A) : res A :=
  match l with [] => Ok a | x :: l' => let! a' := f a x in foldM f l' a' end.

(* Vector.intAt, uintAt: vector.go:483-500 *)
Definition as_int (v : value) : res Z := match v with VInt z => Ok z | _ => Err end.
Definition as_uint (v : value) : res nat :=
  match v with VInt z => if (z <? 0)%Z then Err else Ok (Z.to_nat z) | _ => Err end.

(* matrix.go:341-351  size (its overflow error cannot occur, see above) *)
Fixpoint size (s : list nat) : nat := match s with [] => 1 | d :: s' => d * size s' end.
(* matrix.go:354-375  NewMatrix *)
Fixpoint too_large_from (n : Z) (s : list nat) : bool :=
  match s with [] => false | d :: s' => let n' := (n * Z.of_nat d)%Z in (maxInt <? n')%Z || too_large_from n' s' end.
Definition too_large (s : list nat) : bool :=
  match s with [] => false | d :: s' => too_large_from (Z.of_nat d) s' end.
Definition new_matrix (s : list nat) (d : list value) : res value :=
  if too_large s then Err
  else if (match s with [] => 0 | _ => size s end) =? length d then Ok (VMat s d) else Err.

(* toType to vector and to matrix: int.go:167-171, char.go:51-55, bigint.go:163-167,
   bigrat.go:193-197, complex.go:76-80, vector.go:398-407, matrix.go:385-392. *)
Definition to_vec (v : value) : res (list value) :=
  match v with VVec l => Ok l | VMat _ _ => Err | _ => Ok [v] end.
Definition to_mat (v : value) : (list nat * list value) :=
  match v with
  | VMat s d => (s, d)
  | VVec l => ([length l], l)
  | VRat _ | VCplx _ _ => ([1; 1], [v])
  | _ => ([1], [v])
  end.
Definition is_mat (v : value) : bool := match v with VMat _ _ => true | _ => false end.
Definition is_scalar (v : value) : bool := match v with VVec _ | VMat _ _ => false | _ => true end.

(* binary.go:47-53 atLeastVectorType followed by the vector or matrix entry *)
Definition at_least_vector (fv : list value -> list value -> res value)
    (fm : list nat * list value -> list nat * list value -> res value) (u v : value) : res value :=
  if is_mat u || is_mat v then fm (to_mat u) (to_mat v)
  else let! a := to_vec u in let! b := to_vec v in fv a b.

Definition init_ {A} (l : list A) : list A := removelast l.
Definition last_ (s : list nat) : nat := last s 0.

(* ---- rho ---- *)

(* matrix.go:414-449 reshape.  Every count is an Int between 0 and maxInt and
   the running product stays at most maxInt. *)
Fixpoint shape_of_vec (n : Z) (A : list value) : res (list nat) :=
  match A with
  | [] => Ok []
  | VInt z :: A' => if (z <? 0)%Z || (maxInt <? z)%Z then Err
                    else let n' := (n * z)%Z in
                         if (maxInt <? n')%Z then Err
                         else let! s := shape_of_vec n' A' in Ok (Z.to_nat z :: s)
  | _ :: _ => Err
  end.
(* The two loops 436-442: copy B, then t[i] = t[i - blen]. *)
Fixpoint replicate_from (fuel i blen nelems : nat) (t : list value) : res (list value) :=
  match fuel with
  | O => Ok t
  | S f => if i <? nelems then let! x := at_ t (i - blen) in replicate_from f (S i) blen nelems (t ++ [x]) else Ok t
  end.
Definition reshape (A B : list value) : res value :=
  let B := match B with [] => [vzero] | _ => B end in
  match A with
  | [] => Ok (VVec [])
  | _ =>
    let! s := shape_of_vec 1 A in
    let n := size s in
    let! t := replicate_from n (length B) (length B) n (firstn n B) in
    match A with [_] => Ok (VVec t) | _ => new_matrix s t end
  end.
(* binary.go:1285-1301 *)
Definition op_rho (u v : value) : res value :=
  at_least_vector reshape (fun a b => match fst a with [_] => reshape (snd a) (snd b) | _ => Err end) u v.

(* ---- rot, flip ---- *)

(* The count reduced into 0 .. len-1: vector.go:423-426, matrix.go:459-462 *)
Definition rot_count (n : Z) (len : nat) : nat :=
  let m := Z.rem n (Z.of_nat len) in Z.to_nat (if (m <? 0)%Z then m + Z.of_nat len else m).
(* vector.go:473-477 doRotate, the n values it writes *)
Definition do_rotate (n : nat) (src : list value) (j off : nat) : res (list value) :=
  build n (fun k => at_ src (j + (off + k) mod n)).
(* vector.go:416-430 *)
Definition vec_rotate (l : list value) (n : Z) : res value :=
  match l with
  | [] => Ok (VVec [])
  | [x] => Ok x
  | _ => let! r := do_rotate (length l) l 0 (rot_count n (length l)) in Ok (VVec r)
  end.
(* matrix.go:453-470 *)
Definition mat_rotate (s : list nat) (d : list value) (n : Z) : res value :=
  match s with
  | [] => Ok (VMat [] [])
  | _ =>
    let dim := last_ s in
    if dim =? 0 then Crash                                            (* n %= dim *)
    else let! rows := mapM (fun i => do_rotate dim d (i * dim) (rot_count n dim)) (seq 0 (length d / dim)) in
         new_matrix s (concat rows)
  end.
(* matrix.go:474-502 *)
Definition mat_vrotate (s : list nat) (d : list value) (n : Z) : res value :=
  match s with
  | [] => Ok (VMat [] [])
  | [_] => Ok (VMat s d)
  | s0 :: _ =>
    if s0 =? 0 then Crash                                             (* Len() / shape[0] *)
    else
      let dim := length d / s0 in
      if length d =? 0 then Crash                                     (* n %= Len() *)
      else
        let n := rot_count (n * Z.of_nat dim) (length d) in
        if dim =? 0 then Crash
        else let! rows := mapM (fun i => let m := (n + i * dim) mod length d in
                                         build dim (fun k => at_ d (m + k))) (seq 0 (length d / dim)) in
             new_matrix s (concat rows)
  end.
(* binary.go:1403-1442 *)
Definition count_of (l : list value) : res Z := match l with [x] => as_int x | _ => Err end.
Definition mat_count (a : list nat * list value) : res Z :=
  match fst a with [_] => count_of (snd a) | _ => Err end.
Definition op_rot (u v : value) : res value :=
  at_least_vector (fun a b => let! n := count_of a in vec_rotate b n)
    (fun a b => let! n := mat_count a in mat_rotate (fst b) (snd b) n) u v.
Definition op_flip (u v : value) : res value :=
  at_least_vector (fun a b => let! n := count_of a in vec_rotate b n)
    (fun a b => let! n := mat_count a in mat_vrotate (fst b) (snd b) n) u v.

(* Swapping two cells of an editor. *)
Definition swap (l : list value) (i j : nat) : res (list value) :=
  let! x := at_ l i in let! y := at_ l j in let! l1 := set_at l i y in set_at l1 j x.
(* vector.go:557-565: i from 0 while i < len-1-i *)
Definition reverse_in (l : list value) (off n : nat) : res (list value) :=
  foldM (fun x i => swap x (off + i) (off + (n - 1 - i))) (seq 0 (n / 2)) l.
Definition vec_reverse (l : list value) : res value :=
  let! r := reverse_in l 0 (length l) in Ok (VVec r).
(* unary.go:892-924.  With no columns the loop adds 0 to index forever; the
   model calls that Crash. *)
Definition mat_reverse (s : list nat) (d : list value) : res value :=
  match s with
  | [] => Ok (VMat s d)
  | [_] => Err
  | _ =>
    let ncols := last_ s in
    if (ncols =? 0) then Crash
    else let! r := foldM (fun x i => reverse_in x (i * ncols) ncols) (seq 0 (size s / ncols)) d in Ok (VMat s r)
  end.
Definition op_rot1 (v : value) : res value :=
  match v with VVec l => vec_reverse l | VMat s d => mat_reverse s d | _ => Ok v end.
(* unary.go:927-963.  elem = 0 means size = 0: lo < hi fails at once. *)
Definition mat_flip1 (s : list nat) (d : list value) : res value :=
  match s with
  | [] => Ok (VMat s d)
  | [_] => Err
  | s0 :: s' =>
    let elem := size s' in
    let! r := foldM (fun x r => foldM (fun x i => swap x (r * elem + i) ((s0 - 1 - r) * elem + i)) (seq 0 elem) x)
                    (seq 0 (s0 / 2)) d in Ok (VMat s r)
  end.
Definition op_flip1 (v : value) : res value :=
  match v with VVec l => vec_reverse l | VMat s d => mat_flip1 s d | _ => Ok v end.

(* ---- transp ---- *)

(* Increment a coordinate vector, last axis fastest; the boolean is the carry.
   The odometer loops of matrix.go:598-604, 880-887, unary.go:661-668, 786-791,
   index.go:256-262. *)
Fixpoint odo (s c : list nat) : list nat * bool :=
  match s, c with
  | d :: s', x :: c' => let '(r, carry) := odo s' c' in
      if carry then (if S x <? d then (S x :: r, false) else (0 :: r, true)) else (x :: r, false)
  | _, _ => ([], true)
  end.
Definition odo_next (s c : list nat) : list nat := fst (odo s c).
Fixpoint odo_run (n : nat) (s c : list nat) : list (list nat) :=
  match n with O => [] | S n' => c :: odo_run n' s (odo_next s c) end.
(* Starting coordinate of flat index i: matrix.go:579-585, index.go:352-359 *)
Fixpoint odo_start (s : list nat) (i : nat) : list nat * nat :=
  match s with
  | [] => ([], i)
  | d :: s' => let '(r, q) := odo_start s' i in if 0 <? d then (q mod d :: r, q / d) else (0 :: r, q)
  end.

(* matrix.go:508-523, the fast two-dimensional case, over elements lo .. hi-1.
   nx and ny step along with the source index. *)
Fixpoint transp2_loop (xs : list value) (xdim ydim nx ny : nat) (out : list value) : res (list value) :=
  match xs with
  | [] => Ok out
  | v :: xs' => let! out' := set_at out (ny * xdim + nx) v in
      if ydim <=? S ny then transp2_loop xs' xdim ydim (S nx) 0 out' else transp2_loop xs' xdim ydim nx (S ny) out'
  end.
Definition transp2_chunk (d : list value) (xdim ydim lo hi : nat) (out : list value) : res (list value) :=
  if ydim =? 0 then Crash else transp2_loop (firstn (hi - lo) (skipn lo d)) xdim ydim (lo / ydim) (lo mod ydim) out.

(* matrix.go:544-556: old-to-new axis mapping *)
Fixpoint axis_map (c : conf) (rank : nat) (v : list value) : res (list nat) :=
  match v with
  | [] => Ok []
  | x :: v' => let! z := as_int x in
      if (z <? origin c)%Z || (origin c + Z.of_nat rank <=? z)%Z then Err
      else let! r := axis_map c rank v' in Ok (Z.to_nat (z - origin c) :: r)
  end.
(* 560-569: each new dimension is the least of the old ones mapped to it *)
Fixpoint new_dim (old : list nat) (m : list nat) (i : nat) (acc : option nat) : option nat :=
  match old, m with
  | dim :: old', j :: m' =>
      new_dim old' m' i (if j =? i then (match acc with None => Some dim | Some a => Some (if dim <? a then dim else a) end) else acc)
  | _, _ => acc
  end.
Fixpoint all_some (l : list (option nat)) : option (list nat) :=
  match l with
  | [] => Some []
  | Some x :: l' => match all_some l' with Some r => Some (x :: r) | None => None end
  | None :: _ => None
  end.
(* 589-592: the source index for a target coordinate *)
Fixpoint old_index (old m : list nat) (index : list nat) (oi : nat) : nat :=
  match old, m with
  | dim :: old', j :: m' => old_index old' m' index (oi * dim + nth j index 0)
  | _, _ => oi
  end.
(* 575-606 over new elements lo .. hi-1 *)
Definition bt_chunk (s : list nat) (d : list value) (m shape : list nat) (lo hi : nat) : res (list value) :=
  mapM (fun index => at_ d (old_index s m index 0)) (odo_run (hi - lo) shape (fst (odo_start shape lo))).
(* matrix.go:535-608 *)
Definition binary_transpose (c : conf) (s : list nat) (d : list value) (v : list value) : res value :=
  if negb (length v =? length s) then Err
  else
    let! m := axis_map c (length s) v in
    let rank := fold_right Nat.max 0 (map S m) in
    match all_some (map (fun i => new_dim s m i None) (seq 0 rank)) with
    | None => Err
    | Some shape => let! r := bt_chunk s d m shape 0 (size shape) in new_matrix shape r
    end.
(* matrix.go:505-530 *)
Definition transpose (c : conf) (s : list nat) (d : list value) : res value :=
  match s with
  | [xdim; ydim] => let! r := transp2_chunk d xdim ydim 0 (length d) (repeat vzero (length d)) in new_matrix [ydim; xdim] r
  | _ => binary_transpose c s d (map (fun i => VInt (Z.of_nat (length s - 1 - i) + origin c)) (seq 0 (length s)))
  end.
(* unary.go:966-983, binary.go:1543-1555 *)
Definition op_transp1 (c : conf) (v : value) : res value :=
  match v with
  | VMat s d => match s with [_] => Err | _ => transpose c s d end
  | _ => Ok v
  end.
Definition op_transp (c : conf) (u v : value) : res value :=
  let! a := to_vec u in
  let b := to_mat v in
  let! r := binary_transpose c (fst b) (snd b) a in
  match r with VMat s d => if length s <=? 1 then Ok (VVec d) else Ok r | _ => Ok r end.

(* ---- catenation ---- *)
Definition shape_eqb (a b : list nat) : bool := if list_eq_dec Nat.eq_dec a b then true else false.

(* matrix.go:630-643 copyElems: nrows times nLeft elements of x then nRight of y *)
Definition copy_elems (dx dy : list value) (nrows nLeft advLeft nRight advRight : nat) : res (list value) :=
  let! rows := mapM (fun i =>
      let! a := build nLeft (fun k => at_ dx (i * advLeft + k)) in
      let! b := build nRight (fun k => at_ dy (i * advRight + k)) in Ok (a ++ b)) (seq 0 nrows) in
  Ok (concat rows).
Definition bump_last (s : list nat) (k : nat) : list nat := init_ s ++ [last_ s + k].
(* matrix.go:618-687 *)
Definition mat_catenate (x y : list nat * list value) : res value :=
  let '(sx, dx) := x in let '(sy, dy) := y in
  if (length sx =? 0) || (length sy =? 0) then Err
  else if (length sx =? length sy) && shape_eqb (init_ sx) (init_ sy) then
    let! r := copy_elems dx dy (size (init_ sx)) (last_ sx) (last_ sx) (last_ sy) (last_ sy) in
    new_matrix (bump_last sx (last_ sy)) r
  else if (length sx =? S (length sy)) && shape_eqb (init_ sx) sy then
    let nrows := size (init_ sx) in
    if nrows =? 0 then Crash
    else let ysize := size sy / nrows in
         let! r := copy_elems dx dy nrows (last_ sx) (last_ sx) ysize ysize in new_matrix (bump_last sx 1) r
  else if (S (length sx) =? length sy) && shape_eqb sx (init_ sy) then
    let nrows := size (init_ sy) in
    if nrows =? 0 then Crash
    else let xsize := size sx / nrows in
         let! r := copy_elems dx dy nrows xsize xsize (last_ sy) (last_ sy) in new_matrix (bump_last sy 1) r
  else if (shape_eqb sx [1]) && (1 <? length sy) then
    let! r := copy_elems dx dy (size (init_ sy)) 1 0 (last_ sy) (last_ sy) in new_matrix (bump_last sy 1) r
  else if (1 <? length sx) && (shape_eqb sy [1]) then
    let! r := copy_elems dx dy (size (init_ sx)) (last_ sx) (last_ sx) 1 0 in new_matrix (bump_last sx 1) r
  else Err.
(* binary.go:1303-1313, vector.go:656-662 *)
Definition op_cat (u v : value) : res value :=
  at_least_vector (fun a b => Ok (VVec (a ++ b))) mat_catenate u v.

Definition bump_first (s : list nat) (k : nat) : list nat := match s with [] => [] | d :: s' => (d + k) :: s' end.
(* matrix.go:690-747 *)
Definition mat_catenate_first (x y : list nat * list value) : res value :=
  let '(sx, dx) := x in let '(sy, dy) := y in
  match sx, sy with
  | [], _ | _, [] => Err
  | x0 :: sx', y0 :: sy' =>
    if (length sx =? length sy) && shape_eqb sx' sy' then new_matrix (bump_first sx y0) (dx ++ dy)
    else if (length sx =? S (length sy)) && shape_eqb sx' sy then new_matrix (bump_first sx 1) (dx ++ dy)
    else if (S (length sx) =? length sy) && shape_eqb sx sy' then new_matrix (bump_first sy 1) (dx ++ dy)
    else if shape_eqb sx [1] && (1 <? length sy) then
      let! a := at_ dx 0 in new_matrix (bump_first sy 1) (repeat a (size sy') ++ dy)
    else if (1 <? length sx) && shape_eqb sy [1] then
      let! b := at_ dy 0 in new_matrix (bump_first sx 1) (dx ++ repeat b (size sx'))
    else Err
  end.
Definition op_cat_first (u v : value) : res value :=
  at_least_vector (fun a b => Ok (VVec (a ++ b))) mat_catenate_first u v.

(* ---- take, drop ---- *)

Definition is_char (v : value) : bool := match v with VChar _ => true | _ => false end.
(* vector.go:312-335 fillValue *)
Definition fill_value (l : list value) : res value :=
  match l with
  | [] => Ok vzero
  | first :: _ =>
    let fill := if forallb is_char l then VChar 32 else vzero in
    match first with
    | VVec f => Ok (VVec (repeat fill (length f)))
    | VMat s d => new_matrix s (repeat fill (length d))
    | _ => Ok fill
    end
  end.

(* matrix.go:831-849: per axis, the dimension of m, the origin of m in the
   result, and the box of m taken *)
Record axis := mkAxis { ax_dim : nat; ax_org : Z; ax_min : Z; ax_max : Z }.
Definition take_axis (n : nat) (y : Z) : axis :=
  if (y <? 0)%Z then
    let y := (- y)%Z in mkAxis n (y - Z.of_nat n) (Z.max (Z.of_nat n - y) 0) (Z.of_nat n)
  else mkAxis n 0 0 (Z.min (Z.of_nat n) y).
(* 861-872: None outside the box, else the index in m *)
Fixpoint take_scan (ax : list axis) (rc : list nat) (mi : Z) : option Z :=
  match ax, rc with
  | a :: ax', r :: rc' =>
      let mi := (mi * Z.of_nat (ax_dim a))%Z in
      let loc := (Z.of_nat r - ax_org a)%Z in
      if (loc <? ax_min a)%Z || (ax_max a <=? loc)%Z then None else take_scan ax' rc' (mi + loc)%Z
  | _, _ => Some mi
  end.
Definition all_ints (v : list value) : bool := forallb (fun x => match x with VInt _ => true | _ => false end) v.
Fixpoint ints_of (v : list value) : list Z :=
  match v with [] => [] | VInt z :: v' => z :: ints_of v' | _ :: v' => 0%Z :: ints_of v' end.
(* matrix.go:799-890 *)
Definition mat_take (s : list nat) (d : list value) (v : list value) : res value :=
  if negb (all_ints v) then Err
  else
    let! s := (if length s <? length v then (if size s =? 1 then Ok (repeat 1 (length v)) else Err) else Ok s) in
    let ys := ints_of v ++ map Z.of_nat (skipn (length v) s) in
    let ax := map (fun p => take_axis (fst p) (snd p)) (combine s ys) in
    let shape := map (fun y => Z.to_nat (Z.abs y)) ys in
    if (maxInt <? Z.of_nat (size shape))%Z then Err
    else
      let! fill := fill_value d in
      let! r := mapM (fun rc => match take_scan ax rc 0 with
                                | Some mi => at_ d (Z.to_nat mi)
                                | None => Ok fill end)
                     (odo_run (size shape) shape (repeat 0 (length shape))) in
      new_matrix shape r.
(* binary.go:1330-1367 *)
Definition vec_take (n : Z) (l : list value) : res value :=
  let k := Z.to_nat (Z.abs n) in
  let! fill := fill_value l in
  if (n <? 0)%Z then
    if length l <? k then Ok (VVec (repeat fill (k - length l) ++ l)) else Ok (VVec (skipn (length l - k) l))
  else if (n =? 0)%Z then Ok (VVec [])
  else if length l <? k then Ok (VVec (l ++ repeat fill (k - length l))) else Ok (VVec (firstn k l)).
Definition op_take (u v : value) : res value :=
  let! a := to_vec u in
  match v with
  | VMat s d => mat_take s d a
  | _ => let! l := to_vec v in
         match a with
         | [x] => let! n := as_int x in vec_take n l
         | _ => mat_take [length l] l a
         end
  end.
(* matrix.go:921-955 *)
Definition drop_arg (n : nat) (x : Z) : Z :=
  if (x <? - Z.of_nat n)%Z || (Z.of_nat n <? x)%Z then 0%Z
  else if (0 <=? x)%Z then (x - Z.of_nat n)%Z else (Z.of_nat n + x)%Z.
Definition mat_drop (s : list nat) (d : list value) (v : list value) : res value :=
  if length s <? length v then Err
  else if negb (all_ints v) then Err
  else let xs := ints_of v ++ repeat 0%Z (length s - length v) in
       mat_take s d (map (fun p => VInt (drop_arg (fst p) (snd p))) (combine s xs)).
(* binary.go:1370-1400 *)
Definition vec_drop (n : Z) (l : list value) : res value :=
  let k := Z.to_nat (Z.abs n) in
  if (n <? 0)%Z then if length l <? k then Ok (VVec []) else Ok (VVec (firstn (length l - k) l))
  else if (n =? 0)%Z then Ok (VVec l)
  else if length l <? k then Ok (VVec []) else Ok (VVec (skipn k l)).
Definition op_drop (u v : value) : res value :=
  let! a := to_vec u in
  match v with
  | VMat s d => mat_drop s d a
  | _ => let! l := to_vec v in
         match a with [x] => let! n := as_int x in vec_drop n l | _ => Err end
  end.

(* ---- sel, fill ---- *)

(* vector.go:456-471 allZeros *)
Fixpoint all_zeros (v : value) : value :=
  match v with
  | VChar _ => VChar 32
  | VVec l => VVec (map all_zeros l)
  | VMat s d => VMat s (map all_zeros d)
  | _ => vzero
  end.
(* vector.go:436-453 *)
Definition sel_one (count : Z) (x : value) : list value :=
  if (count <? 0)%Z then repeat (all_zeros x) (Z.to_nat (- count)) else repeat x (Z.to_nat count).
Definition vec_sel (l n : list value) (elemCount : nat) : res (list value) :=
  if negb (length n =? 1) && negb (length n =? elemCount) then Err
  else let! parts := mapM (fun i => let! cv := at_ n (i mod length n) in let! count := as_int cv in
                                    let! x := at_ l i in Ok (sel_one count x)) (seq 0 (length l)) in
       Ok (concat parts).
(* binary.go:1508-1528 *)
Definition mat_sel (a b : list nat * list value) : res value :=
  let '(s, d) := b in
  match fst a with
  | [_] => match s with
           | [] => Crash
           | _ => let! r := vec_sel d (snd a) (last_ s) in
                  if size (init_ s) =? 0 then Crash
                  else new_matrix (init_ s ++ [length r / size (init_ s)]) r
           end
  | _ => Err
  end.
Definition op_sel (u v : value) : res value :=
  at_least_vector (fun a b => let! r := vec_sel b a (length b) in Ok (VVec r)) mat_sel u v.

(* binary.go:1445-1505; there is no matrix entry *)
Fixpoint fill_counts (i : list value) : res (Z * nat) :=
  match i with
  | [] => Ok (0%Z, 0)
  | VInt y :: i' => let! p := fill_counts i' in
      Ok (((if (y =? 0)%Z then 1 else Z.abs y) + fst p)%Z, (if (0 <? y)%Z then S (snd p) else snd p))
  | _ :: _ => Err
  end.
Fixpoint fill_loop (i : list value) (j : list value) (jx : nat) (zv : value) : res (list value) :=
  match i with
  | [] => Ok []
  | VInt y :: i' =>
      if (y =? 0)%Z then let! r := fill_loop i' j jx zv in Ok (zv :: r)
      else if (y <? 0)%Z then let! r := fill_loop i' j jx zv in Ok (repeat zv (Z.to_nat (- y)) ++ r)
      else let! x := at_ j jx in let! r := fill_loop i' j (S jx) zv in Ok (repeat x (Z.to_nat y) ++ r)
  | _ :: _ => Err
  end.
Definition vec_fill (i j : list value) : res value :=
  match i with
  | [] => Ok (VVec [])
  | _ =>
    let! p := fill_counts i in
    if negb (snd p =? length j) then Err
    else if (10 ^ 8 <? fst p)%Z then Err
    else let! r := fill_loop i j 0 (if forallb is_char j then VChar 32 else vzero) in Ok (VVec r)
  end.
Definition op_fill (u v : value) : res value := at_least_vector vec_fill (fun _ _ => Err) u v.

(* ---- part ---- *)

(* vector.go:516-538 doPartition: i, prev, the group in progress, the groups so
   far and dim (-1 as None) *)
Fixpoint part_loop (v : list value) (score : list value) (i : nat) (prev : nat) (acc : list value)
    (res_ : list value) (dim : option nat) : res (list value * option nat) :=
  match v with
  | [] => Ok ((if 0 <? length acc then res_ ++ [VVec acc] else res_), dim)
  | x :: v' =>
      let j := i mod length score in
      let! sv := at_ score j in
      let! sc := as_uint sv in
      let '(acc, res_) :=
        if negb (sc =? 0) then
          let '(acc, res_) := if (0 <? i) && ((prev <? sc) || (j =? 0)) && (0 <? length acc)
                              then ([], res_ ++ [VVec acc]) else (acc, res_) in
          (acc ++ [x], res_)
        else (acc, res_) in
      let dim := match dim with None => if (0 <? i) && (j =? 0) then Some (length res_) else None | Some _ => dim end in
      part_loop v' score (S i) sc acc res_ dim
  end.
(* i % 0 panics *)
Definition do_partition (v score : list value) : res (list value * option nat) :=
  match v, score with
  | _ :: _, [] => Crash
  | _, _ => part_loop v score 0 0 [] [] None
  end.
(* vector.go:504-510 *)
Definition vec_partition (score v : list value) : res value :=
  if negb (length score =? length v) then Err
  else let! p := do_partition v score in Ok (VVec (fst p)).
(* matrix.go:896-918.  A dim of -1 makes NewMatrix fail: its element count is
   not positive while there is data, or the data count differs. *)
Definition mat_partition (a b : list nat * list value) : res value :=
  let '(s, d) := b in
  match fst a with
  | [k] =>
    match s with
    | [] => Crash
    | _ =>
      let! score := (if k =? 1 then
          let! x := at_ (snd a) 0 in let! n := as_uint x in Ok (repeat (VInt (Z.of_nat n)) (last_ s))
        else Ok (snd a)) in
      if negb (length score =? last_ s) then Err
      else let! p := do_partition d score in
           match snd p with
           | Some dim => new_matrix (init_ s ++ [dim]) (fst p)
           | None => if (size (init_ s) =? 0) && (length (fst p) =? 0) then Ok (VMat (init_ s ++ [0]) []) else Err
           end
    end
  | _ => Err
  end.
Definition op_part (u v : value) : res value := at_least_vector vec_partition mat_partition u v.

(* ---- iota, where, rho, count, ravel, flatten, split, mix ---- *)

(* index.go:369-374 newIota *)
Definition new_iota (c : conf) (n : Z) : res value :=
  if (n <? 0)%Z || (maxInt <? n)%Z then Err
  else Ok (VVec (map (fun i => VInt (origin c + Z.of_nat i)) (seq 0 (Z.to_nat n)))).
Definition coord_value (c : conf) (k : list nat) : value := VVec (map (fun x => VInt (origin c + Z.of_nat x)) k).
(* unary.go:625-671 *)
Definition op_iota1 (c : conf) (v : value) : res value :=
  match v with
  | VInt z => new_iota c z
  | VVec [] => Ok (VVec [])
  | VVec [x] => let! z := as_int x in new_iota c z
  | VVec l => let! s := shape_of_vec 1 l in
              new_matrix s (map (coord_value c) (odo_run (size s) s (repeat 0 (length s))))
  | _ => Err
  end.
(* unary.go:738-797 *)
Definition op_where (c : conf) (v : value) : res value :=
  match v with
  | VVec l => let! parts := mapM (fun i => let! x := at_ l i in let! e := as_uint x in
                                           Ok (repeat (VInt (origin c + Z.of_nat i)) e)) (seq 0 (length l)) in
              Ok (VVec (concat parts))
  | VMat s d => let! parts := mapM (fun p => let! e := as_uint (fst p) in Ok (repeat (coord_value c (snd p)) e))
                                   (combine d (odo_run (length d) s (repeat 0 (length s)))) in
                Ok (VVec (concat parts))
  | _ => Ok (VVec [])
  end.
(* unary.go:673-736 *)
Definition int_vec (l : list nat) : value := VVec (map (fun n => VInt (Z.of_nat n)) l).
Definition op_rho1 (v : value) : value :=
  match v with VVec l => int_vec [length l] | VMat s _ => int_vec s | _ => VVec [] end.
Definition op_count (v : value) : value :=
  match v with VVec l => VInt (Z.of_nat (length l)) | VMat (n :: _) _ => VInt (Z.of_nat n) | VMat [] _ => vzero | _ => vone end.
(* unary.go:841-856 *)
Definition op_ravel (v : value) : value :=
  match v with VVec _ => v | VMat _ d => VVec d | _ => VVec [v] end.
(* eval.go:1033-1062 *)
Fixpoint flatten (v : value) : list value :=
  match v with VVec l => flat_map flatten l | VMat _ d => flat_map flatten d | _ => [v] end.
Definition op_flatten (v : value) : value := VVec (flatten v).

Definition shrink_mat (v : value) : value := match v with VMat [_] d => VVec d | _ => v end.
(* matrix.go:958-970, unary.go:240-253 *)
Definition mat_split (s : list nat) (d : list value) : res value :=
  match s with
  | [] | [_] => Err
  | _ =>
    let n := last_ s in
    let! rows := mapM (fun i => let! r := build n (fun k => at_ d (i * n + k)) in Ok (VVec r)) (seq 0 (size (init_ s))) in
    let! m := new_matrix (init_ s) rows in Ok (shrink_mat m)
  end.

Definition op_split (v : value) : res value :=
  match v with VMat s d => mat_split s d | VVec _ | VChar _ => Err | _ => Ok v end.

(* matrix.go:980-1000: the common shape.  [mix_grow] is the *Matrix case. *)
Definition set_last_max (shape : list nat) (k : nat) : list nat :=
  init_ shape ++ [if last_ shape <? k then k else last_ shape].
Fixpoint max_into (shape e : list nat) : list nat :=
  match shape, e with x :: s', y :: e' => (if x <? y then y else x) :: max_into s' e' | _, _ => shape end.
Definition mix_grow (shape e : list nat) : list nat := max_into (shape ++ repeat 0 (length e - length shape)) e.
Definition mix_step (shape : list nat) (e : value) : list nat :=
  match e with
  | VVec l => set_last_max shape (length l)
  | VMat s _ => mix_grow shape s
  | _ => if last_ shape =? 0 then init_ shape ++ [1] else shape
  end.
Definition mix_shape (d : list value) : list nat := fold_left mix_step d [0].
(* 1006-1030: each element brought to that shape.  Only a matrix whose
   dimensions are all 1 (and of full rank) is used as it is. *)
Definition mix_elem (shape : list nat) (e : value) : res (list value) :=
  let v := map (fun n => VInt (Z.of_nat n)) shape in
  let take ts d := let! m := new_matrix ts d in
                   match m with VMat s dd => let! r := mat_take s dd v in match r with VMat _ o => Ok o | _ => Crash end | _ => Crash end in
  let ones k := repeat 1 (length shape - k) in
  match e with
  | VVec l => take (ones 1 ++ [length l]) l
  | VMat s d => if (length s =? length shape) && shape_eqb s (repeat 1 (length s)) then Ok d else take (ones (length s) ++ s) d
  | _ => take (ones 0) [e]
  end.
Definition mat_mix (s : list nat) (d : list value) : res value :=
  if forallb is_scalar d then Ok (VMat s d)
  else let shape := mix_shape d in
       let! parts := mapM (mix_elem shape) d in
       new_matrix (s ++ shape) (concat parts).
Definition op_mix (v : value) : res value :=
  match v with
  | VVec l => let! m := mat_mix [length l] l in Ok (shrink_mat m)
  | VMat s d => mat_mix s d
  | VChar _ => Err
  | _ => Ok v
  end.

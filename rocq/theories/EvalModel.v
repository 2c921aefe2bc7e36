(* Model of value/eval.go: elementwise application, reduce, scan, inner and outer
   product, each.  Executable; no proofs.
   Every function here takes the evaluation of one pair of elements, [ev] (in the
   code c.EvalBinary(_, op, _), which may reach a user's operator), or of one
   element, [ev1] (c.EvalUnary), as an argument.  Loops run by pfor are one range
   here; ParModel.v treats the chunks.  As in ArrModel.v, reading out of range is
   Crash. *)
From Verif Require Export Value ArrModel.
Open Scope nat_scope.

(* eval.go:649-672 unaryVectorOp, unaryMatrixOp, and EvalUnary 57-75 for an
   elementwise operator whose entry for scalars is fs. *)
Definition el_unary (fs ev1 : value -> res value) (v : value) : res value :=
  match v with
  | VVec l => let! r := build (length l) (fun k => let! x := at_ l k in ev1 x) in Ok (VVec r)
  | VMat s d => let! r := build (length d) (fun k => let! x := at_ d k in ev1 x) in new_matrix s r
  | _ => fs v
  end.

(* The body of the loops of 675-758: element k of the result from element i of u and j of v. *)
Definition pair_at (ev : value -> value -> res value) (u v : list value) (i j : nat) : res value :=
  let! x := at_ u i in let! y := at_ v j in ev x y.

(* eval.go:675-703 binaryVectorOp *)
Definition el_vec (ev : value -> value -> res value) (u v : list value) : res value :=
  if length u =? 1 then
    let! r := build (length v) (fun k => pair_at ev u v 0 k) in Ok (VVec r)
  else if length v =? 1 then
    let! r := build (length u) (fun k => pair_at ev u v k 0) in Ok (VVec r)
  else if negb (length u =? length v) then Err                       (* sameLength *)
  else let! r := build (length u) (fun k => pair_at ev u v k k) in Ok (VVec r).

(* eval.go:766-773 isScalar, 777-788 isVector *)
Definition all_ones (s : list nat) : bool := forallb (fun d => d =? 1) s.
Definition vec_like (s t : list nat) : bool :=
  match s, t with
  | d :: s', _ :: _ => (d =? last_ t) && all_ones s'
  | _, _ => false
  end.

(* eval.go:706-758 binaryMatrixOp *)
Definition el_mat (ev : value -> value -> res value) (u v : list nat * list value) : res value :=
  let '(su, du) := u in let '(sv, dv) := v in
  if all_ones su then
    let! r := build (length dv) (fun k => pair_at ev du dv 0 k) in new_matrix sv r
  else if all_ones sv then
    let! r := build (length du) (fun k => pair_at ev du dv k 0) in new_matrix su r
  else if vec_like su sv then
    let! r := build (length dv) (fun k => pair_at ev du dv (k mod hd 0 su) k) in new_matrix sv r
  else if vec_like sv su then
    let! r := build (length du) (fun k => pair_at ev du dv k (k mod hd 0 sv)) in new_matrix su r
  else if negb (shape_eqb su sv) then Err
  else let! r := build (length du) (fun k => pair_at ev du dv k k) in new_matrix su r.

(* eval.go:109-130 EvalBinary for an elementwise operator: promotion to the larger
   of the two types, then the entry for scalars or the element loops. *)
Definition el_binary (fs ev : value -> value -> res value) (u v : value) : res value :=
  if is_scalar u && is_scalar v then fs u v else at_least_vector (el_vec ev) (el_mat ev) u v.

(* The operator itself, when the elements are evaluated by the same operator (it has
   not been redefined by the user): arrays may nest.  The recursion is on the nesting depth. *)
Fixpoint depth (v : value) : nat :=
  match v with
  | VVec l => S (fold_right (fun x n => Nat.max (depth x) n) 0 l)
  | VMat _ d => S (fold_right (fun x n => Nat.max (depth x) n) 0 d)
  | _ => 0
  end.
Fixpoint el_binary_fuel (n : nat) (fs : value -> value -> res value) (u v : value) : res value :=
  el_binary fs (match n with O => fun _ _ => Unmod | S n' => el_binary_fuel n' fs end) u v.
Definition elementwise (fs : value -> value -> res value) (u v : value) : res value :=
  el_binary_fuel (depth u + depth v) fs u v.
Fixpoint el_unary_fuel (n : nat) (fs : value -> res value) (v : value) : res value :=
  el_unary fs (match n with O => fun _ => Unmod | S n' => el_unary_fuel n' fs end) v.
Definition elementwise1 (fs : value -> res value) (v : value) : res value := el_unary_fuel (depth v) fs v.

(* ---- reduce ---- *)

(* The loop "acc := at pos; for n times { pos -= step; acc = ev(at pos, acc) }". *)
Fixpoint reduce_down (ev : value -> value -> res value) (l : list value) (step pos n : nat) (acc : value) : res value :=
  match n with
  | O => Ok acc
  | S n' => let! x := at_ l (pos - step) in let! a := ev x acc in reduce_down ev l step (pos - step) n' a
  end.
(* eval.go:329-338 *)
Definition vec_reduce (ev : value -> value -> res value) (l : list value) : res value :=
  match l with
  | [] => Ok (VVec [])
  | _ => let! a := at_ l (length l - 1) in reduce_down ev l 1 (length l - 1) (length l - 1) a
  end.
(* Publish a vector for a single axis, else NewMatrix: 363-366 *)
Definition vec_or_mat (s : list nat) (r : list value) : res value :=
  match s with [_] => Ok (VVec r) | _ => new_matrix s r end.
(* eval.go:323-368 Reduce *)
Definition reduce (ev : value -> value -> res value) (v : value) : res value :=
  match v with
  | VChar _ => Err
  | VVec l => vec_reduce ev l
  | VMat s d =>
    if length s <? 2 then Err
    else let stride := last_ s in
    if stride =? 0 then Err
    else let shape := init_ s in
    let! r := build (size shape) (fun i =>
                let pos := stride * i + stride - 1 in
                let! a := at_ d pos in reduce_down ev d 1 pos (stride - 1) a) in
    vec_or_mat shape r
  | _ => Ok v
  end.
(* eval.go:372-406 ReduceFirst.  The inner loop runs while j >= 0, starting at
   i + len - 2*stride: that is len/stride - 1 times. *)
Definition reduce_first (ev : value -> value -> res value) (v : value) : res value :=
  match v with
  | VMat s d =>
    if length s <? 2 then Err
    else if hd 0 s =? 0 then Err
    else let stride := size (tl s) in
    if stride =? 0 then Err
    else
    let! r := build (size (tl s)) (fun i =>
                let pos := i + length d - stride in
                let! a := at_ d pos in reduce_down ev d stride pos (pos / stride) a) in
    vec_or_mat (tl s) r
  | _ => reduce ev v
  end.

(* ---- scan ---- *)

(* eval.go:183-189 knownAssoc is the flag [assoc]. *)
(* The two inner loops, 424-432 and 449-457: one row of n elements at index i of l.
   The first keeps the value written last. *)
Fixpoint scan_left (ev : value -> value -> res value) (l : list value) (pos n : nat) (acc : value) : res (list value) :=
  match n with
  | O => Ok []
  | S n' => let! x := at_ l pos in let! a := ev acc x in let! r := scan_left ev l (S pos) n' a in Ok (a :: r)
  end.
(* persist.Slice.Slice(lo, hi) *)
Definition slice (l : list value) (lo hi : nat) : list value := firstn (hi - lo) (skipn lo l).
Definition scan_row (ev : value -> value -> res value) (assoc : bool) (l : list value) (index n : nat) : res (list value) :=
  let! x := at_ l index in
  let! r := if assoc then scan_left ev l (S index) (n - 1) x
            else mapM (fun j => vec_reduce ev (slice l index (index + j + 1))) (seq 1 (n - 1)) in
  Ok (x :: r).
(* eval.go:411-464 Scan *)
Definition scan (ev : value -> value -> res value) (assoc : bool) (v : value) : res value :=
  match v with
  | VChar _ => Err
  | VVec [] => Ok v
  | VVec l => let! r := scan_row ev assoc l 0 (length l) in Ok (VVec r)
  | VMat s d =>
    if length s <? 2 then Err
    else let stride := last_ s in
    if stride =? 0 then Err
    else let! rows := mapM (fun i => scan_row ev assoc d (i * stride) stride) (seq 0 (size (init_ s))) in
         new_matrix s (concat rows)
  | _ => Ok v
  end.
(* eval.go:470-490 ScanFirst; the type assertion to Matrix always holds. *)
Definition scan_first (c : conf) (ev : value -> value -> res value) (assoc : bool) (v : value) : res value :=
  match v with
  | VMat s d =>
    if length s <? 2 then Err
    else if last_ s =? 0 then Err
    else let! t := transpose c s d in
         let! w := scan ev assoc t in
         match w with VMat s1 d1 => transpose c s1 d1 | _ => Crash end
  | _ => scan ev assoc v
  end.

(* ---- outer and inner product ---- *)

(* eval.go:295-320 outerProduct.  The append in the matrix case writes into the
   slice of u's shape only when that slice has spare capacity; the shape of u's own
   header keeps its length, so u itself is unchanged (AliasModel.v). *)
Definition outer_vec (ev : value -> value -> res value) (u v : list value) : res value :=
  let! r := build (length u * length v) (fun x => pair_at ev u v (x / length v) (x mod length v)) in
  new_matrix [length u; length v] r.
Definition outer_mat (ev : value -> value -> res value) (u v : list nat * list value) : res value :=
  let! r := build (length (snd u) * length (snd v))
              (fun x => pair_at ev (snd u) (snd v) (x / length (snd v)) (x mod length (snd v))) in
  new_matrix (fst u ++ fst v) r.
(* eval.go:155-166 Product, left operator "o" *)
Definition outer (ev : value -> value -> res value) (u v : value) : res value :=
  at_least_vector (outer_vec ev) (outer_mat ev) u v.

(* The loops 253-256 and 273-276: k from n-2 down to 0; [ui k], [vj k] read the operands. *)
Fixpoint inner_down (evl evr : value -> value -> res value) (ui vj : nat -> res value) (k : nat) (acc : value) : res value :=
  match k with
  | O => Ok acc
  | S k' => let! x := ui k' in let! y := vj k' in let! p := evr x y in let! a := evl p acc in
            inner_down evl evr ui vj k' a
  end.
Definition inner_at (evl evr : value -> value -> res value) (ui vj : nat -> res value) (n : nat) : res value :=
  let! x := ui (n - 1) in let! y := vj (n - 1) in let! a := evr x y in inner_down evl evr ui vj (n - 1) a.
(* eval.go:243-291 innerProduct *)
Definition inner_vec (evl evr : value -> value -> res value) (u v : list value) : res value :=
  if negb (length u =? length v) then Err
  else if length u =? 0 then Err
  else inner_at evl evr (at_ u) (at_ v) (length u).
Definition inner_mat (evl evr : value -> value -> res value) (u v : list nat * list value) : res value :=
  let '(su, du) := u in let '(sv, dv) := v in
  if (length su <? 1) || (length sv <? 1) || negb (last_ su =? hd 0 sv) then Err
  else let n := hd 0 sv in
  if n =? 0 then Crash                                                (* v.data.Len() / n *)
  else let vstride := length dv / n in
  let! r := build (length du / n * vstride) (fun x =>
              let i := x / vstride * n in let j := x mod vstride in
              inner_at evl evr (fun k => at_ du (i + k)) (fun k => at_ dv (j + k * vstride)) n) in
  vec_or_mat (init_ su ++ tl sv) r.
(* eval.go:155-166 Product *)
Definition inner (evl evr : value -> value -> res value) (u v : value) : res value :=
  at_least_vector (inner_vec evl evr) (inner_mat evl evr) u v.

(* ---- each ---- *)

(* eval.go:529-554 eachMatrix: the values yielded for the first dim axes; with empty
   data the loop runs zero times whatever the axes are. *)
Fixpoint div_all (n : nat) (s : list nat) : nat := match s with [] => n | d :: s' => div_all (n / d) s' end.
Definition each_matrix (s : list nat) (d : list value) (dim : nat) : res (list value) :=
  if dim =? length s then Ok d
  else let sz := div_all (length d) (firstn dim s) in
  mapM (fun i => let part := slice d (i * sz) (i * sz + sz) in
                 if dim =? length s - 1 then Ok (VVec part) else new_matrix (skipn dim s) part)
       (seq 0 (length d / sz)).
(* eval.go:559-577 eachValue *)
Definition each_value (v : value) (dim : nat) : res (list value) :=
  if dim =? 0 then Ok [v]
  else match v with
       | VVec l => if negb (dim =? 1) then Crash else Ok l
       | VMat s d => if length s <? dim then Crash else each_matrix s d dim
       | _ => Ok [v]
       end.
(* eval.go:626-646 Each: n is the number of trailing @; ev1 k evaluates the
   operator with k of them left. *)
Definition each (ev1 : nat -> value -> res value) (n : nat) (v : value) : res value :=
  let s := fst (to_mat v) in
  let d := Nat.min n (length s) in
  if d =? 0 then Err
  else let! xs := each_value v d in
  let! r := mapM (ev1 (n - d)) xs in
  if d =? 1 then Ok (VVec r) else new_matrix (firstn d s) r.
(* eval.go:582-622 BinaryEach: nl leading and nr trailing @. *)
Definition binary_each (ev : nat -> nat -> value -> value -> res value) (nl nr : nat) (u v : value) : res value :=
  let su := fst (to_mat u) in let sv := fst (to_mat v) in
  let ld := Nat.min nl (length su) in
  if (ld =? 0) && (0 <? nl) then Err
  else let! xs := each_value u ld in
  let rd := Nat.min nr (length sv) in
  if (rd =? 0) && (0 <? nr) then Err
  else let! ys := each_value v rd in
  let! r := mapM (fun x => mapM (ev (nl - ld) (nr - rd) x) ys) xs in
  if ld + rd =? 1 then Ok (VVec (concat r)) else new_matrix (firstn ld su ++ firstn rd sv) (concat r).

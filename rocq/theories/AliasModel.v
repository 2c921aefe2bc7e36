(* The shapes of arrays as Go slices.
   A matrix holds its shape in a []int (value/matrix.go:27-30). Slices share arrays: several operators keep
   a part of an operand's shape, and two of them append to it. This file follows what each operator does to shapes;
   the elements are reduced to their number. Simplified: an element that is itself an array is not followed,
   numbers of elements are not bounded (value/matrix.go:363-365 refuses huge ones). *)
From Coq Require Import List Arith Bool String.
From Verif Require Import Value.
Import ListNotations.
Open Scope list_scope.
Open Scope nat_scope.

(* A Go slice: an array, where the slice starts in it, its length, and its capacity. *)
Record slice := mkSlice { arr : nat; off : nat; len : nat; cap : nat }.
(* The arrays allocated so far. *)
Definition heap := list (list nat).
(* what reading the slice gives *)
Definition contents (h : heap) (s : slice) : list nat := firstn (len s) (skipn (off s) (nth (arr s) h [])).
(* make([]int, n) and composite literals, filled with l, with room for more. *)
Definition alloc (h : heap) (l : list nat) (spare : nat) : heap * slice :=
  (h ++ [l ++ repeat 0 spare], mkSlice (length h) 0 (length l) (length l + spare)).
(* s[:k], for k at most the length *)
Definition front (s : slice) (k : nat) : slice := mkSlice (arr s) (off s) k (cap s).
(* s[k:] *)
Definition back (s : slice) (k : nat) : slice := mkSlice (arr s) (off s + k) (len s - k) (cap s - k).
(* writing l into the array a from position i *)
Definition write (a : list nat) (i : nat) (l : list nat) : list nat := firstn i a ++ l ++ skipn (i + length l) a.
Fixpoint update (h : heap) (i : nat) (a : list nat) : heap :=
  match h, i with
  | [], _ => []
  | _ :: h', O => a :: h'
  | b :: h', S i' => b :: update h' i' a
  end.
(* Go's append(s, l...): in place when there is room, otherwise in a new array whose capacity grow decides
   (the language leaves it open: grow c n is the new capacity when c is the old one and n are needed). *)
Definition go_append (grow : nat -> nat -> nat) (h : heap) (s : slice) (l : list nat) : heap * slice :=
  let n := len s + length l in
  if n <=? cap s then
    (update h (arr s) (write (nth (arr s) h []) (off s + len s) l), mkSlice (arr s) (off s) n (cap s))
  else alloc h (contents h s ++ l) (grow (cap s) n - n).
(* append to a copy of s: slices.Clone(s) first. Not in the code: to compare with. *)
Definition copy_append (h : heap) (s : slice) (l : list nat) : heap * slice := alloc h (contents h s ++ l) 0.

(* A value, as far as its shape goes: a scalar, a vector with its length, a matrix with its shape and the length of its data. *)
Inductive aval := AScal | AVec (n : nat) | AMat (s : slice) (n : nat).
Record astate := mkA { arrays : heap; avars : list (string * aval) }.
(* value/matrix.go:341-351 size *)
Definition vol (l : list nat) : nat := fold_right Nat.mul 1 l.
(* value/matrix.go:354-375 NewMatrix: refuses data of the wrong length. (A shape of no dimensions is not built here.) *)
Definition new_matrix (h : heap) (s : slice) (n : nat) : option aval :=
  if vol (contents h s) =? n then Some (AMat s n) else None.
(* the dimensions of v, as rho reports them: value/value.go Shape *)
Definition dims (h : heap) (v : aval) : list nat :=
  match v with AScal => [] | AVec n => [n] | AMat s _ => contents h s end.
(* A value with the dimensions l in a fresh array, or no array at all: scalars and vectors have no shape slice. *)
Definition fresh (h : heap) (l : list nat) (spare : nat) : heap * aval :=
  match l with
  | [] => (h, AScal)
  | [n] => (h, AVec n)
  | _ => let (h', s) := alloc h l spare in (h', AMat s (vol l))
  end.
(* toType(matrixType): value/int.go:155-174, value/vector.go:398-407, value/matrix.go:385-392 *)
Definition as_matrix (h : heap) (v : aval) : heap * slice * nat :=
  match v with
  | AScal => let (h', s) := alloc h [1] 0 in (h', s, 1)
  | AVec n => let (h', s) := alloc h [n] 0 in (h', s, n)
  | AMat s n => (h, s, n)
  end.
(* value/eval.go:766-773 isScalar *)
Definition ones (l : list nat) : bool := forallb (Nat.eqb 1) l.
(* value/eval.go:777-787 isVector *)
Definition row_of (u shape : list nat) : bool :=
  match u, shape with
  | d :: r, _ :: _ => (d =? List.last shape 0) && ones r
  | _, _ => false
  end.
(* value/vector.go:409-413 sameLength and the two cases before it in value/eval.go:672-699 binaryVectorOp *)
Definition zip_len (m n : nat) : option nat :=
  if m =? 1 then Some n else if n =? 1 then Some m else if m =? n then Some m else None.
Fixpoint eqb_list (a b : list nat) : bool :=
  match a, b with
  | [], [] => true
  | x :: a', y :: b' => (x =? y) && eqb_list a' b'
  | _, _ => false
  end.
Definition vlen (v : aval) : nat := match v with AScal => 1 | AVec n => n | AMat _ n => n end.
Definition is_mat (v : aval) : bool := match v with AMat _ _ => true | _ => false end.
(* The elementwise binary operators: value/eval.go:109-130 EvalBinary, 672-699 binaryVectorOp, 702-758 binaryMatrixOp.
   The result keeps the slice of one operand. *)
Definition zip (h : heap) (a b : aval) : heap * option aval :=
  if is_mat a || is_mat b then
    let '(h1, u, m) := as_matrix h a in
    let '(h2, v, n) := as_matrix h1 b in
    let su := contents h2 u in
    let sv := contents h2 v in
    (h2, if ones su then new_matrix h2 v n
         else if ones sv then new_matrix h2 u m
         else if row_of su sv then new_matrix h2 v n
         else if row_of sv su then new_matrix h2 u m
         else if eqb_list su sv then new_matrix h2 u m else None)
  else match a, b with
       | AScal, AScal => (h, Some AScal)
       | _, _ => (h, option_map AVec (zip_len (vlen a) (vlen b)))
       end.
(* The end of Reduce, ReduceFirst, decode, iota: a shape of one dimension gives a vector, otherwise the slice is kept. *)
Definition keep (h : heap) (s : slice) : option aval :=
  match contents h s with
  | [] => None
  | [n] => Some (AVec n)
  | l => new_matrix h s (vol l)
  end.
Definition last_dim (l : list nat) : nat := List.last l 0.

(* Expressions, as far as shapes go. Operators with a table entry of their own are listed by what they do with shapes. *)
Inductive sx :=
| XVar (x : string)                                  (* a variable *)
| XSet (x : string) (e : sx)                         (* x = e *)
| XNew (l : list nat)                                (* a value built from nothing: a constant *)
| XOp (f : list nat -> list nat -> option (list nat)) (a b : sx)
    (* an operator that makes the shape of its result: rho, transp, comma, take, drop, sel, fill, part, rot of vectors,
       inner product, encode ...; f is what it does to shapes, None for an error *)
| XBuild (f : list nat -> list nat -> option (list nat)) (spare : nat) (a b : sx)
    (* one that appends the dimensions one by one: indexing *)
| XMap (a : sx)                                      (* elementwise unary operators, rot, flip, scan, inv *)
| XZip (a b : sx)                                    (* elementwise binary operators *)
| XReduce (a : sx)                                   (* +/a *)
| XReduceFirst (a : sx)                              (* +/% a *)
| XSplit (a : sx)                                    (* split a *)
| XEach (d : nat) (a : sx)                           (* op@ a with d signs @ *)
| XFind (a b : sx)                                   (* a iota b *)
| XDecode (a b : sx)                                 (* a decode b *)
| XOuter (a b : sx)                                  (* a o.* b *)
| XMix (l : list nat) (a : sx).                      (* mix a, when l is the common shape of the elements *)

(* value/eval.go:323-368 Reduce *)
Definition reduce (h : heap) (v : aval) : option aval :=
  match v with
  | AScal => Some AScal
  | AVec 0 => Some (AVec 0)
  | AVec _ => Some AScal
  | AMat s _ => if (len s <? 2) || (last_dim (contents h s) =? 0) then None else keep h (front s (len s - 1))
  end.
(* value/eval.go:372-406 ReduceFirst *)
Definition reduce_first (h : heap) (v : aval) : option aval :=
  match v with
  | AMat s _ =>
    if (len s <? 2) || (hd 0 (contents h s) =? 0) || (vol (contents h (back s 1)) =? 0) then None else keep h (back s 1)
  | _ => reduce h v
  end.
(* value/matrix.go:958-970 split, value/unary.go:240-253 *)
Definition split (h : heap) (v : aval) : option aval :=
  match v with
  | AScal => Some AScal
  | AVec _ => None
  | AMat s _ => if len s <? 2 then None else keep h (front s (len s - 1))
  end.
(* value/eval.go:626-646 Each; the operator applied gives one value for each part, and a matrix without elements
   has no parts (value/eval.go:529-551 eachMatrix) *)
Definition each (d : nat) (h : heap) (v : aval) : option aval :=
  match v with
  | AScal => if d =? 0 then None else Some (AVec 1)
  | AVec n => if d =? 0 then None else Some (AVec n)
  | AMat s n =>
    let k := Nat.min d (len s) in
    let parts := if n =? 0 then 0 else vol (contents h (front s k)) in
    if k =? 0 then None
    else if k =? 1 then Some (AVec parts)
    else new_matrix h (front s k) parts
  end.
(* value/binary.go:1169-1198, the matrix case of iota. The vector case gives one number for each element of b.
   When a has no elements the code divides by zero (lines 1181-1182); here and in decode that is no value. *)
Definition find_in (h : heap) (a b : aval) : heap * option aval :=
  if is_mat a || is_mat b then
    let '(h1, u, _) := as_matrix h a in
    let '(h2, v, _) := as_matrix h1 b in
    let su := contents h2 u in
    let sv := contents h2 v in
    let r := len u - 1 in
    if (len v <? r) || negb (eqb_list (skipn 1 su) (skipn (len v - r) sv)) || (vol su =? 0) then (h2, None)
    else if len v - r =? 0 then (h2, Some (AVec 1)) else (h2, keep h2 (front v (len v - r)))
  else (h, Some (AVec (vlen b))).
(* value/binary.go:990-1028, the matrix case of decode; the vector case gives one number. *)
Definition decode (h : heap) (a b : aval) : option aval :=
  match a, b with
  | AMat _ _, _ => None
  | _, AMat s _ =>
    let n := vlen a in
    let d := hd 0 (contents h s) in
    if (negb (n =? 1) && negb (d =? 1) && negb (n =? d)) || (d =? 0) then None else keep h (back s 1)
  | _, _ => if (vlen a =? 1) || (vlen b =? 1) || (vlen a =? vlen b) then Some AScal else None
  end.

Section Eval.
Variable app : heap -> slice -> list nat -> heap * slice.

(* value/eval.go:155-166 Product, 295-320 outerProduct *)
Definition outer (h : heap) (a b : aval) : heap * option aval :=
  if is_mat a || is_mat b then
    let '(h1, u, m) := as_matrix h a in
    let '(h2, v, n) := as_matrix h1 b in
    let (h3, s) := app h2 u (contents h2 v) in
    (h3, new_matrix h3 s (m * n))
  else let (h', r) := fresh h [vlen a; vlen b] 0 in (h', Some r).
(* value/matrix.go:973-1033 mix, value/unary.go:256-273 *)
Definition mix (l : list nat) (h : heap) (a : aval) : heap * option aval :=
  match a with
  | AScal => (h, Some AScal)
  | _ => let '(h1, u, m) := as_matrix h a in
         let (h2, s) := app h1 u l in
         (h2, new_matrix h2 s (m * vol l))
  end.

Definition lookup (l : list (string * aval)) (x : string) : option aval :=
  match List.find (fun p => String.eqb (fst p) x) l with Some p => Some (snd p) | None => None end.
Definition ret (st : astate) (r : heap * option aval) : option aval * astate := (snd r, mkA (fst r) (avars st)).
Definition ret1 (st : astate) (r : option aval) : option aval * astate := (r, st).
(* The evaluator: exec/context.go, value/expr.go. The right operand is evaluated first (value/expr.go BinaryExpr.Eval);
   an error leaves the assignments made so far. Assignments share the slice: value/assign.go:33-38, value/context.go:68-71. *)
Fixpoint eval (e : sx) (st : astate) : option aval * astate :=
  let un a (k : aval -> astate -> option aval * astate) :=
    match eval a st with (None, st1) => (None, st1) | (Some v, st1) => k v st1 end in
  let bin a b (k : aval -> aval -> astate -> option aval * astate) :=
    match eval b st with
    | (None, st1) => (None, st1)
    | (Some w, st1) => match eval a st1 with (None, st2) => (None, st2) | (Some v, st2) => k v w st2 end
    end in
  match e with
  | XVar x => (lookup (avars st) x, st)
  | XSet x a => un a (fun v st1 => (Some v, mkA (arrays st1) ((x, v) :: avars st1)))
  | XNew l => let (h, v) := fresh (arrays st) l 0 in (Some v, mkA h (avars st))
  | XOp f a b => bin a b (fun v w st2 =>
      match f (dims (arrays st2) v) (dims (arrays st2) w) with
      | None => (None, st2)
      | Some l => let (h, r) := fresh (arrays st2) l 0 in (Some r, mkA h (avars st2))
      end)
  | XBuild f spare a b => bin a b (fun v w st2 =>
      match f (dims (arrays st2) v) (dims (arrays st2) w) with
      | None => (None, st2)
      | Some l => let (h, r) := fresh (arrays st2) l spare in (Some r, mkA h (avars st2))
      end)
  | XMap a => un a (fun v st1 =>
      match v with AMat s n => ret1 st1 (new_matrix (arrays st1) s n) | _ => (Some v, st1) end)
  | XZip a b => bin a b (fun v w st2 => ret st2 (zip (arrays st2) v w))
  | XReduce a => un a (fun v st1 => ret1 st1 (reduce (arrays st1) v))
  | XReduceFirst a => un a (fun v st1 => ret1 st1 (reduce_first (arrays st1) v))
  | XSplit a => un a (fun v st1 => ret1 st1 (split (arrays st1) v))
  | XEach d a => un a (fun v st1 => ret1 st1 (each d (arrays st1) v))
  | XFind a b => bin a b (fun v w st2 => ret st2 (find_in (arrays st2) v w))
  | XDecode a b => bin a b (fun v w st2 => ret1 st2 (decode (arrays st2) v w))
  | XOuter a b => bin a b (fun v w st2 => ret st2 (outer (arrays st2) v w))
  | XMix l a => un a (fun v st1 => ret st1 (mix l (arrays st1) v))
  end.
(* one expression after another, errors or not *)
Fixpoint evals (l : list sx) (st : astate) : astate :=
  match l with [] => st | e :: l' => evals l' (snd (eval e st)) end.
End Eval.

Definition nothing : astate := mkA [] [].
(* the dimensions of the variable x: what "rho x" prints *)
Definition shape_of (st : astate) (x : string) : option (list nat) :=
  option_map (dims (arrays st)) (lookup (avars st) x).

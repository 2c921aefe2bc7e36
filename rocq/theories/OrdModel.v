(* Model of value/sets.go (OrderedCompare, union, intersect, unique, equal), of
   membership and grade (value/vector.go, matrix.go) and of the operators in, iota,
   up, down, ===, !==.  Executable except for the sort, which is a parameter: see
   [sort_fn].  No proofs. *)
From Verif Require Export Value ArrModel.
From Verif Require Import NumModel.
Open Scope nat_scope.

(* ---- sets.go:198-305 OrderedCompare ---- *)
Definition is_one (r : res value) : bool := match r with Ok (VInt z) => (z =? 1)%Z | _ => false end.
(* sets.go:293-301 sgn2.  It is reached with two of int, big int and rational, on
   which < and == do not fail (sgn2_defined in OrdProofs.v). *)
Definition sgn2 (c : conf) (a b : value) : Z :=
  if is_one (eval_scalar c BLt a b) then (-1)%Z
  else if is_one (eval_scalar c BEq a b) then 0%Z else 1%Z.
(* sets.go:304-312 sgn2Int; big.Int.Cmp, big.Rat.Cmp *)
Definition sgn2_int (a b : Z) : Z := if (a <? b)%Z then (-1)%Z else if (a =? b)%Z then 0%Z else 1%Z.
Definition cmp_z (r : comparison) : Z := match r with Lt => (-1)%Z | Eq => 0%Z | Gt => 1%Z end.
(* the loops 262-267 and 276-281, over slices of equal length *)
Fixpoint lex (cmp : value -> value -> Z) (l l' : list value) : Z :=
  match l, l' with
  | x :: l1, y :: l2 => let s := cmp x y in if (s =? 0)%Z then lex cmp l1 l2 else s
  | _, _ => 0%Z
  end.
Definition cmp_lists (cmp : value -> value -> Z) (l l' : list value) : Z :=
  if negb (length l =? length l') then sgn2_int (Z.of_nat (length l)) (Z.of_nat (length l')) else lex cmp l l'.
Definition is_real (v : value) : option value := match v with VCplx re im => if isZero im then Some re else None | _ => None end.
(* One activation; cmp is the recursive call. *)
Definition compare_body (cmp : value -> value -> Z) (c : conf) (u v : value) : Z :=
  match u, v with
  | VInt a, VInt b => sgn2_int a b
  | VChar a, VChar b => sgn2_int a b
  | VBig a, VBig b => cmp_z (a ?= b)%Z
  | VRat a, VRat b => cmp_z (a ?= b)%Q
  | VCplx a b, VCplx d e => let s := cmp a d in if (s =? 0)%Z then cmp b e else s
  | VVec l, VVec l' => cmp_lists cmp l l'
  | VMat _ d, VMat _ d' => cmp_lists cmp d d'
  (* 201-243: different types *)
  | VChar _, _ => (-1)%Z
  | _, VChar _ => 1%Z
  | VMat _ _, _ => 1%Z
  | _, VMat _ _ => (-1)%Z
  | VVec _, _ => 1%Z
  | _, VVec _ => (-1)%Z
  | VCplx _ _, _ => match is_real u with Some re => cmp re v | None => 1%Z end
  | _, VCplx _ _ => match is_real v with Some re => cmp u re | None => (-1)%Z end
  | _, _ => sgn2 c u v
  end.
(* The recursion is on the number of nodes of the two values. *)
Fixpoint vsize (v : value) : nat :=
  match v with
  | VCplx a b => S (vsize a + vsize b)
  | VVec l => S (fold_right (fun x n => vsize x + n) 0 l)
  | VMat _ d => S (fold_right (fun x n => vsize x + n) 0 d)
  | _ => 1
  end.
Fixpoint compare_fuel (n : nat) (c : conf) (u v : value) : Z :=
  compare_body (match n with O => fun _ _ => 0%Z | S n' => compare_fuel n' c end) c u v.
Definition ordered_compare (c : conf) (u v : value) : Z := compare_fuel (vsize u + vsize v) c u v.

(* sets.go:167-176 equal, notEqual; binary.go:1558-1588 === and !== *)
Definition op_ident (c : conf) (u v : value) : res value := Ok (to_int (ordered_compare c u v =? 0)%Z).
Definition op_notident (c : conf) (u v : value) : res value := Ok (to_int (negb (ordered_compare c u v =? 0)%Z)).

(* ---- sorting and searching ---- *)
(* Go's sort.Sort, sort.Slice and sort.SliceStable take a list and a less function.
   They are not modelled: every function that keeps their contract (OrdSpec.v) is
   allowed. *)
Definition sort_fn := forall A : Type, (A -> A -> bool) -> list A -> list A.
Definition less (c : conf) (u v : value) : bool := (ordered_compare c u v <? 0)%Z.

(* sort.Search: the binary search loop "for i < j { h := (i+j)/2; if !f(h) { i = h+1 } else { j = h } }" *)
Fixpoint search_loop (fuel : nat) (f : nat -> bool) (i j : nat) : nat :=
  match fuel with
  | O => i
  | S fuel' => if i <? j then let h := (i + j) / 2 in
                 if negb (f h) then search_loop fuel' f (h + 1) j else search_loop fuel' f i h
               else i
  end.
Definition search (n : nat) (f : nat -> bool) : nat := search_loop n f 0 n.

(* vector.go:641-646 contains *)
Definition ge_at (c : conf) (l : list value) (x : value) (j : nat) : bool :=
  match nth_error l j with Some y => negb (less c y x) | None => false end.
Definition contains (c : conf) (l : list value) (x : value) : bool :=
  match nth_error l (search (length l) (ge_at c l x)) with
  | Some y => (ordered_compare c y x =? 0)%Z
  | None => false
  end.
(* vector.go:601-611 membership; 633-637 sortedCopy *)
Definition membership (srt : sort_fn) (c : conf) (u v : list value) : list value :=
  let s := srt value (less c) v in map (fun x => to_int (contains c s x)) u.
(* vector.go:648-653 *)
Definition shrink_vec (l : list value) : value := match l with [x] => x | _ => VVec l end.
(* binary.go:1116-1132 in *)
Definition op_in (srt : sort_fn) (c : conf) (u v : value) : res value :=
  at_least_vector (fun a b => Ok (shrink_vec (membership srt c a b)))
    (fun a b => let r := membership srt c (snd a) (snd b) in
                if length (fst a) <=? 1 then Ok (shrink_vec r) else new_matrix (fst a) r) u v.

(* ---- sets ---- *)
Definition eq_val (c : conf) (u v : value) : bool := (ordered_compare c u v =? 0)%Z.   (* scalarEqual, 161-163 *)
(* The elements of l whose flag is not one (union) or is one (intersect). *)
Fixpoint pick (want : bool) (flags : list value) (l : list value) : list value :=
  match flags, l with
  | f :: flags', x :: l' => let r := pick want flags' l' in
      if Bool.eqb (match f with VInt z => (z =? 1)%Z | _ => false end) want then x :: r else r
  | _, _ => []
  end.
(* sets.go:13-61 *)
Definition op_union (srt : sort_fn) (c : conf) (u v : value) : res value :=
  match u, v with
  | VMat _ _, _ | _, VMat _ _ => Err
  | VVec uu, VVec vv => Ok (VVec (uu ++ pick false (membership srt c vv uu) vv))
  | VVec uu, _ => Ok (if existsb (fun x => eq_val c x v) uu then u else VVec (uu ++ [v]))
  | _, VVec vv => Ok (VVec (u :: filter (fun x => negb (eq_val c u x)) vv))
  | _, _ => Ok (if eq_val c u v then u else VVec [u; v])
  end.
(* sets.go:63-105 *)
Definition op_intersect (srt : sort_fn) (c : conf) (u v : value) : res value :=
  match u, v with
  | VMat _ _, _ | _, VMat _ _ => Err
  | VVec uu, VVec vv => Ok (VVec (pick true (membership srt c uu vv) uu))
  | VVec uu, _ => Ok (VVec (filter (fun x => eq_val c x v) uu))
  | _, VVec vv => Ok (VVec (if existsb (fun x => eq_val c u x) vv then [u] else []))
  | _, _ => Ok (if eq_val c u v then u else VVec [])
  end.
(* sets.go:107-157 unique.  A pair is an indexedValue. *)
Definition unique_less (c : conf) (a b : nat * value) : bool :=
  let s := ordered_compare c (snd a) (snd b) in
  if (s =? 0)%Z then (rank_ty (ty (snd a)) <? rank_ty (ty (snd b)))%Z else (s <? 0)%Z.
Fixpoint dedup (c : conf) (prev : nat * value) (l : list (nat * value)) : list (nat * value) :=
  match l with
  | [] => []
  | x :: l' => if negb (ordered_compare c (snd prev) (snd x) =? 0)%Z then x :: dedup c x l' else dedup c prev l'
  end.
Definition index_less (a b : nat * value) : bool := fst a <? fst b.
Definition op_unique (srt : sort_fn) (c : conf) (v : value) : res value :=
  match v with
  | VMat _ _ => Err
  | VVec [] => Ok v
  | VVec l =>
    match srt (nat * value)%type (unique_less c) (combine (seq 0 (length l)) l) with
    | [] => Crash                                                      (* sorted[0] *)
    | p :: s => Ok (VVec (map snd (srt (nat * value)%type index_less (p :: dedup c p s))))
    end
  | _ => Ok v
  end.

(* ---- grade ---- *)
Definition vals_less (c : conf) (l : list value) (i j : nat) : bool :=
  match nth_error l i, nth_error l j with Some x, Some y => less c x y | _, _ => false end.
(* vector.go:541-554; the sort is sort.SliceStable *)
Definition vec_grade (stable : sort_fn) (c : conf) (l : list value) : list value :=
  map (fun i => VInt (Z.of_nat i + origin c)) (stable nat (vals_less c l) (seq 0 (length l))).
(* matrix.go:1037-1061; the sort is sort.Slice *)
Fixpoint row_less (c : conf) (l l' : list value) : bool :=
  match l, l' with
  | x :: l1, y :: l2 => let s := ordered_compare c x y in if (s =? 0)%Z then row_less c l1 l2 else (s <? 0)%Z
  | _, _ => false
  end.
Definition row (d : list value) (stride i : nat) : list value := firstn stride (skipn (i * stride) d).
Definition mat_grade (srt : sort_fn) (c : conf) (s : list nat) (d : list value) : res (list value) :=
  match s with
  | [] => Crash                                                        (* m.shape[0] *)
  | s0 :: _ =>
    if s0 =? 0 then Crash                                              (* v.Len() / m.shape[0] *)
    else let stride := length d / s0 in
    Ok (map (fun i => VInt (Z.of_nat i + origin c))
         (srt nat (fun i j => row_less c (row d stride i) (row d stride j)) (seq 0 s0)))
  end.
(* unary.go:858-890 *)
Definition op_up (srt stable : sort_fn) (c : conf) (v : value) : res value :=
  match v with
  | VVec l => Ok (VVec (vec_grade stable c l))
  | VMat s d => let! r := mat_grade srt c s d in Ok (VVec r)
  | VCplx _ _ => Err
  | _ => Ok v
  end.
Definition op_down (srt stable : sort_fn) (c : conf) (v : value) : res value :=
  match v with
  | VVec l => vec_reverse (vec_grade stable c l)
  | VMat s d => let! r := mat_grade srt c s d in vec_reverse r
  | VCplx _ _ => Err
  | _ => Ok v
  end.

(* ---- binary iota ---- *)
(* binary.go:1135-1170, vectors; the sort is sort.SliceStable *)
Definition pair_less (c : conf) (a b : value * nat) : bool := less c (fst a) (fst b).
Definition find_index (c : conf) (s : list (value * nat)) (b : value) : value :=
  match nth_error s (search (length s) (ge_at c (map fst s) b)) with
  | Some (y, i) => if (ordered_compare c y b =? 0)%Z then VInt (Z.of_nat i + origin c) else VInt (origin c - 1)
  | None => VInt (origin c - 1)
  end.
Definition vec_iota (stable : sort_fn) (c : conf) (A B : list value) : list value :=
  let s := stable (value * nat)%type (pair_less c) (combine A (seq 0 (length A))) in map (find_index c s) B.
(* binary.go:1171-1200, matrices.  183-190 allEqual *)
Fixpoint all_equal (c : conf) (x y : list value) (xlo ylo n : nat) : res bool :=
  match n with
  | O => Ok true
  | S n' => let! a := at_ x xlo in let! b := at_ y ylo in
            if negb (ordered_compare c a b =? 0)%Z then Ok false else all_equal c x y (S xlo) (S ylo) n'
  end.
(* the loop over j: the index of the first equal row, or origin-1 *)
Fixpoint first_equal (c : conf) (x y : list value) (ylo n rows j : nat) : res value :=
  match rows with
  | O => Ok (VInt (origin c - 1))
  | S rows' => let! e := all_equal c x y (j * n) ylo n in
               if e then Ok (VInt (Z.of_nat j + origin c)) else first_equal c x y ylo n rows' (S j)
  end.
Definition mat_iota (c : conf) (a b : list nat * list value) : res value :=
  let '(sa, da) := a in let '(sb, db) := b in
  match sa with
  | [] => Crash                                                        (* A.shape[1:] of an empty slice *)
  | s0 :: sa' =>
    if (length sb <? length sa') || negb (shape_eqb sa' (skipn (length sb - length sa') sb)) then Err
    else let shape := match firstn (length sb - length sa') sb with [] => [1] | s => s end in
    if s0 =? 0 then Crash
    else let n := length da / s0 in
    if n =? 0 then Crash
    else let! r := build (length db / n) (fun i => first_equal c da db (i * n) n (length da / n) 0) in
    match shape with [_] => Ok (VVec r) | _ => new_matrix shape r end
  end.
Definition op_iota2 (stable : sort_fn) (c : conf) (u v : value) : res value :=
  at_least_vector (fun a b => Ok (VVec (vec_iota stable c a b))) (mat_iota c) u v.

(* Model of value/index.go: left[index] and left[index] = rhs, with the operands already
   evaluated.  Executable; no proofs.
   The loop of IndexAssign is given as the list of its atomic steps (ParModel.v), so
   that the same definition serves for one goroutine and for many. *)
From Verif Require Export Value ArrModel ParModel.
Open Scope nat_scope.

(* index.go:47-68: an index expression's value gives the elements and the axes it
   contributes. *)
Definition index_value (x : value) : res (list value * list nat) :=
  match x with
  | VInt _ => Ok ([x], [])
  | VVec l => Ok (l, [length l])
  | VMat s d => Ok (d, s)
  | _ => Err
  end.
(* index.go:42-68, over the index list from right to left.  None is a missing index.
   out and upd are outShape and outShapeToUpdate, which grow by append. *)
Fixpoint init_loop (index : list (option value)) (idx : list (option (list value))) (out upd : list nat) :
    res (list (option (list value)) * list nat * list nat) :=
  match index with
  | [] => Ok (idx, out, upd)
  | None :: r => init_loop r (None :: idx) (out ++ [0]) (upd ++ [length out])
  | Some x :: r => let! p := index_value x in init_loop r (Some (fst p) :: idx) (out ++ rev (snd p)) upd
  end.
(* index.go:71-77: reverse the shape and flip the offsets stored in upd. *)
Definition flip_updates (out upd : list nat) : list nat := map (fun o => length out - o - 1) upd.

(* index.go:93-107: the array indexed *)
Definition indexable (lhs : value) : res (list nat * list value) :=
  match lhs with VMat s d => Ok (s, d) | VVec l => Ok ([length l], l) | _ => Err end.

(* index.go:142-146, 189-194: an index must be an Int in range; it is kept here as a
   number from 0. *)
Definition index_in (o : Z) (n : nat) (x : value) : res nat :=
  match x with
  | VInt z => if (z <? o)%Z || (Z.of_nat n <=? z - o)%Z then Err else Ok (Z.to_nat (z - o))
  | _ => Err
  end.
(* index.go:164-196 initVectorIndex: the coordinate vectors, if the single index is a
   vector of vectors. *)
Fixpoint check_coord (o : Z) (shape : list nat) (v : list value) : res (list nat) :=
  match v, shape with
  | [], _ => Ok []
  | x :: v', n :: shape' => let! k := index_in o n x in let! r := check_coord o shape' v' in Ok (k :: r)
  | _ :: _, [] => Crash                                                (* ix.shape[j] *)
  end.
Definition vector_index (o : Z) (shape : list nat) (idx : list (option (list value))) : option (res (list (list nat))) :=
  match idx with
  | [Some ((VVec v :: _) as data)] =>
    Some (if length shape <? length v then Err
          else mapM (fun x => match x with
                              | VVec w => if length w =? length v then check_coord o shape w else Err
                              | _ => Err
                              end) data)
  | _ => None
  end.

(* index.go:118-126: the missing indexes are filled in from left to right, and the
   lengths stored at the places upd, in the order of that list. *)
Fixpoint put (l : list nat) (i x : nat) : list nat :=
  match l, i with [], _ => [] | _ :: l', O => x :: l' | y :: l', S i' => y :: put l' i' x end.
Definition iota_from (o : Z) (n : nat) : list value := map (fun i => VInt (o + Z.of_nat i)) (seq 0 n).
Fixpoint fill_missing (o : Z) (shape : list nat) (idx : list (option (list value))) (out upd : list nat) :
    res (list (list value) * list nat) :=
  match idx with
  | [] => Ok ([], out)
  | Some l :: idx' => let! p := fill_missing o (tl shape) idx' out upd in Ok (l :: fst p, snd p)
  | None :: idx' =>
    match shape, upd with
    | n :: _, u :: upd' => let! p := fill_missing o (tl shape) idx' (put out u n) upd' in Ok (iota_from o n :: fst p, snd p)
    | _, _ => Crash
    end
  end.
(* index.go:132-158: every index is an Int in range *)
Fixpoint check_indexes (o : Z) (shape : list nat) (idx : list (list value)) : res (list (list nat)) :=
  match idx, shape with
  | [], _ => Ok []
  | l :: idx', n :: shape' => let! k := mapM (index_in o n) l in let! r := check_indexes o shape' idx' in Ok (k :: r)
  | _ :: _, [] => Crash
  end.

(* What the index expression selects: the offset of the i-th item selected, the number
   of axes indexed and the shape of the result. *)
Inductive chosen_items := ByAxes (idx : list (list nat)) | ByCoords (cs : list (list nat)).
Record selection := mkSel { sel_shape : list nat; sel_data : list value; sel_items : chosen_items; sel_dim : nat; sel_out : list nat }.
(* index.go:34-160 *)
Definition init (o : Z) (lhs : value) (index : list (option value)) : res selection :=
  let! p := init_loop (rev index) [] [] [] in
  let '(idx, out0, upd0) := p in
  let out := rev out0 in
  let upd := flip_updates out upd0 in
  let! a := indexable lhs in
  let '(shape, d) := a in
  match vector_index o shape idx with
  | Some r => let! cs := r in
      let n := match cs with v :: _ => length v | [] => 0 end in
      Ok (mkSel shape d (ByCoords cs) n (out ++ skipn n shape))
  | None =>
    if length shape <? length idx then Err                             (* too many dimensions *)
    else let! q := fill_missing o shape idx out upd in
         let! ks := check_indexes o shape (fst q) in
         Ok (mkSel shape d (ByAxes ks) (length index) (snd q ++ skipn (length index) shape))
  end.

(* The offset loops, e.g. index.go:236-241: "if j > 0 { offset *= shape[j] }; offset +=
   k".  The test is dropped: offset starts as 0. *)
Fixpoint offset_of (shape ks : list nat) (acc : nat) : nat :=
  match shape, ks with n :: shape', k :: ks' => offset_of shape' ks' (acc * n + k) | _, _ => acc end.
(* ix.indexes[j].At(coord[j]) for every j *)
Fixpoint at_coord (idx : list (list nat)) (coord : list nat) : res (list nat) :=
  match idx, coord with
  | l :: idx', x :: coord' => match nth_error l x with
      | Some k => let! r := at_coord idx' coord' in Ok (k :: r)
      | None => Crash
      end
  | _, _ => Ok []
  end.
(* The offsets of the items number lo .. hi-1.  By axes: a coordinate that starts at lo
   and is incremented (index.go:230, 256-262, 352-359, 383-389). *)
Definition offsets (s : selection) (lo hi : nat) : list (res nat) :=
  match sel_items s with
  | ByCoords cs => map (fun i => match nth_error cs i with
                                 | Some ks => Ok (offset_of (sel_shape s) ks 0)
                                 | None => Crash
                                 end) (seq lo (hi - lo))
  | ByAxes idx =>
    let lens := map (@length nat) idx in
    map (fun coord => let! ks := at_coord idx coord in Ok (offset_of (sel_shape s) ks 0))
        (odo_run (hi - lo) lens (fst (odo_start lens lo)))
  end.

(* index.go:207-273.  In the vector-index case the loop runs over the coordinate
   vectors, which are outSize/copySize in number. *)
Definition op_index (c : conf) (lhs : value) (index : list (option value)) : res value :=
  let! s := init (origin c) lhs index in
  match sel_out s with
  | [] =>                                                              (* 212-222 *)
    match sel_items s with
    | ByAxes idx => let! ks := at_coord idx (map (fun _ => 0) idx) in at_ (sel_data s) (offset_of (sel_shape s) ks 0)
    | ByCoords _ => at_ (sel_data s) 0
    end
  | out =>
    let copy := size (skipn (sel_dim s) (sel_shape s)) in
    if copy =? 0 then Crash                                            (* data.Len() / copySize *)
    else
      let! rows := mapM (fun off => let! off := off in build copy (fun k => at_ (sel_data s) (off * copy + k)))
                        (offsets s 0 (size out / copy)) in
      match out with [_] => Ok (VVec (concat rows)) | _ => new_matrix out (concat rows) end
  end.

(* index.go:288-321: what is stored, one value everywhere or the elements of an array *)
Definition source (out : list nat) (rhs : value) : res (nat -> res value) :=
  match out with
  | [] => Ok (fun _ => Ok rhs)
  | _ =>
    match rhs with
    | VVec l => if shape_eqb out [length l] then Ok (at_ l) else Err
    | VMat s d => if shape_eqb out s then Ok (at_ d) else Err
    | _ => Ok (fun _ => Ok rhs)
    end
  end.
(* index.go:336-391: the steps of the items lo .. hi-1.  A step sets one cell of the
   variable's array. *)
Definition assign_steps (s : selection) (copy : nat) (src : nat -> res value) (r : nat * nat) : list action :=
  flat_map (fun p => map (fun k (_ : mem) => let! off := snd p in let! x := src (k + fst p * copy) in Ok (off * copy + k, x))
                         (seq 0 copy))
           (combine (seq (fst r) (snd r - fst r)) (offsets s (fst r) (snd r))).
(* One goroutine runs all steps; a panic leaves what has been stored. *)
Fixpoint store_all (l : list action) (m : mem) : mem * res unit :=
  match l with
  | [] => (m, Ok tt)
  | a :: l' => match a m with
               | Ok (k, x) => store_all l' (mset m k x)
               | Err => (m, Err) | Crash => (m, Crash) | Unmod => (m, Unmod)
               end
  end.
Definition cells (d : list value) : mem := nth_error d.
(* The array the variable holds when its cells are m. *)
Definition contents (lhs : value) (m : mem) : value :=
  let get := fun d => map (fun k => match m k with Some x => x | None => VInt 0 end) (seq 0 (length d)) in
  match lhs with VMat s d => VMat s (get d) | VVec l => VVec (get l) | _ => lhs end.
(* What IndexAssign prepares: the steps for a range, the number of items and the work
   for each (the arguments of pfor). *)
Definition prepare (c : conf) (lhs : value) (index : list (option value)) (rhs : value) :
    res ((nat * nat -> list action) * nat * nat) :=
  let! s := init (origin c) lhs index in
  let! src := source (sel_out s) rhs in
  match sel_out s with
  | [] =>                                                              (* 323-334 *)
    match sel_items s with
    | ByAxes idx => let! ks := at_coord idx (map (fun _ => 0) idx) in
                    Ok ((fun _ => [fun _ => Ok (offset_of (sel_shape s) ks 0, rhs)]), 1, 1)
    | ByCoords _ => Ok ((fun _ => [fun _ => Ok (0, rhs)]), 1, 1)
    end
  | out =>
    let copy := size (skipn (sel_dim s) (sel_shape s)) in
    if copy =? 0 then Crash
    else Ok (assign_steps s copy src, size out / copy, copy)
  end.
(* index.go:280-399 with one goroutine: the variable's value afterwards, and how the
   assignment ends. *)
Definition index_assign (c : conf) (lhs : value) (index : list (option value)) (rhs : value) : value * res unit :=
  match prepare c lhs index rhs with
  | Ok (steps, n, _) =>
    let d := match lhs with VMat _ d => d | VVec l => l | _ => [] end in
    let r := store_all (steps (0, n)) (cells d) in (contents lhs (fst r), snd r)
  | Err => (lhs, Err) | Crash => (lhs, Crash) | Unmod => (lhs, Unmod)
  end.

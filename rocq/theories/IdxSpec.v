(* What an index list selects, and what an indexed assignment changes. *)
From Verif Require Import Value ArrSpec.
Open Scope nat_scope.

(* An index list has one entry for each of the leading axes; None is a missing index,
   which stands for the whole axis.  o is the index origin. *)
(* The axes an index gives the result: its own shape. *)
Definition axes (n : nat) (x : option value) : list nat := match x with None => [n] | Some v => shape_of v end.
Fixpoint out_shape (s : list nat) (xs : list (option value)) : list nat :=
  match xs, s with x :: xs', n :: s' => axes n x ++ out_shape s' xs' | _, _ => s end.
(* The position an index selects at one of its coordinates. *)
Definition position (o : Z) (x : option value) (c : list nat) : option nat :=
  match x with
  | None => match c with [k] => Some k | _ => None end
  | Some v => match elem v c with Some (VInt z) => Some (Z.to_nat (z - o)) | _ => None end
  end.
(* The coordinate in the indexed array of the result's element at c. *)
Fixpoint target (o : Z) (s : list nat) (xs : list (option value)) (c : list nat) : option (list nat) :=
  match xs, s with
  | x :: xs', n :: s' =>
    let r := length (axes n x) in
    match position o x (firstn r c), target o s' xs' (skipn r c) with Some k, Some t => Some (k :: t) | _, _ => None end
  | _, _ => Some c
  end.
(* Integers from the origin, below the length of the axis. *)
Definition valid_index (o : Z) (n : nat) (x : option value) : Prop :=
  match x with
  | None => True
  | Some v => wf v /\ Forall (fun e => exists z, e = VInt z /\ (o <= z < o + Z.of_nat n)%Z) (data_of v)
  end.
Inductive valid (o : Z) : list nat -> list (option value) -> Prop :=
| valid_nil s : valid o s []
| valid_cons n s x xs : valid_index o n x -> valid o s xs -> valid o (n :: s) (x :: xs).
(* The lengths of the axes whose index is missing. *)
Fixpoint missing (s : list nat) (xs : list (option value)) : list nat :=
  match xs, s with
  | None :: xs', n :: s' => n :: missing s' xs'
  | Some _ :: xs', _ :: s' => missing s' xs'
  | _, _ => []
  end.

(* Indexing by an array of coordinates: a single index whose elements are vectors, each
   the coordinate of an item along the first n axes. *)
Definition coord_of (o : Z) (v : value) : list nat :=
  match v with VVec l => map (fun e => match e with VInt z => Z.to_nat (z - o) | _ => 0 end) l | _ => [] end.
Definition valid_coords (o : Z) (s : list nat) (n : nat) (v : value) : Prop :=
  wf v /\ rank_of v <> 0 /\ data_of v <> [] /\ n <= length s /\
  Forall (fun e => exists l, e = VVec l /\ length l = n /\
    Forall2 (fun z m => exists i, z = VInt i /\ (o <= i < o + Z.of_nat m)%Z) l (firstn n s)) (data_of v).
Definition coord_target (o : Z) (v : value) (c : list nat) : option (list nat) :=
  match elem v (firstn (rank_of v) c) with Some e => Some (coord_of o e ++ skipn (rank_of v) c) | None => None end.

(* What is stored at coordinate c of the selected part: one value everywhere, or the
   elements of an array of that shape. *)
Definition stored (out : list nat) (rhs : value) (c : list nat) : option value :=
  match out with [] => Some rhs | _ => match rhs with VVec _ | VMat _ _ => elem rhs c | _ => Some rhs end end.
Definition fits (out : list nat) (rhs : value) : Prop :=
  match out with [] => True | _ => match rhs with VVec _ | VMat _ _ => shape_of rhs = out | _ => True end end.
(* v' is v with the elements at the targets of the coordinates of out replaced, the
   later ones prevailing, and nothing else changed. *)
Definition replaced (v v' : value) (out : list nat) (tgt : list nat -> option (list nat)) (new : list nat -> option value) : Prop :=
  wf v' /\ shape_of v' = shape_of v /\
  forall t, inb (shape_of v) t ->
    ((forall c, inb out c -> tgt c <> Some t) -> elem v' t = elem v t) /\
    (forall c, inb out c -> tgt c = Some t ->
       (forall c', inb out c' -> tgt c' = Some t -> ravel out c' <= ravel out c) -> elem v' t = new c).
(* The same, but an element selected more than once gets any of the values. *)
Definition replaced_somehow (v v' : value) (out : list nat) (tgt : list nat -> option (list nat)) (new : list nat -> option value) : Prop :=
  wf v' /\ shape_of v' = shape_of v /\
  forall t, inb (shape_of v) t ->
    ((forall c, inb out c -> tgt c <> Some t) -> elem v' t = elem v t) /\
    ((exists c, inb out c /\ tgt c = Some t) -> exists c, inb out c /\ tgt c = Some t /\ elem v' t = new c).

(* What can be indexed. *)
Definition arr (v : value) : Prop := match v with VVec _ | VMat _ _ => True | _ => False end.
Definition wf_index (x : option value) : Prop := match x with Some v => wf v | None => True end.
(* The index lists that select something: by axes or by coordinates. *)
Definition valid_any (o : Z) (s : list nat) (xs : list (option value)) : Prop :=
  valid o s xs \/ exists w n, xs = [Some w] /\ valid_coords o s n w.
(* No element is selected twice. *)
Definition distinct (out : list nat) (tgt : list nat -> option (list nat)) : Prop :=
  forall k k', inb out k -> inb out k' -> tgt k = tgt k' -> k = k'.

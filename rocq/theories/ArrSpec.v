(* What an array is: a shape and an element for every coordinate below it.
   Independent of the model of the operators. *)
From Verif Require Import Value.
Open Scope nat_scope.

(* Number of elements of a shape. *)
Fixpoint vol (s : list nat) : nat := match s with [] => 1 | d :: s' => d * vol s' end.
(* Position of a coordinate in row-major order (last axis fastest). *)
Fixpoint ravel (s c : list nat) : nat :=
  match s, c with d :: s', x :: c' => x * vol s' + ravel s' c' | _, _ => 0 end.
(* The coordinate at a position. *)
Fixpoint unravel (s : list nat) (i : nat) : list nat :=
  match s with [] => [] | _ :: s' => i / vol s' :: unravel s' (i mod vol s') end.
(* c is a coordinate of an array of shape s. *)
Definition inb (s c : list nat) : Prop := Forall2 lt c s.

Definition shape_of (v : value) : list nat :=
  match v with VVec l => [length l] | VMat s _ => s | _ => [] end.
Definition data_of (v : value) : list value :=
  match v with VVec l => l | VMat _ d => d | _ => [v] end.
(* The element at a coordinate. *)
Definition elem (v : value) (c : list nat) : option value := nth_error (data_of v) (ravel (shape_of v) c).
Definition rank_of (v : value) : nat := length (shape_of v).
Definition scalar (v : value) : Prop := match v with VVec _ | VMat _ _ => False | _ => True end.

(* Shapes the interpreter accepts for a matrix: no leading part of two or more
   axes spans more than 2^31-1 elements. *)
Definition legal (s : list nat) : Prop :=
  forall k, 2 <= k <= length s -> (Z.of_nat (vol (firstn k s)) <= 2 ^ 31 - 1)%Z.
(* A well-formed value: a matrix has at least one axis, a legal shape and as many
   elements as its shape says. *)
Definition wf (v : value) : Prop :=
  match v with VMat s d => s <> [] /\ length d = vol s /\ legal s | _ => True end.

(* The result is the array of shape s whose element at c is f c. *)
Definition is_array (r : res value) (s : list nat) (f : list nat -> option value) : Prop :=
  exists v, r = Ok v /\ wf v /\ shape_of v = s /\ forall c, inb s c -> elem v c = f c /\ elem v c <> None.
(* The same, or the error that there is no such array. *)
Definition gives_array (r : res value) (s : list nat) (f : list nat -> option value) : Prop :=
  (legal s /\ is_array r s f) \/ (~ legal s /\ r = Err).

(* The value one gets for a missing element: 0, or a blank among characters; in an
   array of arrays, an array of the shape of the first one. *)
Definition blank_for (l : list value) : value :=
  if forallb (fun v => match v with VChar _ => true | _ => false end) l then VChar 32 else VInt 0.
Definition filler (l : list value) : value :=
  match l with
  | [] => VInt 0
  | VVec f :: _ => VVec (map (fun _ => blank_for l) f)
  | VMat s d :: _ => VMat s (map (fun _ => blank_for l) d)
  | _ => blank_for l
  end.

(* An integer vector. *)
Definition ints (l : list Z) : value := VVec (map VInt l).

(* A value denoting the single integer k, as the left operand of rot and flip. *)
Definition one_int (u : value) (k : Z) : Prop := u = VInt k \/ u = VVec [VInt k] \/ u = VMat [1] [VInt k].
(* A coordinate with its last (first) component changed. *)
Definition on_last (f : nat -> nat) (c : list nat) : list nat := removelast c ++ [f (last c 0)].
Definition on_first (f : nat -> nat) (c : list nat) : list nat := match c with [] => [] | x :: c' => f x :: c' end.
(* Where element j of a row of n comes from when the row is rotated left by k. *)
Definition rotl (k : Z) (n j : nat) : nat := Z.to_nat ((Z.of_nat j + k) mod Z.of_nat n).
(* ... when it is reversed. *)
Definition mirror (n j : nat) : nat := n - 1 - j.

(* u denotes the integers zs: a vector of them, a rank-1 matrix, or one number. *)
Definition int_list (u : value) (zs : list Z) : Prop :=
  u = ints zs \/ u = VMat [length zs] (map VInt zs) \/ (exists z, zs = [z] /\ u = VInt z).
(* The same without the matrix. *)
Definition int_vector (u : value) (zs : list Z) : Prop :=
  u = ints zs \/ (exists z, zs = [z] /\ u = VInt z).

(* Shapes that reshape accepts. *)
Definition fits (s : list nat) : Prop :=
  Forall (fun d => (Z.of_nat d <= 2 ^ 31 - 1)%Z) s /\
  forall k, 1 <= k <= length s -> (Z.of_nat (vol (firstn k s)) <= 2 ^ 31 - 1)%Z.

(* An empty operand of rho counts as a single 0. *)
Definition nonempty_data (B : list value) : list value := match B with [] => [VInt 0] | _ => B end.

(* Taking k elements along an axis of n: a positive k takes from the start, a
   negative one from the end.  Where element j of the result comes from; it is
   beyond the source when that is not between 0 and n-1. *)
Definition take_from (n : nat) (k : Z) (j : nat) : Z := if (k <? 0)%Z then (Z.of_nat j + Z.of_nat n + k)%Z else Z.of_nat j.
Fixpoint take_coord (s : list nat) (ks : list Z) (c : list nat) : option (list nat) :=
  match s, ks, c with
  | n :: s', k :: ks', j :: c' =>
      let x := take_from n k j in
      if (0 <=? x)%Z && (x <? Z.of_nat n)%Z
      then match take_coord s' ks' c' with Some r => Some (Z.to_nat x :: r) | None => None end
      else None
  | _, _, _ => Some []
  end.
Definition taken (v : value) (s : list nat) (ks : list Z) (c : list nat) : option value :=
  match take_coord s ks c with Some c' => nth_error (data_of v) (ravel s c') | None => Some (filler (data_of v)) end.
(* Counts for every axis: those not given keep the whole axis. *)
Definition all_axes (s : list nat) (ks : list Z) : list Z := ks ++ map Z.of_nat (skipn (length ks) s).
(* One element can be taken along more axes than it has. *)
Definition take_shape (s : list nat) (ks : list Z) : list nat := if length s <? length ks then repeat 1 (length ks) else s.
Definition dims (ks : list Z) : list nat := map (fun k => Z.to_nat (Z.abs k)) ks.

(* Dropping: k from the start of each axis, or -k from the end. *)
Definition drop_counts (s : list nat) (ks : list Z) : list Z := ks ++ repeat 0%Z (length s - length ks).
Definition drop_dims (s : list nat) (ks : list Z) : list nat :=
  map (fun p => fst p - Z.to_nat (Z.abs (snd p))) (combine s (drop_counts s ks)).
Definition drop_coord (s : list nat) (ks : list Z) (c : list nat) : list nat :=
  map (fun p => fst p + Z.to_nat (snd p)) (combine c (drop_counts s ks)).

(* Transposition by the axis list m: axis j of the operand becomes axis m_j of the
   result.  The shape t of the result: each of its axes is the image of some axis,
   and is as long as the shortest of those. *)
Definition axes_to (s m t : list nat) : Prop :=
  (forall j, j < length m -> nth j m 0 < length t /\ nth (nth j m 0) t 0 <= nth j s 0) /\
  (forall i, i < length t -> exists j, j < length m /\ nth j m 0 = i /\ nth j s 0 = nth i t 0).
(* The operand's coordinate for coordinate c of the result. *)
Definition axes_from (m c : list nat) : list nat := map (fun i => nth i c 0) m.

(* Catenation treats a scalar as a one-element vector. *)
Definition as_list (v : value) : value := match v with VVec _ | VMat _ _ => v | _ => VVec [v] end.

(* A value of the same structure with every element 0 (a blank for characters). *)
Fixpoint zeroed (v : value) : value :=
  match v with
  | VChar _ => VChar 32
  | VVec l => VVec (map zeroed l)
  | VMat s d => VMat s (map zeroed d)
  | _ => VInt 0
  end.
(* sel: |k| copies of x, of its zero when k is negative. *)
Definition copies (k : Z) (x : value) : list value := repeat (if (k <? 0)%Z then zeroed x else x) (Z.to_nat (Z.abs k)).
Fixpoint selected (ks : list Z) (xs : list value) : list value :=
  match ks, xs with k :: ks', x :: xs' => copies k x ++ selected ks' xs' | _, _ => [] end.
(* One count stands for as many as needed. *)
Definition counts (ks : list Z) (n : nat) : list Z := match ks with [k] => repeat k n | _ => ks end.
Definition total (ks : list Z) : nat := fold_right (fun k t => Z.to_nat (Z.abs k) + t) 0 ks.
(* The elements of v along its last axis (length n) at c. *)
Definition row (v : value) (n : nat) (c : list nat) : list value :=
  map (fun j => match elem v (c ++ [j]) with Some x => x | None => VInt 0 end) (seq 0 n).

(* fill: a positive count repeats the next element, a negative one gives that many
   blanks, zero gives one blank. *)
Fixpoint filled (z : value) (ks : list Z) (xs : list value) : list value :=
  match ks with
  | [] => []
  | k :: ks' => if (0 <? k)%Z
                then match xs with x :: xs' => repeat x (Z.to_nat k) ++ filled z ks' xs' | [] => [] end
                else repeat z (if (k =? 0)%Z then 1 else Z.to_nat (- k)) ++ filled z ks' xs
  end.
Definition npos (ks : list Z) : nat := length (filter (fun k => (0 <? k)%Z) ks).
Definition fill_len (ks : list Z) : Z := fold_right (fun k t => ((if (k =? 0)%Z then 1 else Z.abs k) + t)%Z) 0%Z ks.

(* part: the maximal runs of consecutive elements with non-zero scores that never
   rise, in order. *)
Fixpoint runs (l : list (nat * value)) : list (list value) :=
  match l with
  | [] => []
  | (k, x) :: t =>
      if k =? 0 then runs t
      else match t with
           | (k', _) :: _ => if negb (k' =? 0) && (k' <=? k)
                             then match runs t with g :: gs => (x :: g) :: gs | [] => [[x]] end
                             else [x] :: runs t
           | [] => [[x]]
           end
  end.

(* Index vectors as the user sees them, counted from the origin. *)
Definition coord_vec (org : Z) (c : list nat) : value := ints (map (fun i => (org + Z.of_nat i)%Z) c).
Definition ngroups (ks : list nat) : nat := length (runs (map (fun k => (k, VInt 0)) ks)).
Definition scores (ks : list nat) (n : nat) : list nat := match ks with [k] => repeat k n | _ => ks end.

(* mix: the shape every element is padded to: along each axis the longest. *)
Definition common (r : nat) (xs : list value) : list nat :=
  map (fun i => list_max (map (fun e => nth i (shape_of (as_list e)) 0) xs)) (seq 0 r).
Fixpoint inbb (s c : list nat) : bool :=
  match s, c with [], [] => true | d :: s', x :: c' => (x <? d) && inbb s' c' | _, _ => false end.
(* The element of e at c, or a filler outside e. *)
Definition padded (e : value) (c : list nat) : option value :=
  if inbb (shape_of e) c then elem e c else Some (filler (data_of e)).
(* What mix is specified for here: r axes in every element (a scalar counts as a
   one-element vector), and no array of one element among larger ones. *)
Definition shp (e : value) := shape_of (as_list e).
Definition mixable (r : nat) (t : list nat) (e : value) : Prop :=
  wf e /\ Forall wf (data_of e) /\ length (shp e) = r /\ (forall d, e = VMat (repeat 1 r) d -> t = repeat 1 r).

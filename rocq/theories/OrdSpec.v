(* Equality of values, what a sort promises, and what the set operators should give. *)
From Coq Require Export Permutation Sorting.Sorted.
From Verif Require Import Value NumSpec OrdModel.
Open Scope nat_scope.

(* Values made of characters and exact numbers; a complex number with imaginary part 0
   is a real number. *)
Fixpoint exact (v : value) : Prop :=
  match v with
  | VCplx a b => exists x y, numval a = Some x /\ numval b = Some y /\ ~ (y == 0)%Q
  | VVec l => (fix all l := match l with [] => True | x :: l' => exact x /\ all l' end) l
  | VMat _ d => (fix all l := match l with [] => True | x :: l' => exact x /\ all l' end) d
  | _ => True
  end.
Fixpoint no_matrix (v : value) : Prop :=
  match v with
  | VVec l => (fix all l := match l with [] => True | x :: l' => no_matrix x /\ all l' end) l
  | VMat _ _ => False
  | VCplx a b => no_matrix a /\ no_matrix b
  | _ => True
  end.

(* Equality: the same character; the same number; element by element. *)
Inductive equal_upto (shapes : list nat -> list nat -> Prop) : value -> value -> Prop :=
| eu_char z : equal_upto shapes (VChar z) (VChar z)
| eu_num u v x y : numval u = Some x -> numval v = Some y -> (x == y)%Q -> equal_upto shapes u v
| eu_cplx a b d e : equal_upto shapes a d -> equal_upto shapes b e -> equal_upto shapes (VCplx a b) (VCplx d e)
| eu_vec l l' : Forall2 (equal_upto shapes) l l' -> equal_upto shapes (VVec l) (VVec l')
| eu_mat s s' d d' : shapes s s' -> Forall2 (equal_upto shapes) d d' -> equal_upto shapes (VMat s d) (VMat s' d').
Definition same : value -> value -> Prop := equal_upto eq.
(* The same but blind to the shapes of matrices. *)
Definition alike : value -> value -> Prop := equal_upto (fun _ _ => True).

(* Characters, numbers, complex numbers, vectors, matrices. *)
Definition class (v : value) : nat :=
  match v with VChar _ => 0 | VInt _ | VBig _ | VRat _ => 1 | VCplx _ _ => 2 | VVec _ => 3 | VMat _ _ => 4 end.

(* What sort.Sort and sort.Slice promise of a less function: always a permutation; and
   a sorted one if less is a strict weak order on the elements. *)
Definition weak_order {A} (less : A -> A -> bool) (D : A -> Prop) : Prop :=
  (forall x, D x -> less x x = false) /\
  (forall x y z, D x -> D y -> D z -> less x y = true -> less y z = true -> less x z = true) /\
  (forall x y z, D x -> D y -> D z -> less y x = false -> less z y = false -> less z x = false).
Definition sorted {A} (less : A -> A -> bool) : list A -> Prop := StronglySorted (fun x y => less y x = false).
Definition a_sort (srt : sort_fn) : Prop :=
  forall A (less : A -> A -> bool) l,
    Permutation l (srt A less l) /\ (weak_order less (fun x => In x l) -> sorted less (srt A less l)).
(* sort.SliceStable: elements neither of which is less keep their order. *)
Definition tied {A} (less : A -> A -> bool) (a x : A) : bool := negb (less a x) && negb (less x a).
Definition a_stable_sort (srt : sort_fn) : Prop :=
  a_sort srt /\
  forall A (less : A -> A -> bool) l, weak_order less (fun x => In x l) ->
    forall a, In a l -> filter (tied less a) (srt A less l) = filter (tied less a) l.

(* r keeps, in order, the elements of l with property P. *)
Inductive keeps {A} (P : A -> Prop) : list A -> list A -> Prop :=
| keeps_nil : keeps P [] []
| keeps_yes x l r : P x -> keeps P l r -> keeps P (x :: l) (x :: r)
| keeps_no x l r : ~ P x -> keeps P l r -> keeps P (x :: l) r.
(* r lists the elements of l at the positions idx, which increase. *)
Definition chosen {A} (l : list A) (idx : list nat) (r : list A) : Prop :=
  StronglySorted lt idx /\ map (nth_error l) idx = map Some r.
(* Lexicographic order of rows. *)
Inductive lexicographic {A} (less eq : A -> A -> Prop) : list A -> list A -> Prop :=
| lex_nil : lexicographic less eq [] []
| lex_less x y l l' : less x y -> length l = length l' -> lexicographic less eq (x :: l) (y :: l')
| lex_eq x y l l' : eq x y -> lexicographic less eq l l' -> lexicographic less eq (x :: l) (y :: l').
Definition among (E : value -> value -> Prop) (l : list value) (x : value) : Prop := exists y, In y l /\ E x y.
(* 1 where P holds, 0 where it does not. *)
Definition flags (P : value -> Prop) (l r : list value) : Prop :=
  Forall2 (fun x f => (P x /\ f = VInt 1%Z) \/ (~ P x /\ f = VInt 0%Z)) l r.
(* The position (from the origin) of the first element of l equal to b; origin-1 if none. *)
Definition first_index {A B} (E : A -> B -> Prop) (o : Z) (l : list A) (b : B) (r : value) : Prop :=
  (exists i x, nth_error l i = Some x /\ E x b /\ (forall j y, j < i -> nth_error l j = Some y -> ~ E y b) /\
     r = VInt (Z.of_nat i + o)) \/
  (~ (exists x, In x l /\ E x b) /\ r = VInt (o - 1)).

(* p lists the positions 0 .. n-1, any earlier one related by R to any later one. *)
Definition arranges {A} (n : nat) (at_pos : nat -> option A) (R : nat * A -> nat * A -> Prop) (p : list nat) : Prop :=
  Permutation (seq 0 n) p /\
  forall i j a b x y, i < j -> nth_error p i = Some a -> nth_error p j = Some b ->
    at_pos a = Some x -> at_pos b = Some y -> R (a, x) (b, y).
Definition indexes (o : Z) (p : list nat) : value := VVec (map (fun i => VInt (Z.of_nat i + o)) p).

(* Vectors and scalars whose elements are exact and contain no matrix. *)
Definition plain (v : value) : Prop := exact v /\ no_matrix v.

(* The i-th item of an array along its first axis, n elements long. *)
Definition item (n : nat) (d : list value) (i : nat) : list value := firstn n (skipn (i * n) d).
Definition items (n : nat) (d : list value) (k : nat) : list (list value) := map (item n d) (seq 0 k).
(* The order of up: less, or equal and earlier. *)
Definition ahead (c : conf) (E : value -> value -> Prop) (x y : nat * value) : Prop :=
  (ordered_compare c (snd x) (snd y) < 0)%Z \/ (E (snd x) (snd y) /\ fst x < fst y).
(* No element of l before position i equals x. *)
Definition first_time (E : value -> value -> Prop) (l : list value) (i : nat) (x : value) : Prop :=
  forall j y, j < i -> nth_error l j = Some y -> ~ E y x.

(* Two sorts that keep the contracts: insertion before the elements that are not less
   (stable) and after those that are not greater. *)
Fixpoint insert_before {A} (less : A -> A -> bool) (x : A) (l : list A) : list A :=
  match l with [] => [x] | y :: l' => if less y x then y :: insert_before less x l' else x :: l end.
Fixpoint insert_after {A} (less : A -> A -> bool) (x : A) (l : list A) : list A :=
  match l with [] => [x] | y :: l' => if less x y then x :: l else y :: insert_after less x l' end.
Definition insertion_sort : sort_fn := fun A less l => fold_right (insert_before less) [] l.
Definition tie_reversing_sort : sort_fn := fun A less l => fold_right (insert_after less) [] l.

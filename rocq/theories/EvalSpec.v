(* What elementwise application, reduction, scan, products and each compute.
   Independent of the model of eval.go: [ev] is the outcome of applying the operator
   to two values. *)
From Verif Require Import Value NumModel NumSpec ArrSpec.
From Coq Require Import QArith.
Open Scope nat_scope.

(* r fails in the way m fails. *)
Definition fails {A B} (m : res A) (r : res B) : Prop :=
  match m with Ok _ => False | Err => r = Err | Crash => r = Crash | Unmod => r = Unmod end.
(* r is the outcome of computing g at every coordinate of shape s: the array of the
   results, or the failure of one of them. *)
Definition computes (r : res value) (s : list nat) (g : list nat -> res value) : Prop :=
  (exists v, r = Ok v /\ wf v /\ shape_of v = s /\ forall c, inb s c -> exists x, elem v c = Some x /\ g c = Ok x) \/
  (exists c, inb s c /\ fails (g c) r).
(* The same, for a shape that may be larger than any array. *)
Definition computes_if_legal (r : res value) (s : list nat) (g : list nat -> res value) : Prop :=
  (legal s -> computes r s g) /\ (~ legal s -> forall v, r <> Ok v).

(* The operator on the elements found, if any. *)
Definition on1 (ev : value -> res value) (a : option value) : res value :=
  match a with Some x => ev x | None => Err end.
Definition on2 (ev : value -> value -> res value) (a b : option value) : res value :=
  match a, b with Some x, Some y => ev x y | _, _ => Err end.

(* A one-element array or a scalar; its element. *)
Definition single (v : value) (x : value) : Prop := vol (shape_of v) = 1 /\ data_of v = [x].
(* Shapes for which eval.go extends the operand of shape s along one of shape t: a
   single element; or as many elements as the last axis of t, then axes of length 1. *)
Definition extends (s t : list nat) : Prop :=
  vol s = 1 \/ (exists k, s = last t 0 :: repeat 1 k) \/ s = t.

(* x1 op (x2 op (... op xn)) *)
Fixpoint rfold (ev : value -> value -> res value) (l : list value) : res value :=
  match l with
  | [] => Err
  | [x] => Ok x
  | x :: l' => let! r := rfold ev l' in ev x r
  end.
(* The elements of v along its first axis (length n) at c. *)
Definition column (v : value) (n : nat) (c : list nat) : list value :=
  map (fun j => match elem v (j :: c) with Some x => x | None => VInt 0 end) (seq 0 n).
(* (x1 r y1) l ((x2 r y2) l (... l (xn r yn))) *)
Fixpoint rinner (evl evr : value -> value -> res value) (ps : list (value * value)) : res value :=
  match ps with
  | [] => Err
  | [(x, y)] => evr x y
  | (x, y) :: ps' => let! r := rinner evl evr ps' in let! p := evr x y in evl p r
  end.

(* The part of v at the leading coordinate c: an element, a row, or a matrix. *)
Definition part_at (v : value) (c : list nat) : value :=
  let t := skipn (length c) (shape_of v) in
  let data := map (fun i => match elem v (c ++ unravel t i) with Some x => x | None => VInt 0 end) (seq 0 (vol t)) in
  match c, t with
  | [], _ => v
  | _, [] => match data with x :: _ => x | [] => VInt 0 end
  | _, [_] => VVec data
  | _, _ => VMat t data
  end.

(* Two exact real numbers that are equal (they may be stored differently: 5 as a
   small or as a big integer). *)
Definition same_number (a b : value) : Prop :=
  exists x y, numval a = Some x /\ numval b = Some y /\ (x == y)%Q.
(* The operators of eval.go:183-189, and the operands on which they are total. *)
Definition assoc_op (o : bop) : Prop :=
  match o with BAdd | BMul | BMin | BMax | LOr | LAnd | LXor | BOr | BAnd | BXor => True | _ => False end.
Definition assoc_dom (o : bop) (v : value) : Prop :=
  match o with BOr | BAnd | BXor => exists z, intval v = Some z | _ => valid v end.

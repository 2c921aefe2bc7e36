(* Histories of evaluations in which the phase keeps its meaning. *)
From Coq Require Import QArith.
From Verif Require Import Value PhaseModel.
Open Scope list_scope.
Open Scope Z_scope.

(* The evaluation writes the number that is result i *)
Definition writes (o : pop) (i : nat) : Prop :=
  match o with Sin k | Tan k | Exp k => i = k | Mod k l => i = k \/ i = l | _ => False end.
(* The phase of a number on the lower half of the imaginary axis *)
Definition downward (o : pop) : Prop := exists x y, o = Phase x y /\ (x == 0)%Q /\ (y < 0)%Q.
(* Nothing writes into such a phase: it is not given to sin, tan, mod or e ** *)
Definition careful (h : list pop) : Prop :=
  forall i j o o', nth_error h i = Some o -> nth_error h j = Some o' -> downward o -> ~ writes o' i.

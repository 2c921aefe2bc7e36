(* What makes the iterations of a loop independent, and what a loop's outcome is. *)
From Verif Require Import Value ParModel.
Open Scope nat_scope.

(* Every cell belongs to one iteration; iteration k writes only its own cells, and what
   it computes depends on no others. *)
Definition independent (owner : nat -> nat) (n : nat) (body : nat -> list action) : Prop :=
  forall k a, k < n -> In a (body k) ->
    (forall m m', (forall x, owner x = k -> m x = m' x) -> a m = a m') /\
    (forall m x v, a m = Ok (x, v) -> owner x = k).

Definition is_failure {A} (r : res A) : Prop := match r with Ok _ => False | _ => True end.
(* Two failures of the same kind. *)
Definition same_failure {A B} (r : res A) (r' : res B) : Prop :=
  match r, r' with Err, Err | Crash, Crash | Unmod, Unmod => True | _, _ => False end.
(* r is a possible outcome of the loop with body k for k < n on memory m0: what running
   the iterations one after the other in one goroutine gives; or, if that fails, a
   failure of one of the iterations. *)
Definition as_if_sequential (n : nat) (body : nat -> list action) (m0 : mem) (r : res mem) : Prop :=
  match in_order (flat_map body (seq 0 n)) m0 with
  | Ok m => exists m', r = Ok m' /\ forall x, m' x = m x
  | _ => exists k, k < n /\ same_failure r (in_order (body k) m0)
  end.
(* The cells hold l and nothing else; or the failure of iteration k, for some k, where l is undefined. *)
Definition holds (l : list value) (m : mem) : Prop := forall x, m x = nth_error l x.
Definition gives {A} (n : nat) (g : nat -> res A) (l : res (list value)) (r : res mem) : Prop :=
  match l with
  | Ok l => exists m, r = Ok m /\ holds l m
  | _ => exists k, k < n /\ same_failure r (g k)
  end.

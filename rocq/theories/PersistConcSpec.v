(* What concurrent Set calls promise, in terms of plain lists. *)
From stdpp Require Import gmap list.
From Verif Require Import PersistModel PersistSpec PersistConcModel.

Section Spec.
Context {T : Type}.

(* The list after the writes (i, x) of ws, one after another. *)
Definition set_all (l : list T) (ws : list (nat * T)) : list T :=
  foldl (fun l ix => <[ix.1 := ix.2]> l) l ws.

(* The calls that have returned. *)
Definition returned (th : thread T) : Prop := match tpc th with Done => True | _ => False end.
Global Instance returned_dec th : Decision (returned th).
Proof. unfold returned. destruct (tpc th); apply _. Defined.
Definition finished (c : cfg T) : list (nat * T) :=
  (fun th => (tidx th, tval th)) <$> filter returned (ths c).

(* Every slice and every editor of the world w reads as the list a gives it. *)
Definition reads_world (zero : T) (w : world (T:=T)) (a : aworld T) : Prop :=
  Forall2 (reads_as zero (wh w)) (wslices w) (aslices a) /\
  Forall2 (fun t l => reads_as zero (wh w) (ts t) l /\ t_len t = length l) (wtrs w) (aeditors a).

(* The calls of ws made one after another on editor k. *)
Definition sets (k : nat) (ws : list (nat * T)) : list (op (T:=T)) :=
  (fun ix => OSet k (Z.of_nat ix.1) ix.2) <$> ws.

(* The number of steps a schedule really makes. *)
Fixpoint steps (zero : T) (c : cfg T) (sched : list nat) : nat :=
  match sched with
  | [] => 0
  | k :: ks => match cstep zero c k with
               | None => steps zero c ks
               | Some Crash => 1
               | Some (Ok c') => S (steps zero c' ks)
               end
  end.
End Spec.

(* What package value/persist promises, in terms of plain lists.  Nothing here
   mentions trees, nodes, tails or ids. *)
From stdpp Require Import gmap list.
From Verif Require Import PersistModel.

Section Spec.
Context {T : Type}.

(* An abstract program state: the contents of every published slice and of
   every editor, in order of creation. *)
Record aworld := mkA { aslices : list (list T); aeditors : list (list T) }.

(* A list of n elements that keeps as many leading elements of l as fit
   (Resize: "If t is being grown, the value of new elements is undefined"). *)
Definition resized (l : list T) (n : nat) (l' : list T) : Prop :=
  length l' = n /\ forall i x, l !! i = Some x -> i < n -> l' !! i = Some x.

(* The effect of one API call; [None] is a panic. *)
Inductive spec_step (a : aworld) : op (T:=T) -> option aworld -> Prop :=
| sp_new : spec_step a ONew (Some (mkA (aslices a ++ [[]]) (aeditors a)))
| sp_transient k l : aslices a !! k = Some l ->
    spec_step a (OTransient k) (Some (mkA (aslices a) (aeditors a ++ [l])))
| sp_persist k l : aeditors a !! k = Some l ->
    spec_step a (OPersist k) (Some (mkA (aslices a ++ [l]) (aeditors a)))
| sp_set k l i x : aeditors a !! k = Some l -> (0 <= i < Z.of_nat (length l))%Z ->
    spec_step a (OSet k i x) (Some (mkA (aslices a) (<[k := <[Z.to_nat i := x]> l]> (aeditors a))))
| sp_set_panic k l i x : aeditors a !! k = Some l -> ~ (0 <= i < Z.of_nat (length l))%Z ->
    spec_step a (OSet k i x) None
| sp_append k l xs : aeditors a !! k = Some l ->
    spec_step a (OAppend k xs) (Some (mkA (aslices a) (<[k := l ++ xs]> (aeditors a))))
| sp_resize k l n l' : aeditors a !! k = Some l -> resized l n l' ->
    spec_step a (OResize k n) (Some (mkA (aslices a) (<[k := l']> (aeditors a))))
(* Calls on a slice or editor that does not exist cannot be written in Go. *)
| sp_no_slice k : aslices a !! k = None -> spec_step a (OTransient k) None
| sp_no_editor o k : (o = OPersist k \/ (exists i x, o = OSet k i x) \/ (exists xs, o = OAppend k xs) \/
                      (exists n, o = OResize k n)) ->
    aeditors a !! k = None -> spec_step a o None.

(* A run of calls; a panicking call leaves the state unchanged. *)
Inductive spec_run : aworld -> list (op (T:=T)) -> aworld -> Prop :=
| sr_nil a : spec_run a [] a
| sr_ok a o a' os a'' : spec_step a o (Some a') -> spec_run a' os a'' -> spec_run a (o :: os) a''
| sr_panic a o os a'' : spec_step a o None -> spec_run a os a'' -> spec_run a (o :: os) a''.

(* What reading a sequence l through At, Len, Slice and All must give. *)
Definition reads_as (zero : T) (h : heap (T:=T)) (s : slice) (l : list T) : Prop :=
  s_len s = length l /\
  (forall i : Z, at_z zero h s i =
     (if decide (0 <= i < Z.of_nat (length l))%Z
      then match l !! Z.to_nat i with Some x => Ok x | None => Crash end
      else Crash)) /\
  (forall i j : Z, slice_z zero h s i j =
     (if decide (0 <= i <= j /\ j <= Z.of_nat (length l))%Z
      then Ok (take (Z.to_nat (j - i)) (drop (Z.to_nat i) l))
      else Crash)) /\
  all zero h s = Ok l.

End Spec.
Arguments aworld : clear implicits.

(* Properties C01 and C02: persistent slices (value/persist).
   The specification is PersistSpec.v: plain lists, spec_step, reads_as. *)
From stdpp Require Import gmap list.
From Verif Require Import PersistModel PersistSpec PersistWorld.

(* C02.  After any history of calls on any number of slices and editors, every
   slice and every editor reads (Len, At, Slice, All; with panics exactly for
   out-of-range arguments) as the list the same calls would build, and the next
   call panics exactly when the list operation is out of range. *)
Theorem editor_is_a_list (T : Type) (zero : T) (os : list op) :
  exists a : aworld T, spec_run (mkA [] []) os a /\
  (let w := run zero winit os in
   Forall2 (reads_as zero (wh w)) (wslices w) (aslices a) /\
   Forall2 (fun t l => reads_as zero (wh w) (ts t) l /\ t_len t = length l) (wtrs w) (aeditors a) /\
   forall o, step zero w o = Crash <-> spec_step a o None).
Proof. exact (history zero os). Qed.
Print Assumptions editor_is_a_list.

(* C01.  A slice published at any point of any history reads the same at every
   later point, whatever calls are made on it, on editors derived from it, or on
   anything sharing storage with it. *)
Theorem published_never_changes (T : Type) (zero : T) (os1 os2 : list op) (k : nat) (s : slice) :
  let w1 := run zero winit os1 in let w2 := run zero winit (os1 ++ os2) in
  wslices w1 !! k = Some s ->
  exists l, reads_as zero (wh w1) s l /\ wslices w2 !! k = Some s /\ reads_as zero (wh w2) s l.
Proof. exact (published_stable zero os1 os2 k s). Qed.
Print Assumptions published_never_changes.

(* Non-vacuity: a history that crosses tail and tree boundaries and shares
   storage: 40 elements published as slice 1, then two editors of it diverge. *)
Definition demo : list (op (T:=nat)) :=
  [ONew; OTransient 0; OAppend 0 (seq 0 40); OPersist 0].
Definition demo2 : list (op (T:=nat)) :=
  [OSet 0 3 100; OAppend 0 [7; 8]; OTransient 1; OSet 1 39 200; OResize 1 20; OPersist 1; OSet 0 99 1].
Example demo_published : exists s, wslices (run 0 winit demo) !! 1 = Some s.
Proof. vm_compute. eauto. Qed.
Example demo_reads :
  let w := run 0 winit (demo ++ demo2) in
  (fun s => all 0 (wh w) s) <$> wslices w = [Ok []; Ok (seq 0 40); Ok (seq 0 20)] /\
  (fun t => at_ 0 (wh w) (ts t) 3) <$> wtrs w = [Ok 100; Ok 3] /\
  t_len <$> wtrs w = [42; 20].
Proof. vm_compute. auto. Qed.

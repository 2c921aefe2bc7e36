(* Property C03: concurrent element writes to one editor (value/persist).
   Any number of goroutines call Set on the same editor, at distinct indexes in
   range, under any schedule of their atomic steps (PersistConcModel.v).  The
   editor is one that any history of API calls can produce.  Specification:
   PersistSpec.v and PersistConcSpec.v (plain lists, set_all, reads_world). *)
From stdpp Require Import gmap list.
From Verif Require Import PersistModel PersistSpec PersistWorld PersistConcModel PersistConcSpec PersistConcRun
  PersistConcTerm.

(* No schedule makes a goroutine panic, and at every point of every schedule the
   editor holds its old contents with exactly the returned calls applied; every
   published slice and every other editor reads as before. *)
Theorem concurrent_sets (T : Type) (zero : T) (os : list op) (k : nat) (t : transient)
    (ws : list (nat * T)) (sched : list nat) :
  let w := run zero winit os in
  wtrs w !! k = Some t -> NoDup (ws.*1) -> Forall (fun ix => ix.1 < t_len t) ws ->
  exists (a : aworld T) l c,
    spec_run (mkA [] []) os a /\ aeditors a !! k = Some l /\
    exec zero (begin w t ws) sched = Ok c /\
    reads_world zero (back w k c) (mkA (aslices a) (<[k := set_all l (finished c)]> (aeditors a))).
Proof.
  intros w Ht Hnd Hws. destruct (conc_main zero os k t ws sched Ht Hnd Hws)
    as (a & l & c & Hsp & Hl & Hlen & HW & Hx & HC & HE).
  exists a, l, c. split_and!; auto. apply WI_reads_world. eapply CI_WI; eauto.
Qed.
Print Assumptions concurrent_sets.

(* Once all calls have returned, everything reads as if the calls had been made
   one after another, in any order; and so does everything after any further
   history of API calls. *)
Theorem concurrent_is_sequential (T : Type) (zero : T) (os : list op) (k : nat) (t : transient)
    (ws ws' : list (nat * T)) (sched : list nat) (c : cfg T) (os2 : list op) :
  let w := run zero winit os in
  wtrs w !! k = Some t -> NoDup (ws.*1) -> Forall (fun ix => ix.1 < t_len t) ws ->
  exec zero (begin w t ws) sched = Ok c -> all_done c -> ws ≡ₚ ws' ->
  exists a, spec_run (mkA [] []) (os ++ sets k ws' ++ os2) a /\
    reads_world zero (run zero (back w k c) os2) a.
Proof.
  intros w Ht Hnd Hws Hx Hd HP. destruct (conc_main zero os k t ws sched Ht Hnd Hws)
    as (a & l & c' & Hsp & Hl & Hlen & HW & Hx' & HC & HE).
  fold w in Hx'. rewrite Hx in Hx'. assert (c' = c) as -> by congruence. clear Hx'.
  pose proof (CI_WI zero w a k t l ws c HW Ht Hl HC) as HW2.
  rewrite (finished_all c ws Hd (ci_ws _ _ _ _ _ _ HC)) in HW2.
  rewrite (set_all_perm l ws ws' Hnd HP) in HW2.
  destruct (WI_run zero os2 _ _ HW2) as (a2 & Hsp2 & HW3).
  exists a2. split; [|apply WI_reads_world; exact HW3].
  eapply spec_run_app; [exact Hsp|]. eapply spec_run_app; [|exact Hsp2].
  apply spec_sets; [done|]. rewrite <-HP. rewrite <-Hlen. done.
Qed.
Print Assumptions concurrent_is_sequential.

(* No data race: at no point of any schedule are two goroutines about to access
   the same plain memory, one of them writing it. *)
Theorem no_data_race (T : Type) (zero : T) (os : list op) (k : nat) (t : transient)
    (ws : list (nat * T)) (sched : list nat) (c : cfg T) :
  let w := run zero winit os in
  wtrs w !! k = Some t -> NoDup (ws.*1) -> Forall (fun ix => ix.1 < t_len t) ws ->
  exec zero (begin w t ws) sched = Ok c -> ~ race c.
Proof.
  intros w Ht Hnd Hws Hx. destruct (conc_main zero os k t ws sched Ht Hnd Hws)
    as (a & l & c' & Hsp & Hl & Hlen & HW & Hx' & HC & HE).
  fold w in Hx'. rewrite Hx in Hx'. assert (c' = c) as -> by congruence.
  eapply CI_race; eauto.
Qed.
Print Assumptions no_data_race.

(* No deadlock: while some call has not returned, some goroutine can run. *)
Theorem no_deadlock (T : Type) (zero : T) (os : list op) (k : nat) (t : transient)
    (ws : list (nat * T)) (sched : list nat) (c : cfg T) :
  let w := run zero winit os in
  wtrs w !! k = Some t -> NoDup (ws.*1) -> Forall (fun ix => ix.1 < t_len t) ws ->
  exec zero (begin w t ws) sched = Ok c -> ~ all_done c -> exists j, cstep zero c j <> None.
Proof.
  intros w Ht Hnd Hws Hx Hd. destruct (conc_main zero os k t ws sched Ht Hnd Hws)
    as (a & l & c' & Hsp & Hl & Hlen & HW & Hx' & HC & HE).
  fold w in Hx'. rewrite Hx in Hx'. assert (c' = c) as -> by congruence.
  eapply CI_progress; eauto.
Qed.
Print Assumptions no_deadlock.

(* No livelock: the number of steps of all calls together is bounded, whatever
   the schedule, by the number of calls times a bound on the height of the tree.
   A failed compare-and-swap is retried at most once per level. *)
Theorem sets_terminate (T : Type) (zero : T) (os : list op) (k : nat) (t : transient)
    (ws : list (nat * T)) (sched : list nat) :
  let w := run zero winit os in
  wtrs w !! k = Some t -> NoDup (ws.*1) -> Forall (fun ix => ix.1 < t_len t) ws ->
  steps zero (begin w t ws) sched <= length ws * (300 * S (hgt (ts t)) + 200).
Proof. intros w. apply steps_begin. Qed.
Print Assumptions sets_terminate.

(* Non-vacuity.  An editor of 40 elements whose tree and tail are shared with a
   published slice; three goroutines write two elements of one shared leaf and
   one element of the shared tail.  The schedules make compare-and-swaps fail. *)
Definition cdemo : list (op (T:=nat)) :=
  [ONew; OTransient 0; OAppend 0 (seq 0 40); OPersist 0; OTransient 1].
Definition cws : list (nat * nat) := [(3, 100); (7, 200); (35, 300)].
Example cdemo_editor : exists t, wtrs (run 0 winit cdemo) !! 1 = Some t /\ t_len t = 40.
Proof. vm_compute. eauto. Qed.

Definition cdemo_end (sched : list nat) : option (bool * list (res (list nat)) * res (list nat)) :=
  let w := run 0 winit cdemo in
  match wtrs w !! 1 with
  | Some t => match exec 0 (begin w t cws) sched with
              | Ok c => Some (forallb (fun th => match tpc th with Done => true | _ => false end) (ths c),
                              (fun s => all 0 (wh (back w 1 c)) s) <$> wslices w,
                              all 0 (wh (back w 1 c)) (ts (tr (cst c))))
              | Crash => None
              end
  | None => None
  end.
Definition robin (n : nat) : list nat := concat (replicate n [0; 1; 2]).
Example cdemo_run : cdemo_end (robin 60) =
  Some (true, [Ok []; Ok (seq 0 40)], Ok (<[3 := 100]> (<[7 := 200]> (<[35 := 300]> (seq 0 40))))).
Proof. vm_compute. reflexivity. Qed.
Example cdemo_half : cdemo_end (robin 10) = Some (false, [Ok []; Ok (seq 0 40)], Ok (seq 0 40)).
Proof. vm_compute. reflexivity. Qed.
Example cdemo_steps : (let w := run 0 winit cdemo in
  (fun t => steps 0 (begin w t cws) (robin 60)) <$> wtrs w !! 1) = Some 118.
Proof. vm_compute. reflexivity. Qed.

(* C06: splitting a loop over goroutines does not change what it computes. *)
From Coq Require Import String.
From Verif Require Import Value NumModel ArrModel EvalModel ParModel ParSpec ParProofs ParLoops.
Open Scope string_scope.
Open Scope list_scope.
Open Scope nat_scope.

(* The ranges given to the goroutines cover every iteration once, whatever the number
   of processors and the amount of work. *)
Theorem ranges_tile ok procs work size n : procs <> 0 -> work <> 0 ->
  flat_map (fun r => seq (fst r) (snd r - fst r)) (plan ok procs work size n) = seq 0 n.
Proof. exact (plan_tiles ok procs work size n). Qed.
Print Assumptions ranges_tile.
Example ranges_tile_case : plan true 2 10 3 20 = [(0, 3); (3, 6); (6, 10); (10, 13); (13, 16); (16, 20)].
Proof. reflexivity. Qed.

(* For every loop with independent iterations, every number of processors and every
   schedule under which all goroutines finish, the outcome is that of the plain loop. *)
Theorem parallel_is_sequential owner n body m0 ok procs work size schedule r : procs <> 0 -> work <> 0 ->
  independent owner n body ->
  let st := run (m0, spawn (each_k body) (plan ok procs work size n)) schedule in
  finished st -> outcome st r -> as_if_sequential n body m0 r.
Proof.
  intros Hp Hw Ind. exact (pfor_ok owner n body m0 Ind _ (plan_tiles ok procs work size n Hp Hw) _ schedule r (fun _ _ => eq_refl)).
Qed.
Print Assumptions parallel_is_sequential.

(* A schedule that gives every goroutine enough turns finishes, and then there is an outcome. *)
Theorem parallel_terminates m0 f rs schedule :
  (forall j r, nth_error rs j = Some r -> length (f r) <= count_occ Nat.eq_dec schedule j) ->
  finished (run (m0, spawn f rs) schedule) /\ exists r, outcome (run (m0, spawn f rs) schedule) r.
Proof. intros H. split; [exact (pfor_finishes m0 f rs schedule H)|apply outcome_exists]. Qed.
Print Assumptions parallel_terminates.

(* Elementwise operators, products, reductions, membership, index-of, binary
   transposition: loops whose iteration k writes f k into cell k. *)
Theorem parallel_cells n f ok procs work size schedule r : procs <> 0 -> work <> 0 ->
  let st := run (nothing, spawn (each_k (set_cell f)) (plan ok procs work size n)) schedule in
  finished st -> outcome st r -> gives n f (build n f) r.
Proof.
  intros Hp Hw st Fin Out.
  pose proof (parallel_is_sequential _ n _ nothing ok procs work size schedule r Hp Hw (set_cell_independent n f) Fin Out) as H.
  apply (gives_map n (fun k => in_order (set_cell f k) nothing)).
  - intros k _. cbn. now destruct (f k).
  - apply (seq_gives n (set_cell f)); auto. exact (set_cell_in_order f n nothing eq_refl).
Qed.
Print Assumptions parallel_cells.

(* Rotations: iteration i writes the n cells of row i. *)
Theorem parallel_rows rows n f ok procs work size schedule r : procs <> 0 -> work <> 0 ->
  let st := run (nothing, spawn (each_k (set_row n f)) (plan ok procs work size rows)) schedule in
  finished st -> outcome st r ->
  gives rows (fun i => build n (f i)) (let! l := mapM (fun i => build n (f i)) (seq 0 rows) in Ok (concat l)) r.
Proof.
  intros Hp Hw st Fin Out.
  pose proof (parallel_is_sequential _ rows _ nothing ok procs work size schedule r Hp Hw (set_row_independent n rows f) Fin Out) as H.
  exact (rows_gives n (set_row n f) (fun i => build n (f i)) (set_row_ok n f) rows r H).
Qed.
Print Assumptions parallel_rows.

(* Scan, whose fast path reads back the cell written last. *)
Theorem parallel_scan ev assoc d stride rows ok procs work size schedule r : procs <> 0 -> work <> 0 -> stride <> 0 ->
  let st := run (nothing, spawn (each_k (scan_body ev assoc d stride)) (plan ok procs work size rows)) schedule in
  let row := fun i => scan_row ev assoc d (i * stride) stride in
  finished st -> outcome st r -> gives rows row (let! l := mapM row (seq 0 rows) in Ok (concat l)) r.
Proof.
  intros Hp Hw Hs st row Fin Out.
  pose proof (parallel_is_sequential _ rows _ nothing ok procs work size schedule r Hp Hw (scan_independent ev assoc d stride rows Hs) Fin Out) as H.
  exact (rows_gives stride _ row (fun i m => scan_body_ok ev assoc d stride i m Hs) rows r H).
Qed.
Print Assumptions parallel_scan.

(* Two-dimensional transposition, where each goroutine carries its own position. *)
Theorem parallel_transpose d xdim ydim ok procs work size schedule r : procs <> 0 -> work <> 0 ->
  ydim <> 0 -> length d = xdim * ydim ->
  let st := run (nothing, spawn (transp_range d xdim ydim) (plan ok procs work size (length d))) schedule in
  finished st -> outcome st r ->
  exists l m, transp2_chunk d xdim ydim 0 (length d) (repeat vzero (length d)) = Ok l /\ r = Ok m /\ holds l m.
Proof.
  intros Hp Hw Hy HL st Fin Out. apply (transp_gives d xdim ydim r Hy HL).
  pose proof (plan_tiles ok procs work size (length d) Hp Hw) as T.
  refine (pfor_ok _ _ _ nothing (transp_independent d xdim ydim Hy HL) _ T _ schedule r _ Fin Out).
  intros [lo hi] Hin. destruct (Nat.le_gt_cases hi lo) as [E|E].
  - unfold transp_range, each_k, slice. cbn [fst snd]. now replace (hi - lo) with 0 by lia.
  - apply transp_range_each; auto; [lia|].
    assert (In (hi - 1) (seq 0 (length d))).
    { rewrite <-T. apply in_flat_map. exists (lo, hi). split; [auto|]. apply in_seq. cbn [fst snd]. lia. }
    apply in_seq in H. lia.
Qed.
Print Assumptions parallel_transpose.

(* Non-vacuity: two goroutines interleaved, one of them failing. *)
Example parallel_case :
  let f := fun k => if k =? 2 then Err else Ok (VInt (Z.of_nat k)) in
  let st := run (nothing, spawn (each_k (set_cell f)) (plan true 2 1 1 4)) [1; 0; 3; 2] in
  finished st /\ outcome st Err /\ fst st 3 = Some (VInt 3%Z) /\ fst st 2 = None.
Proof.
  cbv zeta. repeat split.
  - unfold finished. apply Forall_forall. intros t Ht. cbn in Ht. intuition (subst; reflexivity).
  - apply (some_panic _ (mkThread [] (Some PErr)) PErr); [cbn; auto|reflexivity].
Qed.

(* An operator that runs the user's code is not independent; the loop is split all the
   same if the user's operator has the name of a built-in one, and then the result
   depends on the schedule (safeBinary, eval.go:169-180, looks at the name only). *)
Theorem redefined_operator_refuted :
  exists schedule schedule' m m',
  let st := (mset nothing 2 (VInt 0%Z), spawn (each_k (counting_body 2)) (plan (safe ["+"; "-"; "?"] "+") 2 1 1 2)) in
  finished (run st schedule) /\ finished (run st schedule') /\
  outcome (run st schedule) (Ok m) /\ outcome (run st schedule') (Ok m') /\
  m 0 = Some (VInt 1%Z) /\ m' 0 = Some (VInt 2%Z).
Proof.
  pose (st := (mset nothing 2 (VInt 0%Z), spawn (each_k (counting_body 2)) (plan (safe ["+"; "-"; "?"] "+") 2 1 1 2))).
  exists [0; 0; 1; 1], [1; 1; 0; 0], (fst (run st [0; 0; 1; 1])), (fst (run st [1; 1; 0; 0])).
  repeat split.
  - unfold finished. cbn. repeat constructor.
  - unfold finished. cbn. repeat constructor.
  - apply all_well. cbn. repeat constructor.
  - apply all_well. cbn. repeat constructor.
Qed.
Print Assumptions redefined_operator_refuted.

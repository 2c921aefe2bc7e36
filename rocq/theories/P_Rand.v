(* Random numbers: ?B, A?B and rand (C84-C87). *)
From Coq Require Import QArith Permutation Lqa String.
From Verif Require Import Value NumModel NumSpec ArrModel FloatModel FloatMono ParModel RandModel RandSpec RandProofs.
Open Scope list_scope.
Open Scope Z_scope.

(* C84.  For every generator that keeps its word, ? replaces every number n of an array of
   positive small integers by one of the first n integers counted from the origin. *)
Theorem roll_in_range_partial : forall gen origin v g, honest gen -> dice v -> exists r, fst (roll gen origin v g) = Ok r /\ rolled origin v r.
Proof. intros gen origin v g H D. exact (roll_ok gen origin H v g D). Qed.
Print Assumptions roll_in_range_partial.
(* All of them can come up. *)
Theorem roll_any_face : forall origin n z, 0 < n -> origin <= z < origin + n -> exists gen g, honest gen /\ fst (roll gen origin (VInt n) g) = Ok (VInt z).
Proof. exact roll_any. Qed.
Print Assumptions roll_any_face.
(* Anything else but numbers and arrays of them, and numbers that are not positive, is an error, and nothing is drawn. *)
Theorem roll_rejects : forall gen origin g v, match v with VInt n | VBig n => n <= 0 | VRat _ | VCplx _ _ | VChar _ => True | _ => False end -> roll gen origin v g = (Err, g).
Proof. intros gen origin g [n|c|b|q|a b|l|s l] H; try contradiction; try reflexivity; cbn; apply Z.leb_le in H; rewrite H; reflexivity. Qed.
Print Assumptions roll_rejects.
(* A big integer n is rolled among 0 to n-1 whatever the origin. *)
Theorem roll_big_partial : forall gen origin n g, honest gen -> 0 < n -> exists z, fst (roll gen origin (VBig n) g) = Ok (shrink_big z) /\ 0 <= z < n.
Proof. exact roll_big. Qed.
Print Assumptions roll_big_partial.
(* So with the default origin, 1, the result may be 0, which is none of the first n integers. *)
Theorem roll_big_refuted : exists gen g n, honest gen /\ canonical (VBig n) /\ 0 < n /\ fst (roll gen 1 (VBig n) g) = Ok (VInt 0).
Proof. exists (choose [] 0), tt, (2 ^ 64). split; [apply choose_honest; constructor|]. split; [vm_compute; intros [? ?]; congruence|]. split; reflexivity. Qed.
Print Assumptions roll_big_refuted.
(* And with a large origin that )origin accepts, the result is a small integer outside the range of small integers. *)
Theorem roll_canonical_refuted : exists gen g origin n, honest gen /\ canonical (VInt origin) /\ canonical (VInt n) /\ 0 < n /\
  match fst (roll gen origin (VInt n) g) with Ok v => ~ canonical v | _ => False end.
Proof. exists (choose [] 9), tt, (2 ^ 31 - 1), 10. split; [apply choose_honest; constructor|]. split; [vm_compute; split; [discriminate|reflexivity]|]. split; [vm_compute; split; [discriminate|reflexivity]|]. split; [reflexivity|]. vm_compute. intros [_ ?]. discriminate. Qed.
Print Assumptions roll_canonical_refuted.
Theorem roll_canonical_partial : forall gen origin n g, honest gen -> 0 < n -> 0 <= origin -> origin + n <= 2 ^ 31 -> exists z, fst (roll gen origin (VInt n) g) = Ok (VInt z) /\ canonical (VInt z).
Proof.
  intros gen origin n g H N O1 O2. destruct (roll_ok gen origin H (VInt n) g N) as (r & E & R). inversion R as [? z ? L E1 E2| |]; subst. exists z. split; [exact E|]. unfold canonical. lia.
Qed.
Print Assumptions roll_canonical_partial.
Example roll_case : honest (choose [] 3) /\ dice (VMat [2; 2]%nat [VInt 6; VInt 4; VInt 10; VInt 2]) /\
  fst (roll (choose [] 3) 1 (VMat [2; 2]%nat [VInt 6; VInt 4; VInt 10; VInt 2]) tt) = Ok (VMat [2; 2]%nat [VInt 4; VInt 4; VInt 4; VInt 1]).
Proof. split; [apply choose_honest; constructor|]. split; [cbn; lia|reflexivity]. Qed.

(* C85.  a?b is a distinct integers of the first b. *)
Theorem deal_distinct : forall gen origin a b g, honest gen -> 0 <= a -> a <= b -> b <= maxInt ->
  exists l, fst (deal gen origin (VInt a) (VInt b) g) = Ok (VVec (map VInt l)) /\ Z.of_nat (length l) = a /\ NoDup l /\ Forall (fun z => origin <= z < origin + b) l.
Proof. exact deal_ok. Qed.
Print Assumptions deal_distinct.
(* Every such sequence can be dealt. *)
Theorem deal_any_hand : forall origin b l, Z.of_nat (length l) <= b <= maxInt -> NoDup l -> Forall (fun z => origin <= z < origin + b) l ->
  exists gen g, honest gen /\ fst (deal gen origin (VInt (Z.of_nat (length l))) (VInt b) g) = Ok (VVec (map VInt l)).
Proof. exact deal_any. Qed.
Print Assumptions deal_any_hand.
(* All other operands are errors, and nothing is drawn. *)
Theorem deal_rejects : forall gen origin u v g, (forall a b, u = VInt a -> v = VInt b -> a < 0 \/ b < a \/ maxInt < b) -> deal gen origin u v g = (Err, g).
Proof.
  intros gen origin u v g H. destruct u as [a| | | | | |]; try reflexivity. destruct v as [b| | | | | |]; try reflexivity.
  specialize (H a b eq_refl eq_refl). unfold deal. destruct (a <? 0) eqn:E1; [reflexivity|]. destruct (maxInt <? a) eqn:E2; [reflexivity|]. destruct (b <? 0) eqn:E3; [reflexivity|].
  destruct (maxInt <? b) eqn:E4; [reflexivity|]. replace (b <? a) with true by lia. reflexivity.
Qed.
Print Assumptions deal_rejects.
Example deal_case : honest (choose [3; 0; 4] 0) /\ fst (deal (choose [3; 0; 4] 0) 1 (VInt 3) (VInt 5) tt) = Ok (VVec (map VInt [4; 1; 5])) /\
  fst (deal (choose [3; 0; 4] 0) 1 (VInt 5) (VInt 5) tt) = Ok (VVec (map VInt [4; 1; 5; 2; 3])) /\
  fst (deal (choose [] 0) 1 (VInt 6) (VInt 5) tt) = Err.
Proof. split; [apply choose_honest; repeat constructor; cbn; lia|]. repeat split. Qed.

(* C86.  rand f is at least 0 and at most f rounded to 53 bits. *)
Theorem rand_bounds_partial : forall gen p f g, honest gen -> 1 <= p -> (0 <= f)%Q -> exists q, fst (rand_float gen p f g) = Ok q /\ (0 <= q)%Q /\ (q <= rnd 53 f)%Q.
Proof. exact rand_ok. Qed.
Print Assumptions rand_bounds_partial.
(* The interval is half open when the precision is at most 51 bits and f has no more than 53. *)
Theorem rand_half_open_partial : forall gen p f g, honest gen -> 1 <= p <= 51 -> (0 < f)%Q -> representable 53 f -> exists q, fst (rand_float gen p f g) = Ok q /\ (0 <= q)%Q /\ (q < f)%Q.
Proof. exact rand_below. Qed.
Print Assumptions rand_half_open_partial.
(* With the default precision, 256 bits, rand 1 may be 1. *)
Theorem rand_half_open_refuted : exists gen g q, honest gen /\ fst (rand gen 256 (VInt 1) g) = Ok q /\ (q == 1)%Q.
Proof. exists (choose [] (2 ^ 256)), tt. eexists. split; [apply choose_honest; constructor|]. split; [reflexivity|]. vm_compute. reflexivity. Qed.
Print Assumptions rand_half_open_refuted.
(* The results of rand never have more than 53 bits, whatever the precision asked for. *)
Theorem rand_bits : forall gen p v g q, honest gen -> 1 <= p -> fst (rand gen p v g) = Ok q -> representable 53 q.
Proof. exact rand_rep. Qed.
Print Assumptions rand_bits.
Theorem rand_rejects : forall gen p g v, match v with VInt n | VBig n => n < 0 | VChar _ | VCplx _ _ => True | _ => False end -> rand gen p v g = (Err, g).
Proof.
  intros gen p g [n|c|b|q|a b|l|s l] H; try contradiction; try reflexivity; unfold rand; cbn [rand_operand]; unfold rand_float;
    (destruct (Qle_bool 0 _) eqn:E; [|reflexivity]); apply Qle_bool_iff in E; change 0%Q with (inject_Z 0) in E; rewrite <-Zle_Qle in E; lia.
Qed.
Print Assumptions rand_rejects.
Example rand_case : honest (choose [] 1) /\ representable 53 6 /\ exists q, fst (rand (choose [] 1) 3 (VInt 6) tt) = Ok q /\ (0 < q)%Q /\ (q < 1)%Q.
Proof.
  split; [apply choose_honest; constructor|]. split; [exists 6, 0; split; [lia|reflexivity]|]. eexists. split; [reflexivity|]. split; vm_compute; reflexivity.
Qed.

(* C87.  Equal states of the generator give equal rolls, however many goroutines there are
   and however they are scheduled. *)
Theorem roll_reproduced : forall A gen draw procs n g s1 s2, let st := par_start A gen (unary_plan procs "?" n) g in
  par_done A gen (par_run A gen draw st s1) -> par_done A gen (par_run A gen draw st s2) -> par_run A gen draw st s1 = par_run A gen draw st s2.
Proof. exact roll_reproducible. Qed.
Print Assumptions roll_reproduced.
(* rand on long vectors is not like that: from the same state two complete runs may give the first
   element different values, if only the generator's next two numbers differ. *)
Theorem rand_schedule_matters : forall A gen (next : state gen -> A * state gen) procs n g, (2 <= procs)%nat -> (200 <= n)%nat -> fst (next g) <> fst (next (snd (next g))) ->
  let draw := fun _ : nat => next in let st := par_start A gen (unary_plan procs "rand" n) g in
  exists s1 s2, par_done A gen (par_run A gen draw st s1) /\ par_done A gen (par_run A gen draw st s2) /\ par_cells A gen (par_run A gen draw st s1) 0%nat <> par_cells A gen (par_run A gen draw st s2) 0%nat.
Proof. exact rand_schedules. Qed.
Print Assumptions rand_schedule_matters.
(* A generator that counts. *)
Definition counting : generator := mkGen Z (fun g n => (g mod n, g + 1)) (fun g n => (g mod n, g + 1)) (fun g n => (map Z.of_nat (seq 0 n), g)) (fun seed => seed).
Lemma counting_honest : honest counting.
Proof. split; [|split]; intros g n; cbn; [intros N; apply Z.mod_pos_bound; lia|intros N; apply Z.mod_pos_bound; lia|reflexivity]. Qed.
Theorem rand_reproduced_refuted : exists gen seed, honest gen /\ forall procs n, (2 <= procs)%nat -> (200 <= n)%nat ->
  let draw := fun _ : nat => rand gen 64 (VInt 1) in let st := par_start _ gen (unary_plan procs "rand" n) (seeded gen seed) in
  exists s1 s2, par_done _ gen (par_run _ gen draw st s1) /\ par_done _ gen (par_run _ gen draw st s2) /\ par_cells _ gen (par_run _ gen draw st s1) 0%nat <> par_cells _ gen (par_run _ gen draw st s2) 0%nat.
Proof.
  exists counting, 0. split; [exact counting_honest|]. intros procs n P N. apply rand_schedules; [exact P|exact N|]. vm_compute. discriminate.
Qed.
Print Assumptions rand_reproduced_refuted.
(* On shorter vectors, or with one processor, it is. *)
Theorem rand_reproduced_partial : forall A gen draw procs n g s1 s2, (procs = 1 \/ n < 200)%nat -> let st := par_start A gen (unary_plan procs "rand" n) g in
  par_done A gen (par_run A gen draw st s1) -> par_done A gen (par_run A gen draw st s2) -> par_run A gen draw st s1 = par_run A gen draw st s2.
Proof. exact rand_short. Qed.
Print Assumptions rand_reproduced_partial.
Example reproduced_case : let st := par_start Z counting (unary_plan 8 "?" 3) 7 in let draw := fun (k : nat) g => int64n counting g 6 in
  par_done Z counting (par_run Z counting draw st [0; 5; 0; 0]%nat) /\ map (par_cells Z counting (par_run Z counting draw st [0; 5; 0; 0]%nat)) [0; 1; 2]%nat = [Some 1; Some 2; Some 3].
Proof. split; [repeat constructor|reflexivity]. Qed.

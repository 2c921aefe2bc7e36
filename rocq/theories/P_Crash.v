(* C47: evaluations that end in a value or an error, never in a Go runtime panic, and
   the operators of which this is false. *)
From Verif Require Import Value NumModel ArrModel ArrSpec ArrBase EvalModel OrdModel OrdSpec OrdProofs OrdMat IdxModel EncModel InvModel
  CrashSpec CrashBase CrashArr CrashArr2 CrashEval CrashOrd CrashExpr.
Open Scope nat_scope.

Lemma fine_ends (P : value -> Prop) r : fine P r -> r <> Crash /\ forall w, r = Ok w -> P w.
Proof. destruct r; cbn; intros H; split; try discriminate; try contradiction. intros w E. now inversion E; subst. Qed.

(* An operator that is not one of the fragile ones, and applies none of them, never panics,
   whatever its operands; and its result again is a value whose matrices have as many
   elements as their shape says.  Among them: all arithmetic, rho, transp with axes, ,%,
   take, drop, fill, part, in, union, intersect, ===, encode, outer products, reductions,
   scans, each, iota, where, unique, split, mix. *)
Theorem robust_operators_return srt stable c : a_sort srt ->
  (forall o u v, robust2 o = true -> sound u -> sound v ->
     run2 srt stable c o u v <> Crash /\ forall w, run2 srt stable c o u v = Ok w -> sound w) /\
  (forall o v, robust1 o = true -> sound v ->
     run1 srt stable c o v <> Crash /\ forall w, run1 srt stable c o v = Ok w -> sound w).
Proof.
  intros S. split; intros; apply fine_ends.
  - now apply robust2_ok.
  - now apply robust1_ok.
Qed.
Print Assumptions robust_operators_return.
(* The other operators too, where there is no matrix, or no axis of length 0. *)
Theorem operators_return_partial srt stable c : a_sort srt ->
  (forall o u v, guarded2 o = true -> sound u -> sound v -> clear u v ->
     run2 srt stable c o u v <> Crash /\ forall w, run2 srt stable c o u v = Ok w -> sound w) /\
  (forall o v, guarded1 o = true -> sound v -> ~ (matrix v /\ empty_axis v) ->
     run1 srt stable c o v <> Crash /\ forall w, run1 srt stable c o v = Ok w -> sound w) /\
  (forall v xs, sound v -> (forall x, In (Some x) xs -> sound x) -> ~ empty_axis v ->
     op_index c v xs <> Crash /\ forall w, op_index c v xs = Ok w -> sound w).
Proof.
  intros S. split; [|split]; intros; apply fine_ends.
  - apply guarded2_ok; auto.
  - apply guarded1_ok; auto.
  - apply fine_index; auto. apply Forall_forall. intros [x|] I; auto.
Qed.
Print Assumptions operators_return_partial.
(* So an expression of any size panics only where a fragile operator, or indexing, meets an
   axis of length 0. *)
Theorem expressions_return_partial srt stable c e : a_sort srt -> proper e ->
  (value_of srt stable c e = Crash -> meets_empty srt stable c e) /\
  (forall w, value_of srt stable c e = Ok w -> ~ meets_empty srt stable c e -> sound w).
Proof.
  intros S P. destruct (expr_fine srt stable c S e P) as [M|F]; [tauto|].
  apply fine_ends in F. split; [tauto|]. intros w E _. now apply F.
Qed.
Print Assumptions expressions_return_partial.

(* The condition is needed: each of the fragile operators panics on some arrays that rho
   makes from integers. *)
Theorem fragile_operators_refuted srt stable c :
  (forall o, fragile2 o = true -> exists s t, value_of srt stable c (Bin o (made s) (made t)) = Crash) /\
  (forall o, fragile1 o = true -> exists s, value_of srt stable c (Un o (made s)) = Crash) /\
  (exists s, value_of srt stable c (Ix (made s) [Some (Const (VInt (origin c)))]) = Crash).
Proof.
  split; [|split].
  - intros [] H; try discriminate H.
    + exists [1]%Z, [2; 0]%Z. reflexivity.
    + exists [1]%Z, [0; 2]%Z. reflexivity.
    + exists [0; 3]%Z, [0]%Z. reflexivity.
    + exists [2]%Z, [0; 2]%Z. reflexivity.
    + exists [0; 2]%Z, [0; 2]%Z. reflexivity.
    + exists [1]%Z, [0; 2]%Z. reflexivity.
    + exists [0; 0]%Z, [0; 0]%Z. reflexivity.
    + exists [2; 0]%Z, [0; 2]%Z. reflexivity.
  - intros [] H; try discriminate H.
    + exists [2; 0]%Z. reflexivity.
    + exists [2; 0]%Z. reflexivity.
    + exists [0; 2]%Z. reflexivity.
    + exists [0; 2]%Z. reflexivity.
    + exists [2; 2; 0; 1]%Z. reflexivity.
  - exists [2; 0]%Z. change (op_index c (VMat [2; 0] []) [Some (VInt (origin c))] = Crash).
    unfold op_index, init. cbn [rev app init_loop bind indexable vector_index length Nat.ltb Nat.leb fill_missing check_indexes mapM index_in fst tl].
    cbn -[index_in]. unfold index_in. rewrite Z.ltb_irrefl, Z.sub_diag. reflexivity.
Qed.
Print Assumptions fragile_operators_refuted.

(* The hypotheses are met: a sort, and an expression that uses fragile operators and
   indexing on a matrix made by rho, and returns. *)
Section Calm.
Variables (srt stable : sort_fn) (c : conf).
Lemma calm_const v : ~ meets_empty srt stable c (Const v).
Proof. intros H. inversion H. Qed.
Lemma calm_un o e v : ~ meets_empty srt stable c e -> value_of srt stable c e = Ok v -> ~ empty_axis v -> ~ meets_empty srt stable c (Un o e).
Proof. intros N E A H. inversion H; [congruence|contradiction]. Qed.
Lemma calm_bin o e e' u v : ~ meets_empty srt stable c e -> ~ meets_empty srt stable c e' ->
  value_of srt stable c e = Ok u -> value_of srt stable c e' = Ok v -> ~ empty_axis u -> ~ empty_axis v -> ~ meets_empty srt stable c (Bin o e e').
Proof. intros N N' E E' A A' H. inversion H; try contradiction. intuition congruence. Qed.
Lemma calm_ix e l v : ~ meets_empty srt stable c e -> value_of srt stable c e = Ok v -> ~ empty_axis v ->
  (forall x, In (Some x) l -> ~ meets_empty srt stable c x) -> ~ meets_empty srt stable c (Ix e l).
Proof. intros N E A L H. inversion H; try contradiction; [congruence|]. now apply (L x). Qed.
End Calm.
Example returns_case : let e := Ix (Un Transp1 (Bin Rot (Const (VInt 1)) (Bin Rho (Const (VVec [VInt 2; VInt 3])) (Un Iota1 (Const (VInt 6))))))
                                   [Some (Const (VInt 3)); None] in
  a_sort insertion_sort /\ proper e /\
  value_of insertion_sort insertion_sort (mkConf 1000 1) e = Ok (VVec [VInt 1; VInt 4]) /\
  ~ meets_empty insertion_sort insertion_sort (mkConf 1000 1) e.
Proof.
  split; [exact insertion_sorts|]. split; [vm_compute; tauto|]. split; [reflexivity|].
  pose (ix := VVec [VInt 1; VInt 2; VInt 3; VInt 4; VInt 5; VInt 6]%Z).
  pose (m := VMat [2; 3] [VInt 1; VInt 2; VInt 3; VInt 4; VInt 5; VInt 6]%Z).
  pose (r := VMat [2; 3] [VInt 2; VInt 3; VInt 1; VInt 5; VInt 6; VInt 4]%Z).
  pose (t := VMat [3; 2] [VInt 2; VInt 5; VInt 3; VInt 6; VInt 1; VInt 4]%Z).
  apply calm_ix with (v := t); [|reflexivity|cbn; lia|].
  2:{ intros x [E|[E|[]]]; [|discriminate]. injection E as <-. apply calm_const. }
  apply calm_un with (v := r); [|reflexivity|cbn; lia].
  apply calm_bin with (u := VInt 1) (v := m); [apply calm_const| |reflexivity|reflexivity|cbn; lia|cbn; lia].
  apply calm_bin with (u := VVec [VInt 2; VInt 3]) (v := ix); [apply calm_const| |reflexivity|reflexivity|cbn; lia|cbn; lia].
  apply calm_un with (v := VInt 6); [apply calm_const|reflexivity|cbn; lia].
Qed.
(* Robust operators meet empty arrays and return. *)
Example robust_case :
  robust1 Flip1 = true /\ robust2 (Outer (Each2 1 0 (Arith BMul))) = true /\
  sound (VMat [2; 0] []) /\
  run1 insertion_sort insertion_sort (mkConf 1000 1) (Flip1) (VMat [2; 0] []) = Ok (VMat [2; 0] []).
Proof. split; [reflexivity|]. split; [reflexivity|]. split; [|reflexivity]. split; [|exact Logic.I]. split; [discriminate|]. split; [reflexivity|]. intros k Hk. cbn in Hk. assert (k = 2) as -> by lia. vm_compute. discriminate. Qed.

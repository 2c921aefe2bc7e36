(* C22: encode and decode.  C06: their parallel loops. *)
From Coq Require Import QArith.
From Verif Require Import Value NumModel NumSpec ArrModel ArrSpec EncModel EncSpec EncProofs EncOps EncDec.
From Verif Require ParModel ParSpec ParProofs P_Par EncPar.
Open Scope nat_scope.

Definition c1 := mkConf 0 1.
Ltac nums := repeat constructor; cbn; try discriminate; eexists; (split; [reflexivity|reflexivity]).

(* A vector of bases and a vector of digits: the mixed-radix value, where a single base
   or digit stands for as many as the other side has. *)
Theorem decode_value c u v A B as_ bs : vector_like u A -> vector_like v B -> Forall2 number A as_ -> Forall2 number B bs ->
  let n := Nat.max (length A) (length B) in
  let r := op_decode (eval_scalar c BAdd) (eval_scalar c BMul) u v in
  (A = [] \/ B = [] -> r = Ok (VInt 0)) /\
  (A <> [] -> B <> [] -> length A = 1 \/ length B = 1 \/ length A = length B ->
     gives r (radix (extend n as_) (extend n bs)) \/ (r = Err /\ maxbits c <> 0%Z)) /\
  (A <> [] -> B <> [] -> length A <> 1 -> length B <> 1 -> length A <> length B -> r = Err).
Proof. exact (decode_vectors c u v A B as_ bs). Qed.
Print Assumptions decode_value.
Example decode_value_case :
  op_decode (eval_scalar c1 BAdd) (eval_scalar c1 BMul) (ints [24; 60; 60]%Z) (ints [1; 2; 3]%Z) = Ok (VInt 3723) /\
  op_decode (eval_scalar c1 BAdd) (eval_scalar c1 BMul) (VInt 10) (ints [1; 2; 3]%Z) = Ok (VInt 123) /\
  (radix (extend 3 [10]) [1; 2; 3] == 123)%Q /\ Forall2 number [VInt 24; VInt 60] [24%Q; 60%Q].
Proof. split; [reflexivity|]. split; [reflexivity|]. split; [reflexivity|]. nums. Qed.

(* A matrix of digits: the values of its columns. *)
Theorem decode_columns c u A as_ s0 s d bs : vector_like u A -> Forall2 number A as_ -> A <> [] ->
  wf (VMat (s0 :: s) d) -> s <> [] -> s0 <> 0 ->
  Forall2 number d bs -> length A = 1 \/ s0 = 1 \/ length A = s0 ->
  let n := Nat.max (length A) s0 in
  let r := op_decode (eval_scalar c BAdd) (eval_scalar c BMul) u (VMat (s0 :: s) d) in
  (exists w, r = Ok w /\ wf w /\ shape_of w = s /\
     forall p, p < vol s -> exists e, nth_error (data_of w) p = Some e /\
       number e (radix (extend n as_) (extend n (map (fun i => nth (i * vol s + p) bs 0%Q) (seq 0 s0))))) \/
  (r = Err /\ maxbits c <> 0%Z).
Proof. exact (decode_matrix c u A as_ s0 s d bs). Qed.
Print Assumptions decode_columns.
Example decode_columns_case :
  op_decode (eval_scalar c1 BAdd) (eval_scalar c1 BMul) (ints [2; 2]%Z) (VMat [2; 3] [VInt 0; VInt 1; VInt 1; VInt 1; VInt 0; VInt 1]) =
  Ok (ints [1; 2; 3]%Z) /\ wf (VMat [2; 3] [VInt 0; VInt 1; VInt 1; VInt 1; VInt 0; VInt 1]).
Proof. split; [reflexivity|]. split; [discriminate|]. split; [reflexivity|]. intros k Hk. cbn in Hk. assert (k = 2) as -> by lia. vm_compute. discriminate. Qed.

(* encode with positive bases, fractions included: for every element of the right operand,
   digits between 0 and their base whose value differs from the element by a multiple of
   the product of the bases; the product exceeds the value if the bases are integers. *)
Theorem encode_digits u v A as_ bs : vector_like u A -> A <> [] -> Forall2 number A as_ -> positive as_ ->
  wf v -> Forall2 number (data_of v) bs ->
  (legal (encode_shape (length A) v) /\
   exists r, op_encode u v = Ok r /\ wf r /\ shape_of r = encode_shape (length A) v /\
   (length (shape_of r) <= 1 -> forall s d, r <> VMat s d) /\
   forall j x, nth_error bs j = Some x -> exists ds,
     column r (length A) (length bs) j ds /\ in_range as_ ds /\ congruent x (radix as_ ds) (product as_) /\
     ((exists zs, as_ = map inject_Z zs) -> 0 <= radix as_ ds /\ radix as_ ds < product as_)%Q) \/
  (~ legal (encode_shape (length A) v) /\ op_encode u v = Err).
Proof. exact (encode_ok u v A as_ bs). Qed.
Print Assumptions encode_digits.
Example encode_digits_case :
  op_encode (ints [2; 2]%Z) (ints [1; 2; 3]%Z) = Ok (VMat [2; 3] [VInt 0; VInt 1; VInt 1; VInt 1; VInt 0; VInt 1]) /\
  op_encode (ints [10; 10]%Z) (VRat (-1 # 4)) = Ok (VVec [VInt 9; VRat (39 # 4)]) /\
  op_encode (VInt 7) (VInt 24) = Ok (VInt 3) /\
  positive [10; 10]%Q /\ Forall2 number [VInt 10; VRat (3 # 2)] [10; 3 # 2]%Q.
Proof. split; [reflexivity|]. split; [reflexivity|]. split; [reflexivity|]. split; [repeat constructor|]. nums. Qed.

(* Integers: each digit is a quotient reduced by its base. *)
Theorem encode_integers u v A zs xs : vector_like u A -> A <> [] -> Forall2 number A (map inject_Z zs) -> Forall (fun a => 0 < a)%Z zs ->
  wf v -> Forall2 number (data_of v) (map inject_Z xs) -> legal (encode_shape (length A) v) ->
  exists r, op_encode u v = Ok r /\ wf r /\ shape_of r = encode_shape (length A) v /\
  forall j x, nth_error xs j = Some x -> 
    column r (length zs) (length xs) j (map (fun i => inject_Z (digit zs x i)) (seq 0 (length zs))).
Proof. exact (encode_int_ok u v A zs xs). Qed.
Print Assumptions encode_integers.
Example encode_integers_case :
  map (digit [24; 60; 60]%Z (-1)) [0; 1; 2] = [23; 59; 59]%Z /\
  op_encode (ints [24; 60; 60]%Z) (VInt (-1)) = Ok (ints [23; 59; 59]%Z).
Proof. split; reflexivity. Qed.

(* Decoding what was encoded gives back every element up to a multiple of the product of
   the bases, and for integer bases its remainder by that product. *)
Theorem decode_encode c u v A as_ bs : vector_like u A -> A <> [] -> Forall2 number A as_ -> positive as_ ->
  wf v -> Forall2 number (data_of v) bs -> legal (encode_shape (length A) v) ->
  (length A <> 1 \/ length (data_of v) = 1 \/ exists s d, v = VMat s d) ->
  exists r, op_encode u v = Ok r /\
  let r' := op_decode (eval_scalar c BAdd) (eval_scalar c BMul) u r in
  ((exists w, r' = Ok w /\ wf w /\ shape_of w = decoded_shape v /\
     forall j x, nth_error bs j = Some x ->
       exists e y, nth_error (data_of w) j = Some e /\ number e y /\ congruent x y (product as_) /\
       ((exists zs, as_ = map inject_Z zs) -> 0 <= y /\ y < product as_)%Q) \/
   (r' = Err /\ maxbits c <> 0%Z)).
Proof. exact (round_trip c u v A as_ bs). Qed.
Print Assumptions decode_encode.
Example decode_encode_case :
  vector_like (ints [24; 60]%Z) [VInt 24; VInt 60] /\ positive [24; 60]%Q /\
  (let! r := op_encode (ints [24; 60]%Z) (ints [1500; -1; 7]%Z) in
   op_decode (eval_scalar c1 BAdd) (eval_scalar c1 BMul) (ints [24; 60]%Z) r) = Ok (ints [60; 1439; 7]%Z).
Proof. split; [left; reflexivity|]. split; [repeat constructor|reflexivity]. Qed.

(* The condition on the lengths is needed: a single base encodes a vector as the vector
   of its remainders, which decode takes for the digits of one number. *)
Theorem decode_encode_single_base_refuted :
  exists r, op_encode (VInt 10) (ints [1; 2; 3]%Z) = Ok r /\
    op_decode (eval_scalar c1 BAdd) (eval_scalar c1 BMul) (VInt 10) r = Ok (VInt 123).
Proof. eexists. split; reflexivity. Qed.
Print Assumptions decode_encode_single_base_refuted.
(* A matrix without rows crashes decode. *)
Theorem decode_no_rows_refuted :
  wf (VMat [0; 3] []) /\ op_decode (eval_scalar c1 BAdd) (eval_scalar c1 BMul) (VInt 10) (VMat [0; 3] []) = Crash.
Proof. split; [|reflexivity]. split; [discriminate|]. split; [reflexivity|]. intros k Hk. cbn in Hk. assert (k = 2) as -> by lia. vm_compute. discriminate. Qed.
Print Assumptions decode_no_rows_refuted.

(* The loops: for every number of processors and schedule, encode's columns and decode's
   cells come out as they do in one goroutine. *)
Import ParModel ParSpec.
Theorem parallel_encode A B ok procs work size schedule r : procs <> 0 -> work <> 0 ->
  let st := run (nothing, spawn (each_k (encode_body A B)) (plan ok procs work size (length B))) schedule in
  finished st -> outcome st r ->
  ParSpec.gives (length B) (fun j => let! b := at_ B j in digits A b) (encode_columns A B) r.
Proof.
  intros Hp Hw st Fin Out. apply EncPar.encode_gives.
  exact (P_Par.parallel_is_sequential _ (length B) _ nothing ok procs work size schedule r Hp Hw (EncPar.encode_independent A B) Fin Out).
Qed.
Print Assumptions parallel_encode.
Theorem parallel_decode add mul A d s0 len n ok procs work size schedule r : procs <> 0 -> work <> 0 ->
  let cell := decode_cell add mul A d s0 len n in
  let st := run (nothing, spawn (each_k (set_cell cell)) (plan ok procs work size len)) schedule in
  finished st -> outcome st r -> ParSpec.gives len cell (build len cell) r.
Proof. intros Hp Hw cell. exact (P_Par.parallel_cells len cell ok procs work size schedule r Hp Hw). Qed.
Print Assumptions parallel_decode.
Example parallel_encode_case :
  let st := run (nothing, spawn (each_k (encode_body [VInt 2; VInt 2] [VInt 1; VInt 2; VInt 3])) (plan true 2 1 2 3)) [1; 0; 4; 2; 1; 4; 3; 5; 0; 2; 5; 3] in
  finished st /\ fst st 0 = Some (VInt 0) /\ fst st 1 = Some (VInt 1) /\ fst st 5 = Some (VInt 1).
Proof. cbv zeta. repeat split. unfold finished. apply Forall_forall. intros t Ht. cbn in Ht. intuition (subst; reflexivity). Qed.

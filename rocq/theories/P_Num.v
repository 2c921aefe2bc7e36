(* Properties of scalar arithmetic.  Model: NumModel.v, FacModel.v,
   QuoRemHeap.v.  Specification: NumSpec.v. *)
From Verif Require Import Value NumModel NumSpec NumProofs NumArith NumMore NumTree NumCplx NumLimit FacModel QuoRemHeap QuoRemProofs.
From Coq Require Import QArith Qabs Qround Qreduction.
Open Scope Z_scope.

(* Closes goals about the canonical form of literals. *)
Ltac lits := vm_compute; intuition (try discriminate; try congruence).

Definition c0 : conf := mkConf 0 1.                    (* no size limit *)
Definition c9 : conf := mkConf (10 ^ 9) 1.             (* the default limit *)

(* ---- C07 ---- *)
(* Any expression of + - * / min max and unary + - / abs sgn floor ceil over
   integer and fraction literals has its exact mathematical value, or is an
   error when it divides by zero or (with a limit set) exceeds the limit. *)
Theorem exact_arithmetic : forall c e, arith_aexp e ->
  match sem_aexp e with
  | Some q => gives (run_aexp c e) q \/ (run_aexp c e = Err /\ maxbits c <> 0)
  | None => run_aexp c e = Err
  end.
Proof. exact run_aexp_exact. Qed.
Print Assumptions exact_arithmetic.

(* The size limit excuses an error only for operands near the limit. *)
Theorem addition_exact : forall c a b x y, valid a -> valid b -> numval a = Some x -> numval b = Some y ->
  gives (eval_scalar c BAdd a b) (x + y) \/
  (eval_scalar c BAdd a b = Err /\ maxbits c <> 0 /\ maxbits c < Z.max (vbits a) (vbits b) + 1).
Proof. exact add_exact. Qed.
Print Assumptions addition_exact.
Theorem subtraction_exact : forall c a b x y, valid a -> valid b -> numval a = Some x -> numval b = Some y ->
  gives (eval_scalar c BSub a b) (x - y) \/
  (eval_scalar c BSub a b = Err /\ maxbits c <> 0 /\ maxbits c < Z.max (vbits a) (vbits b) + 1).
Proof. exact sub_exact. Qed.
Print Assumptions subtraction_exact.
Theorem multiplication_exact : forall c a b x y, valid a -> valid b -> numval a = Some x -> numval b = Some y ->
  gives (eval_scalar c BMul a b) (x * y) \/
  (eval_scalar c BMul a b = Err /\ maxbits c <> 0 /\ maxbits c < vbits a + vbits b).
Proof. exact mul_exact. Qed.
Print Assumptions multiplication_exact.

(* -(-2147483648) | 2147483647 is a small integer 2^32-1, whose square wraps:
   b = 2147483647 | - -2147483648; b*b  prints -8589934591. *)
Definition wide_int : aexp := EBin BOr (ELit (VInt 2147483647)) (EUn UNeg (ELit (VInt (-2147483648)))).
Theorem exact_arithmetic_refuted :
  literal (VInt 2147483647) /\ literal (VInt (-2147483648)) /\
  exists b r, run_aexp c9 wide_int = Ok b /\ intval b = Some (2 ^ 32 - 1) /\
    run_aexp c9 (EBin BMul wide_int wide_int) = Ok r /\ intval r = Some (- 2 ^ 33 + 1) /\
    (2 ^ 32 - 1) * (2 ^ 32 - 1) <> - 2 ^ 33 + 1.
Proof.
  split; [split; vm_compute; congruence|]. split; [split; vm_compute; congruence|].
  exists (VInt 4294967295), (VBig (-8589934591)). vm_compute. repeat split; congruence.
Qed.
Print Assumptions exact_arithmetic_refuted.

Definition demo_expr : aexp :=
  EBin BAdd (EBin BMul (ELit (VInt 2147483647)) (ELit (VInt 2147483647)))
            (EBin BQuo (ELit (VRat (1 # 3))) (EUn UNeg (ELit (VBig (2 ^ 40))))).
Example demo_expr_hyp : arith_aexp demo_expr.
Proof. lits. Qed.
Example demo_expr_val : exists q, sem_aexp demo_expr = Some q /\ gives (run_aexp c0 demo_expr) q.
Proof.
  pose proof (exact_arithmetic c0 demo_expr demo_expr_hyp) as H.
  destruct (sem_aexp demo_expr) as [q|] eqn:E; [|vm_compute in E; discriminate].
  exists q. split; [reflexivity|]. destruct H as [H|[_ H]]; [exact H|]. contradiction H. reflexivity.
Qed.

(* ---- C08 ---- *)
Theorem division_exact : forall c a b x y, valid a -> valid b -> numval a = Some x -> numval b = Some y ->
  (~ (y == 0)%Q /\ gives (eval_scalar c BQuo a b) (x / y)) \/
  ((y == 0)%Q /\ eval_scalar c BQuo a b = Err).
Proof. exact quo_exact. Qed.
Print Assumptions division_exact.
Example division_demo : eval_scalar c9 BQuo (VInt 6) (VRat (9 # 2)) = Ok (VRat (4 # 3)) /\
  eval_scalar c9 BQuo (VInt 6) (VInt (-2)) = Ok (VInt (-3)) /\ valid (VRat (9 # 2)) /\ valid (VInt 6).
Proof. lits. Qed.

(* ---- C09 ---- *)
(* Exact statement: canonical operands give canonical results.  False: *)
Theorem canonical_results_refuted :
  (exists v, eval_scalar c9 BAdd (VBig (-2147483649)) (VInt 1) = Ok v /\ canonical (VBig (-2147483649)) /\ ~ canonical v) /\
  (exists v, eval_unary_scalar c9 UNeg (VInt (-2147483648)) = Ok v /\ canonical (VInt (-2147483648)) /\ ~ canonical v) /\
  (exists v, eval_scalar c9 BMax (VInt 1) (VBig (- 2 ^ 40)) = Ok v /\ canonical (VBig (- 2 ^ 40)) /\ ~ canonical v) /\
  (exists v, eval_scalar c9 BPow (VInt 1) (VInt 5) = Ok v /\ ~ canonical v).
Proof.
  split; [|split; [|split]].
  - exists (VBig (-2147483648)). lits.
  - exists (VInt 2147483648). lits.
  - exists (VBig 1). lits.
  - exists (VBig 1). lits.
Qed.
Print Assumptions canonical_results_refuted.

(* What holds: up to the two values 2^31 and -2^31, every operator except max,
   ** and the bitwise ones yields a canonical number. *)
Theorem canonical_results_partial : forall c o a b v, closed_bop o -> near_canonical a -> near_canonical b ->
  eval_scalar c o a b = Ok v -> near_canonical v.
Proof. exact near_ok. Qed.
Print Assumptions canonical_results_partial.
Example canonical_demo : near_canonical (VRat (9 # 2)) /\ near_canonical (VInt 2) /\
  eval_scalar c9 BMul (VRat (9 # 2)) (VInt 2) = Ok (VInt 9) /\ near_canonical (VInt 9).
Proof. lits. Qed.

(* ---- C10 ---- *)
Theorem div_euclidean : forall c a b x y, valid a -> valid b -> intval a = Some x -> intval b = Some y ->
  (y = 0 /\ eval_scalar c BDiv a b = Err) \/
  (y <> 0 /\ exists q r, gives (eval_scalar c BDiv a b) (inject_Z q) /\ x = q * y + r /\ 0 <= r < Z.abs y).
Proof. exact div_int. Qed.
Print Assumptions div_euclidean.
Theorem mod_euclidean : forall c a b x y, valid a -> valid b -> numval a = Some x -> numval b = Some y ->
  ((y == 0)%Q /\ gives (eval_scalar c BMod a b) x) \/
  (~ (y == 0)%Q /\ exists k r, gives (eval_scalar c BMod a b) r /\ euclid_q x y k r).
Proof. exact mod_exact. Qed.
Print Assumptions mod_euclidean.
Example mod_demo : eval_scalar c9 BMod (VRat (-7 # 2)) (VInt (-2)) = Ok (VRat (1 # 2)) /\
  eval_scalar c9 BDiv (VInt (-7)) (VInt (-2)) = Ok (VInt 4) /\ eval_scalar c9 BMod (VInt 7) (VInt 0) = Ok (VInt 7).
Proof. lits. Qed.

(* ---- C11 ---- *)
Theorem idiv_truncated : forall c a b x y, valid a -> valid b -> intval a = Some x -> intval b = Some y ->
  (y = 0 /\ eval_scalar c BIdiv a b = Err /\ eval_scalar c BImod a b = Err) \/
  (y <> 0 /\ exists q r, gives (eval_scalar c BIdiv a b) (inject_Z q) /\
     gives (eval_scalar c BImod a b) (inject_Z r) /\ trunc x y q r).
Proof. exact idiv_exact. Qed.
Print Assumptions idiv_truncated.
Example idiv_demo : eval_scalar c9 BIdiv (VInt (-7)) (VInt 2) = Ok (VInt (-3)) /\
  eval_scalar c9 BImod (VBig (-7)) (VInt 2) = Ok (VInt (-1)).
Proof. lits. Qed.

(* ---- C12 ---- *)
(* Rationals are shared cells.  mod negates its negative operands in place: the
   same evaluation, twice on the same cells, gives two different results, and
   the operand is changed. *)
Theorem operands_unchanged_refuted :
  exists h, cell h 0 = (-7 # 2)%Q /\
    snd (rrun h [RMod 0 1; RMod 0 1]) = [Ok (VRat (1 # 2)); Ok (VRat (3 # 2))] /\
    cell (fst (rrun h [RMod 0 1])) 0 = (7 # 2)%Q.
Proof. exists [(-7 # 2); (2 # 1)]%Q. vm_compute. auto. Qed.
Print Assumptions operands_unchanged_refuted.
(* x mod x for a negative rational x: the quotient also comes out with the wrong sign. *)
Theorem quotient_aliased_refuted :
  fst (snd (quorem_heap [(-7 # 2)%Q] 0 0)) = VInt (-1) /\ fst (quorem_rat (-7 # 2) (-7 # 2)) = VInt 1.
Proof. lits. Qed.
Print Assumptions quotient_aliased_refuted.
(* Every history without mod leaves every existing cell as it was ... *)
Theorem operands_unchanged_partial : forall os h k, Forall no_mod os -> (k < length h)%nat ->
  cell (fst (rrun h os)) k = cell h k.
Proof. exact rrun_keeps. Qed.
Print Assumptions operands_unchanged_partial.
(* ... and mod leaves the absolute values of its operands, touching no other cell. *)
Theorem mod_effect : forall h a b, (a < length h)%nat -> (b < length h)%nat -> a <> b ->
  snd (quorem_heap h a b) = quorem_rat (cell h a) (cell h b) /\
  cell (fst (quorem_heap h a b)) a = Qabs (cell h a) /\
  cell (fst (quorem_heap h a b)) b = Qabs (cell h b) /\
  forall k, k <> a -> k <> b -> cell (fst (quorem_heap h a b)) k = cell h k.
Proof. exact quorem_heap_effect. Qed.
Print Assumptions mod_effect.
Example operands_demo : let h := [(-7 # 2); (2 # 3)]%Q in
  Forall no_mod [RMul 0 1; RAdd 0 2; RNeg 3] /\ snd (rrun h [RMul 0 1; RAdd 0 2; RNeg 3]) =
    [Ok (VRat (-7 # 3)); Ok (VRat (-35 # 6)); Ok (VRat (35 # 6))].
Proof. vm_compute. repeat constructor. Qed.

(* ---- C13 ---- *)
Theorem comparisons_decide : forall c o a b x y, is_cmp o -> valid a -> valid b -> numval a = Some x -> numval b = Some y ->
  truth (eval_scalar c o a b) (cmp_rel o x y).
Proof. exact cmp_exact. Qed.
Print Assumptions comparisons_decide.
Theorem comparisons_trichotomy : forall c a b x y, valid a -> valid b -> numval a = Some x -> numval b = Some y ->
  exists l e g, eval_scalar c BLt a b = Ok (VInt l) /\ eval_scalar c BEq a b = Ok (VInt e) /\ eval_scalar c BGt a b = Ok (VInt g) /\
    l + e + g = 1 /\ 0 <= l /\ 0 <= e /\ 0 <= g.
Proof. exact cmp_trichotomy. Qed.
Print Assumptions comparisons_trichotomy.
Example comparisons_demo : eval_scalar c9 BLt (VRat (1 # 3)) (VBig (2 ^ 40)) = Ok (VInt 1) /\
  eval_scalar c9 BEq (VBig 5) (VInt 5) = Ok (VInt 1) /\ is_cmp BLt.
Proof. lits. Qed.

(* ---- C14 ---- *)
Theorem power_exact : forall c a b x n, 0 <= maxbits c -> valid a -> valid b -> numval a = Some x -> intval b = Some n ->
  ((x == 0)%Q /\ n < 0 /\ eval_scalar c BPow a b = Err) \/
  (~ ((x == 0)%Q /\ n < 0) /\ (gives (eval_scalar c BPow a b) (x ^ n) \/
     (eval_scalar c BPow a b = Err /\ pow_limit c x n))).
Proof. exact pow_exact. Qed.
Print Assumptions power_exact.
Example power_demo : eval_scalar c9 BPow (VRat (-2 # 3)) (VInt (-3)) = Ok (VRat (-27 # 8)) /\
  eval_scalar c9 BPow (VInt 7) (VInt 30) = Ok (VBig 22539340290692258087863249) /\
  ~ pow_limit c9 (inject_Z 7) 30.
Proof. lits. Qed.

(* ---- C15 ---- *)
Theorem bitwise_exact : forall c o f a b x y, bit_fn o = Some f -> intval a = Some x -> intval b = Some y ->
  exists z, gives_int (eval_scalar c o a b) z /\
    forall i, 0 <= i -> Z.testbit z i = f (Z.testbit x i) (Z.testbit y i).
Proof. exact bit_exact. Qed.
Print Assumptions bitwise_exact.
Theorem complement_exact : forall c a x, intval a = Some x ->
  exists z, gives_int (eval_unary_scalar c UNot a) z /\ forall i, 0 <= i -> Z.testbit z i = negb (Z.testbit x i).
Proof. exact not_exact. Qed.
Print Assumptions complement_exact.
Theorem shifts_exact : forall c a b x n, intval a = Some x -> intval b = Some n ->
  (0 <= n < 2 ^ 31 - 1 /\ gives (eval_scalar c BLsh a b) (inject_Z (x * 2 ^ n)) /\
                          gives (eval_scalar c BRsh a b) (inject_Z (x / 2 ^ n))) \/
  (~ (0 <= n < 2 ^ 31 - 1) /\ eval_scalar c BLsh a b = Err /\ eval_scalar c BRsh a b = Err).
Proof. exact shift_exact. Qed.
Print Assumptions shifts_exact.
Example bitwise_demo : eval_scalar c9 BAnd (VInt (-4)) (VBig (2 ^ 40 + 7)) = Ok (VBig (2 ^ 40 + 4)) /\
  eval_scalar c9 BRsh (VInt (-5)) (VInt 1) = Ok (VInt (-3)) /\ eval_unary_scalar c9 UNot (VInt 5) = Ok (VInt (-6)).
Proof. lits. Qed.

(* ---- C16 ---- *)
Theorem factorial_is_product : forall c z,
  (0 <= z /\ gives (eval_unary_scalar c UBang (VInt z)) (inject_Z (fact_z (Z.to_nat z)))) \/
  (z < 0 /\ eval_unary_scalar c UBang (VInt z) = Err).
Proof. exact factorial_exact. Qed.
Print Assumptions factorial_is_product.
Example factorial_demo : eval_unary_scalar c9 UBang (VInt 25) = Ok (VBig 15511210043330985984000000) /\
  FacModel.prime_gen 30 = [2; 3; 5; 7; 11; 13; 17; 19; 23; 29]%nat.
Proof. lits. Qed.

(* ---- C17 ---- *)
Theorem combinations_partial : forall c a b, 0 <= a -> 0 <= b -> (b <> 0 \/ a = 0) ->
  gives (eval_scalar c BBang (VInt a) (VInt b)) (inject_Z (choose (Z.to_nat b) (Z.to_nat a))).
Proof. exact bang_exact. Qed.
Print Assumptions combinations_partial.
(* 3!0 is 1, though no 3-element subset of the empty set exists. *)
Theorem combinations_refuted : eval_scalar c9 BBang (VInt 3) (VInt 0) = Ok (VInt 1) /\ choose 0 3 = 0.
Proof. lits. Qed.
Print Assumptions combinations_refuted.
Example combinations_demo : eval_scalar c9 BBang (VInt 4) (VInt 10) = Ok (VInt 210) /\ choose 10 4 = 210.
Proof. lits. Qed.

(* ---- C18 ---- *)
Theorem floor_is_greatest : forall c a x, valid a -> numval a = Some x ->
  exists k, gives (eval_unary_scalar c UFloor a) (inject_Z k) /\ (inject_Z k <= x)%Q /\ (x < inject_Z k + 1)%Q.
Proof. exact floor_exact. Qed.
Print Assumptions floor_is_greatest.
Theorem ceil_is_least : forall c a x, valid a -> numval a = Some x ->
  exists k, gives (eval_unary_scalar c UCeil a) (inject_Z k) /\ (x <= inject_Z k)%Q /\ (inject_Z k - 1 < x)%Q.
Proof. exact ceil_exact. Qed.
Print Assumptions ceil_is_least.
Theorem abs_is_magnitude : forall c a x, valid a -> numval a = Some x -> gives (eval_unary_scalar c UAbs a) (Qabs x).
Proof. exact abs_exact. Qed.
Print Assumptions abs_is_magnitude.
Theorem neg_is_opposite : forall c a x, valid a -> numval a = Some x -> gives (eval_unary_scalar c UNeg a) (- x).
Proof. exact neg_exact. Qed.
Print Assumptions neg_is_opposite.
Theorem sgn_is_sign : forall c a x, valid a -> numval a = Some x ->
  ((x < 0)%Q /\ eval_unary_scalar c USgn a = Ok (VInt (-1))) \/
  ((x == 0)%Q /\ eval_unary_scalar c USgn a = Ok (VInt 0)) \/
  ((0 < x)%Q /\ eval_unary_scalar c USgn a = Ok (VInt 1)).
Proof. exact sgn_exact. Qed.
Print Assumptions sgn_is_sign.
Example floor_demo : eval_unary_scalar c9 UFloor (VRat (-7 # 2)) = Ok (VInt (-4)) /\
  eval_unary_scalar c9 UCeil (VRat (-7 # 2)) = Ok (VInt (-3)) /\ valid (VRat (-7 # 2)).
Proof. lits. Qed.

(* ---- C19 ---- *)
Theorem logic_tables : forall c o u v p q, is_logic o -> cvalid u -> cvalid v -> cval u = Some p -> cval v = Some q ->
  truth (eval_scalar c o u v) (logic_rel o (c_true p) (c_true q)).
Proof. exact logic_cplx. Qed.
Print Assumptions logic_tables.
Theorem logic_tables_char : forall c o x y, is_logic o ->
  truth (eval_scalar c o (VChar x) (VChar y)) (logic_rel o (x <> 0) (y <> 0)).
Proof. exact logic_char. Qed.
Print Assumptions logic_tables_char.
Theorem not_table : forall c a x, valid a -> numval a = Some x -> truth (eval_unary_scalar c ULNot a) (~ is_true_q x).
Proof. exact lnot_exact. Qed.
Print Assumptions not_table.
Example logic_demo : eval_scalar c9 LNand (VRat (1 # 2)) (VCplx (VInt 0) (VInt 1)) = Ok (VInt 0) /\
  eval_scalar c9 LXor (VInt 0) (VCplx (VInt 0) (VInt 1)) = Ok (VInt 1) /\ cvalid (VCplx (VInt 0) (VInt 1)).
Proof.
  vm_compute. repeat split; try congruence. exists (1 # 1). split; [reflexivity|]. discriminate.
Qed.

(* ---- C20 ---- *)
Theorem size_limit_partial : forall c o a b x y v, 64 <= maxbits c -> (o = BAdd \/ o = BSub \/ o = BMul) ->
  valid a -> valid b -> intval a = Some x -> intval b = Some y -> eval_scalar c o a b = Ok v -> vbits v <= maxbits c.
Proof. exact limit_ok. Qed.
Print Assumptions size_limit_partial.
Theorem size_limit_power_partial : forall c a b x n v, 64 <= maxbits c -> valid a -> valid b ->
  intval a = Some x -> intval b = Some n -> 0 <= n -> x <> 2 -> zbits x * n < 2 ^ 63 ->
  eval_scalar c BPow a b = Ok v -> vbits v <= maxbits c \/ vbits v <= vbits a.
Proof. exact pow_limit_ok. Qed.
Print Assumptions size_limit_power_partial.
(* Powers of two, left shifts and factorials ignore the limit. *)
Theorem size_limit_refuted : let c := mkConf 64 1 in
  (exists v, eval_scalar c BPow (VInt 2) (VInt 100) = Ok v /\ vbits v = 101) /\
  (exists v, eval_scalar c BLsh (VInt 1) (VInt 100) = Ok v /\ vbits v = 101) /\
  (exists v, eval_unary_scalar c UBang (VInt 50) = Ok v /\ vbits v = 215).
Proof.
  repeat split.
  - exists (VBig (2 ^ 100)). vm_compute. auto.
  - exists (VBig (2 ^ 100)). vm_compute. auto.
  - exists (shrink_big (fact_z 50)). vm_compute. auto.
Qed.
Print Assumptions size_limit_refuted.
Theorem size_limit_wraps_refuted : forall c, maxbits c = 10 ^ 9 ->
  exists v, eval_scalar c BPow (VInt 3) (VBig (2 ^ 62)) = Ok v /\ maxbits c < vbits v.
Proof. exact pow_wraps_past. Qed.
Print Assumptions size_limit_wraps_refuted.
Example size_limit_demo : eval_scalar (mkConf 64 1) BMul (VBig (2 ^ 40)) (VBig (2 ^ 30)) = Err /\
  eval_scalar (mkConf 64 1) BMul (VBig (2 ^ 40)) (VBig (2 ^ 20)) = Ok (VBig (2 ^ 60)).
Proof. lits. Qed.

(* ---- C21 ---- *)
Theorem min_is_lesser : forall c a b x y, valid a -> valid b -> numval a = Some x -> numval b = Some y ->
  exists z, gives (eval_scalar c BMin a b) z /\ (z == x \/ z == y)%Q /\ (z <= x /\ z <= y)%Q.
Proof. exact min_exact. Qed.
Print Assumptions min_is_lesser.
Theorem max_is_greater : forall c a b x y, valid a -> valid b -> numval a = Some x -> numval b = Some y ->
  exists z, gives (eval_scalar c BMax a b) z /\ (z == x \/ z == y)%Q /\ (x <= z /\ y <= z)%Q.
Proof. exact max_exact. Qed.
Print Assumptions max_is_greater.
Example min_demo : eval_scalar c9 BMin (VRat (7 # 2)) (VInt 3) = Ok (VInt 3) /\
  eval_scalar c9 BMax (VRat (7 # 2)) (VInt 3) = Ok (VRat (7 # 2)).
Proof. lits. Qed.

(* ---- C23 ---- *)
Theorem complex_field : forall c o u v p q, c_arith o -> cvalid u -> cvalid v -> cval u = Some p -> cval v = Some q ->
  match c_bop o p q with
  | Some r => cgives (eval_scalar c o u v) r \/ (eval_scalar c o u v = Err /\ maxbits c <> 0)
  | None => eval_scalar c o u v = Err
  end.
Proof. exact cplx_exact. Qed.
Print Assumptions complex_field.
Theorem complex_parts : forall c u p, cvalid u -> cval u = Some p ->
  cgives (eval_unary_scalar c UConj u) (fst p, - snd p)%Q /\
  cgives (eval_unary_scalar c UNeg u) (- fst p, - snd p)%Q /\
  gives (eval_unary_scalar c UReal u) (fst p) /\ gives (eval_unary_scalar c UImag u) (snd p).
Proof. exact cplx_conj. Qed.
Print Assumptions complex_parts.
Example complex_demo :
  eval_scalar c9 BQuo (VCplx (VInt 1) (VInt 2)) (VCplx (VInt 3) (VRat (-1 # 2))) = Ok (VCplx (VRat (8 # 37)) (VRat (26 # 37))) /\
  eval_scalar c9 BMul (VCplx (VInt 1) (VInt 1)) (VCplx (VInt 1) (VInt (-1))) = Ok (VInt 2).
Proof. lits. Qed.

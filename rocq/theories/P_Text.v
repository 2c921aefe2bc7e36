(* Numbers as text: C54, C76, C77. *)
From Coq Require Import String.
From Verif Require Import Value NumModel NumSpec ScanModel ScanSpec TextModel TextSpec TextProofs TextScan TextNum P_Scan.
Open Scope string_scope.
Open Scope list_scope.
Open Scope Z_scope.

(* C54: a number printed in a base is read back, in the same base, as the same number. *)
Theorem printed_number_reads_back : forall pc ib v t, legal_base ib -> real_base ib = real_base (obase pc) ->
  canonical_num v -> print_num pc v = Ok t -> parse_num ib t = Ok v.
Proof. intros pc ib v t L S C P. exact (print_parse ib (obase pc) L S pc v t eq_refl C P). Qed.
Print Assumptions printed_number_reads_back.
(* The same for a whole line of numbers, through the scanner: the line comes back as one
   number token for each number, in order, and each token has the value that was printed. *)
Theorem printed_line_reads_back : forall c pc vs t l, legal_base (ibase c) -> real_base (ibase c) = real_base (obase pc) ->
  no_digit_operators c -> vs <> [] -> Forall canonical_num vs -> print_numbers pc vs = Ok t ->
  number_end l -> Forall (fun r => 0 <= r) l -> ~ In 13 l ->
  exists ts s, reads c (new_scanner (t ++ l)) (map (mkTok TNumber) ts) s /\ to_come s = l /\
    Forall2 (fun x v => parse_num (ibase c) x = Ok v) ts vs.
Proof. exact printed_numbers. Qed.
Print Assumptions printed_line_reads_back.
(* Which numbers can be printed. *)
Theorem number_prints : forall c v, 0 <= maxdigits c -> printable c v -> exists t, print_num c v = Ok t.
Proof. exact prints. Qed.
Print Assumptions number_prints.
(* Every integer can be printed in every base that can be set: false. *)
Theorem every_base_prints_refuted : exists b v, legal_base b /\ canonical_num v /\ print_num (mkPconf b 0) v = Err.
Proof. exists 3, (VBig (2 ^ 40)). split; [right; lia|]. split; [cbn; lia|vm_compute; reflexivity]. Qed.
Print Assumptions every_base_prints_refuted.
(* the operator names of the interpreter are no numbers in any base *)
Lemma names_no_numbers : forall b, legal_base b -> no_digit_operators (ctx_base b).
Proof.
  intros b L w A NJ NE. change (ibase (ctx_base b)) with b in A.
  assert (T : forallb (fun b => forallb (fun s => negb (all_digits (zs s) b false) || teq (zs s) [106]) (binary_names ++ unary_names ++ ["avg"])) [0;2;3;4;5;6;7;8;9;10;11;12;13;14;15;16] = true) by (vm_compute; reflexivity).
  rewrite forallb_forall in T. assert (IB : In b [0;2;3;4;5;6;7;8;9;10;11;12;13;14;15;16]) by (cbn; destruct L; lia). specialize (T b IB). rewrite forallb_forall in T.
  assert (G : forall l, (forall s, In s l -> In s (binary_names ++ unary_names ++ ["avg"])) -> one_of l w = false).
  { intros l H. unfold one_of. destruct (existsb _ l) eqn:E; [|reflexivity]. exfalso. apply existsb_exists in E. destruct E as (s & S1 & S2). apply ScanForm.teq_eq in S2.
    specialize (T s (H s S1)). rewrite S2 in T. rewrite A in T. cbn [negb orb] in T. apply ScanForm.teq_eq in T. contradiction. }
  unfold defined, ctx_base. cbn [predefined user_binary]. rewrite !G; [reflexivity| |].
  - intros s H. apply in_or_app. right. apply in_or_app. right. exact H.
  - intros s H. apply in_app_or in H. apply in_or_app. destruct H; [auto|right; apply in_or_app; auto].
Qed.
Definition mixed : list value := [VInt (-255); VRat (-10 # 27); VBig (2 ^ 70); VCplx (VInt 171) (VRat (-1 # 12))].
Example mixed_canonical : Forall canonical_num mixed.
Proof. repeat constructor; cbn; try lia; discriminate. Qed.
Example mixed_prints : print_numbers (mkPconf 16 1000) mixed = Ok (zs "-ff -a/1b 400000000000000000 abj-1/c").
Proof. vm_compute. reflexivity. Qed.
Example mixed_scans : tokens_of (ctx_base 16) (zs "-ff -a/1b 400000000000000000 abj-1/c") =
  Some [(TNumber, zs "-ff"); (TNumber, zs "-a/1b"); (TNumber, zs "400000000000000000"); (TNumber, zs "abj-1/c"); (TEof, [])].
Proof. vm_compute. reflexivity. Qed.
Example mixed_parses : map (parse_num 16) [zs "-ff"; zs "-a/1b"; zs "400000000000000000"; zs "abj-1/c"] = map Ok mixed.
Proof. vm_compute. reflexivity. Qed.
Example mixed_printable : Forall (printable (mkPconf 16 1000)) mixed.
Proof.
  assert (F : forall z, - 2 ^ 80 < z < 2 ^ 80 -> printable_int (mkPconf 16 1000) z).
  { intros z H. split; [right|right; cbn; auto 8]. change (maxdigits (mkPconf 16 1000) * 33222 / 10000) with 3322. apply Z.lt_le_trans with (2 ^ 80); [lia|apply Z.pow_le_mono_r; lia]. }
  repeat apply Forall_cons; try apply Forall_nil; cbn [printable printable_real Qnum Qden]; try exact Logic.I; try (split; try exact Logic.I; try (split; apply F; lia); apply F; lia); apply F; lia.
Qed.

(* C76: a number written with a decimal point or an exponent is exactly the rational number
   the notation denotes, whatever the input base. *)
Theorem decimal_is_exact : forall base t q, decimal_text t q ->
  mem 46 t = true \/ mem 101 t || mem 69 t = true /\ base <= 14 \/ mem 112 t || mem 80 t = true /\ base <= 25 ->
  gives (parse_num base t) q.
Proof. exact decimal_exact. Qed.
Print Assumptions decimal_is_exact.
Example decimal_case : decimal_text (zs "-12.375e-2") (inject_Z (-1) * (inject_Z 12 + fraction (zs "375")) * inject_Z 10 ^ (-2))%Q.
Proof.
  exists [45], (-1), (zs "12.375"), 3, (inject_Z 12 + fraction (zs "375"))%Q, (zs "e-2"), 10, (-2). split; [reflexivity|]. split; [right; right; auto|]. split; [|split; [|split; [|reflexivity]]].
  - exists [49; 50], [51; 55; 53]. unfold digits. split; [repeat (apply Forall_cons; [lia|]); apply Forall_nil|]. split; [repeat (apply Forall_cons; [lia|]); apply Forall_nil|]. split; [discriminate|]. split; [reflexivity|]. split; [reflexivity|left; reflexivity].
  - right. exists 101, [45], [50], (-1). split; [reflexivity|]. split; [auto|]. split; [right; right; auto|]. unfold digits. split; [repeat (apply Forall_cons; [lia|]); apply Forall_nil|]. split; [discriminate|reflexivity].
  - split; [lia|]. cbn. lia.
Qed.
Example decimal_value : parse_num 10 (zs "-12.375e-2") = Ok (VRat (-99 # 800)).
Proof. vm_compute. reflexivity. Qed.
(* C77: digits after a point are digits of the input base: false, and the letter e is a digit
   in one number and an exponent in the next. *)
Theorem point_in_base_refuted : parse_num 2 (zs "1.1") = Ok (VRat (11 # 10)) /\ parse_num 16 (zs "1e1") = Ok (VInt 481) /\
  parse_num 16 (zs "1.0e1") = Ok (VInt 10) /\ parse_num 16 (zs "a.8") = Err.
Proof. vm_compute. auto. Qed.
Print Assumptions point_in_base_refuted.
(* It is true of the bases 0 and 10, in which the digits are decimal anyway. *)
Theorem point_in_base_partial : forall base t q, base = 0 \/ base = 10 -> decimal_text t q -> mem 46 t || mem 101 t || mem 69 t = true ->
  gives (parse_num base t) q.
Proof.
  intros base t q B D M. apply decimal_is_exact; [exact D|]. destruct (mem 46 t); [auto|]. right. left. split; [exact M|lia].
Qed.
Print Assumptions point_in_base_partial.
(* A text with two slashes, or with two js, is not a number. *)
Theorem number_has_two_parts : forall base a b c,
  parse_num base (a ++ [106] ++ b ++ [106] ++ c) = Err /\ (mem 106 (a ++ b ++ c) = false -> parse_num base (a ++ [47] ++ b ++ [47] ++ c) = Err).
Proof.
  assert (M : forall x a b, mem x (a ++ x :: b) = true) by (intros x a b; unfold mem; rewrite existsb_app; cbn [existsb]; rewrite Z.eqb_refl, orb_true_r; reflexivity).
  assert (T : forall x a b c, two_parts x (a ++ [x] ++ b ++ [x] ++ c) = Err).
  { intros x a b c. unfold two_parts. assert (C : exists p q, cut x (a ++ [x] ++ b ++ [x] ++ c) = Some (p, q) /\ mem x q = true).
    { induction a as [|y a IH]; cbn [app cut].
      - rewrite Z.eqb_refl. exists [], (b ++ x :: c). split; [reflexivity|apply M].
      - destruct (y =? x) eqn:E; [exists [], (a ++ x :: b ++ x :: c); split; [reflexivity|apply M]|]. destruct IH as (p & q & IH1 & IH2). cbn [app] in IH1. rewrite IH1. eauto. }
    destruct C as (p & q & -> & ->). reflexivity. }
  intros base a b c. split.
  - unfold parse_num. cbn [app]. rewrite M. change (a ++ 106 :: b ++ 106 :: c) with (a ++ [106] ++ b ++ [106] ++ c). rewrite T. reflexivity.
  - intros N. unfold parse_num. rewrite (TextProofs.mem_app' 106 a), (TextProofs.mem_app' 106 b) in N. 
    assert (mem 106 (a ++ [47] ++ b ++ [47] ++ c) = false) as -> by (rewrite !TextProofs.mem_app'; cbn; destruct (mem 106 a), (mem 106 b), (mem 106 c); try discriminate; reflexivity).
    unfold parse_real. cbn [app]. rewrite M. change (a ++ 47 :: b ++ 47 :: c) with (a ++ [47] ++ b ++ [47] ++ c). rewrite T. reflexivity.
Qed.
Print Assumptions number_has_two_parts.

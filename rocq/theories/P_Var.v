(* C04: variables hold values.  VarModel.v has variables, vectors, matrices and editors
   that share memory through the persistent slices; VarSpec.v has a table from names to
   values.  No program can tell them apart. *)
From stdpp Require Import gmap list strings.
From Verif Require Import Value ArrModel IdxModel VarModel VarSpec VarProofs.
Open Scope nat_scope.

Theorem variables_are_values (c : conf) (prog : list xp) :
  Forall good prog -> outputs (impl c) prog vinit = outputs (pure c) prog ∅.
Proof. intros H. eapply outputs_ok; [done|apply VI_init]. Qed.
Print Assumptions variables_are_values.

Lemma Forall_app_good (l k : list xp) : Forall good l -> Forall good k -> Forall good (l ++ k).
Proof. intros. by apply Forall_app. Qed.

(* A variable nobody assigns reads the same, whatever is done to the arrays it shares
   with others. *)
Theorem unassigned_unchanged (c : conf) (prog prog' : list xp) (x : string) :
  Forall good prog -> Forall good prog' -> Forall (fun e => ~ assigns x e) prog' ->
  outputs (impl c) [XVar x] (after (impl c) prog' (after (impl c) prog vinit)) =
  outputs (impl c) [XVar x] (after (impl c) prog vinit).
Proof.
  intros H1 H2 Hn. destruct (after_ok c prog H1 _ _ _ VI_init) as [a V].
  destruct (after_ok c prog' H2 _ _ _ V) as [a' V'].
  rewrite (outputs_ok c [XVar x] ltac:(repeat constructor) _ _ _ V), (outputs_ok c [XVar x] ltac:(repeat constructor) _ _ _ V').
  cbn [outputs eval p_var pure p_show]. rewrite (pure_keeps_all c x _ prog' Hn _ eq_refl). done.
Qed.
Print Assumptions unassigned_unchanged.

(* y = e gives y a value of its own: nothing but an assignment to y changes what y reads
   as afterwards.  For e a variable x, y is a copy of x. *)
Theorem copy_is_independent (c : conf) (prog prog' : list xp) (y : string) (e : xp) (v : value) :
  Forall good prog -> good e -> Forall good prog' -> Forall (fun e => ~ assigns y e) prog' ->
  outputs (impl c) [XAssign y e] (after (impl c) prog vinit) = [Ok v] ->
  outputs (impl c) [XVar y] (after (impl c) (prog ++ XAssign y e :: prog') vinit) = [Ok v].
Proof.
  intros H1 He H2 Hn Ho.
  assert (after (impl c) (prog ++ XAssign y e :: prog') vinit = after (impl c) prog' (after (impl c) (prog ++ [XAssign y e]) vinit)) as ->.
  { clear. generalize vinit. induction prog as [|q prog IH]; intros s; [done|]. cbn [app after]. apply IH. }
  assert (Forall good (prog ++ [XAssign y e])) as Hg by (apply Forall_app_good; [done|by repeat constructor]).
  rewrite unassigned_unchanged by done.
  destruct (after_ok c prog H1 _ _ _ VI_init) as [a V]. destruct (after_ok c _ Hg _ _ _ VI_init) as [a' V'].
  rewrite (outputs_ok c [XAssign y e] ltac:(by repeat constructor) _ _ _ V) in Ho.
  rewrite (outputs_ok c [XVar y] ltac:(repeat constructor) _ _ _ V').
  assert (forall p, after (pure c) (prog ++ [XAssign y e]) p = fst (eval (pure c) (XAssign y e) (after (pure c) prog p))) as ->.
  { clear. induction prog as [|q prog IH]; intros p; [done|]. cbn [app after]. apply IH. }
  revert Ho. cbn [outputs eval p_var pure p_show p_assign]. unfold seqr.
  destruct (eval (pure c) e (after (pure c) prog ∅)) as [p [u| | |]]; simpl; try discriminate.
  intros [= ->]. rewrite lookup_insert. done.
Qed.
Print Assumptions copy_is_independent.

(* x[index] = rhs, seen by the next read of x: the value x had, with the elements that
   index selects replaced (IdxModel.index_assign; C05 says what that is). *)
Theorem indexed_assignment_seen (c : conf) (prog : list xp) (x : string) (index : list (option value)) (rhs lhs : value) :
  Forall good prog -> Forall (fun o => match o with Some v => dwf v | None => True end) index -> dwf rhs ->
  outputs (impl c) [XVar x] (after (impl c) prog vinit) = [Ok lhs] ->
  outputs (impl c) [XVar x] (after (impl c) (prog ++ [XSet x (map (option_map XConst) index) (XConst rhs)]) vinit) =
    [Ok (fst (index_assign c lhs index rhs))].
Proof.
  intros H1 Hi Hr Ho. set (e := XSet x (map (option_map XConst) index) (XConst rhs)).
  assert (good e) as He.
  { simpl. split; [|done]. clear -Hi. induction Hi as [|[v|] index Hv Hi IH]; simpl; auto. }
  assert (Forall good (prog ++ [e])) as Hg by (apply Forall_app_good; [done|constructor; [done|constructor]]).
  destruct (after_ok c prog H1 _ _ _ VI_init) as [a V]. destruct (after_ok c _ Hg _ _ _ VI_init) as [a' V'].
  rewrite (outputs_ok c [XVar x] ltac:(by repeat constructor) _ _ _ V) in Ho.
  rewrite (outputs_ok c [XVar x] ltac:(repeat constructor) _ _ _ V').
  assert (forall p, after (pure c) (prog ++ [e]) p = fst (eval (pure c) e (after (pure c) prog p))) as ->.
  { clear. induction prog as [|q prog IH]; intros p; [done|]. cbn [app after]. apply IH. }
  set (p := after (pure c) prog ∅) in *.
  assert (p !! x = Some lhs) as Hp.
  { revert Ho. cbn [outputs eval p_var pure p_show]. destruct (p !! x); [|discriminate]. intros [= ->]. done. }
  change (eval (pure c) e) with (seqr (eval (pure c) (XConst rhs)) (fun v => seqr (evalo (pure c) (map (option_map XConst) index))
    (fun vs => seqr (p_set (pure c) x vs v) (fun _ st => (st, Ok v))))).
  assert (forall q, evalo (pure c) (map (option_map XConst) index) q = (q, Ok index)) as Hev.
  { clear. induction index as [|[v|] index IH]; intros q; [done| |]; cbn [evalo map option_map]; unfold seqr; rewrite IH; done. }
  unfold seqr at 1. cbn [eval p_const pure]. unfold seqr at 1. rewrite Hev. unfold seqr. cbn [p_set pure]. rewrite Hp.
  cbv zeta. set (r := index_assign c lhs index rhs).
  assert (fst (match (<[x:=fst r]> p, snd r) with (s', Ok _) => (s', Ok rhs) | (s', r0) => (s', cast r0) end) = <[x := fst r]> p) as Hf.
  { destruct (snd r); done. }
  cbn [outputs eval p_var pure p_show]. rewrite Hf, lookup_insert. done.
Qed.
Print Assumptions indexed_assignment_seen.

(* x = 1 2 3; y = x; x[2] = 7; y; z = x x y; z[1] = 0; x; m = 1 3 rho y; m[1;1] = 9; y; z; m
   The copies share slices; the edits of x, z and m are pending when the others are read. *)
Definition demo : list xp :=
  let k n := XConst (VInt n) in
  let x := "x"%string in let y := "y"%string in let z := "z"%string in let m := "m"%string in
  [ XAssign x (XList [k 1%Z; k 2%Z; k 3%Z]); XAssign y (XVar x); XSet x [Some (k 2%Z)] (k 7%Z); XVar y;
    XAssign z (XList [XVar x; XVar x; XVar y]); XSet z [Some (k 1%Z)] (k 0%Z); XVar x;
    XAssign m (XMat [1; 3] (XVar y)); XSet m [Some (k 1%Z); Some (k 1%Z)] (k 9%Z); XVar y; XVar z; XVar m;
    XSet y [Some (k 5%Z)] (k 1%Z); XSet y [Some (XVar x)] (k 1%Z); XVar y ].
Definition conf1 : conf := mkConf 1000000%Z 1%Z.
Example demo_good : Forall good demo.
Proof. repeat constructor; discriminate. Qed.
Example demo_out : outputs (impl conf1) demo vinit =
  let v l := VVec (map VInt l) in
  [ Ok (v [1;2;3]); Ok (v [1;2;3]); Ok (VInt 7); Ok (v [1;2;3]);
    Ok (VVec [v [1;7;3]; v [1;7;3]; v [1;2;3]]); Ok (VInt 0); Ok (v [1;7;3]);
    Ok (VMat [1;3]%nat (map VInt [1;2;3])); Ok (VInt 9); Ok (v [1;2;3]);
    Ok (VVec [VInt 0; v [1;7;3]; v [1;2;3]]); Ok (VMat [1;3]%nat (map VInt [9;2;3]));
    Err; Err; Ok (v [1;2;3])]%Z.
Proof. vm_compute. reflexivity. Qed.
Example unassigned_meets : Forall (fun e => ~ assigns "y" e) (firstn 10 (skipn 2 demo)).
Proof. repeat constructor; simpl; intuition discriminate. Qed.
Example copy_meets : outputs (impl conf1) [XAssign "y" (XVar "x")] (after (impl conf1) (firstn 1 demo) vinit) = [Ok (VVec [VInt 1; VInt 2; VInt 3])].
Proof. vm_compute. reflexivity. Qed.

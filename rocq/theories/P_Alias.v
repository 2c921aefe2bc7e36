(* C46: array shapes never change behind the user's back. *)
From Coq Require Import List Arith Bool String Lia.
From Verif Require Import Value AliasModel AliasSpec AliasProofs AliasRest.
Import ListNotations.
Open Scope string_scope.
Open Scope list_scope.
Open Scope nat_scope.

Lemma evals_good grow : forall l st, good st -> forallb careful l = true -> good (evals (go_append grow) l st).
Proof.
  induction l as [|e l IH]; intros st G C; [exact G|]. cbn in C. apply andb_true_iff in C. destruct C as [C D]. cbn [evals].
  apply IH; [|exact D]. apply (eval_ok _ (fun s => cap s = len s) (fun s H => H) (go_append_ok grow) e st G (or_introl C)).
Qed.
Lemma evals_copy_good : forall l st, good st -> good (evals copy_append l st).
Proof.
  induction l as [|e l IH]; intros st G; [exact G|]. cbn [evals].
  apply IH. apply (eval_ok _ (fun s => True) (fun s _ => Logic.I) (fun h s l G _ => copy_append_ok h s l G) e st G (or_intror (fun s => Logic.I))).
Qed.
Lemma nothing_good : good nothing. Proof. constructor. Qed.

(* Whatever has been evaluated before, whatever capacities Go chooses: evaluating e, with an error or not,
   leaves the shape of every variable that e does not assign, and gives shapes as the operators say. Missing: outer products
   and mixes of arrays that are not made by the operator just before. *)
Theorem shapes_kept_partial : forall grow history e x,
  forallb careful history = true -> careful e = true -> ~ In x (assigns e) ->
  let st := evals (go_append grow) history nothing in
  let st' := snd (eval (go_append grow) e st) in
  shape_of st' x = shape_of st x /\
  peval e (shapes st) = (option_map (view (arrays st')) (fst (eval (go_append grow) e st)), shapes st').
Proof.
  intros grow l e x H C N st st'. subst st st'.
  pose proof (evals_good grow l nothing nothing_good H) as G. set (st := evals (go_append grow) l nothing) in *. clearbody st.
  destruct (eval_ok _ (fun s => cap s = len s) (fun s H => H) (go_append_ok grow) e st G (or_introl C)) as (_ & _ & _ & P).
  split; [|exact P]. rewrite !shape_view. f_equal. pose proof (peval_keeps e (shapes st) x N) as K. rewrite P in K. exact K.
Qed.
Print Assumptions shapes_kept_partial.
(* With appends that copy, it holds of every expression: the two appends are all that is wrong. *)
Theorem shapes_kept_with_copies : forall history e x, ~ In x (assigns e) ->
  let st := evals copy_append history nothing in
  let st' := snd (eval copy_append e st) in
  shape_of st' x = shape_of st x /\
  peval e (shapes st) = (option_map (view (arrays st')) (fst (eval copy_append e st)), shapes st').
Proof.
  intros l e x N st st'. subst st st'.
  pose proof (evals_copy_good l nothing nothing_good) as G. set (st := evals copy_append l nothing) in *. clearbody st.
  destruct (eval_ok _ (fun s => True) (fun s _ => Logic.I) (fun h s l G _ => copy_append_ok h s l G) e st G (or_intror (fun s => Logic.I))) as (_ & _ & _ & P).
  split; [|exact P]. rewrite !shape_view. f_equal. pose proof (peval_keeps e (shapes st) x N) as K. rewrite P in K. exact K.
Qed.
Print Assumptions shapes_kept_with_copies.

(* Only outer products and mixes do harm: after any history, even one that has changed shapes, an expression
   without them leaves the shape of every variable that it does not assign. *)
Theorem shapes_kept_by_others_partial : forall grow history e x, appends e = false -> ~ In x (assigns e) ->
  let st := evals (go_append grow) history nothing in
  shape_of (snd (eval (go_append grow) e st)) x = shape_of st x.
Proof.
  intros grow l e x A N st. subst st.
  assert (V : valid (evals (go_append grow) l nothing)) by (apply evals_valid; constructor).
  set (st := evals (go_append grow) l nothing) in *. clearbody st.
  destruct (eval_known grow e st V) as (_ & _ & _ & K & X). unfold shape_of. rewrite (K x N).
  destruct (lookup (avars st) x) as [v|] eqn:L; [|reflexivity]. cbn [option_map]. f_equal.
  pose proof (lookup_valid _ _ _ V L) as G. destruct v as [|n|s n]; auto. cbn [dims]. apply contents_ext; [exact (X A)|exact G].
Qed.
Print Assumptions shapes_kept_by_others_partial.
Example others_hypotheses : appends (XSet "z" (XZip (XReduce (XVar "x")) (XVar "y"))) = false. Proof. reflexivity. Qed.

(* s rho iota n *)
Definition rho (l : list nat) : sx := XOp (fun _ _ => Some l) (XNew [length l]) (XNew [vol l]).
(* x = 2 3 4 rho iota 24; y = +/x *)
Definition sums : list sx := [XSet "x" (rho [2; 3; 4]); XSet "y" (XReduce (XVar "x"))].
(* y o.* 1 2 3 *)
Definition products : sx := XOuter (XVar "y") (XNew [3]).
(* After "x = 2 3 4 rho iota 24", "y = +/x", the expression "y o.* 1 2 3" changes the shape of x from 2 3 4 to 2 3 3,
   while x keeps its 24 elements: then even "-x" is an error. *)
Theorem shape_changed_refuted : forall grow,
  let st := evals (go_append grow) sums nothing in
  let st' := snd (eval (go_append grow) products st) in
  ~ In "x" (assigns products) /\
  shape_of st "x" = Some [2; 3; 4] /\ shape_of st' "x" = Some [2; 3; 3] /\
  fst (eval (go_append grow) (XMap (XVar "x")) st) <> None /\ fst (eval (go_append grow) (XMap (XVar "x")) st') = None.
Proof. intros grow. repeat split; auto. intros H; discriminate H. Qed.
Print Assumptions shape_changed_refuted.

(* m = (2 3 rho iota 6) o.* iota 4; u = m o.* 1 2 *)
Definition product_u : list sx :=
  [XSet "m" (XOuter (rho [2; 3]) (XNew [4])); XSet "u" (XOuter (XVar "m") (XNew [2]))].
(* m o.* 1 2 3 *)
Definition product_v : sx := XOuter (XVar "m") (XNew [3]).
(* An array with room after its shape, which append leaves when it doubles the capacity 2: all outer products of it share
   one array. "m o.* 1 2 3" changes the shape of the earlier result u = m o.* 1 2. *)
Theorem shape_shared_refuted : forall grow, 4 <= grow 2 3 ->
  let st := evals (go_append grow) product_u nothing in
  let st' := snd (eval (go_append grow) product_v st) in
  ~ In "u" (assigns product_v) /\ shape_of st "u" = Some [2; 3; 4; 2] /\ shape_of st' "u" = Some [2; 3; 4; 3].
Proof.
  intros grow H. assert (E : exists k, grow 2 3 = S (S (S (S k)))). { exists (grow 2 3 - 4). lia. }
  destruct E as [k E]. cbn. unfold go_append. cbn. rewrite E. cbn. repeat split; auto.
Qed.
Print Assumptions shape_shared_refuted.

(* The hypotheses of the first theorem hold of sessions with all kinds of operators. *)
Definition a_session : list sx :=
  [XSet "x" (rho [2; 3; 4]); XSet "y" (XReduce (XVar "x")); XSet "z" (XSplit (XVar "x"));
   XSet "w" (XOuter (rho [2; 2]) (XZip (XVar "y") (XNew []))); XSet "v" (XZip (XNew [4]) (XReduceFirst (XVar "x")));
   XSet "u" (XBuild (fun l _ => Some (tl l)) 3 (XVar "x") (XNew []))].
Example session_hypotheses : forallb careful a_session = true /\ careful (XMix [5] (rho [2; 2])) = true.
Proof. split; reflexivity. Qed.
Example session_shapes : let st := evals (go_append (fun c n => 2 * n)) a_session nothing in
  map (shape_of st) ["x"; "y"; "z"; "w"; "v"; "u"] =
  map Some [[2; 3; 4]; [2; 3]; [2; 3]; [2; 2; 2; 3]; [3; 4]; [3; 4]].
Proof. vm_compute. reflexivity. Qed.

(* The phase of a complex number after a history of evaluations.  Model: PhaseModel.v; specification: PhaseSpec.v. *)
From Coq Require Import QArith Lia.
From Verif Require Import Value FloatModel PhaseModel PhaseSpec PhaseProofs.
Open Scope list_scope.
Open Scope Z_scope.

(* ---- C110 ---- *)
(* Whatever was evaluated before, phase shows the same, for any arctangent and any histories in which no phase of
   a number on the lower half of the imaginary axis is given to sin, tan, mod or e ** . *)
Theorem phase_same_partial : forall p fuel pi half atan2 h x y, 16 <= p -> (3 <= pi /\ pi <= 4)%Q -> (0 < half /\ half <= 2)%Q ->
  careful h ->
  phase_now p fuel pi atan2 (run p fuel pi half atan2 h) x y = phase_now p fuel pi atan2 (init half) x y.
Proof.
  intros p fuel pi half atan2 h x y Hp Hpi Hh C.
  rewrite !(phase_shows p fuel pi half) by first [apply run_keeps; assumption|apply init_keeps].
  rewrite (careful_keeps p fuel pi half atan2 Hp Hpi Hh h C). destruct (run_keeps p fuel pi half atan2 Hp Hpi Hh h) as (_ & -> & _). reflexivity.
Qed.
Print Assumptions phase_same_partial.
(* For all other numbers it is the same after any history, and there it is half of pi or its opposite. *)
Theorem phase_elsewhere : forall p fuel pi half atan2 h x y, 16 <= p -> (3 <= pi /\ pi <= 4)%Q -> (0 < half /\ half <= 2)%Q ->
  (~ downward (Phase x y) ->
   phase_now p fuel pi atan2 (run p fuel pi half atan2 h) x y = phase_now p fuel pi atan2 (init half) x y) /\
  (downward (Phase x y) ->
   phase_now p fuel pi atan2 (run p fuel pi half atan2 h) x y = Some half \/
   phase_now p fuel pi atan2 (run p fuel pi half atan2 h) x y = Some (- half)%Q).
Proof.
  intros p fuel pi half atan2 h x y Hp Hpi Hh.
  rewrite !(phase_shows p fuel pi half) by first [apply run_keeps; assumption|apply init_keeps].
  destruct (run_keeps p fuel pi half atan2 Hp Hpi Hh h) as (_ & -> & B). split.
  - intros N. destruct (Qnum y =? 0) eqn:Ey; [reflexivity|]. destruct (Qnum x =? 0) eqn:Ex; [|reflexivity].
    destruct (Qnum y <? 0) eqn:Ly; [exfalso|reflexivity]. apply N. exists x, y. split; [reflexivity|].
    apply Z.eqb_eq in Ex. apply Z.ltb_lt in Ly. split; [unfold Qeq; cbn; lia|unfold Qlt; cbn; lia].
  - intros (x' & y' & E & X & Y). inversion E; subst x' y'.
    assert (Qnum y =? 0 = false) as -> by (unfold Qlt in Y; cbn in Y; apply Z.eqb_neq; lia).
    assert (Qnum x =? 0 = true) as -> by (unfold Qeq in X; cbn in X; apply Z.eqb_eq; lia).
    assert (Qnum y <? 0 = true) as -> by (unfold Qlt in Y; cbn in Y; apply Z.ltb_lt; lia).
    destruct B as [-> | ->]; auto.
Qed.
Print Assumptions phase_elsewhere.
(* After sin phase 0j-1 the phase of 0j-1 is half of pi, no longer its opposite; so too after e ** log 0j-1. *)
Theorem phase_same_refuted : forall atan2, let pi := (6588397 # 2097152)%Q in let half := (6588397 # 4194304)%Q in
  forall o, In o [Sin 0; Tan 0; Exp 0; Mod 0 0] ->
  phase_now 24 400 pi atan2 (init half) 0 (-1) = Some (- half)%Q /\
  phase_now 24 400 pi atan2 (run 24 400 pi half atan2 [Phase 0 (-1); o]) 0 (-1) = Some half.
Proof. intros atan2 pi half o [<-|[<-|[<-|[<-|[]]]]]; (split; [reflexivity|vm_compute; reflexivity]). Qed.
Print Assumptions phase_same_refuted.
Example phase_case : let pi := (6588397 # 2097152)%Q in let half := (6588397 # 4194304)%Q in
  let h := [Phase 0 1; Sin 0; Phase 0 (-1); Phase (-1) 0; Sin 3; Tan 0; Other (-5); Mod 6 0] in
  careful h /\ phase_now 24 400 pi (fun _ _ => 0%Q) (run 24 400 pi half (fun _ _ => 0%Q) h) 0 (-1) = Some (- half)%Q.
Proof.
  split; [|vm_compute; reflexivity].
  intros i j o o' Hi Hj (x & y & -> & Hx & Hy) W.
  assert (i = 2%nat) as ->.
  { do 8 (destruct i as [|i]; [try reflexivity; cbn in Hi; inversion Hi; subst; exfalso; vm_compute in Hy; vm_compute in Hx; discriminate|]).
    destruct i; discriminate. }
  do 8 (destruct j as [|j]; [cbn in Hj; inversion Hj; subst; cbn in W; lia|]). destruct j; discriminate.
Qed.

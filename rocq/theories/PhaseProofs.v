From Coq Require Import QArith Qabs Lqa Lia.
From Verif Require Import Value NumModel FloatModel FloatProofs FloatReduce MixModel PhaseModel PhaseSpec.
Open Scope list_scope.
Open Scope Z_scope.

Section P.
Variable p : Z.
Variable fuel : nat.
Variables pi half : Q.
Variable atan2 : Q -> Q -> Q.
Hypothesis Hp : 16 <= p.
Hypothesis Hpi : (3 <= pi /\ pi <= 4)%Q.
Hypothesis Hh : (0 < half /\ half <= 2)%Q.
Notation R := (rnd p).
Notation step := (step p fuel pi atan2).
Notation init := (init half).

Lemma put_length l : forall k q, length (put l k q) = length l.
Proof. induction l; intros [|k] q; cbn; auto. Qed.
Lemma put_nth l : forall k q j, nth j (put l k q) 0%Q = if (j =? k)%nat && (j <? length l)%nat then q else nth j l 0%Q.
Proof.
  induction l as [|a l IH]; intros [|k] q [|j]; cbn [put nth length]; rewrite ?andb_false_r; try reflexivity.
  rewrite IH. reflexivity.
Qed.
Lemma double_neg q : (- - q)%Q = q.
Proof. destruct q as [n d]. unfold Qopp. cbn. rewrite Z.opp_involutive. reflexivity. Qed.
Lemma abs_pos q : (0 < q)%Q -> Qabs q = q.
Proof. destruct q as [n d]. unfold Qlt; cbn. intros H. rewrite Z.abs_eq by lia. reflexivity. Qed.
Lemma abs_neg q : (0 < q)%Q -> Qabs (- q) = q.
Proof. destruct q as [n d]. unfold Qlt; cbn. intros H. rewrite Z.abs_opp, Z.abs_eq by lia. reflexivity. Qed.
Lemma num_pos q : (0 < q)%Q -> (Qnum q <? 0) = false.
Proof. destruct q as [n d]. unfold Qlt; cbn. intros H. apply Z.ltb_ge. lia. Qed.
Lemma num_neg q : (0 < q)%Q -> (Qnum (- q) <? 0) = true.
Proof. destruct q as [n d]. unfold Qlt; cbn. intros H. apply Z.ltb_lt. lia. Qed.

Lemma rnd_ge q : (0 <= q)%Q -> (q * (511 # 512) <= R q)%Q.
Proof.
  intros H. pose proof (rnd_error p q) as E. destruct (pow2_512 p ltac:(lia)) as [A B].
  rewrite (Qabs_pos q H) in E. apply Qabs_Qle_condition in E. destruct E as [E _]. nra.
Qed.
Lemma reduce_small x : (x <= 2)%Q -> two_pi_reduce R fuel pi x = match fuel with O => None | _ => Some x end.
Proof.
  intros H. unfold two_pi_reduce.
  assert (Qle_bool x (fint R 1000) = true) as ->.
  { apply Qle_bool_iff. pose proof (rnd_ge (inject_Z 1000) ltac:(discriminate)) as G. unfold fint. change (inject_Z 1000) with 1000%Q in *. lra. }
  destruct fuel as [|f]; [reflexivity|]. cbn [subtract].
  destruct (Qle_bool (fmul R (fint R 2) pi) x) eqn:E; [exfalso|reflexivity]. apply Qle_bool_iff in E.
  pose proof (rnd_ge (inject_Z 2) ltac:(discriminate)) as G. change (inject_Z 2) with 2%Q in G.
  assert (2 * (511 # 512) * 3 <= fint R 2 * pi)%Q as G2 by (unfold fint; change (inject_Z 2) with 2%Q; nra).
  pose proof (rnd_ge (fint R 2 * pi) ltac:(lra)) as G3. unfold fmul in E. lra.
Qed.
Definition pm (x : Q) : Prop := x = half \/ x = (- half)%Q.
Lemma sin_writes x : pm x -> snd (float_sin R p fuel pi x) = half.
Proof.
  intros [-> | ->]; unfold float_sin.
  - rewrite num_pos by apply Hh. rewrite reduce_small by lra. destruct fuel; reflexivity.
  - rewrite num_neg by apply Hh. rewrite double_neg, reduce_small by lra. destruct fuel; reflexivity.
Qed.
Lemma cos_writes x : pm x -> snd (float_cos R p fuel pi x) = x.
Proof. intros [-> | ->]; unfold float_cos; rewrite reduce_small by lra; destruct fuel; reflexivity. Qed.
Lemma tan_writes x : pm x -> snd (float_tan p fuel pi x) = half.
Proof.
  assert (snd (match two_pi_reduce R fuel pi half with
     | None => (None, half)
     | Some x1 => let s := float_sin R p fuel pi x1 in let c := float_cos R p fuel pi (snd s) in
       (match fst s, fst c with
        | Some (Ok a), Some (Ok b) => if Qnum b =? 0 then Some Err else neg_res (Qnum x <? 0) (Some (fquo R a b))
        | Some Err, _ | _, Some Err => Some Err
        | _, _ => None
        end, snd c)
     end) = half) as H.
  { rewrite reduce_small by lra. destruct fuel eqn:F; [reflexivity|]. cbv zeta. cbn [snd]. rewrite <- F.
    rewrite sin_writes by (left; reflexivity). apply cos_writes. left; reflexivity. }
  intros [-> | ->]; unfold float_tan; [rewrite num_pos in * by apply Hh|rewrite num_neg in * by apply Hh; rewrite double_neg]; exact H.
Qed.
Lemma abs_pm x : pm x -> Qabs x = half.
Proof. intros [-> | ->]; [apply abs_pos|apply abs_neg]; apply Hh. Qed.

(* the constants, in a state *)
Definition keeps (s : pstate) : Prop := (2 <= length (cells s))%nat /\ get s 0 = half /\ pm (get s 1).
Lemma fresh_cells s q k : (k < length (cells s))%nat -> get (fresh s q) k = get s k.
Proof. intros H. unfold get, fresh. cbn [cells]. apply app_nth1, H. Qed.
Lemma fresh_keeps s q : keeps s -> keeps (fresh s q).
Proof.
  intros (L & A & B). split; [cbn [fresh cells]; rewrite app_length; lia|].
  rewrite !fresh_cells by lia. auto.
Qed.
(* A write of half of pi, or of anything that was in another cell *)
Definition gentle (s : pstate) (k : nat) (x : Q) : Prop := ((k = 0)%nat \/ (k = 1)%nat) -> x = half.
Lemma wrote_get s k x r j : (j < length (cells s))%nat -> get (wrote s k x r) j = if (j =? k)%nat then x else get s j.
Proof.
  intros H. unfold wrote. assert (get (mkPs (put (cells s) k x) (results s)) j = if (j =? k)%nat then x else get s j) as E.
  { unfold get. cbn [cells]. rewrite put_nth. apply Nat.ltb_lt in H. rewrite H, andb_true_r. reflexivity. }
  destruct r as [[z| | |]|]; try exact E. rewrite fresh_cells; [exact E|]. cbn [cells]. rewrite put_length. exact H.
Qed.
Lemma wrote_length s k x r : (length (cells s) <= length (cells (wrote s k x r)))%nat.
Proof.
  unfold wrote. destruct r as [[z| | |]|]; cbn [cells fresh]; rewrite ?app_length, put_length; lia.
Qed.
Lemma wrote_keeps s k x r : keeps s -> gentle s k x -> keeps (wrote s k x r).
Proof.
  intros (L & A & B) G. split; [pose proof (wrote_length s k x r); lia|].
  rewrite !wrote_get by lia. destruct k as [|[|k]]; cbn [Nat.eqb].
  - split; [apply G; auto|exact B].
  - split; [exact A|left; apply G; auto].
  - auto.
Qed.
Lemma put_keeps s k x : keeps s -> gentle s k x -> keeps (mkPs (put (cells s) k x) (results s)).
Proof.
  intros (L & A & B) G. split; [cbn [cells]; rewrite put_length; exact L|]. unfold get in *. cbn [cells]. rewrite !put_nth.
  assert ((0 <? length (cells s))%nat = true) as -> by (apply Nat.ltb_lt; lia).
  assert ((1 <? length (cells s))%nat = true) as -> by (apply Nat.ltb_lt; lia). rewrite !andb_true_r.
  destruct k as [|[|k]]; cbn [Nat.eqb].
  - split; [apply G; auto|exact B].
  - split; [exact A|left; apply G; auto].
  - auto.
Qed.
Lemma failed_keeps s : keeps s -> keeps (failed s).
Proof. intros H. exact H. Qed.
Lemma cell_pm s k : keeps s -> (k = 0)%nat \/ (k = 1)%nat -> pm (get s k).
Proof. intros (L & A & B) [-> | ->]; [left; exact A|exact B]. Qed.
Lemma mod_writes x y r u v : mod_float p (Fl p x) (Fl p y) = Ok (r, u, v) ->
  (u = Fl p x /\ v = Fl p y /\ Qnum y = 0) \/ (u = Fl p (Qabs x) /\ v = Fl p (Qabs y)).
Proof.
  unfold mod_float. cbn [as_float bind in_place fst]. destruct (Qnum y =? 0) eqn:E; intros H; inversion H; subst; auto.
  left. apply Z.eqb_eq in E. auto.
Qed.
Lemma get_put s k x j : get (mkPs (put (cells s) k x) (results s)) j = if (j =? k)%nat && (j <? length (cells s))%nat then x else get s j.
Proof. unfold get. cbn [cells]. apply put_nth. Qed.
Lemma pm_nonzero x : pm x -> Qnum x <> 0.
Proof. intros [-> | ->]; destruct half as [n d]; destruct Hh as [H _]; unfold Qlt in H; cbn in *; lia. Qed.
Lemma put_same l : forall k, put l k (nth k l 0%Q) = l.
Proof. induction l as [|a l IH]; intros [|k]; cbn; auto. rewrite IH. reflexivity. Qed.

Lemma step_keeps s o : keeps s -> keeps (step s o).
Proof.
  intros K. destruct o as [x y|i|i|i j|i|q]; cbn [PhaseModel.step].
  - destruct (Qnum y =? 0); [apply fresh_keeps, K|]. destruct (Qnum x =? 0); [exact K|apply fresh_keeps, K].
  - destruct (operand_cell s i) as [k|]; [|exact K]. apply wrote_keeps; [exact K|]. intros Hk. apply sin_writes, cell_pm; assumption.
  - destruct (operand_cell s i) as [k|]; [|exact K]. apply wrote_keeps; [exact K|]. intros Hk. apply tan_writes, cell_pm; assumption.
  - destruct (operand_cell s i) as [k|]; [|exact K]. destruct (operand_cell s j) as [l|]; [|exact K].
    destruct (mod_float p (Fl p (get s k)) (Fl p (get s l))) as [[[r u] v]| | |] eqn:M; try exact K.
    destruct (mod_writes _ _ _ _ _ M) as [(-> & -> & Z0)|(-> & ->)].
    + unfold get. rewrite put_same. destruct s as [cs rs]. cbn [cells results] in *.
      assert (keeps (mkPs cs rs)) as K' by exact K.
      destruct K as (L & A & B). split; [pose proof (wrote_length (mkPs cs rs) l (nth l cs 0%Q) (Some (match r with Fl _ q => Ok q | Ex (VInt z) | Ex (VBig z) => Ok (inject_Z z) | _ => Unmod end))); cbn [cells] in *; lia|].
      rewrite !wrote_get by (cbn [cells] in *; lia).
      destruct l as [|[|l]]; cbn [Nat.eqb]; auto.
    + apply wrote_keeps.
      * apply put_keeps; [exact K|]. intros Hk. apply abs_pm, cell_pm; assumption.
      * intros Hl. apply abs_pm, cell_pm; assumption.
  - destruct (operand_cell s i) as [k|]; [|exact K]. apply wrote_keeps; [exact K|]. intros Hk.
    apply sin_writes. rewrite cos_writes; apply cell_pm; assumption.
  - apply fresh_keeps, K.
Qed.
Lemma init_keeps : keeps init.
Proof. split; [cbn; lia|]. split; [reflexivity|right; reflexivity]. Qed.
Lemma run_keeps h : keeps (run p fuel pi half atan2 h).
Proof.
  unfold run. induction h as [|o h IH] using rev_ind; [apply init_keeps|]. rewrite fold_left_app. apply step_keeps, IH.
Qed.

(* what a phase shows, in terms of the two cells *)
Lemma phase_shows s x y : keeps s -> phase_now p fuel pi atan2 s x y =
  Some (if Qnum y =? 0 then if Qnum x <? 0 then pi else 0%Q
        else if Qnum x =? 0 then if Qnum y <? 0 then get s 1 else get s 0 else atan2 x y).
Proof.
  intros (L & _). unfold phase_now. cbn [PhaseModel.step].
  assert (forall q, match last (results (fresh s q)) None with Some k => Some (get (fresh s q) k) | None => None end = Some q) as F.
  { intros q. cbn [fresh results]. rewrite last_last. unfold get, fresh. cbn [cells]. rewrite nth_middle. reflexivity. }
  destruct (Qnum y =? 0); [apply F|]. destruct (Qnum x =? 0); [|apply F].
  cbn [results]. rewrite last_last. destruct (Qnum y <? 0); reflexivity.
Qed.

(* ---- careful histories ---- *)
Lemma wrote_results s k x r : results (wrote s k x r) = results s ++ [match r with Some (Ok _) => Some (length (cells s)) | _ => None end].
Proof. unfold wrote. destruct r as [[z| | |]|]; cbn [fresh results cells]; rewrite ?put_length; reflexivity. Qed.
Lemma step_results s o : (2 <= length (cells s))%nat ->
  exists r, results (step s o) = results s ++ [r] /\ (r = Some 1%nat -> downward o).
Proof.
  intros L.
  assert (forall k x r, exists q, results (wrote s k x r) = results s ++ [q] /\ (q = Some 1%nat -> downward o)) as W.
  { intros k x r. rewrite wrote_results. eexists. split; [reflexivity|]. destruct r as [[z| | |]|]; intros E; inversion E; lia. }
  assert (forall q, exists r, results (fresh s q) = results s ++ [r] /\ (r = Some 1%nat -> downward o)) as F.
  { intros q. eexists. split; [reflexivity|]. intros E. inversion E. lia. }
  assert (exists r, results (failed s) = results s ++ [r] /\ (r = Some 1%nat -> downward o)) as X by (eexists; split; [reflexivity|discriminate]).
  destruct o as [x y|i|i|i j|i|q]; cbn [PhaseModel.step]; try (destruct (operand_cell s i); auto).
  - destruct (Qnum y =? 0) eqn:Ey; [apply F|]. destruct (Qnum x =? 0) eqn:Ex; [|apply F]. cbn [results].
    eexists. split; [reflexivity|]. destruct (Qnum y <? 0) eqn:Ly; [|discriminate]. intros _. exists x, y. split; [reflexivity|].
    apply Z.eqb_eq in Ex. apply Z.ltb_lt in Ly. split; [unfold Qeq; cbn; lia|unfold Qlt; cbn; lia].
  - destruct (operand_cell s j); [|auto]. destruct (mod_float p _ _) as [[[r u] v]| | |]; auto.
    destruct u; auto. destruct v; auto. rewrite wrote_results. cbn [results cells]. rewrite put_length.
    eexists. split; [reflexivity|]. intros E. destruct (match r with Fl _ q1 => Ok q1 | Ex (VInt z) | Ex (VBig z) => Ok (inject_Z z) | _ => Unmod end); inversion E; lia.
  - apply F.
Qed.
Lemma results_down h i : operand_cell (run p fuel pi half atan2 h) i = Some 1%nat -> exists o, nth_error h i = Some o /\ downward o.
Proof.
  unfold run. assert (length (results (fold_left step h init)) = length h /\
    (operand_cell (fold_left step h init) i = Some 1%nat -> exists o, nth_error h i = Some o /\ downward o)) as [_ H]; [|exact H].
  induction h as [|o h [IL IH]] using rev_ind.
  - split; [reflexivity|]. unfold operand_cell. cbn [fold_left PhaseModel.init results]. destruct i; discriminate.
  - rewrite fold_left_app. cbn [fold_left].
    destruct (step_results (fold_left step h init) o) as (r & E & D); [apply (run_keeps h)|].
    rewrite E. split; [rewrite !app_length, IL; reflexivity|]. unfold operand_cell in *. rewrite E.
    destruct (Nat.lt_ge_cases i (length h)) as [L|L].
    + rewrite nth_error_app1 by lia. intros H. destruct (IH H) as (o' & N & D'). exists o'. split; [|exact D']. rewrite nth_error_app1 by lia. exact N.
    + destruct (Nat.eq_dec i (length h)) as [->|Hi].
      * rewrite nth_error_app2 by lia. rewrite IL, Nat.sub_diag. cbn [nth_error]. intros ->. exists o. split; [|apply D; reflexivity].
        rewrite nth_error_app2 by lia. rewrite Nat.sub_diag. reflexivity.
      * rewrite nth_error_app2 by lia. rewrite IL. destruct (i - length h)%nat as [|m] eqn:Em; [lia|]. destruct m; discriminate.
Qed.
Lemma careful_app h o : careful (h ++ [o]) -> careful h /\ forall i o', nth_error h i = Some o' -> downward o' -> ~ writes o i.
Proof.
  intros C. assert (forall i o', nth_error h i = Some o' -> nth_error (h ++ [o]) i = Some o') as A.
  { intros i o' H. rewrite nth_error_app1; [exact H|]. apply nth_error_Some. congruence. }
  split.
  - intros i j a b Ha Hb. apply (C i j a b); auto.
  - intros i o' H. apply (C i (length h) o' o); [auto|]. rewrite nth_error_app2 by lia. rewrite Nat.sub_diag. reflexivity.
Qed.
Lemma careful_keeps h : careful h -> get (run p fuel pi half atan2 h) 1 = (- half)%Q.
Proof.
  induction h as [|o h IH] using rev_ind; [reflexivity|]. intros C. apply careful_app in C as [C W].
  specialize (IH C). pose proof (run_keeps h) as K. pose proof (results_down h) as D.
  unfold run in *. rewrite fold_left_app. cbn [fold_left]. set (s := fold_left step h init) in *.
  destruct K as (L & A & B).
  assert (forall i k, operand_cell s i = Some k -> writes o i -> k <> 1%nat) as N.
  { intros i k E Wi ->. destruct (D i E) as (o' & H & Hd). exact (W i o' H Hd Wi). }
  assert (forall i k x r, operand_cell s i = Some k -> writes o i -> get (wrote s k x r) 1 = get s 1) as WG.
  { intros i k x r E Wi. rewrite wrote_get by lia. specialize (N i k E Wi). destruct k as [|[|k]]; [reflexivity|contradiction|reflexivity]. }
  rewrite <- IH. destruct o as [x y|i|i|i j|i|q]; cbn [PhaseModel.step].
  - destruct (Qnum y =? 0); [apply fresh_cells; lia|]. destruct (Qnum x =? 0); [reflexivity|apply fresh_cells; lia].
  - destruct (operand_cell s i) as [k|] eqn:E; [|reflexivity]. eapply WG; [exact E|reflexivity].
  - destruct (operand_cell s i) as [k|] eqn:E; [|reflexivity]. eapply WG; [exact E|reflexivity].
  - destruct (operand_cell s i) as [k|] eqn:Ei; [|reflexivity]. destruct (operand_cell s j) as [l|] eqn:Ej; [|reflexivity].
    destruct (mod_float p _ _) as [[[r u] v]| | |]; try reflexivity. destruct u; try reflexivity. destruct v; try reflexivity.
    rewrite wrote_get by (cbn [cells]; rewrite put_length; lia). rewrite get_put.
    assert (k <> 1%nat) by (eapply N; [exact Ei|left; reflexivity]).
    assert (l <> 1%nat) by (eapply N; [exact Ej|right; reflexivity]).
    assert ((1 =? k)%nat = false) as -> by (apply Nat.eqb_neq; lia). assert ((1 =? l)%nat = false) as -> by (apply Nat.eqb_neq; lia). reflexivity.
  - destruct (operand_cell s i) as [k|] eqn:E; [|reflexivity]. eapply WG; [exact E|reflexivity].
  - apply fresh_cells; lia.
Qed.
End P.

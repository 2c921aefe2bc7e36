(* The loop of encode, split over goroutines. *)
From Coq Require Import Lia.
From Verif Require Import Value NumModel ArrModel ArrBase EvalProofs ParModel ParSpec ParProofs ParLoops EncModel EncProofs.
Open Scope nat_scope.

Lemma column_steps_owner n j : j < n -> forall bases rb a, In a (column_steps bases rb n j) ->
  (forall m m', a m = a m') /\ (forall m x v, a m = Ok (x, v) -> x mod n = j).
Proof.
  intros Hj. induction bases as [|b bases IH]; intros rb a H; cbn in H; [easy|]. destruct H as [<-|H]; [|eauto].
  split; [reflexivity|]. intros m x v E. destruct rb as [b0| | |]; try discriminate. cbn in E. destruct (quorem b0 b); try discriminate. cbn in E.
  injection E as <- _. now rewrite Nat.mod_add, Nat.mod_small by lia.
Qed.
Lemma encode_independent A B : independent (fun x => x mod length B) (length B) (encode_body A B).
Proof.
  intros k a Hk Ha. unfold encode_body in Ha. destruct (column_steps_owner _ k Hk _ _ a Ha) as [H H']. split; [intros m m' _; apply H|exact H'].
Qed.

(* One column, in one goroutine. *)
Lemma column_in_order n j : j < n -> forall bases b m,
  agrees (fun ds m' => forall x, m' x = if (x mod n =? j) && (x / n <? length bases) then nth_error (rev ds) (x / n) else m x)
    (digits_from bases b) (in_order (column_steps bases (Ok b) n j) m).
Proof.
  intros Hj. induction bases as [|a bases IH]; intros b m.
  - cbn. intros x. now rewrite andb_false_r.
  - cbn [digits_from column_steps in_order]. cbn [bind]. destruct (quorem b a) as [[q r]| | |]; cbn [bind agrees fst snd]; try exact I.
    specialize (IH q (mset m (j + length bases * n) r)).
    destruct (digits_from bases q) as [ds| | |] eqn:E, (in_order (column_steps bases (Ok q) n j) (mset m (j + length bases * n) r)) as [m'| | |];
      cbn [agrees bind] in *; try easy.
    intros x. rewrite IH. cbn [rev length]. pose proof (digits_from_len _ _ _ E) as L.
    unfold mset. destruct (Nat.eqb_spec (x mod n) j) as [Ej|Nj]; cbn [andb].
    + pose proof (Nat.div_mod x n ltac:(lia)) as D.
      destruct (Nat.ltb_spec (x / n) (length bases)) as [H|H].
      * destruct (Nat.ltb_spec (x / n) (S (length bases))); [|lia]. rewrite nth_error_app1 by (rewrite rev_length; lia). reflexivity.
      * destruct (Nat.ltb_spec (x / n) (S (length bases))) as [H'|H'].
        -- assert (x / n = length bases) as Ex by lia. rewrite Ex, nth_error_app2 by (rewrite rev_length; lia).
           rewrite rev_length, L, Nat.sub_diag. cbn [nth_error]. destruct (Nat.eqb_spec x (j + length bases * n)); [reflexivity|]. exfalso. nia.
        -- destruct (Nat.eqb_spec x (j + length bases * n)) as [Ex|]; [|reflexivity]. exfalso. rewrite Ex, Nat.div_add, Nat.div_small in H' by lia. lia.
    + destruct (Nat.eqb_spec x (j + length bases * n)) as [Ex|]; [|reflexivity]. exfalso. apply Nj. rewrite Ex. rewrite Nat.mod_add, Nat.mod_small by lia. reflexivity.
Qed.
Lemma body_in_order A B j m : j < length B ->
  agrees (fun ds m' => length ds = length A /\ forall x, m' x = if (x mod length B =? j) && (x / length B <? length A) then nth_error ds (x / length B) else m x)
    (let! b := at_ B j in digits A b) (in_order (encode_body A B j) m).
Proof.
  intros Hj. unfold encode_body. rewrite (at_nth B j Hj). cbn [bind].
  pose proof (column_in_order (length B) j Hj (rev A) (nth j B dflt) m) as H. unfold digits.
  destruct (digits_from (rev A) (nth j B dflt)) as [ds| | |] eqn:E, (in_order (column_steps (rev A) (Ok (nth j B dflt)) (length B) j) m); cbn [agrees bind] in *; try easy.
  apply digits_from_len in E. rewrite rev_length in E. rewrite rev_length in H. split; [now rewrite rev_length|exact H].
Qed.

Lemma columns_in_order A B : forall k, k <= length B ->
  agrees (fun cols m => length cols = k /\ forall x, m x = match nth_error cols (x mod length B) with Some col => nth_error col (x / length B) | None => None end)
    (mapM (fun j => let! b := at_ B j in digits A b) (seq 0 k)) (in_order (flat_map (encode_body A B) (seq 0 k)) nothing).
Proof.
  induction k as [|k IH]; intros Hk.
  - cbn. split; [reflexivity|]. intros x. unfold nothing. now destruct (x mod length B).
  - rewrite seq_S, flat_map_app, in_order_app, mapM_app. cbn [plus flat_map]. rewrite app_nil_r.
    specialize (IH ltac:(lia)).
    destruct (mapM _ (seq 0 k)) as [cols| | |], (in_order (flat_map (encode_body A B) (seq 0 k)) nothing) as [m| | |]; cbn [agrees] in IH; try easy.
    cbn [bind mapM]. pose proof (body_in_order A B k m ltac:(lia)) as R. destruct IH as [L H].
    destruct (let! b := at_ B k in digits A b) as [col| | |], (in_order (encode_body A B k) m) as [m'| | |]; cbn [agrees] in R; try easy.
    destruct R as [LC R].
    cbn [bind agrees]. split; [rewrite app_length; cbn; lia|]. intros x. rewrite R.
    destruct (Nat.eqb_spec (x mod length B) k) as [E|E]; cbn [andb].
    + rewrite E, nth_error_app2 by lia. rewrite L, Nat.sub_diag. cbn [nth_error].
      destruct (Nat.ltb_spec (x / length B) (length A)); [reflexivity|].
      rewrite H, E. rewrite (proj2 (nth_error_None cols k)) by lia. symmetry. apply nth_error_None. lia.
    + rewrite H. destruct (Nat.lt_ge_cases (x mod length B) k) as [G|G].
      * rewrite nth_error_app1 by lia. reflexivity.
      * rewrite (proj2 (nth_error_None cols _)) by lia. rewrite (proj2 (nth_error_None (cols ++ [col]) _)); [reflexivity|]. rewrite app_length. cbn. lia.
Qed.
Lemma mapM_at {X} (g : value -> res X) B : mapM (fun j => let! b := at_ B j in g b) (seq 0 (length B)) = mapM g B.
Proof.
  transitivity (mapM g (map (fun i => nth i B dflt) (seq 0 (length B)))); [|now rewrite map_nth_seq]. rewrite mapM_map. apply mapM_ext. intros j Hj. apply in_seq in Hj.
  rewrite at_nth by lia. reflexivity.
Qed.
Lemma encode_gives A B r : as_if_sequential (length B) (encode_body A B) nothing r ->
  gives (length B) (fun j => let! b := at_ B j in digits A b) (encode_columns A B) r.
Proof.
  intros H. apply (gives_map (length B) (fun k => in_order (encode_body A B k) nothing)).
  - intros k Hk Hf. eapply agrees_failure; [now apply body_in_order|exact Hf].
  - apply (seq_gives (length B) (encode_body A B)); auto. pose proof (columns_in_order A B (length B) ltac:(lia)) as P.
    rewrite mapM_at in P. destruct (mapM (digits A) B) as [cols| | |] eqn:E.
    + destruct (columns_data A B cols E) as (l & -> & _ & Hl).
      destruct (in_order (flat_map (encode_body A B) (seq 0 (length B))) nothing); cbn [agrees] in P; try easy.
      intros x. rewrite Hl. apply P.
    + unfold encode_columns. rewrite E. cbn [bind]. destruct (in_order (flat_map (encode_body A B) (seq 0 (length B))) nothing); easy.
    + unfold encode_columns. rewrite E. cbn [bind]. destruct (in_order (flat_map (encode_body A B) (seq 0 (length B))) nothing); easy.
    + unfold encode_columns. rewrite E. cbn [bind]. destruct (in_order (flat_map (encode_body A B) (seq 0 (length B))) nothing); easy.
Qed.

From Verif Require Import Value NumModel QuoRemHeap.
From Coq Require Import QArith Qabs Qreduction Lia ZifyBool.
Open Scope Z_scope.

Lemma length_put h a q : length (put h a q) = length h.
Proof. revert a. induction h as [|x h IH]; intros [|a]; simpl; congruence. Qed.
Lemma cell_put h a q k : (a < length h)%nat -> cell (put h a q) k = if Nat.eqb k a then q else cell h k.
Proof.
  unfold cell. revert a k. induction h as [|x h IH]; intros [|a] [|k] H; simpl in *; try lia; auto.
  apply IH. lia.
Qed.
Lemma cell_app h l k : (k < length h)%nat -> cell (h ++ l) k = cell h k.
Proof. intros. unfold cell. apply app_nth1. assumption. Qed.
Lemma length_quorem h a b : length (fst (quorem_heap h a b)) = length h.
Proof.
  unfold quorem_heap. cbv zeta. set (b1 := Qnum (cell h a) <? 0).
  set (h1 := if b1 then put h a (- cell h a)%Q else h).
  destruct (_ && _); simpl; (destruct (Qnum (cell h1 b) <? 0); rewrite ?length_put; unfold h1; destruct b1; rewrite ?length_put; reflexivity).
Qed.

(* mod with non-negative operands writes nothing. *)
Lemma quorem_heap_nonneg h a b : 0 <= Qnum (cell h a) -> 0 <= Qnum (cell h b) ->
  quorem_heap h a b = (h, quorem_rat (cell h a) (cell h b)).
Proof.
  intros Ha Hb. unfold quorem_heap, quorem_rat.
  assert ((Qnum (cell h a) <? 0) = false) as Ea by lia. assert ((Qnum (cell h b) <? 0) = false) as Eb by lia.
  rewrite Ea, Eb. reflexivity.
Qed.

(* In general distinct operands end up replaced by their absolute values. *)
Lemma quorem_heap_effect h a b : (a < length h)%nat -> (b < length h)%nat -> a <> b ->
  snd (quorem_heap h a b) = quorem_rat (cell h a) (cell h b) /\
  cell (fst (quorem_heap h a b)) a = Qabs (cell h a) /\
  cell (fst (quorem_heap h a b)) b = Qabs (cell h b) /\
  forall k, k <> a -> k <> b -> cell (fst (quorem_heap h a b)) k = cell h k.
Proof.
  intros La Lb N. unfold quorem_heap, quorem_rat. cbv zeta.
  assert (Qabs_if : forall q, (if Qnum q <? 0 then (- q)%Q else q) = Qabs q).
  { intros [n d]. simpl. destruct n; reflexivity. }
  set (h1 := if Qnum (cell h a) <? 0 then put h a (- cell h a)%Q else h).
  assert (length h1 = length h) as L1 by (unfold h1; destruct (_ <? _); rewrite ?length_put; reflexivity).
  assert (forall k, cell h1 k = if Nat.eqb k a then Qabs (cell h a) else cell h k) as C1.
  { intros k. rewrite <-Qabs_if. unfold h1. destruct (Qnum (cell h a) <? 0) eqn:E.
    - rewrite cell_put by assumption. reflexivity.
    - destruct (Nat.eqb_spec k a) as [->|]; reflexivity. }
  assert (cell h1 b = cell h b) as Cb. { rewrite C1. destruct (Nat.eqb_spec b a); [congruence|reflexivity]. }
  rewrite Cb. set (h2 := if Qnum (cell h b) <? 0 then put h1 b (- cell h b)%Q else h1).
  assert (forall k, cell h2 k = if Nat.eqb k b then Qabs (cell h b) else cell h1 k) as C2.
  { intros k. rewrite <-Qabs_if. unfold h2. destruct (Qnum (cell h b) <? 0) eqn:E.
    - rewrite cell_put by lia. reflexivity.
    - destruct (Nat.eqb_spec k b) as [->|]; [exact Cb|reflexivity]. }
  assert (cell h2 a = Qabs (cell h a)) as Ea.
  { rewrite C2, C1, Nat.eqb_refl. destruct (Nat.eqb_spec a b); [contradiction|reflexivity]. }
  assert (cell h2 b = Qabs (cell h b)) as Eb by (rewrite C2, Nat.eqb_refl; reflexivity).
  rewrite Ea, Eb, !Qabs_if.
  split; [|split; [|split]].
  - destruct (_ && _); reflexivity.
  - destruct (_ && _); exact Ea.
  - destruct (_ && _); exact Eb.
  - intros k Na Nb. destruct (_ && _); cbn [fst]; rewrite C2, C1;
      destruct (Nat.eqb_spec k b); try contradiction; destruct (Nat.eqb_spec k a); try contradiction; reflexivity.
Qed.

Definition no_mod (o : rop) : Prop := match o with RMod _ _ => False | _ => True end.
Lemma rstep_keeps h o k : no_mod o -> (k < length h)%nat ->
  cell (fst (rstep h o)) k = cell h k /\ (length h <= length (fst (rstep h o)))%nat.
Proof.
  intros N L. destruct o; try contradiction; simpl;
    try (destruct (_ =? 0); [split; [reflexivity|simpl; lia]|]);
    cbn [fst]; rewrite app_length; (split; [apply cell_app; assumption|simpl; lia]).
Qed.
Lemma rrun_keeps os : forall h k, Forall no_mod os -> (k < length h)%nat -> cell (fst (rrun h os)) k = cell h k.
Proof.
  induction os as [|o os IH]; intros h k F L; [reflexivity|].
  inversion F; subst. destruct (rstep_keeps h o k) as [E1 E2]; [assumption|assumption|].
  cbn [rrun]. destruct (rstep h o) as [h1 r] eqn:Es. cbn [fst] in *.
  specialize (IH h1 k). destruct (rrun h1 os) as [h2 rs]. cbn [fst] in *. rewrite IH by (assumption || lia). exact E1.
Qed.

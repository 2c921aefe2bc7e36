(* Only outer products and mixes change shapes, whatever happened before. *)
From Coq Require Import List Arith Bool String Lia ZifyBool.
From Verif Require Import Value AliasModel AliasSpec AliasProofs.
Import ListNotations.
Open Scope list_scope.
Open Scope nat_scope.

Definition valid_value (h : heap) (v : aval) : Prop := match v with AMat s _ => good_slice h s | _ => True end.
Definition valid (st : astate) : Prop := Forall (fun p => valid_value (arrays st) (snd p)) (avars st).
(* arrays stay as long as they are *)
Definition same_lengths (h h' : heap) : Prop := length h <= length h' /\ forall i, i < length h -> length (nth i h' []) = length (nth i h []).
Lemma ext_lengths h h' : ext h h' -> same_lengths h h'.
Proof. intros [A B]. split; [exact A|]. intros i I. rewrite B by exact I. reflexivity. Qed.
Lemma lengths_refl h : same_lengths h h. Proof. split; auto. Qed.
Lemma lengths_trans a b c : same_lengths a b -> same_lengths b c -> same_lengths a c.
Proof. intros [L E] [M F]. split; [lia|]. intros i I. rewrite F by lia. apply E, I. Qed.
Lemma slice_lengths h h' s : same_lengths h h' -> good_slice h s -> good_slice h' s.
Proof. intros [L E] (A & B & C). repeat split; [lia|exact B|]. rewrite E by exact A. exact C. Qed.
Lemma value_lengths h h' v : same_lengths h h' -> valid_value h v -> valid_value h' v.
Proof. intros E. destruct v; cbn; auto. apply slice_lengths, E. Qed.
Lemma valid_lengths h h' vars : same_lengths h h' -> valid (mkA h vars) -> valid (mkA h' vars).
Proof. intros E. unfold valid. cbn. apply Forall_impl. intros p. apply value_lengths, E. Qed.

Lemma update_length : forall h i a, length (update h i a) = length h.
Proof. induction h; intros [|i] b; cbn; auto. Qed.
Lemma update_nth : forall h i j a, i < length h -> nth j (update h i a) [] = if j =? i then a else nth j h [].
Proof. induction h as [|x h IH]; intros [|i] [|j] b I; cbn in *; try lia; auto. apply IH. lia. Qed.
Lemma write_length a i l : i + length l <= length a -> length (write a i l) = length a.
Proof. intros H. unfold write. rewrite !app_length, firstn_length, skipn_length. lia. Qed.
Lemma append_lengths grow h s l h' s' : good_slice h s -> go_append grow h s l = (h', s') -> same_lengths h h' /\ good_slice h' s'.
Proof.
  intros (A & B & C). unfold go_append. destruct (len s + length l <=? cap s) eqn:K.
  - intros [= <- <-].
    assert (E : same_lengths h (update h (arr s) (write (nth (arr s) h []) (off s + len s) l))).
    { split; [rewrite update_length; lia|]. intros i I. rewrite update_nth by exact A. destruct (Nat.eqb_spec i (arr s)) as [Q|Q]; [|reflexivity].
      subst i. apply write_length. lia. }
    split; [exact E|]. apply (slice_lengths _ _ _ E). repeat split; cbn; lia.
  - intros Q. apply alloc_spec in Q. destruct Q as (E & G & _). split; [apply ext_lengths, E|exact G].
Qed.
Lemma alloc_lengths h l n h' s : alloc h l n = (h', s) -> ext h h' /\ good_slice h' s.
Proof. intros Q. apply alloc_spec in Q. tauto. Qed.
Lemma fresh_valid h l n h' v : fresh h l n = (h', v) -> ext h h' /\ valid_value h' v.
Proof. intros Q. apply fresh_spec in Q. destruct Q as (E & G & _). split; [exact E|]. destruct v; cbn in *; tauto. Qed.
Lemma as_matrix_valid h v h' s n : valid_value h v -> as_matrix h v = (h', s, n) -> ext h h' /\ good_slice h' s.
Proof.
  intros V. unfold as_matrix. destruct v as [|k|t k].
  - destruct (alloc h [1] 0) eqn:A. intros [= <- <- <-]. apply alloc_lengths in A. exact A.
  - destruct (alloc h [k] 0) eqn:A. intros [= <- <- <-]. apply alloc_lengths in A. exact A.
  - intros [= <- <- <-]. split; [apply ext_refl|exact V].
Qed.
Definition all_valid (h : heap) (r : option aval) : Prop := forall v, r = Some v -> valid_value h v.
Lemma none_valid h : all_valid h None. Proof. discriminate. Qed.
Lemma some_valid h v : valid_value h v -> all_valid h (Some v). Proof. intros V w [= <-]. exact V. Qed.
Lemma new_valid h s n : good_slice h s -> all_valid h (new_matrix h s n).
Proof. intros G. unfold new_matrix. destruct (_ =? _); [apply some_valid, G|apply none_valid]. Qed.
Lemma keep_valid h s : good_slice h s -> all_valid h (keep h s).
Proof.
  intros G. unfold keep. destruct (contents h s) as [|a [|b l]]; [apply none_valid|apply some_valid; exact Logic.I|apply new_valid, G].
Qed.
Ltac vals := repeat match goal with |- all_valid _ (if ?c then _ else _) => destruct c end;
  try (apply none_valid); try (apply some_valid; exact Logic.I); try (apply keep_valid); try (apply new_valid).
Lemma back_valid h s k : good_slice h s -> k <= len s -> good_slice h (back s k).
Proof. intros (A & B & C) K. repeat split; cbn; lia. Qed.
Lemma front_valid h s k : good_slice h s -> k <= len s -> good_slice h (front s k).
Proof. intros (A & B & C) K. repeat split; cbn; lia. Qed.
Lemma reduce_valid h v : valid_value h v -> all_valid h (reduce h v).
Proof.
  intros V. destruct v as [|[|n]|s n]; cbn [reduce]; vals. apply front_valid; [exact V|]. lia.
Qed.
Lemma reduce_first_valid h v : valid_value h v -> all_valid h (reduce_first h v).
Proof.
  intros V. destruct v as [|n|s n]; [apply (reduce_valid h AScal V)|apply (reduce_valid h (AVec n) V)|].
  cbn [reduce_first]. destruct (len s <? 2) eqn:L; cbn [orb]; [apply none_valid|]. vals. apply back_valid; [exact V|lia].
Qed.
Lemma split_valid h v : valid_value h v -> all_valid h (split h v).
Proof.
  intros V. destruct v as [|n|s n]; cbn [split]; vals. apply front_valid; [exact V|]. lia.
Qed.
Lemma each_valid d h v : valid_value h v -> all_valid h (each d h v).
Proof.
  intros V. destruct v as [|n|s n]; cbn [each]; vals.
  all: cbn zeta; vals; apply front_valid; [exact V|lia].
Qed.
Lemma decode_valid h a b : valid_value h b -> all_valid h (decode h a b).
Proof.
  intros V. destruct b as [|n|s n].
  - destruct a; cbn [decode]; vals.
  - destruct a; cbn [decode]; vals.
  - assert (X : all_valid h (let n := vlen a in let d := hd 0 (contents h s) in
      if (negb (n =? 1) && negb (d =? 1) && negb (n =? d)) || (d =? 0) then None else keep h (back s 1))).
    { cbn zeta. destruct (contents h s) as [|d l] eqn:C.
      - cbn [hd]. rewrite orb_true_r. apply none_valid.
      - vals. apply back_valid; [exact V|]. pose proof (contents_len _ _ V) as L. rewrite C in L. cbn in L. lia. }
    destruct a; [exact X|exact X|apply none_valid].
Qed.
Lemma zip_valid h a b h' r : valid_value h a -> valid_value h b -> zip h a b = (h', r) -> ext h h' /\ all_valid h' r.
Proof.
  intros Va Vb. unfold zip. destruct (is_mat a || is_mat b).
  - destruct (as_matrix h a) as [[h1 u] m] eqn:A. destruct (as_matrix h1 b) as [[h2 v] n] eqn:B.
    destruct (as_matrix_valid _ _ _ _ _ Va A) as [E1 G1].
    destruct (as_matrix_valid _ _ _ _ _ (value_lengths _ _ _ (ext_lengths _ _ E1) Vb) B) as [E2 G2].
    intros Q. injection Q as <- <-. split; [exact (ext_trans _ _ _ E1 E2)|]. vals; auto; exact (slice_ext _ _ _ E2 G1).
  - intros Q. destruct a, b; try (injection Q as <- <-; split; [apply ext_refl|]); try (apply some_valid; assumption); try (apply some_valid; exact Logic.I);
      cbn [vlen]; match goal with |- context [zip_len ?x ?y] => destruct (zip_len x y) end; try (apply some_valid; exact Logic.I); try apply none_valid.
Qed.
Lemma find_valid h a b h' r : valid_value h a -> valid_value h b -> find_in h a b = (h', r) -> ext h h' /\ all_valid h' r.
Proof.
  intros Va Vb. unfold find_in. destruct (is_mat a || is_mat b).
  - destruct (as_matrix h a) as [[h1 u] m] eqn:A. destruct (as_matrix h1 b) as [[h2 v] n] eqn:B.
    destruct (as_matrix_valid _ _ _ _ _ Va A) as [E1 G1].
    destruct (as_matrix_valid _ _ _ _ _ (value_lengths _ _ _ (ext_lengths _ _ E1) Vb) B) as [E2 G2].
    cbn zeta. destruct (_ || _ || _); [intros Q; injection Q as <- <-; split; [exact (ext_trans _ _ _ E1 E2)|apply none_valid]|].
    destruct (_ =? 0); intros Q; injection Q as <- <-; (split; [exact (ext_trans _ _ _ E1 E2)|]); vals.
    apply front_valid; [exact G2|lia].
  - intros [= <- <-]. split; [apply ext_refl|]. vals.
Qed.
Section Rest.
Variable grow : nat -> nat -> nat.
Lemma outer_valid h a b h' r : valid_value h a -> valid_value h b -> outer (go_append grow) h a b = (h', r) -> same_lengths h h' /\ all_valid h' r.
Proof.
  intros Va Vb. unfold outer. destruct (is_mat a || is_mat b).
  - destruct (as_matrix h a) as [[h1 u] m] eqn:A. destruct (as_matrix h1 b) as [[h2 v] n] eqn:B.
    destruct (as_matrix_valid _ _ _ _ _ Va A) as [E1 G1].
    destruct (as_matrix_valid _ _ _ _ _ (value_lengths _ _ _ (ext_lengths _ _ E1) Vb) B) as [E2 G2].
    destruct (go_append grow h2 u (contents h2 v)) as [h3 s] eqn:P. destruct (append_lengths _ _ _ _ _ _ (slice_ext _ _ _ E2 G1) P) as [E3 G3].
    intros [= <- <-]. split; [exact (lengths_trans _ _ _ (ext_lengths _ _ (ext_trans _ _ _ E1 E2)) E3)|]. vals. exact G3.
  - destruct (fresh h [vlen a; vlen b] 0) as [h1 v] eqn:F. apply fresh_valid in F. destruct F as [E V]. intros [= <- <-].
    split; [apply ext_lengths, E|apply some_valid, V].
Qed.
Lemma mix_valid l h a h' r : valid_value h a -> mix (go_append grow) l h a = (h', r) -> same_lengths h h' /\ all_valid h' r.
Proof.
  intros Va. unfold mix. destruct (as_matrix h a) as [[h1 u] m] eqn:A. destruct (as_matrix_valid _ _ _ _ _ Va A) as [E1 G1].
  destruct (go_append grow h1 u l) as [h3 s] eqn:P. destruct (append_lengths _ _ _ _ _ _ G1 P) as [E3 G3].
  destruct a; intros [= <- <-].
  - split; [apply lengths_refl|vals].
  - split; [exact (lengths_trans _ _ _ (ext_lengths _ _ E1) E3)|vals; exact G3].
  - split; [exact (lengths_trans _ _ _ (ext_lengths _ _ E1) E3)|vals; exact G3].
Qed.

(* what is known after the evaluation of e; b says whether e appends *)
Definition known (b : bool) (l : list string) (st : astate) (o : option aval * astate) : Prop :=
  same_lengths (arrays st) (arrays (snd o)) /\ valid (snd o) /\ all_valid (arrays (snd o)) (fst o) /\
  (forall x, ~ In x l -> lookup (avars (snd o)) x = lookup (avars st) x) /\
  (b = false -> ext (arrays st) (arrays (snd o))).
Lemma un_known a e l st k :
  known (appends a) (assigns a) st (eval (go_append grow) a st) -> (appends e = false -> appends a = false) -> assigns a = l ->
  (forall v st1, valid st1 -> valid_value (arrays st1) v ->
     same_lengths (arrays st1) (arrays (snd (k v st1))) /\ avars (snd (k v st1)) = avars st1 /\
     all_valid (arrays (snd (k v st1))) (fst (k v st1)) /\ (appends e = false -> ext (arrays st1) (arrays (snd (k v st1))))) ->
  known (appends e) l st (match eval (go_append grow) a st with (None, st1) => (None, st1) | (Some v, st1) => k v st1 end).
Proof.
  intros (E & G & GV & KV & X) M <- K. destruct (eval (go_append grow) a st) as [[v|] st1]; cbn [fst snd] in *.
  - destruct (K v st1 G (GV v eq_refl)) as (E2 & AV & OK & X2).
    destruct (k v st1) as [r st2]. cbn [fst snd] in *. destruct st1 as [h1 vars1], st2 as [h2 vars2]. cbn in AV. subst vars2.
    split; [exact (lengths_trans _ _ _ E E2)|]. split; [exact (valid_lengths _ _ _ E2 G)|]. split; [exact OK|]. split; [exact KV|].
    cbn [fst snd arrays] in *. intros Q. exact (ext_trans _ _ _ (X (M Q)) (X2 Q)).
  - repeat split; auto; try apply E; try apply X; auto; try discriminate.
Qed.
Lemma bin_known a b e st k :
  (valid st -> known (appends b) (assigns b) st (eval (go_append grow) b st)) ->
  (forall st1, valid st1 -> known (appends a) (assigns a) st1 (eval (go_append grow) a st1)) ->
  (appends e = false -> appends a = false /\ appends b = false) -> valid st ->
  (forall v w st1, valid st1 -> valid_value (arrays st1) v -> valid_value (arrays st1) w ->
     same_lengths (arrays st1) (arrays (snd (k v w st1))) /\ avars (snd (k v w st1)) = avars st1 /\
     all_valid (arrays (snd (k v w st1))) (fst (k v w st1)) /\ (appends e = false -> ext (arrays st1) (arrays (snd (k v w st1))))) ->
  known (appends e) (assigns a ++ assigns b) st (match eval (go_append grow) b st with
    | (None, st1) => (None, st1)
    | (Some w, st1) => match eval (go_append grow) a st1 with (None, st2) => (None, st2) | (Some v, st2) => k v w st2 end
    end).
Proof.
  intros Hb Ha M G0 K. destruct (Hb G0) as (E & G & GW & KW & X). destruct (eval (go_append grow) b st) as [[w|] st1]; cbn [fst snd] in *.
  - destruct (Ha st1 G) as (E1 & G1 & GV & KV & X1).
    assert (KB : forall x, ~ In x (assigns a ++ assigns b) -> lookup (avars (snd (eval (go_append grow) a st1))) x = lookup (avars st) x).
    { intros x N. rewrite KV, KW; auto; intros I; apply N, in_or_app; tauto. }
    destruct (eval (go_append grow) a st1) as [[v|] st2]; cbn [fst snd] in *.
    + destruct (K v w st2 G1 (GV v eq_refl) (value_lengths _ _ _ E1 (GW w eq_refl))) as (E2 & AV & OK & X2).
      destruct (k v w st2) as [r st3]. cbn [fst snd] in *. destruct st2 as [h2 vars2], st3 as [h3 vars3]. cbn in AV. subst vars3.
      split; [exact (lengths_trans _ _ _ (lengths_trans _ _ _ E E1) E2)|]. split; [exact (valid_lengths _ _ _ E2 G1)|]. split; [exact OK|]. split; [exact KB|].
      cbn [fst snd arrays] in *. intros Q. exact (ext_trans _ _ _ (ext_trans _ _ _ (X (proj2 (M Q))) (X1 (proj1 (M Q)))) (X2 Q)).
    + split; [exact (lengths_trans _ _ _ E E1)|]. split; [exact G1|]. split; [apply none_valid|]. split; [exact KB|].
      intros Q. exact (ext_trans _ _ _ (X (proj2 (M Q))) (X1 (proj1 (M Q)))).
  - split; [exact E|]. split; [exact G|]. split; [apply none_valid|]. split.
    + intros x N. apply KW. intros I. apply N, in_or_app. tauto.
    + intros Q. apply X, M, Q.
Qed.
Lemma lookup_valid st x v : valid st -> lookup (avars st) x = Some v -> valid_value (arrays st) v.
Proof.
  unfold valid, lookup. intros G L. destruct (find _ _) as [p|] eqn:F; [|discriminate]. injection L as <-.
  apply find_some in F. rewrite Forall_forall in G. apply G, F.
Qed.
Theorem eval_known : forall e st, valid st -> known (appends e) (assigns e) st (eval (go_append grow) e st).
Proof.
  induction e; intros st G; cbn [eval].
  - repeat split; auto. intros v L. exact (lookup_valid _ _ _ G L).
  - destruct (IHe st G) as (E & G1 & GV & KV & X). destruct (eval (go_append grow) e st) as [[v|] st1]; cbn [fst snd assigns appends] in *.
    + split; [exact E|]. split; [constructor; [exact (GV v eq_refl)|exact G1]|]. split; [apply some_valid; exact (GV v eq_refl)|]. split; [|exact X].
      cbn [snd avars]. intros y N. unfold lookup. cbn [find fst]. destruct (String.eqb_spec x y) as [Q|Q]; [exfalso; apply N; left; exact Q|].
      apply KV. intros I. apply N. right. exact I.
    + split; [exact E|]. split; [exact G1|]. split; [apply none_valid|]. split; [|exact X]. intros y N. apply KV. intros I. apply N. right. exact I.
  - destruct (fresh (arrays st) l 0) as [h v] eqn:F. apply fresh_valid in F. destruct F as [E V]. destruct st as [h0 vars].
    split; [apply ext_lengths, E|]. split; [exact (valid_lengths _ _ _ (ext_lengths _ _ E) G)|]. split; [apply some_valid, V|]. split; [auto|intros _; exact E].
  - apply (bin_known e1 e2 (XOp f e1 e2)); auto; [intros Q; apply orb_false_iff in Q; exact Q|].
    intros v w st1 G1 Vv Vw. destruct (f _ _) as [l|]; cbn [fst snd].
    + destruct (fresh (arrays st1) l 0) as [h r] eqn:F. apply fresh_valid in F. destruct F as [E V]. cbn [fst snd arrays avars].
      split; [apply ext_lengths, E|]. split; [auto|]. split; [apply some_valid, V|auto].
    + split; [apply lengths_refl|]. split; [auto|]. split; [apply none_valid|intros _; apply ext_refl].
  - apply (bin_known e1 e2 (XBuild f spare e1 e2)); auto; [intros Q; apply orb_false_iff in Q; exact Q|].
    intros v w st1 G1 Vv Vw. destruct (f _ _) as [l|]; cbn [fst snd].
    + destruct (fresh (arrays st1) l spare) as [h r] eqn:F. apply fresh_valid in F. destruct F as [E V]. cbn [fst snd arrays avars].
      split; [apply ext_lengths, E|]. split; [auto|]. split; [apply some_valid, V|auto].
    + split; [apply lengths_refl|]. split; [auto|]. split; [apply none_valid|intros _; apply ext_refl].
  - apply (un_known e (XMap e)); auto. intros v st1 G1 V. split; [destruct v; apply lengths_refl|]. split; [destruct v; reflexivity|].
    split; [|intros _; destruct v; apply ext_refl]. destruct v as [|n|s n]; cbn [fst snd ret1]; vals. exact V.
  - apply (bin_known e1 e2 (XZip e1 e2)); auto; [intros Q; apply orb_false_iff in Q; exact Q|].
    intros v w st1 G1 Vv Vw. destruct (zip (arrays st1) v w) as [h r] eqn:Z. destruct (zip_valid _ _ _ _ _ Vv Vw Z) as [E V].
    cbn [ret fst snd arrays avars]. split; [apply ext_lengths, E|auto].
  - apply (un_known e (XReduce e)); auto. intros v st1 G1 V. cbn [ret1 fst snd].
    split; [apply lengths_refl|]. split; [auto|]. split; [apply reduce_valid, V|intros _; apply ext_refl].
  - apply (un_known e (XReduceFirst e)); auto. intros v st1 G1 V. cbn [ret1 fst snd].
    split; [apply lengths_refl|]. split; [auto|]. split; [apply reduce_first_valid, V|intros _; apply ext_refl].
  - apply (un_known e (XSplit e)); auto. intros v st1 G1 V. cbn [ret1 fst snd].
    split; [apply lengths_refl|]. split; [auto|]. split; [apply split_valid, V|intros _; apply ext_refl].
  - apply (un_known e (XEach d e)); auto. intros v st1 G1 V. cbn [ret1 fst snd].
    split; [apply lengths_refl|]. split; [auto|]. split; [apply each_valid, V|intros _; apply ext_refl].
  - apply (bin_known e1 e2 (XFind e1 e2)); auto; [intros Q; apply orb_false_iff in Q; exact Q|].
    intros v w st1 G1 Vv Vw. destruct (find_in (arrays st1) v w) as [h r] eqn:Z. destruct (find_valid _ _ _ _ _ Vv Vw Z) as [E V].
    cbn [ret fst snd arrays avars]. split; [apply ext_lengths, E|auto].
  - apply (bin_known e1 e2 (XDecode e1 e2)); auto; [intros Q; apply orb_false_iff in Q; exact Q|].
    intros v w st1 G1 Vv Vw. cbn [ret1 fst snd].
    split; [apply lengths_refl|]. split; [auto|]. split; [apply decode_valid, Vw|intros _; apply ext_refl].
  - apply (bin_known e1 e2 (XOuter e1 e2)); auto; [discriminate|].
    intros v w st1 G1 Vv Vw. destruct (outer (go_append grow) (arrays st1) v w) as [h r] eqn:Z. destruct (outer_valid _ _ _ _ _ Vv Vw Z) as [E V].
    cbn [ret fst snd arrays avars appends]. split; [exact E|]. split; [auto|]. split; [exact V|discriminate].
  - apply (un_known e (XMix l e)); auto; [discriminate|].
    intros v st1 G1 Vv. destruct (mix (go_append grow) l (arrays st1) v) as [h r] eqn:Z. destruct (mix_valid _ _ _ _ _ Vv Z) as [E V].
    cbn [ret fst snd arrays avars appends]. split; [exact E|]. split; [auto|]. split; [exact V|discriminate].
Qed.
Lemma evals_valid : forall l st, valid st -> valid (evals (go_append grow) l st).
Proof. induction l; intros st V; [exact V|]. cbn [evals]. apply IHl. apply eval_known, V. Qed.
End Rest.

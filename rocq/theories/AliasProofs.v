From Coq Require Import List Arith Bool String Lia ZifyBool.
From Verif Require Import Value AliasModel AliasSpec.
Import ListNotations.
Open Scope list_scope.
Open Scope nat_scope.

Definition ext (h h' : heap) : Prop := length h <= length h' /\ forall i, i < length h -> nth i h' [] = nth i h [].
Lemma ext_refl h : ext h h. Proof. split; auto. Qed.
Lemma ext_trans a b c : ext a b -> ext b c -> ext a c.
Proof. intros [L E] [M F]. split; [lia|]. intros i I. rewrite F by lia. apply E, I. Qed.
Lemma contents_ext h h' s : ext h h' -> good_slice h s -> contents h' s = contents h s.
Proof. intros [_ E] [A _]. unfold contents. rewrite E by exact A. reflexivity. Qed.
Lemma slice_ext h h' s : ext h h' -> good_slice h s -> good_slice h' s.
Proof. intros [L E] (A & B & C). repeat split; [lia|exact B|]. rewrite E by exact A. exact C. Qed.
Lemma value_ext h h' v : ext h h' -> good_value h v -> good_value h' v.
Proof.
  intros E. destruct v; cbn; auto. intros (A & B & C). repeat split; eauto using slice_ext.
  - apply (slice_ext _ _ _ E A).
  - apply (slice_ext _ _ _ E A).
  - apply (slice_ext _ _ _ E A).
  - rewrite (contents_ext _ _ _ E A). exact C.
Qed.
Lemma view_ext h h' v : ext h h' -> good_value h v -> view h' v = view h v.
Proof. intros E. destruct v; cbn; auto. intros (A & _). f_equal. apply contents_ext; auto. Qed.
Lemma dims_view h v : dims h v = pdims (view h v).
Proof. destruct v; reflexivity. Qed.
Lemma dims_ext h h' v : ext h h' -> good_value h v -> dims h' v = dims h v.
Proof. intros E. destruct v; cbn; auto. intros (A & _). apply contents_ext; auto. Qed.
Lemma contents_len h s : good_slice h s -> length (contents h s) = len s.
Proof. intros (A & B & C). unfold contents. rewrite firstn_length, skipn_length. lia. Qed.
Lemma contents_front h s k : k <= len s -> contents h (front s k) = firstn k (contents h s).
Proof. intros K. unfold contents. cbn. rewrite firstn_firstn. f_equal. lia. Qed.
Lemma skip_skip {A} : forall (a b : nat) (l : list A), skipn a (skipn b l) = skipn (b + a) l.
Proof. intros a b. induction b; intros l; [reflexivity|]. destruct l; cbn; [apply skipn_nil|apply IHb]. Qed.
Lemma contents_back h s k : contents h (back s k) = skipn k (contents h s).
Proof.
  unfold contents. cbn. rewrite skipn_firstn_comm. rewrite skip_skip. reflexivity.
Qed.
Lemma front_good h s k : k <= len s -> good_slice h s -> good_slice h (front s k).
Proof. intros K (A & B & C). repeat split; cbn; lia. Qed.
Lemma back_good h s k : k <= len s -> good_slice h s -> good_slice h (back s k).
Proof. intros K (A & B & C). repeat split; cbn; lia. Qed.

Lemma alloc_spec h l n h' s : alloc h l n = (h', s) -> ext h h' /\ good_slice h' s /\ contents h' s = l /\ len s = length l /\ cap s = length l + n.
Proof.
  intros [= <- <-]. unfold contents, good_slice, ext. cbn. rewrite app_length. cbn.
  rewrite app_nth2 by lia. rewrite Nat.sub_diag. cbn. rewrite app_length, repeat_length.
  assert (firstn (length l) (l ++ repeat 0 n) = l).
  { rewrite firstn_app, Nat.sub_diag, firstn_all. cbn. apply app_nil_r. }
  repeat split; try lia; auto. intros i I. apply app_nth1, I.
Qed.
Lemma fresh_spec h l n h' v : fresh h l n = (h', v) -> ext h h' /\ good_value h' v /\ view h' v = of_dims l.
Proof.
  unfold fresh. destruct l as [|a [|b l]].
  - intros [= <- <-]. split; [apply ext_refl|]. cbn. auto.
  - intros [= <- <-]. split; [apply ext_refl|]. cbn. auto.
  - destruct (alloc h (a :: b :: l) n) as [k s] eqn:A. intros [= <- <-]. apply alloc_spec in A.
    destruct A as (E & G & C & L & _). cbn [good_value view of_dims]. rewrite C, L. repeat split; try apply E; try apply G.
    cbn. lia.
Qed.
Lemma fresh_full h l h' v : fresh h l 0 = (h', v) -> match v with AMat s _ => cap s = len s | _ => True end.
Proof.
  unfold fresh. destruct l as [|a [|b l]]; try (intros [= <- <-]; exact Logic.I).
  destruct (alloc h (a :: b :: l) 0) as [k s] eqn:A. intros [= <- <-]. apply alloc_spec in A. lia.
Qed.
Lemma as_matrix_spec h v h' s n : good_value h v -> as_matrix h v = (h', s, n) ->
  ext h h' /\ good_slice h' s /\ contents h' s = up (view h v) /\ vol (contents h' s) = n /\ len s = length (up (view h v)).
Proof.
  intros G. unfold as_matrix. destruct v as [|k|t k].
  - destruct (alloc h [1] 0) as [h1 s1] eqn:A. intros [= <- <- <-]. apply alloc_spec in A. destruct A as (E & F & C & L & _).
    rewrite C. split; [exact E|]. split; [exact F|]. cbn. auto.
  - destruct (alloc h [k] 0) as [h1 s1] eqn:A. intros [= <- <- <-]. apply alloc_spec in A. destruct A as (E & F & C & L & _).
    rewrite C. split; [exact E|]. split; [exact F|]. cbn. rewrite Nat.mul_1_r. auto.
  - intros [= <- <- <-]. destruct G as (A & B & C). split; [apply ext_refl|]. split; [exact A|].
    cbn [view up pdims]. rewrite (contents_len _ _ A). auto.
Qed.
Lemma as_matrix_full h v h' s n : as_matrix h v = (h', s, n) -> match v with AMat s _ => cap s = len s | _ => True end -> cap s = len s.
Proof.
  unfold as_matrix. destruct v as [|k|t k].
  - destruct (alloc h [1] 0) as [h1 s1] eqn:A. intros [= <- <- <-]. apply alloc_spec in A. cbn in A. lia.
  - destruct (alloc h [k] 0) as [h1 s1] eqn:A. intros [= <- <- <-]. apply alloc_spec in A. cbn in A. lia.
  - intros [= <- <- <-]. auto.
Qed.
Lemma new_matrix_ok h s n : vol (contents h s) = n -> new_matrix h s n = Some (AMat s n).
Proof. intros <-. unfold new_matrix. rewrite Nat.eqb_refl. reflexivity. Qed.
Lemma keep_spec h s : good_slice h s -> 1 <= len s ->
  exists v, keep h s = Some v /\ good_value h v /\ view h v = of_dims (contents h s).
Proof.
  intros G L. pose proof (contents_len _ _ G) as Q. unfold keep. destruct (contents h s) as [|a [|b l]] eqn:C.
  - cbn in Q. lia.
  - exists (AVec a). cbn. auto.
  - rewrite <- C, new_matrix_ok by reflexivity. eexists. split; [reflexivity|]. cbn [good_value view]. split; [auto|]. rewrite C. reflexivity.
Qed.

Lemma vol_app a b : vol (a ++ b) = vol a * vol b.
Proof. unfold vol. induction a as [|x a IH]; cbn [fold_right List.app]; [lia|]. rewrite IH. apply Nat.mul_assoc. Qed.
Lemma firstn_removelast {A} (l : list A) : firstn (length l - 1) l = removelast l.
Proof. rewrite removelast_firstn_len. f_equal. lia. Qed.
Lemma skipn_tl {A} (l : list A) : skipn 1 l = tl l.
Proof. destruct l; reflexivity. Qed.

(* appending without damage *)
Definition app_ok (h : heap) (s : slice) (l : list nat) (r : heap * slice) : Prop :=
  ext h (fst r) /\ good_slice (fst r) (snd r) /\ contents (fst r) (snd r) = contents h s ++ l /\ len (snd r) = len s + length l.
Lemma update_same : forall h i, update h i (nth i h []) = h.
Proof. induction h; intros [|i]; cbn; auto. rewrite IHh. reflexivity. Qed.
Lemma go_append_ok grow h s l : good_slice h s -> cap s = len s -> app_ok h s l (go_append grow h s l).
Proof.
  intros G T. unfold go_append, app_ok. destruct (len s + length l <=? cap s) eqn:C.
  - destruct l; [|cbn in C; lia]. cbn [fst snd]. unfold write. cbn [app length].
    rewrite Nat.add_0_r. rewrite Nat.add_0_r, firstn_skipn, update_same, app_nil_r. destruct s; cbn in *. 
    repeat split; auto; try apply G.
  - destruct (alloc h (contents h s ++ l) (grow (cap s) (len s + length l) - (len s + length l))) as [k t] eqn:A.
    apply alloc_spec in A. destruct A as (E & F & K & L & _). cbn [fst snd]. rewrite L, app_length, contents_len by exact G. auto.
Qed.
Lemma copy_append_ok h s l : good_slice h s -> app_ok h s l (copy_append h s l).
Proof.
  intros G. unfold copy_append, app_ok. destruct (alloc h (contents h s ++ l) 0) as [k t] eqn:A.
  apply alloc_spec in A. destruct A as (E & F & K & L & _). cbn [fst snd]. rewrite L, app_length, contents_len by exact G. auto.
Qed.


Lemma is_mat_view h v : is_mat v = pmat (view h v).
Proof. destruct v; reflexivity. Qed.
Lemma vlen_view h v : good_value h v -> vlen v = pcount (view h v).
Proof. destruct v; unfold pcount; cbn; auto; [lia|]. intros (_ & _ & C). auto. Qed.

Definition ok_res (h : heap) (r : option aval) (p : option pval) : Prop :=
  (forall v, r = Some v -> good_value h v) /\ option_map (view h) r = p.
Lemma keep_res h s l : good_slice h s -> 1 <= len s -> contents h s = l -> ok_res h (keep h s) (Some (of_dims l)).
Proof.
  intros G L <-. destruct (keep_spec _ _ G L) as (v & K & A & B). rewrite K. split.
  - intros w [= <-]. exact A.
  - cbn [option_map]. rewrite B. reflexivity.
Qed.
Lemma ok_none h : ok_res h None None. Proof. split; [discriminate|reflexivity]. Qed.
Lemma ok_simple h v l : match v with AMat _ _ => False | _ => True end -> view h v = l -> ok_res h (Some v) (Some l).
Proof. intros S <-. split; [|reflexivity]. intros w [= <-]. destruct v; cbn; auto. contradiction. Qed.
Lemma mat_res h s n l : good_slice h s -> 1 <= len s -> contents h s = l -> vol l = n -> ok_res h (new_matrix h s n) (Some (PMat l)).
Proof.
  intros G L <- V. rewrite new_matrix_ok by exact V. split; [|reflexivity]. intros w [= <-]. cbn [good_value]. auto.
Qed.

Lemma reduce_ok h v : good_value h v -> ok_res h (reduce h v) (p_reduce (view h v)).
Proof.
  intros G. destruct v as [|[|n]|s n]; try (apply ok_simple; [exact Logic.I|reflexivity]).
  destruct G as (A & B & C). pose proof (contents_len _ _ A) as L. cbn [reduce view p_reduce]. rewrite L. unfold guarded.
  replace (2 <=? len s) with (negb (len s <? 2)) by lia. destruct (len s <? 2) eqn:T; cbn [negb andb orb]; [apply ok_none|].
  destruct (last_dim (contents h s) =? 0); cbn [negb]; [apply ok_none|].
  apply keep_res; [apply front_good; auto; lia|cbn; lia|]. rewrite contents_front, <- L by lia. apply firstn_removelast.
Qed.
Lemma reduce_first_ok h v : good_value h v -> ok_res h (reduce_first h v) (p_reduce_first (view h v)).
Proof.
  intros G. destruct v as [|n|s n]; [apply (reduce_ok h AScal); auto|apply (reduce_ok h (AVec n)); auto|].
  destruct G as (A & B & C). pose proof (contents_len _ _ A) as L. cbn [reduce_first view p_reduce_first]. rewrite L. unfold guarded.
  rewrite contents_back, skipn_tl.
  replace (2 <=? len s) with (negb (len s <? 2)) by lia. destruct (len s <? 2) eqn:T; cbn [negb andb orb]; [apply ok_none|].
  destruct (hd 0 (contents h s) =? 0); cbn [orb negb andb]; [apply ok_none|].
  destruct (vol (tl (contents h s)) =? 0); cbn [negb]; [apply ok_none|].
  apply keep_res; [apply back_good; auto; lia|cbn; lia|]. rewrite contents_back. apply skipn_tl.
Qed.
Lemma split_ok h v : good_value h v -> ok_res h (split h v) (p_split (view h v)).
Proof.
  intros G. destruct v as [|n|s n]; [apply ok_simple; [exact Logic.I|reflexivity]|apply ok_none|].
  destruct G as (A & B & C). pose proof (contents_len _ _ A) as L. cbn [split view p_split]. rewrite L. unfold guarded.
  replace (2 <=? len s) with (negb (len s <? 2)) by lia. destruct (len s <? 2) eqn:T; cbn [negb]; [apply ok_none|].
  apply keep_res; [apply front_good; auto; lia|cbn; lia|]. rewrite contents_front, <- L by lia. apply firstn_removelast.
Qed.
Lemma each_ok d h v : good_value h v -> ok_res h (each d h v) (p_each d (view h v)).
Proof.
  intros G. destruct v as [|n|s n].
  - cbn [each view up]. destruct d as [|d]; [apply ok_none|]. unfold p_each. cbn [up firstn]. rewrite firstn_nil.
    apply ok_simple; [exact Logic.I|reflexivity].
  - cbn [each view up]. destruct d as [|d]; [apply ok_none|]. unfold p_each. cbn [up pdims firstn vol fold_right]. rewrite firstn_nil, Nat.mul_1_r.
    apply ok_simple; [exact Logic.I|]. cbn [view]. f_equal. destruct (n =? 0) eqn:Z; lia.
  - destruct G as (A & B & C). pose proof (contents_len _ _ A) as L. cbn [each view]. cbn zeta. unfold p_each. cbn [up pdims].
    set (k := Nat.min d (len s)).
    assert (F : firstn d (contents h s) = firstn k (contents h s)).
    { subst k. rewrite <- L.
      destruct (Nat.min_spec d (length (contents h s))) as [[H M]|[H M]]; rewrite M; auto.
      rewrite !firstn_all2; auto. }
    assert (K : k <= len s) by (unfold k; lia).
    assert (R : length (firstn k (contents h s)) = k) by (rewrite firstn_length; lia).
    rewrite F, C, contents_front by exact K. clearbody k. clear F.
    destruct (firstn k (contents h s)) as [|x [|y r]] eqn:Q; cbn [length] in R.
    + subst k. apply ok_none.
    + subst k. cbn [Nat.eqb]. apply ok_simple; [exact Logic.I|]. cbn [view vol fold_right]. rewrite Nat.mul_1_r. reflexivity.
    + replace (k =? 0) with false by lia. replace (k =? 1) with false by lia. rewrite <- Q.
      assert (NM : forall m, vol (firstn k (contents h s)) = m -> ok_res h (new_matrix h (front s k) m) (Some (PMat (firstn k (contents h s))))).
      { intros m V. apply mat_res; [apply front_good; auto|cbn; lia|apply contents_front, K|exact V]. }
      unfold guarded. destruct (n =? 0) eqn:Z; cbn [negb orb].
      * destruct (vol (firstn k (contents h s)) =? 0) eqn:V; [apply NM; lia|].
        unfold new_matrix. rewrite contents_front, V by exact K. apply ok_none.
      * apply NM. reflexivity.
Qed.

Lemma find_ok h a b h' r : good_value h a -> good_value h b -> find_in h a b = (h', r) ->
  ext h h' /\ ok_res h' r (p_find (view h a) (view h b)).
Proof.
  intros Ga Gb. unfold find_in, p_find. rewrite (is_mat_view h a), (is_mat_view h b).
  destruct (pmat (view h a) || pmat (view h b)) eqn:RK.
  - destruct (as_matrix h a) as [[h1 u] m] eqn:A. destruct (as_matrix h1 b) as [[h2 v] n] eqn:B.
    pose proof (as_matrix_spec _ _ _ _ _ Ga A) as (E1 & G1 & C1 & _ & L1).
    pose proof (as_matrix_spec _ _ _ _ _ (value_ext _ _ _ E1 Gb) B) as (E2 & G2 & C2 & _ & L2).
    rewrite (view_ext _ _ _ E1 Gb) in C2, L2. rewrite (contents_ext _ _ _ E2 G1), C1, C2, L1, L2. cbn zeta.
    rewrite skipn_tl.
    assert (E : ext h h2) by (eapply ext_trans; eauto).
    destruct ((length (up (view h b)) <? length (up (view h a)) - 1) || _ || _) eqn:T; intros Q.
    + injection Q as <- <-. split; [exact E|apply ok_none].
    + destruct (length (up (view h b)) - (length (up (view h a)) - 1)) as [|k] eqn:K; cbn [Nat.eqb] in Q; injection Q as <- <-; (split; [exact E|]).
      * cbn [firstn]. apply ok_simple; [exact Logic.I|reflexivity].
      * destruct (up (view h b)) as [|y l] eqn:Y; [cbn in K; discriminate|]. cbn [firstn].
        apply keep_res; [apply front_good; auto; lia|cbn; lia|]. rewrite contents_front, C2 by lia. reflexivity.
  - intros [= <- <-]. split; [apply ext_refl|]. apply ok_simple; [exact Logic.I|]. cbn [view]. rewrite (vlen_view _ _ Gb). reflexivity.
Qed.
Lemma decode_ok h a b : good_value h a -> good_value h b -> ok_res h (decode h a b) (p_decode (view h a) (view h b)).
Proof.
  intros Ga Gb. pose proof (vlen_view _ _ Ga) as V. pose proof (vlen_view _ _ Gb) as W.
  destruct b as [|n|s n].
  - destruct a; try apply ok_none; unfold decode, p_decode; cbn [view] in *; rewrite ?V, ?W; unfold guarded;
      match goal with |- context [if ?c then _ else _] => destruct c end; first [apply ok_none|apply ok_simple; [exact Logic.I|reflexivity]].
  - destruct a; try apply ok_none; unfold decode, p_decode; cbn [view] in *; rewrite ?V, ?W; unfold guarded;
      match goal with |- context [if ?c then _ else _] => destruct c end; first [apply ok_none|apply ok_simple; [exact Logic.I|reflexivity]].
  - destruct Gb as (A & B & C). pose proof (contents_len _ _ A) as L.
    assert (X : is_mat a = false -> ok_res h (if (negb (vlen a =? 1) && negb (hd 0 (contents h s) =? 1) && negb (vlen a =? hd 0 (contents h s))) || (hd 0 (contents h s) =? 0) then None else keep h (back s 1))
      (match contents h s with d :: ((_ :: _) as l) => guarded (((pcount (view h a) =? 1) || (d =? 1) || (pcount (view h a) =? d)) && negb (d =? 0)) (of_dims l) | _ => None end)).
    { intros _. rewrite <- V. destruct (contents h s) as [|d [|e r]] eqn:Q; [cbn in L; lia| |].
      - assert (K : keep h (back s 1) = None).
        { unfold keep. rewrite contents_back, Q. reflexivity. }
        rewrite K. destruct ((_ && _ && _) || _); apply ok_none.
      - cbn [hd tl]. unfold guarded. cbn in L.
        destruct (vlen a =? 1), (d =? 1), (vlen a =? d), (d =? 0); cbn [negb andb orb]; try apply ok_none;
          (apply keep_res; [apply back_good; auto; lia|cbn; lia|]; rewrite contents_back, Q; reflexivity). }
    destruct a; [apply (X eq_refl)|apply (X eq_refl)|apply ok_none].
Qed.
Lemma zip_ok h a b h' r : good_value h a -> good_value h b -> zip h a b = (h', r) ->
  ext h h' /\ ok_res h' r (p_zip (view h a) (view h b)).
Proof.
  intros Ga Gb. unfold zip. destruct (is_mat a || is_mat b) eqn:RK.
  - destruct (as_matrix h a) as [[h1 u] m] eqn:A. destruct (as_matrix h1 b) as [[h2 v] n] eqn:B.
    pose proof (as_matrix_spec _ _ _ _ _ Ga A) as (E1 & G1 & C1 & V1 & L1).
    pose proof (as_matrix_spec _ _ _ _ _ (value_ext _ _ _ E1 Gb) B) as (E2 & G2 & C2 & V2 & L2).
    rewrite (view_ext _ _ _ E1 Gb) in C2, L2. rewrite (contents_ext _ _ _ E2 G1), C1, C2. cbn zeta.
    assert (E : ext h h2) by (eapply ext_trans; eauto).
    intros Q. injection Q as <- <-. split; [exact E|].
    assert (G1' : good_slice h2 u) by (apply (slice_ext _ _ _ E2 G1)).
    assert (C1' : contents h2 u = up (view h a)) by (rewrite (contents_ext _ _ _ E2 G1); exact C1).
    rewrite C1 in V1. rewrite C2 in V2.
    assert (P : p_zip (view h a) (view h b) =
         (let u := up (view h a) in let v := up (view h b) in
         if ones u then Some (PMat v) else if ones v then Some (PMat u)
         else if row_of u v then Some (PMat v) else if row_of v u then Some (PMat u)
         else guarded (eqb_list u v) (PMat u))).
    { destruct a, b; try discriminate; reflexivity. }
    assert (pos : forall x, good_value h x -> 1 <= length (up (view h x))).
    { intros [| |t k]; cbn; auto. intros (X & Y & _). rewrite contents_len by exact X. lia. }
    assert (RU : ok_res h2 (new_matrix h2 u m) (Some (PMat (up (view h a))))) by (apply mat_res; auto; rewrite L1; auto).
    assert (RV : ok_res h2 (new_matrix h2 v n) (Some (PMat (up (view h b))))) by (apply mat_res; auto; rewrite L2; auto).
    rewrite P. cbn zeta. unfold guarded.
    repeat match goal with |- context [if ?c then _ else _] => destruct c end; first [exact RU|exact RV|apply ok_none].
  - intros Q. pose proof (vlen_view _ _ Ga) as Va. pose proof (vlen_view _ _ Gb) as Vb.
    destruct a, b; try discriminate; injection Q as <- <-; (split; [apply ext_refl|]); try (apply ok_simple; [exact Logic.I|reflexivity]);
      unfold p_zip, pcount; cbn [view pdims vol fold_right vlen]; rewrite ?Nat.mul_1_r; try (apply (ok_simple h (AVec n)); [exact Logic.I|reflexivity]);
      match goal with |- context [zip_len ?x ?y] => destruct (zip_len x y) end; cbn [option_map]; first [apply ok_none|apply ok_simple; [exact Logic.I|reflexivity]].
Qed.

(* ---- the evaluator ---- *)
Section Safe.
Variable app : heap -> slice -> list nat -> heap * slice.
Variable T : slice -> Prop.
Hypothesis T_full : forall s, cap s = len s -> T s.
Hypothesis T_app : forall h s l, good_slice h s -> T s -> app_ok h s l (app h s l).
Definition tight (v : aval) : Prop := match v with AMat s _ => T s | _ => True end.
Lemma as_matrix_tight h v h' s n : as_matrix h v = (h', s, n) -> tight v -> T s.
Proof using T_full.
  intros A K. destruct v as [| |t k]; [apply T_full; exact (as_matrix_full _ _ _ _ _ A Logic.I)|apply T_full; exact (as_matrix_full _ _ _ _ _ A Logic.I)|].
  cbn in A. injection A as _ <- _. exact K.
Qed.
Lemma outer_ok h a b h' r : good_value h a -> good_value h b -> tight a -> outer app h a b = (h', r) ->
  ext h h' /\ ok_res h' r (p_outer (view h a) (view h b)).
Proof using T_full T_app.
  intros Ga Gb Ta. unfold outer, p_outer. destruct (is_mat a || is_mat b) eqn:RK.
  - destruct (as_matrix h a) as [[h1 u] m] eqn:A. destruct (as_matrix h1 b) as [[h2 v] n] eqn:B.
    pose proof (as_matrix_spec _ _ _ _ _ Ga A) as (E1 & G1 & C1 & V1 & L1).
    pose proof (as_matrix_spec _ _ _ _ _ (value_ext _ _ _ E1 Gb) B) as (E2 & G2 & C2 & V2 & L2).
    rewrite (view_ext _ _ _ E1 Gb) in C2, L2.
    pose proof (as_matrix_tight _ _ _ _ _ A Ta) as TS.
    pose proof (T_app h2 u (contents h2 v) (slice_ext _ _ _ E2 G1) TS) as (E3 & G3 & C3 & L3).
    destruct (app h2 u (contents h2 v)) as [h3 s]. cbn [fst snd] in *.
    intros [= <- <-]. split; [exact (ext_trans _ _ _ (ext_trans _ _ _ E1 E2) E3)|].
    rewrite (contents_ext _ _ _ E2 G1), C1, C2 in C3. rewrite C1 in V1. rewrite C2 in V2.
    apply mat_res; auto.
    + rewrite L3, L1. assert (1 <= length (up (view h a))); [|lia].
      destruct a as [| |t k]; cbn; auto. destruct Ga as (X & Y & _). rewrite contents_len by exact X. lia.
    + rewrite vol_app. lia.
  - destruct (fresh h [vlen a; vlen b] 0) as [h1 v] eqn:F. intros [= <- <-]. apply fresh_spec in F. destruct F as (E & G & D).
    split; [exact E|]. split.
    + intros w [= <-]. exact G.
    + cbn [option_map]. rewrite D. destruct a, b; try discriminate; reflexivity.
Qed.
Lemma mix_ok l h a h' r : good_value h a -> tight a -> mix app l h a = (h', r) -> ext h h' /\ ok_res h' r (p_mix l (view h a)).
Proof using T_full T_app.
  intros Ga Ta. unfold mix, p_mix. destruct (as_matrix h a) as [[h1 u] m] eqn:A.
  pose proof (as_matrix_spec _ _ _ _ _ Ga A) as (E1 & G1 & C1 & V1 & L1).
  pose proof (as_matrix_tight _ _ _ _ _ A Ta) as TS.
  pose proof (T_app h1 u l G1 TS) as (E3 & G3 & C3 & L3).
  destruct (app h1 u l) as [h3 s]. cbn [fst snd] in *. intros Q.
  assert (1 <= length (up (view h a))). { destruct a as [| |t k]; cbn; auto. destruct Ga as (X & Y & _). rewrite contents_len by exact X. lia. }
  destruct a as [|k|t k].
  - injection Q as <- <-. split; [apply ext_refl|apply ok_simple; [exact Logic.I|reflexivity]].
  - injection Q as <- <-. split; [exact (ext_trans _ _ _ E1 E3)|]. rewrite C1 in C3, V1.
    apply mat_res; auto; [lia|]. cbn [view pdims up] in *. rewrite vol_app. lia.
  - injection Q as <- <-. split; [exact (ext_trans _ _ _ E1 E3)|]. rewrite C1 in C3, V1.
    apply mat_res; auto; [lia|]. cbn [view pdims up] in *. rewrite vol_app. lia.
Qed.

Definition outcome (e : sx) (st : astate) (o : option aval * astate) : Prop :=
  ext (arrays st) (arrays (snd o)) /\ good (snd o) /\
  (forall v, fst o = Some v -> good_value (arrays (snd o)) v /\ (full e = true -> tight v)) /\
  peval e (shapes st) = (option_map (view (arrays (snd o))) (fst o), shapes (snd o)).

Lemma good_ext h h' vars : ext h h' -> good (mkA h vars) -> good (mkA h' vars) /\ shapes (mkA h' vars) = shapes (mkA h vars).
Proof using Type.
  intros E G. unfold good, shapes in *. cbn in *. split.
  - eapply Forall_impl; [|exact G]. intros p. apply value_ext, E.
  - apply map_ext_in. intros p I. rewrite Forall_forall in G. rewrite (view_ext _ _ _ E (G _ I)). reflexivity.
Qed.
Lemma lookup_shapes st x : plookup (shapes st) x = option_map (view (arrays st)) (lookup (avars st) x).
Proof using Type.
  unfold plookup, lookup, shapes. induction (avars st) as [|p l IH]; cbn; auto. destruct (String.eqb (fst p) x); auto.
Qed.
Lemma lookup_good st x v : good st -> lookup (avars st) x = Some v -> good_value (arrays st) v.
Proof using Type.
  unfold good, lookup. intros G L. destruct (find _ _) as [p|] eqn:F; [|discriminate]. injection L as <-.
  apply find_some in F. rewrite Forall_forall in G. apply G, F.
Qed.

Lemma un_ok a e st k (P : pval -> option pval) :
  outcome a st (eval app a st) ->
  (forall v st1, good st1 -> good_value (arrays st1) v -> (full a = true -> tight v) -> 
     ext (arrays st1) (arrays (snd (k v st1))) /\ avars (snd (k v st1)) = avars st1 /\
     ok_res (arrays (snd (k v st1))) (fst (k v st1)) (P (view (arrays st1) v)) /\
     (full e = true -> forall w, fst (k v st1) = Some w -> tight w)) ->
  (forall st, peval e st = match peval a st with (None, st1) => (None, st1) | (Some v, st1) => (P v, st1) end) ->
  outcome e st (match eval app a st with (None, st1) => (None, st1) | (Some v, st1) => k v st1 end).
Proof using Type.
  intros (E & G & GV & PE) K PP. destruct (eval app a st) as [[v|] st1]; cbn [fst snd] in *.
  - destruct (GV v eq_refl) as [Gv Tv]. destruct (K v st1 G Gv Tv) as (E2 & AV & (OK & VW) & TT).
    destruct (k v st1) as [r st2]. cbn [fst snd] in *. destruct st1 as [h1 vars1], st2 as [h2 vars2]. cbn in AV. subst vars2.
    destruct (good_ext _ _ _ E2 G) as [G2 S2].
    split; [apply (ext_trans _ _ _ E E2)|]. split; [exact G2|]. split; [intros w W; split; [auto|intros F; exact (TT F w W)]|].
    rewrite PP, PE. cbn [option_map fst snd]. cbn [arrays] in *. rewrite <- VW, S2. reflexivity.
  - repeat split; auto; try apply E; try discriminate. rewrite PP, PE. reflexivity.
Qed.
Lemma bin_ok a b e st k (P : pval -> pval -> option pval) :
  (good st -> outcome b st (eval app b st)) ->
  (forall st1, good st1 -> outcome a st1 (eval app a st1)) ->
  good st ->
  (forall v w st1, good st1 -> good_value (arrays st1) v -> good_value (arrays st1) w -> (full a = true -> tight v) -> 
     ext (arrays st1) (arrays (snd (k v w st1))) /\ avars (snd (k v w st1)) = avars st1 /\
     ok_res (arrays (snd (k v w st1))) (fst (k v w st1)) (P (view (arrays st1) v) (view (arrays st1) w)) /\
     (full e = true -> forall x, fst (k v w st1) = Some x -> tight x)) ->
  (forall st, peval e st = match peval b st with
    | (None, st1) => (None, st1)
    | (Some w, st1) => match peval a st1 with (None, st2) => (None, st2) | (Some v, st2) => (P v w, st2) end
    end) ->
  outcome e st (match eval app b st with
    | (None, st1) => (None, st1)
    | (Some w, st1) => match eval app a st1 with (None, st2) => (None, st2) | (Some v, st2) => k v w st2 end
    end).
Proof using Type.
  intros Hb Ha G0 K PP. destruct (Hb G0) as (E & G & GW & PE). destruct (eval app b st) as [[w|] st1]; cbn [fst snd] in *.
  - destruct (GW w eq_refl) as [Gw _]. destruct (Ha st1 G) as (E1 & G1 & GV & PE1).
    destruct (eval app a st1) as [[v|] st2]; cbn [fst snd] in *.
    + destruct (GV v eq_refl) as [Gv Tv].
      destruct (K v w st2 G1 Gv (value_ext _ _ _ E1 Gw) Tv) as (E2 & AV & (OK & VW) & TT).
      destruct (k v w st2) as [r st3]. cbn [fst snd] in *. destruct st2 as [h2 vars2], st3 as [h3 vars3]. cbn in AV. subst vars3.
      destruct (good_ext _ _ _ E2 G1) as [G3 S3].
      split; [apply (ext_trans _ _ _ (ext_trans _ _ _ E E1) E2)|]. split; [exact G3|]. split; [intros y W; split; [auto|intros F; exact (TT F y W)]|].
      rewrite PP, PE. cbn [option_map fst snd]. rewrite PE1. cbn [option_map fst snd].
      cbn [arrays] in *. rewrite (view_ext _ _ w E1 Gw) in VW. rewrite <- VW, S3. reflexivity.
    + repeat split; auto; try discriminate.
      * apply (ext_trans _ _ _ E E1).
      * apply (ext_trans _ _ _ E E1).
      * rewrite PP, PE. cbn [option_map fst snd]. rewrite PE1. reflexivity.
  - repeat split; auto; try apply E; try discriminate. rewrite PP, PE. reflexivity.
Qed.
Lemma fresh_tight h l h' v : fresh h l 0 = (h', v) -> tight v.
Proof using T_full. intros F. apply fresh_full in F. destruct v; cbn; auto. Qed.

Theorem eval_ok : forall e st, good st -> careful e = true \/ (forall s, T s) -> outcome e st (eval app e st).
Proof using T_full T_app.
  assert (tt' : forall e v, (forall s, T s) \/ full e = true -> (full e = true -> tight v) -> tight v).
  { intros e v [A|F] H; [destruct v; cbn; auto|auto]. }
  induction e; intros st G C; cbn [eval].
  - (* variable *) repeat split; auto; cbn [fst snd].
    + exact (lookup_good _ _ _ G H).
    + discriminate.
    + cbn [peval]. rewrite lookup_shapes. reflexivity.
  - (* assignment *) specialize (IHe st G C). destruct IHe as (E & G1 & GV & PE).
    destruct (eval app e st) as [[v|] st1]; cbn [fst snd] in *.
    + destruct (GV v eq_refl) as [Gv Tv]. repeat split; auto; cbn [fst snd arrays avars].
      * apply E.
      * apply E.
      * constructor; auto.
      * injection H as <-. exact Gv.
      * injection H as <-. exact Tv.
      * cbn [peval]. rewrite PE. reflexivity.
    + repeat split; auto; try apply E; try discriminate. cbn [peval]. rewrite PE. reflexivity.
  - (* new *) destruct (fresh (arrays st) l 0) as [h v] eqn:F. pose proof (fresh_tight _ _ _ _ F) as TV. apply fresh_spec in F. destruct F as (E & Gv & V).
    destruct st as [h0 vars]. destruct (good_ext _ _ _ E G) as [G2 S2]. repeat split; auto; cbn [fst snd arrays avars] in *.
    + apply E.
    + apply E.
    + injection H as <-. exact Gv.
    + injection H as <-. intros _. exact TV.
    + cbn [peval option_map]. rewrite V, S2. reflexivity.
  - (* op *)
    assert (C' : (careful e1 = true \/ (forall s, T s)) /\ (careful e2 = true \/ (forall s, T s))).
    { destruct C as [C|C]; [cbn in C; apply andb_true_iff in C; tauto|tauto]. }
    apply (bin_ok e1 e2 (XOp f e1 e2) st _ (fun v w => option_map of_dims (f (pdims v) (pdims w)))); auto; try (intros; apply IHe1; tauto); try (intros; apply IHe2; tauto).
    intros v w st1 G1 Gv Gw _. rewrite !dims_view. destruct (f _ _) as [l|]; cbn [option_map fst snd].
    + destruct (fresh (arrays st1) l 0) as [h r] eqn:F. pose proof (fresh_tight _ _ _ _ F) as TV. apply fresh_spec in F. destruct F as (E & Gr & V).
      cbn [fst snd arrays avars]. repeat split; auto; try apply E.
      * intros x [= <-]. exact Gr.
      * cbn [option_map]. rewrite V. reflexivity.
      * intros _ x [= <-]. exact TV.
    + repeat split; auto; try discriminate.
  - (* build *)
    assert (C' : (careful e1 = true \/ (forall s, T s)) /\ (careful e2 = true \/ (forall s, T s))).
    { destruct C as [C|C]; [cbn in C; apply andb_true_iff in C; tauto|tauto]. }
    apply (bin_ok e1 e2 (XBuild f spare e1 e2) st _ (fun v w => option_map of_dims (f (pdims v) (pdims w)))); auto; try (intros; apply IHe1; tauto); try (intros; apply IHe2; tauto).
    intros v w st1 G1 Gv Gw _. rewrite !dims_view. destruct (f _ _) as [l|]; cbn [option_map fst snd].
    + destruct (fresh (arrays st1) l spare) as [h r] eqn:F. apply fresh_spec in F. destruct F as (E & Gr & V).
      cbn [fst snd arrays avars]. repeat split; auto; try apply E.
      * intros x [= <-]. exact Gr.
      * cbn [option_map]. rewrite V. reflexivity.
      * discriminate.
    + repeat split; auto; try discriminate.
  - (* map *)
    apply (un_ok e (XMap e) st _ (fun v => Some v)); auto.
    intros v st1 G1 Gv Tv. destruct v as [|n|s n]; cbn [fst snd ret1].
    + repeat split; auto; try discriminate. intros w [= <-]. exact Logic.I. intros _ w [= <-]. exact Logic.I.
    + repeat split; auto; try discriminate. intros w [= <-]. exact Logic.I. intros _ w [= <-]. exact Logic.I.
    + destruct Gv as (A & B & V). rewrite new_matrix_ok by exact V. cbn [full].
      cbn [fst snd ret1]. split; [apply ext_refl|]. split; [reflexivity|]. split; [split; [|reflexivity]|].
      * intros w [= <-]. cbn [good_value]. auto.
      * intros F w [= <-]. exact (Tv F).
  - (* zip *)
    assert (C' : (careful e1 = true \/ (forall s, T s)) /\ (careful e2 = true \/ (forall s, T s))).
    { destruct C as [C|C]; [cbn in C; apply andb_true_iff in C; tauto|tauto]. }
    apply (bin_ok e1 e2 (XZip e1 e2) st _ p_zip); auto; try (intros; apply IHe1; tauto); try (intros; apply IHe2; tauto).
    intros v w st1 G1 Gv Gw _. destruct (zip (arrays st1) v w) as [h r] eqn:Z. destruct (zip_ok _ _ _ _ _ Gv Gw Z) as [E O].
    cbn [ret fst snd arrays avars]. repeat split; auto; try apply E; try apply O; try discriminate.
  - apply (un_ok e (XReduce e) st _ p_reduce); auto. intros v st1 G1 Gv _. cbn [ret1 fst snd].
    repeat split; auto; try discriminate; try apply (reduce_ok _ _ Gv).
  - apply (un_ok e (XReduceFirst e) st _ p_reduce_first); auto. intros v st1 G1 Gv _. cbn [ret1 fst snd].
    repeat split; auto; try discriminate; try apply (reduce_first_ok _ _ Gv).
  - apply (un_ok e (XSplit e) st _ p_split); auto. intros v st1 G1 Gv _. cbn [ret1 fst snd].
    repeat split; auto; try discriminate; try apply (split_ok _ _ Gv).
  - apply (un_ok e (XEach d e) st _ (p_each d)); auto. intros v st1 G1 Gv _. cbn [ret1 fst snd].
    repeat split; auto; try discriminate; try apply (each_ok d _ _ Gv).
  - (* find *)
    assert (C' : (careful e1 = true \/ (forall s, T s)) /\ (careful e2 = true \/ (forall s, T s))).
    { destruct C as [C|C]; [cbn in C; apply andb_true_iff in C; tauto|tauto]. }
    apply (bin_ok e1 e2 (XFind e1 e2) st _ p_find); auto; try (intros; apply IHe1; tauto); try (intros; apply IHe2; tauto).
    intros v w st1 G1 Gv Gw _. destruct (find_in (arrays st1) v w) as [h r] eqn:Z. destruct (find_ok _ _ _ _ _ Gv Gw Z) as [E O].
    cbn [ret fst snd arrays avars]. repeat split; auto; try apply E; try apply O; try discriminate.
  - (* decode *)
    assert (C' : (careful e1 = true \/ (forall s, T s)) /\ (careful e2 = true \/ (forall s, T s))).
    { destruct C as [C|C]; [cbn in C; apply andb_true_iff in C; tauto|tauto]. }
    apply (bin_ok e1 e2 (XDecode e1 e2) st _ p_decode); auto; try (intros; apply IHe1; tauto); try (intros; apply IHe2; tauto).
    intros v w st1 G1 Gv Gw _. cbn [ret1 fst snd]. repeat split; auto; try discriminate; try apply (decode_ok _ _ _ Gv Gw).
  - (* outer *)
    assert (C' : (careful e1 = true \/ (forall s, T s)) /\ (careful e2 = true \/ (forall s, T s)) /\ ((forall s, T s) \/ full e1 = true)).
    { destruct C as [C|C]; [cbn in C; apply andb_true_iff in C; destruct C as [C C2]; apply andb_true_iff in C; tauto|tauto]. }
    apply (bin_ok e1 e2 (XOuter e1 e2) st _ p_outer); auto; try (intros; apply IHe1; tauto); try (intros; apply IHe2; tauto).
    intros v w st1 G1 Gv Gw Tv. destruct (outer app (arrays st1) v w) as [h r] eqn:Z.
    destruct (outer_ok _ _ _ _ _ Gv Gw (tt' _ _ (proj2 (proj2 C')) Tv) Z) as [E O].
    cbn [ret fst snd arrays avars]. repeat split; auto; try apply E; try apply O; try discriminate.
  - (* mix *)
    assert (C' : (careful e = true \/ (forall s, T s)) /\ ((forall s, T s) \/ full e = true)).
    { destruct C as [C|C]; [cbn in C; apply andb_true_iff in C; tauto|tauto]. }
    apply (un_ok e (XMix l e) st _ (p_mix l)); auto; try (apply IHe; tauto).
    intros v st1 G1 Gv Tv. destruct (mix app l (arrays st1) v) as [h r] eqn:Z.
    destruct (mix_ok _ _ _ _ _ Gv (tt' _ _ (proj2 C') Tv) Z) as [E O].
    cbn [ret fst snd arrays avars]. repeat split; auto; try apply E; try apply O; try discriminate.
Qed.
End Safe.

Lemma peval_keeps : forall e st x, ~ In x (assigns e) -> plookup (snd (peval e st)) x = plookup st x.
Proof.
  assert (bin : forall a b st x (P : pval -> pval -> option pval),
    (forall st, plookup (snd (peval a st)) x = plookup st x) -> (forall st, plookup (snd (peval b st)) x = plookup st x) ->
    plookup (snd (match peval b st with
    | (None, st1) => (None, st1)
    | (Some w, st1) => match peval a st1 with (None, st2) => (None, st2) | (Some v, st2) => (P v w, st2) end
    end)) x = plookup st x).
  { intros a b st x P A B. specialize (B st). destruct (peval b st) as [[w|] s1]; cbn [snd] in *; auto. rewrite <- B.
    specialize (A s1). destruct (peval a s1) as [[v|] s2]; cbn [snd] in *; auto. }
  assert (un : forall a st x (P : pval -> option pval),
    (forall st, plookup (snd (peval a st)) x = plookup st x) ->
    plookup (snd (match peval a st with (None, st1) => (None, st1) | (Some v, st1) => (P v, st1) end)) x = plookup st x).
  { intros a st x P A. specialize (A st). destruct (peval a st) as [[v|] s2]; cbn [snd] in *; auto. }
  induction e; intros st y N; cbn [peval assigns] in *; auto;
    try (apply un; intros; apply IHe; exact N);
    try (apply bin; intros; [apply IHe1|apply IHe2]; intros I; apply N, in_or_app; tauto).
  specialize (IHe st y). destruct (peval e st) as [[v|] s1]; cbn [snd] in *; [|apply IHe; intros I; apply N; right; exact I].
  rewrite <- IHe by (intros I; apply N; right; exact I). unfold plookup. cbn [find fst].
  destruct (String.eqb_spec x y) as [Q|Q]; [|reflexivity]. exfalso. apply N. left. exact Q.
Qed.
Lemma shape_view st x : shape_of st x = option_map pdims (plookup (shapes st) x).
Proof.
  unfold shape_of. rewrite lookup_shapes. destruct (lookup (avars st) x); cbn; [rewrite dims_view|]; reflexivity.
Qed.

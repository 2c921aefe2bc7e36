(* Proofs about ParModel.v. *)
From Verif Require Import Value ArrBase EvalModel EvalSpec EvalProofs EvalReduce ParModel ParSpec.
Open Scope nat_scope.

(* ---- the ranges tile [0, n) ---- *)
Lemma seq_split a b c : a <= b -> b <= c -> seq a (b - a) ++ seq b (c - b) = seq a (c - a).
Proof. intros H1 H2. replace (c - a) with ((b - a) + (c - b)) by lia. rewrite seq_app. do 2 f_equal; lia. Qed.
Lemma tile_upto (f : nat -> nat) : (forall i, f i <= f (S i)) ->
  forall p, flat_map (fun r => seq (fst r) (snd r - fst r)) (map (fun i => (f i, f (S i))) (seq 0 p)) = seq (f 0) (f p - f 0).
Proof.
  intros Hf. assert (Mono : forall p, f 0 <= f p) by (induction p; [lia|specialize (Hf p); lia]).
  induction p as [|p IH]; [cbn; now rewrite Nat.sub_diag|].
  rewrite seq_S, map_app, flat_map_app, IH. cbn [plus map flat_map fst snd]. rewrite app_nil_r. apply seq_split; auto.
Qed.
Lemma div_mono i n p : p <> 0 -> i * n / p <= S i * n / p.
Proof. intros Hp. apply Nat.div_le_mono; auto. lia. Qed.
Lemma plan_tiles ok procs work size n : procs <> 0 -> work <> 0 ->
  flat_map (fun r => seq (fst r) (snd r - fst r)) (plan ok procs work size n) = seq 0 n.
Proof.
  intros Hp Hw. unfold plan. destruct (negb ok || (procs =? 1) || (n <=? 1) || (n * size <? work * 2)) eqn:E.
  - cbn. rewrite app_nil_r. f_equal. lia.
  - apply orb_false_iff in E as [E E4]. apply Nat.ltb_ge in E4.
    set (p := Nat.min (procs * 4) (n * size / work)).
    assert (Hq : p <> 0).
    { unfold p. assert (2 <= n * size / work) by (apply Nat.div_le_lower_bound; lia). lia. }
    cbn beta zeta.
    assert (Em : map (fun i => (i * n / p, (i + 1) * n / p)) (seq 0 p) = map (fun i => (i * n / p, S i * n / p)) (seq 0 p))
      by (apply map_ext; intros i; now rewrite Nat.add_1_r).
    rewrite Em. etransitivity; [apply (tile_upto (fun i => i * n / p)); intros; now apply div_mono|].
    cbn beta. rewrite Nat.mul_0_l, Nat.div_0_l by easy. rewrite Nat.mul_comm, Nat.div_mul by easy. f_equal. lia.
Qed.
Lemma plan_each ok procs work size n body : procs <> 0 -> work <> 0 ->
  concat (map (each_k body) (plan ok procs work size n)) = flat_map body (seq 0 n).
Proof.
  intros Hp Hw. rewrite <-(plan_tiles ok procs work size n Hp Hw). unfold each_k.
  induction (plan ok procs work size n) as [|r l IH]; [reflexivity|]. cbn [map concat flat_map]. now rewrite flat_map_app, IH.
Qed.

(* ---- local programs ---- *)
Definition local (O : nat -> Prop) (l : list action) : Prop :=
  forall a, In a l -> (forall m m', (forall x, O x -> m x = m' x) -> a m = a m') /\
                      (forall m x v, a m = Ok (x, v) -> O x).
Lemma local_cons O a l : local O (a :: l) -> local O l.
Proof. intros H b Hb. apply H. now right. Qed.
Lemma local_app O l l' : local O (l ++ l') <-> local O l /\ local O l'.
Proof.
  split.
  - intros H. split; intros a Ha; apply H, in_or_app; auto.
  - intros [H H'] a Ha. apply in_app_or in Ha as [Ha|Ha]; auto.
Qed.
Lemma local_mono (O O' : nat -> Prop) l : (forall x, O x -> O' x) -> local O l -> local O' l.
Proof.
  intros HO H a Ha. destruct (H a Ha) as [H1 H2]. split; [|eauto]. intros m m' E. apply H1. auto.
Qed.
Lemma mset_agree (O : nat -> Prop) m m' k v : (forall x, O x -> m x = m' x) -> forall x, O x -> mset m k v x = mset m' k v x.
Proof. intros H x Hx. unfold mset. destruct (x =? k); auto. Qed.
Lemma mset_other m k v x : x <> k -> mset m k v x = m x.
Proof. intros H. unfold mset. now rewrite (proj2 (Nat.eqb_neq x k) H). Qed.

Definition rel (O : nat -> Prop) (r r' : res mem) : Prop :=
  match r, r' with
  | Ok m, Ok m' => forall x, O x -> m x = m' x
  | Err, Err | Crash, Crash | Unmod, Unmod => True
  | _, _ => False
  end.
Lemma in_order_rel O l : local O l -> forall m m', (forall x, O x -> m x = m' x) -> rel O (in_order l m) (in_order l m').
Proof.
  induction l as [|a l IH]; intros HL m m' E; [exact E|]. cbn [in_order].
  destruct (HL a (or_introl eq_refl)) as [H1 _]. rewrite (H1 m m' E). destruct (a m') as [[k v]| | |]; cbn; auto.
  apply IH; [now apply local_cons in HL|]. now apply mset_agree.
Qed.
Lemma in_order_out O l : local O l -> forall m m', in_order l m = Ok m' -> forall x, ~ O x -> m' x = m x.
Proof.
  induction l as [|a l IH]; intros HL m m' E x Hx; cbn [in_order] in E.
  - now injection E as <-.
  - destruct (a m) as [[k v]| | |] eqn:Ea; try easy.
    rewrite (IH (local_cons _ _ _ HL) _ _ E x Hx). apply mset_other. intros ->. apply Hx.
    eapply (HL a (or_introl eq_refl)); eauto.
Qed.
Lemma in_order_app l l' m : in_order (l ++ l') m = bind (in_order l m) (in_order l').
Proof. revert m. induction l as [|a l IH]; intros m; [reflexivity|]. cbn [app in_order]. destruct (a m) as [[k v]| | |]; auto. Qed.

(* ---- the sequential execution of local programs with disjoint cells ---- *)
Section Threads.
Variable O : nat -> nat -> Prop.
Variable progs : list (list action).
Variable m0 : mem.
Hypothesis Disj : forall i j x, O i x -> O j x -> i = j.
Hypothesis Loc : forall j l, nth_error progs j = Some l -> local (O j) l.

Definition union_upto (k : nat) (x : nat) : Prop := exists j, j < k /\ O j x.

(* After the first k programs, cells of each of them are as if it had run alone, others untouched. *)
Lemma seq_prefix k : k <= length progs ->
  match in_order (concat (firstn k progs)) m0 with
  | Ok m => (forall x, ~ union_upto k x -> m x = m0 x) /\
            (forall j l, j < k -> nth_error progs j = Some l ->
               exists mj, in_order l m0 = Ok mj /\ forall x, O j x -> m x = mj x)
  | r => exists j l, j < k /\ nth_error progs j = Some l /\ same_failure r (in_order l m0)
  end.
Proof.
  induction k as [|k IH]; intros Hk.
  { cbn. split; [auto|intros; lia]. }
  destruct (nth_error progs k) as [l|] eqn:El; [|apply nth_error_None in El; lia].
  specialize (IH ltac:(lia)).
  assert (Ef : firstn (S k) progs = firstn k progs ++ [l]).
  { clear -El. revert progs El. induction k as [|k IH]; intros [|p ps] El; try discriminate; cbn in *.
    - now injection El as ->.
    - f_equal. auto. }
  rewrite Ef, concat_app, in_order_app. cbn [concat]. rewrite app_nil_r.
  destruct (in_order (concat (firstn k progs)) m0) as [m| | |] eqn:Em; cbn [bind].
  2-4: destruct IH as (j & l' & Hj & H1 & H2); exists j, l'; split; [lia|auto].
  destruct IH as [IH1 IH2].
  assert (Ag : forall x, O k x -> m x = m0 x).
  { intros x Hx. apply IH1. intros (j & Hj & Hx'). assert (j = k) by eauto. lia. }
  pose proof (in_order_rel _ _ (Loc _ _ El) m m0 Ag) as R.
  destruct (in_order l m) as [m'| | |] eqn:Em', (in_order l m0) as [mk| | |] eqn:Emk; cbn in R; try easy.
  2-4: exists k, l; rewrite Emk; repeat split; auto; lia.
  split.
  - intros x Hx. rewrite (in_order_out _ _ (Loc _ _ El) _ _ Em').
    + apply IH1. intros (j & Hj & Hx'). apply Hx. exists j. split; [lia|auto].
    + intros Hx'. apply Hx. exists k. split; [lia|auto].
  - intros j l' Hj Hl'. assert (j < k \/ j = k) as [Hj'| ->] by lia.
    + destruct (IH2 j l' Hj' Hl') as (mj & H1 & H2). exists mj. split; auto.
      intros x Hx. rewrite (in_order_out _ _ (Loc _ _ El) _ _ Em'); auto.
      intros Hx'. assert (j = k) by eauto. lia.
    + rewrite El in Hl'. injection Hl' as <-. exists mk. auto.
Qed.

(* ---- the invariant of the parallel execution ---- *)
Definition thread_ok (m : mem) (j : nat) (t : thread) : Prop :=
  exists l, nth_error progs j = Some l /\
  match failed t with
  | None => exists done mi, l = done ++ todo t /\ in_order done m0 = Ok mi /\ forall x, O j x -> m x = mi x
  | Some p => todo t = [] /\ in_order l m0 = raise p
  end.
Definition inv (st : mem * list thread) : Prop :=
  length (snd st) = length progs /\
  (forall j t, nth_error (snd st) j = Some t -> thread_ok (fst st) j t) /\
  (forall x, ~ union_upto (length progs) x -> fst st x = m0 x).

Lemma set_nth_len {A} (l : list A) i x : length (set_nth l i x) = length l.
Proof. revert i. induction l as [|y l IH]; intros [|i]; cbn; auto. Qed.
Lemma set_nth_get {A} (l : list A) i x j : nth_error (set_nth l i x) j = if (i =? j) && (j <? length l) then Some x else nth_error l j.
Proof.
  revert i j. induction l as [|y l IH]; intros i j; cbn [set_nth].
  - destruct j, (i =? _); reflexivity.
  - destruct i as [|i], j as [|j]; cbn [nth_error length]; try reflexivity. rewrite IH. reflexivity.
Qed.

Lemma step_inv st i : inv st -> inv (step st i).
Proof.
  intros (HL & HT & HU). unfold step. destruct (nth_error (snd st) i) as [t|] eqn:Et; [|split; auto].
  destruct (HT i t Et) as (l & Hl & Ht). unfold thread_step.
  assert (Same : forall m' t', (forall j x, j <> i -> O j x -> m' x = fst st x) -> thread_ok m' i t' ->
            (forall x, ~ union_upto (length progs) x -> m' x = fst st x) -> inv (m', set_nth (snd st) i t')).
  { intros m' t' Hm Hi Ho. repeat split; cbn [fst snd].
    - now rewrite set_nth_len.
    - intros j u Hu. rewrite set_nth_get in Hu. destruct (Nat.eqb_spec i j) as [->|Hn]; cbn [andb] in Hu.
      + destruct (j <? length (snd st)) eqn:Ej; [now injection Hu as <-|].
        apply Nat.ltb_ge in Ej. rewrite (proj2 (nth_error_None _ _) Ej) in Hu. discriminate.
      + destruct (HT j u Hu) as (l' & Hl' & H'). exists l'. split; [auto|]. destruct (failed u); [auto|].
        destruct H' as (dn & mi & H1 & H2 & H3). exists dn, mi. repeat split; auto. intros x Hx. rewrite (Hm j); auto.
    - intros x Hx. rewrite Ho; auto. }
  destruct (todo t) as [|a rest] eqn:Ed; cbn [fst snd].
  { apply Same; auto. }
  destruct (failed t) as [p|] eqn:Ef; [destruct Ht; discriminate|].
  destruct Ht as (dn & mi & H1 & H2 & H3).
  assert (HLoc : local (O i) l) by eauto.
  assert (Ha : In a l) by (rewrite H1; apply in_or_app; right; now left).
  destruct (HLoc a Ha) as [La Lw]. pose proof (La _ _ H3) as Ea.
  destruct (a (fst st)) as [[k v]| | |] eqn:Ev; cbn [fst snd].
  - assert (Hk : O i k) by eauto. apply Same.
    + intros j x Hj Hx. apply mset_other. intros ->. apply Hj. eauto.
    + exists l. split; [auto|]. cbn [failed todo]. exists (dn ++ [a]), (mset mi k v). repeat split.
      * now rewrite <-app_assoc.
      * rewrite in_order_app, H2. cbn [bind in_order]. now rewrite <-Ea.
      * now apply mset_agree.
    + intros x Hx. apply mset_other. intros ->. apply Hx. exists i. split; [|auto].
      apply nth_error_Some. now rewrite Hl.
  - apply Same; auto. exists l. split; [auto|]. cbn. split; [auto|]. rewrite H1, in_order_app, H2. cbn [bind in_order]. now rewrite <-Ea.
  - apply Same; auto. exists l. split; [auto|]. cbn. split; [auto|]. rewrite H1, in_order_app, H2. cbn [bind in_order]. now rewrite <-Ea.
  - apply Same; auto. exists l. split; [auto|]. cbn. split; [auto|]. rewrite H1, in_order_app, H2. cbn [bind in_order]. now rewrite <-Ea.
Qed.
Lemma run_inv sch : forall st, inv st -> inv (run st sch).
Proof. induction sch as [|i sch IH]; intros st H; [auto|]. cbn. apply IH. now apply step_inv. Qed.
Lemma start_inv : inv (m0, map (fun l => mkThread l None) progs).
Proof.
  repeat split; cbn [fst snd].
  - apply map_length.
  - intros j t Ht. rewrite nth_error_map in Ht. destruct (nth_error progs j) as [l|] eqn:El; [|discriminate].
    injection Ht as <-. exists l. split; auto. cbn. exists [], m0. auto.
Qed.

Hypothesis Dec : forall x, { union_upto (length progs) x } + { ~ union_upto (length progs) x }.
(* The outcome of a finished execution. *)
Lemma finished_outcome st r : inv st -> finished st -> outcome st r ->
  match in_order (concat progs) m0 with
  | Ok m => exists m', r = Ok m' /\ forall x, m' x = m x
  | _ => exists j l, nth_error progs j = Some l /\ same_failure r (in_order l m0)
  end.
Proof.
  intros (HL & HT & HU) Fin Out. pose proof (seq_prefix (length progs) (Nat.le_refl _)) as P. rewrite firstn_all in P.
  destruct Out as [W|t p Hin Hp].
  - assert (All : forall j l, nth_error progs j = Some l -> exists mj, in_order l m0 = Ok mj /\ forall x, O j x -> fst st x = mj x).
    { intros j l Hl. assert (Hj : j < length (snd st)) by (rewrite HL; apply nth_error_Some; now rewrite Hl).
      destruct (nth_error (snd st) j) as [t|] eqn:Et; [|apply nth_error_None in Et; lia].
      destruct (HT j t Et) as (l' & Hl' & H). rewrite Hl in Hl'. injection Hl' as <-.
      pose proof (nth_error_In _ _ Et) as Hin. unfold finished in Fin. rewrite Forall_forall in Fin, W. rewrite (W t Hin) in H.
      destruct H as (dn & mi & H1 & H2 & H3). rewrite (Fin t Hin), app_nil_r in H1. subst dn. eauto. }
    destruct (in_order (concat progs) m0) as [m| | |].
    + destruct P as [P1 P2]. exists (fst st). split; [reflexivity|]. intros x. destruct (Dec x) as [(j & Hj & Hx)|Hx].
      * destruct (nth_error progs j) as [l|] eqn:El; [|apply nth_error_None in El; lia].
        destruct (P2 j l Hj El) as (mj & H1 & H2). destruct (All j l El) as (mj' & H1' & H2').
        rewrite H1 in H1'. injection H1' as <-. rewrite H2, H2'; auto.
      * rewrite P1, HU; auto.
    + destruct P as (j & l & Hj & Hl & H). destruct (All j l Hl) as (mj & E & _). now rewrite E in H.
    + destruct P as (j & l & Hj & Hl & H). destruct (All j l Hl) as (mj & E & _). now rewrite E in H.
    + destruct P as (j & l & Hj & Hl & H). destruct (All j l Hl) as (mj & E & _). now rewrite E in H.
  - apply In_nth_error in Hin as (j & Hj). destruct (HT j t Hj) as (l & Hl & H). rewrite Hp in H. destruct H as [_ H].
    assert (Hlt : j < length progs) by (apply nth_error_Some; now rewrite Hl).
    destruct (in_order (concat progs) m0) as [m| | |].
    + destruct P as [_ P2]. destruct (P2 j l Hlt Hl) as (mj & E & _). rewrite E in H. destruct p; discriminate.
    + exists j, l. split; auto. rewrite H. destruct p; exact I.
    + exists j, l. split; auto. rewrite H. destruct p; exact I.
    + exists j, l. split; auto. rewrite H. destruct p; exact I.
Qed.
End Threads.

(* ---- iterations ---- *)
Lemma nodup_concat {A} (ls : list (list A)) : NoDup (concat ls) ->
  forall i j a b x, nth_error ls i = Some a -> nth_error ls j = Some b -> In x a -> In x b -> i = j.
Proof.
  induction ls as [|l ls IH]; intros ND i j a b x Hi Hj Ha Hb; [destruct i; discriminate|].
  cbn [concat] in ND.
  assert (Hd : forall j b, nth_error ls j = Some b -> In x b -> In x l -> False).
  { clear IH Hi Hj Ha Hb a b i j. intros j b Hj Hb Hl. apply nth_error_In in Hj.
    assert (In x (concat ls)) by (apply in_concat; eauto). clear -ND H Hl.
    induction l as [|y l IH]; [easy|]. cbn in ND. inversion ND; subst. destruct Hl as [->|Hl]; [|auto].
    apply H2, in_or_app. now right. }
  assert (ND' : NoDup (concat ls)).
  { clear -ND. induction l as [|y l IH]; [exact ND|]. cbn in ND. inversion ND; subst. auto. }
  destruct i as [|i], j as [|j]; cbn in Hi, Hj; auto.
  - injection Hi as <-. exfalso; eauto.
  - injection Hj as <-. exfalso; eauto.
  - f_equal. eapply IH; eauto.
Qed.
Lemma flat_map_concat_map' {A B} (f : A -> list B) l : flat_map f l = concat (map f l).
Proof. induction l; cbn; congruence. Qed.
Lemma failure_trans {A B C} (a : res A) (b : res B) (c : res C) : same_failure a b -> same_failure b c -> same_failure a c.
Proof. destruct a, b, c; easy. Qed.

Section Pfor.
Variables (owner : nat -> nat) (n : nat) (body : nat -> list action) (m0 : mem).
Hypothesis Ind : independent owner n body.
Lemma iter_local k : k < n -> local (fun x => owner x = k) (body k).
Proof. intros Hk a Ha. exact (Ind k a Hk Ha). Qed.
Lemma range_local lo hi : hi <= n -> local (fun x => In (owner x) (seq lo (hi - lo))) (each_k body (lo, hi)).
Proof.
  intros Hh a Ha. unfold each_k in Ha. cbn [fst snd] in Ha. apply in_flat_map in Ha as (k & Hk & Ha).
  assert (k < n) by (apply in_seq in Hk; lia).
  refine (local_mono _ _ _ _ (iter_local k H) a Ha). intros x <-. auto.
Qed.
(* A range fails as one of its iterations does. *)
Lemma range_fails lo hi : hi <= n -> forall r : res mem, same_failure r (in_order (each_k body (lo, hi)) m0) ->
  exists k, k < n /\ same_failure r (in_order (body k) m0).
Proof.
  intros Hh r Hr. unfold each_k in Hr. cbn [fst snd] in Hr. rewrite flat_map_concat_map' in Hr.
  pose proof (seq_prefix (fun i x => owner x = lo + i) (map body (seq lo (hi - lo))) m0) as P.
  assert (G : forall k l, nth_error (map body (seq lo (hi - lo))) k = Some l -> l = body (lo + k) /\ k < hi - lo).
  { intros k l Hk. assert (k < hi - lo).
    { assert (k < length (map body (seq lo (hi - lo)))) by (apply nth_error_Some; now rewrite Hk).
      now rewrite map_length, seq_length in H. }
    rewrite nth_error_map, (nth_error_nth' _ 0), seq_nth in Hk by (rewrite ?seq_length; lia). cbn in Hk. split; congruence. }
  specialize (P ltac:(intros i j x H1 H2; cbn beta in H1, H2; lia)).
  specialize (P ltac:(intros j l Hl; destruct (G j l Hl) as [-> Hj]; apply iter_local; lia)).
  specialize (P _ (Nat.le_refl _)). rewrite firstn_all in P.
  destruct (in_order (concat (map body (seq lo (hi - lo)))) m0) as [m| | |].
  1: destruct r; easy.
  all: destruct P as (j & l & Hj & Hl & H); destruct (G j l Hl) as [-> Hj'];
       exists (lo + j); split; [lia|]; eapply failure_trans; eauto.
Qed.

Variable rs : list (nat * nat).
Hypothesis Tiles : flat_map (fun r => seq (fst r) (snd r - fst r)) rs = seq 0 n.
Lemma spawn_progs f : spawn f rs = map (fun l => mkThread l None) (map f rs).
Proof. unfold spawn. now rewrite map_map. Qed.

Lemma tile_bound j lo hi : nth_error rs j = Some (lo, hi) -> forall k, In k (seq lo (hi - lo)) -> k < n.
Proof.
  intros Hj k Hk. assert (In k (seq 0 n)).
  { rewrite <-Tiles. apply in_flat_map. exists (lo, hi). split; [now apply nth_error_In in Hj|auto]. }
  apply in_seq in H. lia.
Qed.
Lemma pfor_ok f schedule r : (forall p, In p rs -> f p = each_k body p) ->
  let st := run (m0, spawn f rs) schedule in
  finished st -> outcome st r -> as_if_sequential n body m0 r.
Proof.
  intros Hf st Fin Out.
  set (O := fun j x => exists a b, nth_error rs j = Some (a, b) /\ In (owner x) (seq a (b - a))).
  assert (Disj : forall i j x, O i x -> O j x -> i = j).
  { intros i j x (a & b & Hi & Hx) (a' & b' & Hj & Hx').
    eapply (nodup_concat (map (fun r => seq (fst r) (snd r - fst r)) rs)).
    - rewrite <-flat_map_concat_map', Tiles. apply seq_NoDup.
    - rewrite nth_error_map, Hi. reflexivity.
    - rewrite nth_error_map, Hj. reflexivity.
    - exact Hx.
    - exact Hx'. }
  assert (Clip : forall j lo hi, nth_error rs j = Some (lo, hi) -> hi <= n \/ seq lo (hi - lo) = []).
  { intros j lo hi Hj. destruct (le_lt_dec (hi - lo) 0) as [E|E].
    - right. now replace (hi - lo) with 0 by lia.
    - left. pose proof (tile_bound j lo hi Hj (hi - 1)) as B. rewrite in_seq in B. lia. }
  assert (Loc : forall j l, nth_error (map (each_k body) rs) j = Some l -> local (O j) l).
  { intros j l Hl. rewrite nth_error_map in Hl. destruct (nth_error rs j) as [[lo hi]|] eqn:Ej; [|discriminate].
    cbn [option_map] in Hl. assert (l = each_k body (lo, hi)) by congruence. subst l.
    destruct (Clip j lo hi Ej) as [Hh|E].
    - refine (local_mono _ _ _ _ (range_local lo hi Hh)). intros x Hx. exists lo, hi. auto.
    - unfold each_k. cbn [fst snd]. rewrite E. intros a []. }
  pose proof (finished_outcome O (map (each_k body) rs) m0 Disj Loc) as F.
  assert (Dec : forall x, {union_upto O (length (map (each_k body) rs)) x} + {~ union_upto O (length (map (each_k body) rs)) x}).
  { intros x. destruct (in_dec Nat.eq_dec (owner x) (seq 0 n)) as [H|H].
    - left. rewrite <-Tiles in H. apply in_flat_map in H as ([a b] & H & Hx). apply In_nth_error in H as (j & Hj).
      exists j. split; [rewrite map_length; apply nth_error_Some; now rewrite Hj|]. exists a, b. auto.
    - right. intros (j & Hj & a & b & Hab & Hx). apply H. rewrite <-Tiles. apply in_flat_map. exists (a, b).
      split; [now apply nth_error_In in Hab|auto]. }
  assert (Est : st = run (m0, map (fun l => mkThread l None) (map (each_k body) rs)) schedule).
  { unfold st. rewrite spawn_progs, (map_ext_in f (each_k body) rs Hf). reflexivity. }
  clearbody st. subst st.
  specialize (F Dec _ r (run_inv O _ m0 Disj Loc schedule _ (start_inv O _ m0)) Fin Out).
  unfold as_if_sequential.
  assert (Ec : concat (map (each_k body) rs) = flat_map body (seq 0 n)).
  { rewrite <-Tiles. clear. unfold each_k. induction rs as [|p l IH]; [reflexivity|]. cbn [map concat flat_map]. now rewrite flat_map_app, IH. }
  rewrite Ec in F. destruct (in_order (flat_map body (seq 0 n)) m0); [exact F| | |].
  all: destruct F as (j & l & Hl & H); rewrite nth_error_map in Hl;
       destruct (nth_error rs j) as [[lo hi]|] eqn:Ej; [|discriminate];
       cbn [option_map] in Hl; assert (l = each_k body (lo, hi)) by congruence; subst l;
       destruct (Clip j lo hi Ej) as [Hh|E]; [now apply (range_fails lo hi)|];
       unfold each_k in H; cbn [fst snd] in H; rewrite E in H; cbn in H; destruct r; easy.
Qed.
End Pfor.

(* ---- termination ---- *)
Lemma step_todo st i j t : nth_error (snd st) j = Some t ->
  exists t', nth_error (snd (step st i)) j = Some t' /\
    length (todo t') <= length (todo t) - (if i =? j then 1 else 0).
Proof.
  intros Hj. unfold step. destruct (nth_error (snd st) i) as [u|] eqn:Ei.
  - cbn [fst snd]. rewrite set_nth_get. destruct (Nat.eqb_spec i j) as [->|Hn]; cbn [andb].
    + rewrite Hj in Ei. injection Ei as <-.
      assert (j < length (snd st)) by (apply nth_error_Some; now rewrite Hj).
      rewrite (proj2 (Nat.ltb_lt _ _) H). eexists. split; [reflexivity|]. unfold thread_step.
      destruct (todo t) as [|a l] eqn:Ed; cbn [snd]; [rewrite Ed; cbn; lia|].
      destruct (a (fst st)) as [[k v]| | |]; cbn; lia.
    + exists t. split; [auto|lia].
  - exists t. split; [auto|]. destruct (Nat.eqb_spec i j) as [->|]; [congruence|lia].
Qed.
Lemma run_todo sch : forall st j t, nth_error (snd st) j = Some t ->
  exists t', nth_error (snd (run st sch)) j = Some t' /\ length (todo t') <= length (todo t) - count_occ Nat.eq_dec sch j.
Proof.
  induction sch as [|i sch IH]; intros st j t Hj.
  - exists t. split; auto. cbn [count_occ run fold_left]; lia.
  - destruct (step_todo st i j t Hj) as (t1 & H1 & L1). destruct (IH (step st i) j t1 H1) as (t2 & H2 & L2).
    exists t2. split; [exact H2|]. cbn [count_occ]. destruct (Nat.eq_dec i j) as [->|Hn].
    + rewrite Nat.eqb_refl in L1. lia.
    + rewrite (proj2 (Nat.eqb_neq i j) Hn) in L1. lia.
Qed.
Lemma step_len st i : length (snd (step st i)) = length (snd st).
Proof. unfold step. destruct (nth_error (snd st) i); [cbn [snd]; apply set_nth_len|reflexivity]. Qed.
Lemma run_len sch : forall st, length (snd (run st sch)) = length (snd st).
Proof. induction sch as [|i sch IH]; intros st; [reflexivity|]. change (run st (i :: sch)) with (run (step st i) sch). rewrite IH. apply step_len. Qed.
Lemma pfor_finishes m0 f rs schedule :
  (forall j r, nth_error rs j = Some r -> length (f r) <= count_occ Nat.eq_dec schedule j) ->
  finished (run (m0, spawn f rs) schedule).
Proof.
  intros H. unfold finished. apply Forall_forall. intros t Ht. apply In_nth_error in Ht as (j & Hj).
  assert (j < length rs).
  { assert (j < length (snd (run (m0, spawn f rs) schedule))) by (apply nth_error_Some; now rewrite Hj).
    rewrite run_len in H0. cbn [snd] in H0. unfold spawn in H0. now rewrite map_length in H0. }
  destruct (nth_error rs j) as [r|] eqn:Er; [|apply nth_error_None in Er; lia].
  destruct (run_todo schedule (m0, spawn f rs) j (mkThread (f r) None)) as (t' & Ht' & L).
  { cbn [snd]. unfold spawn. rewrite nth_error_map, Er. reflexivity. }
  rewrite Hj in Ht'. injection Ht' as <-. specialize (H j r Er). cbn [todo] in L.
  destruct (todo t); [reflexivity|cbn in L; lia].
Qed.
Lemma outcome_exists st : exists r, outcome st r.
Proof.
  destruct (Forall_Exists_dec (fun t => failed t = None)) with (l := snd st) as [W|W].
  - intros t. destruct (failed t); [right|left]; congruence.
  - eexists. now apply all_well.
  - apply Exists_exists in W as (t & Ht & Hf). destruct (failed t) as [p|] eqn:E; [|congruence].
    eexists. eapply some_panic; eauto.
Qed.

(* ---- the loop bodies ---- *)
Lemma set_cell_independent n f : independent (fun x => x) n (set_cell f).
Proof.
  intros k a Hk [<-|[]]. split; [reflexivity|]. intros m x v H. destruct (f k); try discriminate. now injection H as <- _.
Qed.
Lemma set_cell_in_order f : forall n m0, m0 = nothing -> 
  match mapM f (seq 0 n), in_order (flat_map (set_cell f) (seq 0 n)) m0 with
  | Ok l, Ok m => holds l m
  | Err, Err | Crash, Crash | Unmod, Unmod => True
  | _, _ => False
  end.
Proof.
  intros n m0 ->. induction n as [|n IH].
  - cbn. intros x. now destruct x.
  - rewrite seq_S, flat_map_app, in_order_app, mapM_app. cbn [plus flat_map set_cell app].
    destruct (mapM f (seq 0 n)) as [l| | |] eqn:El, (in_order (flat_map (set_cell f) (seq 0 n)) nothing) as [m| | |]; try easy.
    cbn [bind mapM in_order]. destruct (f n) as [v| | |]; cbn [bind]; try easy.
    intros x. unfold mset. pose proof (mapM_Ok_len _ _ _ El) as HL. rewrite seq_length in HL.
    destruct (Nat.eqb_spec x n) as [->|Hn].
    + rewrite nth_error_app2 by lia. replace (n - length l) with 0 by lia. reflexivity.
    + rewrite (IH x). destruct (Nat.lt_ge_cases x n).
      * now rewrite nth_error_app1 by lia.
      * rewrite nth_error_app2 by lia. rewrite (proj2 (nth_error_None _ _)) by lia.
        symmetry. apply nth_error_None. cbn. lia.
Qed.
Lemma seq_gives n body l r (g : nat -> res mem) : (forall k, k < n -> g k = in_order (body k) nothing) ->
  match l, in_order (flat_map body (seq 0 n)) nothing with
  | Ok l, Ok m => holds l m
  | Err, Err | Crash, Crash | Unmod, Unmod => True
  | _, _ => False
  end -> as_if_sequential n body nothing r -> gives n g l r.
Proof.
  unfold as_if_sequential, gives. intros Hg.
  destruct l, (in_order (flat_map body (seq 0 n)) nothing); try easy; intros H.
  1: intros (m' & -> & E); exists m'; split; [reflexivity|]; intros x; rewrite E; apply H.
  all: intros (k & Hk & E); exists k; split; [auto|]; now rewrite Hg.
Qed.
Lemma gives_map {A B} n (g : nat -> res A) (g' : nat -> res B) l r : (forall k, k < n -> is_failure (g k) -> same_failure (g k) (g' k)) -> gives n g l r -> gives n g' l r.
Proof.
  unfold gives. intros H. destruct l; auto; intros (k & Hk & E); exists k; split; auto; eapply failure_trans; eauto.
  all: apply H; auto; destruct r, (g k); easy.
Qed.

(* Partition by scores. *)
From Verif Require Import Value NumModel ArrModel ArrSpec ArrBase ArrRot ArrTake ArrCat ArrSel.
From Coq Require Import Arith ZifyBool ZifyNat.
Open Scope nat_scope.

(* runs with forced boundaries *)
Fixpoint bruns (l : list (nat * bool * value)) : list (list value) :=
  match l with
  | [] => []
  | (k, _, x) :: t =>
      if k =? 0 then bruns t
      else match t with
           | (k', b', _) :: _ => if negb (k' =? 0) && (k' <=? k) && negb b'
                             then match bruns t with g :: gs => (x :: g) :: gs | [] => [[x]] end
                             else [x] :: bruns t
           | [] => [[x]]
           end
  end.
Definition joins (prev : nat) (t : list (nat * bool * value)) : bool :=
  match t with (k, b, _) :: _ => negb (k =? 0) && (k <=? prev) && negb b | [] => false end.
Definition glue (prev : nat) (acc : list value) (t : list (nat * bool * value)) : list (list value) :=
  match acc with
  | [] => bruns t
  | _ => if joins prev t then match bruns t with g :: gs => (acc ++ g) :: gs | [] => [acc] end else acc :: bruns t
  end.
Lemma bruns_cons k b x t : k <> 0 -> bruns ((k, b, x) :: t) = glue k [x] t.
Proof. intros H. cbn [bruns]. destruct (Nat.eqb_spec k 0); [lia|]. unfold glue, joins. destruct t as [|[[k' b'] y] t]; auto. Qed.
Lemma bruns_zero b x t : bruns ((0, b, x) :: t) = bruns t.
Proof. reflexivity. Qed.
Lemma glue_app prev acc a : acc <> [] -> joins prev a = true ->
  glue prev acc a = match bruns a with g :: gs => (acc ++ g) :: gs | [] => [acc] end.
Proof. intros A J. unfold glue. destruct acc; [congruence|]. rewrite J. reflexivity. Qed.
Lemma glue_join k acc x t : acc <> [] ->
  match glue k [x] t with g :: gs => (acc ++ g) :: gs | [] => [acc] end = glue k (acc ++ [x]) t.
Proof.
  intros A. unfold glue. destruct (acc ++ [x]) eqn:E; [destruct acc; discriminate|]. rewrite <-E. clear E.
  destruct (joins k t); [|reflexivity]. destruct (bruns t); [reflexivity|]. rewrite <-app_assoc. reflexivity.
Qed.

Lemma skipn_nth {A} (l : list A) d : forall i, i < length l -> skipn i l = nth i l d :: skipn (S i) l.
Proof. induction l as [|x l IH]; intros [|i] J; simpl in *; try lia; auto. rewrite IH by lia. destruct l; reflexivity. Qed.
Lemma bruns_ne k b x t : k <> 0 -> bruns ((k, b, x) :: t) <> [].
Proof. intros H. rewrite bruns_cons by auto. unfold glue. destruct (joins k t), (bruns t); discriminate. Qed.

Section Scores.
  Variable ks : list nat.
  Let n := length ks.
  Hypothesis n0 : n <> 0.
  Let score := map (fun k => VInt (Z.of_nat k)) ks.
  Fixpoint tag (i : nat) (v : list value) : list (nat * bool * value) :=
    match v with [] => [] | x :: v' => (nth (i mod n) ks 0, i mod n =? 0, x) :: tag (S i) v' end.

  Lemma score_at i : bind (at_ score (i mod length score)) as_uint = Ok (nth (i mod n) ks 0).
  Proof.
    unfold score. rewrite map_length. fold n. pose proof (Nat.mod_upper_bound i n n0).
    rewrite at_nth by (rewrite map_length; auto). cbn [bind]. rewrite nth_map_nat by auto. cbn [as_uint].
    destruct (Z.ltb_spec (Z.of_nat (nth (i mod n) ks 0)) 0); [lia|]. rewrite Nat2Z.id. reflexivity.
  Qed.
  Lemma part_loop_cons x v i prev acc res dim : part_loop (x :: v) score i prev acc res dim =
    let sc := nth (i mod n) ks 0 in
    let j := i mod n in
    let '(acc, res_) :=
        if negb (sc =? 0) then
          let '(acc, res_) := if (0 <? i) && ((prev <? sc) || (j =? 0)) && (0 <? length acc)
                              then ([], res ++ [VVec acc]) else (acc, res) in
          (acc ++ [x], res_)
        else (acc, res) in
    let dim := match dim with None => if (0 <? i) && (j =? 0) then Some (length res_) else None | Some _ => dim end in
    part_loop v score (S i) sc acc res_ dim.
  Proof.
    cbn [part_loop]. pose proof (score_at i) as S. destruct (at_ score (i mod length score)) as [sv| | |]; simpl in S; try discriminate.
    cbn [bind]. rewrite S. cbn [bind]. unfold score. rewrite map_length. reflexivity.
  Qed.
  Lemma len_pos {A} (l : list A) : l <> [] -> (0 <? length l) = true.
  Proof. destruct l; auto; congruence. Qed.
  Lemma snoc_ne {A} (l : list A) x : l ++ [x] <> [].
  Proof. destruct l; discriminate. Qed.
  Lemma glue_zero prev b x acc t : acc <> [] -> glue prev acc ((0, b, x) :: t) = acc :: bruns t.
  Proof. intros A. unfold glue. destruct acc; [congruence|]. reflexivity. Qed.
  Lemma glue_0 acc t : acc <> [] -> glue 0 acc t = acc :: bruns t.
  Proof.
    intros A. unfold glue. destruct acc; [congruence|]. destruct t as [|[[k b] x] t]; [reflexivity|]. unfold joins.
    destruct (Nat.eqb_spec k 0); [reflexivity|]. destruct (Nat.leb_spec k 0); [lia|]. reflexivity.
  Qed.

  Lemma part_loop_ok v : forall i prev acc res dim, (acc <> [] -> 0 < i) ->
    exists dim', part_loop v score i prev acc res dim = Ok (res ++ map VVec (glue prev acc (tag i v)), dim').
  Proof.
    induction v as [|x v IH]; intros i prev acc res dim A.
    - exists dim. cbn [part_loop tag]. destruct acc; simpl; auto. rewrite app_nil_r. reflexivity.
    - rewrite part_loop_cons. cbn [tag]. set (sc := nth (i mod n) ks 0). cbv zeta.
      destruct (Nat.eqb_spec sc 0) as [Z|Z]; cbn [negb].
      + edestruct (IH (S i) sc acc res) as [d ->]; [lia|]. exists d. f_equal. f_equal. f_equal. f_equal. rewrite Z.
        destruct acc as [|a acc]; [reflexivity|]. rewrite glue_0, glue_zero by discriminate. reflexivity.
      + destruct acc as [|a acc].
        * rewrite andb_false_r. cbn [app]. edestruct (IH (S i) sc [x] res) as [d ->]; [lia|]. exists d. unfold glue at 2. rewrite bruns_cons by auto. reflexivity.
        * set (ac := a :: acc) in *. assert (ac <> []) as AN by discriminate. specialize (A AN). rewrite (len_pos ac AN), andb_true_r.
          destruct (Nat.ltb_spec 0 i); [|lia]. rewrite andb_true_l.
          destruct ((prev <? sc) || (i mod n =? 0)) eqn:E.
          -- edestruct (IH (S i) sc ([] ++ [x]) (res ++ [VVec ac])) as [d ->]; [lia|]. exists d. rewrite <-app_assoc. f_equal. f_equal. f_equal.
             unfold glue at 2. fold ac. unfold ac at 1. unfold joins. rewrite bruns_cons by auto.
             replace (negb (sc =? 0) && (sc <=? prev) && negb (i mod n =? 0)) with false by (destruct (i mod n =? 0); lia). reflexivity.
          -- edestruct (IH (S i) sc (ac ++ [x]) res) as [d ->]; [lia|]. exists d. f_equal. f_equal. f_equal. f_equal.
             rewrite <-glue_join by auto. unfold glue at 2. unfold ac at 2. unfold joins. rewrite bruns_cons by auto.
             replace (negb (sc =? 0) && (sc <=? prev) && negb (i mod n =? 0)) with true by (destruct (i mod n =? 0); lia). reflexivity.
  Qed.

  (* within one pass of the scores there are no forced boundaries *)
  Lemma bruns_tag v : forall i, i + length v <= n -> bruns (tag i v) = runs (combine (skipn i ks) v).
  Proof.
    induction v as [|x v IH]; intros i H; [rewrite combine_nil; reflexivity|]. cbn [length] in H.
    rewrite (skipn_nth ks 0 i) by (fold n; lia).
    cbn [combine tag]. rewrite Nat.mod_small by lia. cbn [bruns runs]. destruct (nth i ks 0 =? 0) eqn:E; [apply IH; lia|].
    specialize (IH (S i) ltac:(lia)). destruct v as [|y v]; [rewrite combine_nil; reflexivity|]. cbn [length] in H.
    rewrite IH. rewrite (skipn_nth ks 0 (S i)) by (fold n; lia). cbn [combine tag]. rewrite (Nat.mod_small (S i)) by lia. cbn [Nat.eqb negb]. rewrite andb_true_r. reflexivity.
  Qed.
  Lemma tag_app a b : forall i, tag i (a ++ b) = tag i a ++ tag (i + length a) b.
  Proof. induction a as [|x a IH]; intros i; simpl; [rewrite Nat.add_0_r; auto|]. rewrite IH. replace (i + S (length a)) with (S i + length a) by lia. reflexivity. Qed.
  Lemma tag_mod i v : tag (i + n) v = tag i v.
  Proof.
    revert i. induction v as [|x v IH]; intros i; auto. cbn [tag]. change (S (i + n)) with (S i + n). rewrite IH.
    replace ((i + n) mod n) with (i mod n); auto. rewrite <-(Nat.mod_add i 1 n) by auto. f_equal. lia.
  Qed.
  Lemma bruns_app a b : match b with [] => True | (_, f, _) :: _ => f = true end -> bruns (a ++ b) = bruns a ++ bruns b.
  Proof.
    intros B. induction a as [|[[k f] x] a IH]; auto. cbn [app bruns]. destruct (k =? 0); [apply IH|].
    destruct a as [|[[k' f'] y] a]; [|].
    - cbn [app] in *. destruct b as [|[[k' f'] y] b]; [reflexivity|]. subst. rewrite andb_false_r. reflexivity.
    - change (((k', f', y) :: a) ++ b) with ((k', f', y) :: (a ++ b)) in IH at 1. cbn [app] in *. rewrite IH.
      destruct (negb (k' =? 0) && (k' <=? k) && negb f') eqn:E; [|reflexivity].
      destruct (Nat.eqb_spec k' 0) as [->|K]; [discriminate|]. pose proof (bruns_ne k' f' y a K) as NE.
      destruct (bruns ((k', f', y) :: a)); [congruence|reflexivity].
  Qed.
  Lemma vec_groups v : length v = n -> bruns (tag 0 v) = runs (combine ks v).
  Proof. intros H. apply (bruns_tag v 0). lia. Qed.
  Lemma tag_head v r : match tag (r * n) v with [] => True | (_, f, _) :: _ => f = true end.
  Proof. destruct v; simpl; auto. rewrite Nat.mod_mul by auto. reflexivity. Qed.
  Lemma tag_muls r v : tag (r * n) v = tag 0 v.
  Proof. induction r; auto. rewrite Nat.mul_succ_l, tag_mod. auto. Qed.
  Lemma rows_groups (f : nat -> list value) m : (forall r, length (f r) = n) -> 
    bruns (tag 0 (concat (map f (seq 0 m)))) = concat (map (fun r => runs (combine ks (f r))) (seq 0 m)).
  Proof.
    intros L. induction m as [|m IH]; auto. rewrite seq_S, !map_app, !concat_app. cbn [plus map concat]. rewrite !app_nil_r.
    rewrite tag_app. assert (length (concat (map f (seq 0 m))) = m * n) as ->.
    { apply (concat_nth_rows f m n). auto. }
    cbn [plus]. rewrite bruns_app by apply tag_head. rewrite IH, tag_muls, vec_groups by auto. reflexivity.
  Qed.

  (* the width reported for matrices *)
  Lemma part_dim_some v : forall i prev acc res d r, part_loop v score i prev acc res (Some d) = Ok r -> snd r = Some d.
  Proof.
    induction v as [|x v IH]; intros i prev acc res d r H.
    - cbn [part_loop] in H. injection H as <-. reflexivity.
    - rewrite part_loop_cons in H. cbv zeta in H. destruct (negb _) in H; [destruct (_ && _ && _) in H|]; apply IH in H; auto.
  Qed.
  Lemma part_run v1 : forall i prev acc res, 0 < i -> i + length v1 <= n -> acc <> [] ->
    exists prev' acc' res', (forall v2, part_loop (v1 ++ v2) score i prev acc res None = part_loop v2 score (i + length v1) prev' acc' res' None) /\
      acc' <> [] /\ res' ++ [VVec acc'] = res ++ map VVec (glue prev acc (tag i v1)).
  Proof.
    induction v1 as [|x v IH]; intros i prev acc res I L A.
    - exists prev, acc, res. cbn [app length tag]. rewrite Nat.add_0_r. split; auto. split; auto. unfold glue. destruct acc; [congruence|]. reflexivity.
    - cbn [length] in L. cbn [app length tag]. set (sc := nth (i mod n) ks 0).
      assert (i mod n = i) as IM by (apply Nat.mod_small; lia).
      assert (forall v2, part_loop (x :: v ++ v2) score i prev acc res None =
        if sc =? 0 then part_loop (v ++ v2) score (S i) sc acc res None
        else if prev <? sc then part_loop (v ++ v2) score (S i) sc [x] (res ++ [VVec acc]) None
        else part_loop (v ++ v2) score (S i) sc (acc ++ [x]) res None) as ST.
      { intros v2. rewrite part_loop_cons. cbv zeta. fold sc. rewrite IM. destruct (Nat.eqb_spec i 0); [lia|]. rewrite andb_false_r, orb_false_r, (len_pos acc A).
        destruct (Nat.ltb_spec 0 i); [|lia]. cbn [andb]. rewrite andb_true_r. destruct (sc =? 0), (prev <? sc); reflexivity. }
      replace (i + S (length v)) with (S i + length v) by lia.
      destruct (Nat.eqb_spec sc 0) as [Z|Z].
      + destruct (IH (S i) sc acc res ltac:(lia) ltac:(lia) A) as (p' & a' & r' & E & A' & R). exists p', a', r'.
        split; [intros v2; rewrite ST; apply E|]. split; auto. rewrite R. f_equal. f_equal. rewrite Z, glue_0, glue_zero by auto. reflexivity.
      + destruct (Nat.ltb_spec prev sc) as [P|P].
        * destruct (IH (S i) sc [x] (res ++ [VVec acc]) ltac:(lia) ltac:(lia) ltac:(discriminate)) as (p' & a' & r' & E & A' & R). exists p', a', r'.
          split; [intros v2; rewrite ST; apply E|]. split; auto. rewrite R, <-app_assoc. f_equal. rewrite <-(bruns_cons sc (i mod n =? 0)) by auto.
          unfold glue. destruct acc; [congruence|]. unfold joins. replace (negb (sc =? 0) && (sc <=? prev) && negb (i mod n =? 0)) with false by lia. reflexivity.
        * destruct (IH (S i) sc (acc ++ [x]) res ltac:(lia) ltac:(lia) (snoc_ne _ _)) as (p' & a' & r' & E & A' & R). exists p', a', r'.
          split; [intros v2; rewrite ST; apply E|]. split; auto. rewrite R. f_equal. f_equal. rewrite <-glue_join by auto.
          rewrite <-(bruns_cons sc (i mod n =? 0)) by auto. unfold glue at 1. destruct acc; [congruence|]. unfold joins.
          replace (negb (sc =? 0) && (sc <=? prev) && negb (i mod n =? 0)) with true by lia. reflexivity.
  Qed.
  Lemma part_dim r0 v : nth 0 ks 0 <> 0 -> length r0 = n -> v <> [] ->
    exists o, part_loop (r0 ++ v) score 0 0 [] [] None = Ok (o, Some (length (runs (combine ks r0)))).
  Proof.
    intros K L V. destruct r0 as [|x r0]; [simpl in L; lia|]. rewrite <-vec_groups by auto. cbn [app length] in *.
    rewrite part_loop_cons. cbv zeta. rewrite Nat.mod_0_l by auto. cbn [Nat.ltb Nat.leb andb app].
    destruct (Nat.eqb_spec (nth 0 ks 0) 0); [lia|]. cbn [negb].
    destruct (part_run r0 1 (nth 0 ks 0) [x] [] ltac:(lia) ltac:(lia) ltac:(discriminate)) as (p & a & r & E & A & R).
    rewrite E. destruct v as [|y v]; [congruence|]. rewrite part_loop_cons. cbv zeta. replace (1 + length r0) with n by lia.
    rewrite Nat.mod_same by auto. destruct (Nat.eqb_spec (nth 0 ks 0) 0); [lia|]. cbn [negb Nat.eqb]. rewrite (len_pos a A), orb_true_r.
    destruct (Nat.ltb_spec 0 n); [|lia]. cbn [andb]. rewrite R. cbn [app]. rewrite map_length.
    cbn [tag]. rewrite Nat.mod_0_l, bruns_cons by auto.
    match goal with |- exists o, part_loop ?v ?s ?i ?p ?a ?r (Some ?d) = _ =>
      destruct (part_loop_ok v i p a r (Some d) ltac:(lia)) as [d' E'] end.
    pose proof (part_dim_some _ _ _ _ _ _ _ E') as D. cbn [snd] in D. subst d'. rewrite E'. eexists. reflexivity.
  Qed.
End Scores.

Lemma runs_len ks : forall xs, length xs = length ks -> length (runs (combine ks xs)) = ngroups ks.
Proof.
  unfold ngroups. induction ks as [|k ks IH]; intros [|x xs] L; simpl in L; try lia; auto. cbn [combine map runs].
  specialize (IH xs ltac:(lia)). destruct (k =? 0); auto. destruct ks as [|k' ks], xs as [|y xs]; simpl in L; try lia; auto.
  cbn [combine map] in *. destruct (negb (k' =? 0) && (k' <=? k)).
  - destruct (runs ((k', y) :: combine ks xs)), (runs ((k', VInt 0) :: map (fun k0 => (k0, VInt 0)) ks)); simpl in *; lia.
  - cbn [length]. lia.
Qed.
Lemma map_of_nat ks : map VInt (map Z.of_nat ks) = map (fun k => VInt (Z.of_nat k)) ks.
Proof. apply map_map. Qed.
Lemma op_part_vec u l ks : int_vector u (map Z.of_nat ks) -> length ks = length l ->
  op_part u (VVec l) = Ok (VVec (map VVec (runs (combine ks l)))).
Proof.
  intros Hu L. unfold op_part, at_least_vector. assert (is_mat u = false) as -> by (destruct Hu as [->|(z & _ & ->)]; auto).
  cbn [is_mat orb]. rewrite (int_vector_vec _ _ Hu), map_of_nat. cbn [bind to_vec]. unfold vec_partition. rewrite map_length, L, Nat.eqb_refl. cbn [negb].
  destruct l as [|x l]; [destruct ks; [reflexivity|discriminate]|].
  assert (length ks <> 0) as N0 by (rewrite L; discriminate).
  destruct (part_loop_ok ks N0 (x :: l) 0 0 [] [] None ltac:(congruence)) as [d E].
  unfold do_partition. destruct (map (fun k : nat => VInt (Z.of_nat k)) ks) eqn:M; [destruct ks; [simpl in L; lia|discriminate]|].
  rewrite <-M in *. rewrite E. cbn [bind fst app glue]. rewrite vec_groups by auto. reflexivity.
Qed.
Lemma op_part_vec_len u l ks : int_vector u ks -> length ks <> length l -> op_part u (VVec l) = Err.
Proof.
  intros Hu L. unfold op_part, at_least_vector. assert (is_mat u = false) as -> by (destruct Hu as [->|(z & _ & ->)]; auto).
  cbn [is_mat orb]. rewrite (int_vector_vec _ _ Hu). cbn [bind to_vec]. unfold vec_partition. rewrite map_length.
  destruct (Nat.eqb_spec (length ks) (length l)); [lia|]. reflexivity.
Qed.
Lemma scores_len ks n : length ks = 1 \/ length ks = n -> length (scores ks n) = n.
Proof. intros H. unfold scores. destruct ks as [|k [|]]; simpl in *; try lia. apply repeat_length. Qed.
Lemma op_part_mat u s n d ks : int_list u (map Z.of_nat ks) -> wf (VMat (s ++ [n]) d) -> length ks = 1 \/ length ks = n ->
  2 <= vol s -> n <> 0 -> hd 0 ks <> 0 ->
  gives_array (op_part u (VMat (s ++ [n]) d)) (s ++ [ngroups (scores ks n)])
    (fun c => nth_error (map VVec (runs (combine (scores ks n) (row (VMat (s ++ [n]) d) n (removelast c))))) (last c 0)).
Proof.
  intros Hu (_ & LD & _) HK V N0 HD. unfold op_part, at_least_vector. rewrite orb_true_r, (int_list_mat u _ Hu). cbn [to_mat].
  unfold mat_partition. cbn [fst snd]. rewrite map_length. rewrite (match_nonnil (s ++ [n])) by apply snoc_nonnil. rewrite last_snoc, init_snoc.
  assert ((if length ks =? 1 then let! x := at_ (map VInt (map Z.of_nat ks)) 0 in let! k := as_uint x in Ok (repeat (VInt (Z.of_nat k)) n)
     else Ok (map VInt (map Z.of_nat ks))) = Ok (map (fun k => VInt (Z.of_nat k)) (scores ks n))) as ->.
  { destruct (Nat.eqb_spec (length ks) 1) as [K|K].
    - destruct ks as [|k [|]]; simpl in K; try lia. cbn. destruct (Z.ltb_spec (Z.of_nat k) 0); [lia|]. cbn. rewrite Nat2Z.id. f_equal.
      clear. induction n; simpl; f_equal; auto.
    - rewrite map_of_nat. f_equal. f_equal. destruct ks as [|? [|]]; simpl in K; try reflexivity. lia. }
  cbn [bind]. set (sc := scores ks n). assert (length sc = n) as SL by (apply scores_len; auto). rewrite map_length, SL, Nat.eqb_refl. cbn [negb].
  set (m := VMat (s ++ [n]) d). set (f := fun r => map (fun j => nth (r * n + j) d dflt) (seq 0 n)).
  assert (forall r, length (f r) = length sc) as LF by (intros r; unfold f; rewrite map_length, seq_length; auto).
  assert (concat (map f (seq 0 (vol s))) = d) as DE.
  { unfold f. rewrite concat_rows. rewrite (map_ext _ (fun p => nth p d dflt)) by (intros p; f_equal; rewrite Nat.mul_comm; symmetry; apply Nat.div_mod; auto). apply map_nth_seq. rewrite LD, vol_snoc. reflexivity. }
  assert (length sc <> 0) as SN by lia. assert (nth 0 sc 0 <> 0) as S0.
  { unfold sc, scores. destruct ks as [|k [|]]; simpl in *; auto. destruct n; [lia|]. simpl. auto. }
  assert (d = f 0 ++ concat (map f (seq 1 (vol s - 1)))) as DS.
  { rewrite <-DE at 1. replace (vol s) with (S (vol s - 1)) at 1 by lia. reflexivity. }
  destruct (part_dim sc SN (f 0) (concat (map f (seq 1 (vol s - 1)))) S0 (LF 0)) as [o PD].
  { replace (vol s - 1) with (S (vol s - 2)) by lia. cbn [seq map concat]. destruct (f 1) eqn:F1; [|discriminate]. specialize (LF 1). rewrite F1 in LF. simpl in LF. lia. }
  rewrite <-DS in PD. destruct (part_loop_ok sc SN d 0 0 [] [] None ltac:(congruence)) as [dm E].
  rewrite E in PD. assert (o = map VVec (glue 0 [] (tag sc 0 d)) /\ dm = Some (ngroups sc)) as [-> ->].
  { injection PD as <- ->. split; auto. rewrite runs_len; auto. }
  assert (do_partition d (map (fun k : nat => VInt (Z.of_nat k)) sc) = Ok (map VVec (glue 0 [] (tag sc 0 d)), Some (ngroups sc))) as ->.
  { unfold do_partition. destruct d; auto. rewrite match_nonnil; auto. intros M. apply SN. apply (f_equal (@length value)) in M. rewrite map_length in M. exact M. }
  cbn [bind snd fst glue]. rewrite <-DE at 1. rewrite rows_groups, concat_map, map_map by auto.
  destruct (concat_nth_rows (fun r => map VVec (runs (combine sc (f r)))) (vol s) (ngroups sc)) as [LC NC].
  { intros r _. rewrite map_length, runs_len; auto. }
  apply new_matrix_array; [apply snoc_nonnil|rewrite vol_snoc; auto|].
  intros c I. destruct (inb_snoc _ _ _ I) as (c' & j & -> & I' & J). rewrite ravel_snoc by (apply inb_len; auto).
  rewrite NC by (auto; apply ravel_lt; auto). rewrite removelast_last, last_last. rewrite (row_eq m s n c') by auto. reflexivity.
Qed.

(* Scan with the operators known to be associative. *)
From Verif Require Import Value NumModel NumSpec NumProofs NumArith NumMore NumTree NumCplx NumLimit
  ArrModel EvalModel ArrSpec EvalSpec ArrBase ArrRot ArrCat ArrSel ArrMix EvalProofs EvalReduce.
From Coq Require Import QArith Qabs Qminmax Setoid Morphisms.
Open Scope nat_scope.

Section UpTo.
  Variable S : Type.
  Variable eqS : S -> S -> Prop.
  Variable F : S -> S -> S.
  Variable rep : value -> S -> Prop.
  Variable ev : value -> value -> res value.
  Hypothesis F_assoc : forall x y z, eqS (F x (F y z)) (F (F x y) z).
  Hypothesis F_prop : forall t t' s, eqS t t' -> eqS (F t s) (F t' s).
  Hypothesis rep_fun : forall v x y, rep v x -> rep v y -> eqS x y.
  Hypothesis rep_eq : forall v x y, eqS x y -> rep v x -> rep v y.
  Hypothesis ev_ok : forall a b x y, rep a x -> rep b y -> exists r, ev a b = Ok r /\ rep r (F x y).

  Definition fitR (a b : value) : Prop := exists s, rep a s /\ rep b s.
  (* the right fold of l ++ [x] and one more step of the left fold stand for the same *)
  Lemma upto_left l : l <> [] -> Forall (fun v => exists s, rep v s) l ->
    forall x s, rep x s -> exists r t, rfold ev l = Ok r /\ rep r t /\ exists q, rfold ev (l ++ [x]) = Ok q /\ rep q (F t s).
  Proof.
    induction l as [|a l IH]; [easy|]. intros _ Hl x s Hx. inversion Hl as [|? ? [sa Ha] Hl']; subst.
    destruct l as [|b l].
    - exists a, sa. cbn. split; [easy|]. split; [easy|]. destruct (ev_ok a x sa s Ha Hx) as (r & -> & Hr). eauto.
    - destruct (IH ltac:(easy) Hl' x s Hx) as (r & t & Er & Hr & q & Eq & Hq).
      destruct (ev_ok a r sa t Ha Hr) as (r' & Er' & Hr'). exists r', (F sa t).
      change (rfold ev (a :: b :: l)) with (let! r := rfold ev (b :: l) in ev a r). rewrite Er. cbn [bind].
      split; [easy|]. split; [easy|].
      change (rfold ev ((a :: b :: l) ++ [x])) with (let! r := rfold ev ((b :: l) ++ [x]) in ev a r). rewrite Eq. cbn [bind].
      destruct (ev_ok a q sa _ Ha Hq) as (q' & -> & Hq'). exists q'. split; [easy|]. eapply rep_eq; [|exact Hq'].
      apply F_assoc.
  Qed.
  Lemma upto_left' l r t : rfold ev l = Ok r -> rep r t -> l <> [] -> Forall (fun v => exists s, rep v s) l ->
    forall x s, rep x s -> exists q, rfold ev (l ++ [x]) = Ok q /\ rep q (F t s).
  Proof.
    intros Er Hr Hn Hl x s Hx. destruct (upto_left l Hn Hl x s Hx) as (r' & t' & Er' & Hr' & q & Eq & Hq).
    rewrite Er in Er'. injection Er' as <-. exists q. split; [easy|]. eapply rep_eq; [|exact Hq]. apply F_prop.
    eapply rep_fun; eauto.
  Qed.
  Definition rows_upto (R : list value) (j m : nat) (r : list value) : Prop :=
    length r = m /\ forall i, i < m -> exists y, rfold ev (firstn (Datatypes.S (j + i)) R) = Ok y /\ fitR (nth i r dflt) y.
  Lemma upto_scan_left l index n : index + n <= length l ->
    Forall (fun v => exists s, rep v s) (map (fun k => nth (index + k) l dflt) (seq 0 n)) ->
    forall m j acc t r, j + m = n -> j <> 0 -> rep acc t ->
    rfold ev (firstn j (map (fun k => nth (index + k) l dflt) (seq 0 n))) = Ok r -> rep r t ->
    exists out, scan_left ev l (index + j) m acc = Ok out /\
      rows_upto (map (fun k => nth (index + k) l dflt) (seq 0 n)) j m out.
  Proof.
    intros Hl HD. set (R := map _ _) in *. assert (LR : length R = n) by (unfold R; now rewrite map_length, seq_length).
    induction m as [|m IH]; intros j acc t r Hj Hj0 Hacc Er Hr; [exists []; split; [reflexivity|]; split; [reflexivity|intros; lia]|].
    cbn [scan_left]. rewrite at_nth by lia. cbn [bind].
    assert (E : firstn (Datatypes.S j) R = firstn j R ++ [nth (index + j) l dflt]).
    { rewrite <-(firstn_skipn j R) at 1. rewrite firstn_app, firstn_firstn, firstn_length.
      replace (Nat.min (Datatypes.S j) j) with j by lia. replace (Datatypes.S j - Nat.min j (length R)) with 1 by lia. f_equal.
      destruct (skipn j R) as [|y k] eqn:Ey; [exfalso; apply (f_equal (@length _)) in Ey; rewrite skipn_length in Ey; cbn in Ey; lia|].
      cbn. f_equal. transitivity (nth 0 (skipn j R) dflt); [now rewrite Ey|]. rewrite nth_skipn', Nat.add_0_r. unfold R.
      rewrite (nth_map_seq (fun k => nth (index + k) l dflt)) by lia. reflexivity. }
    assert (Hx : exists s, rep (nth (index + j) l dflt) s).
    { rewrite Forall_forall in HD. apply HD. unfold R. apply in_map_iff. exists j. split; [easy|]. apply in_seq. lia. }
    destruct Hx as (s & Hx).
    destruct (upto_left' (firstn j R) r t Er Hr) with (x := nth (index + j) l dflt) (s := s) as (q & Eq & Hq); auto.
    { intros N. apply (f_equal (@length _)) in N. rewrite firstn_length in N. cbn in N. lia. }
    { now apply Forall_firstn'. }
    destruct (ev_ok acc _ t s Hacc Hx) as (a & Ea & Ha). rewrite Ea. cbn [bind].
    replace (Datatypes.S (index + j)) with (index + Datatypes.S j) by lia.
    destruct (IH (Datatypes.S j) a (F t s) q) as (out & Eo & Lo & Ho); try lia; auto; [now rewrite E|].
    rewrite Eo. exists (a :: out). split; [reflexivity|]. split; [cbn; lia|]. intros [|i] Hi.
    - rewrite Nat.add_0_r, E, Eq. exists q. split; [reflexivity|]. exists (F t s). auto.
    - destruct (Ho i ltac:(lia)) as (y & Ey & Hy). exists y. split; [|exact Hy]. rewrite <-Ey. do 2 f_equal. lia.
  Qed.
  Lemma upto_scan_row l index n : n <> 0 -> index + n <= length l ->
    Forall (fun v => exists s, rep v s) (map (fun k => nth (index + k) l dflt) (seq 0 n)) ->
    exists out, scan_row ev true l index n = Ok out /\
      rows_upto (map (fun k => nth (index + k) l dflt) (seq 0 n)) 0 n out.
  Proof.
    intros Hn Hl HD. unfold scan_row. rewrite at_nth by lia. cbn [bind].
    assert (E : firstn 1 (map (fun k => nth (index + k) l dflt) (seq 0 n)) = [nth index l dflt]).
    { replace n with (Datatypes.S (n - 1)) by lia. cbn. now rewrite Nat.add_0_r. }
    assert (Hx : exists s, rep (nth index l dflt) s).
    { rewrite Forall_forall in HD. apply HD. apply in_map_iff. exists 0. rewrite Nat.add_0_r. split; [easy|]. apply in_seq. lia. }
    destruct Hx as (s & Hx). replace (Datatypes.S index) with (index + 1) by lia.
    destruct (upto_scan_left l index n Hl HD (n - 1) 1 (nth index l dflt) s (nth index l dflt)) as (out & Eo & Lo & Ho); try lia; auto.
    { rewrite E. reflexivity. }
    rewrite Eo. cbn [bind]. exists (nth index l dflt :: out). split; [reflexivity|]. split; [cbn; lia|].
    intros [|i] Hi.
    - cbn [plus]. rewrite E. exists (nth index l dflt). split; [reflexivity|]. exists s. auto.
    - destruct (Ho i ltac:(lia)) as (y & Ey & Hy). exists y. split; [|exact Hy]. exact Ey.
  Qed.
End UpTo.

(* ---- the operators ---- *)
Definition repQ (v : value) (q : Q) : Prop := valid v /\ exists x, numval v = Some x /\ (x == q)%Q.
Definition repZ (v : value) (z : Z) : Prop := intval v = Some z.
Definition nz (x : Q) : bool := negb (Qeq_bool x 0).
Definition b2q (b : bool) : Q := if b then 1%Q else 0%Q.
Definition semQ (o : bop) (x y : Q) : Q :=
  match o with
  | BAdd => x + y | BMul => x * y | BMin => Qmin x y | BMax => Qmax x y
  | LOr => b2q (nz x || nz y) | LAnd => b2q (nz x && nz y) | LXor => b2q (xorb (nz x) (nz y))
  | _ => x
  end%Q.
Definition semZ (o : bop) (x y : Z) : Z :=
  match o with BOr => Z.lor x y | BAnd => Z.land x y | BXor => Z.lxor x y | _ => x end.
Definition opQ (o : bop) : Prop := match o with BAdd | BMul | BMin | BMax | LOr | LAnd | LXor => True | _ => False end.
Definition opZ (o : bop) : Prop := match o with BOr | BAnd | BXor => True | _ => False end.

Lemma nz_ext x y : (x == y)%Q -> nz x = nz y.
Proof. intros H. unfold nz. now rewrite H. Qed.
Lemma nz_b2q b : nz (b2q b) = b.
Proof. now destruct b. Qed.
Lemma nz_true x : nz x = true <-> ~ (x == 0)%Q.
Proof.
  unfold nz. rewrite negb_true_iff. split; intros H.
  - intros E. apply Qeq_bool_iff in E. congruence.
  - destruct (Qeq_bool x 0) eqn:E; auto. apply Qeq_bool_iff in E. easy.
Qed.
Lemma semQ_prop o x x' y y' : opQ o -> (x == x')%Q -> (y == y')%Q -> (semQ o x y == semQ o x' y')%Q.
Proof.
  intros Ho Hx Hy. destruct o; cbn in Ho; try easy; cbn [semQ];
    rewrite ?(nz_ext _ _ Hx), ?(nz_ext _ _ Hy); try (now rewrite Hx, Hy); reflexivity.
Qed.
Lemma semQ_assoc o x y z : opQ o -> (semQ o x (semQ o y z) == semQ o (semQ o x y) z)%Q.
Proof.
  intros Ho. destruct o; cbn in Ho; try easy; cbn [semQ]; rewrite ?nz_b2q.
  - ring.
  - ring.
  - destruct (nz x), (nz y), (nz z); reflexivity.
  - destruct (nz x), (nz y), (nz z); reflexivity.
  - destruct (nz x), (nz y), (nz z); reflexivity.
  - apply Q.min_assoc.
  - apply Q.max_assoc.
Qed.

Lemma gives_repQ r q : gives r q -> exists v, r = Ok v /\ repQ v q.
Proof. intros (v & x & -> & Vv & Nv & E). exists v. split; [easy|]. split; [easy|]. eauto. Qed.
Lemma valid_cvalid v x : valid v -> numval v = Some x -> cvalid v /\ cval v = Some (x, 0%Q).
Proof. intros V N. destruct v; cbn in *; try easy; split; auto; congruence. Qed.
Lemma c_true_nz x : c_true (x, 0%Q) <-> nz x = true.
Proof. unfold c_true. cbn [fst snd]. rewrite nz_true. split; intros H E; apply H; auto. split; auto. reflexivity. apply E. Qed.
Lemma truth_repQ r (P : Prop) b : truth r P -> (P <-> b = true) -> exists v, r = Ok v /\ repQ v (b2q b).
Proof.
  intros [[HP ->]|[HP ->]] E.
  - exists (VInt 1). split; [easy|]. rewrite (proj1 E HP). split; [cbn; lia|]. exists 1%Q. split; reflexivity.
  - exists (VInt 0). split; [easy|]. destruct b; [exfalso; apply HP, E; reflexivity|]. split; [cbn; lia|]. exists 0%Q. split; reflexivity.
Qed.
Lemma semQ_ok c o a b x y : maxbits c = 0%Z -> opQ o -> repQ a x -> repQ b y ->
  exists r, eval_scalar c o a b = Ok r /\ repQ r (semQ o x y).
Proof.
  intros Hc Ho (Va & x' & Na & Ex) (Vb & y' & Nb & Ey).
  enough (exists r, eval_scalar c o a b = Ok r /\ repQ r (semQ o x' y')) as (r & Er & Vr & z & Nz & Ez).
  { exists r. split; [easy|]. split; [easy|]. exists z. split; [easy|]. rewrite Ez. now apply semQ_prop. }
  destruct (valid_cvalid a x' Va Na) as [Ca Da]. destruct (valid_cvalid b y' Vb Nb) as [Cb Db].
  destruct o; cbn in Ho; try easy; cbn [semQ].
  - destruct (add_exact c a b x' y' Va Vb Na Nb) as [H|(_ & H & _)]; [|easy]. now apply gives_repQ.
  - destruct (mul_exact c a b x' y' Va Vb Na Nb) as [H|(_ & H & _)]; [|easy]. now apply gives_repQ.
  - eapply truth_repQ; [apply logic_cplx; eauto; exact I|]. cbn [logic_rel]. rewrite !c_true_nz. now rewrite andb_true_iff.
  - eapply truth_repQ; [apply logic_cplx; eauto; exact I|]. cbn [logic_rel]. rewrite !c_true_nz. now rewrite orb_true_iff.
  - eapply truth_repQ; [apply logic_cplx; eauto; exact I|]. cbn [logic_rel]. rewrite !c_true_nz.
    destruct (nz x'), (nz y'); cbn; intuition congruence.
  - destruct (min_exact c a b x' y' Va Vb Na Nb) as (z & Hz & H1 & H2 & H3). apply gives_repQ in Hz as (v & Ev & Vv & w & Nw & Ew).
    exists v. split; [easy|]. split; [easy|]. exists w. split; [easy|]. rewrite Ew. apply Qle_antisym.
    + apply Q.min_glb; auto.
    + destruct H1 as [->| ->]; [apply Q.le_min_l|apply Q.le_min_r].
  - destruct (max_exact c a b x' y' Va Vb Na Nb) as (z & Hz & H1 & H2 & H3). apply gives_repQ in Hz as (v & Ev & Vv & w & Nw & Ew).
    exists v. split; [easy|]. split; [easy|]. exists w. split; [easy|]. rewrite Ew. apply Qle_antisym.
    + destruct H1 as [->| ->]; [apply Q.le_max_l|apply Q.le_max_r].
    + apply Q.max_lub; auto.
Qed.
Lemma semZ_ok c o a b x y : opZ o -> repZ a x -> repZ b y ->
  exists r, eval_scalar c o a b = Ok r /\ repZ r (semZ o x y).
Proof.
  intros Ho Ha Hb. assert (Hf : exists f, bit_fn o = Some f /\ forall i, (0 <= i)%Z -> Z.testbit (semZ o x y) i = f (Z.testbit x i) (Z.testbit y i)).
  { destruct o; cbn in Ho; try easy; cbn [bit_fn semZ]; eexists; (split; [reflexivity|]); intros i Hi.
    - apply Z.land_spec.
    - apply Z.lor_spec.
    - apply Z.lxor_spec. }
  destruct Hf as (f & Hf & Hs). destruct (bit_exact c o f a b x y Hf Ha Hb) as (z & (v & Ev & Nv) & Hz).
  exists v. split; [easy|]. unfold repZ. rewrite Nv. f_equal. apply Z.bits_inj'. intros i Hi. rewrite Hz, Hs; auto.
Qed.
Lemma fit_same_Q a b : fitR Q repQ a b -> same_number a b.
Proof. intros (s & (_ & x & Nx & Ex) & (_ & y & Ny & Ey)). exists x, y. split; [easy|]. split; [easy|]. now rewrite Ex, Ey. Qed.
Lemma fit_same_Z a b : fitR Z repZ a b -> same_number a b.
Proof.
  intros (s & Ha & Hb). exists (inject_Z s), (inject_Z s). unfold repZ, intval in *.
  destruct a; try discriminate; destruct b; try discriminate; cbn; split; try split; try congruence; reflexivity.
Qed.
Lemma known_row c o l index n : maxbits c = 0%Z -> assoc_op o -> Forall (assoc_dom o) l -> n <> 0 -> index + n <= length l ->
  exists out, scan_row (eval_scalar c o) true l index n = Ok out /\ length out = n /\
    forall i, i < n -> exists y, rfold (eval_scalar c o) (firstn (S i) (map (fun k => nth (index + k) l dflt) (seq 0 n))) = Ok y /\
      same_number (nth i out dflt) y.
Proof.
  intros Hc Ho Hl Hn Hi.
  assert (HR : Forall (assoc_dom o) (map (fun k => nth (index + k) l dflt) (seq 0 n))).
  { rewrite Forall_forall in *. intros x Hx. apply in_map_iff in Hx as (k & <- & Hk). apply in_seq in Hk. apply Hl, nth_In. lia. }
  assert (C : opQ o \/ opZ o) by (destruct o; cbn in *; tauto). destruct C as [C|C].
  - destruct (upto_scan_row Q Qeq (semQ o) repQ (eval_scalar c o)) with (l := l) (index := index) (n := n) as (out & Eo & Lo & Hout); auto.
    + intros. now apply semQ_assoc.
    + intros. apply semQ_prop; auto. reflexivity.
    + intros v x y (_ & a & Na & Ea) (_ & b & Nb & Eb). rewrite Na in Nb. injection Nb as <-. now rewrite <-Ea, <-Eb.
    + intros v x y E (V & a & Na & Ea). split; [easy|]. exists a. split; [easy|]. now rewrite Ea.
    + intros. now apply semQ_ok.
    + eapply Forall_impl; [|exact HR]. intros v Hv. destruct o; cbn in C; try easy; cbn [assoc_dom] in Hv;
      (destruct v; cbn in Hv; try easy; eexists; (split; [exact Hv|eexists; split; reflexivity])).
    + exists out. split; [easy|]. split; [easy|]. intros i Hii. destruct (Hout i Hii) as (y & Ey & Hy). exists y.
      split; [exact Ey|]. now apply fit_same_Q.
  - destruct (upto_scan_row Z eq (semZ o) repZ (eval_scalar c o)) with (l := l) (index := index) (n := n) as (out & Eo & Lo & Hout); auto.
    + intros. destruct o; cbn in C; try easy; cbn [semZ]; [apply Z.land_assoc|apply Z.lor_assoc|symmetry; apply Z.lxor_assoc].
    + intros. congruence.
    + unfold repZ. intros. congruence.
    + unfold repZ. intros. congruence.
    + intros. now apply semZ_ok.
    + eapply Forall_impl; [|exact HR]. intros v Hv. destruct o; cbn in C; try easy; exact Hv.
    + exists out. split; [easy|]. split; [easy|]. intros i Hii. destruct (Hout i Hii) as (y & Ey & Hy). exists y.
      split; [exact Ey|]. now apply fit_same_Z.
Qed.
Lemma scan_known_vec c o l : maxbits c = 0%Z -> assoc_op o -> Forall (assoc_dom o) l -> l <> [] ->
  exists w, scan (eval_scalar c o) true (VVec l) = Ok w /\ shape_of w = [length l] /\
    forall j, j < length l -> exists x y, elem w [j] = Some x /\ rfold (eval_scalar c o) (firstn (S j) l) = Ok y /\ same_number x y.
Proof.
  intros Hc Ho Hl Hn. assert (length l <> 0) by (destruct l; easy).
  destruct (known_row c o l 0 (length l)) as (out & Eo & Lo & Hout); auto.
  exists (VVec out). split; [unfold scan; destruct l; [easy|]; rewrite Eo; reflexivity|]. split; [cbn; congruence|].
  intros j Hj. destruct (Hout j Hj) as (y & Ey & Hy). exists (nth j out dflt), y.
  change (fun k => nth (0 + k) l dflt) with (fun k => nth k l dflt) in Ey. rewrite (map_nth_seq l dflt (length l) eq_refl) in Ey.
  split; [|auto]. unfold elem. cbn. rewrite Nat.mul_1_r, Nat.add_0_r. apply nth_error_nth'. lia.
Qed.
Lemma scan_known_mat c o s n d : maxbits c = 0%Z -> assoc_op o -> Forall (assoc_dom o) d -> s <> [] -> n <> 0 -> wf (VMat (s ++ [n]) d) ->
  exists w, scan (eval_scalar c o) true (VMat (s ++ [n]) d) = Ok w /\ wf w /\ shape_of w = s ++ [n] /\
    forall k j, inb s k -> j < n -> exists x y, elem w (k ++ [j]) = Some x /\
      rfold (eval_scalar c o) (firstn (S j) (row (VMat (s ++ [n]) d) n k)) = Ok y /\ same_number x y.
Proof.
  intros Hc Ho Hd Hs Hn W. pose proof W as (_ & HL & Hl). rewrite vol_snoc in HL.
  assert (HR : forall i, i < vol s -> exists out, scan_row (eval_scalar c o) true d (i * n) n = Ok out /\ length out = n /\
    forall j, j < n -> exists y, rfold (eval_scalar c o) (firstn (S j) (map (fun k => nth (i * n + k) d dflt) (seq 0 n))) = Ok y /\
      same_number (nth j out dflt) y).
  { intros i Hi. apply known_row; auto. nia. }
  assert (HM : exists rows, mapM (fun i => scan_row (eval_scalar c o) true d (i * n) n) (seq 0 (vol s)) = Ok rows).
  { destruct (mapM_cases (fun i => scan_row (eval_scalar c o) true d (i * n) n) (seq 0 (vol s))) as [H|(i & Hi & F)]; auto.
    apply in_seq in Hi. destruct (HR i ltac:(lia)) as (out & Eo & _). rewrite Eo in F. destruct F. }
  destruct HM as (rows & Em). pose proof (mapM_Ok_len _ _ _ Em) as LM. rewrite seq_length in LM.
  assert (RO : forall i, i < vol s -> exists out, nth_error rows i = Some out /\ length out = n /\
    forall j, j < n -> exists y, rfold (eval_scalar c o) (firstn (S j) (map (fun k => nth (i * n + k) d dflt) (seq 0 n))) = Ok y /\
      same_number (nth j out dflt) y).
  { intros i Hi. destruct (mapM_Ok_nth _ _ _ Em i i) as (out & Eo & Ex).
    - rewrite (nth_error_nth' _ 0) by (rewrite seq_length; lia). rewrite seq_nth by lia. reflexivity.
    - destruct (HR i Hi) as (out' & Eo' & H). rewrite Ex in Eo'. injection Eo' as ->. eauto. }
  set (f := fun i => nth i rows []).
  assert (Er : rows = map f (seq 0 (vol s))) by (symmetry; apply map_nth_seq; auto).
  assert (Lf : forall r, r < vol s -> length (f r) = n).
  { intros r Hr. destruct (RO r Hr) as (out & E & L & _). unfold f. now rewrite (nth_error_nth _ _ _ E). }
  pose proof (concat_nth_rows f (vol s) n Lf) as HC. rewrite <-Er in HC. destruct HC as (LC & NC).
  unfold scan. rewrite app_length. cbn [length].
  destruct (Nat.ltb_spec (length s + 1) 2); [destruct s; cbn in *; [easy|lia]|].
  rewrite last_snoc, init_snoc. destruct (Nat.eqb_spec n 0); [easy|]. change (size s) with (vol s). rewrite Em. cbn [bind].
  destruct (new_matrix_ok (s ++ [n]) (concat rows)) as [[_ ->]|[N _]]; [apply snoc_nonnil|now rewrite vol_snoc| |easy].
  exists (VMat (s ++ [n]) (concat rows)). split; [easy|]. split; [split; [apply snoc_nonnil|]; split; [now rewrite vol_snoc|easy]|]. split; [easy|].
  intros k j Hk Hj. pose proof (ravel_lt _ _ Hk) as Hr. destruct (RO _ Hr) as (out & Eo & Lo & Ho2). destruct (Ho2 j Hj) as (y & Ey & Hy).
  exists (nth j out dflt), y. split; [|split; [|easy]].
  - unfold elem. cbn [shape_of data_of]. rewrite ravel_snoc by now apply inb_len in Hk. rewrite NC by auto.
    unfold f. rewrite (nth_error_nth _ _ _ Eo). apply nth_error_nth'. lia.
  - rewrite (row_eq _ s) by (cbn; auto; now rewrite vol_snoc). exact Ey.
Qed.

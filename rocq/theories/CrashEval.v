(* C47: elementwise application, reduce, scan, products, each, encode, decode, inv, mdiv. *)
From Verif Require Import Value NumModel ArrModel ArrSpec ArrBase ArrTransp ArrSel EvalModel EncModel InvModel CrashSpec CrashBase CrashArr CrashArr2.
From Coq Require Import ZifyBool ZifyNat.
Open Scope nat_scope.

Definition ok2 (ev : value -> value -> res value) : Prop := forall x y, sound x -> sound y -> fine sound (ev x y).
Definition ok1 (ev : value -> res value) : Prop := forall x, sound x -> fine sound (ev x).
Lemma new_matrix_nil d : d <> [] -> new_matrix [] d = Err.
Proof. unfold new_matrix. intros N. destruct d; [congruence|]. reflexivity. Qed.
Lemma fine_new_matrix0 s d : (s = [] -> d <> []) -> Forall sound d -> fine sound (new_matrix s d).
Proof.
  intros H F. destruct s; [rewrite new_matrix_nil by auto; exact Logic.I|]. apply fine_new_matrix; auto. discriminate.
Qed.
Lemma fine_vec_or_mat s r : (s = [] -> r <> []) -> Forall sound r -> fine sound (vec_or_mat s r).
Proof. intros H F. unfold vec_or_mat. destruct s as [|x [|y s]]; auto using fine_new_matrix0, vec_fine. Qed.

(* ---- elementwise ---- *)
Lemma fine_el_unary fs ev1 v : ok1 fs -> ok1 ev1 -> sound v -> fine sound (el_unary fs ev1 v).
Proof.
  intros F E S. destruct v as [z|z|z|q|a b|l|s d]; try (apply F, S); cbn [el_unary].
  - apply sound_vec in S. eapply fine_bind; [apply (fine_build sound)|].
    + intros k K. eapply fine_bind; [apply fine_at; [exact S|exact K]|]. intros x _ X. now apply E.
    + intros r _ [_ R]. now apply vec_fine.
  - apply sound_mat in S. destruct S as [A S]. eapply fine_bind; [apply (fine_build sound)|].
    + intros k K. eapply fine_bind; [apply fine_at; [exact S|exact K]|]. intros x _ X. now apply E.
    + intros r _ [_ R]. apply fine_new_matrix; tauto.
Qed.
Lemma ok_elementwise1 fs : ok1 fs -> ok1 (elementwise1 fs).
Proof.
  intros F v S. unfold elementwise1. generalize (depth v). intros n. revert v S.
  induction n as [|n IH]; intros v S; cbn [el_unary_fuel]; apply fine_el_unary; auto. intros x _; exact Logic.I.
Qed.
Lemma fine_pair_at ev u v i j : ok2 ev -> Forall sound u -> Forall sound v -> i < length u -> j < length v -> fine sound (pair_at ev u v i j).
Proof.
  intros E FU FV I J. unfold pair_at. eapply fine_bind; [apply fine_at; [exact FU|exact I]|]. intros x _ X.
  eapply fine_bind; [apply fine_at; [exact FV|exact J]|]. intros y _ Y. now apply E.
Qed.
Lemma fine_el_vec ev u v : ok2 ev -> Forall sound u -> Forall sound v -> fine sound (el_vec ev u v).
Proof.
  intros E FU FV. unfold el_vec.
  destruct (Nat.eqb_spec (length u) 1); [|destruct (Nat.eqb_spec (length v) 1); [|destruct (Nat.eqb_spec (length u) (length v)); [cbn [negb]|exact Logic.I]]];
    (eapply fine_bind; [apply (fine_build sound); intros k K; apply fine_pair_at; auto; lia|]; intros r _ [_ R]; now apply vec_fine).
Qed.
Lemma all_ones_vol s : all_ones s = true -> vol s = 1.
Proof.
  induction s as [|x s IH]; [reflexivity|]. cbn [all_ones forallb vol]. intros H. apply andb_prop in H. destruct H as [A B].
  rewrite IH by exact B. lia.
Qed.
Lemma vec_like_vol s t : vec_like s t = true -> vol s = hd 0 s /\ hd 0 s = last_ t /\ t <> [].
Proof.
  unfold vec_like. destruct s as [|x s], t as [|y t]; try discriminate. intros H. apply andb_prop in H. destruct H as [A B].
  cbn [vol hd]. rewrite all_ones_vol by exact B. split; [lia|]. split; [lia|discriminate].
Qed.
Lemma vec_like_mod s t (d : list value) k : vec_like s t = true -> length d = vol t -> k < length d -> k mod hd 0 s < vol s.
Proof.
  intros V L K. destruct (vec_like_vol s t V) as (-> & E & N). rewrite (vol_last t N), <-E in L.
  apply Nat.mod_upper_bound. intros Z. rewrite Z in L. lia.
Qed.
Lemma fine_el_mat ev u v : ok2 ev -> good_mat u -> good_mat v -> fine sound (el_mat ev u v).
Proof.
  intros E. destruct u as [su du], v as [sv dv]. intros (UN & UL & _ & UF) (VN & VL & _ & VF). cbn [fst snd] in *. unfold el_mat.
  destruct (all_ones su) eqn:E1; [|destruct (all_ones sv) eqn:E2; [|destruct (vec_like su sv) eqn:E3; [|destruct (vec_like sv su) eqn:E4;
    [|destruct (shape_eqb su sv) eqn:E5; [cbn [negb]|exact Logic.I]]]]];
    (eapply fine_bind; [apply (fine_build sound); intros k K; apply fine_pair_at; auto|intros r _ [_ R]; now apply fine_new_matrix]).
  - rewrite UL, all_ones_vol by auto. lia.
  - rewrite VL, all_ones_vol by auto. lia.
  - rewrite UL. eapply vec_like_mod; eauto.
  - rewrite VL. eapply vec_like_mod; eauto.
  - apply shape_eqb_eq in E5. subst. congruence.
Qed.
Lemma fine_el_binary fs ev u v : ok2 fs -> ok2 ev -> sound u -> sound v -> fine sound (el_binary fs ev u v).
Proof.
  intros F E Su Sv. unfold el_binary. destruct (_ && _); [now apply F|]. apply fine_alv; auto; intros; [now apply fine_el_vec|now apply fine_el_mat].
Qed.
Lemma ok_elementwise fs : ok2 fs -> ok2 (elementwise fs).
Proof.
  intros F u v Su Sv. unfold elementwise. generalize (depth u + depth v). intros n. revert u v Su Sv.
  induction n as [|n IH]; intros u v Su Sv; cbn [el_binary_fuel]; apply fine_el_binary; auto. intros x y _ _; exact Logic.I.
Qed.

(* ---- reduce ---- *)
Lemma fine_reduce_down ev l step : ok2 ev -> Forall sound l -> forall n pos acc, sound acc -> pos < length l -> (n <> 0 -> 0 < length l) ->
  fine sound (reduce_down ev l step pos n acc).
Proof.
  intros E F. induction n as [|n IH]; intros pos acc A P H; cbn [reduce_down]; [exact A|].
  eapply fine_bind; [apply fine_at; [exact F|lia]|]. intros x _ X. eapply fine_bind; [now apply E|]. intros a _ Sa.
  apply IH; auto; lia.
Qed.
Lemma fine_vec_reduce ev l : ok2 ev -> Forall sound l -> fine sound (vec_reduce ev l).
Proof.
  intros E F. unfold vec_reduce. destruct l as [|x l]; [now apply vec_fine|]. set (t := x :: l) in *.
  assert (0 < length t) as L by (cbn; lia).
  eapply fine_bind; [apply fine_at; [exact F|lia]|]. intros a _ A. apply fine_reduce_down; auto; lia.
Qed.
Lemma init_nonnil (s : list nat) : 2 <= length s -> init_ s <> [].
Proof. destruct s as [|a [|b s]]; cbn; try lia. discriminate. Qed.
Lemma ok_reduce ev : ok2 ev -> ok1 (reduce ev).
Proof.
  intros E v S. destruct v as [z|z|z|q|a b|l|s d]; try exact S; try exact Logic.I; cbn [reduce].
  - apply sound_vec in S. now apply fine_vec_reduce.
  - apply sound_mat in S. destruct S as [(N & L & LG) F]. destruct (Nat.ltb_spec (length s) 2); [exact Logic.I|].
    destruct (Nat.eqb_spec (last_ s) 0); [exact Logic.I|]. cbv zeta. rewrite (vol_last s N) in L.
    change (size (init_ s)) with (vol (init_ s)).
    eapply fine_bind; [apply (fine_build sound)|].
    + intros i I. assert (last_ s * i + last_ s - 1 < length d) as P by nia.
      eapply fine_bind; [apply fine_at; [exact F|exact P]|]. intros a _ A. apply fine_reduce_down; auto. lia.
    + intros r _ [_ R]. apply fine_vec_or_mat; auto. intros Z. exfalso. now apply (init_nonnil s).
Qed.
Lemma ok_reduce_first ev : ok2 ev -> ok1 (reduce_first ev).
Proof.
  intros E v S. destruct v as [z|z|z|q|a b|l|s d]; try (apply (ok_reduce ev E _ S)). cbn [reduce_first].
  apply sound_mat in S. destruct S as [(N & L & LG) F]. destruct (Nat.ltb_spec (length s) 2); [exact Logic.I|].
  destruct (Nat.eqb_spec (hd 0 s) 0); [exact Logic.I|]. destruct s as [|x s]; [congruence|]. cbn [hd tl vol length] in *.
  change (size s) with (vol s). destruct (Nat.eqb_spec (vol s) 0); [exact Logic.I|].
  eapply fine_bind; [apply (fine_build sound)|].
  - intros i I. assert (i + length d - vol s < length d) as P by nia. cbv zeta.
    eapply fine_bind; [apply fine_at; [exact F|exact P]|]. intros a _ A. apply fine_reduce_down; auto. lia.
  - intros r _ [_ R]. apply fine_vec_or_mat; auto. intros ->. cbn in *. lia.
Qed.

(* ---- scan ---- *)
Lemma fine_scan_left ev l : ok2 ev -> Forall sound l -> forall n pos acc, sound acc -> pos + n <= length l ->
  fine (Forall sound) (scan_left ev l pos n acc).
Proof.
  intros E F. induction n as [|n IH]; intros pos acc A P; cbn [scan_left]; [constructor|].
  eapply fine_bind; [apply fine_at; [exact F|lia]|]. intros x _ X. eapply fine_bind; [now apply E|]. intros a _ Sa.
  eapply fine_bind; [apply IH; auto; lia|]. intros r _ R. now constructor.
Qed.
Lemma fine_scan_row ev assoc l i n : ok2 ev -> Forall sound l -> n <> 0 -> i + n <= length l -> fine (Forall sound) (scan_row ev assoc l i n).
Proof.
  intros E F N L. unfold scan_row. eapply fine_bind; [apply fine_at; [exact F|lia]|]. intros x _ X.
  eapply fine_bind with (P := Forall sound).
  - destruct assoc; [apply fine_scan_left; auto; lia|]. eapply fine_weak; [|apply (fine_mapM sound)]; [now intros a [_ ?]|].
    intros j _. apply fine_vec_reduce; auto. apply firstn_sound, skipn_sound, F.
  - intros r _ R. now constructor.
Qed.
Lemma ok_scan ev a : ok2 ev -> ok1 (scan ev a).
Proof.
  intros E v S. destruct v as [z|z|z|q|re im|l|s d]; try exact S; try exact Logic.I; cbn [scan].
  - apply sound_vec in S as S'. destruct l as [|x l]; [exact S|]. eapply fine_bind; [apply fine_scan_row; auto; discriminate|].
    intros r _ R. now apply vec_fine.
  - apply sound_mat in S. destruct S as [(N & L & LG) F]. destruct (Nat.ltb_spec (length s) 2); [exact Logic.I|].
    destruct (Nat.eqb_spec (last_ s) 0); [exact Logic.I|]. cbv zeta. rewrite (vol_last s N) in L.
    change (size (init_ s)) with (vol (init_ s)). eapply fine_bind; [apply (fine_mapM (Forall sound))|].
    + intros i I. apply in_seq in I. apply fine_scan_row; auto. nia.
    + intros r _ [_ R]. apply fine_new_matrix; auto. now apply concat_sound.
Qed.
Lemma fine_transpose c s d : sound (VMat s d) -> 2 <= length s -> last_ s <> 0 ->
  fine (fun v => sound v /\ exists d', v = VMat (rev s) d') (transpose c s d).
Proof.
  intros S L2 Z. pose proof S as S0. apply sound_mat in S. destruct S as [(N & L & LG) F].
  assert (forall x, s <> [x; 0]) as NX by (intros x ->; now apply Z).
  pose proof (transpose_ok c s d N L NX) as G.
  assert (fine sound (transpose c s d)) as H.
  { eapply gives_fine; [| |exact G].
    - intros E. apply (f_equal (@rev nat)) in E. rewrite rev_involutive in E. auto.
    - intros k x _. now apply nth_sound. }
  destruct G as [[_ (v & R & W & E & _)]|[_ R]]; rewrite R in *; [|exact Logic.I]. split; [exact H|].
  destruct v; cbn [shape_of] in E; try (apply (f_equal (@length nat)) in E; rewrite rev_length in E; cbn in E; lia). subst. eauto.
Qed.
Lemma last_rev (s : list nat) : last_ (rev s) = hd 0 s.
Proof. unfold last_. destruct s as [|x s]; [reflexivity|]. cbn [rev hd]. apply last_last. Qed.
Lemma new_matrix_mat s d w : new_matrix s d = Ok w -> w = VMat s d.
Proof. unfold new_matrix. destruct (too_large _); [discriminate|]. destruct (_ =? _); [|discriminate]. now intros [= <-]. Qed.
Lemma scan_mat ev a s d w : scan ev a (VMat s d) = Ok w -> last_ s <> 0 /\ exists d', w = VMat s d'.
Proof.
  cbn [scan]. destruct (_ <? 2); [discriminate|]. destruct (Nat.eqb_spec (last_ s) 0); [discriminate|].
  destruct (mapM _ _); try discriminate. cbn [bind]. intros H. apply new_matrix_mat in H. eauto.
Qed.
Lemma ok_scan_first c ev a : ok2 ev -> ok1 (scan_first c ev a).
Proof.
  intros E v S. destruct v as [z|z|z|q|re im|l|s d]; try (apply (ok_scan ev a E _ S)). cbn [scan_first].
  destruct (Nat.ltb_spec (length s) 2) as [|L2]; [exact Logic.I|]. destruct (Nat.eqb_spec (last_ s) 0) as [|Z]; [exact Logic.I|].
  eapply fine_bind; [apply (fine_transpose c s d S L2 Z)|]. intros t _ (St & d' & ->).
  eapply fine_bind; [apply (ok_scan ev a E _ St)|]. intros w R Sw. destruct (scan_mat _ _ _ _ _ R) as (Z2 & d2 & ->).
  eapply fine_weak; [|apply fine_transpose]; auto; [now intros ? [? _]|]. now rewrite rev_length.
Qed.

(* ---- products ---- *)
Lemma fine_outer_pairs ev u v : ok2 ev -> Forall sound u -> Forall sound v ->
  fine (fun r => length r = length u * length v /\ Forall sound r)
    (build (length u * length v) (fun x => pair_at ev u v (x / length v) (x mod length v))).
Proof.
  intros E FU FV. apply fine_build. intros k K. apply fine_pair_at; auto.
  - apply Nat.div_lt_upper_bound; lia.
  - apply Nat.mod_upper_bound. lia.
Qed.
Lemma ok_outer ev : ok2 ev -> ok2 (outer ev).
Proof.
  intros E u v Su Sv. apply fine_alv; auto.
  - intros a b FA FB _ _ _ _. unfold outer_vec. eapply fine_bind; [apply fine_outer_pairs; auto|]. intros r _ [_ R].
    apply fine_new_matrix; auto. discriminate.
  - intros _ (N & _ & _ & FA) (_ & _ & _ & FB). unfold outer_mat. eapply fine_bind; [apply fine_outer_pairs; auto|]. intros r _ [_ R].
    apply fine_new_matrix; auto. intros Z. apply app_eq_nil in Z. tauto.
Qed.
Lemma fine_inner_down evl evr ui vj : ok2 evl -> ok2 evr -> forall k acc, sound acc ->
  (forall i, i < k -> fine sound (ui i)) -> (forall i, i < k -> fine sound (vj i)) -> fine sound (inner_down evl evr ui vj k acc).
Proof.
  intros L R. induction k as [|k IH]; intros acc A U V; cbn [inner_down]; [exact A|].
  eapply fine_bind; [apply U; lia|]. intros x _ X. eapply fine_bind; [apply V; lia|]. intros y _ Y.
  eapply fine_bind; [now apply R|]. intros p _ P. eapply fine_bind; [now apply L|]. intros a _ Sa. apply IH; auto.
Qed.
Lemma fine_inner_at evl evr ui vj n : ok2 evl -> ok2 evr -> n <> 0 ->
  (forall i, i < n -> fine sound (ui i)) -> (forall i, i < n -> fine sound (vj i)) -> fine sound (inner_at evl evr ui vj n).
Proof.
  intros L R N U V. unfold inner_at.
  eapply fine_bind; [apply U; lia|]. intros x _ X. eapply fine_bind; [apply V; lia|]. intros y _ Y.
  eapply fine_bind; [now apply R|]. intros a _ A. apply fine_inner_down; auto; intros i I; [apply U|apply V]; lia.
Qed.
Lemma fine_inner_vec evl evr u v : ok2 evl -> ok2 evr -> Forall sound u -> Forall sound v -> fine sound (inner_vec evl evr u v).
Proof.
  intros L R FU FV. unfold inner_vec. destruct (Nat.eqb_spec (length u) (length v)); [cbn [negb]|exact Logic.I].
  destruct (Nat.eqb_spec (length u) 0); [exact Logic.I|].
  apply fine_inner_at; auto; intros i I; apply fine_at; auto; lia.
Qed.
Lemma fine_inner_mat evl evr u v : ok2 evl -> ok2 evr -> good_mat u -> good_mat v -> ~ In 0 (fst v) -> fine sound (inner_mat evl evr u v).
Proof.
  intros L R. destruct u as [su du], v as [sv dv]. intros (UN & UL & _ & UF) (VN & VL & _ & VF) NZ. cbn [fst snd] in *. unfold inner_mat.
  destruct ((length su <? 1) || (length sv <? 1) || negb (last_ su =? hd 0 sv)) eqn:E; [exact Logic.I|].
  assert (last_ su = hd 0 sv) as EQ by lia. destruct sv as [|n sv]; [congruence|]. cbn [hd tl] in *.
  destruct (Nat.eqb_spec n 0) as [->|Z]; [exfalso; apply NZ; now left|]. cbv zeta. cbn [vol] in VL.
  assert (length dv / n = vol sv) as -> by (rewrite VL, Nat.mul_comm; now apply Nat.div_mul).
  assert (length du / n = vol (init_ su)) as DU by (rewrite UL, (vol_last su UN), EQ; now apply Nat.div_mul). rewrite DU.
  eapply fine_bind; [apply (fine_build sound)|].
  - intros x X. assert (vol sv <> 0) as Y by lia.
    assert (x / vol sv < vol (init_ su)) as A by (apply Nat.div_lt_upper_bound; lia).
    pose proof (Nat.mod_upper_bound x (vol sv) Y) as B.
    apply fine_inner_at; auto; intros i I; apply fine_at; auto; [rewrite UL, (vol_last su UN), EQ|rewrite VL]; nia.
  - intros r _ [LR FR]. apply fine_vec_or_mat; auto. intros A ->. apply app_eq_nil in A. destruct A as [A ->].
    rewrite A in LR. cbn in LR. lia.
Qed.
Lemma fine_inner evl evr u v : ok2 evl -> ok2 evr -> sound u -> sound v -> clear u v -> fine sound (inner evl evr u v).
Proof.
  intros L R Su Sv CL. apply fine_alv; auto; [intros; now apply fine_inner_vec|]. intros M GU GV.
  apply fine_inner_mat; auto. apply not_empty_mat. now apply CL.
Qed.

(* ---- each ---- *)
Lemma fine_each_value v dim : sound v -> dim <= length (fst (to_mat v)) -> fine (Forall sound) (each_value v dim).
Proof.
  intros S L. unfold each_value. assert (Forall sound [v]) as S1 by (constructor; [exact S|constructor]).
  destruct (Nat.eqb_spec dim 0); [exact S1|]. destruct v as [z|z|z|q|re im|l|s d]; try exact S1; cbn [to_mat fst length] in L.
  - destruct (Nat.eqb_spec dim 1); [cbn [negb]|lia]. now apply sound_vec.
  - destruct (Nat.ltb_spec (length s) dim); [lia|]. apply sound_mat in S. destruct S as [_ F]. unfold each_matrix.
    destruct (Nat.eqb_spec dim (length s)); [exact F|]. cbv zeta. eapply fine_weak; [|apply (fine_mapM sound)]; [now intros a [_ ?]|].
    intros i _. assert (forall a b, Forall sound (slice d a b)) as SL by (intros; apply firstn_sound, skipn_sound, F).
    destruct (dim =? length s - 1); [apply vec_fine, SL|]. apply fine_new_matrix; [|apply SL].
    intros E. apply (f_equal (@length nat)) in E. rewrite skipn_length in E. cbn in E. lia.
Qed.
Lemma fine_each ev1 n v : (forall k, ok1 (ev1 k)) -> sound v -> fine sound (each ev1 n v).
Proof.
  intros E S. unfold each. cbv zeta. destruct (Nat.eqb_spec (Nat.min n (length (fst (to_mat v)))) 0); [exact Logic.I|].
  eapply fine_bind; [apply fine_each_value; [exact S|lia]|]. intros xs _ F.
  eapply fine_bind; [apply (fine_mapM sound)|].
  - intros x X. apply E. rewrite Forall_forall in F. auto.
  - intros r _ [_ R]. destruct (_ =? 1); [now apply vec_fine|]. apply fine_new_matrix; auto.
    intros Z. apply (f_equal (@length nat)) in Z. rewrite firstn_length in Z. cbn in Z. lia.
Qed.
Lemma each_value_zero v : each_value v 0 = Ok [v].
Proof. reflexivity. Qed.
Lemma fine_binary_each ev nl nr u v : (forall k l, ok2 (ev k l)) -> sound u -> sound v -> fine sound (binary_each ev nl nr u v).
Proof.
  intros E Su Sv. unfold binary_each. cbv zeta. set (ld := Nat.min nl (length (fst (to_mat u)))). set (rd := Nat.min nr (length (fst (to_mat v)))).
  destruct ((ld =? 0) && (0 <? nl)); [exact Logic.I|].
  eapply fine_bind; [apply fine_each_value; [exact Su|unfold ld; lia]|]. intros xs EX FX.
  destruct ((rd =? 0) && (0 <? nr)); [exact Logic.I|].
  eapply fine_bind; [apply fine_each_value; [exact Sv|unfold rd; lia]|]. intros ys EY FY.
  rewrite Forall_forall in FX, FY.
  eapply fine_bind; [apply (fine_mapM (fun r => length r = length ys /\ Forall sound r))|].
  - intros x X. apply (fine_mapM sound). intros y Y. apply E; auto.
  - intros r _ [LR R]. assert (Forall sound (concat r)) as C by (apply concat_sound; eapply Forall_impl; [|exact R]; now intros a [_ ?]).
    destruct (ld + rd =? 1); [now apply vec_fine|]. apply fine_new_matrix0; auto. intros Z.
    apply app_eq_nil in Z. destruct Z as [Z1 Z2]. apply (f_equal (@length nat)) in Z1, Z2. rewrite firstn_length in Z1, Z2. cbn [length] in *.
    assert (ld = 0) as L0 by (unfold ld in *; lia). assert (rd = 0) as R0 by (unfold rd in *; lia).
    rewrite L0, each_value_zero in EX. rewrite R0, each_value_zero in EY. injection EX as <-. injection EY as <-.
    cbn [length] in *. destruct r as [|a [|b r]]; try (cbn in LR; lia). inversion R as [|? ? [LA _] _]; subst.
    destruct a; [cbn in LA; lia|]. discriminate.
Qed.
Lemma ok_each_again f fuel : ok1 f -> forall n, ok1 (each_again f fuel n).
Proof.
  intros F. induction fuel as [|fuel IH]; intros n v S; cbn [each_again]; apply fine_each; auto; intros k x X; destruct k; auto; try exact Logic.I.
  now apply IH.
Qed.
Lemma ok_each2_again f fuel : ok2 f -> forall nl nr, ok2 (each2_again f fuel nl nr).
Proof.
  intros F. induction fuel as [|fuel IH]; intros nl nr u v Su Sv; cbn [each2_again]; apply fine_binary_each; auto;
    intros k l x y X Y; destruct (k + l); auto; try exact Logic.I. now apply IH.
Qed.

(* ---- encode, decode ---- *)
Lemma fine_get l n i : Forall sound l -> n = length l \/ length l = 1 -> i < n -> fine sound (get l i).
Proof. intros F L I. unfold get. destruct (Nat.eqb_spec (length l) 1); apply fine_at; auto; lia. Qed.
Lemma fine_decode_from add mul a b : ok2 add -> ok2 mul -> forall i r p, sound r -> sound p ->
  (forall k, k < i -> fine sound (a k)) -> (forall k, k < i -> fine sound (b k)) -> fine sound (decode_from add mul a b i r p).
Proof.
  intros HA HM. induction i as [|i IH]; intros r p R P A B; cbn [decode_from]; [exact R|].
  eapply fine_bind; [apply B; lia|]. intros x _ X. eapply fine_bind; [now apply HM|]. intros t _ T.
  eapply fine_bind; [now apply HA|]. intros r' _ R'. eapply fine_bind; [apply A; lia|]. intros y _ Y.
  eapply fine_bind; [now apply HM|]. intros p' _ P'. apply IH; auto.
Qed.
Lemma fine_decode add mul u v : ok2 add -> ok2 mul -> sound u -> sound v -> clear u v -> fine sound (op_decode add mul u v).
Proof.
  intros HA HM Su Sv CL. unfold op_decode. eapply fine_bind; [apply fine_to_vec, Su|]. intros A EA FA.
  assert (fine sound (let! B := to_vec v in decode_vec add mul A B)) as V.
  { eapply fine_bind; [apply fine_to_vec, Sv|]. intros B _ FB. unfold decode_vec.
    destruct ((length A =? 0) || (length B =? 0)) eqn:Z; [exact Logic.I|]. destruct (forallb _ A); [exact Logic.I|].
    destruct ((length A =? 1) || (length B =? 1) || (length A =? length B)) eqn:Q; [|exact Logic.I].
    apply fine_decode_from; auto; try exact Logic.I; intros k K; (eapply fine_get; [assumption| |exact K]; lia). }
  destruct v as [z|z|z|q|re im|l|s d]; auto. destruct (CL (or_intror Logic.I)) as [NU NV].
  apply sound_mat in Sv. destruct Sv as [(N & L & LG) F]. unfold decode_mat. destruct s as [|s0 s]; [congruence|].
  assert (s0 <> 0) as Z by (intros ->; apply NV; now left). assert (length A <> 0) as ZA.
  { intros E. apply NU. destruct u as [z'|z'|z'|q'|re' im'|l'|s' d']; cbn [to_vec] in EA; try (injection EA as <-; discriminate).
    - injection EA as ->. unfold empty_axis. cbn. now left.
    - discriminate. }
  destruct (negb (length A =? 1) && negb (s0 =? 1) && negb (length A =? s0)) eqn:Q; [exact Logic.I|].
  destruct (Nat.eqb_spec s0 0); [congruence|]. cbv zeta. cbn [vol] in L.
  assert (length d / s0 = vol s) as LD by (rewrite L, Nat.mul_comm; now apply Nat.div_mul). rewrite LD.
  eapply fine_bind; [apply (fine_build sound)|].
  - intros j J. unfold decode_cell. apply fine_decode_from; auto; try exact Logic.I; intros k K.
    + eapply fine_get; [exact FA| |exact K]. lia.
    + apply fine_at; auto. rewrite L. destruct (Nat.ltb_spec 1 s0); nia.
  - intros r _ [LR R]. destruct (length s =? 1); [now apply vec_fine|]. apply fine_new_matrix0; auto. intros -> ->. cbn in LR. lia.
Qed.
Lemma fine_digits_from bases : forall b, sound b -> fine (Forall sound) (digits_from bases b).
Proof.
  induction bases as [|a bases IH]; intros b S; cbn [digits_from]; [constructor|].
  eapply fine_bind; [apply fine_quorem, S|]. intros p _ [P1 P2]. eapply fine_bind; [apply IH, P1|]. intros ds _ D. now constructor.
Qed.
Lemma fine_digits A b : sound b -> fine (Forall sound) (digits A b).
Proof. intros S. unfold digits. eapply fine_bind; [apply fine_digits_from, S|]. intros ds _ D. cbn. now apply Forall_rev. Qed.
Lemma fine_columns A B : Forall sound B -> fine (Forall sound) (encode_columns A B).
Proof.
  intros F. unfold encode_columns. eapply fine_bind; [apply (fine_mapM (Forall sound))|].
  - intros b I. apply fine_digits. rewrite Forall_forall in F. auto.
  - intros cols _ [_ C]. cbn. apply concat_sound. apply Forall_forall. intros x X. apply in_map_iff in X. destruct X as (i & <- & _).
    apply Forall_forall. intros y Y. apply in_map_iff in Y. destruct Y as (col & <- & Y). rewrite Forall_forall in C. specialize (C col Y).
    destruct (Nat.lt_ge_cases i (length col)) as [H|H]; [|rewrite nth_overflow by lia; exact Logic.I].
    rewrite Forall_forall in C. apply C. now apply nth_In.
Qed.
Lemma fine_encode_vec A B : Forall sound B -> fine sound (encode_vec A B).
Proof.
  intros F. unfold encode_vec. destruct (forallb _ A); [exact Logic.I|].
  assert (fine sound (let! elems := encode_columns A B in new_matrix [length A; length B] elems)) as D.
  { eapply fine_bind; [apply fine_columns, F|]. intros r _ R. apply fine_new_matrix; auto. discriminate. }
  assert (forall b, B = [b] -> fine sound (let! ds := digits A b in Ok (VVec ds))) as D1.
  { intros b ->. inversion F; subst. eapply fine_bind; [apply fine_digits; assumption|]. intros ds _ R. now apply vec_fine. }
  assert (forall a, fine sound (let! l := mapM (fun b => let! p := quorem b a in Ok (snd p)) B in Ok (VVec l))) as D2.
  { intros a. eapply fine_bind; [apply (fine_mapM sound)|].
    - intros b I. rewrite Forall_forall in F. eapply fine_bind; [apply fine_quorem; auto|]. now intros p _ [_ ?].
    - intros r _ [_ R]. now apply vec_fine. }
  destruct A as [|a [|a' A]], B as [|b [|b' B]]; auto.
  inversion F; subst. eapply fine_bind; [apply fine_quorem; assumption|]. now intros p _ [_ ?].
Qed.
Lemma ok_encode : ok2 op_encode.
Proof.
  intros u v Su Sv. unfold op_encode. eapply fine_bind; [apply fine_to_vec, Su|]. intros A _ FA.
  assert (fine sound (let! B := to_vec v in encode_vec A B)) as V.
  { eapply fine_bind; [apply fine_to_vec, Sv|]. intros B _ FB. now apply fine_encode_vec. }
  destruct v; auto. apply sound_mat in Sv. unfold encode_mat. eapply fine_bind; [apply fine_columns; tauto|]. intros r _ R.
  apply fine_new_matrix; auto. discriminate.
Qed.

(* ---- inv, mdiv ---- *)
Lemma fine_foldR {A S} (P : S -> Prop) (f : S -> A -> res S) l : forall s, P s -> (forall s a, P s -> In a l -> fine P (f s a)) -> fine P (foldR f l s).
Proof.
  induction l as [|a l IH]; intros s H F; cbn [foldR]; [exact H|].
  eapply fine_bind; [apply F; [exact H|now left]|]. intros s' _ H'. apply IH; auto. intros. apply F; auto. now right.
Qed.
Definition tableau (n : nat) (t : list (list value)) : Prop := length t = n /\ Forall (fun r => length r = 2 * n /\ Forall sound r) t.
Lemma fine_row n t y : tableau n t -> y < n -> fine (fun r => length r = 2 * n /\ Forall sound r) (row_at t y).
Proof.
  intros [L F] H. unfold row_at. destruct (nth_error t y) eqn:E.
  - apply nth_error_In in E. rewrite Forall_forall in F. now apply F.
  - apply nth_error_None in E. lia.
Qed.
Lemma put_tableau n t y r : tableau n t -> length r = 2 * n -> Forall sound r -> tableau n (put_row t y r).
Proof.
  intros [L F] LR FR. unfold put_row. split; [rewrite map_length, seq_length; exact L|].
  apply Forall_forall. intros x X. apply in_map_iff in X. destruct X as (i & <- & I). apply in_seq in I.
  destruct (i =? y); [auto|]. rewrite Forall_forall in F. apply F. apply nth_In. lia.
Qed.
Lemma fine_augment n d : n * n <= length d -> Forall sound d -> fine (tableau n) (augment n d).
Proof.
  intros L F. unfold augment. eapply fine_weak; [|apply (fine_mapM (fun r => length r = 2 * n /\ Forall sound r))].
  - intros t [LT FT]. rewrite seq_length in LT. split; [exact LT|exact FT].
  - intros y Y. apply in_seq in Y. eapply fine_bind; [apply (fine_mapM sound)|].
    + intros x X. apply in_seq in X. apply fine_at; auto. nia.
    + intros l _ [LL FL]. rewrite seq_length in LL. cbn [fine]. rewrite app_length, map_length, seq_length. split; [lia|].
      apply Forall_app. split; auto. apply Forall_forall. intros x X. apply in_map_iff in X. destruct X as (i & <- & _). now destruct (_ =? _).
Qed.
Section Inv.
Variables (ev : bop -> value -> value -> res value) (ev1 : uop -> value -> res value).
Hypotheses (OK2 : forall o, ok2 (ev o)) (OK1 : forall o, ok1 (ev1 o)).
Set Default Proof Using "OK1 OK2".
Lemma fine_find n t x y rows : tableau n t -> x < n -> Forall (fun k => k < n) rows ->
  fine (fun o => match o with Some k => k < n | None => True end) (find_target t x y rows).
Proof using.
  intros T X. induction rows as [|k rows IH]; intros F; cbn [find_target]; [exact Logic.I|]. inversion F; subst.
  destruct (k =? y); auto. eapply fine_bind; [eapply fine_row; eauto|]. intros r _ [L R].
  eapply fine_bind; [apply fine_at; [exact R|lia]|]. intros v _ _. destruct (isZero v); auto.
Qed.
Lemma fine_inv_step n x t y : tableau n t -> x < n -> y < n -> fine (tableau n) (inv_step ev ev1 n x t y).
Proof.
  intros T X Y. unfold inv_step. eapply fine_bind; [eapply fine_row; eauto|]. intros this _ [L R].
  eapply fine_bind; [apply fine_at; [exact R|lia]|]. intros v _ V. destruct (negb _); [exact Logic.I|].
  destruct (y =? x).
  - destruct (isZero v); [exact Logic.I|]. eapply fine_bind; [now apply OK1|]. intros sc _ SC.
    eapply fine_bind; [apply (fine_mapM sound)|].
    + intros i I. apply in_seq in I. destruct (i =? x); [exact Logic.I|]. eapply fine_bind; [apply fine_at; [exact R|lia]|].
      intros a _ A. now apply OK2.
    + intros r _ [LR FR]. rewrite seq_length in LR. cbn [fine]. now apply put_tableau.
  - destruct (isZero v); [exact T|]. eapply fine_bind; [eapply (fine_find n); eauto; apply Forall_forall; intros k K; apply in_seq in K; lia|].
    intros [k|] _ K; [|exact Logic.I]. eapply fine_bind; [eapply fine_row; eauto|]. intros row _ [LW W].
    eapply fine_bind; [apply fine_at; [exact W|lia]|]. intros p _ P. eapply fine_bind; [now apply OK2|]. intros ratio _ RA.
    eapply fine_bind; [apply (fine_mapM sound)|].
    + intros i I. apply in_seq in I. destruct (i =? x); [exact Logic.I|].
      eapply fine_bind; [apply fine_at; [exact R|lia]|]. intros a _ A. eapply fine_bind; [apply fine_at; [exact W|lia]|]. intros b _ B.
      eapply fine_bind; [now apply OK2|]. intros m _ M. now apply OK2.
    + intros r _ [LR FR]. rewrite seq_length in LR. cbn [fine]. now apply put_tableau.
Qed.
Lemma fine_vec_inverse l : Forall sound l -> fine (Forall sound) (vec_inverse ev ev1 l).
Proof.
  intros F. unfold vec_inverse. destruct l as [|a [|b l]]; try exact Logic.I. set (t := a :: b :: l) in *. clearbody t.
  eapply fine_bind; [apply (fine_mapM sound)|].
  { intros x X. rewrite Forall_forall in F. destruct (negb _); [exact Logic.I|]. specialize (F x X). destruct x; auto. now apply OK1. }
  intros cs _ [_ C]. eapply fine_bind; [apply (fine_foldR sound)|].
  - exact Logic.I.
  - intros m p M P. destruct p as [x y]. apply in_combine_l in P as PL. apply in_combine_r in P as PR. rewrite Forall_forall in F, C.
    eapply fine_bind; [apply OK2; cbn; auto|]. intros q _ Q. now apply OK2.
  - intros mag _ M. destruct (isZero mag); [exact Logic.I|]. eapply fine_weak; [|apply (fine_mapM sound)]; [now intros r [_ ?]|].
    intros x X. rewrite Forall_forall in C. apply OK2; auto.
Qed.
Lemma fine_mat_inverse s d : sound (VMat s d) -> ~ In 0 s -> fine (fun v => sound v /\ exists d', v = VMat s d') (mat_inverse ev ev1 s d).
Proof.
  intros S NZ. apply sound_mat in S. destruct S as [(N & L & LG) F].
  assert (forall r, Forall sound r -> fine (fun v => sound v /\ exists d', v = VMat s d') (new_matrix s r)) as NM.
  { intros r R. pose proof (fine_new_matrix s r N R) as H. destruct (new_matrix s r) as [w| | |] eqn:E; auto. apply new_matrix_mat in E.
    split; [exact H|]. eauto. }
  unfold mat_inverse. destruct s as [|n [|m s]]; [exact Logic.I| |].
  - eapply fine_bind; [apply fine_vec_inverse, F|]. intros r _ R. now apply NM.
  - assert (fine (fun v => sound v /\ exists d', v = VMat (n :: m :: s) d')
      (if negb (m =? n) then Err else let! t := augment n d in let! t := foldR (inv_col ev ev1 n) (seq 0 n) t in
        new_matrix (n :: m :: s) (concat (map (skipn n) t)))) as G.
    { destruct (Nat.eqb_spec m n) as [->|]; [cbn [negb]|exact Logic.I].
      assert (vol s <> 0) as VZ by (apply vol_filled; intros H; apply NZ; right; now right). cbn [vol] in L.
      eapply fine_bind; [apply fine_augment; [nia|exact F]|]. intros t _ T.
      eapply fine_bind; [apply (fine_foldR (tableau n))|].
      - exact T.
      - intros t' x T' X. apply in_seq in X. apply fine_foldR; auto. intros t2 y T2 Y. apply in_seq in Y. apply fine_inv_step; auto; lia.
      - intros t' _ [_ T']. apply NM. apply concat_sound. apply Forall_forall. intros r R. apply in_map_iff in R. destruct R as (q & <- & R).
        rewrite Forall_forall in T'. apply skipn_sound. now apply T'. }
    destruct s as [|k [|k' s]]; auto. exact Logic.I.
Qed.
Lemma fine_inverse v : sound v -> ~ (matrix v /\ empty_axis v) -> fine sound (inverse ev ev1 v).
Proof.
  intros S NE. destruct v as [z|z|z|q|re im|l|s d]; cbn [inverse]; try exact Logic.I; try (apply OK1, S).
  - apply sound_vec in S. eapply fine_bind; [apply fine_vec_inverse, S|]. intros r _ R. now apply vec_fine.
  - eapply fine_weak; [|apply fine_mat_inverse; [exact S|]]; [now intros v [? _]|]. intros H. apply NE. split; [exact Logic.I|exact H].
Qed.
Lemma fine_mdiv u v : sound u -> sound v -> clear u v -> fine sound (mdiv ev ev1 u v).
Proof.
  intros Su Sv CL. unfold mdiv. destruct (_ && _); [exact Logic.I|]. apply fine_alv; auto.
  - intros a b FA FB _ _ _ _. unfold mdiv_vec. destruct (negb _); [exact Logic.I|]. destruct (negb _); [exact Logic.I|].
    eapply fine_bind; [apply fine_inner_vec; auto|]. intros x _ X. eapply fine_bind; [apply fine_inner_vec; auto|]. intros y _ Y. now apply OK2.
  - intros M (UN & UL & UG & UF) (VN & VL & VG & VF). unfold mdiv_mat. destruct (CL M) as [NU NV]. apply not_empty_mat in NU, NV.
    eapply fine_bind; [apply fine_mat_inverse; [apply sound_mat; tauto|exact NV]|]. intros i _ (Si & d' & ->).
    apply fine_inner; auto; [apply sound_mat; tauto|]. intros _. split; [exact NV|exact NU].
Qed.
End Inv.

(* A logic of outcomes for C47, and the scalar operators. *)
From Verif Require Import Value NumModel NumSpec NumProofs ArrModel ArrSpec ArrBase ArrSel EvalModel CrashSpec.
From Coq Require Import ZifyBool.
Open Scope nat_scope.

(* Not a crash, and a value with the property P if there is one. *)
Definition fine {A} (P : A -> Prop) (r : res A) : Prop :=
  match r with Ok a => P a | Crash => False | _ => True end.
Lemma fine_ok {A} (P : A -> Prop) a : P a -> fine P (Ok a). Proof. auto. Qed.
Lemma fine_bind {A B} (P : A -> Prop) (Q : B -> Prop) m f :
  fine P m -> (forall a, m = Ok a -> P a -> fine Q (f a)) -> fine Q (bind m f).
Proof. destruct m; cbn; auto. Qed.
Lemma fine_weak {A} (P Q : A -> Prop) r : (forall a, P a -> Q a) -> fine P r -> fine Q r.
Proof. destruct r; cbn; auto. Qed.
Lemma fine_mapM {A B} (P : B -> Prop) (f : A -> res B) l : (forall x, In x l -> fine P (f x)) ->
  fine (fun r => length r = length l /\ Forall P r) (mapM f l).
Proof.
  induction l as [|x l IH]; intros H; cbn [mapM]; [split; auto|].
  apply fine_bind with (P := P); [apply H; now left|]. intros y _ Py.
  apply fine_bind with (P := fun r => length r = length l /\ Forall P r); [apply IH; intros; apply H; now right|].
  intros ys _ [L F]. cbn. split; [lia|now constructor].
Qed.
Lemma fine_build (P : value -> Prop) n f : (forall k, k < n -> fine P (f k)) ->
  fine (fun r => length r = n /\ Forall P r) (build n f).
Proof.
  intros H. unfold build. eapply fine_weak; [|apply fine_mapM].
  - intros r [L F]. rewrite seq_length in L. split; [exact L|exact F].
  - intros k K. apply in_seq in K. apply H. lia.
Qed.
Lemma fine_at (P : value -> Prop) l i : Forall P l -> i < length l -> fine P (at_ l i).
Proof.
  intros F L. unfold at_. destruct (nth_error l i) eqn:E; cbn.
  - apply nth_error_In in E. rewrite Forall_forall in F. now apply F.
  - apply nth_error_None in E. lia.
Qed.
Lemma fine_foldM {A B} (P : A -> Prop) (f : A -> B -> res A) l : forall a, P a ->
  (forall a x, P a -> In x l -> fine P (f a x)) -> fine P (foldM f l a).
Proof.
  induction l as [|x l IH]; intros a Pa H; cbn [foldM]; [exact Pa|].
  apply fine_bind with (P := P); [apply H; [exact Pa|now left]|]. intros b _ Pb. apply IH; [exact Pb|].
  intros; apply H; [assumption|now right].
Qed.

(* ---- sound values ---- *)
Lemma all_forall (P : value -> Prop) l :
  (fix all (l : list value) : Prop := match l with [] => True | x :: l' => P x /\ all l' end) l <-> Forall P l.
Proof. induction l as [|x l IH]; split; intros H; [constructor|exact Logic.I| |]; [destruct H; constructor; tauto|inversion H; tauto]. Qed.
Lemma sound_vec l : sound (VVec l) <-> Forall sound l.
Proof. cbn [sound]. apply all_forall. Qed.
Lemma sound_mat s d : sound (VMat s d) <-> (s <> [] /\ length d = vol s /\ legal s) /\ Forall sound d.
Proof. cbn [sound]. rewrite all_forall. tauto. Qed.
Lemma sound_wf v : sound v -> wf v.
Proof. destruct v; try (intros; exact Logic.I). rewrite sound_mat. cbn. tauto. Qed.
Lemma sound_int z : sound (VInt z). Proof. exact Logic.I. Qed.
Lemma sound_ints {A} (f : A -> Z) l : Forall sound (map (fun x => VInt (f x)) l).
Proof. apply Forall_forall. intros x H. apply in_map_iff in H. destruct H as (y & <- & _). exact Logic.I. Qed.
Lemma real_sound v : real_number v -> sound v.
Proof. destruct v; cbn; tauto. Qed.

(* The elements and the shape of an operand as a matrix. *)
Definition good_mat (a : list nat * list value) : Prop :=
  fst a <> [] /\ length (snd a) = vol (fst a) /\ legal (fst a) /\ Forall sound (snd a).
Lemma sound_to_mat v : sound v -> good_mat (to_mat v).
Proof.
  intros H. destruct v as [z|z|z|q|a b|l|s d]; unfold good_mat; cbn [to_mat fst snd].
  1-5: (split; [discriminate|]; split; [reflexivity|]; split; [|constructor; [exact H|constructor]]).
  all: try (apply legal_short; cbn; lia).
  - intros k Hk. cbn [length] in Hk. assert (k = 2) as -> by lia. cbn. lia.
  - intros k Hk. cbn [length] in Hk. assert (k = 2) as -> by lia. cbn. lia.
  - apply sound_vec in H. split; [discriminate|]. split; [cbn; lia|]. split; [apply legal_short; cbn; lia|exact H].
  - apply sound_mat in H. tauto.
Qed.
Lemma fine_to_vec v : sound v -> fine (Forall sound) (to_vec v).
Proof.
  intros H. destruct v; cbn [to_vec fine]; try exact Logic.I; try (constructor; [exact H|constructor]). now apply sound_vec.
Qed.
Lemma fine_new_matrix s d : s <> [] -> Forall sound d -> fine sound (new_matrix s d).
Proof.
  intros N F. unfold new_matrix. destruct (too_large s) eqn:T; [exact Logic.I|].
  destruct (_ =? length d) eqn:E; [|exact Logic.I]. unfold fine. apply sound_mat. split; [|exact F].
  split; [exact N|]. apply Nat.eqb_eq in E. split; [destruct s; [congruence|]; rewrite <-E; reflexivity|].
  now apply too_large_legal.
Qed.
Lemma fine_alv fv fm u v : sound u -> sound v ->
  (forall a b, Forall sound a -> Forall sound b -> ~ matrix u -> ~ matrix v -> to_vec u = Ok a -> to_vec v = Ok b -> fine sound (fv a b)) ->
  (matrix u \/ matrix v -> good_mat (to_mat u) -> good_mat (to_mat v) -> fine sound (fm (to_mat u) (to_mat v))) ->
  fine sound (at_least_vector fv fm u v).
Proof.
  intros Su Sv HV HM. unfold at_least_vector. destruct (is_mat u || is_mat v) eqn:E.
  - apply HM; [|now apply sound_to_mat|now apply sound_to_mat]. destruct u; cbn in E |- *; auto; destruct v; cbn in E |- *; auto; discriminate.
  - apply orb_false_iff in E. destruct E as [E1 E2].
    eapply fine_bind; [apply fine_to_vec, Su|]. intros a Ea Fa.
    eapply fine_bind; [apply fine_to_vec, Sv|]. intros b Eb Fb. apply HV; auto; [destruct u|destruct v]; cbn in *; (discriminate || tauto).
Qed.
Lemma to_vec_nonempty u a : to_vec u = Ok a -> empty_axis u -> a = [].
Proof. destruct u; cbn; try discriminate; try tauto. intros [= <-] [H|[]]. now destruct l. Qed.
Lemma empty_to_mat v : In 0 (fst (to_mat v)) -> empty_axis v.
Proof. unfold empty_axis. destruct v; cbn; try tauto; intros H; repeat (destruct H as [H|H]; [discriminate|]); destruct H. Qed.

(* ---- scalars ---- *)
Lemma sound_big z : real_number (shrink_big z).
Proof. unfold shrink_big. now destruct (_ <? _)%Z. Qed.
Lemma sound_maybe z : real_number (maybe_big z).
Proof. unfold maybe_big. now destruct (_ && _). Qed.
Lemma sound_rat q : Qred q = q -> real_number (shrink_rat q).
Proof.
  intros H. unfold shrink_rat. destruct (Pos.eqb_spec (Qden q) 1); [apply sound_big|]. now split.
Qed.
Lemma sound_bool b : real_number (to_int b). Proof. now destruct b. Qed.
Lemma set_frac_red n d : Qred (set_frac n d) = set_frac n d.
Proof. destruct d; cbn [set_frac]; [reflexivity| |]; apply red_red. Qed.
Lemma fine_inverse_real v : fine real_number (inverse_real v).
Proof.
  destruct v; cbn [inverse_real fine]; try exact Logic.I;
    (match goal with |- context [if ?b then _ else _] => destruct b end; [exact Logic.I|]); apply sound_rat, set_frac_red.
Qed.
Lemma fine_logical f u v : fine real_number (logical f u v).
Proof.
  unfold logical. destruct (to_bool u) eqn:E; cbn [bind]; try exact Logic.I.
  - destruct (to_bool v) eqn:E2; cbn [bind fine]; try exact Logic.I; [apply sound_bool|]. destruct v; discriminate.
  - destruct u; discriminate.
Qed.
Lemma fine_must c n : fine (fun _ => True) (must_fit c n).
Proof. unfold must_fit. now destruct (_ && _). Qed.
Lemma fine_exp c j k : fine (fun _ => True) (big_int_exp c j k).
Proof.
  unfold big_int_exp. repeat (match goal with |- context [if ?b then _ else _] => destruct b end; try exact Logic.I).
  all: eapply fine_bind; [apply fine_must|]; cbn; auto.
Qed.
Lemma fine_fact n : fine (fun _ => True) (factorial n).
Proof. unfold factorial. now destruct (_ <? _)%Z. Qed.
Lemma fine_shift z : fine (fun _ => True) (shift_count z).
Proof. unfold shift_count. destruct (shrink_big z); try exact Logic.I. now destruct (_ || _). Qed.
(* NewComplex and shrink *)
Lemma sound_shrink_real v : real_number v -> real_number (shrink_real v).
Proof.
  destruct v; cbn [shrink_real]; intros H; try exact H; [apply sound_big|]. apply sound_rat. apply H.
Qed.
Lemma sound_shrink_cplx a b : real_number a -> real_number b -> sound (shrink_cplx a b).
Proof.
  intros Ha Hb. unfold shrink_cplx. destruct (isZero _); [apply real_sound|split]; now apply sound_shrink_real.
Qed.
(* What the operators on rationals are given: a fraction in lowest terms. *)
Definition lowest (v : value) : Prop := match v with VRat q => Qred q = q | VInt _ | VBig _ => True | _ => False end.
Lemma fine_new_cplx a b : lowest a -> lowest b ->
  fine (fun p => lowest (fst p) /\ lowest (snd p)) (new_cplx a b).
Proof. intros Ha Hb. unfold new_cplx. destruct (_ && _); [now split|exact Logic.I]. Qed.
Lemma shrink_lowest v : lowest v -> real_number (shrink_real v).
Proof. destruct v; cbn [shrink_real]; intros H; try exact H; try contradiction; [apply sound_big|now apply sound_rat]. Qed.
Lemma shrink_cplx_lowest a b : lowest a -> lowest b -> sound (shrink_cplx a b).
Proof.
  intros Ha Hb. unfold shrink_cplx. destruct (isZero _); [apply real_sound|split]; now apply shrink_lowest.
Qed.
Lemma real_lowest v : real_number v -> lowest v.
Proof. destruct v; cbn; tauto. Qed.
Lemma quorem_rat_sound x y : real_number (fst (quorem_rat x y)) /\ real_number (snd (quorem_rat x y)).
Proof.
  unfold quorem_rat. cbv zeta. destruct (_ && _); cbn [fst snd]; (split; [apply sound_big|apply sound_rat, red_red]).
Qed.
(* The remainder; given the dividend back if the divisor is 0. *)
Lemma fine_quorem a b : sound a -> fine (fun p => sound (fst p) /\ sound (snd p)) (quorem a b).
Proof.
  intros Sa. unfold quorem.
  assert (forall r, fine (fun p => sound (fst p) /\ sound (snd p)) r ->
    fine (fun p => sound (fst p) /\ sound (snd p)) (match shrink_real b with VInt 0 => Ok (vzero, a) | _ => r end)) as Z.
  { intros r Hr. destruct (shrink_real b); auto. destruct z; auto. now split. }
  apply Z. clear Z. destruct (arith_type _ _); try exact Logic.I.
  - destruct a, b; try exact Logic.I. unfold quorem_int. cbv zeta. destruct (_ && _); now split.
  - destruct (to_type TBig a) as [a'| | |] eqn:E; cbn [bind]; try exact Logic.I; [|destruct a; discriminate].
    destruct (to_type TBig b) as [b'| | |] eqn:E2; cbn [bind]; try exact Logic.I; [|destruct b; discriminate].
    destruct a', b'; try exact Logic.I. split; apply real_sound, sound_big.
  - destruct (to_type TRat a) as [a'| | |] eqn:E; cbn [bind]; try exact Logic.I; [|destruct a; discriminate].
    destruct (to_type TRat b) as [b'| | |] eqn:E2; cbn [bind]; try exact Logic.I; [|destruct b; discriminate].
    destruct a', b'; try exact Logic.I. cbn [fine]. pose proof (quorem_rat_sound q q0) as [? ?]. split; now apply real_sound.
Qed.

Lemma fine_fn_int c o x y : fine sound (fn_int c o x y).
Proof.
  assert (forall z, fine sound (Ok (VInt z))) as HI by (intros; exact Logic.I).
  assert (forall r, fine real_number r -> fine sound r) as HR by (intros r; apply fine_weak, real_sound).
  destruct o; cbn [fn_int]; try exact Logic.I; try (apply HR, fine_logical); try (apply HR, sound_bool).
  - eapply fine_bind; [apply fine_new_cplx; exact Logic.I|]. intros p _ [? ?]. now apply shrink_cplx_lowest.
  - repeat destruct (_ =? _)%Z; try exact Logic.I. apply HR, sound_maybe.
  - repeat destruct (_ =? _)%Z; try exact Logic.I. apply HR, sound_maybe.
  - repeat destruct (_ || _); try exact Logic.I. apply HR, sound_maybe.
  - now destruct (_ =? _)%Z.
  - now destruct (_ =? _)%Z.
  - eapply fine_bind; [apply fine_quorem; exact Logic.I|]. intros p _ [? ?]. assumption.
  - repeat destruct (_ || _); try exact Logic.I.
    eapply fine_bind; [apply fine_fact|]. intros. eapply fine_bind; [apply fine_fact|]. intros.
    eapply fine_bind; [apply fine_fact|]. intros. apply HR, sound_big.
  - repeat destruct (_ || _); exact Logic.I.
  - repeat destruct (_ || _); exact Logic.I.
  - repeat destruct (_ =? _)%Z; exact Logic.I.
  - now destruct (_ <? _)%Z.
  - now destruct (_ <? _)%Z.
Qed.
Lemma fine_fn_char o x y : fine sound (fn_char o x y).
Proof.
  assert (forall r, fine real_number r -> fine sound r) as HR by (intros r; apply fine_weak, real_sound).
  destruct o; cbn [fn_char]; try exact Logic.I; try (apply HR, fine_logical); try (apply HR, sound_bool); now destruct (_ <? _)%Z.
Qed.
Lemma fine_fn_big c o x y : fine sound (fn_big c o x y).
Proof.
  assert (forall r, fine real_number r -> fine sound r) as HR by (intros r; apply fine_weak, real_sound).
  destruct o; cbn [fn_big]; try exact Logic.I; try (apply HR, fine_logical); try (apply HR, sound_bool); try (apply HR, sound_big).
  - eapply fine_bind; [apply fine_new_cplx; exact Logic.I|]. intros p _ [? ?]. now apply shrink_cplx_lowest.
  - eapply fine_bind; [apply fine_must|]. intros. eapply fine_bind; [apply fine_must|]. intros. apply HR, sound_big.
  - eapply fine_bind; [apply fine_must|]. intros. eapply fine_bind; [apply fine_must|]. intros. apply HR, sound_big.
  - eapply fine_bind; [apply fine_must|]. intros. apply HR, sound_big.
  - destruct (_ =? _)%Z; [exact Logic.I|]. apply HR, sound_big.
  - destruct (_ =? _)%Z; [exact Logic.I|]. apply HR, sound_big.
  - destruct (_ =? _)%Z; [exact Logic.I|]. apply HR, sound_big.
  - eapply fine_bind; [apply fine_quorem; exact Logic.I|]. intros p _ [? ?]. assumption.
  - destruct (_ =? _)%Z; [exact Logic.I|]. destruct (_ <? _)%Z.
    + destruct (_ =? _)%Z; [exact Logic.I|]. eapply fine_bind; [apply fine_exp|]. intros. apply HR, fine_inverse_real.
    + destruct (_ || _); [exact Logic.I|]. eapply fine_bind; [apply fine_exp|]. intros. apply HR, sound_big.
  - eapply fine_bind; [apply fine_shift|]. intros. apply HR, sound_big.
  - eapply fine_bind; [apply fine_shift|]. intros. apply HR, sound_big.
  - destruct (_ <? _)%Z; apply HR, sound_big.
  - now destruct (_ <? _)%Z.
Qed.
Lemma fine_fn_rat c o x y : Qred x = x -> Qred y = y -> (o = BMod -> Qden x <> 1%positive \/ Qnum y <> 0%Z) -> fine sound (fn_rat c o x y).
Proof.
  intros Rx Ry N.
  assert (forall r, fine real_number r -> fine sound r) as HR by (intros r; apply fine_weak, real_sound).
  destruct o; cbn [fn_rat]; try exact Logic.I; try (apply HR, fine_logical); try (apply HR, sound_bool); try (apply HR, sound_rat, red_red).
  - eapply fine_bind; [apply fine_new_cplx; assumption|]. intros p _ [? ?]. now apply shrink_cplx_lowest.
  - destruct (_ =? _)%Z; [exact Logic.I|]. apply HR, sound_rat, red_red.
  - destruct (N eq_refl) as [N1|N1].
    + eapply fine_bind; [apply fine_quorem; now split|]. intros p _ [? ?]. assumption.
    + clear N. unfold quorem. cbn [shrink_real ty arith_type rank_ty to_type bind].
      replace (match shrink_rat y with VInt 0 => _ | _ => _ end) with (Ok (quorem_rat x y)).
      * cbn [bind fine]. apply real_sound, quorem_rat_sound.
      * unfold shrink_rat, shrink_big. destruct (Pos.eqb _ _); [|reflexivity]. destruct (_ <? _)%Z; [|reflexivity].
        destruct (Qnum y); [congruence|reflexivity|reflexivity].
  - destruct (_ =? _)%Z; [exact Logic.I|]. destruct (_ && _); [exact Logic.I|].
    destruct (negb _); [exact Logic.I|]. eapply fine_bind; [apply fine_exp|]. intros.
    eapply fine_bind; [apply fine_exp|]. intros. apply HR. cbn [fine]. destruct (_ <? _)%Z; apply sound_rat, set_frac_red.
  - destruct (q_cmp x y); apply HR, sound_rat; assumption.
  - destruct (q_cmp x y); apply HR, sound_rat; assumption.
Qed.

Lemma red_nonint q : Qred q = q -> Qden q <> 1%positive -> Qnum q <> 0%Z.
Proof. intros R D N. apply D. rewrite (red_num0 q R N). reflexivity. Qed.
Lemma fine_real c o u v : sound u -> sound v -> fine sound (eval_real c o u v).
Proof.
  intros Su Sv. unfold eval_real. destruct (char_equal o u v) eqn:CE.
  { cbn. unfold char_equal in CE. destruct o; try discriminate; destruct (ty u); try discriminate; destruct (ty v); try discriminate; injection CE as <-; exact Logic.I. }
  set (t := which_type o (ty u) (ty v)).
  destruct (to_type t u) as [u'| | |] eqn:Eu; cbn [bind]; try exact Logic.I; [|destruct u, t; discriminate].
  destruct (to_type t v) as [v'| | |] eqn:Ev; cbn [bind]; try exact Logic.I; [|destruct v, t; discriminate].
  destruct u', v'; try exact Logic.I; [apply fine_fn_int|apply fine_fn_char|apply fine_fn_big|].
  assert (Qred q = q) as Rq.
  { destruct u, t; cbn in Eu; try discriminate; injection Eu as <-; try apply red_inject. apply Su. }
  assert (Qred q0 = q0) as Rq0.
  { destruct v, t; cbn in Ev; try discriminate; injection Ev as <-; try apply red_inject. apply Sv. }
  apply fine_fn_rat; auto. intros ->. subst t. destruct u, v; cbn in Eu, Ev; try discriminate;
    injection Eu as <-; injection Ev as <-; first [left; apply Su | right; apply red_nonint; apply Sv].
Qed.
Ltac step := eapply fine_bind; [apply fine_real; assumption|intros ? _ ?].
Lemma fine_pair a b : sound a -> sound b ->
  fine sound (let! p := new_cplx a b in Ok (shrink_cplx (fst p) (snd p))).
Proof.
  intros Ha Hb. unfold new_cplx. destruct (simple_number a && simple_number b) eqn:E; [|exact Logic.I].
  cbn [bind fine fst snd]. apply andb_true_iff in E. destruct E as [E1 E2].
  apply sound_shrink_cplx; [destruct a|destruct b]; cbn in *; auto; discriminate.
Qed.
Lemma fine_pair_res (m : res (value * value)) : fine (fun p => sound (fst p) /\ sound (snd p)) m ->
  (forall p, m = Ok p -> new_cplx (fst p) (snd p) = Ok p) ->
  fine sound (let! p := m in Ok (shrink_cplx (fst p) (snd p))).
Proof.
  intros F N. destruct m as [p| | |]; cbn [bind] in *; try exact Logic.I; [|contradiction].
  pose proof (fine_pair (fst p) (snd p) (proj1 F) (proj2 F)) as H. rewrite (N p eq_refl) in H. exact H.
Qed.
Lemma new_cplx_self a b p : new_cplx a b = Ok p -> new_cplx (fst p) (snd p) = Ok p.
Proof. unfold new_cplx. destruct (_ && _) eqn:E; [|discriminate]. intros [= <-]. cbn [fst snd]. now rewrite E. Qed.
Lemma fine_new_sound a b : sound a -> sound b -> fine (fun p => sound (fst p) /\ sound (snd p)) (new_cplx a b).
Proof. intros. unfold new_cplx. now destruct (_ && _). Qed.
Ltac back := match goal with H : context [bind ?m _] |- _ => destruct m eqn:?; cbn [bind] in H; try discriminate end.
Lemma fine_fn_cplx c o a b d e : sound a -> sound b -> sound d -> sound e -> fine sound (fn_cplx c o a b d e).
Proof.
  intros Ha Hb Hd He.
  assert (forall r, fine real_number r -> fine sound r) as HR by (intros r; apply fine_weak, real_sound).
  destruct o; cbn [fn_cplx]; try exact Logic.I; try (apply HR, fine_logical).
  - apply fine_pair_res; [|intros p E; unfold cplx_addsub in E; repeat back; eapply new_cplx_self, E].
    unfold cplx_addsub. do 2 step. now apply fine_new_sound.
  - apply fine_pair_res; [|intros p E; unfold cplx_addsub in E; repeat back; eapply new_cplx_self, E].
    unfold cplx_addsub. do 2 step. now apply fine_new_sound.
  - apply fine_pair_res; [|intros p E; unfold cplx_mul in E; repeat back; eapply new_cplx_self, E].
    unfold cplx_mul. do 6 step. now apply fine_new_sound.
  - apply fine_pair_res.
    + unfold cplx_div. destruct (_ && _); [exact Logic.I|]. destruct (isZero e); [do 5 step|do 11 step]; now apply fine_new_sound.
    + intros p E. unfold cplx_div in E. destruct (_ && _); [discriminate|]. destruct (isZero e); repeat back; eapply new_cplx_self, E.
  - step. destruct a0; try apply fine_real; auto. destruct z; try apply fine_real; auto.
  - step. destruct a0; try apply fine_real; auto. destruct z; try apply fine_real; auto. destruct p; try apply fine_real; auto.
Qed.
Lemma cplx_parts t v a b : sound v -> to_type t v = Ok (VCplx a b) -> sound a /\ sound b.
Proof.
  intros S E. destruct v, t; cbn in E; try discriminate; injection E as <- <-; try (split; [exact S|exact Logic.I]).
  destruct S. split; now apply real_sound.
Qed.
Lemma fine_scalar c o u v : sound u -> sound v -> fine sound (eval_scalar c o u v).
Proof.
  intros Su Sv. unfold eval_scalar. destruct (char_equal o u v) eqn:CE.
  { cbn. unfold char_equal in CE. destruct o; try discriminate; destruct (ty u); try discriminate; destruct (ty v); try discriminate; injection CE as <-; exact Logic.I. }
  cbv zeta. set (t := which_type o (ty u) (ty v)).
  destruct (to_type t u) as [u'| | |] eqn:Eu; cbn [bind]; try exact Logic.I; [|destruct u, t; discriminate].
  destruct (to_type t v) as [v'| | |] eqn:Ev; cbn [bind]; try exact Logic.I; [|destruct v, t; discriminate].
  destruct u'; try now apply fine_real. destruct v'; try now apply fine_real.
  apply cplx_parts in Eu; [|exact Su]. apply cplx_parts in Ev; [|exact Sv]. apply fine_fn_cplx; tauto.
Qed.
Lemma red_abs q : Qred q = q -> Qred (Qabs.Qabs q) = Qabs.Qabs q.
Proof.
  intros H. destruct q as [n d]. unfold Qabs.Qabs. destruct n as [|p|p]; try exact H. exact (red_opp _ H).
Qed.
Lemma fine_unary_real o v : sound v -> fine sound (eval_unary_real o v).
Proof.
  intros S.
  assert (forall r, fine real_number r -> fine sound r) as HR by (intros r; apply fine_weak, real_sound).
  destruct o, v; cbn [eval_unary_real]; try exact Logic.I; try exact S; try (apply HR, sound_big); try (apply HR, fine_inverse_real).
  - apply HR, sound_rat, red_opp, S.
  - repeat destruct (_ <? _)%Z; exact Logic.I.
  - eapply fine_bind; [apply fine_fact|]. intros. apply HR, sound_big.
  - destruct (_ =? _)%Z; exact Logic.I.
  - destruct (_ =? _)%Z; exact Logic.I.
  - destruct (_ =? _)%Z; exact Logic.I.
  - apply HR, sound_rat, red_abs, S.
  - destruct (Pos.eqb_spec (Qden q) 1) as [E|_]; [destruct S; contradiction|]. apply HR, sound_big.
  - destruct (Pos.eqb_spec (Qden q) 1) as [E|_]; [destruct S; contradiction|]. apply HR, sound_big.
  - apply fine_pair; exact Logic.I.
  - apply fine_pair; exact Logic.I.
  - apply fine_pair; [exact Logic.I|exact S].
Qed.
Ltac ustep := eapply fine_bind; [apply fine_unary_real; assumption|intros ? _ ?].
Lemma fine_unary c o v : sound v -> fine sound (eval_unary_scalar c o v).
Proof.
  intros S. destruct v as [z|z|z|q|a b|l|s d]; try (apply fine_unary_real, S).
  assert (sound a /\ sound b) as [Sa Sb] by (destruct S; split; now apply real_sound).
  destruct o; cbn [eval_unary_scalar]; try exact Logic.I; try assumption.
  - do 2 ustep. now apply fine_pair.
  - destruct (_ && _); [exact Logic.I|]. do 5 step. ustep. now apply fine_pair.
  - cbn [fine]. now destruct (isZero _).
  - ustep. now apply fine_pair.
  - ustep. now apply fine_pair.
Qed.

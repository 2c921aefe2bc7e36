(* Saving and reading back variables: C53. *)
From Coq Require Import String Ascii ZifyBool.
From Verif Require Import Value NumModel NumSpec ArrModel ArrSpec Syntax ExecModel ScanModel ScanSpec ScanNext TextModel TextSpec StrModel StrSpec ReadModel SaveModel SaveSpec SaveRun P_Scan.
Open Scope string_scope.
Open Scope list_scope.
Open Scope Z_scope.

(* C53: the lines )save writes for the variables, executed from any state with the input base
   10 (which a line before them sets), give the variables their values; the rest of the state
   is as before.  What is missing: values that are not saveable, for which the statement is
   false (below), and floating-point numbers. *)
Theorem saved_variables_read_back_partial : forall u_print base letters digits puncts symbols bu bb E vars st s more,
  base = 0 \/ base = 10 ->
  no_digit_operators (scan_ctx base letters digits puncts symbols bu bb st) -> rho_built_in bb E st ->
  Forall (fun p => variable_name (scan_ctx base letters digits puncts symbols bu bb st) (fst p) /\ saveable (snd p)) vars ->
  NoDup (map (fun p => name_of (fst p)) vars) ->
  between_tokens s -> to_come s = put_lines u_print vars ++ more ->
  exists n0 s' st', to_come s' = more /\
    (forall n, (n0 <= n)%nat -> run_text base letters digits puncts symbols bu bb E (length vars) n s st = (map (fun p => Ok [mkR true (snd p)]) vars, st', s')) /\
    (forall x v, In (x, v) vars -> find (globals st') (name_of x) = Some (loud v)) /\
    (forall y, ~ In y (map (fun p => name_of (fst p)) vars) -> find (globals st') y = find (globals st) y) /\
    set_globals st' (globals st) = st.
Proof.
  intros u base le di pu sy bu bb E vars st s more T ND RB F NO B TC.
  destruct (lines_read_back u base le di pu sy bu bb E T vars st s more ND RB F B TC) as (n0 & s' & T' & B' & R).
  exists n0, s'. eexists. split; [exact T'|]. split; [exact R|]. cbn [globals set_globals]. clear - NO.
  assert (FS : forall A (t : table A) k a k', find (store t k a) k' = if String.eqb k' k then Some a else find t k').
  { intros A t k a k'. unfold store. cbn [find]. destruct (String.eqb_spec k' k) as [->|N]; [reflexivity|].
    induction t as [|[q b] t IH]; [reflexivity|]. unfold remove. cbn [filter fst]. destruct (String.eqb_spec k q) as [->|N2]; cbn [negb].
    - cbn [find]. fold (remove t q). rewrite IH. destruct (String.eqb_spec k' q); [contradiction|reflexivity].
    - cbn [find]. fold (remove t k). rewrite IH. reflexivity. }
  assert (OUT : forall vars g y, ~ In y (map (fun p : text * value => name_of (fst p)) vars) ->
     find (fold_left (fun g p => store g (name_of (fst p)) (loud (snd p))) vars g) y = find g y).
  { induction vars0 as [|[x v] vs IH]; intros g y N; [reflexivity|]. cbn [fold_left map fst snd] in *. rewrite IH by (intros X; apply N; right; exact X).
    rewrite FS. destruct (String.eqb_spec y (name_of x)); [|reflexivity]. subst. exfalso. apply N. left. reflexivity. }
  repeat split.
  - revert NO. generalize (globals st). induction vars as [|[x0 v0] vars IH]; intros g NO x v I; [destruct I|]. cbn [map fst] in NO. inversion NO; subst.
    cbn [fold_left fst snd]. destruct I as [I|I]; [injection I as -> ->; rewrite OUT by assumption; rewrite FS, String.eqb_refl; reflexivity|auto].
  - intros y N. apply OUT, N.
  - destruct st; reflexivity.
Qed.
Print Assumptions saved_variables_read_back_partial.

(* The interpreter with its operator names and rho. *)
Definition built_unary (s : string) : bool := existsb (String.eqb s) unary_names.
Definition built_binary (s : string) : bool := existsb (String.eqb s) binary_names.
Definition no_letters (_ : Z) : bool := false.
Definition lift (r : res value) : prog := Done (match r with Ok v => Ok (loud v) | Err => Err | Crash => Crash | Unmod => Unmod end).
Definition nothing {A} (_ : A) : rval -> prog := fun _ => Done Unmod.
Definition save_env : env :=
  mkEnv (mkConf 1000000 1) 1000
    (mkB [] [("rho", fun a b => lift (op_rho (val a) (val b))); ("+", fun a b => lift (Ok (val a)))] nothing nothing nothing nothing nothing
         (fun _ _ _ => Done Unmod) (fun _ _ _ => Done Unmod) (fun _ _ _ => None))
    (fun _ _ _ => LBad).
Definition empty_ctx : ctx := mkCtx [] [] [] [] [] [] [] 0.
Notation ivy_ctx b := (scan_ctx b no_letters no_letters no_letters no_letters built_unary built_binary empty_ctx).
Definition ivy_run (text : text) := run_text 10 no_letters no_letters no_letters no_letters built_unary built_binary save_env 1 20 (new_scanner text) empty_ctx.

(* no operator's name is a number *)
Lemma names_no_numbers10 : no_digit_operators (ivy_ctx 10).
Proof.
  assert (P : forall w j, all_digits w 10 j = true -> Forall (fun r => 48 <= r <= 57 \/ r = 106) w).
  { induction w as [|r w IH]; intros j H; [constructor|]. cbn [all_digits] in H.
    destruct ((r =? 106) && negb j) eqn:Q; [constructor; [right; lia|eauto]|].
    destruct (_ || _ || _) eqn:D; [|discriminate]. constructor; [unfold between in D; lia|eauto]. }
  intros w H NJ NE. unfold defined. cbn [predefined user_binary scan_ctx]. apply P in H.
  assert (B : forall s, name_of w = s -> forall a, In a (list_ascii_of_string s) -> 48 <= Z.of_nat (nat_of_ascii a) <= 57 \/ nat_of_ascii a = 106%nat).
  { intros s <- a. clear NJ NE. unfold name_of. induction H as [|r w Hr H IH]; [intros []|]. cbn [flat_map].
    assert (utf8 r = [r]) as -> by (unfold utf8; replace (r <? 0x80) with true by lia; reflexivity). cbn [app bytes list_ascii_of_string].
    intros [X|X]; [|auto]. subst a. rewrite nat_ascii_embedding by lia. lia. }
  assert (J : name_of w <> "j").
  { intros X. apply NJ. destruct H as [|r w Hr H]; [contradiction|]. unfold name_of in X. cbn [flat_map] in X.
    assert (utf8 r = [r]) as Y by (unfold utf8; replace (r <? 0x80) with true by lia; reflexivity). rewrite Y in X. cbn [app bytes] in X.
    injection X as X1 X2. assert (r = 106). { apply (f_equal nat_of_ascii) in X1. rewrite nat_ascii_embedding in X1 by lia. change (Z.to_nat r = 106%nat) in X1. lia. } subst r.
    destruct H as [|r2 w Hr2 H]; [reflexivity|]. cbn [flat_map] in X2. assert (utf8 r2 = [r2]) as Y2 by (unfold utf8; replace (r2 <? 0x80) with true by lia; reflexivity). rewrite Y2 in X2. discriminate X2. }
  assert (N0 : name_of w <> ""). { intros X. destruct H as [|r w Hr H]; [contradiction|]. unfold name_of in X. cbn [flat_map] in X.
    assert (utf8 r = [r]) as Y by (unfold utf8; replace (r <? 0x80) with true by lia; reflexivity). rewrite Y in X. discriminate X. }
  assert (NO : forall l, forallb (fun s => String.eqb s "j" || existsb (fun a => negb (between 48 (Z.of_nat (nat_of_ascii a)) 57 || Nat.eqb (nat_of_ascii a) 106)) (list_ascii_of_string s)) l = true ->
     existsb (String.eqb (name_of w)) l = false).
  { intros l G. destruct (existsb _ l) eqn:Q; [|reflexivity]. apply existsb_exists in Q. destruct Q as (s & I & Q). apply String.eqb_eq in Q.
    rewrite forallb_forall in G. specialize (G s I). apply orb_true_iff in G. destruct G as [G|G]; [apply String.eqb_eq in G; congruence|].
    apply existsb_exists in G. destruct G as (a & Ia & Ga). specialize (B s Q a Ia). unfold between in Ga. lia. }
  unfold built_binary, built_unary. rewrite !NO by (vm_compute; reflexivity). reflexivity.
Qed.
Definition saved : list (text * value) :=
  [ (zs "a", VInt (-7));
    (zs "bits", VVec [VBig (2 ^ 64); VRat (-1 # 3); VCplx (VInt 1) (VRat (-2 # 5)); VChar 39; VVec [VInt 1; VInt (-2)]; VMat [2; 2]%nat (map VChar (zs "ab'c"))]);
    (zs "empty", VVec []);
    (zs "m", VMat [2; 1; 2]%nat [VInt (-1); VVec [VInt 3; VInt 4]; VChar 955; VMat [0; 3]%nat []]);
    (zs "s", VVec (map VChar (zs "it's" ++ [10; 34]))) ].
Example saved_text : put_lines no_letters saved =
  zs "a = -7" ++ [10] ++ zs "bits = 18446744073709551616 -1/3 1j-2/5 '\'' (1 -2) (2 2 rho " ++ [34] ++ zs "ab'c" ++ [34] ++ zs ")" ++ [10] ++
  zs "empty = " ++ [34; 34; 10] ++ zs "m = 2 1 2 rho -1 (3 4) '\" ++ zs "u03bb' (0 3 rho " ++ [34; 34] ++ zs ")" ++ [10] ++
  zs "s = " ++ [34] ++ zs "it's\n\" ++ [34; 34; 10].
Proof. vm_compute. reflexivity. Qed.
Example saved_runs : match run_text 10 no_letters no_letters no_letters no_letters built_unary built_binary save_env 5 20 (new_scanner (put_lines no_letters saved)) empty_ctx with
  (rs, st, _) => rs = map (fun p => Ok [mkR true (snd p)]) saved /\ map (find (globals st)) ["a"; "bits"; "empty"; "m"; "s"] = map (fun p => Some (loud (snd p))) saved end.
Proof. vm_compute. split; reflexivity. Qed.
Example saved_hypotheses : rho_built_in built_binary save_env empty_ctx /\
  Forall (fun p => variable_name (ivy_ctx 10) (fst p) /\ saveable (snd p)) saved /\ NoDup (map (fun p => name_of (fst p)) saved) /\
  between_tokens (new_scanner (put_lines no_letters saved)) /\ to_come (new_scanner (put_lines no_letters saved)) = put_lines no_letters saved ++ [].
Proof.
  split; [|split; [|split; [|split]]].
  - split; [reflexivity|]. split; [reflexivity|]. eexists. split; [reflexivity|]. intros a b. reflexivity.
  - assert (CP : forall r, (between 0 r 0xD7FF) = true -> code_point r) by (intros r H; unfold between, code_point in *; lia).
    assert (NS : forall l, chars_of l = None -> ~ is_string (VVec l)).
    { intros l H (t & X). injection X as ->. clear -H. induction t as [|r t IH]; [discriminate H|]. cbn in H. destruct (chars_of (map VChar t)); [discriminate|auto]. }
    assert (FT : forall s, forallb (fun d => Z.of_nat d <=? 2 ^ 31 - 1) s && forallb (fun k => Z.of_nat (vol (firstn k s)) <=? 2 ^ 31 - 1) (seq 1 (length s)) = true -> fits s).
    { intros s H. apply andb_true_iff in H. destruct H as [H1 H2]. rewrite forallb_forall in H1, H2. split; [apply Forall_forall; intros d I; specialize (H1 d I); lia|].
      intros k K. specialize (H2 k). rewrite in_seq in H2. specialize (H2 ltac:(lia)). lia. }
    assert (VN : forall w, forallb (fun r => between 97 r 122) w = true -> w <> [] -> w <> zs "op" -> w <> zs "opdelete" -> defined (ivy_ctx 10) w = false -> all_digits w 10 false = false -> variable_name (ivy_ctx 10) w).
    { intros w H N1 N2 N3 D A. rewrite forallb_forall in H. assert (AL : Forall (fun r => 97 <= r <= 122) w) by (apply Forall_forall; intros r I; specialize (H r I); unfold between in H; lia).
      repeat split; auto; try (eapply Forall_impl; [|exact AL]; intros r R; cbv beta in R).
      - unfold is_alnum, letter. replace (r <? 128) with true by lia. unfold ascii_letter, between. lia.
      - destruct AL; [contradiction|]. cbn. unfold is_digit, between. lia.
      - apply CP. unfold between. lia. }
    assert (SC : forall v, scalar v -> ~ is_string v) by (intros v H (t & ->); exact H).
    assert (IN : forall z, between (- 2 ^ 31) z (2 ^ 31 - 1) = true -> saveable (VInt z)) by (intros z H; unfold between in H; change (- 2 ^ 31 <= z < 2 ^ 31); lia).
    assert (BI : saveable (VBig (2 ^ 64))) by (change (~ (- 2 ^ 31 <= 2 ^ 64 < 2 ^ 31)); lia).
    assert (CH : forall t, forallb (fun r => between 0 r 0xD7FF) t = true -> fold_right (fun x P => (saveable x /\ ~ is_string x) /\ P) True (map VChar t)).
    { induction t as [|r t IH]; intros H; [exact Logic.I|]. cbn [forallb] in H. apply andb_true_iff in H. destruct H as [H1 H2]. cbn [map fold_right]. split; [split; [apply CP, H1|apply SC; exact Logic.I]|apply IH, H2]. }
    apply Forall_cons; [split; [apply VN; (reflexivity || discriminate)|apply IN; reflexivity]|].
    apply Forall_cons; [split; [apply VN; (reflexivity || discriminate)|]|].
    { split; [discriminate|]. cbn [fold_right]. repeat split; try (apply SC; exact Logic.I); try exact BI; try (apply IN; reflexivity).
      all: first [discriminate | exact (IN 1 eq_refl) | apply CP; reflexivity | apply NS; reflexivity | apply FT; reflexivity
                 | apply (CH (zs "ab'c")); reflexivity | intros (t & X); discriminate X | cbn; lia]. }
    apply Forall_cons; [split; [apply VN; (reflexivity || discriminate)|split; [discriminate|exact Logic.I]]|].
    apply Forall_cons; [split; [apply VN; (reflexivity || discriminate)|]|].
    { cbn [saveable snd]. split; [cbn; lia|]. split; [apply FT; reflexivity|]. split; [reflexivity|]. split; [discriminate|]. cbn [fold_right].
      repeat split; try (apply SC; exact Logic.I); try (apply IN; reflexivity); try discriminate; try (apply NS; reflexivity); try (apply CP; reflexivity); try (intros (t & X); discriminate X).
      all: first [apply FT; reflexivity | cbn; lia]. }
    apply Forall_cons; [split; [apply VN; (reflexivity || discriminate)|]|apply Forall_nil].
    split; [discriminate|]. apply CH. reflexivity.
  - vm_compute. repeat constructor; cbn; intros X; repeat (destruct X as [X|X]; [discriminate X|]); exact X.
  - apply new_between. vm_compute. repeat (apply Forall_cons; [discriminate|]). apply Forall_nil.
  - vm_compute. reflexivity.
Qed.

(* Every value of a variable reads back: false.  A vector of one element comes back as a
   scalar; an element that is a string loses its closing parenthesis, and the line is in
   error; the single element of a matrix, if a vector, is taken for the data. *)
Theorem saved_variable_refuted :
  ivy_run (put_line no_letters (zs "x") (VVec [VInt 5])) =
    ([Ok [mkR true (VInt 5)]], set_globals empty_ctx [("x", loud (VInt 5))], snd (ivy_run (put_line no_letters (zs "x") (VVec [VInt 5])))) /\
  put_line no_letters (zs "x") (VVec [VVec (map VChar (zs "ab")); VInt 1]) = zs "x = (" ++ [34] ++ zs "ab" ++ [34] ++ zs " 1" ++ [10] /\
  fst (ivy_run (put_line no_letters (zs "x") (VVec [VVec (map VChar (zs "ab")); VInt 1]))) = ([Err], empty_ctx) /\
  fst (ivy_run (put_line no_letters (zs "x") (VMat [1; 1]%nat [VVec [VInt 6; VInt 7]]))) =
    ([Ok [mkR true (VMat [1; 1]%nat [VInt 6])]], set_globals empty_ctx [("x", loud (VMat [1; 1]%nat [VInt 6]))]).
Proof. vm_compute. repeat split. Qed.
Print Assumptions saved_variable_refuted.
(* A user's own operator named rho takes part in reading matrices: false even for a matrix of
   integers. *)
Definition my_rho : func := mkFunc true "rho" (Some (EVar "a" 1)) (EVar "b" 2) (Some [EVar "a" 1]) ["a"; "b"].
Definition rho_ctx : ctx := mkCtx [] [] [] [] [] [("rho", my_rho)] [("rho", true)] 0.
Definition square : value := VMat [2; 2]%nat (map VInt [1; 2; 3; 4]).
Theorem saved_matrix_redefined_refuted : saveable square /\
  match run_text 10 no_letters no_letters no_letters no_letters built_unary built_binary save_env 1 20 (new_scanner (put_line no_letters (zs "x") square)) rho_ctx with
  (rs, st, _) => rs = [Ok [mkR true (VVec (map VInt [2; 2]))]] /\ find (globals st) "x" = Some (loud (VVec (map VInt [2; 2]))) end.
Proof.
  split; [|vm_compute; split; reflexivity]. split; [cbn; lia|]. split; [|split; [reflexivity|split; [discriminate|]]].
  - split; [repeat (apply Forall_cons; [cbn; lia|]); apply Forall_nil|]. intros k K. cbn [length] in K. destruct k as [|[|[|k]]]; cbn; lia.
  - cbn [fold_right map square]. assert (IN : forall z, between (- 2 ^ 31) z (2 ^ 31 - 1) = true -> saveable (VInt z) /\ ~ is_string (VInt z)).
    { intros z H. unfold between in H. split; [change (- 2 ^ 31 <= z < 2 ^ 31); lia|intros (t & X); discriminate X]. }
    repeat (split; [apply IN; reflexivity|]). exact Logic.I.
Qed.
Print Assumptions saved_matrix_redefined_refuted.

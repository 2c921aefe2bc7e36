(* )save followed by )get. *)
From Coq Require Import String Ascii Permutation ZifyBool Zdiv.
From Verif Require Import Value NumModel NumSpec ArrModel ArrSpec ArrSel Syntax ExecModel ScanModel ScanSpec ScanProofs ScanLex ScanNext TextModel TextSpec TextProofs TextScan StrModel StrSpec StrProofs SaveModel SaveSpec SaveProofs SaveRun ReadModel ReadScan SourceModel CmdModel CmdSpec CmdProofs CmdRun.
From Verif Require ParseModel.
Open Scope string_scope.
Open Scope list_scope.
Open Scope Z_scope.

(* names and their bytes *)
Lemma zs_bytes : forall l, Forall (fun b => 0 <= b < 256) l -> zs (bytes l) = l.
Proof.
  induction 1 as [|b l H F IH]; [reflexivity|]. cbn [bytes zs]. rewrite IH, nat_ascii_embedding by lia. f_equal. lia.
Qed.
Lemma utf8_bytes : forall r, code_point r -> Forall (fun b => 0 <= b < 256) (utf8 r).
Proof.
  intros r [H _]. unfold utf8. 
  assert (forall d, 0 < d -> 0 <= r / d) by (intros; apply Z.div_pos; lia).
  pose proof (Z.mod_pos_bound r 64 ltac:(lia)). pose proof (Z.mod_pos_bound (r / 64) 64 ltac:(lia)). pose proof (Z.mod_pos_bound (r / 4096) 64 ltac:(lia)).
  destruct (r <? 0x80) eqn:A; [repeat (apply Forall_cons; [lia|]); apply Forall_nil|].
  destruct (r <? 0x800) eqn:B. { assert (r / 64 < 32) by (apply Z.div_lt_upper_bound; lia). specialize (H0 64). repeat (apply Forall_cons; [lia|]); apply Forall_nil. }
  destruct (r <? 0x10000) eqn:C. { assert (r / 4096 < 16) by (apply Z.div_lt_upper_bound; lia). specialize (H0 4096). repeat (apply Forall_cons; [lia|]); apply Forall_nil. }
  assert (r / 262144 < 5) by (apply Z.div_lt_upper_bound; lia). specialize (H0 262144). repeat (apply Forall_cons; [lia|]); apply Forall_nil.
Qed.
Lemma decode_one : forall r l n, code_point r -> decode (S n) (utf8 r ++ l) = r :: decode n l.
Proof.
  intros r l n [H _]. unfold utf8.
  pose proof (Z.div_mod r 64 ltac:(lia)). pose proof (Z.mod_pos_bound r 64 ltac:(lia)).
  destruct (r <? 0x80) eqn:A; [cbn [app decode]; rewrite A; reflexivity|].
  assert (0 <= r / 64) by (apply Z.div_pos; lia).
  destruct (r <? 0x800) eqn:B.
  { assert (r / 64 < 32) by (apply Z.div_lt_upper_bound; lia). cbn [app decode].
    replace (192 + r / 64 <? 128) with false by lia. replace (192 + r / 64 <? 224) with true by lia. f_equal. lia. }
  assert (D2 : r / 4096 = r / 64 / 64) by (rewrite Z.div_div by lia; reflexivity).
  pose proof (Z.div_mod (r / 64) 64 ltac:(lia)). pose proof (Z.mod_pos_bound (r / 64) 64 ltac:(lia)).
  assert (0 <= r / 4096) by (apply Z.div_pos; lia).
  destruct (r <? 0x10000) eqn:C.
  { assert (r / 4096 < 16) by (apply Z.div_lt_upper_bound; lia). cbn [app decode].
    replace (224 + r / 4096 <? 128) with false by lia. replace (224 + r / 4096 <? 224) with false by lia. replace (224 + r / 4096 <? 240) with true by lia. f_equal. lia. }
  assert (D3 : r / 262144 = r / 4096 / 64) by (rewrite Z.div_div by lia; reflexivity).
  pose proof (Z.div_mod (r / 4096) 64 ltac:(lia)). pose proof (Z.mod_pos_bound (r / 4096) 64 ltac:(lia)).
  assert (0 <= r / 262144) by (apply Z.div_pos; lia). cbn [app decode].
  replace (240 + r / 262144 <? 128) with false by lia. replace (240 + r / 262144 <? 224) with false by lia. replace (240 + r / 262144 <? 240) with false by lia. f_equal. lia.
Qed.
Lemma decode_nil : forall n, decode n [] = []. Proof. destruct n; reflexivity. Qed.
Lemma utf8_length : forall r, (1 <= length (utf8 r))%nat.
Proof. intros r. unfold utf8. destruct (r <? 0x80), (r <? 0x800), (r <? 0x10000); cbn [length]; lia. Qed.
Lemma decode_utf8 : forall w n, Forall code_point w -> (length w <= n)%nat -> decode n (flat_map utf8 w) = w.
Proof.
  induction w as [|r w IH]; intros n F L; [apply decode_nil|]. inversion F; subst. cbn [length] in L. destruct n; [lia|]. cbn [flat_map]. rewrite decode_one by auto. rewrite IH by (auto; lia). reflexivity.
Qed.
Lemma text_of_name : forall w, Forall code_point w -> text_of (name_of w) = w.
Proof.
  intros w F. unfold text_of, name_of.
  assert (B : Forall (fun b => 0 <= b < 256) (flat_map utf8 w)).
  { induction F; [constructor|]. cbn [flat_map]. apply Forall_app; split; [apply utf8_bytes|]; auto. }
  rewrite (zs_bytes _ B). apply decode_utf8; [exact F|]. clear. induction w as [|r w IH]; [cbn; lia|]. cbn [flat_map length]. rewrite app_length. pose proof (utf8_length r). lia.
Qed.

(* the sorted variables are the variables *)
Lemma insert_perm : forall p l, Permutation (insert_sym p l) (p :: l).
Proof.
  induction l as [|q l IH]; [reflexivity|]. cbn [insert_sym]. destruct (String.ltb (fst p) (fst q)); [reflexivity|]. rewrite IH. apply perm_swap.
Qed.
Lemma sort_perm : forall g, Permutation (sort_syms g) (map (fun p => (fst p, val (snd p))) g).
Proof.
  intros g. unfold sort_syms. induction (map _ g) as [|p l IH]; [reflexivity|]. cbn [fold_right]. rewrite insert_perm. apply perm_skip, IH.
Qed.
Lemma find_In : forall (g : table rval) x v, find g x = Some v -> In (x, v) g.
Proof.
  induction g as [|[y w] g IH]; intros x v H; [discriminate|]. cbn [find] in H. destruct (String.eqb_spec x y) as [->|]; [injection H as <-; left; reflexivity|right; auto].
Qed.
Lemma In_find : forall (g : table rval) x v, NoDup (map fst g) -> In (x, v) g -> find g x = Some v.
Proof.
  induction g as [|[y w] g IH]; intros x v N H; [destruct H|]. inversion N; subst. cbn [find]. destruct H as [H|H].
  - injection H as <- <-. rewrite String.eqb_refl. reflexivity.
  - destruct (String.eqb_spec x y) as [->|]; [|auto]. exfalso. apply H2. exact (in_map fst _ _ H).
Qed.
Lemma find_None : forall (g : table rval) x, find g x = None -> ~ In x (map fst g).
Proof.
  induction g as [|[y w] g IH]; intros x H; [intros []|]. cbn [find] in H. destruct (String.eqb_spec x y) as [Y|N]; [discriminate|]. intros [Q|Q]; [cbn in Q; congruence|exact (IH _ H Q)].
Qed.

Lemma find_store : forall (g : table rval) k a x, find (store g k a) x = if String.eqb x k then Some a else find g x.
Proof.
  intros g k a x. unfold store. cbn [find]. destruct (String.eqb_spec x k) as [|N]; [reflexivity|]. unfold remove. induction g as [|[y w] g IH]; [reflexivity|]. cbn [filter fst].
  destruct (String.eqb_spec k y) as [->|M]; cbn [negb find]; [|rewrite IH; reflexivity]. rewrite IH. destruct (String.eqb_spec x y); [contradiction|reflexivity].
Qed.
Lemma fold_out : forall (vars : list (text * value)) g y, ~ In y (map (fun p => name_of (fst p)) vars) ->
  find (fold_left (fun g p => store g (name_of (fst p)) (loud (snd p))) vars g) y = find g y.
Proof.
  induction vars as [|[x v] vars IH]; intros g y N; [reflexivity|]. cbn [fold_left fst snd map In] in *. rewrite IH by tauto. rewrite find_store. destruct (String.eqb_spec y (name_of x)); [|reflexivity]. subst. tauto.
Qed.
Lemma fold_in : forall (vars : list (text * value)) g x v, NoDup (map (fun p => name_of (fst p)) vars) -> In (x, v) vars ->
  find (fold_left (fun g p => store g (name_of (fst p)) (loud (snd p))) vars g) (name_of x) = Some (loud v).
Proof.
  induction vars as [|[x' v'] vars IH]; intros g x v N I; [destruct I|]. cbn [map fst] in N. inversion N; subst. cbn [fold_left fst snd]. destruct I as [I|I]; [|apply IH; auto].
  injection I as -> ->. rewrite fold_out by assumption. rewrite find_store, String.eqb_refl. reflexivity.
Qed.

(* the text has no carriage returns *)
Definition clean (t : text) : Prop := Forall (fun x => 0 <= x /\ x <> 13) t.
Lemma nocr_clean : forall t, clean t -> nocr t = t.
Proof. induction 1 as [|x t [_ H] F IH]; [reflexivity|]. cbn [nocr filter]. replace (negb (x =? 13)) with true by lia. f_equal. exact IH. Qed.
Lemma clean_app : forall a b, clean a -> clean b -> clean (a ++ b). Proof. intros; apply Forall_app; auto. Qed.
Lemma clean_cons : forall x t, 0 <= x -> x <> 13 -> clean t -> clean (x :: t). Proof. intros; constructor; auto. Qed.
Lemma nocr_clean_test : forall t, forallb (fun x => (0 <=? x) && negb (x =? 13)) t = true -> clean t.
Proof. intros t H. rewrite forallb_forall in H. apply Forall_forall. intros x I. specialize (H x I). lia. Qed.
Lemma clean_format : forall n, clean (format_int 10 n).
Proof. intros n. eapply Forall_impl; [|exact (proj1 (format_chars 10 n ltac:(lia)))]. intros x H. unfold int_char in H. lia. Qed.
Lemma clean_string : forall u t, Forall code_point t -> clean (quote_string u t).
Proof.
  intros u t F. unfold quote_string. apply clean_cons; try lia. apply clean_app; [|repeat (apply clean_cons; try lia); constructor].
  assert (Q : quote 34) by (left; reflexivity). eapply Forall_impl; [|apply (pieces_chars 34 (escaped u 34) (fun x => escaped_piece u 34 x Q) t F)]. intros x; cbv beta; lia.
Qed.
Lemma clean_char : forall u r, code_point r -> clean (quote_char u r).
Proof.
  intros u r F. unfold quote_char. apply clean_cons; try lia. apply clean_app; [|repeat (apply clean_cons; try lia); constructor].
  destruct (escaped_piece u 39 r ltac:(right; reflexivity) F) as (_ & _ & _ & H). eapply Forall_impl; [|exact H]. intros x; cbv beta; lia.
Qed.
Lemma clean_spaces : forall l, Forall clean l -> clean (with_spaces l).
Proof. induction 1 as [|t l H F IH]; [constructor|]. cbn [with_spaces]. destruct l; [exact H|]. apply clean_app; [exact H|]. apply clean_cons; [lia|lia|exact IH]. Qed.
Lemma clean_parens : forall (b c : bool) t, clean t -> clean ((if b then [40] else []) ++ t ++ (if c then [41] else [])).
Proof. intros b c t H. apply clean_app; [destruct b; [repeat (apply clean_cons; try lia)|]; constructor|]. apply clean_app; [exact H|]. destruct c; [repeat (apply clean_cons; try lia)|]; constructor. Qed.
Lemma clean_vector : forall u l, Forall (fun x => saveable x /\ ~ is_string x) l -> Forall (fun v => saveable v -> forall p, clean (put u v p)) l ->
  clean (fst (put_vector u (map (fun x => put u x (negb (is_scalar x))) l) l)).
Proof.
  intros u l S H. unfold put_vector. destruct (chars_of l) as [cs|] eqn:C; cbn [fst].
  - apply clean_string. exact (chars_points l cs C S).
  - apply clean_spaces. apply Forall_forall. intros t I. apply in_map_iff in I. destruct I as (x & <- & I). rewrite Forall_forall in S, H. apply (H x I), (S x I).
Qed.
Lemma clean_put : forall u v, saveable v -> forall p, clean (put u v p).
Proof.
  intros u. assert (NUM : forall v, canonical v -> forall p, clean (put u v p)).
  { intros v C p. destruct v; try (exact (False_ind _ C)); cbn [put]; apply clean_parens; try apply clean_format. apply clean_app; [apply clean_format|]. apply clean_cons; [lia|lia|]. apply clean_format. }
  induction v using value_ind'; intros S p; try (exact (NUM _ S p)).
  - cbn [put]. apply clean_parens, clean_char, S.
  - destruct S as (S1 & S2 & _). cbn [put]. apply clean_parens. apply clean_app; [apply NUM, S1|]. apply clean_cons; [lia|lia|]. apply NUM, S2.
  - cbn [saveable] in S. destruct S as [L S]. apply all_saveable in S. pose proof (clean_vector u l S H) as C. cbn [put].
    destruct (put_vector u _ l) as [t b]. cbn [fst] in C. apply clean_parens, C.
  - cbn [saveable] in S. destruct S as (L & FT & LD & O & S). apply all_saveable in S. pose proof (clean_vector u d S H) as C. cbn [put]. apply clean_parens.
    apply clean_app; [|apply clean_app; [|exact C]].
    + apply clean_spaces, Forall_forall. intros t I. apply in_map_iff in I. destruct I as (x & <- & _). apply clean_format.
    + change (clean [32; 114; 104; 111; 32]). repeat (apply clean_cons; try lia). constructor.
Qed.
Lemma clean_name : forall c w, variable_name c w -> clean w.
Proof. intros c w (_ & H & _ & _ & _ & CP & _). rewrite Forall_forall in *. apply Forall_forall. intros x I. specialize (H x I). specialize (CP x I). split; [apply CP|]. apply alnum_spec in H. lia. Qed.
Lemma clean_lines : forall u c vars, Forall (fun p => variable_name c (fst p) /\ saveable (snd p)) vars -> clean (put_lines u vars).
Proof.
  intros u c vars F. induction F as [|[x v] vars [N S] F IH]; [constructor|]. cbn [put_lines flat_map fst snd] in *. apply clean_app; [|exact IH]. unfold put_line.
  apply clean_app; [apply (clean_name c x N)|]. apply clean_app; [change (clean [32; 61; 32]); repeat (apply clean_cons; try lia); constructor|]. apply clean_app; [apply clean_put, S|]. apply clean_cons; [unfold nl; lia|unfold nl; lia|constructor].
Qed.
Section Load.
Set Default Proof Using "Type".
Variable u_print : Z -> bool.
Variables letters digits puncts symbols : Z -> bool.
Variables bu bb : string -> bool.
Variable E : settings -> env.
Variables const_e const_pi : Z -> value.
Notation context b := (scan_ctx b letters digits puncts symbols bu bb).
Notation nline := (next_line letters digits puncts symbols bu bb).
Notation constants := (set_constants const_e const_pi).
Notation cmd := (command u_print const_e const_pi).
Notation flines := (file_lines u_print letters digits puncts symbols bu bb E const_e const_pi).
Notation getf := (get_file u_print letters digits puncts symbols bu bb E const_e const_pi).
Notation snext := (session_next u_print letters digits puncts symbols bu bb E const_e const_pi).
Notation ND s := (no_digit_operators (context (in_base (ses_set s)) (ses_ctx s))).

Lemma file_numeric : forall w n s c' q more, documented w n (ses_set s) = Some (Some c') -> 0 <= n -> legal_base (in_base (ses_set s)) -> ND s ->
  between_tokens q -> to_come q = numeric_text w n ++ more ->
  exists q', to_come q' = more /\ between_tokens q' /\ forall get k m, flines get (S k) m s q = flines get k m (constants (with_set s c')) q'.
Proof.
  intros w n s c' q more D N L NDs B T.
  destruct (numeric_line letters digits puncts symbols bu bb w n s q more (documented_name _ _ _ _ D) N L NDs B T) as (q' & Q & T' & B').
  exists q'. split; [exact T'|]. split; [exact B'|]. intros get k m. cbn [file_lines]. rewrite Q. unfold command. rewrite (numeric_special u_print get w n s (Some c') D N). reflexivity.
Qed.
Lemma prompt_special : forall get t s, Forall code_point t ->
  special u_print get [mkTok TIdent (zs "prompt"); mkTok TString (quote_string u_print t)] s = (with_set s (set_prompt (ses_set s) t), Ok tt).
Proof.
  intros get t s F. unfold special. cbn [t_type t_text]. unfold body. words. unfold string_setting. rewrite string_token by exact F. destruct s as [st c d f], c. reflexivity.
Qed.
Lemma format_special : forall get t s, Forall code_point t ->
  special u_print get [mkTok TIdent (zs "format"); mkTok TString (quote_string u_print t)] s = (with_set s (set_format (ses_set s) t), Ok tt).
Proof.
  intros get t s F. unfold special. cbn [t_type t_text]. unfold body. words. unfold string_setting. rewrite string_token by exact F. destruct s as [st c d f], c. reflexivity.
Qed.
Lemma get_special : forall get t s, Forall code_point t ->
  special u_print get [mkTok TIdent (zs "get"); mkTok TString (quote_string u_print t)] s =
    let (s1, r) := get t (with_set s (set_base (ses_set s) 0 0)) in
    (with_set s1 (set_base (ses_set s1) (in_base (ses_set s)) (out_base (ses_set s))), match r with Ok _ => Ok tt | Err => Err | Crash => Crash | Unmod => Unmod end).
Proof.
  intros get t s F. unfold special. cbn [t_type t_text]. unfold body. words. unfold file_name. rewrite string_token by exact F.
  destruct (get t (with_set s (set_base (ses_set s) 0 0))) as [s1 [u| | |]]; reflexivity.
Qed.
Lemma save_special : forall get t s txt, Forall code_point t -> save_text u_print s = Ok txt ->
  special u_print get [mkTok TIdent (zs "save"); mkTok TString (quote_string u_print t)] s = (write_file s t txt, Ok tt).
Proof.
  intros get t s txt F H. unfold special. cbn [t_type t_text]. unfold body. words. unfold file_name. rewrite string_token by exact F.
  assert (X : with_set (with_set s (set_base (ses_set s) 0 0)) (set_base (ses_set (with_set s (set_base (ses_set s) 0 0))) (in_base (ses_set s)) (out_base (ses_set s))) = s) by (destruct s as [st c d f], c; reflexivity).
  rewrite X, H. destruct s as [st c d f], c. reflexivity.
Qed.
Lemma file_prompt : forall t s q more, Forall code_point t -> legal_base (in_base (ses_set s)) -> between_tokens q -> to_come q = string_text u_print "prompt" t ++ more ->
  exists q', to_come q' = more /\ between_tokens q' /\ forall get k m, flines get (S k) m s q = flines get k m (constants (with_set s (set_prompt (ses_set s) t))) q'.
Proof.
  intros t s q more F L B T. destruct (string_line u_print letters digits puncts symbols bu bb "prompt" t s q more ltac:(cbn; tauto) F L B T) as (q' & Q & T' & B').
  exists q'. split; [exact T'|]. split; [exact B'|]. intros get k m. cbn [file_lines]. rewrite Q. unfold command. rewrite prompt_special by exact F. reflexivity.
Qed.
Lemma file_format : forall t s q more, Forall code_point t -> legal_base (in_base (ses_set s)) -> between_tokens q -> to_come q = string_text u_print "format" t ++ more ->
  exists q', to_come q' = more /\ between_tokens q' /\ forall get k m, flines get (S k) m s q = flines get k m (constants (with_set s (set_format (ses_set s) t))) q'.
Proof.
  intros t s q more F L B T. destruct (string_line u_print letters digits puncts symbols bu bb "format" t s q more ltac:(cbn; tauto) F L B T) as (q' & Q & T' & B').
  exists q'. split; [exact T'|]. split; [exact B'|]. intros get k m. cbn [file_lines]. rewrite Q. unfold command. rewrite format_special by exact F. reflexivity.
Qed.
Lemma file_var : forall x v s q more, in_base (ses_set s) = 0 \/ in_base (ses_set s) = 10 -> ND s -> variable_name (context (in_base (ses_set s)) (ses_ctx s)) x ->
  saveable v -> rho_built_in bb (E (ses_set s)) (ses_ctx s) -> between_tokens q -> to_come q = put_line u_print x v ++ more ->
  exists q', to_come q' = more /\ between_tokens q' /\ forall get k m, (S (esize (tree v)) < m)%nat ->
    flines get (S k) m s q = flines get k m (with_ctx s (set_globals (ses_ctx s) (store (globals (ses_ctx s)) (name_of x) (loud v)))) q'.
Proof.
  intros x v s q more TEN NDs VN SV RB B T.
  destruct (line_parses u_print (in_base (ses_set s)) letters digits puncts symbols bu bb (E (ses_set s)) TEN (ses_ctx s) x v q more NDs VN SV RB B T) as (q' & ks & T' & B' & R & P & X).
  exists q'. split; [exact T'|]. split; [exact B'|]. intros get k m L.
  assert (NL : nline s q = (RLine (map (parser_token (in_base (ses_set s))) (mkTok TIdent x :: ks)), q')) by (unfold next_line; cbv zeta; rewrite R; reflexivity).
  cbn [file_lines]. rewrite NL. cbv zeta. rewrite P. cbn [eval_each]. unfold mbind. rewrite (X m L). reflexivity.
Qed.
Lemma file_vars : forall vars s q more, in_base (ses_set s) = 0 \/ in_base (ses_set s) = 10 -> ND s -> rho_built_in bb (E (ses_set s)) (ses_ctx s) ->
  Forall (fun p => variable_name (context (in_base (ses_set s)) (ses_ctx s)) (fst p) /\ saveable (snd p)) vars ->
  between_tokens q -> to_come q = put_lines u_print vars ++ more ->
  exists m0 q', to_come q' = more /\ between_tokens q' /\ forall get k m, (m0 <= m)%nat ->
    flines get (length vars + k) m s q =
    flines get k m (with_ctx s (set_globals (ses_ctx s) (fold_left (fun g p => store g (name_of (fst p)) (loud (snd p))) vars (globals (ses_ctx s))))) q'.
Proof.
  induction vars as [|[x v] vars IH]; intros s q more TEN NDs RB F B T.
  - exists O, q. split; [exact T|]. split; [exact B|]. intros get k m _. cbn [length Nat.add fold_left]. f_equal. destruct s as [[] ? ? ?]; reflexivity.
  - inversion F as [|? ? [F1 F2] F3]; subst. cbn [fst snd] in *. cbn [put_lines flat_map fst snd] in T. rewrite <-app_assoc in T.
    destruct (file_var x v s q _ TEN NDs F1 F2 RB B T) as (q1 & T1 & B1 & R1).
    destruct (IH (with_ctx s (set_globals (ses_ctx s) (store (globals (ses_ctx s)) (name_of x) (loud v)))) q1 more TEN NDs RB F3 B1 T1) as (m0 & q2 & T2 & B2 & R2).
    exists (Nat.max m0 (S (S (esize (tree v))))), q2. split; [exact T2|]. split; [exact B2|]. intros get k m H.
    cbn [length Nat.add]. rewrite R1 by lia. rewrite R2 by lia. reflexivity.
Qed.

Definition K (p : Z) (g : table rval) : table rval := store (store g "e" (loud (const_e p))) "pi" (loud (const_pi p)).
Lemma find_K : forall p g x, find (K p g) x = if String.eqb x "pi" then Some (loud (const_pi p)) else if String.eqb x "e" then Some (loud (const_e p)) else find g x.
Proof. intros. unfold K. rewrite !find_store. reflexivity. Qed.
Lemma K_out : forall p g x, x <> "e" -> x <> "pi" -> find (K p g) x = find g x.
Proof. intros p g x A B. rewrite find_K. destruct (String.eqb_spec x "pi"); [contradiction|]. destruct (String.eqb_spec x "e"); [contradiction|reflexivity]. Qed.

Definition variables_ok (A : table rval) (B : ctx) : Prop :=
  Forall (fun p => exists w, fst p = name_of w /\ variable_name (context 10 B) w /\ saveable (val (snd p))) A.
Definition sorted_vars (g : table rval) : list (text * value) := map (fun p => (text_of (fst p), snd p)) (sort_syms g).
Lemma sorted_in : forall g p, In p (sort_syms g) <-> In p (map (fun p => (fst p, val (snd p))) g).
Proof. intros g p. split; apply Permutation_in; [|symmetry]; apply sort_perm. Qed.
Lemma sorted_ok : forall g B, variables_ok g B -> Forall (fun p => variable_name (context 10 B) (fst p) /\ saveable (snd p)) (sorted_vars g).
Proof.
  intros g B F. apply Forall_forall. intros [x v] I. unfold sorted_vars in I. apply in_map_iff in I. destruct I as ([y v'] & Q & I). cbn [fst snd] in Q. injection Q as <- <-.
  apply sorted_in, in_map_iff in I. destruct I as ([y' r] & Q & I). injection Q as <- <-. unfold variables_ok in F. rewrite Forall_forall in F.
  destruct (F _ I) as (w & W & N & S). cbn [fst snd] in *. subst. rewrite text_of_name by apply N. auto.
Qed.
Lemma sorted_names : forall g B, variables_ok g B -> map (fun p => name_of (fst p)) (sorted_vars g) = map fst (sort_syms g).
Proof.
  intros g B F. unfold sorted_vars. rewrite map_map. apply map_ext_in. intros [y v] I. cbn [fst].
  apply sorted_in, in_map_iff in I. destruct I as ([y' r] & Q & I). injection Q as <- <-. unfold variables_ok in F. rewrite Forall_forall in F.
  destruct (F _ I) as (w & W & N & S). cbn [fst snd] in *. subst. rewrite text_of_name by apply N. reflexivity.
Qed.
Lemma sorted_perm : forall g, Permutation (map fst (sort_syms g)) (map fst g).
Proof. intros g. rewrite (Permutation_map fst (sort_perm g)). rewrite map_map. reflexivity. Qed.
Lemma loaded_find : forall g B g0 x v, variables_ok g B -> NoDup (map fst g) -> find g x = Some v ->
  find (fold_left (fun g p => store g (name_of (fst p)) (loud (snd p))) (sorted_vars g) g0) x = Some (loud (val v)).
Proof.
  intros g B g0 x v F N H. apply find_In in H.
  assert (X : x = name_of (text_of x)). { unfold variables_ok in F. rewrite Forall_forall in F. destruct (F _ H) as (w & W & M & _). cbn [fst] in W. subst. rewrite text_of_name by apply M. reflexivity. }
  rewrite X. apply fold_in.
  - rewrite (sorted_names g B F). apply (Permutation_NoDup (l := map fst g)); [symmetry; apply sorted_perm|exact N].
  - unfold sorted_vars. apply in_map_iff. exists (x, val v). split; [reflexivity|]. apply sorted_in, in_map_iff. exists (x, v). split; [reflexivity|exact H].
Qed.
Lemma loaded_other : forall g B g0 x, variables_ok g B -> find g x = None ->
  find (fold_left (fun g p => store g (name_of (fst p)) (loud (snd p))) (sorted_vars g) g0) x = find g0 x.
Proof.
  intros g B g0 x F H. apply fold_out. rewrite (sorted_names g B F). intros I. apply (Permutation_in x (sorted_perm g)) in I. exact (find_None g x H I).
Qed.
Definition final_settings (a b : settings) : settings :=
  mkSettings (in_base a) (out_base a) (index_origin a) (max_bits a) (max_digits a) (max_stack b) (float_prec a)
             (prompt_text a) (format_text a) (random_seed b) (debug b).
Lemma put_lines_length : forall vars, (length vars <= length (put_lines u_print vars))%nat.
Proof. clear. induction vars as [|[x v] vars IH]; [cbn; lia|]. cbn [put_lines flat_map length fst snd]. rewrite app_length. unfold put_line at 1. rewrite !app_length. cbn [length]. unfold put_lines in IH. lia. Qed.
(* ops: the part of the file with the operators; it makes the tables u and b, of which good holds *)
Theorem file_saved_with : forall A B t ops ds good stV, save_ops u_print (ses_ctx A) [] (defs (ses_ctx A)) = Ok ops -> clean ops ->
  (forall s q more G, ses_ctx s = set_globals (ses_ctx B) G -> (forall x, x <> "e" -> x <> "pi" -> find G x = find (globals (ses_ctx B)) x) -> in_base (ses_set s) = 0 -> between_tokens q -> to_come q = ops ++ more ->
     exists n u b q', (n <= length ops)%nat /\ good u b /\ to_come q' = more /\ between_tokens q' /\ forall get k m, flines get (n + k) m s q = flines get k m (with_ctx s (set_ops (ses_ctx s) u b ds)) q') ->
  save_text u_print A = Ok t -> legal_settings (ses_set A) -> Forall code_point (prompt_text (ses_set A)) -> Forall code_point (format_text (ses_set A)) ->
  in_base (ses_set B) = 0 -> (forall b, legal_base b -> no_digit_operators (context b (ses_ctx B))) ->
  (forall u b, good u b -> (forall x, legal_base x -> no_digit_operators (context x (set_ops (ses_ctx B) u b ds))) /\ (forall c, rho_built_in bb (E c) (set_ops (ses_ctx B) u b ds)) /\
     variables_ok (globals (ses_ctx A)) (set_ops (ses_ctx B) u b ds)) ->
  variables_ok (globals (ses_ctx A)) stV -> NoDup (map fst (globals (ses_ctx A))) ->
  exists m0 G u b, good u b /\ (forall get m, (m0 <= m)%nat -> flines get (S (length t)) m B (new_scanner t) =
      (mkSession (set_globals (set_ops (ses_ctx B) u b ds) G) (final_settings (ses_set A) (ses_set B)) (ses_depth B) (ses_files B), Ok tt)) /\
    (forall x v, find (globals (ses_ctx A)) x = Some v -> x <> "e" -> x <> "pi" -> find G x = Some (loud (val v))) /\
    (forall x, find (globals (ses_ctx A)) x = None -> x <> "e" -> x <> "pi" -> find G x = find (globals (ses_ctx B)) x) /\
    find G "e" = Some (loud (const_e (float_prec (ses_set A)))) /\ find G "pi" = Some (loud (const_pi (float_prec (ses_set A)))).
Proof.
  intros A [stB [ib ob og mb md ms fp pt ft sd db] d f] t ops ds good stV SO CO OPS ST (LI & LO & LP & LOr & LMB & LMD & LMS & _) CP CF IB NB GD VO NDp. cbn [ses_set ses_ctx in_base ses_depth ses_files] in *. subst ib.
  set (a := ses_set A) in *. unfold save_text in ST. rewrite SO in ST. cbn [bind] in ST. apply ok_inj in ST. fold a in ST.
  set (vs := match globals (ses_ctx A) with [] => [] | _ :: _ => _ end) in ST.
  set (tx := numeric_text "prec" (float_prec a) ++ numeric_text "maxbits" (max_bits a) ++ numeric_text "maxdigits" (max_digits a) ++ numeric_text "origin" (index_origin a) ++
     string_text u_print "prompt" (prompt_text a) ++ string_text u_print "format" (format_text a) ++ ops ++ vs ++ numeric_text "ibase" (in_base a) ++ numeric_text "obase" (out_base a)).
  assert (TX : tx = t) by (symmetry; exact ST). clear ST.
  pose proof (sorted_ok _ _ VO) as SOK.
  assert (CN : forall w n, In w command_names -> clean (numeric_text w n)).
  { intros w n I. unfold numeric_text. apply clean_app. 2: { apply clean_cons; [lia|lia|]. apply clean_app; [apply clean_format|]. apply clean_cons; [unfold nl; lia|unfold nl; lia|constructor]. }
    apply clean_cons; [lia|lia|]. cbn in I. repeat (destruct I as [<-|I]; [repeat (apply clean_cons; [cbn; lia|cbn; lia|]); constructor|]). destruct I. }
  assert (CS : forall w x, In w command_names -> Forall code_point x -> clean (string_text u_print w x)).
  { intros w x I F. unfold string_text. apply clean_app. 2: { apply clean_cons; [lia|lia|]. apply clean_app; [apply clean_string, F|]. apply clean_cons; [unfold nl; lia|unfold nl; lia|constructor]. }
    apply clean_cons; [lia|lia|]. cbn in I. repeat (destruct I as [<-|I]; [repeat (apply clean_cons; [cbn; lia|cbn; lia|]); constructor|]). destruct I. }
  assert (CV : clean vs).
  { unfold vs. destruct (globals (ses_ctx A)) as [|p g] eqn:G; [constructor|]. apply clean_app; [|apply clean_app; [apply clean_cons; [unfold nl; lia|unfold nl; lia|constructor]|apply clean_app; [exact (CN "base" 10 ltac:(cbn; tauto))|exact (clean_lines _ _ _ SOK)]]].
    apply nocr_clean_test. reflexivity. }
  assert (CT : clean t). { rewrite <-TX. unfold tx. repeat (apply clean_app; [first [apply CN; cbn; tauto | apply CS; [cbn; tauto|assumption] | exact CO | exact CV]|]). apply CN; cbn; tauto. }
  destruct (new_between t ltac:(eapply Forall_impl; [|exact CT]; cbv beta; intros; lia)) as [BT TC]. rewrite (nocr_clean _ CT) in TC. assert (TC2 : to_come (new_scanner t) = tx) by (rewrite TC, TX; reflexivity). clear TC. rename TC2 into TC. unfold tx in TC.
  assert (L0 : legal_base 0) by (left; reflexivity). assert (L10 : legal_base 10) by (right; lia).
  set (sB := mkSession stB _ d f).
  edestruct (file_numeric "prec" (float_prec a) sB (set_prec (ses_set sB) (float_prec a)) (new_scanner t)) as (q1 & T1 & B1 & R1); [|lia|exact L0|exact (NB 0 L0)|exact BT|exact TC|].
  { unfold documented. cbn [String.eqb Ascii.eqb Bool.eqb]. unfold when. replace ((1 <=? float_prec a) && (float_prec a <=? 1000000)) with true by lia. reflexivity. }
  set (s1 := constants _) in R1.
  edestruct (file_numeric "maxbits" (max_bits a) s1 (set_maxbits (ses_set s1) (max_bits a)) q1) as (q2 & T2 & B2 & R2); [|lia|exact L0|exact (NB 0 L0)|exact B1|exact T1|].
  { unfold documented. cbn [String.eqb Ascii.eqb Bool.eqb]. unfold when, small. replace (max_bits a <? 2 ^ 31) with true by lia. reflexivity. }
  set (s2 := constants _) in R2.
  edestruct (file_numeric "maxdigits" (max_digits a) s2 (set_maxdigits (ses_set s2) (max_digits a)) q2) as (q3 & T3 & B3 & R3); [|lia|exact L0|exact (NB 0 L0)|exact B2|exact T2|].
  { unfold documented. cbn [String.eqb Ascii.eqb Bool.eqb]. unfold when, small. replace (max_digits a <? 2 ^ 31) with true by lia. reflexivity. }
  set (s3 := constants _) in R3.
  edestruct (file_numeric "origin" (index_origin a) s3 (set_origin (ses_set s3) (index_origin a)) q3) as (q4 & T4 & B4 & R4); [|lia|exact L0|exact (NB 0 L0)|exact B3|exact T3|].
  { unfold documented. cbn [String.eqb Ascii.eqb Bool.eqb]. unfold when, small. replace (index_origin a <? 2 ^ 31) with true by lia. reflexivity. }
  set (s4 := constants _) in R4.
  destruct (file_prompt (prompt_text a) s4 q4 _ CP L0 B4 T4) as (q5 & T5 & B5 & R5). set (s5 := constants _) in R5.
  destruct (file_format (format_text a) s5 q5 _ CF L0 B5 T5) as (q6 & T6 & B6 & R6). set (s5' := constants _) in R6.
  edestruct (OPS s5' q6) as (no & tu & tb & q6' & LN & GUB & T6' & B6' & R6'); [reflexivity| |reflexivity|exact B6|exact T6|].
  { intros x N1 N2. change (find (K (float_prec a) (K (float_prec a) (K (float_prec a) (K (float_prec a) (K (float_prec a) (K (float_prec a) (globals stB))))))) x = find (globals stB) x). rewrite !K_out by assumption. reflexivity. }
  destruct (GD tu tb GUB) as (NB1 & RB & VO1). pose proof (sorted_ok _ _ VO1) as SOK1. set (stB1 := set_ops stB tu tb ds) in *.
  set (s6 := with_ctx s5' _) in R6'. clear T6 B6. rename q6' into q7', T6' into T6, B6' into B6.
  assert (LAST : forall s7 q7 G, s7 = mkSession (set_globals stB1 G) (mkSettings (in_base (ses_set s7)) (out_base (ses_set s7)) (index_origin a) (max_bits a) (max_digits a) ms (float_prec a) (prompt_text a) (format_text a) sd db) d f ->
    legal_base (in_base (ses_set s7)) -> between_tokens q7 -> to_come q7 = numeric_text "ibase" (in_base a) ++ numeric_text "obase" (out_base a) ->
    forall get k m, (3 <= k)%nat -> flines get k m s7 q7 = (mkSession (set_globals stB1 (K (float_prec a) (K (float_prec a) G))) (final_settings a (ses_set sB)) d f, Ok tt)).
  { intros s7 q7 G S7 L7 B7 T7 get k m KK. destruct k as [|[|[|k]]]; try lia.
    assert (BN : forall b, legal_base b -> 0 <= b /\ base_number b = true) by (intros b [-> | H]; [split; [lia|reflexivity]|split; [lia|unfold base_number; lia]]).
    destruct (file_numeric "ibase" (in_base a) s7 (set_base (ses_set s7) (in_base a) (out_base (ses_set s7))) q7 (numeric_text "obase" (out_base a))) as (q8 & T8 & B8 & R8); [|apply BN, LI|exact L7| |exact B7|exact T7|].
    { unfold documented. cbn [String.eqb Ascii.eqb Bool.eqb]. unfold when. rewrite (proj2 (BN _ LI)). reflexivity. }
    { rewrite S7 at 2. exact (NB1 _ L7). }
    rewrite R8. set (s8 := constants _).
    assert (S8 : s8 = mkSession (set_globals stB1 (K (float_prec a) G)) (set_base (ses_set s7) (in_base a) (out_base (ses_set s7))) d f) by (unfold s8; rewrite S7; reflexivity).
    destruct (file_numeric "obase" (out_base a) s8 (set_base (ses_set s8) (in_base a) (out_base a)) q8 []) as (q9 & T9 & B9 & R9); [|apply BN, LO| | |exact B8|rewrite app_nil_r; exact T8|].
    { unfold documented. cbn [String.eqb Ascii.eqb Bool.eqb]. unfold when. rewrite (proj2 (BN _ LO)). rewrite S8. reflexivity. }
    { rewrite S8. exact LI. } { rewrite S8. exact (NB1 _ LI). }
    rewrite R9. rewrite S8. set (s9 := constants _).
    assert (S9 : s9 = mkSession (set_globals stB1 (K (float_prec a) (K (float_prec a) G))) (final_settings a (ses_set sB)) d f) by (unfold s9; rewrite S7; reflexivity).
    rewrite S9. cbn [file_lines]. match goal with |- context [nline ?s q9] => destruct (end_line letters digits puncts symbols bu bb s q9 LI B9 T9) as (q10 & ->) end. reflexivity. }
  assert (VS0 : globals (ses_ctx A) = [] -> vs = []) by (unfold vs; destruct (globals (ses_ctx A)); congruence).
  assert (VS1 : globals (ses_ctx A) <> [] -> vs = (35 :: zs " Set base 10 for parsing numbers.") ++ [nl] ++ numeric_text "base" 10 ++ put_lines u_print (sorted_vars (globals (ses_ctx A)))).
  { intros N. unfold vs. destruct (globals (ses_ctx A)); [congruence|reflexivity]. }
  clearbody vs.
  assert (DG : globals (ses_ctx A) = [] \/ globals (ses_ctx A) <> []) by (destruct (globals (ses_ctx A)); [left; reflexivity|right; discriminate]).
  destruct DG as [GA|GA].
  - rewrite (VS0 GA) in T6. cbn [app] in T6. exists O. eexists. exists tu, tb. split; [exact GUB|]. split.
    { intros get m _. rewrite R1. assert (LT : (9 + length ops <= length t)%nat). { rewrite <-TX. unfold tx, numeric_text, string_text. rewrite !app_length. cbn [length]. lia. }
      destruct (length t) as [|[|[|[|[|n]]]]]; try lia. rewrite R2, R3, R4, R5, R6.
      replace n with (no + (n - no))%nat by lia. rewrite R6'. refine (LAST s6 q7' _ _ L0 B6 T6 get _ m _); [reflexivity|lia]. }
    rewrite GA. split; [intros x v H; discriminate H|]. split; [|split; [rewrite find_K; reflexivity|rewrite find_K; reflexivity]].
    intros x _ N1 N2. rewrite !K_out by assumption. cbn [globals set_globals].
    change (find (K (float_prec a) (K (float_prec a) (K (float_prec a) (K (float_prec a) (K (float_prec a) (K (float_prec a) (globals stB))))))) x = find (globals stB) x). rewrite !K_out by assumption. reflexivity.
  - rewrite (VS1 GA), <-!app_assoc in T6. change ((35 :: ?x) ++ ?y) with (35 :: x ++ y) in T6.
    destruct (comment_line letters digits puncts symbols bu bb s6 q7' (zs " Set base 10 for parsing numbers.") _ B6 T6) as (q7 & N7 & T7 & B7).
    { apply Forall_forall. intros x I. unfold nl. cbn [zs In] in I. repeat (destruct I as [<-|I]; [vm_compute; split; congruence|]). destruct I. }
    edestruct (file_numeric "base" 10 s6 (set_base (ses_set s6) 10 10) q7) as (q8 & T8 & B8 & R8); [reflexivity|lia|exact L0|exact (NB1 0 L0)|exact B7|exact T7|].
    set (s8 := constants _) in R8.
    destruct (file_vars (sorted_vars (globals (ses_ctx A))) s8 q8 (numeric_text "ibase" (in_base a) ++ numeric_text "obase" (out_base a))) as (m0 & q9 & T9 & B9 & R9); [right; reflexivity|exact (NB1 10 L10)|exact (RB _)|exact SOK1|exact B8|exact T8|].
    exists m0. eexists. exists tu, tb. split; [exact GUB|]. split.
    { intros get m M. rewrite R1. assert (LT : (9 + length ops + length (sorted_vars (globals (ses_ctx A))) + 3 <= length t)%nat).
      { rewrite <-TX. unfold tx. rewrite (VS1 GA). pose proof (put_lines_length (sorted_vars (globals (ses_ctx A)))). unfold numeric_text, string_text. rewrite !app_length. cbn [length]. lia. }
      destruct (length t) as [|[|[|[|[|n0]]]]]; try lia. rewrite R2, R3, R4, R5, R6. replace n0 with (no + (n0 - no))%nat by lia. rewrite R6'. assert (exists n, n0 - no = S n /\ (length (sorted_vars (globals (ses_ctx A))) + 4 <= n)%nat)%nat as (n & -> & LN') by (exists (n0 - no - 1)%nat; lia). cbn [file_lines]. rewrite N7. destruct n as [|n]; [lia|]. rewrite R8.
      replace n with (length (sorted_vars (globals (ses_ctx A))) + (n - length (sorted_vars (globals (ses_ctx A)))))%nat by lia. rewrite R9 by exact M.
      refine (LAST _ q9 _ _ _ B9 T9 get _ m _); [reflexivity|exact L10|lia]. }
    split; [|split; [|split; [rewrite find_K; reflexivity|rewrite find_K; reflexivity]]].
    + intros x v H N1 N2. rewrite !K_out by assumption. cbn [globals set_globals]. exact (loaded_find _ _ _ x v VO NDp H).
    + intros x H N1 N2. rewrite !K_out by assumption. cbn [globals set_globals]. rewrite (loaded_other _ _ _ x VO H).
      change (find (K (float_prec a) (K (float_prec a) (K (float_prec a) (K (float_prec a) (K (float_prec a) (K (float_prec a) (K (float_prec a) (globals stB)))))))) x = find (globals stB) x). rewrite !K_out by assumption. reflexivity.
Qed.
Theorem file_saved : forall A B t, defs (ses_ctx A) = [] -> save_text u_print A = Ok t -> legal_settings (ses_set A) -> Forall code_point (prompt_text (ses_set A)) -> Forall code_point (format_text (ses_set A)) ->
  in_base (ses_set B) = 0 -> (forall b, legal_base b -> no_digit_operators (context b (ses_ctx B))) -> (forall c, rho_built_in bb (E c) (ses_ctx B)) ->
  variables_ok (globals (ses_ctx A)) (ses_ctx B) -> NoDup (map fst (globals (ses_ctx A))) ->
  exists m0 G, (forall get m, (m0 <= m)%nat -> flines get (S (length t)) m B (new_scanner t) =
      (mkSession (set_globals (ses_ctx B) G) (final_settings (ses_set A) (ses_set B)) (ses_depth B) (ses_files B), Ok tt)) /\
    (forall x v, find (globals (ses_ctx A)) x = Some v -> x <> "e" -> x <> "pi" -> find G x = Some (loud (val v))) /\
    (forall x, find (globals (ses_ctx A)) x = None -> x <> "e" -> x <> "pi" -> find G x = find (globals (ses_ctx B)) x) /\
    find G "e" = Some (loud (const_e (float_prec (ses_set A)))) /\ find G "pi" = Some (loud (const_pi (float_prec (ses_set A)))).
Proof.
  intros A B t DA ST LS CP CF IB NB RB VO NDp.
  assert (ID : forall st, set_ops st (unary st) (binary st) (defs st) = st) by (intros []; reflexivity).
  destruct (file_saved_with A B t [] (defs (ses_ctx B)) (fun u b => u = unary (ses_ctx B) /\ b = binary (ses_ctx B)) (ses_ctx B)) as (m0 & G & u & b & [-> ->] & H); auto.
  - rewrite DA. reflexivity.
  - constructor.
  - intros s q more G SG _ _ BT T. exists 0%nat, (unary (ses_ctx B)), (binary (ses_ctx B)), q. split; [apply Nat.le_0_l|]. split; [auto|]. split; [exact T|]. split; [exact BT|].
    intros get k m. f_equal. destruct s as [st c d f]. cbn [ses_ctx with_ctx] in *. subst st. destruct (ses_ctx B). reflexivity.
  - intros u b [-> ->]. rewrite ID. auto.
  - rewrite ID in H. exists m0, G. exact H.
Qed.
End Load.

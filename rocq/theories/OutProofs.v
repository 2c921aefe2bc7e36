(* Proofs about OutModel: what is printed of a line, runs, loops, sources, and the operator ivy. *)
From Coq Require Import Lia ZifyBool.
From Verif Require Import Value ScanModel TextModel OutModel OutSpec.
Open Scope list_scope.
Open Scope Z_scope.

Lemma out_app : forall a b, out (a ++ b) = out a ++ out b.
Proof. intros. apply flat_map_app. Qed.
Lemma err_app : forall a b, err (a ++ b) = err a ++ err b.
Proof. intros. apply flat_map_app. Qed.
Lemma both_app : forall a b, both (a ++ b) = both a ++ both b.
Proof. intros. apply flat_map_app. Qed.
Lemma spaced_bare : forall t, spaced t = false <-> bare t.
Proof.
  intros t. unfold spaced, bare. destruct (rev t) as [|r l] eqn:E.
  - split; [|reflexivity]. intros _. left. rewrite <- (rev_involutive t), E. reflexivity.
  - assert (X : t = rev l ++ [r]) by (rewrite <- (rev_involutive t), E; reflexivity). destruct (Z.eqb_spec r nl) as [-> |N]; cbn.
    + split; [|reflexivity]. intros _. right. exists (rev l). exact X.
    + split; [discriminate|]. intros [-> |(b & B)]; [discriminate|]. rewrite B in E. rewrite rev_app_distr in E. cbn in E. injection E as E _. congruence.
Qed.

Section Run.
Variables St V : Type.
Variable line : St -> outcome St V.
Variable prompt : St -> text.
Variables types panics : St -> bool.
Variable type_name : V -> text.
Variable sprint : St -> V -> text + text.
Variable set_last : St -> V -> St.
Notation putv := (put_values St V sprint).
Notation printv := (print_values St V types type_name sprint).
Notation runs := (run St V line prompt types panics type_name sprint set_last).
Notation loop := (run_on St V line prompt types panics type_name sprint set_last).
Notation hist := (history St V line prompt types panics type_name sprint set_last).
Notation ok := (succeeds St V line prompt types type_name sprint set_last).
Notation wrong := (goes_wrong St V line prompt types panics type_name sprint).
Notation shows := (shown St V sprint).

Lemma loud_cons_quiet : forall v vs, loud_values V ((true, v) :: vs) = loud_values V vs.
Proof. reflexivity. Qed.
Lemma loud_cons : forall v vs, loud_values V ((false, v) :: vs) = v :: loud_values V vs.
Proof. reflexivity. Qed.

Lemma put_after : forall vs st ts, shows st vs ts -> exists ws k, putv st true vs = (ws, inl true) /\ followed ts k /\ out ws = k ++ [nl] /\ err ws = [] /\ both ws = k ++ [nl].
Proof.
  unfold shown. induction vs as [|[[|] v] vs IH]; intros st ts H.
  - destruct ts; [|discriminate]. exists [Out [nl]], []. repeat split. constructor.
  - cbn [put_values]. apply IH. exact H.
  - rewrite loud_cons in H. destruct ts as [|t ts]; [discriminate|]. cbn [map] in H. injection H as H1 H2. cbn [put_values]. rewrite H1.
    destruct (IH st ts H2) as (ws & k & E & F & O & R & B). rewrite E. cbn [andb]. destruct (spaced t) eqn:S.
    + exists ([Out [32]] ++ Out t :: ws), (32 :: t ++ k). split; [reflexivity|]. split; [apply followed_space; [intros X; apply spaced_bare in X; congruence|exact F]|].
      unfold out, err, both in *; cbn. rewrite O, R, B, <- app_assoc. repeat split.
    + exists ([] ++ Out t :: ws), (t ++ k). split; [reflexivity|]. split; [apply followed_bare; [apply spaced_bare; exact S|exact F]|].
      unfold out, err, both in *; cbn. rewrite O, R, B, <- app_assoc. repeat split.
Qed.
Lemma put_first : forall vs st ts, shows st vs ts -> exists ws t, putv st false vs = (ws, inl (match ts with [] => false | _ => true end)) /\ laid_out ts t /\ out ws = t /\ err ws = [] /\ both ws = t.
Proof.
  unfold shown. induction vs as [|[[|] v] vs IH]; intros st ts H.
  - destruct ts; [|discriminate]. exists [], []. repeat split. left. split; reflexivity.
  - cbn [put_values]. apply IH. exact H.
  - rewrite loud_cons in H. destruct ts as [|t ts]; [discriminate|]. cbn [map] in H. injection H as H1 H2. cbn [put_values]. rewrite H1.
    destruct (put_after vs st ts H2) as (ws & k & E & F & O & R & B). rewrite E. cbn [andb]. exists ([] ++ Out t :: ws), ((t ++ k) ++ [nl]). split; [reflexivity|].
    split; [right; split; [discriminate|]; exists (t ++ k); split; [constructor; exact F|reflexivity]|]. unfold out, err, both in *; cbn. rewrite O, R, B, <- app_assoc. repeat split.
Qed.
Lemma put_after_wrong : forall a v b st ts msg, shows st a ts -> sprint st v = inr msg ->
  exists ws k, putv st true (a ++ (false, v) :: b) = (ws, inr msg) /\ followed ts k /\ out ws = k /\ err ws = [] /\ both ws = k.
Proof.
  unfold shown. induction a as [|[[|] x] a IH]; intros v b st ts msg H M.
  - destruct ts; [|discriminate]. exists [], []. cbn. rewrite M. repeat split. constructor.
  - cbn [app put_values]. apply IH; assumption.
  - rewrite loud_cons in H. destruct ts as [|t ts]; [discriminate|]. cbn [map] in H. injection H as H1 H2. cbn [app put_values]. rewrite H1.
    destruct (IH v b st ts msg H2 M) as (ws & k & E & F & O & R & B). rewrite E. cbn [andb]. destruct (spaced t) eqn:S.
    + exists ([Out [32]] ++ Out t :: ws), (32 :: t ++ k). split; [reflexivity|]. split; [apply followed_space; [intros X; apply spaced_bare in X; congruence|exact F]|].
      unfold out, err, both in *; cbn. rewrite O, R, B. repeat split.
    + exists ([] ++ Out t :: ws), (t ++ k). split; [reflexivity|]. split; [apply followed_bare; [apply spaced_bare; exact S|exact F]|].
      unfold out, err, both in *; cbn. rewrite O, R, B. repeat split.
Qed.
Lemma put_first_wrong : forall a v b st ts msg, shows st a ts -> sprint st v = inr msg ->
  exists ws k, putv st false (a ++ (false, v) :: b) = (ws, inr msg) /\ joined ts k /\ out ws = k /\ err ws = [] /\ both ws = k.
Proof.
  unfold shown. induction a as [|[[|] x] a IH]; intros v b st ts msg H M.
  - destruct ts; [|discriminate]. exists [], []. cbn. rewrite M. repeat split. constructor.
  - cbn [app put_values]. apply IH; assumption.
  - rewrite loud_cons in H. destruct ts as [|t ts]; [discriminate|]. cbn [map] in H. injection H as H1 H2. cbn [app put_values]. rewrite H1.
    destruct (put_after_wrong a v b st ts msg H2 M) as (ws & k & E & F & O & R & B). rewrite E. cbn [andb]. exists ([] ++ Out t :: ws), (t ++ k).
    split; [reflexivity|]. split; [constructor; exact F|]. unfold out, err, both in *; cbn. rewrite O, R, B. repeat split.
Qed.
Lemma type_names_out : forall vs, out (type_names V type_name false vs) = flat_map (fun m => 44 :: m) (map (fun x => type_name (snd x)) vs) ++ [nl] /\
  err (type_names V type_name false vs) = [] /\ both (type_names V type_name false vs) = flat_map (fun m => 44 :: m) (map (fun x => type_name (snd x)) vs) ++ [nl].
Proof.
  induction vs as [|[q v] vs (A & B & C)]; [repeat split|]. unfold out, err, both in *; cbn. rewrite A, B, C, <- !app_assoc. repeat split.
Qed.
Lemma types_out : forall st x vs, let ws := if types st then type_names V type_name true (x :: vs) else [] in
  out ws = types_line St V types type_name st (x :: vs) /\ err ws = [] /\ both ws = types_line St V types type_name st (x :: vs).
Proof.
  intros st [q v] vs. unfold types_line, when. destruct (types st); [|repeat split]. destruct (type_names_out vs) as (A & B & C). unfold out, err, both in *; cbn. rewrite A, B, C. repeat split.
Qed.
Lemma print_ok : forall vs st ts, shows st vs ts -> exists ws t, printv st vs = (ws, inl (match ts with [] => false | _ => true end)) /\ laid_out ts t /\
  out ws = types_line St V types type_name st vs ++ t /\ err ws = [] /\ both ws = types_line St V types type_name st vs ++ t.
Proof.
  intros [|x vs] st ts H.
  - destruct ts; [|discriminate]. exists [], []. unfold types_line, when. cbn. destruct (types st); repeat split; left; split; reflexivity.
  - destruct (put_first _ _ _ H) as (ws & t & E & L & O & R & B). unfold print_values. rewrite E. destruct (types_out st x vs) as (A1 & A2 & A3). cbv zeta in A1, A2, A3.
    eexists _, t. split; [reflexivity|]. split; [exact L|]. rewrite out_app, err_app, both_app, A1, A2, A3, O, R, B. repeat split.
Qed.
Lemma print_wrong : forall a v b st ts msg, shows st a ts -> sprint st v = inr msg ->
  exists ws k, printv st (a ++ (false, v) :: b) = (ws, inr msg) /\ joined ts k /\ out ws = types_line St V types type_name st (a ++ (false, v) :: b) ++ k /\ err ws = [] /\
    both ws = types_line St V types type_name st (a ++ (false, v) :: b) ++ k.
Proof.
  intros a v b st ts msg H M. destruct (put_first_wrong a v b st ts msg H M) as (ws & k & E & J & O & R & B). unfold print_values.
  destruct (a ++ (false, v) :: b) as [|x vs] eqn:D; [destruct a; discriminate|]. rewrite E. destruct (types_out st x vs) as (A1 & A2 & A3). cbv zeta in A1, A2, A3.
  eexists _, k. split; [reflexivity|]. split; [exact J|]. rewrite out_app, err_app, both_app, A1, A2, A3, O, R, B. repeat split.
Qed.
Lemma followed_fun : forall ts k, followed ts k -> forall k', followed ts k' -> k' = k.
Proof.
  induction 1 as [|t ts k B F IH|t ts k B F IH]; intros k' H; inversion H; subst; try contradiction; try reflexivity; rewrite (IH _ ltac:(eassumption)); reflexivity.
Qed.
Lemma joined_fun : forall ts k, joined ts k -> forall k', joined ts k' -> k' = k.
Proof. intros ts k [|t ts' f F] k' H; inversion H; subst; [reflexivity|]. rewrite (followed_fun _ _ F _ ltac:(eassumption)). reflexivity. Qed.
Lemma laid_fun : forall ts k, laid_out ts k -> forall k', laid_out ts k' -> k' = k.
Proof.
  intros ts k [(-> & ->)|(N & j & J & ->)] k' [(E & ->)|(N' & j' & J' & ->)]; try congruence. rewrite (joined_fun _ _ J _ J'). reflexivity.
Qed.

Lemma before_app : forall a b x, before St a (before St b x) = before St (a ++ b) x.
Proof. intros a b [[ws st] r]. cbn. rewrite app_assoc. reflexivity. Qed.

(* a line that succeeds *)
Lemma run_ok : forall k i st s st1, ok st s st1 -> exists ws, runs (S k) i st = before St ws (runs k i st1) /\ out ws = out_of i s /\ err ws = err_of s /\ both ws = both_of i s.
Proof.
  intros k i st s st1 (st2 & vs & ts & t & L & H & Y & A & P & F & U). cbn [run]. rewrite L. destruct (print_ok _ _ _ H) as (ps & t' & E & L' & O & R & B).
  pose proof (laid_fun _ _ Y _ L') as ->. rewrite E. rewrite !before_app.
  assert (X : (match (match ts with [] => false | _ :: _ => true end), rev vs with true, (_, v) :: _ => set_last st2 v | _, _ => st2 end) = st1).
  { destruct U as [(-> & ->)|(N & a & q & v & -> & ->)]; [reflexivity|]. destruct ts; [congruence|]. rewrite rev_app_distr. reflexivity. }
  rewrite X. eexists. split; [reflexivity|]. rewrite !out_app, !err_app, !both_app, O, R, B. unfold out_of, err_of, both_of, message. rewrite F, P, A. unfold when.
  destruct i; cbn; rewrite ?app_nil_r, <- ?app_assoc; cbn; rewrite ?app_nil_r; repeat split.
Qed.
Lemma run_wrong : forall k i st s st1, wrong st s st1 -> exists ws, runs (S k) i st = (ws, st1, Failed) /\ out ws = out_of i s /\ err ws = err_of s /\ both ws = both_of i s.
Proof.
  intros k i st s st1 (NP & A & msg & F & [(L & P)|(a & v & b & ts & t & L & H & J & M & P)]).
  - cbn [run]. rewrite L. unfold recovered. rewrite NP. cbn [before]. eexists. split; [reflexivity|]. rewrite !out_app, !err_app, !both_app. unfold out_of, err_of, both_of, message. rewrite F, P, A.
    unfold when. destruct i; cbn; rewrite ?app_nil_r, <- ?app_assoc; repeat split.
  - cbn [run]. rewrite L. destruct (print_wrong a v b _ _ _ H M) as (ps & k' & E & J' & O & R & B). rewrite E. unfold recovered. rewrite NP. cbn [before]. eexists. split; [reflexivity|].
    pose proof (joined_fun _ _ J _ J') as ->. rewrite !out_app, !err_app, !both_app, O, R, B. unfold out_of, err_of, both_of, message. rewrite F, P, A. unfold when.
    destruct i; cbn; rewrite ?app_nil_r, <- ?app_assoc; cbn; rewrite ?app_nil_r; repeat split.
Qed.
Lemma ok_fine : forall st s st1, ok st s st1 -> fine s.
Proof. intros st s st1 (? & ? & ? & ? & ? & ? & ? & ? & ? & F & _). exact F. Qed.
Lemma wrong_not_fine : forall st s st1, wrong st s st1 -> ~ fine s.
Proof. intros st s st1 (_ & _ & msg & F & _) X. unfold fine in X. congruence. Qed.

Lemma run_goes : forall ss st st1, hist st ss st1 -> Forall fine ss -> forall k i, exists ws, runs (length ss + k) i st = before St ws (runs k i st1) /\
  out ws = flat_map (out_of i) ss /\ err ws = flat_map err_of ss /\ both ws = flat_map (both_of i) ss.
Proof.
  induction 1 as [st|st s st1 ss st' D H IH]; intros F k i.
  - exists []. cbn. destruct (runs k i st) as [[? ?] ?]. repeat split.
  - inversion F as [|? ? F1 F2]; subst. destruct D as [D|D]; [|exfalso; exact (wrong_not_fine _ _ _ D F1)]. destruct (IH F2 k i) as (ws & E & O & R & B).
    cbn [length Nat.add]. destruct (run_ok (length ss + k) i _ _ _ D) as (ws1 & E1 & O1 & R1 & B1). rewrite E1, E, before_app. eexists. split; [reflexivity|].
    rewrite out_app, err_app, both_app. cbn [flat_map]. rewrite O, O1, R, R1, B, B1. repeat split.
Qed.
Lemma hist_app : forall a b st st2, hist st (a ++ b) st2 -> exists st1, hist st a st1 /\ hist st1 b st2.
Proof.
  induction a as [|s a IH]; intros b st st2 H; [exists st; split; [constructor|exact H]|]. cbn in H. inversion H as [|? ? st3 ? ? D H']; subst.
  destruct (IH _ _ _ H') as (st1 & A & B). exists st1. split; [econstructor; eassumption|exact B].
Qed.
Lemma run_end : forall k i st, line st = AtEnd -> runs (S k) i st = ((if i then [Out (prompt st)] else []), st, Finished).
Proof. intros k i st L. cbn [run]. rewrite L. cbn. rewrite app_nil_r. reflexivity. Qed.
Lemma good_goes : forall ss st st', good_run St V line prompt types panics type_name sprint set_last st ss st' -> forall k i, (length ss < k)%nat ->
  exists ws, runs k i st = (ws, st', Finished) /\ out ws = flat_map (out_of i) ss ++ when i (prompt st') /\ err ws = flat_map err_of ss /\ both ws = flat_map (both_of i) ss ++ when i (prompt st').
Proof.
  intros ss st st' (H & F & L) k i K. destruct (run_goes _ _ _ H F (k - length ss) i) as (ws & E & O & R & B). replace (length ss + (k - length ss))%nat with k in E by lia.
  rewrite E. replace (k - length ss)%nat with (S (k - length ss - 1)) by lia. rewrite run_end by exact L. cbn [before]. eexists. split; [reflexivity|].
  rewrite out_app, err_app, both_app, O, R, B. unfold when. destruct i; cbn; rewrite ?app_nil_r; repeat split.
Qed.
Lemma bad_goes : forall ss st st', bad_run St V line prompt types panics type_name sprint set_last st ss st' -> forall k i, (length ss <= k)%nat ->
  exists ws, runs k i st = (ws, st', Failed) /\ out ws = flat_map (out_of i) ss /\ err ws = flat_map err_of ss /\ both ws = flat_map (both_of i) ss.
Proof.
  intros ss st st' (H & a & s & -> & F & N) k i K. rewrite app_length in K. cbn in K. destruct (hist_app _ _ _ _ H) as (st1 & H1 & H2). destruct (run_goes _ _ _ H1 F (k - length a) i) as (ws & E & O & R & B).
  replace (length a + (k - length a))%nat with k in E by lia. rewrite E. inversion H2 as [|? ? ? ? ? D H3]; subst. inversion H3; subst. destruct D as [D|D]; [elim N; exact (ok_fine _ _ _ D)|].
  destruct (run_wrong (k - length a - 1) i _ _ _ D) as (ws1 & E1 & O1 & R1 & B1). replace (k - length a)%nat with (S (k - length a - 1)) by lia. rewrite E1. cbn [before]. eexists. split; [reflexivity|].
  rewrite out_app, err_app, both_app, O, R, B, O1, R1, B1, !flat_map_app. cbn [flat_map]. rewrite !app_nil_r. repeat split.
Qed.
(* the steps up to the first that is not fine *)
Lemma first_bad : forall ss, Forall fine ss \/ exists a s b, ss = a ++ s :: b /\ Forall fine a /\ ~ fine s.
Proof.
  induction ss as [|s ss IH]; [left; constructor|]. destruct (failed s) eqn:E.
  - right. exists [], s, ss. split; [reflexivity|]. split; [constructor|]. unfold fine. congruence.
  - destruct IH as [F|(a & x & b & -> & F & N)]; [left; constructor; assumption|]. right. exists (s :: a), x, b. split; [reflexivity|]. split; [constructor; assumption|exact N].
Qed.
Lemma loop_goes : forall n ss st st', hist st ss st' -> line st' = AtEnd -> forall k i, (length ss < k)%nat -> (length ss < n)%nat ->
  exists ws, loop n k i st = (ws, st', Finished) /\ out ws = flat_map (out_of i) ss ++ when i (prompt st') /\ err ws = flat_map err_of ss /\ both ws = flat_map (both_of i) ss ++ when i (prompt st').
Proof.
  induction n as [|n IH]; intros ss st st' H L k i K N; [lia|]. cbn [run_on]. destruct (first_bad ss) as [F|(a & s & b & -> & F & NF)].
  - destruct (good_goes ss st st' (conj H (conj F L)) k i K) as (ws & E & X). rewrite E. exists ws. split; [reflexivity|exact X].
  - replace (a ++ s :: b) with ((a ++ [s]) ++ b) in H by (rewrite <- app_assoc; reflexivity). destruct (hist_app _ _ _ _ H) as (st1 & H1 & H2). rewrite app_length in K, N. cbn in K, N.
    destruct (bad_goes (a ++ [s]) st st1) with (k := k) (i := i) as (ws & E & O & R & B).
    { split; [exact H1|]. exists a, s. split; [reflexivity|]. split; assumption. }
    { rewrite app_length. cbn. lia. }
    rewrite E. destruct (IH b st1 st' H2 L k i ltac:(lia) ltac:(lia)) as (ws2 & E2 & O2 & R2 & B2). rewrite E2. cbn [before]. eexists. split; [reflexivity|].
    rewrite out_app, err_app, both_app, O, R, B, O2, R2, B2. replace (a ++ s :: b) with ((a ++ [s]) ++ b) by (rewrite <- app_assoc; reflexivity). rewrite !flat_map_app, <- !app_assoc. repeat split.
Qed.

(* every state has a line that is fine, one that is not, none, or one that kills *)
Lemma followed_total : forall ts, exists k, followed ts k.
Proof.
  induction ts as [|t ts (k & F)]; [exists []; constructor|]. destruct (spaced t) eqn:S.
  - exists (32 :: t ++ k). apply followed_space; [intros X; apply spaced_bare in X; congruence|exact F].
  - exists (t ++ k). apply followed_bare; [apply spaced_bare; exact S|exact F].
Qed.
Lemma joined_total : forall ts, exists k, joined ts k.
Proof. intros [|t ts]; [exists []; constructor|]. destruct (followed_total ts) as (k & F). exists (t ++ k). constructor. exact F. Qed.
Lemma laid_total : forall ts, exists k, laid_out ts k.
Proof. intros [|t ts]; [exists []; left; split; reflexivity|]. destruct (joined_total (t :: ts)) as (k & J). exists (k ++ [nl]). right. split; [discriminate|]. exists k. split; [exact J|reflexivity]. Qed.
Lemma shown_or_not : forall st vs, (exists ts, shows st vs ts) \/ exists a v b ts msg, vs = a ++ (false, v) :: b /\ shows st a ts /\ sprint st v = inr msg.
Proof.
  intros st. unfold shown. induction vs as [|[[|] v] vs IH]; [left; exists []; reflexivity| |].
  - destruct IH as [(ts & H)|(a & x & b & ts & msg & -> & H & M)]; [left; exists ts; exact H|]. right. exists ((true, v) :: a), x, b, ts, msg. repeat split; assumption.
  - destruct (sprint st v) as [t|msg] eqn:E; [|right; exists [], v, vs, [], msg; repeat split; assumption].
    destruct IH as [(ts & H)|(a & x & b & ts & msg & -> & H & M)].
    + left. exists (t :: ts). rewrite loud_cons. cbn [map]. rewrite E, H. reflexivity.
    + right. exists ((false, v) :: a), x, b, (t :: ts), msg. split; [reflexivity|]. rewrite loud_cons. cbn [map]. rewrite E, H. split; [reflexivity|exact M].
Qed.
Lemma one_step : forall st, at_end St V line st \/ kills St V line panics sprint st \/ exists s st1, ok st s st1 \/ wrong st s st1.
Proof.
  intros st. destruct (line st) as [|ws st1 vs|ws st1 msg|ws st1] eqn:L; [left; exact L| | |right; left; left; exists ws, st1; exact L].
  - right. destruct (shown_or_not st1 vs) as [(ts & H)|(a & v & b & ts & msg & -> & H & M)].
    + right. destruct (laid_total ts) as (t & Y). destruct ts as [|t0 ts0].
      * exists (mkStep (prompt st) ws (types_line St V types type_name st1 vs ++ t) None), st1. left. exists st1, vs, [], t. cbn. repeat split; try assumption. left. split; reflexivity.
      * assert (X : exists a q v, vs = a ++ [(q, v)]). { destruct (rev vs) as [|[q v] l] eqn:E; [|exists (rev l), q, v; rewrite <- (rev_involutive vs), E; reflexivity]. rewrite <- (rev_involutive vs), E in H. discriminate. }
        destruct X as (a & q & v & X). exists (mkStep (prompt st) ws (types_line St V types type_name st1 vs ++ t) None), (set_last st1 v). left. exists st1, vs, (t0 :: ts0), t. cbn. repeat split; try assumption. right. split; [discriminate|].
        exists a, q, v. split; [exact X|reflexivity].
    + destruct (panics st1) eqn:P; [left; right; right; exists ws, st1, (a ++ (false, v) :: b), v, msg; repeat split; try assumption; apply in_or_app; right; left; reflexivity|].
      right. destruct (joined_total ts) as (t & J). exists (mkStep (prompt st) ws (types_line St V types type_name st1 (a ++ (false, v) :: b) ++ t) (Some msg)), st1. right. split; [exact P|]. split; [reflexivity|]. exists msg. split; [reflexivity|].
      right. exists a, v, b, ts, t. repeat split; assumption.
  - destruct (panics st1) eqn:P; [right; left; right; left; exists ws, st1, msg; split; assumption|]. right. right. exists (mkStep (prompt st) ws [] (Some msg)), st1. right. split; [exact P|]. split; [reflexivity|]. exists msg. split; [reflexivity|]. left. split; [exact L|reflexivity].
Qed.
Lemma hist_total : forall k st, exists ss st', hist st ss st' /\ (length ss <= k)%nat /\ (length ss = k \/ at_end St V line st' \/ kills St V line panics sprint st').
Proof.
  induction k as [|k IH]; intros st; [exists [], st; split; [constructor|]; cbn; split; [lia|left; reflexivity]|].
  destruct (one_step st) as [L|[L|(s & st1 & D)]].
  - exists [], st. split; [constructor|]. split; [cbn; lia|]. right. left. exact L.
  - exists [], st. split; [constructor|]. split; [cbn; lia|]. right. right. exact L.
  - destruct (IH st1) as (ss & st' & H & K & Q). exists (s :: ss), st'. split; [econstructor; eassumption|]. cbn. split; [lia|]. destruct Q as [Q|Q]; [left; lia|right; exact Q].
Qed.

(* ---- several sources ---- *)
Variable open : source -> St -> St + text.
Variable open_stdin : St -> St.
Notation srun := (run_source St V line prompt types panics type_name sprint set_last open).
Notation frun := (run_files St V line prompt types panics type_name sprint set_last open).
Notation mrun := (main St V line prompt types panics type_name sprint set_last open open_stdin).
Notation sgood := (source_good St V line prompt types panics type_name sprint set_last open).
Notation sbad := (source_bad St V line prompt types panics type_name sprint set_last open).
Notation agood := (all_good St V line prompt types panics type_name sprint set_last open).
Lemma good_source : forall s st st' o e, sgood s st st' o e -> exists k0, forall k, (k0 <= k)%nat -> exists ws, srun k s st = (ws, st', GoesOn) /\ out ws = o /\ err ws = e.
Proof.
  intros s st st' o e (st1 & ss & E & G & -> & ->). exists (S (length ss)). intros k K. unfold run_source. rewrite E. change (match s with Argument _ => false | File name => teq name dash end) with (asks s).
  destruct (good_goes _ _ _ G k (asks s) ltac:(lia)) as (ws & X & O & R & _). rewrite X. exists ws. repeat split; assumption.
Qed.
Lemma bad_source : forall s st o e, sbad s st o e -> exists k0, forall k, (k0 <= k)%nat -> exists ws st', srun k s st = (ws, st', Exits 1) /\ out ws = o /\ err ws = e.
Proof.
  intros s st o e [(msg & E & -> & ->)|(st1 & ss & st' & E & G & -> & ->)].
  - exists O. intros k _. unfold run_source. rewrite E. eexists _, _. split; [reflexivity|]. cbn. rewrite app_nil_r. split; reflexivity.
  - exists (length ss). intros k K. unfold run_source. rewrite E. change (match s with Argument _ => false | File name => teq name dash end) with (asks s).
    destruct (bad_goes _ _ _ G k (asks s) K) as (ws & X & O & R & _). rewrite X. exists ws, st'. repeat split; assumption.
Qed.
(* the sources, and what comes after them *)
Fixpoint in_turn (k : nat) (l : list source) (last : St -> list write * St * ending) (st : St) : list write * St * ending :=
  match l with [] => last st | s :: l' => and_then St (srun k s st) (in_turn k l' last) end.
Definition the_rest (n k : nat) (o : options) (st : St) : list write * St * ending :=
  match opt_e o, opt_args o with
  | [], [] => match loop n k true (open_stdin st) with (ws, st3, Finished) => (ws, st3, Exits 0) | (ws, st3, Died) => (ws, st3, Panics) | (ws, st3, _) => (ws, st3, NeedsMore) end
  | _, _ => ([], st, Exits 0)
  end.
Lemma then_nil : forall st f, and_then St ([], st, GoesOn) f = f st.
Proof. intros st f. cbn. destruct (f st) as [[? ?] ?]. reflexivity. Qed.
Lemma then_ext : forall x f g, (forall st, f st = g st) -> and_then St x f = and_then St x g.
Proof. intros [[ws st] []] f g H; cbn; rewrite ?H; reflexivity. Qed.
Lemma files_turn : forall k names st, frun k names st = in_turn k (map File names) (fun st => ([], st, Exits 0)) st.
Proof. induction names as [|f names IH]; intros st; [reflexivity|]. cbn [run_files map in_turn]. apply then_ext. exact IH. Qed.
Lemma turn_app : forall k a b last st, in_turn k (a ++ b) last st = in_turn k a (in_turn k b last) st.
Proof. induction a as [|s a IH]; intros b last st; [reflexivity|]. cbn [app in_turn]. apply then_ext. intros st'. apply IH. Qed.
Lemma main_turn : forall n k o st, mrun n k o st = in_turn k (sources o) (the_rest n k o) st.
Proof.
  intros n k [f i e args] st. unfold main, sources, unless_empty. cbn [opt_f opt_i opt_e opt_args].
  assert (Files : forall a l st, frun k (a :: l) st = in_turn k (map File (a :: l)) (the_rest n k (mkOptions f i [] (a :: l))) st).
  { intros a l st1. rewrite files_turn. cbn [map in_turn]. apply then_ext. unfold the_rest. cbn [opt_e opt_args]. induction (map File l) as [|s l' IH]; intros st3; [reflexivity|]. cbn [in_turn]. apply then_ext. exact IH. }
  destruct f as [|f0 f], i as [|i0 i], e as [|e0 e], args as [|a args]; cbn [app]; rewrite ?then_nil; try exact (Files _ _ _); try reflexivity; cbn [in_turn]; apply then_ext; intros st1; rewrite ?then_nil; try exact (Files _ _ _); try reflexivity;
    apply then_ext; intros st2; try exact (Files _ _ _); reflexivity.
Qed.
Lemma turn_good : forall l st st' o e, agood l st st' o e -> exists k0, forall k, (k0 <= k)%nat -> forall last, exists ws, out ws = o /\ err ws = e /\
  in_turn k l last st = (let '(ws', st2, r) := last st' in (ws ++ ws', st2, r)).
Proof.
  induction 1 as [st|s ss st st1 st' o e o' e' G A (k1 & IH)].
  - exists O. intros k _ last. exists []. repeat split. cbn. destruct (last st) as [[? ?] ?]. reflexivity.
  - destruct (good_source _ _ _ _ _ G) as (k0 & H0). exists (Nat.max k0 k1). intros k K last. destruct (H0 k ltac:(lia)) as (ws & E & O & R). destruct (IH k ltac:(lia) last) as (ws1 & O1 & R1 & E1).
    exists (ws ++ ws1). rewrite out_app, err_app, O, O1, R, R1. repeat split. cbn [in_turn]. rewrite E. cbn [and_then]. rewrite E1. destruct (last st') as [[? ?] ?]. rewrite app_assoc. reflexivity.
Qed.
End Run.

(* ---- the operator ivy ---- *)
Section Eval.
Variables St V : Type.
Variable line : St -> outcome St V.
Variable types : St -> bool.
Variable type_name : V -> text.
Variable sprint : St -> V -> text + text.
Notation ev := (eval St V line types type_name sprint).
Notation printv := (print_values St V types type_name sprint).
Notation shows := (shown St V sprint).
Lemma no_types : forall st vs, types st = false -> types_line St V types type_name st vs = [].
Proof. intros st vs H. unfold types_line, when. rewrite H. reflexivity. Qed.
Variable txt : V -> text.
Hypothesis same_text : forall st v, sprint st v = inl (txt v).
Hypothesis plain_types : forall st, types st = false.
Lemma always_shown : forall st vs, shows st vs (texts_of V txt vs).
Proof. intros st vs. unfold shown, texts_of. rewrite map_map. apply map_ext. intros v. apply same_text. Qed.
Lemma eval_goes : forall l st st' prev, gives St V line st l st' -> line st' = AtEnd -> forall a v, List.last (prev :: l) [] = a ++ [v] -> forall k, (length l < k)%nat ->
  exists ws ks, ev k prev st = (ws, st', Returns (Some v)) /\ Forall2 laid_out (map (texts_of V txt) (removelast (prev :: l) ++ [a])) ks /\ out ws = concat ks /\ err ws = [].
Proof.
  induction l as [|vs l IH]; intros st st' prev G L a v La k K; destruct k as [|k]; try (cbn in K; lia).
  - inversion G; subst. cbn [eval]. rewrite L. cbn in La. subst prev. rewrite rev_app_distr. cbn [rev app]. rewrite rev_involutive.
    destruct (print_ok St V types type_name sprint a st' _ (always_shown _ _)) as (ws & t & E & Y & O & R & _). rewrite E. rewrite no_types in O by apply plain_types. exists ws, [t]. split; [reflexivity|]. split; [constructor; [exact Y|constructor]|].
    cbn. rewrite app_nil_r. split; assumption.
  - inversion G as [|? st1 ? ? ? L1 G1]; subst. cbn [eval]. rewrite L1.
    destruct (print_ok St V types type_name sprint prev st1 _ (always_shown _ _)) as (ps & t & E & Y & O & R & _). rewrite E. rewrite no_types in O by apply plain_types.
    destruct (IH st1 st' vs G1 L a v La k ltac:(cbn in K; lia)) as (ws & ks & E2 & Y2 & O2 & R2). rewrite E2. eexists _, (t :: ks). split; [reflexivity|]. split.
    + change (removelast (prev :: vs :: l)) with (prev :: removelast (vs :: l)). constructor; assumption.
    + cbn [app]. rewrite out_app, err_app, O, O2, R, R2. split; reflexivity.
Qed.
Lemma eval_none : forall l st st' prev, gives St V line st l st' -> line st' = AtEnd -> List.last (prev :: l) [] = [] -> forall k, (length l < k)%nat ->
  exists ws ks, ev k prev st = (ws, st', Returns None) /\ Forall2 laid_out (map (texts_of V txt) (removelast (prev :: l))) ks /\ out ws = concat ks /\ err ws = [].
Proof.
  induction l as [|vs l IH]; intros st st' prev G L La k K; destruct k as [|k]; try (cbn in K; lia).
  - inversion G; subst. cbn [eval]. rewrite L. cbn in La. subst prev. exists [], []. repeat split. constructor.
  - inversion G as [|? st1 ? ? ? L1 G1]; subst. cbn [eval]. rewrite L1.
    destruct (print_ok St V types type_name sprint prev st1 _ (always_shown _ _)) as (ps & t & E & Y & O & R & _). rewrite E. rewrite no_types in O by apply plain_types.
    destruct (IH st1 st' vs G1 L La k ltac:(cbn in K; lia)) as (ws & ks & E2 & Y2 & O2 & R2). rewrite E2. eexists _, (t :: ks). split; [reflexivity|]. split.
    + change (removelast (prev :: vs :: l)) with (prev :: removelast (vs :: l)). constructor; assumption.
    + cbn [app]. rewrite out_app, err_app, O, O2, R, R2. split; reflexivity.
Qed.
End Eval.

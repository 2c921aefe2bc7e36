From Coq Require Import QArith Qabs Lqa ZifyBool.
From Verif Require Import Value ScanModel TextModel TextSpec TextProofs TextNum FloatModel FloatProofs FloatMono FloatSign RandSpec NumModel TimeModel NumModel MixModel MixSpec MixProofs FmtModel FmtSpec.
Open Scope list_scope.
Open Scope Z_scope.

Definition plain_form (s lit fl wd pd : text) (v : Z) (rest post : text) : Prop :=
  s = lit ++ [37] ++ fl ++ wd ++ pd ++ [v] ++ rest /\
  ~ In 37 lit /\ Forall flag fl /\ digits wd /\ hd 49 wd <> 48 /\
  (pd = [] \/ exists n, pd = 46 :: n /\ digits n) /\ is_verb v = true /\ literal rest = Some post.
Lemma literal_doubled t : literal (doubled t) = Some t.
Proof.
  induction t as [|r t IH]; [reflexivity|]. unfold doubled in *. cbn [flat_map].
  destruct (Z.eqb_spec r 37) as [-> |N]; cbn [app].
  - cbn [literal]. rewrite IH. reflexivity.
  - assert (L : literal (r :: flat_map (fun r => if r =? 37 then [37; 37] else [r]) t) =
      match literal (flat_map (fun r => if r =? 37 then [37; 37] else [r]) t) with Some t => Some (r :: t) | None => None end).
    { cbn [literal]. repeat (match goal with |- context [match ?x with _ => _ end] => is_var x; destruct x end; try reflexivity). contradiction N. reflexivity. }
    rewrite L, IH. reflexivity.
Qed.
Lemma plain_is s lit fl wd pd v post : plain_format s lit fl wd pd v post -> plain_form s lit fl wd pd v (doubled post) post.
Proof.
  intros (A & B & C & D & E & F & G). split; [exact A|]. split; [exact B|]. split; [exact C|]. split; [exact D|]. split; [exact E|]. split; [exact F|].
  split; [|apply literal_doubled]. unfold is_verb. apply existsb_exists. exists v. split; [exact G|apply Z.eqb_refl].
Qed.

(* ---- the verb ---- *)
Lemma index_lit lit s : ~ In 37 lit -> index_byte 37 (lit ++ 37 :: s) = Some (length lit).
Proof.
  induction lit as [|r l IH]; intros N; cbn [app index_byte length]; [reflexivity|]. destruct (Z.eqb_spec r 37) as [E|E]; [exfalso; apply N; left; exact E|].
  rewrite IH; [reflexivity|]. intros X. apply N. right. exact X.
Qed.
Lemma skip_mods m v s : Forall (fun r => modifier r = true) m -> modifier v = false -> skip_modifiers (m ++ v :: s) = length m.
Proof. intros F V. induction F as [|r l R F IH]; cbn [app skip_modifiers length]; [rewrite V; reflexivity|]. rewrite R, IH. reflexivity. Qed.
Lemma skipn_lit {A} (a : list A) x s n : n = (length a + 1)%nat -> skipn n (a ++ x :: s) = s.
Proof. intros ->. induction a as [|y a IH]; [reflexivity|exact IH]. Qed.
Lemma nth_lit {A} (a : list A) x s : nth_error (a ++ x :: s) (length a) = Some x.
Proof. induction a as [|y a IH]; [reflexivity|exact IH]. Qed.
Lemma verb_not_mod v : is_verb v = true -> modifier v = false /\ v <> 37.
Proof.
  intros H. unfold is_verb in H. cbn [existsb] in H. unfold modifier. cbn [existsb]. lia.
Qed.
Theorem verb_mods lit m v rest : ~ In 37 lit -> Forall (fun r => modifier r = true) m -> is_verb v = true -> verb_of (lit ++ 37 :: m ++ v :: rest) = Ok v.
Proof.
  intros L M V. destruct (verb_not_mod v V) as [NM N37]. unfold verb_of, verb_index. cbn [verb_index_fuel]. rewrite index_lit by exact L. rewrite (skipn_lit lit) by lia. rewrite (skip_mods m v rest M NM), nth_lit.
  destruct (Z.eqb_spec v 37); [contradiction|]. rewrite V. cbn [bind].
  replace (nth_error (lit ++ 37 :: m ++ v :: rest) (length lit + 1 + length m)) with (Some v); [reflexivity|].
  symmetry. replace (lit ++ 37 :: m ++ v :: rest) with ((lit ++ 37 :: m) ++ v :: rest) by (rewrite <-app_assoc; reflexivity).
  replace (length lit + 1 + length m)%nat with (length (lit ++ 37 :: m)) by (rewrite app_length; cbn [length]; lia). apply nth_lit.
Qed.
(* And only such formats have a verb, if they have no %%. *)
Lemma index_byte_split b s n : index_byte b s = Some n -> exists l r, s = l ++ b :: r /\ length l = n /\ ~ In b l.
Proof.
  revert n. induction s as [|x s IH]; intros n H; cbn [index_byte] in H; [discriminate|]. destruct (Z.eqb_spec x b) as [->|N].
  - injection H as <-. exists [], s. split; [reflexivity|]. split; [reflexivity|intros []].
  - destruct (index_byte b s) as [k|]; [|discriminate]. injection H as <-. destruct (IH k eq_refl) as (l & r & -> & L & I). exists (x :: l), r. split; [reflexivity|]. split; [cbn; lia|]. intros [X|X]; [exact (N X)|exact (I X)].
Qed.
Lemma skip_split s : exists m r, s = m ++ r /\ length m = skip_modifiers s /\ Forall (fun r => modifier r = true) m.
Proof.
  induction s as [|x s (m & r & E & L & F)]; cbn [skip_modifiers]; [exists [], []; repeat split; constructor|]. destruct (modifier x) eqn:M.
  - exists (x :: m), r. subst s. split; [reflexivity|]. split; [cbn; lia|]. constructor; assumption.
  - exists [], (x :: s). repeat split; constructor.
Qed.
Theorem verb_form s v : verb_of s = Ok v -> exists lit m r rest, s = lit ++ 37 :: m ++ r :: rest /\ ~ In 37 lit /\ Forall (fun r => modifier r = true) m /\ ((r = v /\ is_verb v = true) \/ r = 37).
Proof.
  unfold verb_of, verb_index. cbn [verb_index_fuel]. destruct (index_byte 37 s) as [p|] eqn:I; [|discriminate]. destruct (index_byte_split _ _ _ I) as (lit & t & -> & L & NI).
  rewrite (skipn_lit lit) by lia. destruct (skip_split t) as (m & r & -> & M & F). rewrite <-M. destruct r as [|r rest].
  - rewrite app_nil_r. rewrite (proj2 (nth_error_None m (length m))) by lia. discriminate.
  - rewrite nth_lit. intros H. exists lit, m, r, rest. split; [reflexivity|]. split; [exact NI|]. split; [exact F|]. destruct (Z.eqb_spec r 37) as [E|E]; [right; exact E|]. left. destruct (is_verb r) eqn:V; [|discriminate]. cbn [bind] in H.
    replace (nth_error (lit ++ 37 :: m ++ r :: rest) (p + 1 + length m)) with (Some r) in H; [injection H as <-; split; [reflexivity|exact V]|].
    symmetry. replace (lit ++ 37 :: m ++ r :: rest) with ((lit ++ 37 :: m) ++ r :: rest) by (rewrite <-app_assoc; reflexivity).
    replace (p + 1 + length m)%nat with (length (lit ++ 37 :: m)) by (rewrite app_length; cbn [length]; lia). apply nth_lit.
Qed.
(* verbOf never runs off the end. *)
Lemma verb_index_bound fuel s i : verb_index_fuel fuel s = Ok i -> (i < length s)%nat.
Proof.
  revert s i. induction fuel as [|fuel IH]; intros s i H; [discriminate|]. cbn [verb_index_fuel] in H. destruct (index_byte 37 s) as [p|] eqn:I; [|discriminate].
  destruct (index_byte_split _ _ _ I) as (lit & t & -> & L & NI). rewrite (skipn_lit lit) in H by lia. destruct (nth_error t (skip_modifiers t)) as [r|] eqn:N; [|discriminate].
  assert (B : (skip_modifiers t < length t)%nat) by (apply nth_error_Some; congruence). rewrite app_length. cbn [length]. destruct (r =? 37).
  - apply IH in H. rewrite skipn_length in H. lia.
  - destruct (is_verb r); [|discriminate]. injection H as <-. lia.
Qed.
Theorem verb_total s : verb_of s <> Crash.
Proof.
  unfold verb_of, verb_index. destruct (verb_index_fuel (S (length s)) s) as [i| | |] eqn:E; cbn [bind]; try discriminate.
  - apply verb_index_bound in E. apply nth_error_Some in E. destruct (nth_error s i); [discriminate|contradiction].
  - exfalso. revert E. generalize (S (length s)) at 1. intros n. revert s. induction n as [|n IH]; intros s E; [discriminate|]. cbn [verb_index_fuel] in E. destruct (index_byte 37 s); [|discriminate]. destruct (nth_error _ _) as [r|]; [|discriminate]. destruct (r =? 37); [exact (IH _ E)|destruct (is_verb r); discriminate].
Qed.

(* ---- fmt's reading of a format ---- *)
Lemma digit_mod r : 48 <= r <= 57 -> modifier r = true.
Proof. intros H. unfold modifier. cbn [existsb]. lia. Qed.
Lemma digits_mods d : digits d -> Forall (fun r => modifier r = true) d.
Proof. intros H. eapply Forall_impl; [|exact H]. intros r. apply digit_mod. Qed.
Lemma flags_app fl s d : Forall flag fl -> ~ flag (hd 0 s) -> hd 0 s <> 35 -> hd 0 s <> 32 ->
  exists d', flags (fl ++ s) d = Some (d', s) /\ (minus d' = (minus d || existsb (Z.eqb 45) fl)) /\ (plus d' = (plus d || existsb (Z.eqb 43) fl)) /\ (zero d' = (zero d || existsb (Z.eqb 48) fl)).
Proof.
  intros F N N1 N2. revert d. induction F as [|r l R F IH]; intros d; cbn [app].
  - exists d. cbn [existsb]. rewrite !orb_false_r. split; [|tauto]. unfold flag in N. destruct s as [|x s]; [reflexivity|]. cbn [hd] in *.
    assert (X : forall (A B C D E : option (directive * text)), match x with 45 => A | 43 => B | 48 => C | 35 => D | 32 => E | _ => Some (d, x :: s) end = Some (d, x :: s)).
    { intros. destruct x as [|p|p]; try reflexivity. do 6 (try (destruct p as [p|p|])); try reflexivity; exfalso; lia. }
    cbn [flags]. apply X.
  - destruct R as [-> |[-> | ->]]; cbn [flags];
    [destruct (IH (mkDir true (plus d) (zero d) None None 0)) as (d' & E & A & B & C)|destruct (IH (mkDir (minus d) true (zero d) None None 0)) as (d' & E & A & B & C)|destruct (IH (mkDir (minus d) (plus d) true None None 0)) as (d' & E & A & B & C)];
    exists d'; cbn [minus plus zero existsb Z.eqb Pos.eqb orb] in *; (split; [exact E|]); rewrite ?orb_true_r in *; rewrite A, B, C; cbn [orb]; auto.
Qed.
Lemma hd_app_nonempty (a b : text) d : a <> [] -> hd d (a ++ b) = hd d a.
Proof. destruct a; [contradiction|reflexivity]. Qed.
Definition opt (d : text) : option Z := match d with [] => None | _ => Some (decimal d) end.
Lemma verb_cases v : is_verb v = true -> ~ flag v /\ v <> 35 /\ v <> 32 /\ v <> 46 /\ v <> 37 /\ ~ 48 <= v <= 57.
Proof. intros H. unfold is_verb in H. cbn [existsb] in H. unfold flag. lia. Qed.
Lemma directive_plain fl wd pd v rest : Forall flag fl -> digits wd -> hd 49 wd <> 48 -> (pd = [] \/ exists n, pd = 46 :: n /\ digits n) -> is_verb v = true ->
  directive_of (fl ++ wd ++ pd ++ [v] ++ rest) =
  Ok (mkDir (existsb (Z.eqb 45) fl) (existsb (Z.eqb 43) fl) (existsb (Z.eqb 48) fl) (opt wd) (match pd with [] => None | _ :: n => Some (match opt n with Some z => z | None => 0 end) end) v, rest).
Proof.
  intros F W W0 Pd V. destruct (verb_cases v V) as (V1 & V2 & V3 & V4 & V5 & V6). set (s := wd ++ pd ++ [v] ++ rest).
  assert (HD : ~ flag (hd 0 s) /\ hd 0 s <> 35 /\ hd 0 s <> 32).
  { unfold s. destruct wd as [|x wd].
    - destruct Pd as [-> | (n & -> & _)]; cbn [app hd]; [tauto|]. unfold flag. lia.
    - cbn [app hd] in *. apply Forall_inv in W. unfold flag. lia. }
  unfold directive_of. destruct (flags_app fl s (mkDir false false false None None 0) F (proj1 HD) (proj1 (proj2 HD)) (proj2 (proj2 HD))) as (d' & E & A & B & C). rewrite E. cbn [minus plus zero orb] in A, B, C.
  unfold s. unfold parsenum at 1. rewrite take_digits_app; [|exact W|].
  2:{ destruct Pd as [-> | (n & -> & _)]; cbn [app hd]; unfold ScanModel.between; lia. }
  destruct Pd as [-> | (n & -> & N)]; cbn [app].
  - assert (X : forall (A B : option Z * text), match v with 46 => A | _ => B end = B) by (intros; destruct v as [|p|p]; try reflexivity; do 6 (try (destruct p as [p|p|])); try reflexivity; exfalso; lia).
    rewrite X. rewrite A, B, C. reflexivity.
  - unfold parsenum. rewrite take_digits_app; [|exact N|cbn [app hd]; unfold ScanModel.between; lia]. rewrite A, B, C. reflexivity.
Qed.
Lemma parse_lit lit s o : ~ In 37 lit -> parse_format s = Ok o -> parse_format (lit ++ s) = match o with Out pre d post => Ok (Out (lit ++ pre) d post) end.
Proof.
  intros N E. induction lit as [|r l IH]; cbn [app]; [destruct o; exact E|]. assert (R : r <> 37) by (intros ->; apply N; left; reflexivity). assert (NL : ~ In 37 l) by (intros X; apply N; right; exact X). specialize (IH NL). cbn [parse_format].
  assert (X : forall (A : res outcome) , match r with 37 => A | _ => let! o0 := parse_format (l ++ s) in match o0 with Out pre d post => Ok (Out (r :: pre) d post) end end = let! o0 := parse_format (l ++ s) in match o0 with Out pre d post => Ok (Out (r :: pre) d post) end).
  { intros. destruct r as [|p|p]; try reflexivity; do 6 (try (destruct p as [p|p|])); try reflexivity; exfalso; lia. }
  rewrite X. rewrite IH. destruct o. reflexivity.
Qed.
Lemma parse_directive s d rest post : hd 0 s <> 37 -> directive_of s = Ok (d, rest) -> literal rest = Some post -> parse_format (37 :: s) = Ok (Out [] d post).
Proof.
  intros H D L. cbn [parse_format]. 
  assert (X : forall (A B : res outcome) , match s with 37 :: _ => A | _ => B end = B).
  { intros. destruct s as [|x s']; [reflexivity|]. cbn [hd] in H. destruct x as [|p|p]; try reflexivity; do 6 (try (destruct p as [p|p|])); try reflexivity; exfalso; lia. }
  transitivity (let! ds := directive_of s in match literal (snd ds) with Some post => Ok (Out [] (fst ds) post) | None => Unmod end); [|rewrite D; cbn [bind snd fst]; rewrite L; reflexivity].
  destruct s as [|x s']; [reflexivity|]. cbn [hd] in H. destruct x as [|p|p]; try reflexivity; do 6 (try (destruct p as [p|p|])); try reflexivity; exfalso; lia.
Qed.
Theorem plain_parse s lit fl wd pd v rest post : plain_form s lit fl wd pd v rest post ->
  verb_of s = Ok v /\ parse_format s = Ok (Out lit (mkDir (existsb (Z.eqb 45) fl) (existsb (Z.eqb 43) fl) (existsb (Z.eqb 48) fl) (opt wd) (match pd with [] => None | _ :: n => Some (match opt n with Some z => z | None => 0 end) end) v) post).
Proof.
  intros (-> & NL & F & W & W0 & Pd & V & L). destruct (verb_cases v V) as (V1 & V2 & V3 & V4 & V5 & V6). split.
  - replace (lit ++ [37] ++ fl ++ wd ++ pd ++ [v] ++ rest) with (lit ++ 37 :: (fl ++ wd ++ pd) ++ v :: rest) by (rewrite <-!app_assoc; reflexivity). apply verb_mods; [exact NL| |exact V].
    rewrite !Forall_app. split; [|split; [apply digits_mods, W|]].
    + eapply Forall_impl; [|exact F]. intros r [-> |[-> | ->]]; reflexivity.
    + destruct Pd as [-> |(n & -> & N)]; [constructor|]. constructor; [reflexivity|apply digits_mods, N].
  - cbn [app]. pose proof (directive_plain fl wd pd v rest F W W0 Pd V) as D. assert (H : hd 0 (fl ++ wd ++ pd ++ v :: rest) <> 37).
    { destruct fl as [|x fl]; [|cbn; apply Forall_inv in F; unfold flag in F; lia]. destruct wd as [|x wd]; [|cbn; apply Forall_inv in W; lia]. destruct Pd as [-> |(n & -> & N)]; cbn; [exact V5|lia]. }
    rewrite (parse_lit lit _ _ NL (parse_directive _ _ _ _ H D L)). rewrite app_nil_r. reflexivity.
Qed.

(* Proofs for C113. *)
From Coq Require Import Lia ZifyBool.
From Verif Require Import Value ScanModel TextModel ScanNext DemoModel DemoSpec.
Open Scope list_scope.
Open Scope Z_scope.

Lemma next_line_app : forall b k, ~ In nl b -> next_line (b ++ nl :: k) = Some (b ++ [nl], k).
Proof.
  induction b as [|r b IH]; intros k N; cbn [app next_line].
  - rewrite Z.eqb_refl. reflexivity.
  - cbn [In] in N. replace (r =? nl) with false by lia. rewrite IH by tauto. reflexivity.
Qed.
Lemma next_line_none : forall t, ~ In nl t -> next_line t = None.
Proof.
  induction t as [|r t IH]; intros N; [reflexivity|]. cbn [In] in N. cbn [next_line].
  replace (r =? nl) with false by lia. rewrite IH by tauto. reflexivity.
Qed.
Lemma next_line_made : forall l ls rest, is_line l -> next_line (concat (l :: ls) ++ rest) = Some (l, concat ls ++ rest).
Proof.
  intros l ls rest (b & -> & N). cbn [concat]. rewrite <- !app_assoc. cbn [app]. apply next_line_app. exact N.
Qed.
Lemma is_line_long : forall l, is_line l -> (1 <= length l)%nat.
Proof. intros l (b & -> & _). rewrite app_length. cbn. lia. Qed.
Lemma alone_made : forall ls rest k, Forall is_line ls -> ~ In nl rest -> (length (concat ls ++ rest) <= k)%nat ->
  alone k (concat ls ++ rest) = flat_map (fun s => [Show s; Send s]) ls.
Proof.
  induction ls as [|l ls IH]; intros rest k F N K.
  - destruct k; [reflexivity|]. cbn [alone]. cbn [concat app]. rewrite next_line_none by exact N. reflexivity.
  - inversion F as [|? ? L F']; subst. pose proof (is_line_long _ L). cbn [concat] in K. rewrite !app_length in K.
    destruct k; [lia|]. cbn [alone]. rewrite next_line_made by exact L. rewrite IH; [reflexivity|exact F'|exact N|rewrite app_length; lia].
Qed.

(* ---- the user's lines ---- *)
Lemma cut_line_app : forall b k, ~ In nl b -> cut_line (b ++ nl :: k) = (b, k).
Proof.
  induction b as [|r b IH]; intros k N; cbn [app cut_line].
  - rewrite Z.eqb_refl. reflexivity.
  - cbn [In] in N. replace (r =? nl) with false by lia. rewrite IH by tauto. reflexivity.
Qed.
Lemma cut_line_end : forall b, ~ In nl b -> cut_line b = (b, []).
Proof.
  induction b as [|r b IH]; intros N; [reflexivity|]. cbn [In] in N. cbn [cut_line].
  replace (r =? nl) with false by lia. rewrite IH by tauto. reflexivity.
Qed.
Lemma cut_line_long : forall b k, ~ In nl b -> (length b <= length (fst (cut_line (b ++ k))))%nat.
Proof.
  induction b as [|r b IH]; intros k N; cbn [app length]; [lia|]. cbn [In] in N. cbn [cut_line].
  replace (r =? nl) with false by lia. specialize (IH k ltac:(tauto)). destruct (cut_line (b ++ k)). cbn [fst length] in *. lia.
Qed.
Lemma drop_cr_taken : forall raw l, taken raw l -> drop_cr raw = l.
Proof.
  intros raw l [-> |[-> N]]; unfold drop_cr.
  - rewrite rev_unit. apply rev_involutive.
  - destruct (rev l) as [|r l'] eqn:E; [reflexivity|]. assert (X : l = rev l' ++ [r]) by (rewrite <- (rev_involutive l), E; reflexivity).
    destruct (Z.eq_dec r 13) as [-> |D]; [destruct (N _ X)|].
    destruct r as [|p|p]; try reflexivity. repeat (destruct p as [p|p|]; try reflexivity). lia.
Qed.
Lemma scan_lines_end : forall last us f, short last -> Forall2 taken (match last with [] => [] | _ => [last] end) us -> (length last <= f)%nat ->
  scan_lines f last = (us, false).
Proof.
  intros last us f [N L] T F. destruct last as [|r last].
  - inversion T; subst. destruct f; reflexivity.
  - inversion T as [|? u ? us' T1 T2]; subst. inversion T2; subst. destruct f; [cbn in F; lia|]. cbn [scan_lines].
    rewrite cut_line_end by exact N. replace (65536 <=? _) with false by lia. rewrite (drop_cr_taken _ _ T1). destruct f; reflexivity.
Qed.
Lemma scan_lines_more : forall raws us t f vs e, Forall short raws -> Forall2 taken raws us -> (length (concat (map (fun r => r ++ [nl]) raws) ++ t) <= f)%nat ->
  (forall f', (length t <= f')%nat -> scan_lines f' t = (vs, e)) ->
  scan_lines f (concat (map (fun r => r ++ [nl]) raws) ++ t) = (us ++ vs, e).
Proof.
  induction raws as [|r raws IH]; intros us t f vs e S T F H.
  - inversion T; subst. apply H. exact F.
  - inversion T as [|? u ? us' T1 T2]; subst. inversion S as [|? ? [N L] S']; subst. cbn [map concat] in F |- *.
    replace (((r ++ [nl]) ++ concat (map (fun r0 => r0 ++ [nl]) raws)) ++ t) with (r ++ nl :: (concat (map (fun r0 => r0 ++ [nl]) raws) ++ t)) in F |- * by (rewrite <- !app_assoc; reflexivity).
    rewrite app_length in F. cbn [length] in F. destruct f; [lia|]. cbn [scan_lines].
    destruct (r ++ nl :: _) as [|x y] eqn:E; [destruct r; discriminate|]. rewrite <- E. rewrite cut_line_app by exact N.
    replace (65536 <=? _) with false by lia. rewrite (IH us' t f vs e) by (try assumption; lia). rewrite (drop_cr_taken _ _ T1). reflexivity.
Qed.
Lemma scan_types : forall t us, types t us -> scan_lines (length t) t = (us, false).
Proof.
  intros t us (raws & last & -> & S & L & T). apply Forall2_app_inv_l in T. destruct T as (u1 & u2 & T1 & T2 & ->).
  apply scan_lines_more; [exact S|exact T1|apply le_n|]. intros f F. apply scan_lines_end; assumption.
Qed.
Lemma scan_too_long : forall t us, types_too_long t us -> scan_lines (length t) t = (us, true).
Proof.
  intros t us (raws & long & k & -> & S & T & N & L). rewrite <- (app_nil_r us).
  apply scan_lines_more; [exact S|exact T|apply le_n|]. intros f F. pose proof (cut_line_long long k N) as C.
  destruct f; [rewrite app_length in F; lia|]. destruct (long ++ k) as [|x y] eqn:E; [destruct long; [cbn in L; lia|discriminate]|]. rewrite <- E in *.
  cbn [scan_lines]. rewrite E. rewrite <- E. destruct (cut_line (long ++ k)) as [l m] eqn:E2. cbn [fst] in C. replace (65536 <=? Z.of_nat (length l)) with true by lia. reflexivity.
Qed.

(* ---- quit ---- *)
Lemma is_space_blank : forall r, is_space r = true <-> blank r.
Proof. intros r. unfold is_space, blank. cbn [In]. lia. Qed.
Lemma trim_left_blank : forall a t, Forall blank a -> trim_left (a ++ t) = trim_left t.
Proof.
  induction a as [|r a IH]; intros t F; [reflexivity|]. inversion F; subst. cbn [app trim_left].
  replace (is_space r) with true by (symmetry; apply is_space_blank; assumption). apply IH. assumption.
Qed.
Lemma trim_left_cut : forall t, exists a, t = a ++ trim_left t /\ Forall blank a.
Proof.
  induction t as [|r t IH]; [exists []; split; [reflexivity|constructor]|]. cbn [trim_left]. destruct (is_space r) eqn:E.
  - destruct IH as (a & X & F). exists (r :: a). split; [cbn; f_equal; exact X|constructor; [apply is_space_blank; exact E|exact F]].
  - exists []. split; [reflexivity|constructor].
Qed.
Lemma quits_iff : forall l, quits l = true <-> says_quit l.
Proof.
  intros l. unfold quits. rewrite teq_eq. unfold trim_space. split.
  - intros E. destruct (trim_left_cut (l ++ [nl])) as (a & X & F). destruct (trim_left_cut (rev (trim_left (l ++ [nl])))) as (b & Y & G).
    set (w := trim_left (l ++ [nl])) in *. set (v := trim_left (rev w)) in *.
    assert (W : w = [113; 117; 105; 116] ++ rev b) by (rewrite <- (rev_involutive w), Y, rev_app_distr, E; reflexivity).
    rewrite W in X. destruct b as [|c b].
    + cbn [rev app] in X. apply (f_equal (@rev Z)) in X. rewrite rev_unit, rev_app_distr in X. cbn in X. discriminate.
    + cbn [rev] in X. rewrite !app_assoc in X. apply app_inj_tail in X. destruct X as [X _]. exists a, (rev b).
      split; [rewrite X, !app_assoc; reflexivity|]. split; [exact F|]. apply Forall_rev. inversion G; assumption.
  - intros (a & b & -> & F & G). rewrite <- !app_assoc. rewrite trim_left_blank by exact F. cbn [app]. 
    change (trim_left (113 :: 117 :: 105 :: 116 :: b ++ [nl])) with ([113; 117; 105; 116] ++ (b ++ [nl])). rewrite rev_app_distr.
    rewrite trim_left_blank; [reflexivity|]. apply Forall_rev. apply Forall_app. split; [exact G|]. constructor; [right; left; reflexivity|constructor].
Qed.
Lemma quit_not_empty : ~ says_quit [].
Proof. intros (a & b & X & _). destruct a; discriminate. Qed.

(* ---- the loop ---- *)
Lemma flat_map_shift : forall (A : Type) (f : nat -> list A) l, flat_map f (map S l) = flat_map (fun i => f (S i)) l.
Proof. induction l as [|a l IH]; [reflexivity|]. cbn [map flat_map]. rewrite IH. reflexivity. Qed.
Lemma with_user_follows : forall us script rest, Forall is_line script -> ~ In nl rest ->
  exists k, ends_after script us k /\ with_user (concat script ++ rest) us = (flat_map (reaction script us) (seq 0 k), Nat.eqb k (length us)).
Proof.
  induction us as [|u us IH]; intros script rest F N.
  - exists 0%nat. split; [|reflexivity]. split; [cbn; lia|]. split; [intros i H; lia|cbn; lia].
  - cbn [with_user]. destruct u as [|c u].
    + destruct script as [|s script].
      * cbn [concat app]. rewrite next_line_none by exact N. exists 0%nat. split; [|reflexivity].
        split; [lia|]. split; [intros i H; lia|]. intros _. right. split; reflexivity.
      * inversion F as [|? ? L F']; subst. rewrite next_line_made by exact L. destruct (IH script rest F' N) as (k & (K1 & K2 & K3) & E). rewrite E.
        exists (S k). split.
        -- split; [cbn [length]; lia|]. split.
           ++ intros [|i] H; [split; [exact quit_not_empty|cbn; lia]|]. cbn [nth firstn]. destruct (K2 i ltac:(lia)) as [A B]. split; [exact A|].
              intros Z. specialize (B Z). unfold empties in *. cbn [filter length]. lia.
           ++ cbn [length]. intros H. destruct (K3 ltac:(lia)) as [A|[A B]]; [left; exact A|right]. split; [exact A|]. unfold empties in *. cbn [firstn filter length]. lia.
        -- cbn [length Nat.eqb]. f_equal. cbn [seq flat_map]. rewrite <- seq_shift, flat_map_shift. reflexivity.
    + destruct (quits (c :: u)) eqn:Q.
      * exists 0%nat. split; [|reflexivity]. split; [lia|]. split; [intros i H; lia|]. intros _. left. apply quits_iff. exact Q.
      * destruct (IH script rest F N) as (k & (K1 & K2 & K3) & E). rewrite E. exists (S k). split.
        -- split; [cbn [length]; lia|]. split.
           ++ intros [|i] H; [split; [|discriminate]|].
              ** cbn [nth]. intros X. apply quits_iff in X. congruence.
              ** cbn [nth firstn]. exact (K2 i ltac:(lia)).
           ++ cbn [length]. intros H. exact (K3 ltac:(lia)).
        -- cbn [length Nat.eqb]. f_equal. cbn [seq flat_map]. rewrite <- seq_shift, flat_map_shift. reflexivity.
Qed.
Lemma ends_once : forall script us k k', ends_after script us k -> ends_after script us k' -> k = k'.
Proof.
  assert (H : forall script us k k', ends_after script us k -> ends_after script us k' -> (k < k')%nat -> False).
  { intros script us k k' (A1 & A2 & A3) (B1 & B2 & B3) L. destruct (B2 k L) as [C1 C2]. destruct (A3 ltac:(lia)) as [D|[D E]]; [exact (C1 D)|]. specialize (C2 D). lia. }
  intros script us k k' A B. destruct (Nat.lt_trichotomy k k') as [L|[L|L]]; [destruct (H _ _ _ _ A B L)|exact L|destruct (H _ _ _ _ B A L)].
Qed.

(* ---- the pipe ---- *)
Definition pipe_text (p : pipe) : text := concat (reads p) ++ reading p ++ channel p ++ to_write p.
Definition pipe_ok (p : pipe) : Prop :=
  Forall (fun b => b <> [] /\ newline_last b) (reads p) /\ ~ In nl (reading p) /\ Z.of_nat (length (reading p)) < room p /\ Z.of_nat (length (channel p)) <= capacity.
Lemma newline_last_in : forall b c, ~ In nl b -> newline_last (b ++ [c]).
Proof.
  intros b c N a d E. destruct d as [|x d]; [reflexivity|]. exfalso. apply N.
  destruct (exists_last (l := x :: d) ltac:(discriminate)) as (d' & y & X). rewrite X in E.
  change (nl :: d' ++ [y]) with ((nl :: d') ++ [y]) in E. rewrite app_assoc in E. apply app_inj_tail in E. destruct E as [-> _].
  apply in_or_app. right. left. reflexivity.
Qed.
Lemma moves_ok : forall p q, moves p q -> pipe_ok p -> pipe_ok q /\ pipe_text q = pipe_text p.
Proof.
  intros p q M (A & B & C & D). unfold pipe_ok, pipe_text, capacity in *. destruct M as [c w ch b r l L|w c ch b r l r' E R|w c ch b r l E E2]; cbn [to_write channel reading room reads] in *.
  - unfold capacity in L. split; [split; [exact A|]; split; [exact B|]; split; [exact C|]; rewrite app_length; cbn; lia|]. rewrite <- !app_assoc. reflexivity.
  - split; [split; [|split; [intros []|split; [cbn; lia|cbn [length] in D; lia]]]|].
    + apply Forall_app. split; [exact A|]. constructor; [|constructor]. split; [destruct b; discriminate|apply newline_last_in; exact B].
    + rewrite concat_app. cbn [concat app]. rewrite app_nil_r, <- !app_assoc. reflexivity.
  - split; [split; [exact A|]; split; [|split; [rewrite app_length; cbn; lia|cbn [length] in D; lia]]|].
    + intros I. apply in_app_or in I. destruct I as [I|[I|[]]]; [exact (B I)|congruence].
    + rewrite <- !app_assoc. reflexivity.
Qed.
Lemma runs_ok : forall p q, runs p q -> pipe_ok p -> pipe_ok q /\ pipe_text q = pipe_text p.
Proof.
  induction 1 as [p|p q r R IH M]; intros P; [split; [exact P|reflexivity]|]. destruct (IH P) as [Q E]. destruct (moves_ok _ _ M Q) as [A B].
  split; [exact A|]. rewrite B. exact E.
Qed.
Lemma start_ok : forall t r, 1 <= r -> pipe_ok (mkPipe t [] [] r []).
Proof. intros t r R. unfold pipe_ok, capacity. cbn. split; [constructor|]. split; [tauto|]. lia. Qed.
Lemma can_move : forall p, channel p <> [] \/ to_write p <> [] -> exists q, moves p q.
Proof.
  intros [w ch b r l] H. cbn [channel to_write] in H. destruct ch as [|c ch].
  - destruct w as [|c w]; [destruct H as [H|H]; destruct (H eq_refl)|]. exists (mkPipe w ([] ++ [c]) b r l). constructor. reflexivity.
  - destruct (Z.eq_dec c nl) as [E|E]; [exists (mkPipe w ch [] 1 (l ++ [b ++ [c]])); constructor; [left; exact E|lia]|].
    destruct (Z.eq_dec (Z.of_nat (length b) + 1) r) as [E2|E2]; [exists (mkPipe w ch [] 1 (l ++ [b ++ [c]])); constructor; [right; exact E2|lia]|].
    exists (mkPipe w ch (b ++ [c]) r l). constructor; assumption.
Qed.
Definition left_to_do (p : pipe) : nat := 2 * length (to_write p) + length (channel p).
Lemma moves_less : forall p q, moves p q -> S (left_to_do q) = left_to_do p.
Proof. intros p q M. destruct M; unfold left_to_do; cbn [to_write channel]; rewrite ?app_length; cbn [length]; lia. Qed.

(* ---- the depth ---- *)
Lemma demos_started : forall n d, (forall r, In r (snd (demos n d)) -> r = Started) <-> n = O \/ d + 2 * Z.of_nat n <= 10.
Proof.
  induction n as [|n IH]; intros d; [cbn; split; [tauto|intros _ r []]|].
  cbn [demos]. unfold start_demo. destruct (10 <? d + 1) eqn:E1; [|destruct (10 <? d + 2) eqn:E2].
  - destruct (demos n (d + 1)) as [d' rs] eqn:E. cbn [snd]. split; [intros H; specialize (H _ (or_introl eq_refl)); discriminate|intros H; lia].
  - destruct (demos n _) as [d' rs] eqn:E. cbn [snd]. split; [intros H; specialize (H _ (or_introl eq_refl)); discriminate|intros H; lia].
  - specialize (IH (d + 2)). destruct (demos n (d + 2)) as [d' rs] eqn:E. cbn [snd] in *. split.
    + intros H. right. assert (X : forall r, In r rs -> r = Started) by (intros r I; apply H; right; exact I). apply IH in X. lia.
    + intros H r [<-|I]; [reflexivity|]. apply IH; [lia|exact I].
Qed.
Lemma demos_depth : forall n d, (forall r, In r (snd (demos n d)) -> r = Started) -> fst (demos n d) = d + 2 * Z.of_nat n.
Proof.
  induction n as [|n IH]; intros d H; [cbn; lia|]. cbn [demos] in *. unfold start_demo in *. destruct (10 <? d + 1) eqn:E1; [|destruct (10 <? d + 2) eqn:E2].
  - destruct (demos n (d + 1)) as [d' rs]. specialize (H _ (or_introl eq_refl)). discriminate.
  - destruct (demos n _) as [d' rs]. specialize (H _ (or_introl eq_refl)). discriminate.
  - specialize (IH (d + 2)). destruct (demos n (d + 2)) as [d' rs] eqn:E. cbn [snd fst] in *. rewrite IH; [lia|]. intros r I. apply H. right. exact I.
Qed.

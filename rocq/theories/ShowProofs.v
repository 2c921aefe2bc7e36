From Coq Require Import String.
From Verif Require Import Value NumModel NumSpec ScanModel TextModel ShowModel ShowSpec.
Open Scope list_scope.
Open Scope nat_scope.

(* ---- lines ---- *)
Lemma split_flat t : flat t -> split_lines t = [t].
Proof.
  induction t as [|r t IH]; intros F; [reflexivity|]. cbn [split_lines]. rewrite IH by (intros X; apply F; right; exact X).
  destruct (Z.eqb_spec r newline) as [->|N]; [exfalso; apply F; left; reflexivity|reflexivity].
Qed.
Lemma split_nonempty t : split_lines t <> [].
Proof. induction t as [|r t IH]; [discriminate|]. cbn. destruct (split_lines t); [contradiction|]. destruct (r =? newline)%Z; discriminate. Qed.
Lemma split_app a b : flat a -> split_lines (a ++ newline :: b) = a :: split_lines b.
Proof.
  induction a as [|r a IH]; intros F.
  - cbn [app split_lines]. rewrite Z.eqb_refl. pose proof (split_nonempty b). destruct (split_lines b); [contradiction|reflexivity].
  - cbn [app split_lines]. rewrite IH by (intros X; apply F; right; exact X). destruct (Z.eqb_spec r newline) as [->|N]; [exfalso; apply F; left; reflexivity|reflexivity].
Qed.
Lemma split_join ls : ls <> [] -> Forall flat ls -> split_lines (join [newline] ls) = ls.
Proof.
  induction ls as [|l ls IH]; intros N F; [contradiction|]. inversion F as [|? ? F1 F2]; subst. destruct ls as [|l2 ls]; [apply split_flat, F1|].
  change (join [newline] (l :: l2 :: ls)) with (l ++ [newline] ++ join [newline] (l2 :: ls)). change ([newline] ++ ?x) with (newline :: x). rewrite split_app by exact F1. rewrite IH by (auto; discriminate). reflexivity.
Qed.
Lemma join_app1 sep a x : a <> [] -> join sep (a ++ [x]) = join sep a ++ sep ++ x.
Proof.
  induction a as [|y a IH]; intros N; [contradiction|]. destruct a as [|z a]; [reflexivity|]. change (join sep ((y :: z :: a) ++ [x])) with (y ++ sep ++ join sep ((z :: a) ++ [x])).
  rewrite IH by discriminate. change (join sep (y :: z :: a)) with (y ++ sep ++ join sep (z :: a)). rewrite <-!app_assoc. reflexivity.
Qed.
Lemma join_nil ls : join [] ls = concat ls.
Proof. induction ls as [|l [|l2 ls] IH]; [reflexivity|cbn; rewrite app_nil_r; reflexivity|]. change (join [] (l :: l2 :: ls)) with (l ++ [] ++ join [] (l2 :: ls)). rewrite IH. reflexivity. Qed.

(* ---- one line ---- *)
Definition item (e : elem) : text := if is_scalar_elem e then etext e else [40%Z] ++ etext e ++ [41%Z].
Definition sep_of (spaces : bool) : text := if spaces then [space] else [].
(* the end of each item *)
Fixpoint ends (first : bool) (sep : text) (n : nat) (items : list text) : list nat :=
  match items with [] => [] | t :: items' => let m := (if first then n else n + length sep) + length t in m :: ends false sep m items' end.
Definition glue (first : bool) (sep b : text) (items : list text) : text :=
  match items with [] => b | _ => b ++ (if first then [] else sep) ++ join sep items end.
Lemma glue_cons first sep b t items : glue first sep b (t :: items) = glue false sep (b ++ (if first then [] else sep) ++ t) items.
Proof. unfold glue. destruct items as [|t2 items]; [reflexivity|]. change (join sep (t :: t2 :: items)) with (t ++ sep ++ join sep (t2 :: items)). rewrite <-!app_assoc. reflexivity. Qed.
Lemma one_line_is : forall spaces es first b, forallb is_scalar_elem es = true ->
  one_line spaces first b es = (glue first (sep_of spaces) b (map item es), ends first (sep_of spaces) (length b) (map item es)).
Proof.
  intros spaces. induction es as [|e es IH]; intros first b S; [reflexivity|]. cbn in S. apply andb_prop in S. destruct S as [S1 S2]. cbn [one_line map]. rewrite IH by exact S2.
  rewrite glue_cons. cbn [ends]. assert (I : item e = etext e) by (unfold item; rewrite S1; reflexivity). rewrite I.
  assert (E : (if spaces && negb first then b ++ [space] else b) ++ etext e = b ++ (if first then [] else sep_of spaces) ++ etext e).
  { destruct spaces, first; cbn; rewrite <-?app_assoc; reflexivity. }
  rewrite E. f_equal. rewrite !app_length. destruct first; cbn [length]; rewrite ?Nat.add_0_l, ?Nat.add_assoc; reflexivity.
Qed.
Lemma put_flat spaces e b k : flat (etext e) -> put_elem spaces false e [(b, k)] = let t := b ++ sep_of spaces ++ item e in Ok ([(t, length t)], length t).
Proof.
  intros F. unfold put_elem. rewrite (split_flat _ F). cbn [length Nat.ltb Nat.leb negb]. rewrite andb_true_r. unfold item, sep_of, write_rows, on_first, on_nth, write_mark, write, line_len. 
  destruct e as [[| | |] [|r t]]; destruct spaces; cbn [is_scalar_elem is_mat ekind etext negb andb map fst snd app length Nat.sub nth_error bind]; rewrite ?app_nil_r, <-?app_assoc; cbn [app]; try reflexivity;
    repeat f_equal; rewrite ?app_length; cbn [length]; rewrite ?app_length; cbn [length]; lia.
Qed.
Lemma put_first spaces e : flat (etext e) -> put_elem spaces true e [] = Ok ([(item e, length (item e))], length (item e)).
Proof.
  intros F. unfold put_elem. rewrite (split_flat _ F). cbn [length Nat.ltb Nat.leb negb]. rewrite andb_false_r. unfold item, add_lines, write_rows, on_first, on_nth, write_mark, write, line_len. 
  destruct e as [[| | |] [|r t]]; cbn [is_scalar_elem is_mat ekind etext negb andb map fst snd app length Nat.sub nth_error bind repeat widest fold_left]; rewrite ?app_nil_r, <-?app_assoc; cbn [app]; try reflexivity;
    repeat f_equal; rewrite ?app_length; cbn [length]; rewrite ?app_length; cbn [length]; lia.
Qed.
Lemma puts_flat spaces : forall es b k, Forall (fun e => flat (etext e)) es -> k = length b ->
  put_elems spaces false es [(b, k)] = let t := glue false (sep_of spaces) b (map item es) in Ok ([(t, length t)], ends false (sep_of spaces) (length b) (map item es)).
Proof.
  induction es as [|e es IH]; intros b k F K; [subst; reflexivity|]. inversion F as [|? ? F1 F2]; subst. cbn [put_elems map]. rewrite (put_flat spaces e b _ F1). cbv zeta. cbn [bind fst snd].
  rewrite IH by auto. cbv zeta. cbn [bind fst snd]. rewrite glue_cons. cbn [ends]. rewrite !app_length, Nat.add_assoc. reflexivity.
Qed.
Lemma multi_flat : forall es spaces trim, Forall (fun e => flat (etext e)) es ->
  multi_line es spaces trim = Ok ([join (sep_of spaces) (map item es)], ends true (sep_of spaces) 0 (map item es)).
Proof.
  intros es spaces trim F. unfold multi_line. destruct (forallb is_scalar_elem es) eqn:S.
  - rewrite one_line_is by exact S. unfold glue. destruct (map item es); reflexivity.
  - destruct es as [|e es]; [discriminate|]. inversion F as [|? ? F1 F2]; subst. cbn [put_elems map]. rewrite put_first by exact F1. cbn [bind fst snd]. rewrite puts_flat by auto. cbv zeta. cbn [bind fst snd map].
    assert (G : glue false (sep_of spaces) (item e) (map item es) = join (sep_of spaces) (item e :: map item es)) by (unfold glue; destruct (map item es); reflexivity).
    rewrite G. destruct trim; [rewrite firstn_all|]; reflexivity.
Qed.

(* What C115 is about, in plain terms: what appears on the two outputs for each line, and how a program of several
   sources ends.  Of the model only the machine's parameters and the kinds of writes are mentioned. *)
From Verif Require Import Value ScanModel TextModel OutModel.
Open Scope list_scope.
Open Scope Z_scope.

(* what arrives at the standard output, at the error output, and at a terminal that shows both *)
Definition out (ws : list write) : text := flat_map (fun w => match w with Out t => t | ErrOut _ => [] end) ws.
Definition err (ws : list write) : text := flat_map (fun w => match w with Out _ => [] | ErrOut t => t end) ws.
Definition both (ws : list write) : text := flat_map (fun w => match w with Out t => t | ErrOut t => t end) ws.

(* before these no space is put *)
Definition bare (t : text) : Prop := t = [] \/ exists b, t = b ++ [nl].
(* texts after another one: a space before each, but for the bare ones *)
Inductive followed : list text -> text -> Prop :=
| followed_none : followed [] []
| followed_bare : forall t ts k, bare t -> followed ts k -> followed (t :: ts) (t ++ k)
| followed_space : forall t ts k, ~ bare t -> followed ts k -> followed (t :: ts) (32 :: t ++ k).
Inductive joined : list text -> text -> Prop :=
| joined_none : joined [] []
| joined_some : forall t ts k, followed ts k -> joined (t :: ts) (t ++ k).
(* ... and a newline, if there are any *)
Definition laid_out (ts : list text) (t : text) : Prop := (ts = [] /\ t = []) \/ (ts <> [] /\ exists k, joined ts k /\ t = k ++ [nl]).
(* names with commas between them, and a newline *)
Definition listed (ns : list text) : text := match ns with [] => [] | n :: ns' => n ++ flat_map (fun m => 44 :: m) ns' ++ [nl] end.

(* what one line of input leaves: the prompt before it, what it writes while it is evaluated, what is printed of its
   values, and the error it ends with, if any *)
Record step := mkStep { asked : text; during : list write; printed : text; failed : option text }.
Definition fine (s : step) : Prop := failed s = None.
Definition when (b : bool) (t : text) : text := if b then t else [].
Definition message (s : step) : text := match failed s with Some m => m ++ [nl] | None => [] end.
(* an interactive run shows the prompt before the line and a newline after it *)
Definition out_of (i : bool) (s : step) : text := when i (asked s) ++ out (during s) ++ printed s ++ when i [nl].
Definition err_of (s : step) : text := err (during s) ++ message s.
Definition both_of (i : bool) (s : step) : text := when i (asked s) ++ both (during s) ++ printed s ++ message s ++ when i [nl].

Section Run.
Variables St V : Type.
Variable line : St -> outcome St V.
Variable prompt : St -> text.
Variables types panics : St -> bool.
Variable type_name : V -> text.
Variable sprint : St -> V -> text + text.
Variable set_last : St -> V -> St.

Definition loud_values (vs : list (bool * V)) : list V := map snd (filter (fun x => negb (fst x)) vs).
(* the texts of the values that are not quiet *)
Definition shown (st : St) (vs : list (bool * V)) (ts : list text) : Prop := map (sprint st) (loud_values vs) = map inl ts.
Definition types_line (st : St) (vs : list (bool * V)) : text := when (types st) (listed (map (fun x => type_name (snd x)) vs)).
(* the line is evaluated and its values are printed; if anything is, "_" is the last value *)
Definition succeeds (st : St) (s : step) (st' : St) : Prop :=
  exists st1 vs ts t, line st = Values (during s) st1 vs /\ shown st1 vs ts /\ laid_out ts t /\
    asked s = prompt st /\ printed s = types_line st1 vs ++ t /\ failed s = None /\
    ((ts = [] /\ st' = st1) \/ (ts <> [] /\ exists a q v, vs = a ++ [(q, v)] /\ st' = set_last st1 v)).
(* the line fails; or it is evaluated, and the printing of one of its values fails *)
Definition goes_wrong (st : St) (s : step) (st' : St) : Prop :=
  panics st' = false /\ asked s = prompt st /\ exists msg, failed s = Some msg /\
  ((line st = Fails (during s) st' msg /\ printed s = []) \/
   (exists a v b ts t, line st = Values (during s) st' (a ++ (false, v) :: b) /\ shown st' a ts /\ joined ts t /\ sprint st' v = inr msg /\
      printed s = types_line st' (a ++ (false, v) :: b) ++ t)).
(* one line after another, each from the state that the one before it left *)
Inductive history : St -> list step -> St -> Prop :=
| no_lines : forall st, history st [] st
| a_line : forall st s st1 ss st', succeeds st s st1 \/ goes_wrong st s st1 -> history st1 ss st' -> history st (s :: ss) st'.
Definition at_end (st : St) : Prop := line st = AtEnd.
(* a panic that is not recovered *)
Definition kills (st : St) : Prop :=
  (exists ws st1, line st = Dies ws st1) \/ (exists ws st1 msg, line st = Fails ws st1 msg /\ panics st1 = true) \/
  (exists ws st1 vs v msg, line st = Values ws st1 vs /\ In (false, v) vs /\ sprint st1 v = inr msg /\ panics st1 = true).
(* all lines are fine and there are no more; or all but the last, which fails *)
Definition good_run (st : St) (ss : list step) (st' : St) : Prop := history st ss st' /\ Forall fine ss /\ at_end st'.
Definition bad_run (st : St) (ss : list step) (st' : St) : Prop :=
  history st ss st' /\ exists a s, ss = a ++ [s] /\ Forall fine a /\ ~ fine s.

(* a source of lines, read to its end without an error *)
Variable open : source -> St -> St + text.
Definition asks (s : source) : bool := match s with File name => teq name [45] | _ => false end.
Definition last_prompt (i : bool) (st : St) : text := when i (prompt st).
Definition source_good (s : source) (st st' : St) (o e : text) : Prop :=
  exists st1 ss, open s st = inl st1 /\ good_run st1 ss st' /\ o = flat_map (out_of (asks s)) ss ++ last_prompt (asks s) st' /\ e = flat_map err_of ss.
(* it cannot be opened, or one of its lines fails *)
Definition source_bad (s : source) (st : St) (o e : text) : Prop :=
  (exists msg, open s st = inr msg /\ o = [] /\ e = msg ++ [nl]) \/
  (exists st1 ss st', open s st = inl st1 /\ bad_run st1 ss st' /\ o = flat_map (out_of (asks s)) ss /\ e = flat_map err_of ss).
Inductive all_good : list source -> St -> St -> text -> text -> Prop :=
| good_none : forall st, all_good [] st st [] []
| good_more : forall s ss st st1 st' o e o' e', source_good s st st1 o e -> all_good ss st1 st' o' e' -> all_good (s :: ss) st st' (o ++ o') (e ++ e').
End Run.

Definition unless_empty (f : text -> source) (t : text) : list source := match t with [] => [] | _ => [f t] end.
(* what is run for the command line: -f, then -i, then -e alone, or else the files *)
Definition sources (o : options) : list source :=
  unless_empty File (opt_f o) ++ unless_empty Argument (opt_i o) ++ match opt_e o with [] => map File (opt_args o) | t => [Argument t] end.
(* ... or else the standard input *)
Definition reads_stdin (o : options) : Prop := opt_e o = [] /\ opt_args o = [].

(* for the operator ivy: lines that only give values *)
Section Eval.
Variables St V : Type.
Variable line : St -> outcome St V.
Inductive gives : St -> list (list (bool * V)) -> St -> Prop :=
| gives_none : forall st, gives st [] st
| gives_line : forall st st1 st' vs l, line st = Values [] st1 vs -> gives st1 l st' -> gives st (vs :: l) st'.
(* the texts of the values that are not quiet *)
Definition texts_of (txt : V -> text) (vs : list (bool * V)) : list text := map txt (loud_values V vs).
End Eval.

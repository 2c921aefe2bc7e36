(* What is written where: run/run.go Run, eval and printValues, and the order of sources of ivy.go main.
   The machine is generic: a state (context, settings, and the text still to be read), and a function that takes the next
   line of it.  Nothing is assumed of them.  The debug settings "cpu" and the flags' own errors are left out.
   Executable; no proofs. *)
From Verif Require Import Value ScanModel TextModel.
Open Scope list_scope.
Open Scope Z_scope.

Inductive write := Out (t : text) | ErrOut (t : text).

Section Run.
Variables St V : Type.
(* What p.Line and context.Eval do with the next line (parse.go:152-177, exec/context.go:120-129): no line is left; the
   values, with a flag for the quiet ones; an error that Run recovers, with its text after the location; any other panic.
   ws is what is written meanwhile, by print for instance. *)
Inductive outcome := AtEnd | Values (ws : list write) (st : St) (vs : list (bool * V)) | Fails (ws : list write) (st : St) (msg : text) | Dies (ws : list write) (st : St).
Variable line : St -> outcome.
Variable prompt : St -> text.
(* conf.Debug "types" and "panic" *)
Variables types panics : St -> bool.
Variable type_name : V -> text.
(* Sprint: the text of a value, or the error it ends with *)
Variable sprint : St -> V -> text + text.
(* context.AssignGlobal "_" *)
Variable set_last : St -> V -> St.

(* run.go:139-145 *)
Fixpoint type_names (first : bool) (vs : list (bool * V)) : list write :=
  match vs with [] => [Out [nl]] | (_, v) :: vs' => (if first then [] else [Out [44]]) ++ Out (type_name v) :: type_names false vs' end.
(* run.go:153 *)
Definition spaced (s : text) : bool := match rev s with [] => false | r :: _ => negb (r =? nl) end.
(* run.go:147-162 *)
Fixpoint put_values (st : St) (printed : bool) (vs : list (bool * V)) : list write * (bool + text) :=
  match vs with
  | [] => (if printed then [Out [nl]] else [], inl printed)
  | (true, _) :: vs' => put_values st printed vs'
  | (false, v) :: vs' =>
    match sprint st v with
    | inr msg => ([], inr msg)
    | inl s => let (ws, r) := put_values st true vs' in ((if printed && spaced s then [Out [32]] else []) ++ Out s :: ws, r)
    end
  end.
(* run.go:134-163 printValues *)
Definition print_values (st : St) (vs : list (bool * V)) : list write * (bool + text) :=
  match vs with
  | [] => ([], inl false)
  | _ => let (ws, r) := put_values st false vs in ((if types st then type_names true vs else []) ++ ws, r)
  end.

Inductive verdict := Finished | Failed | Died | More.
(* run.go:52-73 the recovering function *)
Definition recovered (interactive : bool) (st : St) (msg : text) : list write * St * verdict :=
  if panics st then ([], st, Died) else (ErrOut (msg ++ [nl]) :: (if interactive then [Out [nl]] else []), st, Failed).
Definition before (ws : list write) (x : list write * St * verdict) : list write * St * verdict := let '(ws', st, r) := x in (ws ++ ws', st, r).
(* run.go:49-102 Run; at most k lines, More if there may be others *)
Fixpoint run (k : nat) (interactive : bool) (st : St) : list write * St * verdict :=
  match k with
  | O => ([], st, More)
  | S k' =>
    before (if interactive then [Out (prompt st)] else [])
    match line st with
    | AtEnd => ([], st, Finished)
    | Fails ws st1 msg => before ws (recovered interactive st1 msg)
    | Dies ws st1 => (ws, st1, Died)
    | Values ws st1 vs =>
      let (ps, r) := print_values st1 vs in
      before (ws ++ ps)
      match r with
      | inr msg => recovered interactive st1 msg
      | inl p => before (if interactive then [Out [nl]] else [])
                        (run k' interactive (match p, rev vs with true, (_, v) :: _ => set_last st1 v | _, _ => st1 end))
      end
    end
  end.
(* ivy.go:116-117 and run.go:182-183: for !Run(...) {}; at most n calls *)
Fixpoint run_on (n k : nat) (interactive : bool) (st : St) : list write * St * verdict :=
  match n with
  | O => ([], st, More)
  | S n' => match run k interactive st with
            | (ws, st1, Failed) => before ws (run_on n' k interactive st1)
            | x => x
            end
  end.

(* run.go:109-129 eval, for the operator ivy: the value returned, if any.  An error goes up to Run. *)
Inductive evaluated := Returns (v : option (bool * V)) | EvalFails (msg : text) | EvalDies | EvalMore.
Fixpoint eval (k : nat) (prev : list (bool * V)) (st : St) : list write * St * evaluated :=
  match k with
  | O => ([], st, EvalMore)
  | S k' =>
    match line st with
    | AtEnd => match rev prev with
               | [] => ([], st, Returns None)
               | v :: l => match print_values st (rev l) with
                           | (ws, inl _) => (ws, st, Returns (Some v))
                           | (ws, inr msg) => (ws, st, EvalFails msg)
                           end
               end
    | Fails ws st1 msg => (ws, st1, EvalFails msg)
    | Dies ws st1 => (ws, st1, EvalDies)
    | Values ws st1 vs =>
      match print_values st1 prev with
      | (ps, inl _) => let '(ws', st2, r) := eval k' vs st1 in (ws ++ ps ++ ws', st2, r)
      | (ps, inr msg) => (ws ++ ps, st1, EvalFails msg)
      end
    end
  end.

(* ---- ivy.go:83-118 ---- *)
(* a text from the command line, a file by its name, or the standard input when there is nothing else *)
Inductive source := Argument (t : text) | File (name : text).
Record options := mkOptions { opt_f : text; opt_i : text; opt_e : text; opt_args : list text }.
(* opening a source (ivy.go:121-147): the state in which it is read next, or the text of the error *)
Variable open : source -> St -> St + text.
Variable open_stdin : St -> St.
(* how the process ends: the status, or it goes on, dies, or needs more steps than k *)
Inductive ending := Exits (status : Z) | GoesOn | Panics | NeedsMore.
Definition dash : text := [45].
(* ivy.go:121-147 runFile and runString, and the os.Exit of the callers *)
Definition run_source (k : nat) (s : source) (st : St) : list write * St * ending :=
  match open s st with
  | inr msg => ([ErrOut (msg ++ [nl])], st, Exits 1)
  | inl st1 =>
    match run k (match s with File name => teq name dash | Argument _ => false end) st1 with
    | (ws, st2, Finished) => (ws, st2, GoesOn)
    | (ws, st2, Failed) => (ws, st2, Exits 1)
    | (ws, st2, Died) => (ws, st2, Panics)
    | (ws, st2, More) => (ws, st2, NeedsMore)
    end
  end.
Definition and_then (x : list write * St * ending) (f : St -> list write * St * ending) : list write * St * ending :=
  match x with (ws, st, GoesOn) => let '(ws', st', e) := f st in (ws ++ ws', st', e) | _ => x end.
(* ivy.go:107-112 *)
Fixpoint run_files (k : nat) (names : list text) (st : St) : list write * St * ending :=
  match names with [] => ([], st, Exits 0) | f :: names' => and_then (run_source k (File f) st) (run_files k names') end.
(* ivy.go:86-118 *)
Definition main (n k : nat) (o : options) (st : St) : list write * St * ending :=
  and_then (match opt_f o with [] => ([], st, GoesOn) | f => run_source k (File f) st end) (fun st1 =>
  and_then (match opt_i o with [] => ([], st1, GoesOn) | t => run_source k (Argument t) st1 end) (fun st2 =>
  match opt_e o with
  | _ :: _ => and_then (run_source k (Argument (opt_e o)) st2) (fun st3 => ([], st3, Exits 0))
  | [] =>
    match opt_args o with
    | _ :: _ => run_files k (opt_args o) st2
    | [] => match run_on n k true (open_stdin st2) with
            | (ws, st3, Finished) => (ws, st3, Exits 0)
            | (ws, st3, Died) => (ws, st3, Panics)
            | (ws, st3, _) => (ws, st3, NeedsMore)
            end
    end
  end)).
End Run.
Arguments AtEnd {St V}.
Arguments Values {St V}.
Arguments Fails {St V}.
Arguments Dies {St V}.
Arguments Returns {V}.
Arguments EvalFails {V}.
Arguments EvalDies {V}.
Arguments EvalMore {V}.

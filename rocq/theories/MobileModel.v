(* The package for programs that hold an ivy: mobile/mobile.go, and run/run.go:170-184 Ivy.
   A session is that of CmdModel; the texts that values print are left out there.  Executable; no proofs. *)
From Coq Require Import String.
From Verif Require Import Value Syntax ExecModel ScanModel TextModel CmdModel.
From Verif Require DemoModel.
Open Scope string_scope.
Open Scope list_scope.
Open Scope Z_scope.

(* mobile.go:44 escaper, for code points *)
Definition escape_one (r : Z) : text := if r =? 32 then [160] else if r =? 9 then [32; 32; 32; 32] else if r =? 92 then zs "&#92;" else [r].
Definition escape (t : text) : text := flat_map escape_one t.
(* run.go:171-173 *)
Definition ended (t : text) : text := match rev t with r :: _ => if r =? nl then t else t ++ [nl] | [] => [nl] end.

Section Mobile.
Variable u_print : Z -> bool.
Variables letters digits puncts symbols : Z -> bool.
Variables bu bb : string -> bool.
Variable E : settings -> env.
Variables const_e const_pi : Z -> value.
(* run.go:174-183: every line of the text, whatever errors there are; each line takes a character at least *)
Definition ivy (n : nat) (s : session) (t : text) : list (res (list rval)) * session * sc :=
  session_text u_print letters digits puncts symbols bu bb E const_e const_pi (S (length t)) n s (new_scanner t).
(* mobile.go:48-58 Eval: what the lines give, and the session after them *)
Definition eval (n : nat) (s : session) (expr : text) : list (res (list rval)) * session :=
  let '(rs, s1, _) := ivy n s (ended expr) in (rs, s1).
(* mobile.go:60-86 NewDemo and Next: one call of Eval for each line of the text *)
Fixpoint next_each (n : nat) (s : session) (lines : list text) : list (list (res (list rval))) * session :=
  match lines with
  | [] => ([], s)
  | l :: lines' => let (r, s1) := eval n s l in let (rs, s2) := next_each n s1 lines' in (r :: rs, s2)
  end.
Definition demo_nexts (n : nat) (s : session) (t : text) : list (list (res (list rval))) * session :=
  next_each n s (fst (DemoModel.scan_lines (length t) t)).
(* mobile.go:89-99 Reset; SetMobile is left out *)
Definition reset_settings (c : settings) : settings :=
  set_seed (set_base (set_prompt (set_origin (set_maxdigits (set_maxbits (set_format c []) 1000000000) 10000) 1) []) 0 0) 0.
Definition reset (s : session) : session :=
  set_constants const_e const_pi (mkSession (mkCtx [] [] [] [] [] [] [] 0) (reset_settings (ses_set s)) (ses_depth s) (ses_files s)).
End Mobile.

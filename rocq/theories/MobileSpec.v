(* What C114 is about, in plain terms. *)
From Coq Require Import String.
From Verif Require Import Value Syntax ExecModel ScanModel TextModel CmdModel MobileModel.
Open Scope string_scope.
Open Scope list_scope.
Open Scope Z_scope.

(* The text is used up at the end of a line, and nothing has looked beyond it: no definition and no string is open. *)
Definition used_up (q : sc) : Prop := fin q = false /\ pending q = [] /\ start q = pos q /\ pos q = length (input q).
(* What Reset is documented to clear and does not. *)
Definition same_rest (a b : session) : Prop :=
  float_prec (ses_set a) = float_prec (ses_set b) /\ max_stack (ses_set a) = max_stack (ses_set b) /\ debug (ses_set a) = debug (ses_set b) /\
  ses_depth a = ses_depth b /\ ses_files a = ses_files b.
(* a text without the two characters that escaping makes from others *)
Definition unambiguous (t : text) : Prop := ~ In 160 t /\ ~ In 38 t.
Section Lines.
Variable u_print : Z -> bool.
Variables letters digits puncts symbols : Z -> bool.
Variables bu bb : string -> bool.
Variable E : settings -> env.
Variables const_e const_pi : Z -> value.
(* each of the lines, evaluated after those before it, is used up *)
Fixpoint whole_lines (n : nat) (s : session) (lines : list text) : Prop :=
  match lines with
  | [] => True
  | l :: lines' => let '(_, s1, q) := ivy u_print letters digits puncts symbols bu bb E const_e const_pi n s (l ++ [nl]) in used_up q /\ whole_lines n s1 lines'
  end.
End Lines.

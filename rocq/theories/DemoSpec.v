(* What C113 is about, in plain terms: the lines of a script, the lines a user types, and what a demonstration does with
   them.  Only the events and the pipe of the model are mentioned. *)
From Verif Require Import Value ScanModel TextModel DemoModel.
Open Scope list_scope.
Open Scope Z_scope.

(* one line with its newline *)
Definition is_line (l : text) : Prop := exists b, l = b ++ [nl] /\ ~ In nl b.
(* a text made of whole lines and a rest without a newline *)
Definition made_of (t : text) (ls : list text) (rest : text) : Prop := t = concat ls ++ rest /\ Forall is_line ls /\ ~ In nl rest.
(* a line as typed, and what is taken of it: without a CR at its end *)
Definition taken (raw l : text) : Prop := raw = l ++ [13] \/ (raw = l /\ forall b, raw <> b ++ [13]).
Definition short (raw : text) : Prop := ~ In nl raw /\ Z.of_nat (length raw) < 65536.
(* the user types these lines; the last need not have a newline *)
Definition types (t : text) (us : list text) : Prop :=
  exists raws last, t = concat (map (fun r => r ++ [nl]) raws) ++ last /\ Forall short raws /\ short last /\
    Forall2 taken (raws ++ match last with [] => [] | _ => [last] end) us.
(* ... then a line that is too long *)
Definition types_too_long (t : text) (us : list text) : Prop :=
  exists raws long k, t = concat (map (fun r => r ++ [nl]) raws) ++ long ++ k /\ Forall short raws /\ Forall2 taken raws us /\
    ~ In nl long /\ 65536 <= Z.of_nat (length long).
Definition blank (r : Z) : Prop := In r [9; 10; 11; 12; 13; 32].
Definition says_quit (l : text) : Prop := exists a b, l = a ++ [113; 117; 105; 116] ++ b /\ Forall blank a /\ Forall blank b.

(* how many of the lines are empty *)
Definition empties (us : list text) : nat := length (filter (fun l => match l with [] => true | _ => false end) us).
(* what the i-th line of the user makes happen: an empty one, the next line of the script; another one, itself *)
Definition reaction (script us : list text) (i : nat) : list event :=
  match nth i us [] with
  | [] => let s := nth (empties (firstn i us)) script [] in [Show s; Send s]
  | l => [Send (l ++ [nl])]
  end.
(* the demonstration ends after k lines of the user: they have no more, the next one is "quit", or it asks for a line of
   the script and there are none left *)
Definition ends_after (script us : list text) (k : nat) : Prop :=
  (k <= length us)%nat /\
  (forall i, (i < k)%nat -> ~ says_quit (nth i us []) /\ (nth i us [] = [] -> (empties (firstn i us) < length script)%nat)) /\
  ((k < length us)%nat -> says_quit (nth k us []) \/ (nth k us [] = [] /\ empties (firstn k us) = length script)).
(* a newline is only at the end of what a call of Read returns *)
Definition newline_last (b : text) : Prop := forall a c, b = a ++ nl :: c -> c = [].
(* n steps of a schedule *)
Inductive in_steps : nat -> pipe -> pipe -> Prop :=
| no_steps : forall p, in_steps 0 p p
| one_more : forall n p q r, in_steps n p q -> moves q r -> in_steps (S n) p r.

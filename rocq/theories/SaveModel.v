(* Writing variables as text: parse/save.go.  Executable; no proofs. *)
From Coq Require Import String.
From Verif Require Import Value NumModel ArrModel ScanModel TextModel StrModel.
Open Scope string_scope.
Open Scope list_scope.
Open Scope Z_scope.

(* value/vector.go:343-350 AllChars, with the characters *)
Fixpoint chars_of (l : list value) : option text :=
  match l with
  | [] => Some []
  | VChar r :: l' => match chars_of l' with Some t => Some (r :: t) | None => None end
  | _ => None
  end.
(* fmt.Fprint(out, " ") between *)
Fixpoint with_spaces (l : list text) : text :=
  match l with [] => [] | [t] => t | t :: l' => t ++ [32] ++ with_spaces l' end.

Section Put.
Variable u_print : Z -> bool.

(* save.go:187-197, the text of a vector l whose elements have the texts ts; whether the
   case returned, leaving out the closing parenthesis *)
Definition put_vector (ts : list text) (l : list value) : text * bool :=
  match chars_of l with
  | Some cs => (quote_string u_print cs, true)
  | None => (with_spaces ts, false)
  end.
(* save.go:158-209 put.  Values of type BigFloat are outside. *)
Fixpoint put (v : value) (parens : bool) : text :=
  let (t, returned) :=
    match v with
    | VChar r => (quote_char u_print r, false)
    | VInt z | VBig z => (format_int 10 z, false)
    | VRat q => (format_int 10 (Qnum q) ++ [47] ++ format_int 10 (Zpos (Qden q)), false)
    | VCplx a b => (put a false ++ [106] ++ put b false, false)
    | VVec l => put_vector (map (fun x => put x (negb (is_scalar x))) l) l
    | VMat s d =>
      (with_spaces (map (fun n => format_int 10 (Z.of_nat n)) s) ++ zs " rho " ++
       fst (put_vector (map (fun x => put x (negb (is_scalar x))) d) d), false)
    end in
  (if parens then [40] else []) ++ t ++ (if parens && negb returned then [41] else []).
(* save.go:111-115: the line of a variable *)
Definition put_line (name : text) (v : value) : text := name ++ zs " = " ++ put v false ++ [nl].
(* save.go:109-116: the lines of the variables, sorted by name *)
Definition put_lines (vars : list (text * value)) : text := flat_map (fun p => put_line (fst p) (snd p)) vars.
End Put.

(* Model of the phase of a complex number and of the operators that write their operand: value/complex.go:122-151,
   value/unary.go:77-82, value/sin.go:31-100, value/power.go:38-50, value/eval.go:982-1009.  Executable; no proofs.

   A float is the address of a cell (big.Float is used through a pointer).  Cells 0 and 1 are the constants that
   const.go:107-112 computes once, half of pi and its opposite; complex.go:135 and 137 return their addresses.
   Simplified: results that are integers get a cell too; atan2 stands for complex.go:139-150, the arctangent of the
   quotient with the quadrant corrected, which makes a new number. *)
From Coq Require Import QArith Qabs.
From Verif Require Import Value NumModel FloatModel MixModel.
Open Scope list_scope.
Open Scope Z_scope.

(* What is evaluated: i and j are the numbers of earlier results *)
Inductive pop :=
| Phase (x y : Q)                                                      (* phase xjy *)
| Sin (i : nat) | Tan (i : nat) | Mod (i j : nat)
| Exp (i : nat)                                                        (* e to a complex number with this imaginary part *)
| Other (q : Q).                                                       (* any other operator: a new number *)
(* The cells, and for each result so far its cell; None after an error *)
Record pstate := mkPs { cells : list Q; results : list (option nat) }.

Section Phase.
Variable p : Z.                                                        (* the precision *)
Variable fuel : nat.
Variables pi half : Q.                                                 (* the constants *)
Variable atan2 : Q -> Q -> Q.

Definition init : pstate := mkPs [half; (- half)%Q] [].
Definition get (s : pstate) (k : nat) : Q := nth k (cells s) 0%Q.
Fixpoint put (l : list Q) (k : nat) (q : Q) : list Q :=
  match l, k with
  | [], _ => []
  | _ :: l', O => q :: l'
  | a :: l', S k' => a :: put l' k' q
  end.
(* a new number *)
Definition fresh (s : pstate) (q : Q) : pstate := mkPs (cells s ++ [q]) (results s ++ [Some (length (cells s))]).
(* the end of an operator that wrote x into cell k *)
Definition wrote (s : pstate) (k : nat) (x : Q) (r : option (res Q)) : pstate :=
  let s' := mkPs (put (cells s) k x) (results s) in
  match r with Some (Ok z) => fresh s' z | _ => mkPs (cells s') (results s' ++ [None]) end.
Definition operand_cell (s : pstate) (i : nat) : option nat := match nth_error (results s) i with Some o => o | None => None end.
Definition failed (s : pstate) : pstate := mkPs (cells s) (results s ++ [None]).

(* sin.go:39-56: |x|, reduced, then sine and cosine of it *)
Definition float_tan (x : Q) : option (res Q) * Q :=
  let neg := Qnum x <? 0 in
  let x0 := if neg then (- x)%Q else x in
  match two_pi_reduce (rnd p) fuel pi x0 with
  | None => (None, x0)
  | Some x1 =>
    let s := float_sin (rnd p) p fuel pi x1 in
    let c := float_cos (rnd p) p fuel pi (snd s) in
    (match fst s, fst c with
     | Some (Ok a), Some (Ok b) => if Qnum b =? 0 then Some Err else neg_res neg (Some (fquo (rnd p) a b))
     | Some Err, _ | _, Some Err => Some Err
     | _, _ => None
     end, snd c)
  end.

Definition step (s : pstate) (o : pop) : pstate :=
  match o with
  | Phase x y =>
    if Qnum y =? 0 then fresh s (if Qnum x <? 0 then pi else 0%Q)                     (* 127-129, unary.go:77-82 *)
    else if Qnum x =? 0 then mkPs (cells s) (results s ++ [Some (if Qnum y <? 0 then 1%nat else 0%nat)])  (* 133-138 *)
    else fresh s (atan2 x y)
  | Sin i =>
    match operand_cell s i with
    | Some k => let r := float_sin (rnd p) p fuel pi (get s k) in wrote s k (snd r) (fst r)
    | None => failed s
    end
  | Tan i =>
    match operand_cell s i with
    | Some k => let r := float_tan (get s k) in wrote s k (snd r) (fst r)
    | None => failed s
    end
  | Exp i =>                                                           (* power.go:43-46: cosine, then sine *)
    match operand_cell s i with
    | Some k => let c := float_cos (rnd p) p fuel pi (get s k) in
                let r := float_sin (rnd p) p fuel pi (snd c) in
                wrote s k (snd r) (match fst c with Some (Ok _) => fst r | e => e end)
    | None => failed s
    end
  | Mod i j =>
    match operand_cell s i, operand_cell s j with
    | Some k, Some l =>
      match mod_float p (Fl p (get s k)) (Fl p (get s l)) with
      | Ok (r, Fl _ u, Fl _ v) =>
        wrote (mkPs (put (cells s) k u) (results s)) l v
              (Some (match r with Fl _ q => Ok q | Ex (VInt z) | Ex (VBig z) => Ok (inject_Z z) | _ => Unmod end))
      | _ => failed s
      end
    | _, _ => failed s
    end
  | Other q => fresh s q
  end.
Definition run (h : list pop) : pstate := fold_left step h init.
(* What phase xjy shows now *)
Definition phase_now (s : pstate) (x y : Q) : option Q :=
  match last (results (step s (Phase x y))) None with Some k => Some (get (step s (Phase x y)) k) | None => None end.
End Phase.

(* Model of value/binary.go:952-1113: decode (a polynomial evaluated at a vector of
   bases) and encode (the digits of numbers in a vector of bases), and of the loops
   both share between goroutines.  decode computes with c.EvalBinary, which the user can
   redefine: the addition and the multiplication are parameters.  encode uses QuoRem
   itself.  The forms with characters on the left convert times (binary.go:963-966,
   1048-1051) and are outside the model (Unmod), as are floats.  QuoRem as a pure
   function: QuoRemHeap.v has its effect on negative rational operands.
   Executable; no proofs. *)
From Verif Require Import Value NumModel ArrModel ParModel.
Open Scope nat_scope.

(* binary.go:970-975, 994-999  get, on the elements of a vector *)
Definition get (l : list value) (i : nat) : res value :=
  if length l =? 1 then at_ l 0 else at_ l i.

(* binary.go:980-983, 1010-1017: "for i := n-1; i >= 0; i--"; i is the number of
   iterations to go. *)
Fixpoint decode_from (add mul : value -> value -> res value) (a b : nat -> res value)
    (i : nat) (result prod : value) : res value :=
  match i with
  | O => Ok result
  | S i' =>
    let! x := b i' in
    let! t := mul prod x in
    let! result' := add result t in
    let! y := a i' in
    let! prod' := mul prod y in
    decode_from add mul a b i' result' prod'
  end.

(* binary.go:956-988, two vectors *)
Definition decode_vec add mul (A B : list value) : res value :=
  if (length A =? 0) || (length B =? 0) then Ok vzero
  else if forallb is_char A then Unmod
  else if (length A =? 1) || (length B =? 1) || (length A =? length B) then
    decode_from add mul (get A) (get B) (Nat.max (length A) (length B)) vzero vone
  else Err.

(* binary.go:1009-1018: cell j of the result; len is elems.Len() and s0 B.shape[0] *)
Definition decode_cell add mul (A d : list value) (s0 len n j : nat) : res value :=
  decode_from add mul (get A) (fun i => at_ d (if 1 <? s0 then j + i * len else j)) n vzero vone.

(* binary.go:989-1027, a vector and a matrix.  B.data.Len()/B.shape[0] panics for a
   first axis of length 0. *)
Definition decode_mat add mul (A : list value) (s : list nat) (d : list value) : res value :=
  match s with
  | [] => Crash
  | s0 :: shape =>
    if negb (length A =? 1) && negb (s0 =? 1) && negb (length A =? s0) then Err
    else if s0 =? 0 then Crash
    else
      let len := length d / s0 in
      let n := Nat.max (length A) s0 in
      let! elems := build len (decode_cell add mul A d s0 len n) in
      if length shape =? 1 then Ok (VVec elems) else new_matrix shape elems
  end.

(* binary.go:57-66 vectorAndAtLeastVectorType, with EvalBinary (eval.go:109-130) *)
Definition op_decode add mul (u v : value) : res value :=
  let! A := to_vec u in
  match v with
  | VMat s d => decode_mat add mul A s d
  | _ => let! B := to_vec v in decode_vec add mul A B
  end.

(* binary.go:1061-1066, 1088-1092, 1105-1109: the digits of b, last one first; the
   bases are given last one first. *)
Fixpoint digits_from (bases : list value) (b : value) : res (list value) :=
  match bases with
  | [] => Ok []
  | a :: bases' =>
    let! p := quorem b a in
    let! ds := digits_from bases' (fst p) in
    Ok (snd p :: ds)
  end.
Definition digits (A : list value) (b : value) : res (list value) :=
  let! ds := digits_from (rev A) b in Ok (rev ds).

(* binary.go:1083-1094, 1098-1111: one column for each element of B; digit i of column j
   is element j + i*len(B) *)
Definition encode_columns (A B : list value) : res (list value) :=
  let! cols := mapM (digits A) B in
  Ok (concat (map (fun i => map (fun col => nth i col vzero) cols) (seq 0 (length A)))).

(* binary.go:1036-1095, two vectors *)
Definition encode_vec (A B : list value) : res value :=
  if forallb is_char A then Unmod
  else match A, B with
  | [a], [b] => let! p := quorem b a in Ok (snd p)
  | _, [b] => let! ds := digits A b in Ok (VVec ds)
  | [a], _ => let! l := mapM (fun b => let! p := quorem b a in Ok (snd p)) B in Ok (VVec l)
  | _, _ => let! elems := encode_columns A B in new_matrix [length A; length B] elems
  end.

(* binary.go:1096-1112, a vector and a matrix *)
Definition encode_mat (A : list value) (s : list nat) (d : list value) : res value :=
  let! elems := encode_columns A d in new_matrix (length A :: s) elems.

Definition op_encode (u v : value) : res value :=
  let! A := to_vec u in
  match v with
  | VMat s d => encode_mat A s d
  | _ => let! B := to_vec v in encode_vec A B
  end.

(* The body of encode's loop as steps of a goroutine (see ParModel.v): column j, n
   elements in B; rb is the quotient so far. *)
Fixpoint column_steps (bases : list value) (rb : res value) (n j : nat) : list action :=
  match bases with
  | [] => []
  | a :: bases' =>
    (fun _ => let! b := rb in let! p := quorem b a in Ok (j + length bases' * n, snd p)) ::
    column_steps bases' (let! b := rb in let! p := quorem b a in Ok (fst p)) n j
  end.
Definition encode_body (A B : list value) (j : nat) : list action :=
  column_steps (rev A) (at_ B j) (length B) j.

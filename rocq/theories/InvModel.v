(* Model of matrix and vector inverse and of matrix division:
   value/matrix.go:1078-1175, value/vector.go:568-596, value/binary.go:376-402.
   Executable; no proofs.

   ev o and ev1 o are what c.EvalBinary and c.EvalUnary do; the theorems use the
   arithmetic of NumModel.v, applied to arrays as in EvalModel.v. *)
From Verif Require Import Value NumModel ArrModel EvalModel.
Open Scope nat_scope.

(* eval.go:761-763 IsScalarType is ArrModel.is_scalar. *)
Definition row_at (t : list (list value)) (y : nat) : res (list value) :=
  match nth_error t y with Some r => Ok r | None => Crash end.
Definition put_row (t : list (list value)) (y : nat) (r : list value) : list (list value) :=
  map (fun i => if i =? y then r else nth i t []) (seq 0 (length t)).
Fixpoint foldR {A S} (f : S -> A -> res S) (l : list A) (s : S) : res S :=
  match l with [] => Ok s | a :: l' => let! s' := f s a in foldR f l' s' end.

(* matrix.go:1101-1118: the matrix with the identity matrix on its right *)
Definition augment (n : nat) (d : list value) : res (list (list value)) :=
  mapM (fun y => let! l := mapM (fun x => at_ d (y * n + x)) (seq 0 n) in
                 Ok (l ++ map (fun x => if x =? y then vone else vzero) (seq 0 n))) (seq 0 n).

Section Inverse.
Variable ev : bop -> value -> value -> res value.
Variable ev1 : uop -> value -> res value.

(* 1149-1155: the first row from x on, other than y, that is not zero in column x *)
Fixpoint find_target (t : list (list value)) (x y : nat) (rows : list nat) : res (option nat) :=
  match rows with
  | [] => Ok None
  | k :: rows' =>
    if k =? y then find_target t x y rows'
    else let! r := row_at t k in let! v := at_ r x in
         if isZero v then find_target t x y rows' else Ok (Some k)
  end.
(* 1123-1168: one row of one column *)
Definition inv_step (n x : nat) (t : list (list value)) (y : nat) : res (list (list value)) :=
  let! this := row_at t y in
  let! v := at_ this x in
  if negb (is_scalar v) then Err
  else if y =? x then
    if isZero v then Err
    else
      let! scale := ev1 UInv v in
      let! r := mapM (fun i => if i =? x then Ok vone else let! a := at_ this i in ev BMul a scale) (seq 0 (2 * n)) in
      Ok (put_row t y r)
  else if isZero v then Ok t
  else
    let! target := find_target t x y (seq x (n - x)) in
    match target with
    | None => Err
    | Some k =>
      let! row := row_at t k in
      let! p := at_ row x in
      let! ratio := ev BQuo v p in
      let! r := mapM (fun i => if i =? x then Ok vzero
                               else let! a := at_ this i in let! b := at_ row i in
                                    let! m := ev BMul ratio b in ev BSub a m) (seq 0 (2 * n)) in
      Ok (put_row t y r)
    end.
Definition inv_col (n : nat) (t : list (list value)) (x : nat) : res (list (list value)) :=
  foldR (inv_step n x) (seq 0 n) t.

(* vector.go:568-596.  The complex conjugate is written out there: NewComplex(real,
   EvalUnary("-", imag)).shrink(), which is what the operator conj does.  A vector of one
   element goes to eval.go:886-901, which refuses a vector. *)
Definition vec_inverse (l : list value) : res (list value) :=
  match l with
  | [] => Err
  | [_] => Err
  | _ =>
    let! cs := mapM (fun x => if negb (is_scalar x) then Err
                              else match x with VCplx _ _ => ev1 UConj x | _ => Ok x end) l in
    let! mag := foldR (fun m p => let! q := ev BMul (fst p) (snd p) in ev BAdd m q) (combine l cs) vzero in
    if isZero mag then Err else mapM (fun x => ev BQuo x mag) cs
  end.

(* matrix.go:1078-1175 *)
Definition mat_inverse (s : list nat) (d : list value) : res value :=
  match s with
  | [] => Err
  | [_] => let! r := vec_inverse d in new_matrix s r
  | [_; _; _] => Err
  | dim :: m :: _ =>
    if negb (m =? dim) then Err
    else
      let! t := augment dim d in
      let! t := foldR (inv_col dim) (seq 0 dim) t in
      new_matrix s (concat (map (skipn dim) t))
  end.
(* unary.go:331-357 *)
Definition inverse (v : value) : res value :=
  match v with
  | VVec l => let! r := vec_inverse l in Ok (VVec r)
  | VMat s d => mat_inverse s d
  | VChar _ => Err
  | _ => ev1 UInv v
  end.

(* binary.go:376-402 mdiv.  A pair of scalars has no row in the table. *)
Definition real_b (v : value) : bool := match v with VCplx _ _ | VVec _ | VMat _ _ => false | _ => true end.
Definition mdiv_vec (u v : list value) : res value :=
  if negb (length u =? length v) then Err
  else if negb (forallb real_b u && forallb real_b v) then Err
  else
    let! num := inner_vec (ev BAdd) (ev BMul) u v in
    let! den := inner_vec (ev BAdd) (ev BMul) v v in
    ev BQuo num den.
Definition mdiv_mat (u v : list nat * list value) : res value :=
  let! i := mat_inverse (fst v) (snd v) in
  inner (ev BAdd) (ev BMul) i (VMat (fst u) (snd u)).
Definition mdiv (u v : value) : res value :=
  if is_scalar u && is_scalar v then Err else at_least_vector mdiv_vec mdiv_mat u v.
End Inverse.

(* With the arithmetic of the interpreter. *)
Definition ev_std (c : conf) (o : bop) : value -> value -> res value := elementwise (eval_scalar c o).
Definition ev1_std (c : conf) (o : uop) : value -> res value := elementwise1 (eval_unary_scalar c o).
Definition op_inv (c : conf) (v : value) : res value := inverse (ev_std c) (ev1_std c) v.
Definition op_mdiv (c : conf) (u v : value) : res value := mdiv (ev_std c) (ev1_std c) u v.

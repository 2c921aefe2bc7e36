(* Model of variables: value/context.go:32-91 (Var: Value, Assign, editor), on top of the
   persistent slices of PersistModel.v.  A value.Value that is a Vector or a Matrix is a
   pointer to a published slice, so variables, arrays and editors share memory; indexed
   assignments are collected in the variable's editor and written back when the variable
   is read.  Executable; no proofs.

   Programs are assignments, indexed assignments, reads, and any other operation on
   values, which may share the arrays it was given (XMat, XData, XAt) or build new ones
   (XList, XFun).  The loop of an indexed assignment runs in one goroutine here;
   P_Conc.v and P_Par.v treat many. *)
From stdpp Require Import gmap list strings.
From Verif Require Import PersistModel.
From Verif Require Import Value ArrModel IdxModel.
Open Scope nat_scope.
Notation POk := PersistModel.Ok.
Notation PCrash := PersistModel.Crash.

(* ---- programs ---- *)
Inductive xp :=
| XConst (v : value)
| XVar (x : string)
| XAssign (x : string) (r : xp)                       (* x = r *)
| XSet (x : string) (index : list (option xp)) (r : xp) (* x[index] = r *)
| XList (l : list xp)                                 (* a strand: a new vector.  expr.go:83-94 evaluates each
   element into its place in a private editor; here the editor is filled at the end *)
| XMat (shape : list nat) (r : xp)                    (* matrix.go:354 NewMatrix: shares the vector *)
| XData (r : xp)                                      (* matrix.go:42-52 Data, shrink: shares the data *)
| XAt (i : nat) (r : xp)                              (* an element, which may be an array: shared *)
| XFun (f : list value -> res value) (l : list xp).   (* an operator that makes a new value *)

(* What a program does is given by what these do to a state S.  Values are V. *)
Record prims (S V : Type) := mkP {
  p_const : value -> S -> S * res V;
  p_var : string -> S -> S * res V;
  p_assign : string -> V -> S -> S * res unit;
  p_set : string -> list (option V) -> V -> S -> S * res unit;
  p_list : list V -> S -> S * res V;
  p_mat : list nat -> V -> S -> S * res V;
  p_data : V -> S -> S * res V;
  p_at : nat -> V -> S -> S * res V;
  p_fun : (list value -> res value) -> list V -> S -> S * res V;
  p_show : V -> S -> value }.
Arguments p_const {S V}. Arguments p_var {S V}. Arguments p_assign {S V}. Arguments p_set {S V}.
Arguments p_list {S V}. Arguments p_mat {S V}. Arguments p_data {S V}. Arguments p_at {S V}.
Arguments p_fun {S V}. Arguments p_show {S V}.

Definition cast {A B} (r : res A) : res B :=
  match r with Err => Err | Crash => Crash | _ => Unmod end.
Definition seqr {S A B} (m : S -> S * res A) (k : A -> S -> S * res B) (s : S) : S * res B :=
  match m s with
  | (s', Ok a) => k a s'
  | (s', r) => (s', cast r)
  end.

(* Evaluation goes from right to left: expr.go:83-94 (VectorExpr), 146-157 (operators),
   assign.go:25-29 (the right side first), index.go:42-46 (indexes). *)
Section Run.
Context {S V : Type} (P : prims S V).
Fixpoint eval (e : xp) : S -> S * res V :=
  match e with
  | XConst v => p_const P v
  | XVar x => p_var P x
  | XAssign x r => seqr (eval r) (fun v => seqr (p_assign P x v) (fun _ s => (s, Ok v)))
  | XSet x index r =>
      seqr (eval r) (fun v =>
      seqr ((fix go (l : list (option xp)) (s : S) : S * res (list (option V)) :=
               match l with
               | [] => (s, Ok [])
               | None :: l' => seqr (go l') (fun vs s => (s, Ok (None :: vs))) s
               | Some e :: l' => seqr (go l') (fun vs => seqr (eval e) (fun v s => (s, Ok (Some v :: vs)))) s
               end) index) (fun vs =>
      seqr (p_set P x vs v) (fun _ s => (s, Ok v))))
  | XList l =>
      seqr ((fix go (l : list xp) (s : S) : S * res (list V) :=
               match l with
               | [] => (s, Ok [])
               | e :: l' => seqr (go l') (fun vs => seqr (eval e) (fun v s => (s, Ok (v :: vs)))) s
               end) l) (p_list P)
  | XMat sh r => seqr (eval r) (p_mat P sh)
  | XData r => seqr (eval r) (p_data P)
  | XAt i r => seqr (eval r) (p_at P i)
  | XFun f l =>
      seqr ((fix go (l : list xp) (s : S) : S * res (list V) :=
               match l with
               | [] => (s, Ok [])
               | e :: l' => seqr (go l') (fun vs => seqr (eval e) (fun v s => (s, Ok (v :: vs)))) s
               end) l) (p_fun P f)
  end.
(* A program is a list of statements; after an error the next one runs. *)
Fixpoint outputs (prog : list xp) (s : S) : list (res value) :=
  match prog with
  | [] => []
  | e :: prog' => match eval e s with
                  | (s', Ok v) => Ok (p_show P v s') :: outputs prog' s'
                  | (s', r) => cast r :: outputs prog' s'
                  end
  end.
Fixpoint after (prog : list xp) (s : S) : S :=
  match prog with [] => s | e :: prog' => after prog' (fst (eval e s)) end.
End Run.

(* ---- indexed assignment, for elements of any type ---- *)
(* index.go:288-321: the source of the elements.  x is the right side, arr its shape and
   elements if it is an array. *)
Definition source_of {A} (out : list nat) (x : A) (arr : option (list nat * list A)) : res (nat -> res A) :=
  match out with
  | [] => Ok (fun _ => Ok x)
  | _ => match arr with
         | Some (s, l) => if shape_eqb out s
                          then Ok (fun k => match nth_error l k with Some y => Ok y | None => Crash end)
                          else Err
         | None => Ok (fun _ => Ok x)
         end
  end.
(* index.go:323-391: the calls of edit.Set, in order.  Only the shape of lhs is used. *)
Definition assignments {A} (c : conf) (lhs : value) (index : list (option value)) (x : A)
    (arr : option (list nat * list A)) : res (list (res (nat * A))) :=
  let! s := init (origin c) lhs index in
  let! src := source_of (sel_out s) x arr in
  match sel_out s with
  | [] =>
    match sel_items s with
    | ByAxes idx => let! ks := at_coord idx (map (fun _ => 0) idx) in Ok [Ok (offset_of (sel_shape s) ks 0, x)]
    | ByCoords _ => Ok [Ok (0, x)]
    end
  | out =>
    let copy := size (skipn (sel_dim s) (sel_shape s)) in
    if copy =? 0 then Crash
    else Ok (flat_map (fun p => map (fun k => let! off := snd p in let! y := src (k + fst p * copy) in Ok (off * copy + k, y))
                                    (seq 0 copy))
                      (combine (seq 0 (size out / copy)) (offsets s 0 (size out / copy))))
  end.

(* ---- the implementation ---- *)
(* A value.Value: a scalar, or a Vector or Matrix with the number of its published slice.
   The elements of slices are value.Values themselves. *)
Inductive ref :=
| RAtom (v : value)
| RVec (k : nat)
| RMat (shape : list nat) (k : nat).
(* context.go:33-37 *)
Record var := mkVar { vval : ref; vedit : option nat }.
Record vstate := mkV { vw : world (T:=ref); vars : gmap string var }.
(* A nil value.Value, the zero of an element (never read: only Resize leaves it). *)
Definition nil_ref : ref := RAtom (VInt 0).
Definition vinit : vstate := mkV winit ∅.

(* One call of the package persist. *)
Definition call (o : op (T:=ref)) (s : vstate) : vstate * res unit :=
  match PersistModel.step nil_ref (vw s) o with
  | POk w' => (mkV w' (vars s), Ok tt)
  | PCrash => (s, Crash)
  end.

(* The elements of slice k (Vector.All). *)
Definition elems (s : vstate) (k : nat) : list ref :=
  match wslices (vw s) !! k with
  | Some sl => match PersistModel.all nil_ref (wh (vw s)) sl with POk l => l | PCrash => [] end
  | None => []
  end.
(* The ivy value a reference stands for, read through the slices.  A slice refers to
   slices made before it, so they are read in order. *)
Definition value_of (D : list (list value)) (r : ref) : value :=
  match r with
  | RAtom v => v
  | RVec k => VVec (nth k D [])
  | RMat sh k => VMat sh (nth k D [])
  end.
Definition read_slices (ls : list (list ref)) : list (list value) :=
  fold_left (fun D l => D ++ [map (value_of D) l]) ls [].
Definition show (r : ref) (s : vstate) : value :=
  value_of (read_slices (map (elems s) (seq 0 (length (wslices (vw s)))))) r.

(* vector.go:372-376 NewVector: a new editor, Append, Publish *)
Definition new_vector (l : list ref) (s : vstate) : vstate * res ref :=
  let e := length (wtrs (vw s)) in
  seqr (call ONew) (fun _ =>
  seqr (call (OTransient (length (wslices (vw s))))) (fun _ =>
  seqr (call (OAppend e l)) (fun _ =>
  seqr (call (OPersist e)) (fun _ s' => (s', Ok (RVec (length (wslices (vw s')) - 1))))))) s.
(* A value the interpreter has just made. *)
Fixpoint embed (v : value) : vstate -> vstate * res ref :=
  let embeds := (fix go (l : list value) (s : vstate) : vstate * res (list ref) :=
    match l with
    | [] => (s, Ok [])
    | v :: l' => seqr (embed v) (fun r => seqr (go l') (fun rs s => (s, Ok (r :: rs)))) s
    end) in
  match v with
  | VVec l => seqr (embeds l) new_vector
  | VMat sh d => seqr (embeds d) (fun rs => seqr (new_vector rs) (fun r s =>
      (s, match r with RVec k => Ok (RMat sh k) | _ => Crash end)))
  | _ => fun s => (s, Ok (RAtom v))
  end.

(* context.go:45-60 Value: pending edits are published first. *)
Definition var_value (x : string) (s : vstate) : vstate * res ref :=
  match vars s !! x with
  | None => (s, Err)                                    (* expr.go:206 undefined variable *)
  | Some v =>
    match vedit v with
    | None => (s, Ok (vval v))
    | Some e =>
      seqr (call (OPersist e)) (fun _ s' =>
        let k := length (wslices (vw s')) - 1 in
        match vval v with
        | RVec _ => (mkV (vw s') (<[x := mkVar (RVec k) None]> (vars s')), Ok (RVec k))
        | RMat sh _ => (mkV (vw s') (<[x := mkVar (RMat sh k) None]> (vars s')), Ok (RMat sh k))
        | RAtom _ => (s', Crash)                        (* misuse of transient *)
        end) s
    end
  end.
(* context.go:63-66 Assign; exec/context.go:72-79 AssignGlobal *)
Definition var_assign (x : string) (r : ref) (s : vstate) : vstate * res unit :=
  (mkV (vw s) (<[x := mkVar r None]> (vars s)), Ok tt).
(* context.go:70-83 editor *)
Definition var_editor (x : string) (v : var) (s : vstate) : vstate * res nat :=
  match vedit v with
  | Some e => (s, Ok e)
  | None =>
    match vval v with
    | RAtom _ => (s, Crash)
    | RVec k | RMat _ k =>
      let e := length (wtrs (vw s)) in
      seqr (call (OTransient k)) (fun _ s' => (mkV (vw s') (<[x := mkVar (vval v) (Some e)]> (vars s')), Ok e)) s
    end
  end.
Fixpoint set_cells (e : nat) (l : list (res (nat * ref))) (s : vstate) : vstate * res unit :=
  match l with
  | [] => (s, Ok tt)
  | Ok (k, r) :: l' => seqr (call (OSet e (Z.of_nat k) r)) (fun _ => set_cells e l') s
  | a :: _ => (s, cast a)
  end.
(* The right side of an indexed assignment, if it is an array. *)
Definition array_of (s : vstate) (r : ref) : option (list nat * list ref) :=
  match r with
  | RAtom _ => None
  | RVec k => Some ([length (elems s k)], elems s k)
  | RMat sh k => Some (sh, elems s k)
  end.
(* index.go:79-107, 280-399.  The variable's value is looked at without publishing its
   pending edits: only its shape is used. *)
Definition var_set (c : conf) (x : string) (index : list (option ref)) (r : ref) (s : vstate) : vstate * res unit :=
  match vars s !! x with
  | None => (s, Err)
  | Some v =>
    match vval v with
    | RAtom a => (s, Err)                               (* cannot index *)
    | _ =>
      seqr (var_editor x v) (fun e s' =>
        match assignments c (show (vval v) s') (map (option_map (fun r => show r s')) index) r (array_of s' r) with
        | Ok l => set_cells e l s'
        | a => (s', cast a)
        end) s
    end
  end.

Definition impl (c : conf) : prims vstate ref := {|
  p_const := embed;
  p_var := var_value;
  p_assign := var_assign;
  p_set := var_set c;
  p_list := new_vector;
  p_mat := fun sh r s => (s, match r with
                             | RVec k => let! v := new_matrix sh (map (fun _ => VInt 0) (elems s k)) in Ok (RMat sh k)
                             | _ => Err end);
  p_data := fun r s => (s, match r with RVec k | RMat _ k => Ok (RVec k) | RAtom _ => Err end);
  p_at := fun i r s => (s, match r with
                           | RVec k | RMat _ k =>
                             match wslices (vw s) !! k with
                             | Some sl => match PersistModel.at_z nil_ref (wh (vw s)) sl (Z.of_nat i) with POk y => Ok y | PCrash => Crash end
                             | None => Crash end
                           | RAtom _ => Err end);
  p_fun := fun f l s => match f (map (fun r => show r s) l) with
                        | Ok v => embed v s
                        | a => (s, cast a)
                        end;
  p_show := show |}.

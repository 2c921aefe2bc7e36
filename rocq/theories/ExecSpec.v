(* Specification side of the execution model: what is said about programs, contexts and
   histories, without the interpreter. *)
From Coq Require Import String.
From Verif Require Import Value Syntax ExecModel.
Open Scope string_scope.
Open Scope list_scope.
Open Scope nat_scope.

(* Every variable of e is global or one of the k innermost locals. *)
Fixpoint within (k : nat) (e : expr) : bool :=
  match e with
  | EVal _ => true
  | EVar _ i => i <=? k
  | EUnary _ r => within k r
  | EBinary _ l r | ECond l r => within k l && within k r
  | EVector l => forallb (within k) l
  | EIndex l idx => within k l && forallb (fun o => match o with Some e => within k e | None => true end) idx
  end.

(* An operator refers to its own locals only, and has a left argument if it is binary. *)
Definition wf_func (fn : func) : Prop :=
  (f_binary fn = true <-> f_left fn <> None) /\
  (forall e, f_left fn = Some e -> within (length (f_locals fn)) e = true) /\
  within (length (f_locals fn)) (f_right fn) = true /\
  (forall body, f_body fn = Some body -> forallb (within (length (f_locals fn))) body = true).

(* Every operator defined is such, in the table of its kind; P says what more is asked. *)
Definition tables (P : func -> Prop) (st : ctx) : Prop :=
  (forall name fn, find (unary st) name = Some fn -> f_binary fn = false /\ P fn) /\
  (forall name fn, find (binary st) name = Some fn -> f_binary fn = true /\ P fn).

(* What the parser makes of a line of input: expressions over global variables, or the
   definition of operators satisfying P. *)
Definition wf_line (P : func -> Prop) (l : line) : Prop :=
  match l with
  | LExprs es => forallb (within 0) es = true
  | LDefine fn0 fn _ => f_name fn0 = f_name fn /\ f_binary fn0 = f_binary fn /\ P fn0 /\ P fn
  | LDelete _ _ | LBad => True
  end.
Definition wf_parser (P : func -> Prop) (E : env) : Prop := forall u b text, wf_line P (parse_line E u b text).

(* The interpreter whose frames start empty. *)
Definition empty_frame (n : nat) (_ : list (option rval)) : list (option rval) := repeat None n.
Definition fresh_run_lines := run_lines_with empty_frame.

(* What can be seen of a context between lines: all but the unused part of the stack. *)
Definition visible (st : ctx) := (globals st, stack st, frames st, unary st, binary st, defs st).

(* ---- every local is assigned before it is read ---- *)
(* The locals surely assigned after e, evaluated when those in A are; None if e may read
   a local that is not. *)
Definition known (A : list nat) (i : nat) : bool := (i =? 0) || existsb (Nat.eqb i) A.
Definition then_ (r : option (list nat)) (f : list nat -> option (list nat)) : option (list nat) :=
  match r with Some A => f A | None => None end.
(* lhs: e is being assigned to, not evaluated.  Everything is from right to left. *)
Fixpoint assigned (lhs : bool) (A : list nat) (e : expr) {struct e} : option (list nat) :=
  match e with
  | EVal _ => Some A
  | EVar _ i => if lhs then Some (i :: A) else if known A i then Some A else None
  | EUnary _ r => if lhs then Some A else assigned false A r
  | EBinary op l r => if lhs then Some A else then_ (assigned false A r) (fun A1 => assigned (String.eqb op "=") A1 l)
  | ECond l r => if lhs then Some A else then_ (assigned false A r) (fun A1 => assigned false A1 l)
  | EVector l => fold_right (fun e acc => then_ acc (fun A1 => assigned lhs A1 e)) (Some A) l
  | EIndex l idx =>
    let after := fold_right (fun o acc => match o with Some e => then_ acc (fun A1 => assigned false A1 e) | None => acc end) (Some A) idx in
    if lhs then match l with EVar _ i => then_ after (fun A1 => if known A1 i then Some A1 else None) | _ => Some A end
    else then_ after (fun A1 => assigned false A1 l)
  end.
(* A body: what is to the right of a conditional is not evaluated if the body goes on. *)
Fixpoint body_assigned (A : list nat) (body : list expr) : bool :=
  match body with
  | [] => true
  | ECond l r :: body' =>
    match assigned false A l with
    | Some A1 => match assigned false A1 r with Some _ => body_assigned A1 body' | None => false end
    | None => false
    end
  | e :: body' => match assigned false A e with Some A1 => body_assigned A1 body' | None => false end
  end.
(* No local of the operator is read before it is assigned, whichever way its
   conditionals go. *)
Definition definite (fn : func) : Prop :=
  wf_func fn /\
  exists A, then_ (match f_left fn with Some e => assigned true [] e | None => Some [] end)
                  (fun A1 => assigned true A1 (f_right fn)) = Some A /\
            (forall body, f_body fn = Some body -> body_assigned A body = true).

(* ---- the body of an operator ---- *)
(* ev e st st' v: evaluating e in st gives v and leaves st'.  no_return pre st st' v: the
   statements pre are executed one after the other, from st to st', and none returns: they
   are expressions, or conditionals whose left side is false; v is the value of the last
   of the expressions, or as it was before. *)
Inductive no_return (ev : expr -> ctx -> ctx -> rval -> Prop) : list expr -> option rval -> ctx -> ctx -> option rval -> Prop :=
| nr_nil v st : no_return ev [] v st st v
| nr_cond l r pre v v' c st st1 st' :
    ev l st st1 c -> is_true c = Ok false -> no_return ev pre v st1 st' v' -> no_return ev (ECond l r :: pre) v st st' v'
| nr_expr e pre v v' x st st1 st' :
    (forall l r, e <> ECond l r) -> ev e st st1 x -> no_return ev pre (Some x) st1 st' v' -> no_return ev (e :: pre) v st st' v'.
(* A body yields v: some conditional is the first whose left side is true, and v is the
   value of its right side; or none is, and v is the value of the last expression. *)
Definition yields (ev : expr -> ctx -> ctx -> rval -> Prop) (body : list expr) (st st' : ctx) (v : rval) : Prop :=
  (exists pre l r post u c st1 st2,
     body = pre ++ ECond l r :: post /\ no_return ev pre None st st1 u /\
     ev l st1 st2 c /\ is_true c = Ok true /\ ev r st2 st' v) \/
  no_return ev body None st st' (Some v).

(* ---- the operator table ---- *)
Definition defined (st : ctx) (name : string) (b : bool) : Prop :=
  find (if b then binary st else unary st) name <> None.
(* The order of definitions lists exactly the operators defined, each once. *)
Definition consistent (st : ctx) : Prop :=
  NoDup (defs st) /\ forall name b, In (name, b) (defs st) <-> defined st name b.
(* What changes the tables: an assignment to a global variable, "op", "opdelete". *)
Inductive event :=
| EvAssign (name : string) (v : rval)
| EvDefine (fn0 fn : func) (parsed : bool)
| EvDelete (name : string) (b : bool).
Definition happens (st : ctx) (ev : event) : ctx :=
  match ev with
  | EvAssign name v => fst (assign_global name v st)
  | EvDefine fn0 fn parsed => fst (define_op fn0 fn parsed st)
  | EvDelete name b => fst (undefine name b st)
  end.
Definition wf_event (ev : event) : Prop :=
  match ev with EvDefine fn0 fn _ => f_name fn0 = f_name fn /\ f_binary fn0 = f_binary fn | _ => True end.
(* In the history, a definition whose body does not parse is of an operator that is
   defined already. *)
Fixpoint no_new_failure (st : ctx) (evs : list event) : Prop :=
  match evs with
  | [] => True
  | ev :: evs' =>
    match ev with EvDefine _ fn false => defined st (f_name fn) (f_binary fn) | _ => True end /\
    no_new_failure (happens st ev) evs'
  end.
(* The tables of a context. *)
Definition symbols (st : ctx) := (globals st, unary st, binary st, defs st).

(* ---- which global variables an expression assigns ---- *)
(* Every global variable assigned in e, as the target of "=" or of an indexed assignment,
   has a name satisfying ok. *)
Fixpoint target_ok (ok : string -> bool) (e : expr) : bool :=
  match e with
  | EVar name i => (1 <=? i) || ok name
  | EIndex (EVar name i) _ => (1 <=? i) || ok name
  | EVector l => forallb (target_ok ok) l
  | _ => true
  end.
Fixpoint targets (ok : string -> bool) (e : expr) : bool :=
  match e with
  | EVal _ | EVar _ _ => true
  | EUnary _ r => targets ok r
  | EBinary op l r => targets ok l && targets ok r && (negb (String.eqb op "=") || target_ok ok l)
  | ECond l r => targets ok l && targets ok r
  | EVector l => forallb (targets ok) l
  | EIndex l idx => targets ok l && forallb (fun o => match o with Some e => targets ok e | None => true end) idx
  end.
(* The same for an operator (its arguments are assigned when it is called) and for a
   line; the definition of an operator counts as one of the variable of its name. *)
Definition func_targets (ok : string -> bool) (fn : func) : Prop :=
  (forall e, f_left fn = Some e -> target_ok ok e = true /\ targets ok e = true) /\
  target_ok ok (f_right fn) = true /\ targets ok (f_right fn) = true /\
  (forall body, f_body fn = Some body -> forallb (targets ok) body = true).
Definition line_targets (ok : string -> bool) (l : line) : Prop :=
  match l with
  | LExprs es => forallb (targets ok) es = true
  | LDefine fn0 fn _ => f_name fn0 = f_name fn /\ f_binary fn0 = f_binary fn /\ ok (f_name fn) = true /\
                        func_targets ok fn0 /\ func_targets ok fn
  | LDelete _ _ | LBad => True
  end.
(* A name that is both a global variable and an operator. *)
Definition clash (st : ctx) (name : string) : Prop :=
  find (globals st) name <> None /\ (defined st name false \/ defined st name true).
(* In the history, nothing is assigned to the name of an operator. *)
Fixpoint no_op_assigned (st : ctx) (evs : list event) : Prop :=
  match evs with
  | [] => True
  | ev :: evs' =>
    match ev with EvAssign name _ => ~ defined st name false /\ ~ defined st name true | _ => True end /\
    no_op_assigned (happens st ev) evs'
  end.
(* The operator of a name and kind. *)
Definition operator (st : ctx) (name : string) (b : bool) : option func := find (if b then binary st else unary st) name.
(* A line that ends in values or in an error message. *)
Definition line_ends (r : res (list rval)) : bool := match r with Ok _ | Err => true | _ => false end.

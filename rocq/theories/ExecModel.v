(* Model of the execution of expressions and operators: exec/context.go, exec/function.go,
   exec/operator.go, value/assign.go, value/expr.go (Eval), value/eval.go:845-878,
   1015-1030 and run/run.go.
   The built-in operators are a parameter: what they do is a finite strategy of calls back
   to the interpreter (c.EvalUnary, c.EvalBinary, or IvyEval for the operator "ivy"), so
   everything proved holds for whatever they compute.  Loops split over goroutines
   (ParModel.v) are not part of this model: calls back are made one after the other.
   Elements of a syntactic vector forget that they are quiet.  A step counter bounds the
   evaluation: when it runs out the outcome is Unmod.  Executable; no proofs. *)
From Coq Require Import String Ascii.
From Verif Require Import Value IdxModel Syntax.
Open Scope string_scope.
Open Scope list_scope.
Open Scope nat_scope.

(* ---- symbol tables: Go maps ---- *)
Definition table (A : Type) := list (string * A).
Fixpoint find {A} (t : table A) (k : string) : option A :=
  match t with [] => None | (k', a) :: t' => if String.eqb k k' then Some a else find t' k end.
Definition remove {A} (t : table A) (k : string) : table A := filter (fun p => negb (String.eqb k (fst p))) t.
Definition store {A} (t : table A) (k : string) (a : A) : table A := (k, a) :: remove t k.

(* exec.Context (context.go:20-40).  The stack is the part in use of an array whose rest
   (spare) keeps what it held; beyond the array are nils.  A nil pointer and a variable
   without a value are the same here (context.go:82-89).  peak is not in the code: the
   greatest number of frames so far. *)
Record ctx := mkCtx {
  globals : table rval;
  stack : list (option rval);
  spare : list (option rval);
  frames : list nat;
  unary : table func;
  binary : table func;
  defs : list (string * bool);
  peak : nat
}.

(* What the parser makes of a line (parse.go:152-177): expressions, a definition (below,
   define_op), a deletion, or an error.  What a line means depends on the operators
   defined; see parse_line below. *)
Inductive line :=
| LExprs (l : list expr)
| LDefine (fn0 fn : func) (parsed : bool)
| LDelete (name : string) (is_binary : bool)
| LBad.                                         (* the parser reports an error *)

(* What a built-in operator does. *)
Inductive prog :=
| Done (r : res rval)
| Call1 (op : string) (v : rval) (k : rval -> prog)
| Call2 (a : rval) (op : string) (b : rval) (k : rval -> prog)
| CallLine (text : string) (k : list rval -> prog).
Record builtins := mkB {
  b_unary : table (rval -> prog);
  b_binary : table (rval -> rval -> prog);
  b_reduce : string -> rval -> prog;
  b_scan : string -> rval -> prog;
  b_reduce_first : string -> rval -> prog;
  b_scan_first : string -> rval -> prog;
  b_each : string -> rval -> prog;
  b_binary_each : rval -> string -> rval -> prog;
  b_product : rval -> string -> rval -> prog;
  b_char_equal : rval -> bool -> rval -> option (res rval)
}.
(* What the interpreter is run with: the configuration (config/config.go), the built-in
   operators, and the parser, which turns the text of a line (with the body, for the
   definition of an operator over several lines) into what is to be done, knowing the
   operators defined (parse.go:269, 344, 473, scan.go:371, 389, 763). *)
Record env := mkEnv {
  set_conf : conf;
  maxstack : nat;
  ops : builtins;
  parse_line : table func -> table func -> string -> line
}.

(* ---- the monad: a panic keeps what was done before it ---- *)
Definition M (A : Type) := ctx -> ctx * res A.
Definition ret {A} (a : A) : M A := fun st => (st, Ok a).
Definition raise {A} (r : res A) : M A := fun st => (st, r).
Definition mbind {A B} (m : M A) (f : A -> M B) : M B := fun st =>
  match m st with
  | (st', Ok a) => f a st'
  | (st', Err) => (st', Err)
  | (st', Crash) => (st', Crash)
  | (st', Unmod) => (st', Unmod)
  end.
Notation "'do' x <- m ; k" := (mbind m (fun x => k)) (at level 200, x name, m at level 100, k at level 200).

(* ---- variables ---- *)
Definition set_globals (st : ctx) g := mkCtx g (stack st) (spare st) (frames st) (unary st) (binary st) (defs st) (peak st).
Definition set_stack (st : ctx) s := mkCtx (globals st) s (spare st) (frames st) (unary st) (binary st) (defs st) (peak st).
(* context.go:72-79 *)
Definition assign_global (name : string) (v : rval) : M unit := fun st => (set_globals st (store (globals st) name v), Ok tt).
(* context.go:82-89 Local: c.stack[len(c.stack)-i] *)
Definition local_read (i : nat) : M (option rval) := fun st =>
  if (i =? 0) || (length (stack st) <? i) then (st, Crash)
  else match nth_error (stack st) (length (stack st) - i) with Some x => (st, Ok x) | None => (st, Crash) end.
Fixpoint upd {A} (l : list A) (i : nat) (x : A) : list A :=
  match l, i with [], _ => [] | _ :: l', O => x :: l' | y :: l', S i' => y :: upd l' i' x end.
Definition local_write (i : nat) (v : rval) : M unit := fun st =>
  if (i =? 0) || (length (stack st) <? i) then (st, Crash)
  else (set_stack st (upd (stack st) (length (stack st) - i) (Some v)), Ok tt).
(* expr.go:196-213 VarExpr.Eval *)
Definition var_read (name : string) (local : nat) : M rval :=
  if 1 <=? local then do x <- local_read local; match x with Some v => ret v | None => raise Err end
  else fun st => match find (globals st) name with Some v => (st, Ok v) | None => (st, Err) end.
(* assign.go:30-36 *)
Definition var_write (name : string) (local : nat) (v : rval) : M unit :=
  if 1 <=? local then local_write local v else assign_global name v.

(* context.go:92-106.  push makes the new frame of what the array holds: cells is pad in
   the code.  (A parameter, to compare with an interpreter whose frames start empty.) *)
Definition pad (n : nat) (l : list (option rval)) : list (option rval) := firstn n l ++ repeat None (n - length l).
Definition push_cells (cells : nat -> list (option rval) -> list (option rval)) (n : nat) (st : ctx) : ctx :=
  mkCtx (globals st) (stack st ++ cells n (spare st)) (skipn n (spare st)) (frames st ++ [n])
        (unary st) (binary st) (defs st) (Nat.max (peak st) (S (length (frames st)))).
Definition pop (st : ctx) : ctx :=
  let n := last (frames st) 0 in
  let k := length (stack st) - n in
  mkCtx (globals st) (firstn k (stack st)) (skipn k (stack st) ++ spare st) (removelast (frames st))
        (unary st) (binary st) (defs st) (peak st).

(* eval.go:851-878 isTrue; a quiet value is none of the cases.  Floats are outside. *)
Fixpoint truth (v : value) : res bool :=
  match v with
  | VChar z => Ok (negb (z =? 0)%Z)
  | VInt z => Ok (negb (z =? 0)%Z)
  | VBig _ | VRat _ => Ok true
  | VCplx a b => match truth a, truth b with Ok x, Ok y => Ok (x || y) | _, _ => Ok true end
  | VVec [x] => truth x
  | VMat _ [x] => truth x
  | _ => Err
  end.
Definition is_true (v : rval) : res bool := if quiet v then Err else truth (val v).

(* index.go:45-74: an index is an Int, a vector or a matrix *)
Definition index_value (v : value) : res value := match v with VInt _ | VVec _ | VMat _ _ => Ok v | _ => Err end.
(* index.go:81-110: what can be indexed *)
Definition do_index (c : conf) (lhs : rval) (idx : list (option value)) : res value :=
  if quiet lhs then Err else op_index c (val lhs) idx.

(* ---- operator names: context.go:132-165, 187-200 ---- *)
Definition last_char (s : string) : option ascii :=
  match length (list_ascii_of_string s) with O => None | S n => get n s end.
Definition drop_last (n : nat) (s : string) : string := substring 0 (String.length s - n) s.
Definition ends (s : string) (a : ascii) : bool := match last_char s with Some b => Ascii.eqb a b | None => false end.
Inductive form1 := FReduce (op : string) | FScan (op : string) | FReduceFirst (op : string) | FScanFirst (op : string) | FEach | FPlain.
Definition classify1 (op : string) : form1 :=
  if 1 <? String.length op then
    if ends op "/" then FReduce (drop_last 1 op)
    else if ends op "\" then FScan (drop_last 1 op)
    else if ends op "%" then
      if 2 <? String.length op then
        if ends (drop_last 1 op) "/" then FReduceFirst (drop_last 2 op)
        else if ends (drop_last 1 op) "\" then FScanFirst (drop_last 2 op)
        else FPlain
      else FPlain
    else if ends op "@" then FEach
    else FPlain
  else FPlain.
Inductive form2 := GEach | GProduct | GPlain.
Definition starts (s : string) (a : ascii) : bool := match s with String b _ => Ascii.eqb a b | EmptyString => false end.
Fixpoint contains (s : string) (a : ascii) : bool :=
  match s with EmptyString => false | String b s' => Ascii.eqb a b || contains s' a end.
Definition classify2 (op : string) : form2 :=
  if starts op "@" || ends op "@" then GEach else if contains op "." then GProduct else GPlain.

(* ---- definitions: context.go:227-297 ---- *)
Definition is_zero_int (v : rval) : bool := negb (quiet v) && match val v with VInt 0 => true | _ => false end.
(* noVar *)
Definition no_var (name : string) : M unit := fun st =>
  if String.eqb name "_" || String.eqb name "pi" || String.eqb name "e" then (st, Err)
  else match find (globals st) name with
       | None => (st, Ok tt)
       | Some v => if is_zero_int v then (set_globals st (remove (globals st) name), Ok tt) else (st, Err)
       end.
Definition set_ops (st : ctx) u b d := mkCtx (globals st) (stack st) (spare st) (frames st) u b d (peak st).
Definition same_def (a b : string * bool) : bool := String.eqb (fst a) (fst b) && Bool.eqb (snd a) (snd b).
(* drop the first entry *)
Fixpoint drop_def (l : list (string * bool)) (d : string * bool) : list (string * bool) :=
  match l with [] => [] | x :: l' => if same_def x d then l' else x :: drop_def l' d end.
(* Define *)
Definition define (fn : func) : M unit :=
  do _ <- no_var (f_name fn);
  fun st =>
    let u := if f_binary fn then unary st else store (unary st) (f_name fn) fn in
    let b := if f_binary fn then store (binary st) (f_name fn) fn else binary st in
    let d := (f_name fn, f_binary fn) in
    let ds := match rev (defs st) with
              | x :: _ => if same_def x d then defs st else drop_def (defs st) d ++ [d]
              | [] => [d]
              end in
    (set_ops st u b ds, Ok tt).
(* Undefine *)
Definition undefine (name : string) (is_binary : bool) : M unit := fun st =>
  if existsb (fun x => same_def x (name, is_binary)) (defs st) then
    (set_ops st (if is_binary then unary st else remove (unary st) name)
                (if is_binary then remove (binary st) name else binary st)
                (drop_def (defs st) (name, is_binary)), Ok tt)
  else (st, Err).
(* parse/function.go:88-147: fn0 is the function as first installed, without a body; the
   body is then parsed, which may fail; then the complete function fn is installed.  On
   failure the map entry is put back as it was. *)
Definition define_op (fn0 fn : func) (parsed : bool) : M unit := fun st =>
  let restore (before st' : ctx) :=
    let m := if f_binary fn then binary st' else unary st' in
    let m' := match find (if f_binary fn then binary before else unary before) (f_name fn) with
              | Some old => store m (f_name fn) old
              | None => remove m (f_name fn)
              end in
    set_ops st' (if f_binary fn then unary st' else m') (if f_binary fn then m' else binary st') (defs st') in
  match define fn0 st with
  | (st1, Ok tt) =>
    if parsed then
      match define fn st1 with
      | (st2, Ok tt) => (st2, Ok tt)
      | (st2, r) => (restore st st2, r)
      end
    else (restore st st1, Err)
  | r => r                                      (* the deferred restoration is not yet in place *)
  end.

Section Exec.
Variable cells : nat -> list (option rval) -> list (option rval).
Variable E : env.

(* A piece of work for the interpreter. *)
Inductive task := TExpr (e : expr) | TUnary (op : string) (v : rval) | TBinary (a : rval) (op : string) (b : rval).

Section Step.
Variable ex : task -> M rval.

(* A list from right to left: expr.go:83-93, index.go:45-74 *)
Fixpoint eval_right (l : list expr) : M (list value) :=
  match l with
  | [] => ret []
  | e :: l' => do vs <- eval_right l'; do v <- ex (TExpr e); ret (val v :: vs)
  end.
Fixpoint eval_index (l : list (option expr)) : M (list (option value)) :=
  match l with
  | [] => ret []
  | o :: l' =>
    do vs <- eval_index l';
    match o with
    | None => ret (None :: vs)
    | Some e => do v <- ex (TExpr e); do w <- raise (index_value (val v)); ret (Some w :: vs)
    end
  end.

(* assign.go:25-59 Assign.  The right-hand side has been evaluated.  In index.go:78-110
   the variable is looked up after the indexes; a local variable without a value makes
   whichType (eval.go:86) dereference nil. *)
Fixpoint assign_to (left : expr) (rhs : rval) {struct left} : M unit :=
  match left with
  | EVar name local => var_write name local rhs
  | EIndex (EVar name local) idx =>
    do vs <- eval_index idx;
    do lhs <- (if 1 <=? local then do x <- local_read local; match x with Some v => ret v | None => raise Crash end
               else var_read name local);
    if quiet lhs then raise Err
    else let r := index_assign (set_conf E) (val lhs) vs (val rhs) in
         do _ <- var_write name local (loud (fst r));
         raise (snd r)
  | EVector l =>
    match rhs with
    | mkR false (VVec vs) =>
      if length l =? length vs then
        (fix go (l : list expr) (vs : list value) : M unit :=
           match l, vs with
           | e :: l', v :: vs' => do _ <- go l' vs'; assign_to e (loud v)
           | _, _ => ret tt
           end) l vs
      else raise Err
    | _ => raise Err
    end
  | _ => raise Err
  end.

(* eval.go:1017-1030 EvalFunctionBody; nil (None) if nothing was evaluated *)
Fixpoint eval_body (body : list expr) (v : option rval) : M (option rval) :=
  match body with
  | [] => ret v
  | ECond l r :: body' =>
    do c <- ex (TExpr l);
    do b <- raise (is_true c);
    if b then do x <- ex (TExpr r); ret (Some x) else eval_body body' v
  | e :: body' => do x <- ex (TExpr e); eval_body body' (Some x)
  end.

(* function.go:72-113 EvalUnary, EvalBinary; pop is deferred *)
Definition call (fn : func) (left : option rval) (right : rval) : M rval := fun st =>
  match f_body fn with
  | None => (st, Err)
  | Some body =>
    if maxstack E <=? length (frames st) then (st, Err)
    else
      let r := (do _ <- match f_left fn, left with Some e, Some v => assign_to e v | _, _ => ret tt end;
                do _ <- assign_to (f_right fn) right;
                do v <- eval_body body None;
                match v with Some v => ret v | None => raise Err end)
               (push_cells cells (length (f_locals fn)) st) in
      (pop (fst r), snd r)
  end.

(* context.go:116-127 Eval *)
Fixpoint eval_list (l : list expr) : M (list rval) :=
  match l with [] => ret [] | e :: l' => do v <- ex (TExpr e); do vs <- eval_list l'; ret (v :: vs) end.
(* A line: parse.go:152-177 Line, then context.Eval *)
Definition eval_line (l : line) : M (list rval) :=
  match l with
  | LExprs es => eval_list es
  | LDefine fn0 fn parsed => do _ <- define_op fn0 fn parsed; ret []
  | LDelete name b => do _ <- undefine name b; ret []
  | LBad => raise Err
  end.
Fixpoint interp (p : prog) : M rval :=
  match p with
  | Done r => raise r
  | Call1 op v k => do x <- ex (TUnary op v); interp (k x)
  | Call2 a op b k => do x <- ex (TBinary a op b); interp (k x)
  | CallLine text k => do x <- (fun st => eval_line (parse_line E (unary st) (binary st) text) st); interp (k x)                   (* run.go:109-129 eval *)
  end.

Definition step (t : task) : M rval :=
  match t with
  | TExpr (EVal v) => ret (loud v)
  | TExpr (EVar name local) => var_read name local
  | TExpr (EUnary op r) => do v <- ex (TExpr r); ex (TUnary op (loud (val v)))                  (* expr.go:33-35 *)
  | TExpr (EBinary op l r) =>                                                             (* expr.go:53-60, assign.go:18-23 *)
    do rhs <- ex (TExpr r);
    if String.eqb op "=" then do _ <- assign_to l (loud (val rhs)); ret (mkR true (val rhs))
    else do lhs <- ex (TExpr l); ex (TBinary lhs op (loud (val rhs)))
  | TExpr (ECond l r) =>                                                                  (* expr.go:68: as a binary operator *)
    do rhs <- ex (TExpr r); do lhs <- ex (TExpr l); ex (TBinary lhs ":" (loud (val rhs)))
  | TExpr (EVector l) => do vs <- eval_right l; ret (loud (VVec vs))
  | TExpr (EIndex l idx) =>
    do vs <- eval_index idx; do lhs <- ex (TExpr l); do v <- raise (do_index (set_conf E) lhs vs); ret (loud v)
  | TUnary op v =>                                                                        (* context.go:130-165 *)
    match classify1 op with
    | FReduce o => interp (b_reduce (ops E) o v)
    | FScan o => interp (b_scan (ops E) o v)
    | FReduceFirst o => interp (b_reduce_first (ops E) o v)
    | FScanFirst o => interp (b_scan_first (ops E) o v)
    | FEach => interp (b_each (ops E) op v)
    | FPlain => fun st =>
      match find (unary st) op with
      | Some fn => call fn None v st
      | None => match find (b_unary (ops E)) op with Some f => interp (f v) st | None => (st, Err) end
      end
    end
  | TBinary a op b =>                                                                     (* context.go:185-213 *)
    match (if String.eqb op "==" then b_char_equal (ops E) a true b else if String.eqb op "!=" then b_char_equal (ops E) a false b else None) with
    | Some r => raise r
    | None =>
      match classify2 op with
      | GEach => interp (b_binary_each (ops E) a op b)
      | GProduct => interp (b_product (ops E) a op b)
      | GPlain => fun st =>
        match find (binary st) op with
        | Some fn => call fn (Some a) b st
        | None => match find (b_binary (ops E)) op with Some f => interp (f a b) st | None => (st, Err) end
        end
      end
    end
  end.
End Step.

Fixpoint exec_with (n : nat) (t : task) : M rval :=
  match n with O => raise Unmod | S n' => step (exec_with n') t end.

(* ---- lines: parse.go:152-177, run.go:49-102 ---- *)
(* One line.  If a value is printed, "_" becomes the last value (run.go:78-89). *)
Definition run_line_with (n : nat) (text : string) : M (list rval) :=
  do vs <- (fun st => eval_line (exec_with n) (parse_line E (unary st) (binary st) text) st);
  if existsb (fun v => negb (quiet v)) vs then
    do _ <- assign_global "_" (last vs (loud (VInt 0))); ret vs
  else ret vs.
(* run.go:170-184: an error in a line is reported and the next line is run; any other
   panic ends the program. *)
Fixpoint run_lines_with (n : nat) (ls : list string) (st : ctx) : ctx * list (res (list rval)) :=
  match ls with
  | [] => (st, [])
  | l :: ls' =>
    match run_line_with n l st with
    | (st', Crash) => (st', [Crash])
    | (st', Unmod) => (st', [Unmod])
    | (st', r) => let p := run_lines_with n ls' st' in (fst p, r :: snd p)
    end
  end.
End Exec.
Definition push := push_cells pad.
Definition exec := exec_with pad.
Definition run_line := run_line_with pad.
Definition run_lines := run_lines_with pad.

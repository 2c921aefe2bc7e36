(* The parsed program (value/expr.go:16-234, exec/function.go:14-25): expressions,
   operators and the values of expressions. *)
From Coq Require Import String.
From Verif Require Import Value.
Open Scope string_scope.
Open Scope list_scope.
Open Scope nat_scope.

(* value.Expr.  CondExpr holds a BinaryExpr with operator ":" (expr.go:62-65); a nil
   entry in an index list is a missing index.  Local is 0 for a global variable. *)
Inductive expr :=
| EVal (v : value)
| EVar (name : string) (local : nat)
| EUnary (op : string) (right : expr)
| EBinary (op : string) (left right : expr)
| ECond (left right : expr)
| EVector (l : list expr)
| EIndex (left : expr) (index : list (option expr)).

Fixpoint esize (e : expr) : nat :=
  match e with
  | EVal _ | EVar _ _ => 1
  | EUnary _ r => S (esize r)
  | EBinary _ l r | ECond l r => S (esize l + esize r)
  | EVector l => S (list_sum (map esize l))
  | EIndex l idx => S (esize l + list_sum (map (fun o => match o with Some e => esize e | None => 1 end) idx))
  end.

(* exec.Function (function.go:14-22).  Left is absent for a unary operator; a nil body is
   that of a declaration "op f x". *)
Record func := mkFunc {
  f_binary : bool;
  f_name : string;
  f_left : option expr;
  f_right : expr;
  f_body : option (list expr);
  f_locals : list string
}.

(* The value of an expression; quiet is value.QuietValue (assign.go:10-15), the value of
   an assignment. *)
Record rval := mkR { quiet : bool; val : value }.
Definition loud (v : value) : rval := mkR false v.

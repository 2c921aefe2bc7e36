(* Values of the interpreter and the outcome of an evaluation. *)
From Coq Require Export ZArith QArith List Bool Lia.
Export ListNotations.
Open Scope Z_scope.

(* Outcome of evaluating something: a value; an ivy error (value.Errorf,
   value/context.go and value/value.go, recovered by run.Run); a Go runtime
   panic that is not a value.Error (run/run.go:49-102 re-panics, killing the
   process); or a step this model does not cover (floating point). *)
Inductive res (A : Type) := Ok (a : A) | Err | Crash | Unmod.
Arguments Ok {A}. Arguments Err {A}. Arguments Crash {A}. Arguments Unmod {A}.

Definition bind {A B} (m : res A) (f : A -> res B) : res B :=
  match m with Ok a => f a | Err => Err | Crash => Crash | Unmod => Unmod end.
Notation "'let!' x := m 'in' f" := (bind m (fun x => f)) (at level 200, x binder, m at level 100, f at level 200).

Fixpoint mapM {A B} (f : A -> res B) (l : list A) : res (list B) :=
  match l with
  | [] => Ok []
  | x :: l' => let! y := f x in let! ys := mapM f l' in Ok (y :: ys)
  end.

(* value/int.go (Int), char.go (Char), bigint.go (BigInt), bigrat.go (BigRat),
   complex.go (Complex), vector.go (Vector), matrix.go (Matrix).
   BigFloat values are not represented.  A big.Int is a Z, a big.Rat a Q kept
   in lowest terms (as big.Rat does).  A Vector is its list of elements (the
   persistent slice of PersistModel.v denotes a list, by P_Persist.v). *)
Inductive value :=
| VInt (z : Z)
| VChar (z : Z)
| VBig (z : Z)
| VRat (q : Q)
| VCplx (re im : value)
| VVec (l : list value)
| VMat (shape : list nat) (data : list value).

(* value/eval.go:17-27, 86-107  valueType, in the order of the constants
   (float = 4 has no values here). *)
Inductive vtype := TInt | TChar | TBig | TRat | TFloat | TCplx | TVec | TMat.
Definition rank_ty (t : vtype) : Z :=
  match t with TInt => 0 | TChar => 1 | TBig => 2 | TRat => 3 | TFloat => 4 | TCplx => 5 | TVec => 6 | TMat => 7 end.
Definition ty (v : value) : vtype :=
  match v with VInt _ => TInt | VChar _ => TChar | VBig _ => TBig | VRat _ => TRat
             | VCplx _ _ => TCplx | VVec _ => TVec | VMat _ _ => TMat end.

(* The settings an evaluation reads: config/config.go (maxbits, origin). *)
Record conf := mkConf { maxbits : Z; origin : Z }.

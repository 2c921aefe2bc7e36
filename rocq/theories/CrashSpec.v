(* Which evaluations can end in a Go runtime panic.  The operators of the other models
   are collected here in one table, with the names the interpreter gives them. *)
From Verif Require Import Value NumModel ArrModel ArrSpec EvalModel OrdModel OrdSpec IdxModel EncModel InvModel.
Open Scope nat_scope.

(* ---- values that can arise ---- *)
(* A real number: an integer, or a fraction in lowest terms that is not an integer. *)
Definition real_number (v : value) : Prop :=
  match v with VInt _ | VBig _ => True | VRat q => Qred q = q /\ Qden q <> 1%positive | _ => False end.
(* All matrices in it, at any depth, have as many elements as their shape says. *)
Fixpoint sound (v : value) : Prop :=
  match v with
  | VInt _ | VChar _ | VBig _ => True
  | VRat _ => real_number v
  | VCplx a b => real_number a /\ real_number b
  | VVec l => (fix all l := match l with [] => True | x :: l' => sound x /\ all l' end) l
  | VMat s d => (s <> [] /\ length d = vol s /\ legal s) /\
                (fix all l := match l with [] => True | x :: l' => sound x /\ all l' end) d
  end.
(* It has an axis of length 0. *)
Definition empty_axis (v : value) : Prop := In 0 (shape_of v).
Definition matrix (v : value) : Prop := match v with VMat _ _ => True | _ => False end.
(* Where there is a matrix, no operand has an axis of length 0. *)
Definition clear (u v : value) : Prop := matrix u \/ matrix v -> ~ empty_axis u /\ ~ empty_axis v.

(* ---- the operators ---- *)
Inductive op2 :=
| Arith (o : bop)                                            (* + - * / ** < == and min ... *)
| Rho | Rot | Flip | Transp | Cat | CatFirst | Take | Drop | Sel | Fill | Part
| Ident | NotIdent | In_ | Iota2 | Union | Intersect | Encode | Decode | Mdiv
| Outer (o : op2)                                            (* o.f *)
| Inner (o o' : op2)                                         (* f.g *)
| Each2 (nl nr : nat) (o : op2).                             (* @f, f@, @f@, ... *)
Inductive op1 :=
| Arith1 (o : uop)                                           (* - / abs floor not ... *)
| Rot1 | Flip1 | Transp1 | Iota1 | Where | Rho1 | Count | Ravel | Flatten | Split | Mix
| Unique | Up | Down | Inv
| Reduce (o : op2) | ReduceFirst (o : op2)                   (* f/ f/% *)
| Scan (assoc : bool) (o : op2) | ScanFirst (assoc : bool) (o : op2)   (* f\ f\% *)
| Each1 (n : nat) (o : op1).                                 (* f@ f@@ ... *)

Section Run.
Variables (srt stable : sort_fn) (c : conf).
(* The @s left over are applied again to the parts (eval.go:582-646: EvalUnary and
   EvalBinary get the rest of the name). *)
Fixpoint each_again (f : value -> res value) (fuel n : nat) (v : value) : res value :=
  each (fun k x => match k, fuel with O, _ => f x | _, O => Unmod | _, S fuel' => each_again f fuel' k x end) n v.
Fixpoint each2_again (f : value -> value -> res value) (fuel nl nr : nat) (u v : value) : res value :=
  binary_each (fun kl kr x y => match kl + kr, fuel with
                                | O, _ => f x y | _, O => Unmod | _, S fuel' => each2_again f fuel' kl kr x y end) nl nr u v.
Fixpoint run2 (o : op2) (u v : value) {struct o} : res value :=
  match o with
  | Arith b => elementwise (eval_scalar c b) u v
  | Rho => op_rho u v | Rot => op_rot u v | Flip => op_flip u v | Transp => op_transp c u v
  | Cat => op_cat u v | CatFirst => op_cat_first u v | Take => op_take u v | Drop => op_drop u v
  | Sel => op_sel u v | Fill => op_fill u v | Part => op_part u v
  | Ident => op_ident c u v | NotIdent => op_notident c u v | In_ => op_in srt c u v
  | Iota2 => op_iota2 stable c u v | Union => op_union srt c u v | Intersect => op_intersect srt c u v
  | Encode => op_encode u v | Decode => op_decode (ev_std c BAdd) (ev_std c BMul) u v
  | Mdiv => op_mdiv c u v
  | Outer o => outer (run2 o) u v
  | Inner o o' => inner (run2 o) (run2 o') u v
  | Each2 nl nr o => each2_again (run2 o) (nl + nr) nl nr u v
  end.
Fixpoint run1 (o : op1) (v : value) {struct o} : res value :=
  match o with
  | Arith1 b => elementwise1 (eval_unary_scalar c b) v
  | Rot1 => op_rot1 v | Flip1 => op_flip1 v | Transp1 => op_transp1 c v | Iota1 => op_iota1 c v
  | Where => op_where c v | Rho1 => Ok (op_rho1 v) | Count => Ok (op_count v) | Ravel => Ok (op_ravel v)
  | Flatten => Ok (op_flatten v) | Split => op_split v | Mix => op_mix v
  | Unique => op_unique srt c v | Up => op_up srt stable c v | Down => op_down srt stable c v
  | Inv => op_inv c v
  | Reduce o => reduce (run2 o) v | ReduceFirst o => reduce_first (run2 o) v
  | Scan a o => scan (run2 o) a v | ScanFirst a o => scan_first c (run2 o) a v
  | Each1 n o => each_again (run1 o) n n v
  end.
End Run.

(* The operators that can panic on an array with an axis of length 0. *)
Definition fragile2 (o : op2) : bool :=
  match o with Rot | Flip | Cat | Sel | Iota2 | Decode | Mdiv | Inner _ _ => true | _ => false end.
Definition fragile1 (o : op1) : bool := match o with Rot1 | Transp1 | Up | Down | Inv => true | _ => false end.
(* Neither o nor any operator it applies to elements or parts is fragile. *)
Fixpoint robust2 (o : op2) : bool :=
  negb (fragile2 o) && match o with Outer p | Each2 _ _ p => robust2 p | _ => true end.
(* o itself may be fragile, but not the operators it applies. *)
Definition guarded2 (o : op2) : bool :=
  match o with Outer p | Each2 _ _ p => robust2 p | Inner p q => robust2 p && robust2 q | _ => true end.
Fixpoint robust1 (o : op1) : bool :=
  negb (fragile1 o) &&
  match o with
  | Reduce p | ReduceFirst p | Scan _ p | ScanFirst _ p => robust2 p
  | Each1 _ p => robust1 p
  | _ => true
  end.
Definition guarded1 (o : op1) : bool := if fragile1 o then true else robust1 o.

(* ---- expressions ---- *)
Inductive expr :=
| Const (v : value)
| Un (o : op1) (e : expr)
| Bin (o : op2) (e e' : expr)
| Ix (e : expr) (l : list (option expr)).                    (* e[i; ; j] *)

Section Eval.
Variables (srt stable : sort_fn) (c : conf).
(* Operands are evaluated from right to left, the index list before the array
   (value/expr.go:33-59, value/index.go:34-91).  Simplification: all indexes are
   evaluated before their types are looked at. *)
Fixpoint value_of (e : expr) : res value :=
  match e with
  | Const v => Ok v
  | Un o e => let! v := value_of e in run1 srt stable c o v
  | Bin o e e' => let! v := value_of e' in let! u := value_of e in run2 srt stable c o u v
  | Ix e l =>
    let! xs := (fix go l := match l with
                            | [] => Ok []
                            | None :: l' => let! r := go l' in Ok (None :: r)
                            | Some x :: l' => let! r := go l' in let! w := value_of x in Ok (Some w :: r)
                            end) l in
    let! v := value_of e in op_index c v xs
  end.

(* Somewhere in e a fragile operator is applied where there is a matrix, or an array is
   indexed, and a value there has an axis of length 0. *)
Inductive meets_empty : expr -> Prop :=
| me_un o e v : fragile1 o = true -> value_of e = Ok v -> matrix v -> empty_axis v -> meets_empty (Un o e)
| me_bin o e e' u v : fragile2 o = true -> value_of e = Ok u -> value_of e' = Ok v ->
    matrix u \/ matrix v -> empty_axis u \/ empty_axis v -> meets_empty (Bin o e e')
| me_index e l v : value_of e = Ok v -> empty_axis v -> meets_empty (Ix e l)
| me_in_un o e : meets_empty e -> meets_empty (Un o e)
| me_in_left o e e' : meets_empty e -> meets_empty (Bin o e e')
| me_in_right o e e' : meets_empty e' -> meets_empty (Bin o e e')
| me_in_array e l : meets_empty e -> meets_empty (Ix e l)
| me_in_index e l x : In (Some x) l -> meets_empty x -> meets_empty (Ix e l).

(* Its constants are values that can arise, and its operators guarded. *)
Fixpoint proper (e : expr) : Prop :=
  match e with
  | Const v => sound v
  | Un o e => guarded1 o = true /\ proper e
  | Bin o e e' => guarded2 o = true /\ proper e /\ proper e'
  | Ix e l => proper e /\
      (fix all l := match l with [] => True | None :: l' => all l' | Some x :: l' => proper x /\ all l' end) l
  end.
End Eval.

(* s rho 1 *)
Definition made (s : list Z) : expr := Bin Rho (Const (VVec (map VInt s))) (Const (VInt 1)).

(* Shapes as the user thinks of them: lists of numbers that belong to a value. *)
From Coq Require Import List Arith Bool String.
From Verif Require Import Value AliasModel.
Import ListNotations.
Open Scope list_scope.
Open Scope nat_scope.

(* the variables an expression assigns *)
Fixpoint assigns (e : sx) : list string :=
  match e with
  | XVar _ | XNew _ => []
  | XSet x a => x :: assigns a
  | XOp _ a b | XBuild _ _ a b | XZip a b | XFind a b | XDecode a b | XOuter a b => assigns a ++ assigns b
  | XMap a | XReduce a | XReduceFirst a | XSplit a | XEach _ a | XMix _ a => assigns a
  end.
(* An expression whose value never has room after its shape: a constant, an operator that makes the shape of its result,
   something elementwise on such a value. *)
Fixpoint full (e : sx) : bool :=
  match e with
  | XNew _ | XOp _ _ _ => true
  | XMap a | XSet _ a => full a
  | _ => false
  end.
(* Outer products and mixes are only taken of such values. *)
Fixpoint careful (e : sx) : bool :=
  match e with
  | XVar _ | XNew _ => true
  | XSet _ a | XMap a | XReduce a | XReduceFirst a | XSplit a | XEach _ a => careful a
  | XOp _ a b | XBuild _ _ a b | XZip a b | XFind a b | XDecode a b => careful a && careful b
  | XOuter a b => full a && careful a && careful b
  | XMix _ a => full a && careful a
  end.

(* What each operator does to shapes. A value is a scalar, a vector with its length, or a matrix with its dimensions.
   (A matrix may have one dimension: binaryMatrixOp can make one.) *)
Inductive pval := PScal | PVec (n : nat) | PMat (l : list nat).
Definition pdims (v : pval) : list nat := match v with PScal => [] | PVec n => [n] | PMat l => l end.
Definition pcount (v : pval) : nat := vol (pdims v).
Definition pmat (v : pval) : bool := match v with PMat _ => true | _ => false end.
Definition guarded {A} (b : bool) (a : A) : option A := if b then Some a else None.
(* as a matrix: a scalar becomes a list of one *)
Definition up (v : pval) : list nat := match v with PScal => [1] | _ => pdims v end.
(* a value with these dimensions *)
Definition of_dims (l : list nat) : pval := match l with [] => PScal | [n] => PVec n | _ => PMat l end.
Definition p_zip (u v : pval) : option pval :=
  match u, v with
  | PScal, PScal => Some PScal
  | PMat _, _ | _, PMat _ =>
    let u := up u in let v := up v in
    if ones u then Some (PMat v) else if ones v then Some (PMat u)
    else if row_of u v then Some (PMat v) else if row_of v u then Some (PMat u)
    else guarded (eqb_list u v) (PMat u)
  | _, _ => option_map PVec (zip_len (pcount u) (pcount v))
  end.
Definition p_reduce (v : pval) : option pval :=
  match v with
  | PScal => Some PScal
  | PVec n => Some (if n =? 0 then PVec 0 else PScal)
  | PMat l => guarded ((2 <=? length l) && negb (last_dim l =? 0)) (of_dims (removelast l))
  end.
Definition p_reduce_first (v : pval) : option pval :=
  match v with
  | PMat l => guarded ((2 <=? length l) && negb (hd 0 l =? 0) && negb (vol (tl l) =? 0)) (of_dims (tl l))
  | _ => p_reduce v
  end.
Definition p_split (v : pval) : option pval :=
  match v with PScal => Some PScal | PVec _ => None | PMat l => guarded (2 <=? length l) (of_dims (removelast l)) end.
Definition p_each (d : nat) (v : pval) : option pval :=
  let k := firstn d (up v) in
  match k with
  | [] => None
  | [n] => Some (PVec (if vol (up v) =? 0 then 0 else n))
  | _ => guarded (negb (vol (up v) =? 0) || (vol k =? 0)) (PMat k)
  end.
Definition p_find (u v : pval) : option pval :=
  if pmat u || pmat v then
    let u := up u in let v := up v in
    let r := length v - (length u - 1) in
    if (length v <? length u - 1) || negb (eqb_list (tl u) (skipn r v)) || (vol u =? 0) then None
    else Some (match firstn r v with [] => PVec 1 | l => of_dims l end)
  else Some (PVec (pcount v)).
Definition p_decode (u v : pval) : option pval :=
  match u, v with
  | PMat _, _ => None
  | _, PMat (d :: ((_ :: _) as l)) =>
    guarded (((pcount u =? 1) || (d =? 1) || (pcount u =? d)) && negb (d =? 0)) (of_dims l)
  | _, PMat _ => None
  | _, _ => guarded ((pcount u =? 1) || (pcount v =? 1) || (pcount u =? pcount v)) PScal
  end.
Definition p_outer (u v : pval) : option pval := Some (PMat (up u ++ up v)).
Definition p_mix (l : list nat) (u : pval) : option pval := match u with PScal => Some PScal | _ => Some (PMat (pdims u ++ l)) end.
(* The evaluator on such shapes: an expression changes the variables it assigns and no others. *)
Definition penv := list (string * pval).
Definition plookup (l : penv) (x : string) : option pval :=
  match List.find (fun p => String.eqb (fst p) x) l with Some p => Some (snd p) | None => None end.
Fixpoint peval (e : sx) (st : penv) : option pval * penv :=
  let un a (k : pval -> option pval) :=
    match peval a st with (None, st1) => (None, st1) | (Some v, st1) => (k v, st1) end in
  let bin a b (k : pval -> pval -> option pval) :=
    match peval b st with
    | (None, st1) => (None, st1)
    | (Some w, st1) => match peval a st1 with (None, st2) => (None, st2) | (Some v, st2) => (k v w, st2) end
    end in
  match e with
  | XVar x => (plookup st x, st)
  | XSet x a => match peval a st with (None, st1) => (None, st1) | (Some v, st1) => (Some v, (x, v) :: st1) end
  | XNew l => (Some (of_dims l), st)
  | XOp f a b | XBuild f _ a b => bin a b (fun v w => option_map of_dims (f (pdims v) (pdims w)))
  | XMap a => un a (fun v => Some v)
  | XZip a b => bin a b p_zip
  | XReduce a => un a p_reduce
  | XReduceFirst a => un a p_reduce_first
  | XSplit a => un a p_split
  | XEach d a => un a (p_each d)
  | XFind a b => bin a b p_find
  | XDecode a b => bin a b p_decode
  | XOuter a b => bin a b p_outer
  | XMix l a => un a (p_mix l)
  end.
(* the shapes of all variables *)
Definition view (h : heap) (v : aval) : pval :=
  match v with AScal => PScal | AVec n => PVec n | AMat s _ => PMat (contents h s) end.
Definition shapes (st : astate) : penv := map (fun p => (fst p, view (arrays st) (snd p))) (avars st).

(* The slices lie in their arrays, and the shape of a matrix agrees with the number of its elements. *)
Definition good_slice (h : heap) (s : slice) : Prop :=
  arr s < length h /\ len s <= cap s /\ off s + cap s <= length (nth (arr s) h []).
Definition good_value (h : heap) (v : aval) : Prop :=
  match v with AMat s n => good_slice h s /\ 1 <= len s /\ vol (contents h s) = n | _ => True end.
Definition good (st : astate) : Prop := Forall (fun p => good_value (arrays st) (snd p)) (avars st).
(* Expressions with an outer product or a mix in them. *)
Fixpoint appends (e : sx) : bool :=
  match e with
  | XVar _ | XNew _ => false
  | XSet _ a | XMap a | XReduce a | XReduceFirst a | XSplit a | XEach _ a => appends a
  | XOp _ a b | XBuild _ _ a b | XZip a b | XFind a b | XDecode a b => appends a || appends b
  | XOuter _ _ | XMix _ _ => true
  end.

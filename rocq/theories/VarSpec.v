(* What variables promise: a variable holds a value, and an assignment to one changes
   that one only.  Nothing here knows of slices, editors or sharing.  Indexed assignment
   as a function on values is IdxModel.index_assign, whose meaning is C05. *)
From stdpp Require Import gmap list strings.
From Verif Require Import Value ArrModel IdxModel ArrSpec VarModel.
Open Scope nat_scope.

Notation store := (gmap string value).
Definition pure (c : conf) : prims store value := {|
  p_const := fun v p => (p, Ok v);
  p_var := fun x p => (p, match p !! x with Some v => Ok v | None => Err end);
  p_assign := fun x v p => (<[x := v]> p, Ok tt);
  p_set := fun x index rhs p =>
    match p !! x with
    | Some lhs => let r := index_assign c lhs index rhs in (<[x := fst r]> p, snd r)
    | None => (p, Err)
    end;
  p_list := fun l p => (p, Ok (VVec l));
  p_mat := fun sh v p => (p, match v with VVec l => new_matrix sh l | _ => Err end);
  p_data := fun v p => (p, match v with VVec l | VMat _ l => Ok (VVec l) | _ => Err end);
  p_at := fun i v p => (p, match v with
                           | VVec l | VMat _ l => match nth_error l i with Some y => Ok y | None => Crash end
                           | _ => Err end);
  p_fun := fun f l p => (p, f l);
  p_show := fun v _ => v |}.

(* Values as the interpreter makes them: every matrix, at any depth, has the elements
   its shape says. *)
Fixpoint dwf (v : value) : Prop :=
  match v with
  | VVec l => (fix go l := match l with [] => True | x :: l' => dwf x /\ go l' end) l
  | VMat s d => s <> [] /\ length d = vol s /\ (fix go l := match l with [] => True | x :: l' => dwf x /\ go l' end) d
  | _ => True
  end.
(* The constants and operators of a program make such values. *)
Fixpoint good (e : xp) : Prop :=
  match e with
  | XConst v => dwf v
  | XVar _ => True
  | XAssign _ r | XData r | XAt _ r => good r
  | XMat sh r => sh <> [] /\ good r
  | XSet _ index r => (fix go l := match l with [] => True | Some e :: l' => good e /\ go l' | None :: l' => go l' end) index /\ good r
  | XList l => (fix go l := match l with [] => True | e :: l' => good e /\ go l' end) l
  | XFun f l => (forall vs v, f vs = Ok v -> dwf v) /\ (fix go l := match l with [] => True | e :: l' => good e /\ go l' end) l
  end.

(* e assigns to x somewhere. *)
Fixpoint assigns (x : string) (e : xp) : Prop :=
  match e with
  | XConst _ | XVar _ => False
  | XAssign y r => x = y \/ assigns x r
  | XMat _ r | XData r | XAt _ r => assigns x r
  | XSet y index r => x = y \/ assigns x r \/
      (fix go l := match l with [] => False | Some e :: l' => assigns x e \/ go l' | None :: l' => go l' end) index
  | XList l | XFun _ l => (fix go l := match l with [] => False | e :: l' => assigns x e \/ go l' end) l
  end.

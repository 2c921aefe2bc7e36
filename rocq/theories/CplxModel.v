(* The complex floor and ceiling, value/complex.go:193-219, with the cells that they write.  Executable; no
   proofs.  Complex numbers have exact parts: floats are left out.

   A rational part is the address of a big.Rat cell, as in QuoRemHeap.v: two parts can be the same cell. *)
From Coq Require Import QArith.
From Verif Require Import Value NumModel QuoRemHeap.
Open Scope list_scope.
Open Scope Z_scope.

(* A part of a complex number: an integer, or a rational in a cell *)
Inductive part := PInt (v : value) | PRat (a : nat).
Definition part_val (h : heap) (p : part) : value :=
  match p with PInt v => v | PRat a => VRat (cell h a) end.
(* A value put where an operator puts it: rationals get a new cell (unary.go unaryBigRatOp 70-78) *)
Definition store (h : heap) (v : value) : heap * part :=
  match v with VRat q => (h ++ [q], PRat (length h)) | _ => (h, PInt v) end.

Section Conf.
Variable c : conf.

(* p mod 1 (binary.go:420-431 with eval.go:917-1013): for a rational, 1 is converted into a new cell *)
Definition mod_one (h : heap) (p : part) : heap * res value :=
  match p with
  | PInt v => (h, eval_scalar c BMod v vone)
  | PRat a => let r := quorem_heap (h ++ [1%Q]) a (length h) in (fst r, Ok (snd (snd r)))
  end.
(* eval.go isTrue on the result of a comparison *)
Definition holds (v : value) : bool := match v with VInt 0 => false | _ => true end.
(* complex.go:193-211 floor, the two parts of the result and the cells afterwards *)
Definition floor_parts (h : heap) (r i : part) : heap * res (value * value) :=
  let b := let! fr := eval_unary_scalar c UFloor (part_val h r) in                    (* 196 *)
           let! fi := eval_unary_scalar c UFloor (part_val h i) in new_cplx fr fi in
  let x := mod_one h r in                                                             (* 197 *)
  let y := mod_one (fst x) i in                                                       (* 198 *)
  (fst y,
   let! b := b in let! x := snd x in let! y := snd y in
   let! s := eval_scalar c BAdd x y in
   let! t := eval_scalar c BGt vone s in                                              (* 199 *)
   if holds t then Ok b
   else let! t := eval_scalar c BGe x y in                                            (* 202 *)
        if holds t then cplx_addsub c BAdd (fst b) (snd b) vone vzero
        else cplx_addsub c BAdd (fst b) (snd b) vzero vone).
(* unary.go:571-573 *)
Definition complex_floor (h : heap) (r i : part) : heap * res value :=
  let f := floor_parts h r i in
  (fst f, let! p := snd f in Ok (shrink_cplx (fst p) (snd p))).
(* complex.go:102-104 neg and 213-219 ceil, unary.go:618-620 *)
Definition complex_ceil (h : heap) (r i : part) : heap * res value :=
  match eval_unary_scalar c UNeg (part_val h r), eval_unary_scalar c UNeg (part_val h i) with
  | Ok nr, Ok ni =>
    let s := store h nr in let t := store (fst s) ni in
    let f := floor_parts (fst t) (snd s) (snd t) in
    (fst f, let! p := snd f in
       let! a := eval_unary_scalar c UNeg (fst p) in let! b := eval_unary_scalar c UNeg (snd p) in
       let! q := new_cplx a b in Ok (shrink_cplx (fst q) (snd q)))
  | _, _ => (h, Err)
  end.

(* power.go:145-160 complexIntegerPower: z is the product so far, y the squares; y is squared once more than needed.
   The fuel is one round for each bit of the exponent. *)
Fixpoint cplx_int_power (fuel : nat) (z y : value * value) (e : Z) : res (value * value) :=
  if e <=? 0 then Ok z
  else match fuel with
       | O => Unmod
       | S f =>
         let! z' := (if Z.odd e then cplx_mul c (fst z) (snd z) (fst y) (snd y) else Ok z) in
         let! y' := cplx_mul c (fst y) (snd y) (fst y) (snd y) in
         cplx_int_power f z' y' (e / 2)
       end.
(* complex.go:108-116 *)
Definition cplx_inverse (a b : value) : res (value * value) :=
  if isZero a && isZero b then Err
  else
    let! x := eval_real c BMul a a in let! y := eval_real c BMul b b in
    let! den := eval_real c BAdd x y in
    let! r := eval_real c BQuo a den in
    let! i0 := eval_real c BQuo b den in let! i := eval_unary_real UNeg i0 in new_cplx r i.
(* power.go:13-18 power and 163-181 complexPower, for a complex base with exact parts and a small integer as
   exponent (binary.go:487-488; the exponent is converted to the complex number n+0i).  Any other exponent is
   left to logarithms in floating point. *)
Definition complex_power (a b n : value) : res value :=
  match n with
  | VInt 0 => Ok vone
  | VInt 1 => Ok (shrink_cplx a b)
  | VInt i =>
    let! p := (if i <? 0 then let! p := cplx_int_power 64 (vone, vzero) (a, b) (- i) in cplx_inverse (fst p) (snd p)
               else cplx_int_power 64 (vone, vzero) (a, b) i) in
    Ok (shrink_cplx (fst p) (snd p))
  | _ => Unmod
  end.

End Conf.

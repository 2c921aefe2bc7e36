(* Model of the scalar operators: value/binary.go, value/unary.go,
   value/eval.go (QuoRem, EvalBinary, EvalUnary), value/int.go, bigint.go,
   bigrat.go, complex.go.  Executable; no proofs.
   Simplification throughout: c.EvalBinary / c.EvalUnary on a built-in name is
   taken to reach the built-in operator (a user may redefine one). *)
From Verif Require Export Value.
From Verif Require Import FacModel.
From Coq Require Import QArith.Qabs QArith.Qreduction QArith.Qround.
Open Scope Z_scope.

(* value/int.go:19-25 *)
Definition intBits : Z := 32.
Definition minInt : Z := - 2 ^ 31.
Definition maxInt : Z := 2 ^ 31 - 1.

(* Go int64 arithmetic wraps. *)
Definition wrap64 (z : Z) : Z := (z + 2 ^ 63) mod 2 ^ 64 - 2 ^ 63.

(* big.Int.BitLen *)
Definition bitlen (z : Z) : Z := if z =? 0 then 0 else Z.log2 (Z.abs z) + 1.

(* value/int.go:173-178  maybeBig *)
Definition maybe_big (z : Z) : value := if (minInt <=? z) && (z <=? maxInt) then VInt z else VBig z.
(* value/bigint.go:182-187  BigInt.shrink *)
Definition shrink_big (z : Z) : value := if bitlen z <? intBits then VInt z else VBig z.
(* value/bigrat.go:190-195  BigRat.shrink, on a big.Rat in lowest terms *)
Definition shrink_rat (q : Q) : value := if Pos.eqb (Qden q) 1 then shrink_big (Qnum q) else VRat q.

(* value/const.go:32-36 *)
Definition vzero := VInt 0.
Definition vone := VInt 1.
Definition vminusone := VInt (-1).

(* value/eval.go:790-806  isZero *)
Fixpoint isZero (v : value) : bool :=
  match v with
  | VInt z | VBig z => z =? 0
  | VRat q => Qnum q =? 0
  | VCplx a b => isZero a && isZero b
  | _ => false
  end.

(* value/complex.go:81-94  Complex.shrink, and Value.shrink on every scalar *)
Definition shrink_real (v : value) : value :=
  match v with VBig z => shrink_big z | VRat q => shrink_rat q | _ => v end.
Definition shrink_cplx (re im : value) : value :=
  let re' := shrink_real re in let im' := shrink_real im in
  if isZero im' then re' else VCplx re' im'.

(* value/complex.go:18-35  NewComplex *)
Definition simple_number (v : value) : bool :=
  match v with VInt _ | VBig _ | VRat _ => true | _ => false end.
Definition new_cplx (a b : value) : res (value * value) :=
  if simple_number a && simple_number b then Ok (a, b) else Err.

(* value/bigint.go:193-199  mustFit *)
Definition must_fit (c : conf) (n : Z) : res unit :=
  if negb (maxbits c =? 0) && (maxbits c <? n) then Err else Ok tt.

(* value/binary.go:18-45  binaryArithType, divType, rationalType *)
Definition arith_type (t1 t2 : vtype) : vtype := if rank_ty t2 <? rank_ty t1 then t1 else t2.
Definition div_type (t1 t2 : vtype) : vtype := arith_type (match t1 with TInt => TBig | _ => t1 end) t2.
Definition rational_type (t1 t2 : vtype) : vtype := arith_type (if rank_ty t1 <? 3 then TRat else t1) t2.

(* int.go:145-164, char.go:47-57, bigint.go:150-168, bigrat.go:172-187,
   complex.go:66-77  toType, scalar targets only. *)
Definition to_type (t : vtype) (v : value) : res value :=
  match v, t with
  | VInt z, TInt => Ok v | VInt z, TBig => Ok (VBig z) | VInt z, TRat => Ok (VRat (inject_Z z))
  | VInt _, TCplx => Ok (VCplx v vzero)
  | VChar _, TChar => Ok v
  | VBig _, TBig => Ok v | VBig z, TRat => Ok (VRat (inject_Z z)) | VBig _, TCplx => Ok (VCplx v vzero)
  | VRat _, TRat => Ok v | VRat _, TCplx => Ok (VCplx v vzero)
  | VCplx _ _, TCplx => Ok v
  | _, _ => Err
  end.

(* Operators of the binary table modelled here (value/binary.go:197-1280). *)
Inductive bop := BJ | BAdd | BSub | BMul | BQuo | BIdiv | BImod | BDiv | BMod | BPow | BBang
  | BAnd | BOr | BXor | BLsh | BRsh | BEq | BNe | BLt | BLe | BGt | BGe
  | LAnd | LOr | LXor | LNand | LNor | BMin | BMax.

(* the whichType column of the table *)
Definition which_type (o : bop) (t1 t2 : vtype) : vtype :=
  match o with
  | BQuo => rational_type t1 t2
  | BDiv | BPow | BLsh | BRsh => div_type t1 t2
  | _ => arith_type t1 t2
  end.

Definition to_int (b : bool) : value := if b then vone else vzero.

(* binary.go:72-89  shiftCount of a BigInt (divType lifts both operands). *)
Definition shift_count (z : Z) : res Z :=
  match shrink_big z with
  | VInt n => if (n <? 0) || (maxInt <=? n) then Err else Ok n
  | _ => Err
  end.

(* binary.go:115-143  bigIntExp, j ** k with k > 0.  [exp] is an int64 and the
   product with BitLen is int64 too. *)
Definition big_int_exp (c : conf) (j k : Z) : res Z :=
  if (j =? 1) || (j =? 0) then Ok j
  else if j =? -1 then (if Z.even k then Ok (- j) else Ok j)
  else if 63 <? bitlen k then Err
  else if j =? 2 then Ok (Z.shiftl 1 (Z.abs k))
  else let! _ := must_fit c (wrap64 (bitlen j * Z.abs k)) in Ok (j ^ k).

(* eval.go:917-1013  QuoRem on exact operands, as a pure function (see
   QuoRemHeap.v for its effect on the operands).  Go's / and % on ints truncate:
   Z.quot, Z.rem; big.Int.DivMod is Euclidean. *)
Definition euclid_div (x y : Z) : Z := if 0 <? y then x / y else - (x / - y).
Definition euclid_mod (x y : Z) : Z := x mod Z.abs y.

Definition quorem_int (x y : Z) : value * value :=
  let negX := x <? 0 in let negY := y <? 0 in
  let x := if negX then - x else x in let y := if negY then - y else y in
  let quo := Z.quot x y in let rem := Z.rem x y in
  let '(quo, rem) := if negX && negb (rem =? 0) then (quo + 1, y - rem) else (quo, rem) in
  let quo := if xorb negX negY then - quo else quo in
  (VInt quo, VInt rem).

Definition quorem_rat (x y : Q) : value * value :=
  let negX := Qnum x <? 0 in let negY := Qnum y <? 0 in
  let x := if negX then Qopp x else x in let y := if negY then Qopp y else y in
  let quo := Qred (x / y) in
  let iquo := Z.quot (Qnum quo) (Zpos (Qden quo)) in
  let rem := Qred (Qred (quo - inject_Z iquo) * y) in
  let '(iquo, rem) := if negX && negb (Qnum rem =? 0) then (iquo + 1, Qred (y - rem)) else (iquo, rem) in
  let iquo := if xorb negX negY then - iquo else iquo in
  (shrink_big iquo, shrink_rat rem).

Definition quorem (a b : value) : res (value * value) :=
  match shrink_real b with
  | VInt 0 => Ok (vzero, a)
  | _ =>
    match arith_type (ty a) (ty b) with
    | TInt => match a, b with VInt x, VInt y => Ok (quorem_int x y) | _, _ => Err end
    | TBig => let! a' := to_type TBig a in let! b' := to_type TBig b in
              match a', b' with
              | VBig x, VBig y => Ok (shrink_big (euclid_div x y), shrink_big (euclid_mod x y))
              | _, _ => Err end
    | TRat => let! a' := to_type TRat a in let! b' := to_type TRat b in
              match a', b' with VRat x, VRat y => Ok (quorem_rat x y) | _, _ => Err end
    | _ => Err
    end
  end.

(* int.go:107-115, bigint.go:133-140, bigrat.go:153-160  inverse.
   SetFrac reduces to lowest terms and moves the sign to the numerator. *)
Definition set_frac (n d : Z) : Q :=
  match d with Zpos p => Qred (n # p) | Zneg p => Qred ((- n) # p) | Z0 => 0 # 1 end.
Definition inverse_real (v : value) : res value :=
  match v with
  | VInt z | VBig z => if z =? 0 then Err else Ok (shrink_rat (set_frac 1 z))
  | VRat q => if Qnum q =? 0 then Err else Ok (shrink_rat (set_frac (Zpos (Qden q)) (Qnum q)))
  | _ => Err
  end.

(* fac.go:101-115  factorial; the algorithm is in FacModel.v *)
Definition factorial (n : Z) : res Z :=
  if n <? 0 then Err else Ok (fact_swing (S (Z.to_nat n)) (Z.to_nat n)).

(* eval.go:163-183 (toBool is binary.go:160-178) *)
Definition to_bool (v : value) : res bool :=
  match v with
  | VInt z | VChar z | VBig z => Ok (negb (z =? 0))
  | VRat q => Ok (negb (Qnum q =? 0))
  | VCplx a b => Ok (negb (isZero a) || negb (isZero b))
  | _ => Err
  end.

Definition logical (f : bool -> bool -> bool) (u v : value) : res value :=
  let! a := to_bool u in let! b := to_bool v in Ok (to_int (f a b)).

Definition q_cmp (x y : Q) : comparison := Qcompare x y.
Definition cmp_op (o : bop) (c : comparison) : bool :=
  match o with
  | BEq => match c with Eq => true | _ => false end
  | BNe => match c with Eq => false | _ => true end
  | BLt => match c with Lt => true | _ => false end
  | BLe => match c with Gt => false | _ => true end
  | BGt => match c with Gt => true | _ => false end
  | BGe => match c with Lt => false | _ => true end
  | _ => false
  end.

(* The int column of the table.  [x], [y] are int64. *)
Definition fn_int (c : conf) (o : bop) (x y : Z) : res value :=
  match o with
  | BJ => let! p := new_cplx (VInt x) (VInt y) in Ok (shrink_cplx (fst p) (snd p))      (* 202-204 *)
  | BAdd => Ok (if x =? 0 then VInt y else if y =? 0 then VInt x else maybe_big (wrap64 (x + y)))  (* 222-232 *)
  | BSub => Ok (if y =? 0 then VInt x else maybe_big (wrap64 (x - y)))                   (* 255-262 *)
  | BMul => Ok (if (x =? 1) || (y =? 0) then VInt y
                else if (y =? 1) || (x =? 0) then VInt x else maybe_big (wrap64 (x * y))) (* 285-295 *)
  | BQuo => Err                                                   (* rationalType never yields int *)
  | BIdiv => if y =? 0 then Err else Ok (VInt (wrap64 (Z.quot x y)))                      (* 337-342 *)
  | BImod => if y =? 0 then Err else Ok (VInt (Z.rem x y))                                (* 360-365 *)
  | BDiv | BPow | BLsh | BRsh => Err                              (* divType never yields int *)
  | BMod => let! p := quorem (VInt x) (VInt y) in Ok (snd p)                              (* eval.go:900-903 *)
  | BBang =>                                                                              (* 513-527 *)
      if (x =? 0) || (y =? 0) || (x =? y) then Ok vone
      else if (x <? 0) || (y <? 0) || (y <? x) then Ok vzero
      else let! a := factorial x in let! b := factorial y in let! ba := factorial (y - x) in
           Ok (shrink_big (euclid_div (euclid_div b a) ba))
  | BAnd => Ok (if (x =? 0) || (y =? -1) then VInt x else if (y =? 0) || (x =? -1) then VInt y
                else VInt (Z.land x y))                                                   (* 537-546 *)
  | BOr => Ok (if (x =? 0) || (y =? -1) then VInt y else if (y =? 0) || (x =? -1) then VInt x
               else VInt (Z.lor x y))                                                     (* 558-567 *)
  | BXor => Ok (if x =? 0 then VInt y else if y =? 0 then VInt x else VInt (Z.lxor x y))  (* 579-588 *)
  | BEq | BNe | BLt | BLe | BGt | BGe => Ok (to_int (cmp_op o (Z.compare x y)))
  | LAnd => logical andb (VInt x) (VInt y)
  | LOr => logical orb (VInt x) (VInt y)
  | LXor => logical xorb (VInt x) (VInt y)
  | LNand => logical (fun a b => negb (a && b)) (VInt x) (VInt y)
  | LNor => logical (fun a b => negb (a || b)) (VInt x) (VInt y)
  | BMin => Ok (if x <? y then VInt x else VInt y)                                        (* 1208-1213 *)
  | BMax => Ok (if y <? x then VInt x else VInt y)                                        (* 1249-1254 *)
  end.

(* The char column. *)
Definition fn_char (o : bop) (x y : Z) : res value :=
  match o with
  | BEq | BNe | BLt | BLe | BGt | BGe => Ok (to_int (cmp_op o (Z.compare x y)))
  | LAnd => logical andb (VChar x) (VChar y)
  | LOr => logical orb (VChar x) (VChar y)
  | LXor => logical xorb (VChar x) (VChar y)
  | LNand => logical (fun a b => negb (a && b)) (VChar x) (VChar y)
  | LNor => logical (fun a b => negb (a || b)) (VChar x) (VChar y)
  | BMin => Ok (if x <? y then VChar x else VChar y)
  | BMax => Ok (if y <? x then VChar x else VChar y)
  | _ => Err
  end.

(* The big int column. *)
Definition fn_big (c : conf) (o : bop) (x y : Z) : res value :=
  match o with
  | BJ => let! p := new_cplx (VBig x) (VBig y) in Ok (shrink_cplx (fst p) (snd p))
  | BAdd => let! _ := must_fit c (bitlen x + 1) in let! _ := must_fit c (bitlen y + 1) in
            Ok (shrink_big (x + y))                                                       (* 233-237 *)
  | BSub => let! _ := must_fit c (bitlen x + 1) in let! _ := must_fit c (bitlen y + 1) in
            Ok (shrink_big (x - y))                                                       (* 263-267 *)
  | BMul => let! _ := must_fit c (bitlen x + bitlen y) in Ok (shrink_big (x * y))         (* 296-299 *)
  | BQuo => Err
  | BIdiv => if y =? 0 then Err else Ok (shrink_big (Z.quot x y))                         (* 343-348 *)
  | BImod => if y =? 0 then Err else Ok (shrink_big (Z.rem x y))                          (* 366-371 *)
  | BDiv => if y =? 0 then Err else Ok (shrink_big (euclid_div x y))                      (* 409-414 *)
  | BMod => let! p := quorem (VBig x) (VBig y) in Ok (snd p)
  | BPow =>                                                                               (* 438-458 *)
      if y =? 0 then Ok vone
      else if y <? 0 then
        if x =? 0 then Err
        else let! r := big_int_exp c x (- y) in inverse_real (shrink_big r)
      else if (x =? 1) || (x =? 0) then Ok (VBig x)
      else let! r := big_int_exp c x y in Ok (shrink_big r)
  | BBang => Err
  | BAnd => Ok (shrink_big (Z.land x y))
  | BOr => Ok (shrink_big (Z.lor x y))
  | BXor => Ok (shrink_big (Z.lxor x y))
  | BLsh => let! n := shift_count y in Ok (shrink_big (Z.shiftl x n))                     (* 603-608 *)
  | BRsh => let! n := shift_count y in Ok (shrink_big (Z.shiftr x n))                     (* 618-623 *)
  | BEq | BNe | BLt | BLe | BGt | BGe => Ok (to_int (cmp_op o (Z.compare x y)))
  | LAnd => logical andb (VBig x) (VBig y)
  | LOr => logical orb (VBig x) (VBig y)
  | LXor => logical xorb (VBig x) (VBig y)
  | LNand => logical (fun a b => negb (a && b)) (VBig x) (VBig y)
  | LNor => logical (fun a b => negb (a || b)) (VBig x) (VBig y)
  | BMin => Ok (if x <? y then shrink_big x else shrink_big y)                            (* 1220-1226 *)
  | BMax => Ok (if y <? x then VBig x else VBig y)                                        (* 1261-1267: not shrunk *)
  end.

(* The rational column.  Every big.Rat operation leaves lowest terms (Qred). *)
Definition fn_rat (c : conf) (o : bop) (x y : Q) : res value :=
  match o with
  | BJ => let! p := new_cplx (VRat x) (VRat y) in Ok (shrink_cplx (fst p) (snd p))
  | BAdd => Ok (shrink_rat (Qred (x + y)))                                                (* 238-240 *)
  | BSub => Ok (shrink_rat (Qred (x - y)))
  | BMul => Ok (shrink_rat (Qred (x * y)))
  | BQuo => if Qnum y =? 0 then Err else Ok (shrink_rat (Qred (x / y)))                   (* 317-322 *)
  | BMod => let! p := quorem (VRat x) (VRat y) in Ok (snd p)
  | BPow =>                                                                               (* 459-491 *)
      if Qnum y =? 0 then Ok vone
      else if (Qnum y <? 0) && (Qnum x =? 0) then Err
      else
        let rexp := if Qnum y <? 0 then Qopp y else y in
        if negb (Pos.eqb (Qden rexp) 1) then Unmod                                        (* lifted to float *)
        else
          let! num := big_int_exp c (Qnum x) (Qnum rexp) in
          let! den := big_int_exp c (Zpos (Qden x)) (Qnum rexp) in
          Ok (shrink_rat (if Qnum y <? 0 then set_frac den num else set_frac num den))
  | BEq | BNe | BLt | BLe | BGt | BGe => Ok (to_int (cmp_op o (q_cmp x y)))
  | LAnd => logical andb (VRat x) (VRat y)
  | LOr => logical orb (VRat x) (VRat y)
  | LXor => logical xorb (VRat x) (VRat y)
  | LNand => logical (fun a b => negb (a && b)) (VRat x) (VRat y)
  | LNor => logical (fun a b => negb (a || b)) (VRat x) (VRat y)
  | BMin => Ok (match q_cmp x y with Lt => shrink_rat x | _ => shrink_rat y end)          (* 1227-1233 *)
  | BMax => Ok (match q_cmp x y with Gt => shrink_rat x | _ => shrink_rat y end)          (* 1268-1274 *)
  | _ => Err
  end.

(* eval.go:137-149  EvalCharEqual, called first by exec/context.go:190-196. *)
Definition char_equal (o : bop) (u v : value) : option value :=
  match o with
  | BEq | BNe =>
    match ty u, ty v with
    | TVec, _ | TMat, _ | _, TVec | _, TMat => None
    | TChar, TChar => None
    | TChar, _ | _, TChar => Some (match o with BEq => vzero | _ => vone end)
    | _, _ => None
    end
  | _ => None
  end.

(* eval.go:109-130 EvalBinary for real operands (int, char, big int, rational). *)
Definition eval_real (c : conf) (o : bop) (u v : value) : res value :=
  match char_equal o u v with
  | Some r => Ok r
  | None =>
    let t := which_type o (ty u) (ty v) in
    let! u' := to_type t u in let! v' := to_type t v in
    match u', v' with
    | VInt x, VInt y => fn_int c o x y
    | VChar x, VChar y => fn_char o x y
    | VBig x, VBig y => fn_big c o x y
    | VRat x, VRat y => fn_rat c o x y
    | _, _ => Err
    end
  end.

(* unary.go table, real operands.  "-" 277-296, "/" 299-318, "sgn" 354-378,
   "!" 397-405, "^" 407-424, "not" 426-459, "abs" 461-487, "floor" 532-575,
   "ceil" 578-622. *)
Inductive uop := UPlus | UNeg | UInv | USgn | UBang | UNot | ULNot | UAbs | UReal | UImag | UFloor | UCeil | UConj | UJ.

Definition eval_unary_real (o : uop) (v : value) : res value :=
  match o, v with
  | UPlus, (VInt _ | VBig _ | VRat _) => Ok v
  | UNeg, VInt z => Ok (VInt (wrap64 (- z)))
  | UNeg, VBig z => Ok (shrink_big (- z))
  | UNeg, VRat q => Ok (shrink_rat (Qopp q))
  | UInv, (VInt _ | VBig _ | VRat _) => inverse_real v
  | USgn, VInt z => Ok (if 0 <? z then vone else if z <? 0 then vminusone else vzero)
  | USgn, VBig z => Ok (VInt (Z.sgn z))
  | USgn, VRat q => Ok (VInt (Z.sgn (Qnum q)))
  | UBang, VInt z => let! f := factorial z in Ok (shrink_big f)
  | UNot, VInt z => Ok (VInt (Z.lnot z))
  | UNot, VBig z => Ok (shrink_big (Z.lxor z (-1)))
  | ULNot, (VInt z | VBig z) => Ok (if z =? 0 then vone else vzero)
  | ULNot, VRat q => Ok (if Qnum q =? 0 then vone else vzero)
  | UAbs, VInt z => Ok (VInt (if z <? 0 then wrap64 (- z) else z))
  | UAbs, VBig z => Ok (shrink_big (Z.abs z))
  | UAbs, VRat q => Ok (shrink_rat (Qabs q))
  | UReal, (VInt _ | VBig _ | VRat _) => Ok v
  | UImag, (VInt _ | VBig _ | VRat _) => Ok vzero
  | UConj, (VInt _ | VBig _ | VRat _) => Ok v
  | UFloor, (VInt _ | VBig _) => Ok v
  | UFloor, VRat q =>
      if Pos.eqb (Qden q) 1 then Crash                                                    (* panic("min: is int") *)
      else let pos := 0 <=? Qnum q in
           let z := Z.quot (Z.abs (Qnum q)) (Zpos (Qden q)) in
           Ok (shrink_big (if pos then z else - (z + 1)))
  | UCeil, (VInt _ | VBig _) => Ok v
  | UCeil, VRat q =>
      if Pos.eqb (Qden q) 1 then Crash
      else let pos := 0 <=? Qnum q in
           let z := Z.quot (Z.abs (Qnum q)) (Zpos (Qden q)) in
           Ok (shrink_big (if pos then z + 1 else - z))
  | UJ, (VInt _ | VBig _ | VRat _) => let! p := new_cplx vzero v in Ok (shrink_cplx (fst p) (snd p))
  | _, _ => Err
  end.

(* ---- complex numbers: complex.go ---- *)

(* complex.go:152-164 *)
Definition cplx_addsub (c : conf) (o : bop) (a b d e : value) : res (value * value) :=
  let! r := eval_real c o a d in let! i := eval_real c o b e in new_cplx r i.
(* complex.go:160-164  (a+bi)*(d+ei) *)
Definition cplx_mul (c : conf) (a b d e : value) : res (value * value) :=
  let! x := eval_real c BMul a d in let! y := eval_real c BMul b e in let! r := eval_real c BSub x y in
  let! x := eval_real c BMul e a in let! y := eval_real c BMul d b in let! i := eval_real c BAdd x y in
  new_cplx r i.
(* complex.go:166-184  (a+bi)/(d+ei) *)
Definition cplx_div (c : conf) (a b d e : value) : res (value * value) :=
  if isZero d && isZero e then Err
  else if isZero e then
    let! den := eval_real c BMul d d in
    let! r := eval_real c BMul a d in let! r := eval_real c BQuo r den in
    let! i := eval_real c BMul b d in let! i := eval_real c BQuo i den in
    new_cplx r i
  else
    let! x := eval_real c BMul d d in let! y := eval_real c BMul e e in let! den := eval_real c BAdd x y in
    let! x := eval_real c BMul a d in let! y := eval_real c BMul b e in let! r := eval_real c BAdd x y in
    let! r := eval_real c BQuo r den in
    let! x := eval_real c BMul b d in let! y := eval_real c BMul a e in let! i := eval_real c BSub x y in
    let! i := eval_real c BQuo i den in
    new_cplx r i.

(* the complex column of the binary table *)
Definition fn_cplx (c : conf) (o : bop) (a b d e : value) : res value :=
  match o with
  | BAdd | BSub => let! p := cplx_addsub c o a b d e in Ok (shrink_cplx (fst p) (snd p))
  | BMul => let! p := cplx_mul c a b d e in Ok (shrink_cplx (fst p) (snd p))
  | BQuo => let! p := cplx_div c a b d e in Ok (shrink_cplx (fst p) (snd p))
  | BPow => Unmod
  | BEq => let! r := eval_real c BEq a d in
           match r with VInt 0 => Ok vzero | _ => eval_real c BEq b e end                (* 648-654 *)
  | BNe => let! r := eval_real c BNe a d in
           match r with VInt 1 => Ok vone | _ => eval_real c BNe b e end                 (* 684-690 *)
  | LAnd => logical andb (VCplx a b) (VCplx d e)
  | LOr => logical orb (VCplx a b) (VCplx d e)
  | LXor => logical xorb (VCplx a b) (VCplx d e)
  | LNand => logical (fun a b => negb (a && b)) (VCplx a b) (VCplx d e)
  | LNor => logical (fun a b => negb (a || b)) (VCplx a b) (VCplx d e)
  | _ => Err
  end.

(* EvalBinary on any two scalars: exec/context.go:187-213 and eval.go:109-130. *)
Definition eval_scalar (c : conf) (o : bop) (u v : value) : res value :=
  match char_equal o u v with
  | Some r => Ok r
  | None =>
    let t := which_type o (ty u) (ty v) in
    let! u' := to_type t u in let! v' := to_type t v in
    match u', v' with
    | VCplx a b, VCplx d e => fn_cplx c o a b d e
    | _, _ => eval_real c o u v
    end
  end.

(* complex.go:96-110, unary.go complex rows.  abs, sgn and phase go through
   square roots or arctangents in floating point. *)
Definition eval_unary_scalar (c : conf) (o : uop) (v : value) : res value :=
  match v with
  | VCplx a b =>
    match o with
    | UPlus => Ok v
    | UNeg => let! r := eval_unary_real UNeg a in let! i := eval_unary_real UNeg b in
              let! p := new_cplx r i in Ok (shrink_cplx (fst p) (snd p))
    | UInv => if isZero a && isZero b then Err
              else
                let! x := eval_real c BMul a a in let! y := eval_real c BMul b b in
                let! den := eval_real c BAdd x y in
                let! r := eval_real c BQuo a den in
                let! i0 := eval_real c BQuo b den in let! i := eval_unary_real UNeg i0 in
                let! p := new_cplx r i in Ok (shrink_cplx (fst p) (snd p))
    | ULNot => Ok (if isZero v then vone else vzero)
    | UReal => Ok a
    | UImag => Ok b
    | UConj => let! i := eval_unary_real UNeg b in let! p := new_cplx a i in Ok (shrink_cplx (fst p) (snd p))
    | UJ => let! r := eval_unary_real UNeg b in let! p := new_cplx r a in Ok (shrink_cplx (fst p) (snd p))
    | UAbs | USgn => Unmod
    | UFloor | UCeil => Unmod
    | UBang | UNot => Err
    end
  | _ => eval_unary_real o v
  end.

(* What is said about )save: which values its text reads back to. *)
From Coq Require Import String.
From Verif Require Import Value NumModel NumSpec ArrModel ArrSpec Syntax ExecModel ScanModel TextModel TextSpec StrModel StrSpec ReadModel.
From Verif Require ParseModel.
Open Scope string_scope.
Open Scope list_scope.
Open Scope Z_scope.

Definition is_string (v : value) : Prop := exists t, v = VVec (map VChar t).
(* A character; a number in canonical form; a vector that does not have exactly one element,
   and none of whose elements is a string; a matrix with the data of such a vector, or of a
   single character or number. *)
Fixpoint saveable (v : value) : Prop :=
  match v with
  | VChar r => code_point r
  | VVec l => length l <> 1%nat /\ fold_right (fun x P => (saveable x /\ ~ is_string x) /\ P) True l
  | VMat s d => (2 <= length s)%nat /\ fits s /\ length d = vol s /\ (length d = 1%nat -> Forall scalar d) /\
                fold_right (fun x P => (saveable x /\ ~ is_string x) /\ P) True d
  | _ => canonical_num v
  end.
(* rho is the built-in operator *)
Definition rho_built_in (bb : string -> bool) (E : env) (st : ctx) : Prop :=
  bb "rho" = true /\ find (binary st) "rho" = None /\
  exists f, find (b_binary (ops E)) "rho" = Some f /\
    forall a b, f a b = Done (match op_rho (val a) (val b) with Ok v => Ok (loud v) | Err => Err | Crash => Crash | Unmod => Unmod end).
(* A name that is that of no operator, and no number in the base. *)
Definition variable_name (c : sctx) (w : text) : Prop :=
  w <> [] /\ Forall (fun r => is_alnum c r = true) w /\ is_digit (hd 0 w) = false /\ w <> zs "op" /\ w <> zs "opdelete" /\
  Forall code_point w /\ defined c w = false /\ user_unary c w = false /\ all_digits w (ibase c) false = false.

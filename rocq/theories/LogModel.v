(* Model of the exact part of A log B: value/log.go:29-105.  Executable; no proofs. *)
From Verif Require Import Value.
Open Scope Z_scope.

(* log.go:63-81 uint64Log.  The arguments are in 0 .. 2**64-1; b*b wraps as in uint64.
   i <<= 1 and i |= 1 on i whose low bit is clear: 2*i, i+1.  fuel stands for the depth of
   the recursion: None is reached only when it runs out. *)
Fixpoint uint64_log (fuel : nat) (b v : Z) : option (Z * Z) :=
  if (b <=? 1) || (v <? b) || negb (v mod b =? 0) then Some (0, v)
  else match fuel with
       | O => None
       | S f =>
         match (if b mod 2 ^ 32 =? b then
                  match uint64_log f ((b * b) mod 2 ^ 64) v with Some (i, v') => Some (2 * i, v') | None => None end
                else Some (0, v)) with
         | Some (i, v') => Some (if b <=? v' then (Z.lor i 1, v' / b) else (i, v'))
         | None => None
         end
       end.
(* log.go:50-59 intLog, on the values of two Ints *)
Definition int_log (fuel : nat) (b v : Z) : option (Z * Z) :=
  if (b <=? 1) || (v <? 0) then Some (0, v) else uint64_log fuel b v.

(* big.Int.BitLen *)
Definition bit_len (n : Z) : Z := if n =? 0 then 0 else Z.log2 (Z.abs n) + 1.
(* log.go:87-105 bigIntLog.  big.Int.Mod and Div are Euclidean; b > 1 here, so they are
   Z.modulo and Z.div *)
Fixpoint big_int_log (fuel : nat) (b v : Z) : option (Z * Z) :=
  if (b <=? 1) || (v <? b) then Some (0, v)
  else if negb (v mod b =? 0) then Some (0, v)
  else match fuel with
       | O => None
       | S f =>
         match (if 2 * bit_len b - 1 <=? bit_len v then
                  match big_int_log f (b * b) v with Some (i, v') => Some (2 * i, v') | None => None end
                else Some (0, v)) with
         | Some (i, v') => Some (if b <=? v' then (Z.lor i 1, v' / b) else (i, v'))
         | None => None
         end
       end.
(* log.go:29-48 logBaseU for two exact integers, after promotion to a common type: both Int
   (int) or both BigInt.  Exact i is returned as such; otherwise the quotient of the
   logarithms of r and of the base, plus i, computed in floating point: Approx i r. *)
Inductive log_result := Exact (i : Z) | Approx (i r : Z).
Definition log_base_u (fuel : nat) (int : bool) (b v : Z) : option log_result :=
  match (if int then int_log fuel b v else big_int_log fuel b v) with
  | Some (i, r) => Some (if r =? 1 then Exact i else Approx i r)
  | None => None
  end.

(* Model of value/fac.go: factorial by the swinging-factorial algorithm. *)
From Coq Require Import ZArith List Bool Arith.
Import ListNotations.

(* The array marked []bool of primeGen. *)
Fixpoint set_true (l : list bool) (k : nat) : list bool :=
  match l, k with
  | [], _ => []
  | _ :: l', O => true :: l'
  | b :: l', S k' => b :: set_true l' k'
  end.

(* fac.go:20-22  for j := i; j <= n; j += i { marked[j] = true }.
   Fuel n+1 suffices because i >= 2. *)
Fixpoint mark_multiples (fuel n i j : nat) (marked : list bool) : list bool :=
  match fuel with
  | O => marked
  | S fuel' => if j <=? n then mark_multiples fuel' n i (j + i) (set_true marked j) else marked
  end.

(* fac.go:13-28  primeGen, all the values its closure returns until 0.  After
   returning i the closure looks at i again, finds it marked and goes on to
   i+1; the model goes there directly. *)
Fixpoint prime_loop (fuel n i : nat) (marked : list bool) : list nat :=
  match fuel with
  | O => []
  | S fuel' =>
    if i <=? n then
      if nth i marked false then prime_loop fuel' n (i + 1) marked
      else i :: prime_loop fuel' n (i + 1) (mark_multiples (n + 1) n i i marked)
    else []
  end.
Definition prime_gen (n : nat) : list nat := prime_loop n n 2 (repeat false (n + 1)).

(* fac.go:44-51  the loop on q for one prime *)
Fixpoint swing_factor (fuel q p prime : nat) : nat :=
  match fuel with
  | O => p
  | S fuel' =>
    if q =? 0 then p
    else let q := q / prime in swing_factor fuel' q (if Nat.odd q then p * prime else p) prime
  end.

(* fac.go:66-78  product1, splitting the list in two.  Fuel: the length. *)
Fixpoint product1 (fuel : nat) (f : list nat) : Z :=
  match fuel with
  | O => 1%Z
  | S fuel' =>
    match f with
    | [] => 1%Z
    | [x] => Z.of_nat x
    | _ => let n := length f / 2 in (product1 fuel' (firstn n f) * product1 fuel' (skipn n f))%Z
    end
  end.
(* fac.go:84-97 *)
Definition product (f : list nat) : Z :=
  match f with
  | [] => 1%Z
  | [x] => Z.of_nat x
  | _ => let n := length f / 2 in (product1 (length f) (firstn n f) * product1 (length f) (skipn n f))%Z
  end.

(* fac.go:36-60 *)
Definition swing (n : nat) : Z :=
  product (filter (fun p => 1 <? p) (map (fun prime => swing_factor (n + 1) n 1 prime) (prime_gen n))).

(* fac.go:101-115 for n >= 0.  Fuel n+1. *)
Fixpoint fact_swing (fuel n : nat) : Z :=
  match fuel with
  | O => 0%Z
  | S fuel' => if n <? 2 then 1%Z else let f2 := fact_swing fuel' (n / 2) in (f2 * f2 * swing n)%Z
  end.

(* What is said of binary text. *)
From Coq Require Import QArith Qabs.
From Verif Require Import Value ScanModel TextModel TextSpec FloatModel NumModel MixModel MixSpec FmtModel.
Open Scope list_scope.
Open Scope Z_scope.

(* A format: literal text without %, a directive - flags, width, precision, verb - and more literal text. *)
Definition flag (r : Z) : Prop := r = 45 \/ r = 43 \/ r = 48.
(* Literal text in a format: each % is doubled. *)
Definition doubled (t : text) : text := flat_map (fun r => if r =? 37 then [37; 37] else [r]) t.
(* The verbs b c d e E f F g G o O q s t T U v x X of package fmt, and what can come before them: + - # space . 0 ... 9 *)
Definition verbs : list Z := [98; 99; 100; 101; 69; 102; 70; 103; 71; 111; 79; 113; 115; 116; 84; 85; 118; 120; 88].
Definition modifiers : list Z := [43; 45; 35; 32; 46; 48; 49; 50; 51; 52; 53; 54; 55; 56; 57].
Definition plain_format (s lit fl wd pd : text) (v : Z) (post : text) : Prop :=
  s = lit ++ [37] ++ fl ++ wd ++ pd ++ [v] ++ doubled post /\
  ~ In 37 lit /\ Forall flag fl /\ digits wd /\ hd 49 wd <> 48 /\
  (pd = [] \/ exists n, pd = 46 :: n /\ digits n) /\ In v verbs.
(* n decimals: a whole part, and if n is not 0 a point and n digits; y is their value *)
Definition fixed (n : Z) (t : text) (y : Q) : Prop :=
  exists i f, t = i ++ (if 0 <? n then 46 :: f else []) /\ i <> [] /\ digits i /\ digits f /\ Z.of_nat (length f) = n /\
    (y == inject_Z (whole i 0) + fraction f)%Q.
(* t in a field of w characters: on the right of it, or on the left if w is negative *)
Definition in_field (w : Z) (t r : text) : Prop :=
  exists k, (if w <? 0 then r = t ++ repeat 32 k else r = repeat 32 k ++ t) /\
    Z.of_nat (length r) = Z.max (Z.abs w) (Z.of_nat (length t)).
Definition minus_sign (x : Q) (s : text) : Prop := ((x < 0)%Q /\ s = [45]) \/ ((0 <= x)%Q /\ s = []).
(* The elements of an array of texts: spaces between the elements of a row, one newline between rows, one more
   between planes, and so on. *)
Fixpoint joined (sep : text) (l : list text) : text := match l with [] => [] | [x] => x | x :: l' => x ++ sep ++ joined sep l' end.
Definition separator (k : nat) : text := match k with O => [32] | _ => repeat 10 k end.
Fixpoint chunks (n : nat) (k : nat) (l : list text) : list (list text) := match n with O => [] | S n' => firstn k l :: chunks n' k (skipn k l) end.
Fixpoint size (shape : list nat) : nat := match shape with [] => 1%nat | n :: s => (n * size s)%nat end.
Fixpoint arranged (shape : list nat) (l : list text) : text :=
  match shape with
  | [] => concat l
  | n :: s => joined (separator (length s)) (map (arranged s) (chunks n (size s) l))
  end.

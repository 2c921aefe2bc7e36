(* What is said about times. *)
From Coq Require Import QArith.
From Verif Require Import Value TimeModel.
Open Scope list_scope.
Open Scope Z_scope.

(* ---- the Gregorian calendar, day by day ---- *)
Definition leap_year (y : Z) : Prop := (4 | y) /\ (~ (100 | y) \/ (400 | y)).
Inductive month_days (y : Z) : Z -> Z -> Prop :=
| md31 m : In m [1; 3; 5; 7; 8; 10; 12] -> month_days y m 31
| md30 m : In m [4; 6; 9; 11] -> month_days y m 30
| md29 : leap_year y -> month_days y 2 29
| md28 : ~ leap_year y -> month_days y 2 28.
(* The day after y-m-d. *)
Inductive next_day : Z * Z * Z -> Z * Z * Z -> Prop :=
| next_in_month y m d n : month_days y m n -> 1 <= d < n -> next_day (y, m, d) (y, m, d + 1)
| next_month y m n : month_days y m n -> m < 12 -> next_day (y, m, n) (y, m + 1, 1)
| next_year y : next_day (y, 12, 31) (y + 1, 1, 1).
Definition date (y m d : Z) : Prop := exists n, month_days y m n /\ 1 <= d <= n.
(* The day n days after January 1, 1970; before it for n < 0. *)
Inductive day_number : Z -> Z * Z * Z -> Prop :=
| day_epoch : day_number 0 (1970, 1, 1)
| day_after n a b : day_number n a -> next_day a b -> day_number (n + 1) b
| day_before n a b : day_number n b -> next_day a b -> day_number (n - 1) a.
(* On a clock that is off seconds ahead of UTC, y-m-d h:mi:s is t seconds after the beginning of 1970 UTC. *)
Definition clock (t off y m d h mi s : Z) : Prop :=
  0 <= h < 24 /\ 0 <= mi < 60 /\ 0 <= s < 60 /\
  exists n, day_number n (y, m, d) /\ t + off = n * 86400 + h * 3600 + mi * 60 + s.
(* The offset of the configured zone at the time t can be told from the machine's own, or is the one that the
   zone had when )timezone was given.  (The bounds: three years.) *)
Definition zone_ok (c : tconf) (t : Z) : Prop := Z.abs (zone c t) <= 10 ^ 8 /\ Z.abs (location c) <= 10 ^ 8 /\ (zone c t <> machine c \/ zone c t = location c).
(* The left operands of encode and decode that mean times. *)
Definition time_operand (u : list Z) : Prop := exists r u', u = r :: u' /\ (r = 116 \/ r = 84).
(* Whole numbers of seconds. *)
Definition whole (v : tnum) (s : Z) : Prop := v = TInt s \/ v = TBig s \/ exists p q, 53 <= p /\ v = TFloat p q /\ (q == inject_Z s)%Q.

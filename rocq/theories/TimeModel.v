(* Times: 'T' encode and 'T' decode, value/sys.go:180-304 with config.go:415-479 and the packages
   time and math/big under them.  Executable; no proofs. *)
From Coq Require Import QArith.
From Verif Require Import Value FloatModel.
Open Scope list_scope.
Open Scope Z_scope.

(* ---- the calendar of package time: Gregorian, extended to all years; days are counted from
   January 1, 1970 ---- *)
Definition leap (y : Z) : bool := (y mod 4 =? 0) && (negb (y mod 100 =? 0) || (y mod 400 =? 0)).
(* the days before January 1 of the year k + 1, counted from January 1 of the year 1 *)
Definition year_start (k : Z) : Z := 365 * k + k / 4 - k / 100 + k / 400.
Definition epoch_days : Z := 719162.
(* the days of the year before the first of month m *)
Definition month_start (l : bool) (m : Z) : Z :=
  let f := if l then 1 else 0 in
  match m with
  | 1 => 0 | 2 => 31 | 3 => 59 + f | 4 => 90 + f | 5 => 120 + f | 6 => 151 + f
  | 7 => 181 + f | 8 => 212 + f | 9 => 243 + f | 10 => 273 + f | 11 => 304 + f | _ => 334 + f
  end.
Definition month_of (l : bool) (d : Z) : Z :=
  if d <? month_start l 2 then 1 else if d <? month_start l 3 then 2 else if d <? month_start l 4 then 3
  else if d <? month_start l 5 then 4 else if d <? month_start l 6 then 5 else if d <? month_start l 7 then 6
  else if d <? month_start l 8 then 7 else if d <? month_start l 9 then 8 else if d <? month_start l 10 then 9
  else if d <? month_start l 11 then 10 else if d <? month_start l 12 then 11 else 12.
Definition year_of (n : Z) : Z :=
  let k := 400 * n / 146097 in
  if n <? year_start k then k - 1 else if year_start (k + 1) <=? n then k + 1 else k.
(* Time.Date: year, month, day *)
Definition civil (days : Z) : Z * Z * Z :=
  let n := days + epoch_days in
  let k := year_of n in
  let d := n - year_start k in
  let l := leap (k + 1) in
  let m := month_of l d in
  (k + 1, m, d - month_start l m + 1).
(* sys.go:274 time.Date: "The month, day, hour, min, sec values may be outside their usual ranges and will be
   normalized"; the seconds since 1970 in UTC, in a zone that is offset seconds east.
   The int64 arithmetic does not overflow: encode_time and decode_time below are restricted to numbers
   for which it does not. *)
Definition days_of (y m d : Z) : Z :=
  let y' := y + (m - 1) / 12 in
  let m' := (m - 1) mod 12 + 1 in
  year_start (y' - 1) + month_start (leap y') m' + (d - 1) - epoch_days.
Definition unix_of (y m d h mi s offset : Z) : Z := days_of y m d * 86400 + h * 3600 + mi * 60 + s - offset.

(* ---- the configuration ---- *)
(* After )timezone z: the offset of z at each time (time.LoadLocation); the time when the command was
   given, since SetLocation keeps the offset of that time only (config.go:421-431, 475-476); the offset
   of the machine's own zone now. *)
Record tconf := mkTconf { zone : Z -> Z; set_at : Z; machine : Z }.
Definition location (c : tconf) : Z := zone c (set_at c).

(* ---- floats ---- *)
Definition trunc (q : Q) : Z := Z.quot (Qnum q) (Zpos (Qden q)).
(* sys.go:284-293 secNsec on the float q of p bits: seconds, nanoseconds, and what q becomes, since
   the operations are done in its place *)
Definition frac_ns (p : Z) (q : Q) : Q := rnd p (rnd p (rnd p (q - inject_Z (trunc q)) * inject_Z 1000000000) + (1 # 2)).
Definition sec_nsec (p : Z) (q : Q) : Z * Z * Q := (trunc q, trunc (frac_ns p q), frac_ns p q).
(* The seconds are below 2 ** 53 wherever this is used, so the float of 53 bits that SetInt puts them in
   (sys.go:288) has them exactly. *)
(* time.Unix: seconds and nanoseconds, the latter from 0 to 999999999 *)
Definition unix_time (s ns : Z) : Z * Z := (s + ns / 1000000000, ns mod 1000000000).

(* The elements of a time vector.  A float has its precision. *)
Inductive tnum := TInt (z : Z) | TBig (z : Z) | TRat (q : Q) | TFloat (p : Z) (q : Q) | TOther.
(* sys.go:191-203 timeVec of the time t, nanosecond ns, in a zone with the given offset *)
Definition time_vec (t ns offset : Z) : list tnum :=
  let l := t + offset in
  match civil (l / 86400) with
  | (y, m, d) =>
    let s := l mod 86400 in
    [TInt y; TInt m; TInt d; TInt (s / 3600); TInt (s mod 3600 / 60);
     TFloat 53 (rnd 53 (inject_Z (s mod 60) + rnd 53 (ns # 1000000000))); TInt offset]
  end.
(* sys.go:295-304 timeFromValue and 180-189 encodeTime, of the float q of p bits *)
Definition encode_time (c : tconf) (p : Z) (q : Q) : res (list tnum) :=
  match sec_nsec p q with
  | (s, ns, _) => if Z.abs s <? 2 ^ 53
                  then let (t, n) := unix_time s ns in Ok (time_vec t n (zone c t))
                  else Unmod
  end.
(* sys.go:215-225 toInt; int has 64 bits *)
Definition int64 (z : Z) : bool := (- 2 ^ 63 <=? z) && (z <? 2 ^ 63).
Definition to_int (v : tnum) : res Z := match v with TInt z => Ok z | TBig z => if int64 z then Ok z else Err | _ => Err end.
(* sys.go:239-255: the seconds, the nanoseconds, and the element afterwards: a BigRat is copied into
   a new float, a BigFloat is not *)
Definition seconds (v : tnum) : res (Z * Z * tnum) :=
  match v with
  | TInt z => Ok (z, 0, v)
  | TBig z => if int64 z then Ok (z, 0, v) else Err
  | TRat q => let p := Z.max 64 (Z.max (Z.log2 (Z.abs (Qnum q)) + 1) (Z.log2 (Zpos (Qden q)) + 1)) in
              match sec_nsec p (rnd p q) with (s, ns, _) => Ok (s, ns, v) end
  | TFloat p q => match sec_nsec p q with (s, ns, q') => Ok (s, ns, TFloat p q') end
  | TOther => Err
  end.
(* sys.go:276-281: the number of seconds as a float of 64 bits *)
Definition result (t ns : Z) : Q :=
  let s := rnd 64 (inject_Z (t * 1000)) in
  let s := rnd 64 (s * inject_Z 1000000) in
  let s := rnd 64 (s + inject_Z ns) in
  rnd 64 (s / inject_Z 1000000000).
Definition opt_int (l : list tnum) (k : nat) (default : Z) : res Z := match nth_error l k with Some v => to_int v | None => Ok default end.
(* Years up to this number can be counted in milliseconds in an int64; so can the other fields. *)
Definition small (z : Z) : bool := Z.abs z <=? 100000000.
(* sys.go:205-282 decodeTime: the result, and the operand afterwards *)
Definition decode_time (c : tconf) (v : list tnum) : res (Q * list tnum) :=
  if (length v =? 0)%nat || (7 <? length v)%nat then Err
  else
    let! loc := match nth_error v 6 with
                | Some o => let! off := to_int o in Ok (if off =? machine c then location c else off)
                | None => Ok (location c)
                end in
    let! p := match nth_error v 5 with
              | Some s => let! x := seconds s in Ok (fst x, firstn 5 v ++ snd x :: skipn 6 v)
              | None => Ok ((0, 0), v)
              end in
    let! mi := opt_int v 4 0 in
    let! h := opt_int v 3 0 in
    let! d := opt_int v 2 1 in
    let! m := opt_int v 1 1 in
    let! y := opt_int v 0 0 in
    if negb (forallb small [y; m; d; h; mi; fst (fst p); loc]) then Unmod else
    Ok (result (unix_of y m d h mi (fst (fst p)) loc) (snd (fst p)), snd p).

(* ---- the operators with a left operand of characters, value/binary.go:958-966 and 1045-1049 ---- *)
(* 't' or 'T': sys.go:183-186, 207-210 *)
Definition is_t (r : Z) : bool := (r =? 116) || (r =? 84).
(* toType to a float: int.go:163-164, bigint.go:158-160, bigrat.go:188-190, bigfloat.go:153-154; anything
   else is an error.  The float has the configured precision, or its own. *)
Definition to_float (prec : Z) (v : tnum) : res (Z * Q) :=
  match v with
  | TInt z | TBig z => Ok (prec, rnd prec (inject_Z z))
  | TRat q => Ok (prec, rnd prec q)
  | TFloat p q => Ok (p, q)
  | TOther => Err
  end.
(* u encode v, for a vector u of characters: AllChars is true of the empty vector also *)
Definition encode_op (c : tconf) (prec : Z) (u : list Z) (v : list tnum) : res (list tnum) :=
  match u with
  | [] => Crash
  | r :: _ => if is_t r then match v with
                             | [] => Crash
                             | x :: _ => let! pq := to_float prec x in encode_time c (fst pq) (snd pq)
                             end
              else Err
  end.
(* u decode v, for a vector u of characters: the result and v afterwards *)
Definition decode_op (c : tconf) (u : list Z) (v : list tnum) : res (Q * list tnum) :=
  match u, v with
  | [], _ | _, [] => Ok (0%Q, v)
  | r :: _, _ => if is_t r then decode_time c v else Err
  end.

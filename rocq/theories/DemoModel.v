(* The demonstration: demo/demo.go, the pipe to its interpreter and the command )demo (parse/special.go:205-218,
   456-486), and bufio.Scanner by its documentation.  Texts are lists of bytes.  Executable, but for the schedules of
   the pipe, which are a relation; no proofs. *)
From Verif Require Import Value ScanModel TextModel.
Open Scope list_scope.
Open Scope Z_scope.

(* demo.go:39-46 nextLine: the next line with its newline, and the text after it; none if there is no newline *)
Fixpoint next_line (t : text) : option (text * text) :=
  match t with
  | [] => None
  | r :: t' => if r =? nl then Some ([r], t') else match next_line t' with Some (l, k) => Some (r :: l, k) | None => None end
  end.
(* bufio.ScanLines: the line before the first newline, or at the end of the input; a CR at its end is dropped *)
Fixpoint cut_line (t : text) : text * text :=
  match t with [] => ([], []) | r :: t' => if r =? nl then ([], t') else let (l, k) := cut_line t' in (r :: l, k) end.
Definition drop_cr (l : text) : text := match rev l with 13 :: l' => rev l' | _ => l end.
(* bufio.Scanner.Scan until it returns false: the lines, and whether it ended by a line of 65536 bytes or more *)
Fixpoint scan_lines (fuel : nat) (t : text) : list text * bool :=
  match fuel, t with
  | O, _ | _, [] => ([], false)
  | S f, _ => let (l, k) := cut_line t in
              if 65536 <=? Z.of_nat (length l) then ([], true)
              else let (ls, e) := scan_lines f k in (drop_cr l :: ls, e)
  end.
(* unicode.IsSpace for single bytes; bytes.TrimSpace.  The spaces of more than one byte are left out. *)
Definition is_space (r : Z) : bool := ((9 <=? r) && (r <=? 13)) || (r =? 32).
Fixpoint trim_left (t : text) : text := match t with r :: t' => if is_space r then trim_left t' else t | [] => [] end.
Definition trim_space (t : text) : text := rev (trim_left (rev (trim_left t))).
Definition quits (l : text) : bool := teq (trim_space (l ++ [nl])) [113; 117; 105; 116].

(* What a demonstration does, in order: it shows a text, or writes one to the interpreter *)
Inductive event := Show (t : text) | Send (t : text).
(* demo.go:50-70 the loop, with the user's lines *)
Fixpoint with_user (script : text) (lines : list text) : list event * bool :=
  match lines with
  | [] => ([], true)
  | l :: lines' =>
    match l with
    | [] => match next_line script with
            | None => ([], false)
            | Some (s, script') => let (es, e) := with_user script' lines' in (Show s :: Send s :: es, e)
            end
    | _ => if quits l then ([], false) else let (es, e) := with_user script lines' in (Send (l ++ [nl]) :: es, e)
    end
  end.
(* demo.go:50-70 the loop without a user: k bounds the number of lines *)
Fixpoint alone (k : nat) (script : text) : list event :=
  match k with
  | O => []
  | S k' => match next_line script with None => [] | Some (s, script') => Show s :: Send s :: alone k' script' end
  end.
(* demo.go:33-77 Run: what it does and whether it returns an error; the flag of with_user says if the loop ended by Scan *)
Definition run_demo (script : text) (user : option text) : list event * bool :=
  let (first, script1) := match next_line script with Some (l, k) => ([Show l], k) | None => ([], script) end in
  match user with
  | None => (first ++ alone (length script1) script1, false)
  | Some t => let (ls, long) := scan_lines (length t) t in
              let (es, at_end) := with_user script1 ls in
              (first ++ es, long && at_end)
  end.
Definition sent (es : list event) : list text := flat_map (fun e => match e with Send t => [t] | _ => [] end) es.
Definition shown (es : list event) : list text := flat_map (fun e => match e with Show t => [t] | _ => [] end) es.

(* ---- special.go:456-486: the bytes go through a channel that holds 1000 of them ---- *)
(* to_write: what the writer has still to send, byte by byte; reading: the bytes that the call of Read under way has
   got, and the size of its buffer; reads: what the calls of Read before it returned *)
Record pipe := mkPipe { to_write : text; channel : text; reading : text; room : Z; reads : list text }.
Definition capacity : Z := 1000.
(* One step of any schedule: Write sends a byte if there is room in the channel; Read receives one if there is one, and
   returns after a newline or when its buffer is full; the next call has a buffer of any size. *)
Inductive moves : pipe -> pipe -> Prop :=
| step_send : forall c w ch b r l, Z.of_nat (length ch) < capacity -> moves (mkPipe (c :: w) ch b r l) (mkPipe w (ch ++ [c]) b r l)
| step_return : forall w c ch b r l r', c = nl \/ Z.of_nat (length b) + 1 = r -> 1 <= r' -> moves (mkPipe w (c :: ch) b r l) (mkPipe w ch [] r' (l ++ [b ++ [c]]))
| step_more : forall w c ch b r l, c <> nl -> Z.of_nat (length b) + 1 <> r -> moves (mkPipe w (c :: ch) b r l) (mkPipe w ch (b ++ [c]) r l).
Inductive runs : pipe -> pipe -> Prop :=
| runs_none : forall p, runs p p
| runs_step : forall p q r, runs p q -> moves q r -> runs p r.

(* ---- special.go:381, 393-398 and 421-425: the depth of runs that are under way ---- *)
(* )demo starts a goroutine that reads the pipe.  It never ends, as nothing closes the pipe, so the two levels it counts
   are never given back.  The errors come before the recovering functions are in place: the first ends the process, the
   second is recovered by runFromReader, after which nobody reads the pipe. *)
Inductive demo_state := Started | NoReader | ProcessDies.
Definition start_demo (depth : Z) : Z * demo_state :=
  if 10 <? depth + 1 then (depth + 1, ProcessDies)
  else if 10 <? depth + 2 then (depth + 2 - 1, NoReader)
  else (depth + 2, Started).
Fixpoint demos (n : nat) (depth : Z) : Z * list demo_state :=
  match n with O => (depth, []) | S n' => let (d, r) := start_demo depth in let (d', rs) := demos n' d in (d', r :: rs) end.

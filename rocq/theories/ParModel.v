(* Model of value/eval.go:191-238: pfor, the conditionally parallel loop, as an
   interleaving of its goroutines over the cells of the result being built.  The
   editor's Set and At (value/vector.go:47-88) are atomic writes and reads of one cell:
   the persistent slice underneath is the subject of PersistConcModel.v.
   Executable; no proofs. *)
From Coq Require Import String.
From Verif Require Import Value EvalModel.
Open Scope string_scope.
Open Scope list_scope.
Open Scope nat_scope.

(* The cells of the result; None where nothing has been written. *)
Definition mem := nat -> option value.
Definition mset (m : mem) (k : nat) (x : value) : mem := fun j => if j =? k then Some x else m j.
(* One atomic step of a loop body: compute, perhaps from cells, a cell and its value;
   or panic. *)
Definition action := mem -> res (nat * value).

(* eval.go:202-224: the ranges [lo, hi) handed to f.  procs is GOMAXPROCS, work is
   pforMinWork (191). *)
Definition plan (ok : bool) (procs work size n : nat) : list (nat * nat) :=
  if negb ok || (procs =? 1) || (n <=? 1) || (n * size <? work * 2) then [(0, n)]
  else let p := Nat.min (procs * 4) (n * size / work) in
       map (fun i => (i * n / p, (i + 1) * n / p)) (seq 0 p).

(* eval.go:169-180 safeBinary, safeUnary: builtin is the table of built-in operators,
   which a user's definition of an operator of the same name does not change. *)
Definition safe (builtin : list string) (op : string) : bool :=
  existsb (String.eqb op) builtin && negb (String.eqb op "?").

(* A goroutine: what is left of f(lo, hi), and the panic it ended with, if any. *)
Inductive panic := PErr | PCrash | PUnmod.
Record thread := mkThread { todo : list action; failed : option panic }.
(* "for k := lo; k < hi; k++ { body k }" *)
Definition each_k (body : nat -> list action) (r : nat * nat) : list action :=
  flat_map body (seq (fst r) (snd r - fst r)).
(* eval.go:219-224: one goroutine for each range; f maps a range to the steps it takes. *)
Definition spawn (f : nat * nat -> list action) (rs : list (nat * nat)) : list thread :=
  map (fun r => mkThread (f r) None) rs.

Definition thread_step (m : mem) (t : thread) : mem * thread :=
  match todo t with
  | [] => (m, t)
  | a :: rest =>
    match a m with
    | Ok (k, x) => (mset m k x, mkThread rest (failed t))
    | Err => (m, mkThread [] (Some PErr))
    | Crash => (m, mkThread [] (Some PCrash))
    | Unmod => (m, mkThread [] (Some PUnmod))
    end
  end.
Fixpoint set_nth {A} (l : list A) (i : nat) (x : A) : list A :=
  match l, i with
  | [], _ => []
  | _ :: l', O => x :: l'
  | y :: l', S i' => y :: set_nth l' i' x
  end.
(* The scheduler lets goroutine i take one step. *)
Definition step (st : mem * list thread) (i : nat) : mem * list thread :=
  match nth_error (snd st) i with
  | Some t => let r := thread_step (fst st) t in (fst r, set_nth (snd st) i (snd r))
  | None => st
  end.
Definition run (st : mem * list thread) (schedule : list nat) : mem * list thread := fold_left step schedule st.
Definition finished (st : mem * list thread) : Prop := Forall (fun t => todo t = []) (snd st).

(* eval.go:225-234: all p goroutines have sent; the last panic received, whichever it
   is, is raised again. *)
Definition raise {A} (p : panic) : res A := match p with PErr => Err | PCrash => Crash | PUnmod => Unmod end.
Inductive outcome (st : mem * list thread) : res mem -> Prop :=
| all_well : Forall (fun t => failed t = None) (snd st) -> outcome st (Ok (fst st))
| some_panic : forall t p, In t (snd st) -> failed t = Some p -> outcome st (raise p).

(* One range after the other in one goroutine: f(0, n). *)
Fixpoint in_order (l : list action) (m : mem) : res mem :=
  match l with
  | [] => Ok m
  | a :: l' => match a m with
               | Ok (k, x) => in_order l' (mset m k x)
               | Err => Err | Crash => Crash | Unmod => Unmod
               end
  end.

(* ---- loop bodies ---- *)
Definition nothing : mem := fun _ => None.
(* The commonest body, "editor.Set(k, f(k))" (eval.go:269-288, 302, 314, 652-756;
   binary.go:1008, 1155, 1183; vector.go:605; matrix.go:463, 491, 578). *)
Definition set_cell (f : nat -> res value) (k : nat) : list action := [fun _ => let! x := f k in Ok (k, x)].

(* "for each k < n { editor.Set(i*n+k, f(i, k)) }": rotations (matrix.go:453-502). *)
Definition set_row (n : nat) (f : nat -> nat -> res value) (i : nat) : list action :=
  map (fun k (_ : mem) => let! x := f i k in Ok (i * n + k, x)) (seq 0 n).

(* eval.go:443-459: one row of Scan.  The fast path reads the cell it wrote last. *)
Definition scan_body (ev : value -> value -> res value) (assoc : bool) (d : list value) (stride i : nat) : list action :=
  let index := i * stride in
  (fun _ => let! x := at_ d index in Ok (index, x)) ::
  map (fun j m =>
         if assoc then
           match m (index + j - 1) with
           | Some a => let! x := at_ d (index + j) in let! r := ev a x in Ok (index + j, r)
           | None => Crash
           end
         else let! r := vec_reduce ev (slice d index (index + j + 1)) in Ok (index + j, r))
      (seq 1 (stride - 1)).

(* matrix.go:508-523: the elements lo .. hi-1 of a two-dimensional transposition; nx
   and ny start at the place of lo and step along. *)
Fixpoint transp_steps (xs : list value) (xdim ydim nx ny : nat) : list action :=
  match xs with
  | [] => []
  | v :: xs' => (fun _ => Ok (ny * xdim + nx, v)) ::
      (if ydim <=? S ny then transp_steps xs' xdim ydim (S nx) 0 else transp_steps xs' xdim ydim nx (S ny))
  end.
Definition transp_range (d : list value) (xdim ydim : nat) (r : nat * nat) : list action :=
  transp_steps (slice d (fst r) (snd r)) xdim ydim (fst r / ydim) (fst r mod ydim).

(* The body of the same loop when the user has defined "op a + b = (g = g + 1)": the
   global g is the cell n, shared by the iterations.  One step reads and assigns g, the
   next reads it for the result. *)
Definition counting_body (n k : nat) : list action :=
  [fun m => match m n with Some (VInt z) => Ok (n, VInt (z + 1)) | _ => Err end;
   fun m => match m n with Some v => Ok (k, v) | None => Err end].

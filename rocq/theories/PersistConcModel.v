(* Model of concurrent calls of Set on a TransientSlice (value/persist/slice.go)
   as a transition system.  Each goroutine runs one call Set(i, x) on the same
   editor; a step of a goroutine is one access to memory other goroutines can
   reach.  No proofs in this file.

   Steps interleave under sequential consistency.  Go gives that guarantee to
   programs without data races (The Go Memory Model); that these steps have no
   data race is itself a theorem (P_Conc.v, no_data_race).

   A node or array that has been allocated but not yet published by a successful
   compare-and-swap (or by setTail) is reachable by its goroutine alone; here it
   is part of the goroutine's local state, and gets its address when published. *)
From stdpp Require Import gmap list.
From Verif Require Import PersistModel.

(* CompareAndSwap compares interface values: the same dynamic type and pointer. *)
Global Instance ptr_eq_dec : EqDecision ptr.
Proof. solve_decision. Defined.

Section Conc.
Context {T : Type} (zero : T).

(* Where a goroutine is inside Set.  [l] is the level of the node wanted
   (0 is a leaf), [p] the atomic.Value holding it, [pl] what p.Load() returned. *)
Inductive pc :=
| Start                                             (* 374: entry of Set *)
| Load (l : nat) (p : loc)                          (* 268, 294: pl := p.Load() *)
| IdLoad (l : nat) (p : loc) (pl : ptr)             (* 98: t.aid.Load() *)
| IdAdd (l : nat) (p : loc) (pl : ptr)              (* 100: transientID.Add(1) *)
| IdCas (l : nat) (p : loc) (pl : ptr) (c : nat)    (* 101: t.aid.CompareAndSwap(0, c) *)
| Check (l : nat) (p : loc) (pl : ptr) (tid : nat)  (* 271, 297: l.id != tid *)
| CopyL (p : loc) (pl : ptr) (tid a : nat) (acc : list T)     (* 276: the copy of l into l1 *)
| CopyN (l : nat) (p : loc) (pl : ptr) (tid a : nat) (acc : list ptr)  (* 303-305 *)
| Cas (l : nat) (p : loc) (pl : ptr) (n : node (T:=T))        (* 279, 309 *)
| WriteLeaf (a : nat)                               (* 391: .val[i&chunkMask] = x *)
| TLoad                                             (* 400: t.wtail.Load() *)
| TLock                                             (* 403: t.tailMu.Lock() *)
| TLoad2                                            (* 405: t.wtail.Load() *)
| TMake                                             (* 409: make([]T, len(t.s.tail), chunk) *)
| TCopy (src : option nat) (n : nat) (acc : list T) (* 410: copy(tail, t.s.tail) *)
| TSet (n : nat) (acc : list T)                     (* 411, 415-420: setTail *)
| TStore                                            (* 412: t.wtail.Store(true) *)
| TUnlock                                           (* 404: deferred Unlock *)
| THead                                             (* 382: reading t.s.tail *)
| TWrite (b : nat)                                  (* 382: the element *)
| Done.

Record thread := mkTh { tidx : nat; tval : T; tpc : pc }.

(* The editor and everything it can reach, the holder of tailMu, the goroutines. *)
Record cfg := mkCfg { cst : st (T:=T); mu : option nat; ths : list thread }.

Definition upd_aid (s : st (T:=T)) (c : nat) : st :=
  mkSt (hp s) (ctr s) (mkTr (ts (tr s)) c (tailLen (tr s)) (wtail (tr s))).

(* Outcome of one step of one goroutine: None when it cannot run (Lock held by
   another, or the call has returned). *)
Definition out : Type := option (res (st (T:=T) * option nat * pc)).
Definition go (s : st) (m : option nat) (q : pc) : out := Some (Ok (s, m, q)).
Definition panic : out := Some Crash.

(* slice.go:388-391  what Set does with the writable node a of level l. *)
Definition descend (l a i : nat) : pc :=
  match l with
  | 0 => WriteLeaf a
  | S l' => Load l' (LSlot a (slot l i))
  end.

(* One step of goroutine k.  The line numbers are those of slice.go. *)
Definition tstep (s : st) (m : option nat) (k i : nat) (x : T) (q : pc) : out :=
  let t := tr s in
  match q with
  | Start =>                                            (* 375-388 *)
      (* Len, tlen and height are plain reads; Set never writes them. *)
      if decide (t_len t <= i) then panic
      else if decide (tlen (ts t) <= i) then go s m TLoad
      else go s m (Load (hgt (ts t) - 1) LRoot)
  | Load l p =>                                         (* 268, 294 *)
      match load p s with Ok (pl, _) => go s m (IdLoad l p pl) | Crash => panic end
  | IdLoad l p pl =>                                    (* 98-99 *)
      if decide (aid t = 0) then go s m (IdAdd l p pl) else go s m (Check l p pl (aid t))
  | IdAdd l p pl =>                                     (* 100 *)
      go (mkSt (hp s) (S (ctr s)) t) m (IdCas l p pl (S (ctr s)))
  | IdCas l p pl c =>                                   (* 101-106 *)
      if decide (aid t = 0) then go (upd_aid s c) m (Check l p pl c)
      else go s m (IdLoad l p pl)
  | Check l p pl tid =>                                 (* 271-272, 297-298; the id of a node never changes *)
      match pl with
      | PNil => go s m (Cas l p pl (match l with 0 => Leaf (replicate 16 zero) tid
                                              | S _ => INode (replicate 16 PNil) tid end))
      | PTNil => panic                                  (* typed nil: not reachable, PersistModel.v *)
      | PAddr a =>
          match nodes (hp s) !! a with
          | Some n => if decide (nid n = tid) then go s m (descend l a i)
                      else match l with 0 => go s m (CopyL p pl tid a [])
                                   | S _ => go s m (CopyN l p pl tid a []) end
          | None => panic
          end
      end
  | CopyL p pl tid a acc =>                             (* 276, one element at a time *)
      match nodes (hp s) !! a with
      | Some (Leaf vs _) =>
          match vs !! length acc with
          | Some v => go s m (CopyL p pl tid a (acc ++ [v]))
          | None => go s m (Cas 0 p pl (Leaf acc tid))
          end
      | _ => panic
      end
  | CopyN l p pl tid a acc =>                           (* 303-307 *)
      match nodes (hp s) !! a with
      | Some (INode ps _) =>
          match ps !! length acc with
          | Some v => go s m (CopyN l p pl tid a (acc ++ [v]))
          | None => go s m (Cas l p pl (INode acc tid))
          end
      | _ => panic
      end
  | Cas l p pl n =>                                     (* 279-285, 309-315 *)
      match load p s with
      | Ok (pl', _) =>
          if decide (pl' = pl) then
            match bind (alloc_node n) (fun a1 => bind (store p (PAddr a1)) (fun _ => ret a1)) s with
            | Ok (a1, s') => go s' m (descend l a1 i)
            | Crash => panic
            end
          else go s m (Load l p)
      | Crash => panic
      end
  | WriteLeaf a =>                                      (* 391 *)
      match write_leaf a (fun vs => <[i mod 16 := x]> vs) s with
      | Ok (_, s') => go s' m Done
      | Crash => panic
      end
  | TLoad => if wtail t then go s m THead else go s m TLock          (* 400-402 *)
  | TLock => match m with None => go s (Some k) TLoad2 | Some _ => None end  (* 403 *)
  | TLoad2 => if wtail t then go s m TUnlock else go s m TMake       (* 405-407 *)
  | TMake =>                                            (* 409; the header t.s.tail is read once here *)
      if decide (16 < tln (ts t)) then panic else go s m (TCopy (tarr (ts t)) (tln (ts t)) [])
  | TCopy src n acc =>                                  (* 410, one element at a time *)
      if decide (length acc < n) then
        match arr_get (hp s) src n (length acc) with
        | Ok v => go s m (TCopy src n (acc ++ [v]))
        | Crash => panic
        end
      else go s m (TSet n acc)
  | TSet n acc =>                                       (* 411, 415-420 *)
      match bind (alloc_arr (acc ++ replicate (16 - n) zero)) (fun b => set_tail (Some b) n) s with
      | Ok (_, s') => go s' m TStore
      | Crash => panic
      end
  | TStore =>                                           (* 412 *)
      go (mkSt (hp s) (ctr s) (mkTr (ts t) (aid t) (tailLen t) true)) m TUnlock
  | TUnlock => go s None THead                          (* 404 *)
  | THead =>                                            (* 382: header and bounds check *)
      match tarr (ts t) with
      | Some b => if decide (i mod 16 < tln (ts t)) then go s m (TWrite b) else panic
      | None => panic
      end
  | TWrite b =>                                         (* 382 *)
      match arrs (hp s) !! b with
      | Some l => go (mkSt (set_arrs (hp s) (<[b := <[i mod 16 := x]> l]> (arrs (hp s)))) (ctr s) t) m Done
      | None => panic
      end
  | Done => None
  end.

(* One step of the whole program: the scheduler picks goroutine k. *)
Definition cstep (c : cfg) (k : nat) : option (res cfg) :=
  match ths c !! k with
  | None => None
  | Some th =>
      match tstep (cst c) (mu c) k (tidx th) (tval th) (tpc th) with
      | None => None
      | Some Crash => Some Crash
      | Some (Ok (s', m', q')) =>
          Some (Ok (mkCfg s' m' (<[k := mkTh (tidx th) (tval th) q']> (ths c))))
      end
  end.

(* A run under a schedule: a goroutine that cannot run when picked does nothing. *)
Fixpoint exec (c : cfg) (sched : list nat) : res cfg :=
  match sched with
  | [] => Ok c
  | k :: ks => match cstep c k with
               | None => exec c ks
               | Some Crash => Crash
               | Some (Ok c') => exec c' ks
               end
  end.

(* The goroutines for the calls Set(i, x), (i, x) in ws, on editor t of world w. *)
Definition begin (w : world (T:=T)) (t : transient) (ws : list (nat * T)) : cfg :=
  mkCfg (mkSt (wh w) (wctr w) t) None ((fun ix => mkTh ix.1 ix.2 Start) <$> ws).

Definition all_done (c : cfg) : Prop := Forall (fun th => tpc th = Done) (ths c).

(* The world once the goroutines have run: editor k is replaced. *)
Definition back (w : world (T:=T)) (k : nat) (c : cfg) : world :=
  mkW (hp (cst c)) (ctr (cst c)) (wslices w) (<[k := tr (cst c)]> (wtrs w)).

(* Plain (non-atomic) memory the next step of a goroutine reads or writes.
   Node slots, aid, transientID and wtail are only accessed atomically. *)
Inductive cell :=
| CLeaf (a j : nat)        (* leaf.val[j] *)
| CTail                    (* the slice header t.s.tail *)
| CElem (b j : nat)        (* element j of a tail's backing array *)
| CTailLen                 (* t.tailLen *)
| CId (a : nat).           (* node.id *)

Definition plain_reads (s : st (T:=T)) (i : nat) (q : pc) : list cell :=
  match q with
  | Start => [CTailLen]
  | Check _ _ (PAddr a) _ => [CId a]
  | CopyL _ _ _ a acc => [CLeaf a (length acc)]
  | TMake => [CTail]
  | TCopy (Some b) _ acc => [CElem b (length acc)]
  | TSet _ _ => [CTailLen]
  | THead => [CTail]
  | _ => []
  end.
Definition plain_writes (s : st (T:=T)) (i : nat) (q : pc) : list cell :=
  match q with
  | WriteLeaf a => [CLeaf a (i mod 16)]
  | TSet n _ => CTail :: (if decide (tailLen (tr s) = n) then [] else [CTailLen])
  | TWrite b => [CElem b (i mod 16)]
  | _ => []
  end.

(* Two goroutines about to access the same plain memory, one of them writing. *)
Definition race (c : cfg) : Prop :=
  exists j k u v m, j <> k /\ ths c !! j = Some u /\ ths c !! k = Some v /\
    m ∈ plain_writes (cst c) (tidx u) (tpc u) /\
    (m ∈ plain_reads (cst c) (tidx v) (tpc v) \/ m ∈ plain_writes (cst c) (tidx v) (tpc v)).

End Conc.
Arguments pc : clear implicits.
Arguments thread : clear implicits.
Arguments cfg : clear implicits.

(* Model of value/persist/slice.go: persistent slices and transient editors.
   Executable transcription over an explicit heap, so that sharing between
   published slices and editors is visible. No proofs in this file. *)
From stdpp Require Import gmap list.

(* Outcome of a Go computation here: a value, or a Go panic (explicit
   panic(...) calls, nil dereferences, out-of-range slice expressions). *)
Inductive res (A : Type) := Ok (a : A) | Crash.
Arguments Ok {A}. Arguments Crash {A}.

Section Persist.
Context {T : Type} (zero : T).

(* slice.go:113-117  chunk = 16, chunkBits = 4. *)
Definition chunk : nat := 16.

(* An interface value held in an atomic.Value: never stored (nil), a typed nil
   pointer of type inode, or the address of a node.  slice.go:135, 335, 360. *)
Inductive ptr := PNil | PTNil | PAddr (a : nat).

(* slice.go:128-137  leaf{val,id} and inode{ptr,id}. *)
Inductive node :=
| Leaf (vals : list T) (id : nat)
| INode (ptrs : list ptr) (id : nat).

Definition nid (n : node) : nat := match n with Leaf _ i => i | INode _ i => i end.

(* Go heap restricted to what this package allocates: tree nodes and the
   backing arrays of tails. [hnext] bounds the addresses in use. *)
Record heap := mkHeap { nodes : gmap nat node; arrs : gmap nat (list T); hnext : nat }.

(* slice.go:14-50 (type Slice). A tail is a Go slice: backing array and length. *)
Record slice := mkSlice {
  tree : ptr; hgt : nat; tlen : nat; tarr : option nat; tln : nat }.

(* slice.go:54-87 (type TransientSlice); tailMu only matters for concurrency. *)
Record transient := mkTr { ts : slice; aid : nat; tailLen : nat; wtail : bool }.

(* State visible to one editor operation: the heap, the global transientID
   counter (slice.go:91) and the editor itself. *)
Record st := mkSt { hp : heap; ctr : nat; tr : transient }.

Definition M (A : Type) : Type := st -> res (A * st).
Definition ret {A} (a : A) : M A := fun s => Ok (a, s).
Definition bind {A B} (m : M A) (f : A -> M B) : M B :=
  fun s => match m s with Ok (a, s') => f a s' | Crash => Crash end.
Definition crash {A} : M A := fun _ => Crash.
Definition get : M st := fun s => Ok (s, s).
Definition put (s : st) : M unit := fun _ => Ok (tt, s).
Definition assert_ (b : bool) : M unit := if b then ret tt else crash.

(* Field updates. *)
Definition set_nodes (h : heap) (f : gmap nat node) : heap := mkHeap f (arrs h) (hnext h).
Definition set_arrs (h : heap) (f : gmap nat (list T)) : heap := mkHeap (nodes h) f (hnext h).
Definition upd_heap (h : heap) : M unit := fun s => Ok (tt, mkSt h (ctr s) (tr s)).
Definition upd_tr (t : transient) : M unit := fun s => Ok (tt, mkSt (hp s) (ctr s) t).
Definition with_s (t : transient) (s : slice) : transient := mkTr s (aid t) (tailLen t) (wtail t).

(* new(leaf), new(inode) followed by initialisation: a fresh address. *)
Definition alloc_node (n : node) : M nat := fun s =>
  let h := hp s in let a := hnext h in
  Ok (a, mkSt (mkHeap (<[a := n]> (nodes h)) (arrs h) (S a)) (ctr s) (tr s)).
(* make([]T, ...) : a fresh backing array. *)
Definition alloc_arr (l : list T) : M nat := fun s =>
  let h := hp s in let a := hnext h in
  Ok (a, mkSt (mkHeap (nodes h) (<[a := l]> (arrs h)) (S a)) (ctr s) (tr s)).

(* slice.go:96-108  id(): allocate an id on first use.  The CAS loop is
   sequential here; see PersistConcModel.v for the concurrent version. *)
Definition get_id : M nat := fun s =>
  if decide (aid (tr s) = 0) then
    let i := S (ctr s) in
    Ok (i, mkSt (hp s) i (mkTr (ts (tr s)) i (tailLen (tr s)) (wtail (tr s))))
  else Ok (aid (tr s), s).

(* slice.go:120-125  height. bits.Len x = 0 for 0, else floor(log2 x)+1. *)
Definition bits_len (n : nat) : nat := match n with 0 => 0 | _ => S (Nat.log2 n) end.
Definition height (n : nat) : nat :=
  match n with 0 => 0 | S m => Nat.max 2 (1 + bits_len m / 4) end.

(* slice.go:140-149  Len. *)
Definition s_len (s : slice) : nat := tlen s + tln s.
Definition t_len (t : transient) : nat := tlen (ts t) + tailLen t.

(* (i >> (level*4)) & 15, with level = the level of the interior node. *)
Definition slot (l i : nat) : nat := (i / 16 ^ l) mod 16.

(* Loading through a pointer at a given level, as At does (slice.go:159-167):
   nil reads as the zero value, a typed nil is dereferenced (crash). *)
Fixpoint rd (h : heap) (p : ptr) (l : nat) (i : nat) : res T :=
  match p with
  | PNil => Ok zero
  | PTNil => Crash
  | PAddr a =>
    match l, nodes h !! a with
    | 0, Some (Leaf vs _) => match vs !! (i mod 16) with Some x => Ok x | None => Crash end
    | S l', Some (INode ps _) =>
        match ps !! slot l i with Some q => rd h q l' i | None => Crash end
    | _, _ => Crash
    end
  end.

Definition arr_get (h : heap) (a : option nat) (n j : nat) : res T :=
  if decide (j < n) then
    match a with
    | Some b => match arrs h !! b with
                | Some l => match l !! j with Some x => Ok x | None => Crash end
                | None => Crash end
    | None => Crash
    end
  else Crash.

(* slice.go:152-168  At. *)
Definition at_ (h : heap) (s : slice) (i : nat) : res T :=
  if decide (s_len s <= i) then Crash
  else if decide (tlen s <= i) then arr_get h (tarr s) (tln s) (i mod 16)
  else rd h (tree s) (hgt s - 1) i.

(* slice.go:204-243  yield: the list of values yielded for [start,end) under p.
   The consumer never stops early here (it accepts all values); [fuel] bounds
   the child loop j < chunk, so it is 16 - j. *)
Fixpoint yield_ (h : heap) (p : ptr) (l : nat) (start end_ : nat) {struct l} : res (list T) :=
  match p with
  | PNil => Ok (replicate (end_ - start) zero)           (* 206-214 *)
  | PTNil => Crash
  | PAddr a =>
    match l, nodes h !! a with
    | 0, Some (Leaf vs _) =>                              (* 216-224 *)
        let seg := take (end_ - start) (drop (start mod 16) vs) in
        if decide (length seg = end_ - start) then Ok seg else Crash
    | S l', Some (INode ps _) =>                          (* 226-242 *)
        let width := 16 ^ l in
        let fix go (qs : list ptr) (start : nat) : res (list T) :=
          if decide (start < end_) then
            match qs with
            | [] => Crash                                 (* 238-241 *)
            | q :: qs' =>
                let m := Nat.min (end_ - start) (width - start mod width) in
                match yield_ h q l' start (start + m), go qs' (start + m) with
                | Ok x, Ok y => Ok (x ++ y)
                | _, _ => Crash
                end
            end
          else if decide (start = end_) then Ok [] else Crash
        in go (drop (slot l start) ps) start
    | _, _ => Crash
    end
  end.

(* slice.go:182-196  Slice(i,j): the values yielded. *)
Definition slice_range (h : heap) (s : slice) (i j : nat) : res (list T) :=
  if decide (j < i \/ s_len s < j) then Crash
  else
    let first := if decide (i < tlen s)
                 then yield_ h (tree s) (hgt s - 1) i (Nat.min j (tlen s))
                 else Ok [] in
    let k0 := Nat.max i (tlen s) in
    let second :=
      (fix go (n : nat) (k : nat) : res (list T) :=
         match n with
         | 0 => Ok []
         | S n' => match arr_get h (tarr s) (tln s) (k - tlen s), go n' (S k) with
                   | Ok x, Ok l => Ok (x :: l) | _, _ => Crash end
         end) (j - k0) k0 in
    match first, second with Ok x, Ok y => Ok (x ++ y) | _, _ => Crash end.

(* slice.go:174-176  All. *)
Definition all (h : heap) (s : slice) : res (list T) := slice_range h s 0 (s_len s).

(* At and Slice as called, with Go's signed ints: slice.go:153, 183. *)
Definition at_z (h : heap) (s : slice) (i : Z) : res T :=
  if decide (i < 0)%Z then Crash else at_ h s (Z.to_nat i).
Definition slice_z (h : heap) (s : slice) (i j : Z) : res (list T) :=
  if decide (i < 0 \/ j < i)%Z then Crash else slice_range h s (Z.to_nat i) (Z.to_nat j).

(* The zero Slice, "var s Slice[T]". *)
Definition empty_slice : slice := mkSlice PNil 0 0 None 0.

(* slice.go:246-250  Transient. *)
Definition transient_of (s : slice) : transient := mkTr s 0 (tln s) false.

(* An addressable atomic.Value: the root field of the editor or a slot of an inode. *)
Inductive loc := LRoot | LSlot (a j : nat).

Definition load (p : loc) : M ptr := fun s =>
  match p with
  | LRoot => Ok (tree (ts (tr s)), s)
  | LSlot a j => match nodes (hp s) !! a with
                 | Some (INode ps _) => match ps !! j with Some q => Ok (q, s) | None => Crash end
                 | _ => Crash end
  end.

Definition set_tree (s : slice) (q : ptr) : slice := mkSlice q (hgt s) (tlen s) (tarr s) (tln s).

Definition store (p : loc) (q : ptr) : M unit := fun s =>
  match p with
  | LRoot => Ok (tt, mkSt (hp s) (ctr s) (with_s (tr s) (set_tree (ts (tr s)) q)))
  | LSlot a j => match nodes (hp s) !! a with
                 | Some (INode ps i) =>
                     if decide (j < length ps) then
                       Ok (tt, mkSt (set_nodes (hp s) (<[a := INode (<[j := q]> ps) i]> (nodes (hp s))))
                                    (ctr s) (tr s))
                     else Crash
                 | _ => Crash end
  end.

Definition fetch (a : nat) : M node := fun s =>
  match nodes (hp s) !! a with Some n => Ok (n, s) | None => Crash end.

(* slice.go:266-287  wleaf (sequential: the CAS always succeeds). A pointer of
   the wrong dynamic type makes CompareAndSwap panic. *)
Definition wleaf (p : loc) : M nat :=
  bind (load p) (fun pl => bind get_id (fun tid =>
    match pl with
    | PAddr a => bind (fetch a) (fun n =>
        match n with
        | Leaf vs i =>
            if decide (i = tid) then ret a
            else bind (alloc_node (Leaf vs tid)) (fun a1 => bind (store p (PAddr a1)) (fun _ => ret a1))
        | INode _ _ => crash
        end)
    | PNil => bind (alloc_node (Leaf (replicate 16 zero) tid)) (fun a1 =>
                bind (store p (PAddr a1)) (fun _ => ret a1))
    | PTNil => crash
    end)).

(* slice.go:292-317  wnode. *)
Definition wnode (p : loc) : M nat :=
  bind (load p) (fun pl => bind get_id (fun tid =>
    match pl with
    | PAddr a => bind (fetch a) (fun n =>
        match n with
        | INode ps i =>
            if decide (i = tid) then ret a
            else bind (alloc_node (INode ps tid)) (fun a1 => bind (store p (PAddr a1)) (fun _ => ret a1))
        | Leaf _ _ => crash
        end)
    | PNil | PTNil => bind (alloc_node (INode (replicate 16 PNil) tid)) (fun a1 =>
                bind (store p (PAddr a1)) (fun _ => ret a1))
    end)).

(* Set of the geometry fields of the editor. *)
Definition set_geom (q : ptr) (h n : nat) : M unit := fun s =>
  let sl := ts (tr s) in
  Ok (tt, mkSt (hp s) (ctr s) (with_s (tr s) (mkSlice q h n (tarr sl) (tln sl)))).

(* slice.go:341-346  the loop adding levels: n new levels above root. *)
Fixpoint add_levels (n : nat) (tid : nat) (root : ptr) : M ptr :=
  match n with
  | 0 => ret root
  | S n' => bind (alloc_node (INode (root :: replicate 15 PNil) tid)) (fun a =>
              add_levels n' tid (PAddr a))
  end.

(* slice.go:323-348  growTree. *)
Definition grow_tree (n : nat) : M unit :=
  bind get (fun s =>
    let sl := ts (tr s) in
    if decide (n < tlen sl) then crash else
    let h := height n in
    if decide (h = hgt sl) then set_geom (tree sl) (hgt sl) n
    else if decide (hgt sl = 0) then set_geom PTNil h n
    else
      (* root is stored back as an inode pointer: a nil root becomes a typed nil *)
      let root := match tree sl with PNil => PTNil | q => q end in
      bind get_id (fun tid =>
        bind (add_levels (h - hgt sl) tid root) (fun root' =>
          (* the loop "for ; height < h" leaves height unchanged if already >= h *)
          set_geom root' (Nat.max (hgt sl) h) n))).

(* slice.go:364-369  the loop removing levels. *)
Fixpoint drop_levels (n : nat) (root : ptr) : M ptr :=
  match n with
  | 0 => ret root
  | S n' =>
      match root with
      | PNil | PTNil => drop_levels n' PTNil
      | PAddr a => bind (fetch a) (fun nd =>
          match nd with
          | INode ps _ => match ps !! 0 with
                          | Some (PAddr b) => drop_levels n' (PAddr b)
                          | Some _ => drop_levels n' PTNil
                          | None => crash end
          | Leaf _ _ => crash
          end)
      end
  end.

(* slice.go:352-371  shrinkTree. *)
Definition shrink_tree (n : nat) : M unit :=
  bind get (fun s =>
    let sl := ts (tr s) in
    let h := height n in
    if decide (h = hgt sl) then set_geom (tree sl) (hgt sl) n
    else if decide (h = 0) then set_geom PTNil 0 n
    else bind (drop_levels (hgt sl - h) (tree sl)) (fun root =>
           set_geom root (Nat.min (hgt sl) h) n)).

(* slice.go:415-420  setTail: new backing array and length, caching the length. *)
Definition set_tail (a : option nat) (n : nat) : M unit := fun s =>
  let sl := ts (tr s) in
  Ok (tt, mkSt (hp s) (ctr s)
       (mkTr (mkSlice (tree sl) (hgt sl) (tlen sl) a n) (aid (tr s)) n (wtail (tr s)))).

(* The first n elements of a backing array. *)
Definition arr_prefix (h : heap) (a : option nat) (n : nat) : res (list T) :=
  match a with
  | None => if decide (n = 0) then Ok [] else Crash
  | Some b => match arrs h !! b with
              | Some l => if decide (n <= length l) then Ok (take n l) else Crash
              | None => Crash end
  end.
Definition read_tail (n : nat) : M (list T) := fun s =>
  match arr_prefix (hp s) (tarr (ts (tr s))) n with Ok l => Ok (l, s) | Crash => Crash end.

(* slice.go:399-413  writeTail: copy into a fresh array of capacity 16. *)
Definition write_tail : M unit :=
  bind get (fun s =>
    if wtail (tr s) then ret tt else
    let n := tln (ts (tr s)) in
    bind (read_tail n) (fun l =>
    if decide (16 < n) then crash else           (* make([]T, n, 16) needs n <= 16 *)
    bind (alloc_arr (l ++ replicate (16 - n) zero)) (fun a =>
    bind (set_tail (Some a) n) (fun _ =>
    bind get (fun s' => upd_tr (mkTr (ts (tr s')) (aid (tr s')) (tailLen (tr s')) true)))))).

(* Writing a run of values into the backing array of the tail, from index j. *)
Definition splice (l : list T) (j : nat) (xs : list T) : list T :=
  take j l ++ xs ++ drop (j + length xs) l.
Definition write_arr (j : nat) (xs : list T) : M unit := fun s =>
  match tarr (ts (tr s)) with
  | Some b => match arrs (hp s) !! b with
              | Some l => if decide (j + length xs <= length l) then
                            Ok (tt, mkSt (set_arrs (hp s) (<[b := splice l j xs]> (arrs (hp s)))) (ctr s) (tr s))
                          else Crash
              | None => Crash end
  | None => match xs, j with [], 0 => Ok (tt, s) | _, _ => Crash end
  end.

(* slice.go:388-390  the descent of Set: levels l, l-1, ..., 1. *)
Fixpoint walk (l : nat) (p : loc) (i : nat) : M loc :=
  match l with
  | 0 => ret p
  | S l' => bind (wnode p) (fun a => walk l' (LSlot a (slot l i)) i)
  end.

Definition write_leaf (a : nat) (f : list T -> list T) : M unit := fun s =>
  match nodes (hp s) !! a with
  | Some (Leaf vs i) =>
      Ok (tt, mkSt (set_nodes (hp s) (<[a := Leaf (f vs) i]> (nodes (hp s)))) (ctr s) (tr s))
  | _ => Crash
  end.

(* slice.go:374-392  Set. *)
Definition set_ (zi : Z) (x : T) : M unit :=
  bind get (fun s =>
    if decide (zi < 0 \/ Z.of_nat (t_len (tr s)) <= zi)%Z then crash else
    let i := Z.to_nat zi in
    let sl := ts (tr s) in
    if decide (tlen sl <= i) then
      bind write_tail (fun _ =>
      bind get (fun s' =>
        if decide (i mod 16 < tln (ts (tr s'))) then write_arr (i mod 16) [x] else crash))
    else
      bind (walk (hgt sl - 1) LRoot i) (fun p =>
      bind (wleaf p) (fun a => write_leaf a (fun vs => <[i mod 16 := x]> vs)))).

(* slice.go:473-499  copy. [k] counts the remaining iterations of j < chunk. *)
Fixpoint copy_ (l : nat) (p : loc) (off : nat) (src : list T) (total : nat) {struct l} : M unit :=
  match l with
  | 0 => bind (wleaf p) (fun a =>
           if decide (16 <= length src) then write_leaf a (fun _ => take 16 src) else crash)
  | S l' => bind (wnode p) (fun a =>
      let width := 16 ^ l in
      (fix go (k j off : nat) (src : list T) (total : nat) {struct k} : M unit :=
         match k with
         | 0 => if decide (total = 0) then ret tt else crash         (* 495-498 *)
         | S k' =>
             if decide (total = 0) then ret tt else
             let m := Nat.min total (width - off mod width) in
             if decide (m <= length src) then
               bind (copy_ l' (LSlot a j) off (take m src) m) (fun _ =>
                 go k' (S j) (off + m) (drop m src) (total - m))
             else crash
         end) (16 - slot l off) (slot l off) off src total)
  end.

(* slice.go:457-469  appendTree. *)
Definition append_tree (src : list T) (total : nat) : M unit :=
  if decide (total mod 16 <> 0 \/ total = 0) then crash else
  bind get (fun s =>
    let off := tlen (ts (tr s)) in
    bind (grow_tree (off + total)) (fun _ =>
    bind get (fun s' => copy_ (hgt (ts (tr s')) - 1) LRoot off src total))).

(* slice.go:442-453  second half of Append: full chunks, then the fragment. *)
Definition append_rest (src : list T) : M unit :=
  let n := (length src / 16) * 16 in
  let frag (src : list T) : M unit :=
    match src with
    | [] => ret tt
    | _ => bind write_tail (fun _ => bind get (fun s =>
             let len := tln (ts (tr s)) in
             (* append(t.s.tail, src...) within capacity 16 *)
             bind (write_arr len src) (fun _ => set_tail (tarr (ts (tr s))) (len + length src))))
    end in
  if decide (16 <= length src) then bind (append_tree src n) (fun _ => frag (drop n src))
  else frag src.

(* slice.go:423-454  Append. *)
Definition append_ (src : list T) : M unit :=
  match src with
  | [] => ret tt
  | _ =>
    bind get (fun s0 =>
    if decide (0 < tln (ts (tr s0))) then
      bind write_tail (fun _ => bind get (fun s =>
        let len := tln (ts (tr s)) in
        let n := Nat.min (16 - len) (length src) in                 (* copy into [len:cap] *)
        bind (write_arr len (take n src)) (fun _ =>
        bind (set_tail (tarr (ts (tr s))) (len + n)) (fun _ =>
        match drop n src with
        | [] => ret tt
        | src' =>
            bind (read_tail 16) (fun full =>
            bind (append_tree full 16) (fun _ =>
            bind get (fun s' =>
            bind (set_tail (tarr (ts (tr s'))) 0) (fun _ => append_rest src'))))
        end))))
    else append_rest src)
  end.

(* slice.go:519-531  locating the leaf that holds index n. *)
Fixpoint find_leaf (h : heap) (p : ptr) (l : nat) (n : nat) : res (option (list T)) :=
  match l with
  | 0 => match p with
         | PAddr a => match nodes h !! a with Some (Leaf vs _) => Ok (Some vs) | _ => Ok None end
         | _ => Ok None end
  | S l' => match p with
            | PAddr a => match nodes h !! a with
                         | Some (INode ps _) =>
                             match ps !! slot l n with Some q => find_leaf h q l' n | None => Crash end
                         | _ => Ok None end
            | _ => Ok None end
  end.

(* slice.go:503-546  Resize. Only called with n >= 0. *)
Definition resize (n : nat) : M unit :=
  let ntlen := (n / 16) * 16 in let ntail := n mod 16 in
  bind get (fun s =>
  bind (if decide (t_len (tr s) < n) then
     bind write_tail (fun _ =>
     bind (if decide (ntlen <> tlen (ts (tr s))) then
             bind (read_tail 16) (fun full =>
             bind (append_tree full 16) (fun _ => grow_tree ntlen))
           else ret tt) (fun _ =>
     bind get (fun s' => set_tail (tarr (ts (tr s'))) ntail)))
   else if decide (n < t_len (tr s)) then
     bind (if decide (ntlen <> tlen (ts (tr s))) then
             bind write_tail (fun _ =>
             bind get (fun s' =>
             match find_leaf (hp s') (tree (ts (tr s'))) (hgt (ts (tr s')) - 1) ntlen with
             | Ok None => bind (write_arr 0 (replicate ntail zero)) (fun _ => shrink_tree ntlen)
             | Ok (Some vs) => bind (write_arr 0 (take ntail vs)) (fun _ => shrink_tree ntlen)
             | Crash => crash
             end))
           else ret tt) (fun _ =>
     bind get (fun s' => set_tail (tarr (ts (tr s'))) ntail))
   else ret tt) (fun _ =>
  bind get (fun s' => assert_ (bool_decide (n = t_len (tr s')))))).

(* slice.go:254-261  Persist: returns the published slice; the editor forgets its id. *)
Definition persist : M slice :=
  bind get (fun s =>
    let t := tr s in
    let t' := mkTr (ts t) 0 (tailLen t) (wtail t) in
    bind (upd_tr t') (fun _ =>
    if wtail t then
      bind (read_tail (tln (ts t))) (fun l =>                     (* slices.Clone(s.tail) *)
      bind (alloc_arr l) (fun a =>
        ret (mkSlice (tree (ts t)) (hgt (ts t)) (tlen (ts t)) (Some a) (tln (ts t)))))
    else ret (ts t))).

(* ---- A program using the package: any number of slices and editors. ---- *)

Record world := mkW { wh : heap; wctr : nat; wslices : list slice; wtrs : list transient }.

Definition winit : world := mkW (mkHeap ∅ ∅ 0) 0 [] [].

(* One call of the package's API. Slices and editors are named by the order in
   which they were created. *)
Inductive op :=
| ONew                          (* var s Slice[T] *)
| OTransient (k : nat)          (* slices[k].Transient() *)
| OPersist (k : nat)            (* editors[k].Persist() *)
| OSet (k : nat) (i : Z) (x : T)
| OAppend (k : nat) (xs : list T)
| OResize (k : nat) (n : nat).

(* Run an editor operation on editor k of the world. *)
Definition on_tr {A} (w : world) (k : nat) (m : M A) (fin : A -> world -> world) : res world :=
  match wtrs w !! k with
  | None => Crash
  | Some t => match m (mkSt (wh w) (wctr w) t) with
              | Ok (a, s) => Ok (fin a (mkW (hp s) (ctr s) (wslices w) (<[k := tr s]> (wtrs w))))
              | Crash => Crash
              end
  end.

Definition step (w : world) (o : op) : res world :=
  match o with
  | ONew => Ok (mkW (wh w) (wctr w) (wslices w ++ [empty_slice]) (wtrs w))
  | OTransient k => match wslices w !! k with
                    | Some s => Ok (mkW (wh w) (wctr w) (wslices w) (wtrs w ++ [transient_of s]))
                    | None => Crash end
  | OPersist k => on_tr w k persist (fun s w' => mkW (wh w') (wctr w') (wslices w' ++ [s]) (wtrs w'))
  | OSet k i x => on_tr w k (set_ i x) (fun _ w' => w')
  | OAppend k xs => on_tr w k (append_ xs) (fun _ w' => w')
  | OResize k n => on_tr w k (resize n) (fun _ w' => w')
  end.

(* A history; a panicking call leaves the world as the panic left it. Every
   panic reachable here happens before the first store (see PersistWorld.v, WI_step),
   so the world is unchanged. *)
Fixpoint run (w : world) (os : list op) : world :=
  match os with
  | [] => w
  | o :: os' => run (match step w o with Ok w' => w' | Crash => w end) os'
  end.

End Persist.


(** Executable model of [ArcIntern]: /repo/src/arc.rs and the interning loop of
    /repo/src/arc_dst.rs.

    Granularity: one label is one atomic access to shared memory (taking a DashMap shard
    lock and searching it, [fetch_add], [fetch_sub], inserting, releasing, removing,
    freeing).  The interleaving semantics is sequentially consistent; the memory
    orderings written in the source ([Relaxed] in [clone], [SeqCst] elsewhere) are not
    modelled here but in RaceModel.v.

    All containers [Container<T>] of all types [T] are kept in one list [table]; a value
    knows its type ([te_ty]) and a shard lock is identified by (type, shard index), so
    containers of different types share nothing (that [get_container] really returns one
    container per type is proved in RegModel.v). *)
From stdpp Require Import gmap list numbers.
From Verif Require Import Base.

(** A raw pointer to a [RefCount<T>] (arc.rs:54-56).  [p_addr] is the machine address, the
    only thing [==] and [Hash] on handles see; [p_ser] is ghost provenance: the serial
    number of the allocation the pointer was made for. *)
Record ptr := Ptr { p_addr : nat; p_ser : nat }.
Global Instance ptr_eq_dec : EqDecision ptr.
Proof. solve_decision. Defined.

(** [ArcIntern]'s [PartialEq::eq] (arc.rs:390-395): addresses are compared. *)
Definition handle_eqb (p q : ptr) : bool := p_addr p =? p_addr q.

(** Everything the user's type [T] contributes, for all types at once.
    The bounds of arc.rs:54 (Eq, Hash), the handles inside a value, dashmap's shards and search (24), usize (86). *)
Record tyenv (V : Type) := TyEnv {
  te_eq : V -> V -> bool;       (* PartialEq::eq(query, stored) *)
  te_hash : V -> nat;           (* Hash, as finished by the container's RandomState *)
  te_ty : V -> nat;             (* which T the value belongs to *)
  te_kids : V -> list ptr;      (* the ArcIntern handles the value owns *)
  te_sees : nat -> nat -> bool; (* a search for one hash also compares against an entry
                                   stored under another one (hashbrown compares 7 bits
                                   of the hash, along a probe sequence, then calls Eq) *)
  te_shards : nat;              (* number of DashMap shards *)
  te_mod : N;                   (* 2^W: number of usize values *)
}.
Global Arguments te_eq {V}.
Global Arguments te_hash {V}.
Global Arguments te_ty {V}.
Global Arguments te_kids {V}.
Global Arguments te_sees {V}.
Global Arguments te_shards {V}.
Global Arguments te_mod {V}.

(** [RefCount<T>] (arc.rs:84-88) in its heap allocation.  [c_data] is [None] once the
    value has been moved or dropped out of the box and only the memory remains. *)
Record cell (V : Type) := Cell { c_ser : nat; c_count : N; c_data : option V }.
Global Arguments Cell {V}.
Global Arguments c_ser {V}.
Global Arguments c_count {V}.
Global Arguments c_data {V}.

(** The two interning procedures: [KSized] is [ArcIntern::new] (arc.rs:224-269), [KDst] is
    [new_with_copyable_init_val] (arc_dst.rs:68-118). *)
Inductive kind := KSized | KDst.

(** Pending destructor work of a thread, in execution order.
    - [IDrop p]: run [Drop for ArcIntern] on a handle (arc.rs:293-299);
    - [IRemove p]: the count was 1, the entry must be removed (arc.rs:300-322);
    - [IFree q]: return the memory of box [q] to the allocator. *)
Inductive item := IDrop (p : ptr) | IRemove (p : ptr) | IFree (q : ptr).

(** Program counter of a thread. *)
Inductive pc (V : Type) :=
| PFree                                                    (* not inside ArcIntern code *)
| PLookup (k : kind) (v : V) (b : option ptr)              (* loop head, before m.get_mut: arc.rs:225-227, arc_dst.rs:76-79 *)
| PHit (k : kind) (v : V) (b : option ptr) (p : ptr)       (* entry p found, write guard held: arc.rs:227-231 *)
| PInc (k : kind) (v : V) (b : option ptr) (p : ptr) (old : N) (* after fetch_add: arc.rs:231-232 *)
| PUndo (k : kind) (v : V) (b : option ptr) (p : ptr)      (* after fetch_sub, guard still held: arc.rs:241-242 *)
| PAlloc (k : kind) (v : V) (b : option ptr)               (* get_mut found nothing: arc.rs:243-244, arc_dst.rs:95-96 *)
| PEntry (k : kind) (v : V) (q : ptr)                      (* box q built, before m.entry: arc.rs:248 *)
| PVac (k : kind) (v : V) (q : ptr)                        (* Entry::Vacant, guard held: arc.rs:249 *)
| POcc (k : kind) (v : V) (q : ptr)                        (* Entry::Occupied, guard held: arc.rs:257 *)
| PIns (k : kind) (v : V) (q : ptr)                        (* inserted, guard held: arc.rs:254 *)
| PRem (l : nat * nat) (q : ptr) (w : list item) (r : option (V * ptr)) (* inside m.remove, entry q found, guard l held: arc.rs:322 *)
| PWork (w : list item) (r : option (V * ptr))             (* destructors to run, then return r *)
| PLen (ty i acc : nat)                                    (* num_objects_interned: arc.rs:203-205 *)
| PShrink (ty i : nat).                                    (* shrink_to_fit: arc.rs:185-187 *)
Global Arguments PFree {V}.
Global Arguments PLookup {V}.
Global Arguments PHit {V}.
Global Arguments PInc {V}.
Global Arguments PUndo {V}.
Global Arguments PAlloc {V}.
Global Arguments PEntry {V}.
Global Arguments PVac {V}.
Global Arguments POcc {V}.
Global Arguments PIns {V}.
Global Arguments PRem {V}.
Global Arguments PWork {V}.
Global Arguments PLen {V}.
Global Arguments PShrink {V}.

(** Results observable by the client, newest first in [st_log].
    arc.rs:203-209 (num_objects_interned, refcount), 224-269 and arc_dst.rs:68-117 (new), arc.rs:327-362 (Deref). *)
Inductive event (V : Type) :=
| EvNew (t : nat) (v : V) (p : ptr)      (* an intern call on [v] returned handle [p] *)
| EvRef (p : ptr) (n : N)                (* refcount() through handle [p] returned [n] *)
| EvDeref (p : ptr) (v : V)              (* dereferencing handle [p] read [v] *)
| EvLen (t : nat) (ty n : nat).          (* num_objects_interned::<ty>() returned [n] *)
Global Arguments EvNew {V}.
Global Arguments EvRef {V}.
Global Arguments EvDeref {V}.
Global Arguments EvLen {V}.

(** The heap of [RefCount]s (arc.rs:84-88), the DashMaps with their locks (24, 145-180), the clients' handles (54-56), the threads. *)
Record state (V : Type) := State {
  st_heap : gmap nat (cell V);        (* live allocations, by address *)
  st_table : list ptr;                (* keys of all DashMaps: the boxes they own *)
  st_locks : gmap (nat * nat) nat;    (* (type, shard) -> thread holding its write lock *)
  st_pool : list ptr;                 (* handles owned by client code (any thread) *)
  st_gone : list ptr;                 (* handles passed to mem::forget *)
  st_threads : gmap nat (pc V);
  st_next : nat;                      (* next allocation serial (ghost) *)
  st_zombies : list ptr;              (* ghost: removals abandoned by a panic *)
  st_log : list (event V);
}.
Global Arguments State {V}.
Global Arguments st_heap {V}.
Global Arguments st_table {V}.
Global Arguments st_locks {V}.
Global Arguments st_pool {V}.
Global Arguments st_gone {V}.
Global Arguments st_threads {V}.
Global Arguments st_next {V}.
Global Arguments st_zombies {V}.
Global Arguments st_log {V}.

(** What happens next.  [a] in [LStep] is the address the allocator would return, [i]
    selects one of several matching table entries (only relevant when Eq is lawless).
    The entry points: arc.rs:185-209, 224, 272-284, 293, 327-362; arc_dst.rs:68; [LStep] and [LPanic] schedule their bodies. *)
Inductive label (V : Type) :=
| LNew (t : nat) (k : kind) (v : V)   (* thread t calls an intern function with v *)
| LDrop (t : nat) (p : ptr)           (* thread t drops a handle *)
| LClone (p : ptr) (ks : list ptr)    (* some thread clones a handle it owns or, by
                                         following ks, one inside an interned value *)
| LForget (p : ptr)                   (* mem::forget(handle) *)
| LRef (p : ptr) (ks : list ptr)      (* handle.refcount() *)
| LDeref (p : ptr) (ks : list ptr)    (* handle.as_ref() and read the value *)
| LLen (t ty : nat)                   (* ArcIntern::<ty>::num_objects_interned() *)
| LShrink (t ty : nat)                (* ArcIntern::<ty>::shrink_to_fit() *)
| LStep (t a i : nat)                 (* thread t executes its next atomic step *)
| LPanic (t : nat).                   (* the user's Hash/Eq panics in t's next step *)
Global Arguments LNew {V}.
Global Arguments LDrop {V}.
Global Arguments LClone {V}.
Global Arguments LForget {V}.
Global Arguments LRef {V}.
Global Arguments LDeref {V}.
Global Arguments LLen {V}.
Global Arguments LShrink {V}.
Global Arguments LStep {V}.
Global Arguments LPanic {V}.

Section model.
  Context {V : Type} (E : tyenv V).
  Implicit Types (st : state V) (v : V) (p q : ptr).

  (** Empty containers: arc.rs:157, 167, 175. *)
  Definition init : state V := State ∅ [] ∅ [] [] ∅ 0 [] [].

  (** ** State access *)

  (** Bookkeeping of the model, no counterpart in /repo. *)
  Definition get_pc st (t : nat) : pc V := default PFree (st_threads st !! t).

  (** Bookkeeping of the model, no counterpart in /repo. *)
  Definition set_pc st (t : nat) (x : pc V) : state V :=
    State (st_heap st) (st_table st) (st_locks st) (st_pool st) (st_gone st)
          (<[t:=x]> (st_threads st)) (st_next st) (st_zombies st) (st_log st).
  (** Bookkeeping of the model, no counterpart in /repo. *)
  Definition set_heap st (h : gmap nat (cell V)) : state V :=
    State h (st_table st) (st_locks st) (st_pool st) (st_gone st)
          (st_threads st) (st_next st) (st_zombies st) (st_log st).
  (** Bookkeeping of the model, no counterpart in /repo. *)
  Definition set_table st (tb : list ptr) : state V :=
    State (st_heap st) tb (st_locks st) (st_pool st) (st_gone st)
          (st_threads st) (st_next st) (st_zombies st) (st_log st).
  (** Bookkeeping of the model, no counterpart in /repo. *)
  Definition set_pool st (pl : list ptr) : state V :=
    State (st_heap st) (st_table st) (st_locks st) pl (st_gone st)
          (st_threads st) (st_next st) (st_zombies st) (st_log st).
  (** Bookkeeping of the model, no counterpart in /repo. *)
  Definition set_gone st (gn : list ptr) : state V :=
    State (st_heap st) (st_table st) (st_locks st) (st_pool st) gn
          (st_threads st) (st_next st) (st_zombies st) (st_log st).
  (** Bookkeeping of the model, no counterpart in /repo. *)
  Definition add_log st (e : event V) : state V :=
    State (st_heap st) (st_table st) (st_locks st) (st_pool st) (st_gone st)
          (st_threads st) (st_next st) (st_zombies st) (e :: st_log st).
  (** Bookkeeping of the model, no counterpart in /repo. *)
  Definition add_zombie st p : state V :=
    State (st_heap st) (st_table st) (st_locks st) (st_pool st) (st_gone st)
          (st_threads st) (st_next st) (p :: st_zombies st) (st_log st).
  (** dashmap's write lock of a shard, taken in arc.rs:203-204, 227, 248, 322; arc_dst.rs:79. *)
  Definition lock st (l : nat * nat) (t : nat) : state V :=
    State (st_heap st) (st_table st) (<[l:=t]> (st_locks st)) (st_pool st) (st_gone st)
          (st_threads st) (st_next st) (st_zombies st) (st_log st).
  (** Its guard is dropped: arc.rs:243, 255, 262, 322. *)
  Definition unlock st (l : nat * nat) : state V :=
    State (st_heap st) (st_table st) (delete l (st_locks st)) (st_pool st) (st_gone st)
          (st_threads st) (st_next st) (st_zombies st) (st_log st).

  (** ** Memory.  An access through a pointer is valid only while the allocation it was
      made for is alive; every caller below turns [None] into [UB]. *)
  (** [self.pointer.as_ref()]: arc.rs:208, 279, 299, 322, 330. *)
  Definition deref st p : option (cell V) :=
    match st_heap st !! p_addr p with
    | Some c => if c_ser c =? p_ser p then Some c else None
    | None => None
    end.
  (** [b.0.data], [self.pointer.as_ref().data]: arc.rs:94, 109, 330. *)
  Definition data st p : option V :=
    match deref st p with Some c => c_data c | None => None end.

  (** [AtomicUsize::fetch_add(1)] / [fetch_sub(1)]: wrap around modulo 2^W (arc.rs:231,
      241, 279, 299; arc_dst.rs:83, 93). *)
  Definition count_inc (n : N) : N := ((n + 1) mod te_mod E)%N.
  (** arc.rs:241, 299; arc_dst.rs:93. *)
  Definition count_dec (n : N) : N := ((n + te_mod E - 1) mod te_mod E)%N.
  (** The store of these operations: arc.rs:231, 241, 279, 299. *)
  Definition set_count st p (c : cell V) (n : N) : state V :=
    set_heap st (<[p_addr p := Cell (c_ser c) n (c_data c)]> (st_heap st)).

  (** [Box::new(RefCount { count: AtomicUsize::new(1), data: val })] (arc.rs:244-247) or
      [new_fn(val)] (arc_dst.rs:96, 24-63): the allocator returns address [a]. *)
  Definition alloc st (a : nat) v : state V :=
    State (<[a := Cell (st_next st) 1%N (Some v)]> (st_heap st)) (st_table st)
          (st_locks st) (st_pool st) (st_gone st) (st_threads st)
          (S (st_next st)) (st_zombies st) (st_log st).
  (** Drop of a [BoxRefCount] (arc.rs:104-105) gives back its memory: arc.rs:260, 320-323. *)
  Definition free st p : state V := set_heap st (delete (p_addr p) (st_heap st)).
  (** Move or drop the value out of the box, leaving bare memory.
      arc.rs:113-118, 260 ([into_inner]), 320-323 ([_remove]). *)
  Definition take_data st p (c : cell V) : state V :=
    set_heap st (<[p_addr p := Cell (c_ser c) (c_count c) None]> (st_heap st)).

  (** ** DashMap.  Shard of a value (dashmap [determine_shard], an arbitrary function of
      the hash; here the remainder). *)
  (** The shard that [get_mut], [entry] and [remove] lock: arc.rs:227, 248, 322. *)
  Definition lock_of v : nat * nat := (te_ty E v, te_hash E v mod te_shards E).

  (** Searching reads the keys, i.e. dereferences the boxes of the table.
      arc.rs:227, 248, 322 via arc.rs:90-138. *)
  Definition readable st : bool :=
    forallb (λ q, match data st q with Some _ => true | None => false end) (st_table st).

  (** Entries a search may return: in the same shard, under the same hash or one that the
      search happens to see as well, with [query == stored] (hashbrown evaluates
      [key.eq(stored)]; BoxRefCount/RefCount delegate Eq and Hash to the data:
      arc.rs:90-138).  Simplification: in reality [te_sees] also depends on the layout of
      the table; this only matters when Eq values have different hashes. *)
  Definition is_match st v q : bool :=
    match data st q with
    | Some d => (te_ty E v =? te_ty E d)
                && (te_hash E v mod te_shards E =? te_hash E d mod te_shards E)
                && ((te_hash E v =? te_hash E d) || te_sees E (te_hash E v) (te_hash E d))
                && te_eq E v d
    | None => false
    end.
  (** arc.rs:227, 248, 322. *)
  Definition matches st v : list ptr := List.filter (is_match st v) (st_table st).

  (** The entry a lookup returns: any of the matching ones (chosen by [i]). arc.rs:227, 248, 322. *)
  Definition pick (i : nat) (l : list ptr) : option ptr :=
    match nth_error l i with Some q => Some q | None => head l end.

  (** [m.remove]: arc.rs:322. *)
  Definition remove_entry q (tb : list ptr) : list ptr := filter (λ z, z ≠ q) tb.

  (** Objects of type [ty] in shard [i] (for [DashMap::len], which adds the lengths of the
      shards one after the other). arc.rs:203-205. *)
  Definition in_shard st (ty i : nat) q : bool :=
    match data st q with
    | Some d => (te_ty E d =? ty) && (te_hash E d mod te_shards E =? i)
    | None => false
    end.
  (** arc.rs:203-205. *)
  Definition shard_len st (ty i : nat) : nat :=
    length (List.filter (in_shard st ty i) (st_table st)).

  (** ** Destructors of the arguments of an intern call, run when it returns or unwinds:
      for [KSized] the owned value [val] (so its handles, arc.rs:224), for [KDst] only the
      cached box [converted] (arc_dst.rs:75), whose data is [Copy]. *)
  Definition drop_args (k : kind) v (b : option ptr) : list item :=
    match k with
    | KSized => IDrop <$> te_kids E v
    | KDst => match b with Some q => [IFree q] | None => [] end
    end.

  (** Dropping a whole box: its data (the handles in it), then its memory.
      [_remove] goes out of scope: arc.rs:320-323. *)
  Definition drop_box v q : list item := (IDrop <$> te_kids E v) ++ [IFree q].

  (** ** One atomic step of thread [t] inside ArcIntern code. *)
  Definition step_thread st (t a i : nat) : outcome (state V) :=
    match get_pc st t with
    | PFree => Illegal
    | PLookup k v b =>
        (* m.get_mut(&val): take the shard's write lock and search; when nothing is found
           the lock is released before get_mut returns *)
        match st_locks st !! lock_of v with
        | Some _ => Blocked
        | None =>
            if readable st then
              match pick i (matches st v) with
              | Some p => Next (set_pc (lock st (lock_of v) t) t (PHit k v b p))
              | None => Next (set_pc st t (PAlloc k v b))
              end
            else UB
        end
    | PHit k v b p =>
        (* let oldval = b.0.count.fetch_add(1, SeqCst) *)
        match deref st p with
        | Some c => Next (set_pc (set_count st p c (count_inc (c_count c))) t
                                 (PInc k v b p (c_count c)))
        | None => UB
        end
    | PInc k v b p old =>
        if (old =? 0)%N then
          (* being freed by somebody: undo (count.fetch_sub(1, SeqCst)) *)
          match deref st p with
          | Some c => Next (set_pc (set_count st p c (count_dec (c_count c))) t
                                   (PUndo k v b p))
          | None => UB
          end
        else
          (* return ArcIntern { pointer }: the guard is dropped, then the arguments *)
          Next (set_pc (unlock st (lock_of v)) t (PWork (drop_args k v b) (Some (v, p))))
    | PUndo k v b p =>
        (* guard dropped, yield_now, go round again *)
        Next (set_pc (unlock st (lock_of v)) t (PLookup k v b))
    | PAlloc k v b =>
        match k, b with
        | KDst, Some q =>
            (* mem::take(&mut converted) reuses the box of an earlier round *)
            Next (set_pc st t (PEntry k v q))
        | _, _ =>
            match st_heap st !! a with
            | Some _ => Illegal
            | None => Next (set_pc (alloc st a v) t (PEntry k v (Ptr a (st_next st))))
            end
        end
    | PEntry k v q =>
        (* m.entry(BoxRefCount(b)): lock the shard and search for the box's data *)
        match data st q with
        | None => UB
        | Some d =>
            match st_locks st !! lock_of d with
            | Some _ => Blocked
            | None =>
                if readable st then
                  match pick i (matches st d) with
                  | Some _ => Next (set_pc (lock st (lock_of d) t) t (POcc k v q))
                  | None => Next (set_pc (lock st (lock_of d) t) t (PVac k v q))
                  end
                else UB
            end
        end
    | PVac k v q =>
        (* e.insert(()) *)
        Next (set_pc (set_table st (q :: st_table st)) t (PIns k v q))
    | PIns k v q =>
        (* the guard of the entry is dropped; return p *)
        Next (set_pc (unlock st (lock_of v)) t (PWork [] (Some (v, q))))
    | POcc k v q =>
        (* e.into_key() releases the guard and gives our own box back *)
        match k with
        | KSized =>
            (* val = box_ref_count.into_inner() *)
            match deref st q with
            | Some c =>
                match c_data c with
                | Some d => Next (set_pc (free (unlock st (lock_of v)) q) t
                                         (PLookup KSized d None))
                | None => UB
                end
            | None => UB
            end
        | KDst => Next (set_pc (unlock st (lock_of v)) t (PLookup KDst v (Some q)))
        end
    | PRem l q w r =>
        (* the entry q is taken out, the guard released, and the box q is about to be
           dropped (_remove, arc.rs:320-322) *)
        match deref st q with
        | Some c =>
            match c_data c with
            | Some d => Next (set_pc (take_data (unlock (set_table st
                                  (remove_entry q (st_table st))) l) q c) t
                                (PWork (drop_box d q ++ w) r))
            | None => UB
            end
        | None => UB
        end
    | PWork [] None => Next (set_pc st t PFree)
    | PWork [] (Some (v, p)) =>
        Next (add_log (set_pool (set_pc st t PFree) (p :: st_pool st)) (EvNew t v p))
    | PWork (IDrop p :: w) r =>
        (* let count_was = count.fetch_sub(1, SeqCst); if count_was == 1 *)
        match deref st p with
        | Some c => Next (set_pc (set_count st p c (count_dec (c_count c))) t
                            (PWork (if (c_count c =? 1)%N then IRemove p :: w else w) r))
        | None => UB
        end
    | PWork (IRemove p :: w) r =>
        (* m.remove(self.pointer.as_ref()): hash *pointer, lock its shard, search *)
        match data st p with
        | None => UB
        | Some d =>
            match st_locks st !! lock_of d with
            | Some _ => Blocked
            | None =>
                if readable st then
                  match pick i (matches st d) with
                  | Some q => Next (set_pc (lock st (lock_of d) t) t
                                           (PRem (lock_of d) q w r))
                  | None => Next (set_pc st t (PWork w r))
                  end
                else UB
            end
        end
    | PWork (IFree q :: w) r =>
        match deref st q with
        | Some _ => Next (set_pc (free st q) t (PWork w r))
        | None => UB
        end
    | PLen ty i acc =>
        (* DashMap::len: for each shard, take the read lock and add its length *)
        if i <? te_shards E then
          match st_locks st !! (ty, i) with
          | Some _ => Blocked
          | None => Next (set_pc st t (PLen ty (S i) (acc + shard_len st ty i)))
          end
        else Next (add_log (set_pc st t PFree) (EvLen t ty acc))
    | PShrink ty i =>
        (* DashMap::shrink_to_fit: write-lock each shard and reallocate its table *)
        if i <? te_shards E then
          match st_locks st !! (ty, i) with
          | Some _ => Blocked
          | None => Next (set_pc st t (PShrink ty (S i)))
          end
        else Next (set_pc st t PFree)
    end.

  (** ** A panic of the user's Hash/Eq during the next search of thread [t].  Guards are
      released by unwinding (dashmap's locks do not poison); locals are dropped. *)
  (** arc.rs:224-269, 293-324; arc_dst.rs:68-117. *)
  Definition step_panic st (t : nat) : outcome (state V) :=
    match get_pc st t with
    | PLookup k v b => Next (set_pc st t (PWork (drop_args k v b) None))
    | PEntry k v q =>
        (* the key passed to entry() is dropped with its box *)
        match deref st q with
        | Some c =>
            match c_data c with
            | Some d => Next (set_pc (take_data st q c) t (PWork (drop_box d q) None))
            | None => UB
            end
        | None => UB
        end
    | PWork (IRemove p :: w) r =>
        (* Drop::drop is left before the removal: the entry stays, its count is 0.  The
           rest is unwound; a return value already computed is dropped too. *)
        Next (set_pc (add_zombie st p) t
                (PWork (w ++ match r with Some (_, x) => [IDrop x] | None => [] end) None))
    | _ => Illegal
    end.

  (** Reach a handle by reference: start from a handle the client owns and repeatedly
      dereference (arc.rs:327-332, 356-362) and select a handle owned by the value. *)
  Fixpoint follow st p (ks : list ptr) : outcome ptr :=
    match ks with
    | [] => Next p
    | k :: ks' =>
        match data st p with
        | Some d => if decide (k ∈ te_kids E d) then follow st k ks' else Illegal
        | None => UB
        end
    end.
  (** Reaching a handle through the [Deref] of another: arc.rs:356-362. *)
  Definition borrow st p (ks : list ptr) : outcome ptr :=
    if decide (p ∈ st_pool st) then follow st p ks else Illegal.

  (** ** Client actions.  Ownership and borrowing are enforced: only handles the clients
      own can be cloned, dropped, forgotten or read, and a value handed to an intern
      call brings along (moves in) the handles it owns. *)
  Definition step st (l : label V) : outcome (state V) :=
    match l with
    | LNew t k v =>
        match get_pc st t with
        | PFree =>
            match k with
            | KSized =>
                match rem_all (te_kids E v) (st_pool st) with
                | Some pl => Next (set_pc (set_pool st pl) t (PLookup KSized v None))
                | None => Illegal
                end
            | KDst =>
                (* T: Copy, so the value cannot own a handle *)
                match te_kids E v with
                | [] => Next (set_pc st t (PLookup KDst v None))
                | _ => Illegal
                end
            end
        | _ => Illegal
        end
    | LDrop t p =>
        match get_pc st t with
        | PFree =>
            match rem1 p (st_pool st) with
            | Some pl => Next (set_pc (set_pool st pl) t (PWork [IDrop p] None))
            | None => Illegal
            end
        | _ => Illegal
        end
    | LClone p ks =>
        (* Clone::clone (arc.rs:272-284) *)
        match borrow st p ks with
        | Next k =>
            match deref st k with
            | Some c => Next (set_pool (set_count st k c (count_inc (c_count c)))
                                       (k :: st_pool st))
            | None => UB
            end
        | UB => UB
        | _ => Illegal
        end
    | LForget p =>
        match rem1 p (st_pool st) with
        | Some pl => Next (set_gone (set_pool st pl) (p :: st_gone st))
        | None => Illegal
        end
    | LRef p ks =>
        (* refcount (arc.rs:207-209) *)
        match borrow st p ks with
        | Next k =>
            match deref st k with
            | Some c => Next (add_log st (EvRef k (c_count c)))
            | None => UB
            end
        | UB => UB
        | _ => Illegal
        end
    | LDeref p ks =>
        (* AsRef::as_ref / Deref::deref (arc.rs:327-332, 356-362) *)
        match borrow st p ks with
        | Next k =>
            match data st k with
            | Some v => Next (add_log st (EvDeref k v))
            | None => UB
            end
        | UB => UB
        | _ => Illegal
        end
    | LLen t ty =>
        match get_pc st t with
        | PFree => Next (set_pc st t (PLen ty 0 0))
        | _ => Illegal
        end
    | LShrink t ty =>
        match get_pc st t with
        | PFree => Next (set_pc st t (PShrink ty 0))
        | _ => Illegal
        end
    | LStep t a i => step_thread st t a i
    | LPanic t => step_panic st t
    end.
End model.

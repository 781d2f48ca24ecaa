(** ArcIntern with the memory orderings of the source: /repo/src/arc.rs and the loop of
    /repo/src/arc_dst.rs, as in ArcModel.v, instrumented with what C11/Rust calls
    happens-before.

    Every step of ArcModel is decomposed into memory operations ([mops] below): accesses to
    interned objects, taking and releasing shard locks, and read-modify-writes of reference
    counts with the ordering written in the code.  Each thread carries the set of earlier
    accesses that happen before its next action; an acquire operation adds the set published
    by the release operations it reads from.

    The counts are only accessed by read-modify-writes (which read the latest value, and
    continue release sequences whatever their ordering) and by the load of [refcount()]; so
    the interleavings of ArcModel give all the values they can have, except that the load
    may in reality return an older value (WeakModel.v). *)
From stdpp Require Import gmap list numbers.
From Verif Require Import Base ArcModel.

(** [core::sync::atomic::Ordering]. Used at arc.rs:208, 231, 241, 279, 299 and 314. *)
Inductive ordering := Relaxed | Acquire | Release | AcqRel | SeqCst.
(** A rule of Rust: no counterpart in /repo. *)
Definition acquires (o : ordering) : bool :=
  match o with Acquire | AcqRel | SeqCst => true | _ => false end.
(** A rule of Rust: no counterpart in /repo. *)
Definition releases (o : ordering) : bool :=
  match o with Release | AcqRel | SeqCst => true | _ => false end.

(** The orderings used on the reference count. *)
Record orders := Orders {
  o_add : ordering;    (* fetch_add in new: arc.rs:231, arc_dst.rs:83 *)
  o_undo : ordering;   (* fetch_sub in new: arc.rs:241, arc_dst.rs:93 *)
  o_clone : ordering;  (* fetch_add in clone: arc.rs:279 *)
  o_sub : ordering;    (* fetch_sub in drop: arc.rs:299.  The fence(SeqCst) of line 314
                          that follows it is ignored *)
  o_load : ordering;   (* load in refcount(): arc.rs:208 *)
}.
(** As written at arc.rs:231, 241, 279, 299, 208; arc_dst.rs:83, 93. *)
Definition code_orders : orders := Orders SeqCst SeqCst Relaxed SeqCst Acquire.

(** How an object ([RefCount<T>], identified by the serial number of its allocation) is
    touched: its data read, its count accessed atomically, or data and count written
    non-atomically (created, or destroyed). The object is that of arc.rs:84-88. *)
Inductive how := TRead | TAtomic | TWrite.

(** An entry of the trace: who, what, and the accesses (indices into the trace) that happen
    before this one. Bookkeeping of the model, no counterpart in /repo. *)
Record access := Access { a_thread : nat; a_touch : list (nat * how); a_past : gset nat }.

(** A handle owned by a client: what it points to, what happens before it was made, and in
    addition all uses made of it so far. arc.rs:54-56. *)
Record hand := Hand { h_ptr : ptr; h_made : gset nat; h_used : gset nat }.

(** [ArcModel]'s state (arc.rs:24, 84-88) and sets of accesses. *)
Record rstate (V : Type) := RState {
  r_st : state V;
  r_seen : gmap nat (gset nat);         (* thread -> accesses happening before its next action *)
  r_lock : gmap (nat * nat) (gset nat); (* lock -> published by the last release *)
  r_count : gmap nat (gset nat);        (* object -> published by the release sequence of its count *)
  r_hands : gmap nat hand;              (* the clients' handles, by name *)
  r_msgs : gmap nat (gset nat);         (* published through the clients' own objects *)
  r_trace : list access;
}.
Global Arguments RState {V}.
Global Arguments r_st {V}.
Global Arguments r_seen {V}.
Global Arguments r_lock {V}.
Global Arguments r_count {V}.
Global Arguments r_hands {V}.
Global Arguments r_msgs {V}.
Global Arguments r_trace {V}.

(** What happens next.  Handles have names; [h] in [RStep] and [h'] in [RClone] name the new
    handle.  [RSend] and [RRecv]: any synchronisation in client code (spawning and joining
    threads, channels, mutexes): a release operation on, and an acquire operation reading
    from, an object [m] of the clients'. The calls are those of [ArcModel]: arc.rs:185-331. *)
Inductive rlabel (V : Type) :=
| RNew (t : nat) (k : kind) (v : V) (hs : list nat)  (* [hs]: the handles inside [v] *)
| RDrop (t h : nat)
| RClone (t h : nat) (ks : list ptr) (h' : nat)
| RForget (t h : nat)
| RRef (t h : nat) (ks : list ptr)
| RDeref (t h : nat) (ks : list ptr)
| RLen (t ty : nat)
| RShrink (t ty : nat)
| RStep (t a i h : nat)
| RPanic (t : nat)
| RSend (t m : nat)
| RRecv (t m : nat).
Global Arguments RNew {V}.
Global Arguments RDrop {V}.
Global Arguments RClone {V}.
Global Arguments RForget {V}.
Global Arguments RRef {V}.
Global Arguments RDeref {V}.
Global Arguments RLen {V}.
Global Arguments RShrink {V}.
Global Arguments RStep {V}.
Global Arguments RPanic {V}.
Global Arguments RSend {V}.
Global Arguments RRecv {V}.

(** Memory operations.
    Of arc.rs:185-331 and arc_dst.rs:68-117; the clients' own are not in /repo. *)
Inductive mop :=
| MTouch (l : list (nat * how))   (* one or several non-synchronising accesses *)
| MAcq (l : nat * nat)            (* take a shard lock *)
| MRel (l : nat * nat)            (* release it *)
| MRmw (k : nat) (o : ordering)   (* read-modify-write of the count of object k *)
| MLoad (k : nat) (o : ordering)  (* load of the count of object k *)
| MSend (m : nat)                 (* release operation on a client's object *)
| MRecv (m : nat).                (* acquire operation on it *)

Section race.
  Context {V : Type} (E : tyenv V) (O : orders).
  Implicit Types (st : state V) (s : rstate V) (p q : ptr).

  (** Empty containers: arc.rs:157, 167, 175. *)
  Definition rinit : rstate V := RState init ∅ ∅ ∅ ∅ ∅ [].

  (** Bookkeeping of the model, no counterpart in /repo. *)
  Definition seen s (t : nat) : gset nat := default ∅ (r_seen s !! t).
  (** Bookkeeping of the model, no counterpart in /repo. *)
  Definition lockv s l : gset nat := default ∅ (r_lock s !! l).
  (** Bookkeeping of the model, no counterpart in /repo. *)
  Definition countv s k : gset nat := default ∅ (r_count s !! k).
  (** Bookkeeping of the model, no counterpart in /repo. *)
  Definition msgv s m : gset nat := default ∅ (r_msgs s !! m).

  (** Bookkeeping of the model, no counterpart in /repo. *)
  Definition set_st s st : rstate V :=
    RState st (r_seen s) (r_lock s) (r_count s) (r_hands s) (r_msgs s) (r_trace s).
  (** Bookkeeping of the model, no counterpart in /repo. *)
  Definition set_hands s hs : rstate V :=
    RState (r_st s) (r_seen s) (r_lock s) (r_count s) hs (r_msgs s) (r_trace s).
  (** Bookkeeping of the model, no counterpart in /repo. *)
  Definition set_seen s t W : rstate V :=
    RState (r_st s) (<[t:=W]> (r_seen s)) (r_lock s) (r_count s) (r_hands s) (r_msgs s) (r_trace s).
  (** Bookkeeping of the model, no counterpart in /repo. *)
  Definition set_lockv s l W : rstate V :=
    RState (r_st s) (r_seen s) (<[l:=W]> (r_lock s)) (r_count s) (r_hands s) (r_msgs s) (r_trace s).
  (** Bookkeeping of the model, no counterpart in /repo. *)
  Definition set_countv s k W : rstate V :=
    RState (r_st s) (r_seen s) (r_lock s) (<[k:=W]> (r_count s)) (r_hands s) (r_msgs s) (r_trace s).
  (** Bookkeeping of the model, no counterpart in /repo. *)
  Definition set_msgv s m W : rstate V :=
    RState (r_st s) (r_seen s) (r_lock s) (r_count s) (r_hands s) (<[m:=W]> (r_msgs s)) (r_trace s).
  (** Record an access; it happens before whatever the thread does next.
      Bookkeeping of the model, no counterpart in /repo. *)
  Definition add_access s t touch : rstate V :=
    RState (r_st s) (<[t := {[length (r_trace s)]} ∪ seen s t]> (r_seen s)) (r_lock s)
           (r_count s) (r_hands s) (r_msgs s) (r_trace s ++ [Access t touch (seen s t)]).

  (** A rule of Rust: no counterpart in /repo. *)
  Definition apply s (t : nat) (m : mop) : rstate V :=
    match m with
    | MTouch l => add_access s t l
    | MAcq l => set_seen s t (lockv s l ∪ seen s t)
    | MRel l => set_lockv s l (seen s t ∪ lockv s l)
    | MRmw k o =>
        let s1 := if acquires o then set_seen s t (countv s k ∪ seen s t) else s in
        let s2 := add_access s1 t [(k, TAtomic)] in
        if releases o then set_countv s2 k (seen s2 t ∪ countv s2 k) else s2
    | MLoad k o =>
        let s1 := if acquires o then set_seen s t (countv s k ∪ seen s t) else s in
        add_access s1 t [(k, TAtomic)]
    | MSend m => set_msgv s m (seen s t ∪ msgv s m)
    | MRecv m => set_seen s t (msgv s m ∪ seen s t)
    end.
  (** A rule of Rust: no counterpart in /repo. *)
  Definition applies s t (ms : list mop) : rstate V := fold_left (λ x m, apply x t m) ms s.

  (** Searching a shard reads keys stored in it: any of them.
      Hash and Eq of the keys: arc.rs:90-138. *)
  Definition shard st (l : nat * nat) : list (nat * how) :=
    (λ q, (p_ser q, TRead)) <$> List.filter (in_shard E st l.1 l.2) (st_table st).

  (** The memory operations of [step_thread st t a i] of ArcModel, by program counter.
      That is: by line of arc.rs:185-331 and arc_dst.rs:68-117. *)
  Definition mops st (t i : nat) : list mop :=
    match get_pc st t with
    | PLookup k v b =>
        MAcq (lock_of E v) :: MTouch (shard st (lock_of E v)) ::
        match pick i (matches E st v) with Some _ => [] | None => [MRel (lock_of E v)] end
    | PHit k v b p => [MRmw (p_ser p) (o_add O)]
    | PInc k v b p old =>
        if (old =? 0)%N then [MRmw (p_ser p) (o_undo O)] else [MRel (lock_of E v)]
    | PUndo k v b p => [MRel (lock_of E v)]
    | PAlloc k v b =>
        match k, b with
        | KDst, Some q => []
        | _, _ => [MTouch [(st_next st, TWrite)]]
        end
    | PEntry k v q =>
        (* hash the key, then lock and search *)
        [MTouch [(p_ser q, TRead)]; MAcq (lock_of E v); MTouch (shard st (lock_of E v))]
    | PVac k v q =>
        (* insertion may grow the table and then hashes all keys in it *)
        [MTouch (shard st (lock_of E v))]
    | PIns k v q => [MRel (lock_of E v)]
    | POcc k v q =>
        MRel (lock_of E v) :: match k with KSized => [MTouch [(p_ser q, TWrite)]] | KDst => [] end
    | PRem l q w r => [MRel l; MTouch [(p_ser q, TWrite)]]
    | PWork (IDrop p :: w) r => [MRmw (p_ser p) (o_sub O)]
    | PWork (IRemove p :: w) r =>
        match data st p with
        | Some d =>
            MTouch [(p_ser p, TRead)] :: MAcq (lock_of E d) :: MTouch (shard st (lock_of E d)) ::
            match pick i (matches E st d) with Some _ => [] | None => [MRel (lock_of E d)] end
        | None => []
        end
    | PWork (IFree q :: w) r => [MTouch [(p_ser q, TWrite)]]
    | PShrink ty j =>
        (* every shard is locked in turn and rehashed *)
        if j <? te_shards E then [MAcq (ty, j); MTouch (shard st (ty, j)); MRel (ty, j)] else []
    | _ => []   (* PLen touches no object; that it takes locks is not used *)
    end.

  (** A panic of Hash, or of Eq when the lock was free: the search has read some keys.
      (arc.rs:227, 248, 322). *)
  Definition searched st (l : nat * nat) : list mop :=
    match st_locks st !! l with
    | Some _ => []
    | None => [MAcq l; MTouch (shard st l); MRel l]
    end.
  (** Unwinding from arc.rs:227, 248, 322. *)
  Definition panic_mops st (t : nat) : list mop :=
    match get_pc st t with
    | PLookup k v b => searched st (lock_of E v)
    | PEntry k v q => MTouch [(p_ser q, TRead)] :: searched st (lock_of E v) ++ [MTouch [(p_ser q, TWrite)]]
    | PWork (IRemove p :: w) r =>
        match data st p with
        | Some d => MTouch [(p_ser p, TRead)] :: searched st (lock_of E d)
        | None => []
        end
    | _ => []
    end.

  (** Following a path of handles reads the values on the way, not the last one.
      (arc.rs:327-362). *)
  Fixpoint path p (ks : list ptr) : list nat :=
    match ks with [] => [] | k :: ks' => p_ser p :: path k ks' end.
  (** arc.rs:327-362. *)
  Definition target p (ks : list ptr) : ptr := List.last ks p.

  (** A thread may use handle [h] by reference if it knows of its creation, and consume it
      (drop it, move it) if it also knows of all its uses: Rust's type system and the
      clients' synchronisation ensure that.  Otherwise, and inside a call, [None].
      A rule of Rust: no counterpart in /repo. *)
  Definition may_use s (t h : nat) : option hand :=
    match get_pc (r_st s) t, r_hands s !! h with
    | PFree, Some x => if decide (h_made x ⊆ seen s t) then Some x else None
    | _, _ => None
    end.
  (** A rule of Rust: no counterpart in /repo. *)
  Definition may_consume s (t h : nat) : option hand :=
    match may_use s t h with
    | Some x => if decide (h_used x ⊆ seen s t) then Some x else None
    | None => None
    end.
  (** A rule of Rust: no counterpart in /repo. *)
  Fixpoint consume_all s t (hs : list nat) : option (list ptr * rstate V) :=
    match hs with
    | [] => Some ([], s)
    | h :: hs' =>
        match may_consume s t h with
        | Some x =>
            match consume_all (set_hands s (delete h (r_hands s))) t hs' with
            | Some (ps, s') => Some (h_ptr x :: ps, s')
            | None => None
            end
        | None => None
        end
    end.
  (** Remember that [h] was used. Bookkeeping of the model, no counterpart in /repo. *)
  Definition used s (t h : nat) (x : hand) : rstate V :=
    set_hands s (<[h := Hand (h_ptr x) (h_made x) (seen s t ∪ h_used x)]> (r_hands s)).
  (** The handle returned: arc.rs:234-236, 251-255, 280-282. *)
  Definition new_hand s (t h : nat) p : rstate V :=
    set_hands s (<[h := Hand p (seen s t) ∅]> (r_hands s)).

  (** Run a step of ArcModel and, if it happens, continue with [f].
      Bookkeeping of the model, no counterpart in /repo. *)
  Definition lift s (l : label V) (f : rstate V -> rstate V) : outcome (rstate V) :=
    match step E (r_st s) l with
    | Next st => Next (f (set_st s st))
    | Blocked => Blocked
    | Illegal => Illegal
    | UB => UB
    end.

  (** A step of arc.rs:185-331 or arc_dst.rs:68-117 with its memory operations. *)
  Definition rstep s (l : rlabel V) : outcome (rstate V) :=
    match l with
    | RNew t k v hs =>
        match consume_all s t hs with
        | Some (ps, s') =>
            if decide (ps = te_kids E v) then lift s' (LNew t k v) (λ x, x) else Illegal
        | None => Illegal
        end
    | RDrop t h =>
        match may_consume s t h with
        | Some x => lift (set_hands s (delete h (r_hands s))) (LDrop t (h_ptr x)) (λ x, x)
        | None => Illegal
        end
    | RClone t h ks h' =>
        match may_use s t h, r_hands s !! h' with
        | Some x, None =>
            let k := target (h_ptr x) ks in
            lift s (LClone (h_ptr x) ks) (λ s,
              let s1 := applies s t [MTouch ((λ n, (n, TRead)) <$> path (h_ptr x) ks); MRmw (p_ser k) (o_clone O)] in
              new_hand (used s1 t h x) t h' k)
        | _, _ => Illegal
        end
    | RForget t h =>
        match may_consume s t h with
        | Some x => lift (set_hands s (delete h (r_hands s))) (LForget (h_ptr x)) (λ x, x)
        | None => Illegal
        end
    | RRef t h ks =>
        match may_use s t h with
        | Some x =>
            let k := target (h_ptr x) ks in
            lift s (LRef (h_ptr x) ks) (λ s,
              used (applies s t [MTouch ((λ n, (n, TRead)) <$> path (h_ptr x) ks); MLoad (p_ser k) (o_load O)]) t h x)
        | None => Illegal
        end
    | RDeref t h ks =>
        match may_use s t h with
        | Some x =>
            let k := target (h_ptr x) ks in
            lift s (LDeref (h_ptr x) ks) (λ s,
              used (applies s t [MTouch ((λ n, (n, TRead)) <$> path (h_ptr x) ks ++ [p_ser k])]) t h x)
        | None => Illegal
        end
    | RLen t ty => lift s (LLen t ty) (λ x, x)
    | RShrink t ty => lift s (LShrink t ty) (λ x, x)
    | RStep t a i h =>
        match get_pc (r_st s) t with
        | PWork [] (Some (v, p)) =>
            match r_hands s !! h with
            | None => lift s (LStep t a i) (λ s, new_hand s t h p)
            | Some _ => Illegal
            end
        | _ => lift s (LStep t a i) (λ s', applies s' t (mops (r_st s) t i))
        end
    | RPanic t => lift s (LPanic t) (λ s', applies s' t (panic_mops (r_st s) t))
    | RSend t m =>
        match get_pc (r_st s) t with PFree => Next (apply s t (MSend m)) | _ => Illegal end
    | RRecv t m =>
        match get_pc (r_st s) t with PFree => Next (apply s t (MRecv m)) | _ => Illegal end
    end.
End race.

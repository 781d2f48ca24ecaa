(** Executable model of the experimental [Intern] of /repo/src/typearena.rs ([NewIntern]
    below).  Each of its 32 containers is an [AppendOnlyVec] (crate append-only-vec) of boxed
    [Mutex<HashSet<_>>], one for each type -- or several, when threads race to create it.

    The calls, the values, the memory and what happens inside a set are those of
    [InternModel]; the environment's [ie_tid] is now [hash_of_type] of typearena.rs:29-61.
    New are the search for the set of a type, creating it, one mutex per set, and the
    panic on a poisoned mutex.  User code may panic and call back as in [InternModel]; a
    thread that panics while it is unwinding aborts the process, after which nothing
    happens. *)
From stdpp Require Import gmap list numbers.
From Verif Require Import Base InternModel.

(** A set is identified by its container and its index there: elements of an
    [AppendOnlyVec] never move. *)
Notation loc := (nat * nat)%type.

(** Frames of a thread's stack: [with_mutex_hashset], typearena.rs:23-84. *)
Inductive nframe (V Q : Type) :=
| NScan (o : iop V Q) (b : option iptr) (again : bool) (* before iter(): line 64, or again 77 *)
| NPush (o : iop V Q) (b : option iptr)           (* not found, before push: line 71 *)
| NPub (o : iop V Q) (b : option iptr) (i : nat)  (* in push: index i reserved, not yet counted *)
| NLock (o : iop V Q) (b : option iptr) (i : nat) (* found at index i, before lock(): lines 66, 79 *)
| NPanic (o : iop V Q) (b : option iptr)          (* unwrap() panicked; the arguments are dropped *)
| NIn (i : nat) (f : frame V Q).                  (* the guard of set i is held: f runs, lines 67, 80 *)
Global Arguments NScan {V Q}.
Global Arguments NPush {V Q}.
Global Arguments NPub {V Q}.
Global Arguments NLock {V Q}.
Global Arguments NPanic {V Q}.
Global Arguments NIn {V Q}.

(** The heap, [CONTAINERS] (typearena.rs:16-21), the mutexes of the sets (70-71), the threads. *)
Record nstate (V Q : Type) := NState {
  n_objs : gmap nat (iobj V);          (* live allocations, as in InternModel *)
  n_vecs : gmap nat (list nat);        (* container -> types of its published elements *)
  n_resv : gmap nat nat;               (* container -> AppendOnlyVec::reserved *)
  n_sets : gmap loc (list iptr);       (* contents of the sets *)
  n_locks : gmap loc nat;              (* set -> thread holding its mutex *)
  n_poison : gset loc;                 (* poisoned mutexes *)
  n_threads : gmap nat (list (nframe V Q));
  n_next : nat;
  n_log : list (ievent V Q);
}.
Global Arguments NState {V Q}.
Global Arguments n_objs {V Q}.
Global Arguments n_vecs {V Q}.
Global Arguments n_resv {V Q}.
Global Arguments n_sets {V Q}.
Global Arguments n_locks {V Q}.
Global Arguments n_poison {V Q}.
Global Arguments n_threads {V Q}.
Global Arguments n_next {V Q}.
Global Arguments n_log {V Q}.

Section model.
  Context {V Q : Type} (E : ienv V Q).
  Implicit Types (s : nstate V Q) (v : V) (p : iptr) (o : iop V Q).

  (** Empty vectors: typearena.rs:20-21. *)
  Definition ninit : nstate V Q := NState ∅ ∅ ∅ ∅ ∅ ∅ ∅ 0 [].

  (** ** State access *)
  (** Bookkeeping of the model, no counterpart in /repo. *)
  Definition nstack s t : list (nframe V Q) := default [] (n_threads s !! t).
  (** [CONTAINERS[i]]: typearena.rs:64, 71, 77. *)
  Definition nvec s (c : nat) : list nat := default [] (n_vecs s !! c).
  (** Indices reserved by a [push] that has not published yet: typearena.rs:71 (append_only_vec). *)
  Definition nresv s (c : nat) : nat := default 0 (n_resv s !! c).
  (** The set behind a mutex: typearena.rs:66-67, 79-80. *)
  Definition nset s (x : loc) : list iptr := default [] (n_sets s !! x).
  (** Bookkeeping of the model, no counterpart in /repo. *)
  Definition nset_stack s t k : nstate V Q :=
    NState (n_objs s) (n_vecs s) (n_resv s) (n_sets s) (n_locks s) (n_poison s) (<[t:=k]> (n_threads s)) (n_next s) (n_log s).
  (** Bookkeeping of the model, no counterpart in /repo. *)
  Definition nevent s e : nstate V Q :=
    NState (n_objs s) (n_vecs s) (n_resv s) (n_sets s) (n_locks s) (n_poison s) (n_threads s) (n_next s) (e :: n_log s).
  (** Its mutation through [f]: typearena.rs:67, 80. *)
  Definition nput s x ps : nstate V Q :=
    NState (n_objs s) (n_vecs s) (n_resv s) (<[x:=ps]> (n_sets s)) (n_locks s) (n_poison s) (n_threads s) (n_next s) (n_log s).
  (** [m.lock().unwrap()]: typearena.rs:66, 79. *)
  Definition nlock s x t : nstate V Q :=
    NState (n_objs s) (n_vecs s) (n_resv s) (n_sets s) (<[x:=t]> (n_locks s)) (n_poison s) (n_threads s) (n_next s) (n_log s).
  (** Dropping the guard; std poisons the mutex if the thread is panicking.
      The guard [m] of typearena.rs:66, 79. *)
  Definition nunlock s x (unwinding : bool) : nstate V Q :=
    NState (n_objs s) (n_vecs s) (n_resv s) (n_sets s) (delete x (n_locks s))
      (if unwinding then {[x]} ∪ n_poison s else n_poison s) (n_threads s) (n_next s) (n_log s).
  (** First half of [push]: typearena.rs:71 (append_only_vec). *)
  Definition nreserve s c : nstate V Q :=
    NState (n_objs s) (n_vecs s) (<[c := S (nresv s c)]> (n_resv s)) (n_sets s) (n_locks s) (n_poison s) (n_threads s) (n_next s) (n_log s).
  (** Second half of [push]: typearena.rs:71 (append_only_vec). *)
  Definition npublish s c ty : nstate V Q :=
    NState (n_objs s) (<[c := nvec s c ++ [ty]]> (n_vecs s)) (n_resv s) (n_sets s) (n_locks s) (n_poison s) (n_threads s) (n_next s) (n_log s).

  (** The memory alone, to use the functions of [InternModel] on it.
      Bookkeeping of the model, no counterpart in /repo. *)
  Definition nmem s : istate V Q := IState (n_objs s) ∅ ∅ ∅ ∅ (n_next s) [].
  (** Bookkeeping of the model, no counterpart in /repo. *)
  Definition with_mem s (m : istate V Q) : nstate V Q :=
    NState (i_objs m) (n_vecs s) (n_resv s) (n_sets s) (n_locks s) (n_poison s) (n_threads s) (i_next m) (n_log s).

  (** The index of the first element that downcasts to the type: typearena.rs:64-65, 77-78. *)
  Fixpoint find_ty (ty : nat) (l : list nat) : option nat :=
    match l with
    | [] => None
    | u :: l' => if u =? ty then Some 0 else S <$> find_ty ty l'
    end.

  (** A thread with such a frame on its stack is unwinding.
      typearena.rs:66, 79: the panic of [unwrap] on a poisoned mutex, or one of user code in 213-287. *)
  Definition unwinds (f : nframe V Q) : bool :=
    match f with NPanic _ _ | NIn _ (FDup _ _ RPanic) => true | _ => false end.
  (** Is the top frame inside user code? As in intern.rs: typearena.rs:213-287. *)
  Definition nin_user (f : nframe V Q) : bool :=
    match f with NPanic _ _ => true | NIn _ g => in_user g | _ => false end.

  (** ** One step of thread [t]. *)
  Definition nstep_thread s (t a j : nat) : outcome (nstate V Q) :=
    match nstack s t with
    | [] => Illegal
    | NScan o b again :: k =>
        (* iter() reads the length once, and published elements do not change.  The load of the
           length (Acquire) may give an old one, at which the type was not yet there: [j <> 0];
           but not one from before the thread's own push. *)
        match find_ty (op_ty E o) (nvec s (slot E (op_ty E o))) with
        | Some i => if (j =? 0) || again then Next (nset_stack s t (NLock o b i :: k))
                    else Next (nset_stack s t (NPush o b :: k))
        | None => if again then UB (* unreachable!(), line 83: a panic, counted as UB here *)
                  else Next (nset_stack s t (NPush o b :: k))
        end
    | NPush o b :: k =>
        (* AppendOnlyVec::push: reserved.fetch_add(1), then write the element *)
        let c := slot E (op_ty E o) in
        Next (nset_stack (nreserve s c) t (NPub o b (nresv s c) :: k))
    | NPub o b i :: k =>
        (* count.compare_exchange(i, i + 1), retried until it succeeds *)
        let c := slot E (op_ty E o) in
        if length (nvec s c) =? i
        then Next (nset_stack (npublish s c (op_ty E o)) t (NScan o b true :: k))
        else Blocked
    | NLock o b i :: k =>
        let x := (slot E (op_ty E o), i) in
        match n_locks s !! x with
        | Some _ => Blocked
        | None =>
            if bool_decide (x ∈ n_poison s) then
              (* lock() returned Err: unwrap() panics, the guard inside is dropped *)
              if existsb unwinds k then Illegal else Next (nset_stack s t (NPanic o b :: k))
            else
              let s1 := nlock s x t in
              match o with
              | OLen ty => Next (nset_stack s1 t (NIn i (FDone o (RNum (length (nset s x)))) :: k))
              | OClear ty => Next (nset_stack (nevent (nput s1 x []) (EvClr ty)) t (NIn i (FDone o RUnit) :: k))
              | _ => Next (nset_stack s1 t (NIn i (FGet o b) :: k))
              end
        end
    | NPanic o b :: k =>
        match b with
        | Some p => match ifree (nmem s) p with
                    | Some m => Next (nevent (nset_stack (with_mem s m) t k) (EvRet t o RPanic))
                    | None => UB
                    end
        | None => Next (nevent (nset_stack s t k) (EvRet t o RPanic))
        end
    | NIn i (FGet o b) :: k =>
        (* m.get(..): typearena.rs:214, 227, 262, 280 *)
        let ps := nset s (slot E (op_ty E o), i) in
        if ireadable (nmem s) ps then
          match ipick j (candidates (nmem s) (key_match E o) ps), o with
          | Some p, (ONew _ | OBox _) => Next (nset_stack s t (NIn i (FDup o b (RPtr p)) :: k))
          | Some p, (OVia _ | ORef _ _ _) => Next (nset_stack s t (NIn i (FDone o (RPtr p)) :: k))
          | None, (ONew v | OVia v) => Next (nset_stack s t (NIn i (FStore o v) :: k))
          | None, OBox v =>
              (* Box::leak(val): line 230 *)
              match b with
              | Some p => match ileak (nmem s) p with
                          | Some m => Next (nset_stack (with_mem s m) t (NIn i (FIns o p) :: k))
                          | None => UB
                          end
              | None => Illegal
              end
          | None, ORef ty w q => Next (nset_stack s t (NIn i (FConv ty w q) :: k))
          | _, _ => Illegal
          end
        else UB
    | NIn i (FStore o v) :: k =>
        (* Box::leak(Box::new(..)), Box::leak(Box::from(..)): lines 217, 265, 283 *)
        match ialloc E (nmem s) a v true with
        | Some (m, p) => Next (nset_stack (with_mem s m) t (NIn i (FIns o p) :: k))
        | None => Illegal
        end
    | NIn i (FIns o p) :: k =>
        (* m.insert(p): lines 218, 231, 266, 284 *)
        let x := (slot E (op_ty E o), i) in
        match iread (nmem s) p with
        | Some v =>
            if ireadable (nmem s) (nset s x) then
              match candidates (nmem s) (ins_match E v) (nset s x) with
              | [] => Next (nset_stack (nevent (nput s x (p :: nset s x)) (EvIns t o p v)) t
                              (NIn i (FDone o (RPtr p)) :: k))
              | _ => Next (nset_stack s t (NIn i (FDone o (RPtr p)) :: k))
              end
            else UB
        | None => UB
        end
    | NIn i (FDup o b r) :: k =>
        (* the closure, and with it the argument, is dropped before the guard *)
        match b with
        | Some p => match ifree (nmem s) p with
                    | Some m => Next (nset_stack (with_mem s m) t (NIn i (FDone o r) :: k))
                    | None => UB
                    end
        | None => Next (nset_stack s t (NIn i (FDone o r) :: k))
        end
    | NIn i (FDone o r) :: k =>
        Next (nevent (nset_stack (nunlock s (slot E (op_ty E o), i) (match r with RPanic => true | _ => false end)) t k)
                (EvRet t o r))
    | NIn _ (FConv _ _ _ | FWait _ _) :: _ => Illegal
    end.

  (** User code panics: as in [InternModel], but not while unwinding. typearena.rs:208-287. *)
  Definition nstep_panic s (t : nat) : outcome (nstate V Q) :=
    match nstack s t with
    | f :: k =>
        if existsb unwinds (f :: k) then Illegal
        else match f with
        | NIn i (FGet o b) => Next (nset_stack s t (NIn i (FDup o b RPanic) :: k))
        | NIn i (FConv ty w q) => Next (nset_stack s t (NIn i (FDone (ORef ty w q) RPanic) :: k))
        | NIn i (FIns o _) => Next (nset_stack s t (NIn i (FDone o RPanic) :: k))
        | NIn i (FDup o b _) => Next (nset_stack s t (NIn i (FDup o b RPanic) :: k))
        | _ => Illegal
        end
    | [] => Illegal
    end.

  (** The labels are those of [InternModel].  There is no [is_interned] here.
      The whole of typearena.rs:23-84, 206-308, by labels. *)
  Definition nstep s (l : ilabel V Q) : outcome (nstate V Q) :=
    match l with
    | ICall t o a =>
        if match nstack s t with f :: _ => nin_user f | [] => true end then
          match o with
          | OBox v =>
              match ialloc E (nmem s) a v false with
              | Some (m, p) => Next (nset_stack (with_mem s m) t (NScan o (Some p) false :: nstack s t))
              | None => Illegal
              end
          | OIs _ _ _ => Illegal
          | _ => Next (nset_stack s t (NScan o None false :: nstack s t))
          end
        else Illegal
    | IStep t a j => nstep_thread s t a j
    | IConv t v =>
        match nstack s t with
        | NIn i (FConv ty w q) :: k =>
            if ie_from E w q v && (ie_ty E v =? ty)
            then Next (nset_stack s t (NIn i (FStore (ORef ty w q) v) :: k))
            else Illegal
        | _ => Illegal
        end
    | IPanic t => nstep_panic s t
    | IDeref p =>
        if returned p (n_log s) then
          match iread (nmem s) p with Some v => Next (nevent s (EvRead p v)) | None => UB end
        else Illegal
    end.
End model.

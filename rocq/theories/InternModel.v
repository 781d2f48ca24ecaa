(** Executable model of [Intern]: /repo/src/intern.rs, /repo/src/container.rs and
    /repo/src/boxedset.rs.

    All user code that runs inside an [Intern] call -- Hash and Eq of the types, [T::from],
    and Drop of a value that turned out to be a duplicate -- may itself call [Intern], may
    panic, and may catch panics: every thread has a stack of frames, and whenever the top
    frame is inside user code a label may push a nested call or make it panic.

    One label is one step between synchronisation points: taking a mutex, the search,
    the conversion, the allocation, the insertion, dropping the duplicate, releasing.
    Everything between taking and releasing the mutex is protected by it. *)
From stdpp Require Import gmap list numbers.
From Verif Require Import Base.

(** [Intern<T>] is a [&'static T] (intern.rs:55-57): a machine address and, for unsized [T],
    metadata (the length).  [ip_ser] is ghost provenance: the allocation it was made for. *)
Record iptr := IPtr { ip_addr : nat; ip_meta : nat; ip_ser : nat }.
Global Instance iptr_eq_dec : EqDecision iptr.
Proof. solve_decision. Defined.

(** [Intern]'s [PartialEq::eq] (intern.rs:421-426): [core::ptr::eq], i.e. address and
    metadata. *)
Definition iptr_eqb (p q : iptr) : bool := (ip_addr p =? ip_addr q) && (ip_meta p =? ip_meta q).

(** What the user's types contribute; [V] contains the values of all types, [Q] all
    borrowed forms.  A type may implement [Borrow] for several forms, numbered. *)
Record ienv (V Q : Type) := IEnv {
  ie_ty : V -> nat;                   (* which T the value belongs to *)
  ie_eq : V -> V -> bool;             (* T::eq *)
  ie_hash : V -> nat;                 (* T::hash *)
  ie_borrow : nat -> V -> Q;          (* <T as Borrow<_>>::borrow, by number of the form *)
  ie_qeq : Q -> Q -> bool;            (* Eq of a borrowed form *)
  ie_qhash : Q -> nat;                (* Hash of a borrowed form *)
  ie_from : nat -> Q -> V -> bool;    (* T::from(&q) may return v *)
  ie_sees : nat -> nat -> bool;       (* a search for a hash also compares against entries
                                         stored under this other hash (as in ArcModel) *)
  ie_meta : V -> nat;                 (* pointer metadata of the value *)
  ie_zst : nat -> nat -> bool;        (* size_of_val is 0, by type and metadata *)
  ie_dangle : nat -> nat -> nat;      (* address of a box of a zero-sized value, by type and metadata *)
  ie_tid : nat -> N;                  (* hash_of_type::<HashSet<&'static T>>(), container.rs:85-117 *)
  ie_usize : N;                       (* 2^W: number of usize values *)
  ie_cells : N;                       (* number of containers: 32, container.rs:65 *)
}.
Global Arguments IEnv {V Q}.
Global Arguments ie_ty {V Q}.
Global Arguments ie_eq {V Q}.
Global Arguments ie_hash {V Q}.
Global Arguments ie_borrow {V Q}.
Global Arguments ie_qeq {V Q}.
Global Arguments ie_qhash {V Q}.
Global Arguments ie_from {V Q}.
Global Arguments ie_sees {V Q}.
Global Arguments ie_meta {V Q}.
Global Arguments ie_zst {V Q}.
Global Arguments ie_dangle {V Q}.
Global Arguments ie_tid {V Q}.
Global Arguments ie_usize {V Q}.
Global Arguments ie_cells {V Q}.

(** The calls. *)
Inductive iop (V Q : Type) :=
| ONew (v : V)                     (* Intern::new, From<T>, Default, Deserialize: intern.rs:210-219, 467-486 *)
| OVia (v : V)                     (* via_box: From<&str>, From<&[T]>, ...: intern.rs:120-165 *)
| OBox (v : V)                     (* From<Box<T>>: intern.rs:167-178 *)
| ORef (ty w : nat) (q : Q)        (* Intern::<ty>::from_ref(q): intern.rs:225-237 *)
| OIs (ty w : nat) (q : Q)         (* is_interned: intern.rs:274-279 *)
| OLen (ty : nat)                  (* num_objects_interned: intern.rs:249-251 *)
| OClear (ty : nat).               (* benchmarking_only_clear_interns: intern.rs:254-257 *)
Global Arguments ONew {V Q}.
Global Arguments OVia {V Q}.
Global Arguments OBox {V Q}.
Global Arguments ORef {V Q}.
Global Arguments OIs {V Q}.
Global Arguments OLen {V Q}.
Global Arguments OClear {V Q}.

(** How a call ends.
    [Intern] (intern.rs:213, 217), bool (278), usize (250), unit (256), or unwinding. *)
Inductive ires := RPtr (p : iptr) | RBool (b : bool) | RNum (n : nat) | RUnit | RPanic.

(** Frames of a thread's stack.  From [FGet] to [FDone] the container's mutex is held
    (the guard is a temporary of the expression at container.rs:119-123). *)
Inductive frame (V Q : Type) :=
| FWait (o : iop V Q) (b : option iptr)   (* before lock(): container.rs:53-62; [b] is the box given to [OBox] *)
| FGet (o : iop V Q) (b : option iptr)    (* in HashSet::get: boxedset.rs:53-67 *)
| FConv (ty w : nat) (q : Q)              (* not found, in T::from: intern.rs:233 *)
| FStore (o : iop V Q) (v : V)            (* before Box::leak(Box::new(v)): intern.rs:160, 215, 233 *)
| FIns (o : iop V Q) (p : iptr)           (* in m.insert(p): intern.rs:161, 174, 216, 234 *)
| FDup (o : iop V Q) (b : option iptr) (r : ires)  (* dropping the argument (and its box) *)
| FDone (o : iop V Q) (r : ires).         (* release the mutex and return / unwind *)
Global Arguments FWait {V Q}.
Global Arguments FGet {V Q}.
Global Arguments FConv {V Q}.
Global Arguments FStore {V Q}.
Global Arguments FIns {V Q}.
Global Arguments FDup {V Q}.
Global Arguments FDone {V Q}.

(** A heap object; [io_leaked] once [Box::leak] has been applied to its box.
    intern.rs:160, 173, 215, 233. *)
Record iobj (V : Type) := IObj { io_addr : nat; io_val : V; io_leaked : bool }.
Global Arguments IObj {V}.
Global Arguments io_addr {V}.
Global Arguments io_val {V}.
Global Arguments io_leaked {V}.

(** What happened, newest first in [i_log].  [EvIns] and [EvClr] are ghost: the object at [p]
    holding [v] entered the set of its type on behalf of call [o]; a set was emptied.
    The log has no counterpart in /repo, except that [EvRet] is the return of intern.rs:156-279 and [EvRead] is Deref (intern.rs:387-393). *)
Inductive ievent (V Q : Type) :=
| EvIns (t : nat) (o : iop V Q) (p : iptr) (v : V)
| EvClr (ty : nat)
| EvRet (t : nat) (o : iop V Q) (r : ires)
| EvRead (p : iptr) (v : V).              (* a client dereferenced handle [p] and read [v] *)
Global Arguments EvIns {V Q}.
Global Arguments EvClr {V Q}.
Global Arguments EvRet {V Q}.
Global Arguments EvRead {V Q}.

(** The process: the heap, [INTERN_CONTAINERS] (intern.rs:118; container.rs:13-15, 36-41, 66-68), the threads. *)
Record istate (V Q : Type) := IState {
  i_objs : gmap nat (iobj V);                   (* live allocations, by serial *)
  i_slots : gmap nat (list (nat * list iptr));  (* the containers: Vec<Box<dyn Any>> of sets *)
  i_locks : gmap nat nat;                       (* container -> thread holding its mutex *)
  i_poison : gset nat;                          (* mutexes poisoned by a panic *)
  i_threads : gmap nat (list (frame V Q));
  i_next : nat;
  i_log : list (ievent V Q);
}.
Global Arguments IState {V Q}.
Global Arguments i_objs {V Q}.
Global Arguments i_slots {V Q}.
Global Arguments i_locks {V Q}.
Global Arguments i_poison {V Q}.
Global Arguments i_threads {V Q}.
Global Arguments i_next {V Q}.
Global Arguments i_log {V Q}.

(** [a] is the address the allocator would return, [i] selects one of several matching
    entries.
    The calls are intern.rs:120-279, 467-486; [IDeref] is intern.rs:387-393; the other labels schedule what container.rs:119-123 runs. *)
Inductive ilabel (V Q : Type) :=
| ICall (t : nat) (o : iop V Q) (a : nat)  (* thread t (or user code running in it) starts a call *)
| IStep (t a i : nat)                      (* thread t takes its next step *)
| IConv (t : nat) (v : V)                  (* T::from, running in t, returns v *)
| IPanic (t : nat)                         (* the user code running in t panics *)
| IDeref (p : iptr).                       (* some thread dereferences a handle *)
Global Arguments ICall {V Q}.
Global Arguments IStep {V Q}.
Global Arguments IConv {V Q}.
Global Arguments IPanic {V Q}.
Global Arguments IDeref {V Q}.

Section model.
  Context {V Q : Type} (E : ienv V Q).
  Implicit Types (st : istate V Q) (v : V) (p : iptr) (o : iop V Q).

  (** Empty containers: container.rs:31-33, 71-77. *)
  Definition iinit : istate V Q := IState ∅ ∅ ∅ ∅ ∅ 0 [].

  (** The type whose set the call works on, the [T] of intern.rs:156, 169, 211, 229, 250, 256, 278. *)
  Definition op_ty o : nat :=
    match o with
    | ONew v | OVia v | OBox v => ie_ty E v
    | ORef ty _ _ | OIs ty _ _ | OLen ty | OClear ty => ty
    end.

  (** [self.containers[hash_of_type::<T>() as usize % INTERN_CONTAINER_COUNT]]
      (container.rs:120); the statics are created by [Arena::new] (container.rs:70-76) with
      [INTERN_CONTAINER_COUNT = 32] (container.rs:65), a parameter of the model. *)
  Definition slot (ty : nat) : nat := N.to_nat ((ie_tid E ty mod ie_usize E) mod ie_cells E).

  (** ** State access *)
  (** Bookkeeping of the model, no counterpart in /repo. *)
  Definition get_stack st t : list (frame V Q) := default [] (i_threads st !! t).
  (** Bookkeeping of the model, no counterpart in /repo. *)
  Definition set_stack st t s : istate V Q :=
    IState (i_objs st) (i_slots st) (i_locks st) (i_poison st) (<[t:=s]> (i_threads st)) (i_next st) (i_log st).
  (** Bookkeeping of the model, no counterpart in /repo. *)
  Definition set_objs st m : istate V Q :=
    IState m (i_slots st) (i_locks st) (i_poison st) (i_threads st) (i_next st) (i_log st).
  (** Bookkeeping of the model, no counterpart in /repo. *)
  Definition set_slots st m : istate V Q :=
    IState (i_objs st) m (i_locks st) (i_poison st) (i_threads st) (i_next st) (i_log st).
  (** Bookkeeping of the model, no counterpart in /repo. *)
  Definition add_event st e : istate V Q :=
    IState (i_objs st) (i_slots st) (i_locks st) (i_poison st) (i_threads st) (i_next st) (e :: i_log st).
  (** [self.inner.lock()]: container.rs:53-62. *)
  Definition ilock st s t : istate V Q :=
    IState (i_objs st) (i_slots st) (<[s:=t]> (i_locks st)) (i_poison st) (i_threads st) (i_next st) (i_log st).
  (** Dropping the guard; when unwinding, std's mutex is marked poisoned.
      The guard is a temporary of container.rs:119-123. *)
  Definition iunlock st s (unwinding : bool) : istate V Q :=
    IState (i_objs st) (i_slots st) (delete s (i_locks st))
      (if unwinding then {[s]} ∪ i_poison st else i_poison st) (i_threads st) (i_next st) (i_log st).

  (** ** Memory *)
  (** Reading through the [&'static T] of an entry or handle: boxedset.rs:64, intern.rs:387-393. *)
  Definition iread st p : option V := io_val <$> i_objs st !! ip_ser p.

  (** May the allocator return address [a]?  Not if a live non-empty allocation is there.
      [size_of_val] of the box of intern.rs:160, 215, 233 is 0. *)
  Definition is_zst v : bool := ie_zst E (ie_ty E v) (ie_meta E v).
  (** What std's allocator promises to intern.rs:160, 215, 233. *)
  Definition addr_free st (a : nat) : bool :=
    bool_decide (map_Forall (λ _ x, is_zst (io_val x) = true \/ io_addr x <> a) (i_objs st)).
  (** [Box::new(v)] / [Box::from(val)]: a box of a zero-sized value does not allocate but
      uses a fixed dangling address.
      intern.rs:160, 215, 233; the box given to intern.rs:168 was allocated by the client. *)
  Definition ialloc st (a : nat) v (leaked : bool) : option (istate V Q * iptr) :=
    let a' := if is_zst v then ie_dangle E (ie_ty E v) (ie_meta E v) else a in
    if is_zst v || addr_free st a then
      Some (IState (<[i_next st := IObj a' v leaked]> (i_objs st)) (i_slots st) (i_locks st)
              (i_poison st) (i_threads st) (S (i_next st)) (i_log st),
            IPtr a' (ie_meta E v) (i_next st))
    else None.
  (** Dropping a [Box]; undefined if it is not (or no longer) a box.
      The argument of intern.rs:168, 210 when intern.rs:171, 213 returns. *)
  Definition ifree st p : option (istate V Q) :=
    match i_objs st !! ip_ser p with
    | Some x => if io_leaked x then None else Some (set_objs st (delete (ip_ser p) (i_objs st)))
    | None => None
    end.
  (** [Box::leak(val)]: intern.rs:173. *)
  Definition ileak st p : option (istate V Q) :=
    match i_objs st !! ip_ser p with
    | Some x => if io_leaked x then None
                else Some (set_objs st (<[ip_ser p := IObj (io_addr x) (io_val x) true]> (i_objs st)))
    | None => None
    end.

  (** ** [TypeHolderSend::get_type_mut] (container.rs:18-30): the first element of the vector
      with the right type; a new empty set is pushed if there is none. *)
  Fixpoint find_set (ty : nat) (l : list (nat * list iptr)) : option (list iptr) :=
    match l with
    | [] => None
    | (u, s) :: l' => if u =? ty then Some s else find_set ty l'
    end.
  (** container.rs:18-30. *)
  Definition get_type_mut (ty : nat) (l : list (nat * list iptr)) : list (nat * list iptr) :=
    match find_set ty l with Some _ => l | None => l ++ [(ty, [])] end.
  (** Write to the set found by [get_type_mut].
      container.rs:24, 28; intern.rs:161, 174, 216, 234, 256. *)
  Fixpoint write_set (ty : nat) (s : list iptr) (l : list (nat * list iptr)) : list (nat * list iptr) :=
    match l with
    | [] => []
    | (u, s') :: l' => if u =? ty then (u, s) :: l' else (u, s') :: write_set ty s l'
    end.
  (** [self.containers[i]]: container.rs:120. *)
  Definition container st s : list (nat * list iptr) := default [] (i_slots st !! s).
  (** The [HashSet] that container.rs:119-123 passes to the closure. *)
  Definition set_of st ty : list iptr := default [] (find_set ty (container st (slot ty))).
  (** Its mutation: boxedset.rs:81-83, 95-97. *)
  Definition put_set st ty (s : list iptr) : istate V Q :=
    set_slots st (<[slot ty := write_set ty s (container st (slot ty))]> (i_slots st)).

  (** ** Searching a set reads its elements. *)
  (** boxedset.rs:62-66 dereferences the entries. *)
  Definition ireadable st (s : list iptr) : bool :=
    forallb (λ p, match iread st p with Some _ => true | None => false end) s.
  (** [HashSet::get] with key hash [h]: the closure of boxedset.rs:64 is evaluated on the
      stored elements under that hash (or others that are seen). *)
  Definition seen (h : nat) (d : V) : bool := (h =? ie_hash E d) || ie_sees E h (ie_hash E d).
  (** The key of a lookup: [stored.borrow() == key]. boxedset.rs:53-67. *)
  Definition key_match o (d : V) : bool :=
    match o with
    | ONew v | OVia v | OBox v => seen (ie_hash E v) d && ie_eq E d v
    | ORef _ w q | OIs _ w q => seen (ie_qhash E q) d && ie_qeq E (ie_borrow E w d) q
    | OLen _ | OClear _ => false
    end.
  (** The entries for which the closure of boxedset.rs:64 (or the Eq of 82) says yes. *)
  Definition candidates st (f : V -> bool) (s : list iptr) : list iptr :=
    List.filter (λ p, match iread st p with Some d => f d | None => false end) s.
  (** [from_hash] returns one of them: boxedset.rs:62-66. *)
  Definition ipick (i : nat) (l : list iptr) : option iptr :=
    match nth_error l i with Some q => Some q | None => head l end.
  (** hashbrown's [insert] compares [key == stored] (boxedset.rs:81-83); it keeps an equal
      key that is already there. *)
  Definition ins_match (v d : V) : bool := seen (ie_hash E v) d && ie_eq E v d.

  (** Is the top frame inside user code?
      Hash, Eq: boxedset.rs:59, 64, 82; [T::from]: intern.rs:233; Drop: intern.rs:171, 213. *)
  Definition in_user (f : frame V Q) : bool :=
    match f with FGet _ _ | FConv _ _ _ | FIns _ _ | FDup _ _ _ => true | _ => false end.

  (** ** One step of thread [t]. *)
  Definition istep_thread st (t a i : nat) : outcome (istate V Q) :=
    match get_stack st t with
    | [] => Illegal
    | FWait o b :: k =>
        let s := slot (op_ty o) in
        match i_locks st !! s with
        | Some _ => Blocked (* including a mutex held by this very thread *)
        | None =>
            (* poison is ignored: unwrap_or_else(into_inner), container.rs:57-58 *)
            let st1 := set_slots (ilock st s t) (<[s := get_type_mut (op_ty o) (container st s)]> (i_slots st)) in
            match o with
            | OLen ty => Next (set_stack st1 t (FDone o (RNum (length (set_of st1 ty))) :: k))
            | OClear ty => Next (set_stack (add_event (put_set st1 ty []) (EvClr ty)) t (FDone o RUnit :: k))
            | _ => Next (set_stack st1 t (FGet o b :: k))
            end
        end
    | FGet o b :: k =>
        let s := set_of st (op_ty o) in
        if ireadable st s then
          match ipick i (candidates st (key_match o) s), o with
          | Some p, (ONew _ | OBox _) => Next (set_stack st t (FDup o b (RPtr p) :: k))
          | Some p, (OVia _ | ORef _ _ _) => Next (set_stack st t (FDone o (RPtr p) :: k))
          | Some _, OIs _ _ _ => Next (set_stack st t (FDone o (RBool true) :: k))
          | None, (ONew v | OVia v) => Next (set_stack st t (FStore o v :: k))
          | None, OBox v =>
              (* Box::leak(val): intern.rs:173 *)
              match b with
              | Some p => match ileak st p with
                          | Some st1 => Next (set_stack st1 t (FIns o p :: k))
                          | None => UB
                          end
              | None => Illegal
              end
          | None, ORef ty w q => Next (set_stack st t (FConv ty w q :: k))
          | None, OIs _ _ _ => Next (set_stack st t (FDone o (RBool false) :: k))
          | _, (OLen _ | OClear _) => Illegal
          end
        else UB
    | FConv _ _ _ :: _ => Illegal (* returns by IConv *)
    | FStore o v :: k =>
        match ialloc st a v true with
        | Some (st1, p) => Next (set_stack st1 t (FIns o p :: k))
        | None => Illegal
        end
    | FIns o p :: k =>
        let s := set_of st (op_ty o) in
        match iread st p with
        | Some v =>
            if ireadable st s then
              match candidates st (ins_match v) s with
              | [] => Next (set_stack (add_event (put_set st (op_ty o) (p :: s)) (EvIns t o p v)) t
                              (FDone o (RPtr p) :: k))
              | _ => Next (set_stack st t (FDone o (RPtr p) :: k))
              end
            else UB
        | None => UB
        end
    | FDup o b r :: k =>
        match b with
        | Some p => match ifree st p with
                    | Some st1 => Next (set_stack st1 t (FDone o r :: k))
                    | None => UB
                    end
        | None => Next (set_stack st t (FDone o r :: k))
        end
    | FDone o r :: k =>
        Next (add_event (set_stack (iunlock st (slot (op_ty o)) (match r with RPanic => true | _ => false end)) t k)
                (EvRet t o r))
    end.

  (** User code panics.  The argument of the call is dropped while unwinding, then the
      guard is released. intern.rs:156-237; container.rs:57-58 ignores the poison. *)
  Definition istep_panic st (t : nat) : outcome (istate V Q) :=
    match get_stack st t with
    | FGet o b :: k => Next (set_stack st t (FDup o b RPanic :: k))
    | FConv ty w q :: k => Next (set_stack st t (FDone (ORef ty w q) RPanic :: k))
    | FIns o _ :: k => Next (set_stack st t (FDone o RPanic :: k))
    | FDup o b RPanic :: k => Illegal (* a panic while unwinding aborts the process *)
    | FDup o b _ :: k => Next (set_stack st t (FDup o b RPanic :: k)) (* Drop panics; the box is still freed *)
    | _ => Illegal
    end.

  (** A client has handle [p], returned by intern.rs:156-237. *)
  Definition returned p (l : list (ievent V Q)) : bool :=
    existsb (λ e, match e with EvRet _ _ (RPtr q) => bool_decide (q = p) | _ => false end) l.

  (** The whole of intern.rs:156-279 with container.rs:79-124 and boxedset.rs:53-97, by labels. *)
  Definition istep st (l : ilabel V Q) : outcome (istate V Q) :=
    match l with
    | ICall t o a =>
        if match get_stack st t with f :: _ => in_user f | [] => true end then
          match o with
          | OBox v =>
              (* the client's box *)
              match ialloc st a v false with
              | Some (st1, p) => Next (set_stack st1 t (FWait o (Some p) :: get_stack st t))
              | None => Illegal
              end
          | _ => Next (set_stack st t (FWait o None :: get_stack st t))
          end
        else Illegal
    | IStep t a i => istep_thread st t a i
    | IConv t v =>
        match get_stack st t with
        | FConv ty w q :: k =>
            if ie_from E w q v && (ie_ty E v =? ty)
            then Next (set_stack st t (FStore (ORef ty w q) v :: k))
            else Illegal
        | _ => Illegal
        end
    | IPanic t => istep_panic st t
    | IDeref p =>
        if returned p (i_log st) then
          match iread st p with Some v => Next (add_event st (EvRead p v)) | None => UB end
        else Illegal
    end.
End model.

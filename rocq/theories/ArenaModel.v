(** Executable model of [Arena] and [ArenaIntern]: /repo/src/arena.rs with
    /repo/src/boxedset.rs.

    Any number of arenas, created and dropped by any thread.  As in InternModel.v user code
    (Hash, Eq, Borrow, From, Drop) may run nested calls on arenas and may panic: every thread
    has a stack of frames.  The user's types are an [ienv] as there (its [ie_tid] and
    [ie_usize] play no role); pointers are [iptr].

    Handles ([ArenaIntern<'a, T>], arena.rs:81-83) borrow the arena, so they can be
    dereferenced while the arena is alive, and the arena can be dropped only when no call on
    it is running. *)
From stdpp Require Import gmap list numbers.
From Verif Require Import Base InternModel.

(** The calls.  [AOwned] and [ABox] go through [intern_from_owned] (arena.rs:156-174); the
    argument of [AOwned] is a String, Vec, CString, OsString or PathBuf, whose conversion
    to a box keeps the contents but may move them. *)
Inductive aop (V Q : Type) :=
| ANew (v : V)            (* intern of a sized value: arena.rs:118-132 *)
| ARef (w : nat) (q : Q)  (* intern_ref, intern_from, and intern of &str, &[T], ...: arena.rs:136-155, 406-424 *)
| AOwned (v : V)          (* intern_string, intern_vec, ...: arena.rs:192-194, 239-241, 296-298, 353-355, 391-393 *)
| ABox (v : V).           (* intern_box: arena.rs:201-203, 257-259, 314-316, 371-373, 400-402 *)
Global Arguments ANew {V Q}.
Global Arguments ARef {V Q}.
Global Arguments AOwned {V Q}.
Global Arguments ABox {V Q}.

(** How a call ends. arena.rs:118-174: an [ArenaIntern], or unwinding. *)
Inductive ares := AP (p : iptr) | APanic.

(** Frames.  [r] is the arena; from [AGet] to [ARel] its mutex is held.  [b] is the heap
    block of the argument of [AOwned] and [ABox]; the call still owns it in [AWait], [AGet],
    [AStore], and in [ARel] and [AArg] if [mine]; elsewhere it is ghost ([None] for
    [AOwned], whose buffer is gone). *)
Inductive aframe (V Q : Type) :=
| AWait (r : nat) (o : aop V Q) (b : option iptr)  (* get_mut: arena.rs:59-68 *)
| AGet (r : nat) (o : aop V Q) (b : option iptr)   (* in m.get: arena.rs:120, 143, 162, 412 *)
| AConv (r : nat) (w : nat) (q : Q)                (* in val.into(): arena.rs:149, 418 *)
| AStore (r : nat) (o : aop V Q) (v : V) (b : option iptr) (* the allocation: arena.rs:126, 149, 168, 418 *)
| AIns (r : nat) (o : aop V Q) (b : option iptr) (p : iptr) (* in m.insert(b): arena.rs:128, 151, 170, 420 *)
| AKill (r : nat) (o : aop V Q) (b : option iptr) (p : iptr) (panic : bool) (* insert found an equal key, or
                                                      unwinds: it drops the box it was given *)
| AMake (r : nat) (o : aop V Q) (b : option iptr) (p : iptr) (* [&*p]: arena.rs:130, 153, 172, 422 *)
| ARel (r : nat) (o : aop V Q) (b : option iptr) (mine : bool) (x : ares) (* drop the guard (the local [m]) *)
| AArg (r : nat) (o : aop V Q) (b : option iptr) (mine : bool) (x : ares) (* then drop the argument if it was not moved *)
| ADead (r : nat) (ps : list iptr).                (* drop of the arena; the boxes left *)
Global Arguments AWait {V Q}.
Global Arguments AGet {V Q}.
Global Arguments AConv {V Q}.
Global Arguments AStore {V Q}.
Global Arguments AIns {V Q}.
Global Arguments AKill {V Q}.
Global Arguments AMake {V Q}.
Global Arguments ARel {V Q}.
Global Arguments AArg {V Q}.
Global Arguments ADead {V Q}.

(** A heap block. The boxes of arena.rs:53, 126, 149, 168. *)
Record aobj (V : Type) := AObj { ao_addr : nat; ao_val : V }.
Global Arguments AObj {V}.
Global Arguments ao_addr {V}.
Global Arguments ao_val {V}.

(** Newest first in the log.  [AvIns], [AvFree] and [AvLeak] are ghost.
    The log has no counterpart in /repo, except that [AvRet] is the return of arena.rs:118-174. *)
Inductive aevent (V Q : Type) :=
| AvIns (t r : nat) (o : aop V Q) (p : iptr) (v : V)  (* the box at [p] entered the set of arena [r] *)
| AvRet (t r : nat) (o : aop V Q) (b : option iptr) (x : ares)  (* [b] was its argument *)
| AvRead (r : nat) (p : iptr) (v : V)
| AvFree (w : option nat) (p : iptr)  (* a box is freed; [w]: by the drop of this arena *)
| AvNew (r ty : nat)
| AvDrop (r : nat)                    (* drop of the arena starts *)
| AvGone (r : nat)                    (* and has finished *)
| AvLeak (r : nat) (ps : list iptr).  (* or panicked: these boxes are leaked *)
Global Arguments AvIns {V Q}.
Global Arguments AvRet {V Q}.
Global Arguments AvRead {V Q}.
Global Arguments AvFree {V Q}.
Global Arguments AvNew {V Q}.
Global Arguments AvDrop {V Q}.
Global Arguments AvGone {V Q}.
Global Arguments AvLeak {V Q}.

(** An arena of type [ar_ty]: its set owns boxes (arena.rs:51-56). *)
Record arena := Ar { ar_ty : nat; ar_set : list iptr }.

(** The heap, the arenas (arena.rs:51-56), their mutexes, the threads. *)
Record astate (V Q : Type) := AState {
  a_objs : gmap nat (aobj V);          (* live blocks, by serial *)
  a_arenas : gmap nat arena;           (* live arenas *)
  a_locks : gmap nat nat;              (* arena -> thread holding its mutex *)
  a_poison : gset nat;
  a_threads : gmap nat (list (aframe V Q));
  a_next : nat;                        (* next serial *)
  a_nextr : nat;                       (* next arena *)
  a_log : list (aevent V Q);
}.
Global Arguments AState {V Q}.
Global Arguments a_objs {V Q}.
Global Arguments a_arenas {V Q}.
Global Arguments a_locks {V Q}.
Global Arguments a_poison {V Q}.
Global Arguments a_threads {V Q}.
Global Arguments a_next {V Q}.
Global Arguments a_nextr {V Q}.
Global Arguments a_log {V Q}.

(** [a] is the address the allocator would return, [i] selects one of several matching
    entries. *)
Inductive alabel (V Q : Type) :=
| LArena (t ty : nat)                      (* Arena::new: arena.rs:103-110 *)
| LCall (t r : nat) (o : aop V Q) (a : nat)
| LStep (t a i : nat)
| LConv (t : nat) (v : V)                  (* the conversion running in t returns v *)
| LPanic (t : nat)                         (* the user code running in t panics *)
| LRead (r : nat) (p : iptr)               (* as_ref, deref, into_ref of a handle: arena.rs:434-447, 510-512 *)
| LDrop (t r : nat).                       (* t drops arena r *)
Global Arguments LArena {V Q}.
Global Arguments LCall {V Q}.
Global Arguments LStep {V Q}.
Global Arguments LConv {V Q}.
Global Arguments LPanic {V Q}.
Global Arguments LRead {V Q}.
Global Arguments LDrop {V Q}.

Section model.
  Context {V Q : Type} (E : ienv V Q).
  Implicit Types (st : astate V Q) (v : V) (p : iptr) (o : aop V Q).

  (** No arena yet: arena.rs:103-110 makes one. *)
  Definition ainit : astate V Q := AState ∅ ∅ ∅ ∅ ∅ 0 0 [].

  (** ** State access *)
  (** Bookkeeping of the model, no counterpart in /repo. *)
  Definition a_stack st t : list (aframe V Q) := default [] (a_threads st !! t).
  (** Bookkeeping of the model, no counterpart in /repo. *)
  Definition a_set_stack st t k : astate V Q :=
    AState (a_objs st) (a_arenas st) (a_locks st) (a_poison st) (<[t:=k]> (a_threads st)) (a_next st) (a_nextr st) (a_log st).
  (** Bookkeeping of the model, no counterpart in /repo. *)
  Definition a_event st e : astate V Q :=
    AState (a_objs st) (a_arenas st) (a_locks st) (a_poison st) (a_threads st) (a_next st) (a_nextr st) (e :: a_log st).
  (** [self.data.lock()]: arena.rs:59-68. *)
  Definition a_lock st r t : astate V Q :=
    AState (a_objs st) (a_arenas st) (<[r:=t]> (a_locks st)) (a_poison st) (a_threads st) (a_next st) (a_nextr st) (a_log st).
  (** Drop of the guard [m] of arena.rs:119, 142, 161; std marks the mutex poisoned when unwinding. *)
  Definition a_unlock st r (unwinding : bool) : astate V Q :=
    AState (a_objs st) (a_arenas st) (delete r (a_locks st))
      (if unwinding then {[r]} ∪ a_poison st else a_poison st) (a_threads st) (a_next st) (a_nextr st) (a_log st).
  (** Bookkeeping of the model, no counterpart in /repo. *)
  Definition a_put st m : astate V Q :=
    AState (a_objs st) m (a_locks st) (a_poison st) (a_threads st) (a_next st) (a_nextr st) (a_log st).
  (** The [HashSet<Box<T>>] of the arena: arena.rs:53. *)
  Definition a_set st r : list iptr := match a_arenas st !! r with Some x => ar_set x | None => [] end.

  (** ** Memory (as in InternModel) *)
  (** boxedset.rs:64, arena.rs:123, 130. *)
  Definition a_read st p : option V := ao_val <$> a_objs st !! ip_ser p.
  (** What std's allocator promises to arena.rs:126, 149, 168. *)
  Definition a_free_addr st (a : nat) : bool :=
    bool_decide (map_Forall (λ _ x, is_zst E (ao_val x) = true \/ ao_addr x <> a) (a_objs st)).
  (** [Box::new(val)], [val.into()]: arena.rs:126, 149, 168. *)
  Definition a_alloc st (a : nat) v : option (astate V Q * iptr) :=
    let a' := if is_zst E v then ie_dangle E (ie_ty E v) (ie_meta E v) else a in
    if is_zst E v || a_free_addr st a then
      Some (AState (<[a_next st := AObj a' v]> (a_objs st)) (a_arenas st) (a_locks st)
              (a_poison st) (a_threads st) (S (a_next st)) (a_nextr st) (a_log st),
            IPtr a' (ie_meta E v) (a_next st))
    else None.
  (** Dropping a box; undefined if it is not there any more.
      arena.rs:122, 164 (the argument), boxedset.rs:82 (a duplicate), drop of arena.rs:51-56. *)
  Definition a_free st w p : option (astate V Q) :=
    match a_objs st !! ip_ser p with
    | Some _ => Some (AState (delete (ip_ser p) (a_objs st)) (a_arenas st) (a_locks st)
                        (a_poison st) (a_threads st) (a_next st) (a_nextr st) (AvFree w p :: a_log st))
    | None => None
    end.
  (** The same if there is a box: arena.rs:156-174. *)
  Definition a_free_opt st (b : option iptr) : option (astate V Q) :=
    match b with Some p => a_free st None p | None => Some st end.

  (** ** Searching *)
  (** boxedset.rs:62-66 dereferences the entries. *)
  Definition a_readable st (s : list iptr) : bool :=
    forallb (λ p, match a_read st p with Some _ => true | None => false end) s.
  (** [HashSet::get]: [stored.borrow() == key] (boxedset.rs:53-67). *)
  Definition a_match o (d : V) : bool :=
    match o with
    | ANew v | AOwned v | ABox v => seen E (ie_hash E v) d && ie_eq E d v
    | ARef w q => seen E (ie_qhash E q) d && ie_qeq E (ie_borrow E w d) q
    end.
  (** The entries for which the closure of boxedset.rs:64 (or the Eq of 82) says yes. *)
  Definition a_cands st (f : V -> bool) (s : list iptr) : list iptr :=
    List.filter (λ p, match a_read st p with Some d => f d | None => false end) s.

  (** Does the end of the call drop an argument?  [ARef] has a reference. arena.rs:118, 136, 156. *)
  Definition a_drops o (mine : bool) : bool := match o with ARef _ _ => false | _ => mine end.
  (** Is the top frame inside user code?
      Hash, Eq: boxedset.rs:59, 64, 82; [into]: arena.rs:149, 168; Drop: arena.rs:122, 164, 51-56. *)
  Definition a_user (f : aframe V Q) : bool :=
    match f with
    | AGet _ _ _ | AConv _ _ _ | AIns _ _ _ _ | AKill _ _ _ _ _ | ADead _ (_ :: _) => true
    | AArg _ o _ mine _ => a_drops o mine
    | _ => false
    end.

  (** ** One step of thread [t] *)
  Definition a_step_thread st (t a i : nat) : outcome (astate V Q) :=
    match a_stack st t with
    | [] => Illegal
    | AWait r o b :: k =>
        match a_locks st !! r with
        | Some _ => Blocked
        | None => Next (a_set_stack (a_lock st r t) t (AGet r o b :: k)) (* poison is ignored: arena.rs:64 *)
        end
    | AGet r o b :: k =>
        if a_readable st (a_set st r) then
          match ipick i (a_cands st (a_match o) (a_set st r)), o with
          | Some p, _ => Next (a_set_stack st t (ARel r o b true (AP p) :: k))
          | None, ANew v => Next (a_set_stack st t (AStore r o v None :: k))
          | None, ARef w q => Next (a_set_stack st t (AConv r w q :: k))
          | None, AOwned v => Next (a_set_stack st t (AStore r o v b :: k))
          | None, ABox v => match b with
                            | Some p => Next (a_set_stack st t (AIns r o b p :: k))
                            | None => Illegal
                            end
          end
        else UB
    | AConv _ _ _ :: _ => Illegal (* returns by LConv *)
    | AStore r o v b :: k =>
        match b with
        | Some q => (* the old buffer goes, or is handed to realloc *)
            match a_free st None q with
            | Some st1 => Next (a_set_stack st1 t (AStore r o v None :: k))
            | None => UB
            end
        | None =>
            match a_alloc st a v with
            | Some (st1, p) => Next (a_set_stack st1 t (AIns r o None p :: k))
            | None => Illegal
            end
        end
    | AIns r o b p :: k =>
        match a_read st p, a_arenas st !! r with
        | Some v, Some x =>
            if a_readable st (ar_set x) then
              match a_cands st (ins_match E v) (ar_set x) with
              | [] => Next (a_set_stack (a_event (a_put st (<[r := Ar (ar_ty x) (p :: ar_set x)]> (a_arenas st)))
                                           (AvIns t r o p v)) t (AMake r o b p :: k))
              | _ => Next (a_set_stack st t (AKill r o b p false :: k))
              end
            else UB
        | _, _ => UB
        end
    | AKill r o b p panic :: k =>
        match a_free st None p with
        | Some st1 => Next (a_set_stack st1 t ((if panic then ARel r o b false APanic else AMake r o b p) :: k))
        | None => UB
        end
    | AMake r o b p :: k => (* a dangling reference is undefined behaviour *)
        match a_read st p with
        | Some _ => Next (a_set_stack st t (ARel r o b false (AP p) :: k))
        | None => UB
        end
    | ARel r o b mine x :: k =>
        Next (a_set_stack (a_unlock st r (match x with APanic => true | _ => false end)) t (AArg r o b mine x :: k))
    | AArg r o b mine x :: k =>
        match a_free_opt st (if mine then b else None) with
        | Some st1 => Next (a_event (a_set_stack st1 t k) (AvRet t r o b x))
        | None => UB
        end
    | ADead r [] :: k => Next (a_event (a_set_stack st t k) (AvGone r))
    | ADead r (p :: ps) :: k =>
        match a_free st (Some r) p with
        | Some st1 => Next (a_set_stack st1 t (ADead r ps :: k))
        | None => UB
        end
    end.

  (** User code panics.  Locals are dropped in reverse order: the box being inserted, the
      guard, the argument.  A second panic aborts.  If the drop of a box's contents panics,
      its memory is still freed; the rest of a dropped arena is leaked.
      arena.rs:118-174; arena.rs:64 ignores the poison. *)
  Definition a_step_panic st (t : nat) : outcome (astate V Q) :=
    match a_stack st t with
    | AGet r o b :: k => Next (a_set_stack st t (ARel r o b true APanic :: k))
    | AConv r w q :: k => Next (a_set_stack st t (ARel r (ARef w q) None false APanic :: k))
    | AIns r o b p :: k => Next (a_set_stack st t (AKill r o b p true :: k))
    | AKill r o b p false :: k => Next (a_set_stack st t (AKill r o b p true :: k))
    | AArg r o b mine (AP _) :: k =>
        if a_drops o mine then Next (a_set_stack st t (AArg r o b mine APanic :: k)) else Illegal
    | ADead r (p :: ps) :: k =>
        match a_free st (Some r) p with
        | Some st1 => Next (a_event (a_set_stack st1 t k) (AvLeak r ps))
        | None => UB
        end
    | _ => Illegal
    end.

  (** Was [p] returned by a call on arena [r]? arena.rs:118-174. *)
  Definition a_returned r p (l : list (aevent V Q)) : bool :=
    existsb (λ e, match e with AvRet _ r' _ _ (AP q) => (r' =? r) && bool_decide (q = p) | _ => false end) l.

  (** The arena a frame's call borrows. [&self]: arena.rs:118, 136, 156. *)
  Definition a_arena (f : aframe V Q) : option nat :=
    match f with
    | AWait r _ _ | AGet r _ _ | AConv r _ _ | AStore r _ _ _ | AIns r _ _ _ | AKill r _ _ _ _
    | AMake r _ _ _ | ARel r _ _ _ _ | AArg r _ _ _ _ => Some r
    | ADead _ _ => None
    end.
  (** No call borrows the arena ([&self]: arena.rs:118, 136, 156), so its owner may drop it. *)
  Definition a_idle st r : bool :=
    bool_decide (map_Forall (λ _ k, Forall (λ f, a_arena f <> Some r) k) (a_threads st)).
  (** The thread runs client code or user code called by arena.rs:118-174. *)
  Definition a_ready st t : bool := match a_stack st t with f :: _ => a_user f | [] => true end.

  (** The whole of arena.rs:100-174 and the drop of arena.rs:51-56, by labels. *)
  Definition astep st (l : alabel V Q) : outcome (astate V Q) :=
    match l with
    | LArena t ty =>
        if a_ready st t then
          Next (AState (a_objs st) (<[a_nextr st := Ar ty []]> (a_arenas st)) (a_locks st) (a_poison st)
                  (a_threads st) (a_next st) (S (a_nextr st)) (AvNew (a_nextr st) ty :: a_log st))
        else Illegal
    | LCall t r o a =>
        match a_arenas st !! r with
        | Some x =>
            if a_ready st t then
              match o with
              | ARef _ _ => Next (a_set_stack st t (AWait r o None :: a_stack st t))
              | ANew v => if ie_ty E v =? ar_ty x then Next (a_set_stack st t (AWait r o None :: a_stack st t)) else Illegal
              | AOwned v | ABox v =>
                  if ie_ty E v =? ar_ty x then
                    match a_alloc st a v with
                    | Some (st1, p) => Next (a_set_stack st1 t (AWait r o (Some p) :: a_stack st t))
                    | None => Illegal
                    end
                  else Illegal
              end
            else Illegal
        | None => Illegal
        end
    | LStep t a i => a_step_thread st t a i
    | LConv t v =>
        match a_stack st t with
        | AConv r w q :: k =>
            if ie_from E w q v && bool_decide (Some (ie_ty E v) = ar_ty <$> a_arenas st !! r)
            then Next (a_set_stack st t (AStore r (ARef w q) v None :: k))
            else Illegal
        | _ => Illegal
        end
    | LPanic t => a_step_panic st t
    | LRead r p =>
        if a_returned r p (a_log st) then
          match a_arenas st !! r, a_read st p with
          | Some _, Some v => Next (a_event st (AvRead r p v))
          | Some _, None => UB
          | None, _ => Illegal
          end
        else Illegal
    | LDrop t r =>
        match a_arenas st !! r with
        | Some x => if a_ready st t && a_idle st r then
                      Next (a_event (a_set_stack (a_put st (delete r (a_arenas st))) t (ADead r (ar_set x) :: a_stack st t))
                              (AvDrop r))
                    else Illegal
        | None => Illegal
        end
    end.
End model.

(** The atomic interner: what ArcIntern (/repo/src/arc.rs, /repo/src/arc_dst.rs) is supposed to
    be.  No locks, no table, no memory, no retry: the objects that have handles, and every
    operation takes effect in one indivisible action.  And what a client can see of an
    execution of ArcModel. *)
From stdpp Require Import gmap list numbers.
From Verif Require Import Base ArcModel.

Global Instance ptr_countable : Countable ptr.
Proof.
  refine (inj_countable' (λ p, (p_addr p, p_ser p)) (λ x, Ptr x.1 x.2) _). by intros [].
Defined.

(** What a thread still has to do before its operation returns: give up a handle, or destroy
    the value of an object that has lost its last handle. *)
Inductive todo (V : Type) := Release (p : ptr) | Bury (v : V).
Global Arguments Release {V}.
Global Arguments Bury {V}.

(** A thread: outside, asking for a handle to [v], or finishing and then returning [r] (a
    handle for a value, or nothing). *)
Inductive athread (V : Type) :=
| TIdle
| TCall (v : V)
| TWork (w : list (todo V)) (r : option (V * ptr)).
Global Arguments TIdle {V}.
Global Arguments TCall {V}.
Global Arguments TWork {V}.

Record atom (V : Type) := Atom {
  at_objs : gmap ptr (V * nat);       (* object -> its value and how many handles it has *)
  at_owned : list ptr;                (* handles owned by clients *)
  at_threads : gmap nat (athread V);
}.
Global Arguments Atom {V}.
Global Arguments at_objs {V}.
Global Arguments at_owned {V}.
Global Arguments at_threads {V}.

(** Actions; [AHit], [AMiss], [ARelease] and [ABury] are internal. *)
Inductive act (V : Type) :=
| ACall (t : nat) (v : V)                           (* an intern function is called *)
| AHit (t : nat) (p : ptr)                          (* it takes effect: there is an equal object *)
| AMiss (t : nat) (p : ptr)                         (* or there is none, and one is made *)
| ADrop (t : nat) (p : ptr)                         (* drop is called *)
| ARelease (t : nat)                                (* a handle ceases to exist *)
| ABury (t : nat)                                   (* a value is destroyed *)
| ARet (t : nat) (r : option (V * ptr))             (* an operation returns *)
| APanic (t : nat)                                  (* or panics *)
| AClone (p : ptr) (ks : list ptr) (k : ptr)        (* clone: the new handle is [k] *)
| AForget (p : ptr)
| ARef (p : ptr) (ks : list ptr) (k : ptr) (n : N)  (* refcount() returns [n] *)
| ADeref (p : ptr) (ks : list ptr) (k : ptr) (v : V). (* the value read is [v] *)
Global Arguments ACall {V}.
Global Arguments AHit {V}.
Global Arguments AMiss {V}.
Global Arguments ADrop {V}.
Global Arguments ARelease {V}.
Global Arguments ABury {V}.
Global Arguments ARet {V}.
Global Arguments APanic {V}.
Global Arguments AClone {V}.
Global Arguments AForget {V}.
Global Arguments ARef {V}.
Global Arguments ADeref {V}.

Section atom.
  Context {V : Type} (E : tyenv V).
  Implicit Types (a : atom V) (v d : V) (p k : ptr).

  Definition ainit : atom V := Atom ∅ [] ∅.
  Definition thread a t : athread V := default TIdle (at_threads a !! t).
  Definition put a t x : atom V := Atom (at_objs a) (at_owned a) (<[t:=x]> (at_threads a)).
  Definition set_objs a m : atom V := Atom m (at_owned a) (at_threads a).
  Definition set_owned a l : atom V := Atom (at_objs a) l (at_threads a).

  (** [k] is reached from the client's handle [p] through values that own handles. *)
  Fixpoint reaches a p (ks : list ptr) k : Prop :=
    match ks with
    | [] => k = p
    | x :: ks' => exists d n, at_objs a !! p = Some (d, n) /\ x ∈ te_kids E d /\ reaches a x ks' k
    end.

  (** One more, one less handle to [p]. *)
  Definition more p d n (m : gmap ptr (V * nat)) : gmap ptr (V * nat) := <[p := (d, S n)]> m.
  Definition less p d n (m : gmap ptr (V * nat)) : gmap ptr (V * nat) :=
    if n =? 1 then delete p m else <[p := (d, n - 1)]> m.

  Inductive atomic a : act V -> atom V -> Prop :=
  | at_call t v l :
      (* the handles inside [v] are moved in *)
      thread a t = TIdle -> rem_all (te_kids E v) (at_owned a) = Some l ->
      atomic a (ACall t v) (put (set_owned a l) t (TCall v))
  | at_hit t v p d n :
      (* [v] itself is not needed: its handles are dropped before the call returns *)
      thread a t = TCall v -> at_objs a !! p = Some (d, n) -> te_eq E v d = true ->
      atomic a (AHit t p)
        (put (set_objs a (more p d n (at_objs a))) t (TWork (Release <$> te_kids E v) (Some (v, p))))
  | at_miss t v p :
      thread a t = TCall v ->
      (forall q d n, at_objs a !! q = Some (d, n) -> te_eq E v d = false /\ p_addr q <> p_addr p) ->
      atomic a (AMiss t p) (put (set_objs a (<[p := (v, 1)]> (at_objs a))) t (TWork [] (Some (v, p))))
  | at_drop t p l :
      thread a t = TIdle -> rem1 p (at_owned a) = Some l ->
      atomic a (ADrop t p) (put (set_owned a l) t (TWork [Release p] None))
  | at_release t p w r d n :
      thread a t = TWork (Release p :: w) r -> at_objs a !! p = Some (d, n) ->
      atomic a (ARelease t)
        (put (set_objs a (less p d n (at_objs a))) t (TWork (if n =? 1 then Bury d :: w else w) r))
  | at_bury t d w r :
      thread a t = TWork (Bury d :: w) r ->
      atomic a (ABury t) (put a t (TWork ((Release <$> te_kids E d) ++ w) r))
  | at_ret t r :
      thread a t = TWork [] r ->
      atomic a (ARet t r) (put (set_owned a (match r with Some (_, p) => p :: at_owned a | None => at_owned a end)) t TIdle)
  | at_panic_call t v :
      thread a t = TCall v -> atomic a (APanic t) (put a t (TWork (Release <$> te_kids E v) None))
  | at_panic_bury t d w r :
      (* the value is not destroyed, now or later; the rest is done *)
      thread a t = TWork (Bury d :: w) r ->
      atomic a (APanic t)
        (put a t (TWork (w ++ match r with Some (_, p) => [Release p] | None => [] end) None))
  | at_clone p ks k d n :
      p ∈ at_owned a -> reaches a p ks k -> at_objs a !! k = Some (d, n) ->
      atomic a (AClone p ks k) (set_owned (set_objs a (more k d n (at_objs a))) (k :: at_owned a))
  | at_forget p l :
      rem1 p (at_owned a) = Some l -> atomic a (AForget p) (set_owned a l)
  | at_ref p ks k d n :
      p ∈ at_owned a -> reaches a p ks k -> at_objs a !! k = Some (d, n) ->
      atomic a (ARef p ks k (N.of_nat n)) a
  | at_deref p ks k d n :
      p ∈ at_owned a -> reaches a p ks k -> at_objs a !! k = Some (d, n) ->
      atomic a (ADeref p ks k d) a.

  Inductive atomics : atom V -> list (act V) -> atom V -> Prop :=
  | ats_nil a : atomics a [] a
  | ats_cons a x a' xs a'' : atomic a x a' -> atomics a' xs a'' -> atomics a (x :: xs) a''.

  Definition internal (x : act V) : bool :=
    match x with AHit _ _ | AMiss _ _ | ARelease _ | ABury _ => true | _ => false end.
  Definition visible (xs : list (act V)) : list (act V) := List.filter (λ x, negb (internal x)) xs.

  (** The thread an action belongs to. *)
  Definition act_thread (x : act V) : option nat :=
    match x with
    | ACall t _ | AHit t _ | AMiss t _ | ADrop t _ | ARelease t | ABury t | ARet t _ | APanic t => Some t
    | AClone _ _ _ | AForget _ | ARef _ _ _ _ | ADeref _ _ _ _ => None
    end.

  (** What a client sees of a step of ArcModel: calls, returns with their results, panics.
      [num_objects_interned] and [shrink_to_fit] are left out: the former is not atomic
      (C08), the latter has no effect (C17). *)
  Definition sight (st : state V) (l : label V) (st' : state V) : list (act V) :=
    match l with
    | LNew t _ v => [ACall t v]
    | LDrop t p => [ADrop t p]
    | LClone p ks => match st_pool st' with k :: _ => [AClone p ks k] | [] => [] end
    | LForget p => [AForget p]
    | LRef p ks => match st_log st' with EvRef k n :: _ => [ARef p ks k n] | _ => [] end
    | LDeref p ks => match st_log st' with EvDeref k d :: _ => [ADeref p ks k d] | _ => [] end
    | LStep t _ _ => match get_pc st t with PWork [] r => [ARet t r] | _ => [] end
    | LPanic t => [APanic t]
    | LLen _ _ | LShrink _ _ => []
    end.
  Fixpoint sights (st : state V) (ls : list (label V)) : list (act V) :=
    match ls with
    | [] => []
    | l :: ls' =>
        match step E st l with
        | Next st' => sight st l st' ++ sights st' ls'
        | UB => []
        | _ => sights st ls'
        end
    end.
End atom.

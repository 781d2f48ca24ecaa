(** ArcIntern (/repo/src/arc.rs, /repo/src/arc_dst.rs) with user code that calls back: Hash, Eq
    and Drop of interned values may themselves use ArcIntern, for any type.

    ArcModel is kept as it is: code that runs inside a thread's call is another activity of
    ArcModel, with a number of its own, and the call it runs in stands still until that
    activity is over.  What is new is the nesting, and that a search holds its lock while it
    calls Eq. *)
From stdpp Require Import gmap list numbers.
From Verif Require Import Base ArcModel.

(** ArcModel's state (arc.rs:24, 84-88) and the nesting of calls. *)
Record nstate (V : Type) := NState {
  n_arc : state V;
  n_kid : gmap nat nat;            (* activity -> the activity that runs inside its user code *)
  n_in : gmap (nat * nat) nat;     (* shard -> activity that has locked it and is comparing keys *)
}.
Global Arguments NState {V}.
Global Arguments n_arc {V}.
Global Arguments n_kid {V}.
Global Arguments n_in {V}.

(** User code runs at arc.rs:227, 248, 257, 322. *)
Inductive nlabel (V : Type) :=
| NDo (l : label V)      (* a step or a call, as in ArcModel *)
| NEnter (t : nat)       (* [t] locks the shard and starts to compare keys *)
| NCall (t u : nat)      (* user code of [t] starts to do something: activity [u] *)
| NEnd (t : nat).        (* and is done *)
Global Arguments NDo {V}.
Global Arguments NEnter {V}.
Global Arguments NCall {V}.
Global Arguments NEnd {V}.

Section nest.
  Context {V : Type} (E : tyenv V).
  Implicit Types (st : state V) (ns : nstate V) (t u : nat).

  (** Empty containers: arc.rs:157, 167, 175. *)
  Definition ninit : nstate V := NState init ∅ ∅.

  (** The lock that the next step of [t] takes: the shard of the value searched for in
      [get_mut] (arc.rs:227, arc_dst.rs:79), [entry] (arc.rs:248) and [remove] (arc.rs:322), or
      the next shard in [len] and [shrink_to_fit] (arc.rs:186, 204). *)
  Definition want st t : option (nat * nat) :=
    match get_pc st t with
    | PLookup _ v _ => Some (lock_of E v)
    | PEntry _ _ q | PWork (IRemove q :: _) _ =>
        match data st q with Some d => Some (lock_of E d) | None => None end
    | PLen ty i _ | PShrink ty i => if i <? te_shards E then Some (ty, i) else None
    | _ => None
    end.

  (** In a search: Hash is called before the lock is taken and Eq after that (dashmap's
      [get_mut], [entry], [remove]; the locks are not re-entrant). arc.rs:227, 248, 322. *)
  Definition searching st t : bool :=
    match get_pc st t with PLookup _ _ _ | PEntry _ _ _ | PWork (IRemove _ :: _) _ => true | _ => false end.
  (** User code may run: in a search, or while values are dropped (arc.rs:257, 320-322, and
      the arguments).  More than in the code: anywhere in the drops. *)
  Definition user_code st t : bool :=
    match get_pc st t with PLookup _ _ _ | PEntry _ _ _ | PWork _ _ => true | _ => false end.
  (** Bookkeeping of the model, no counterpart in /repo. *)
  Definition is_free st t : bool := match get_pc st t with PFree => true | _ => false end.

  (** Bookkeeping of the model, no counterpart in /repo. *)
  Definition actor (l : label V) : option nat :=
    match l with
    | LNew t _ _ | LDrop t _ | LLen t _ | LShrink t _ | LStep t _ _ | LPanic t => Some t
    | _ => None
    end.
  (** Bookkeeping of the model, no counterpart in /repo. *)
  Definition idle_kid ns t : bool := match n_kid ns !! t with None => true | Some _ => false end.

  (** A step ends the search: the lock is given up, or is now in [st_locks].
      (arc.rs:227, 248, 322.) *)
  Definition leave t (m : gmap (nat * nat) nat) : gmap (nat * nat) nat := filter (λ x, x.2 ≠ t) m.

  (** The lock [t] is about to take is held by somebody else's search.
      (arc.rs:227, 248, 322, 186, 204.) *)
  Definition shut_out ns t : bool :=
    match want (n_arc ns) t with
    | Some lk => match n_in ns !! lk with Some u => negb (u =? t) | None => false end
    | None => false
    end.

  (** A step of arc.rs:185-331, unless user code of the call is running. *)
  Definition nstep ns (l : nlabel V) : outcome (nstate V) :=
    match l with
    | NDo l =>
        match actor l with
        | None =>
            match step E (n_arc ns) l with
            | Next st => Next (NState st (n_kid ns) (n_in ns))
            | Blocked => Blocked | Illegal => Illegal | UB => UB
            end
        | Some t =>
            if negb (idle_kid ns t) then Illegal
            else if match l with LStep _ _ _ => shut_out ns t | _ => false end then Blocked
            else match step E (n_arc ns) l with
                 | Next st => Next (NState st (n_kid ns) (leave t (n_in ns)))
                 | Blocked => Blocked | Illegal => Illegal | UB => UB
                 end
        end
    | NEnter t =>
        if negb (idle_kid ns t && searching (n_arc ns) t) then Illegal
        else match want (n_arc ns) t with
             | None => Illegal
             | Some lk =>
                 match st_locks (n_arc ns) !! lk, n_in ns !! lk with
                 | None, None => Next (NState (n_arc ns) (n_kid ns) (<[lk:=t]> (n_in ns)))
                 | _, _ => Blocked
                 end
             end
    | NCall t u =>
        (* [u] is a number not used for anything else; the order is for convenience *)
        if (t <? u) && user_code (n_arc ns) t && is_free (n_arc ns) u && idle_kid ns t && idle_kid ns u
           && forallb (λ x, negb (x.2 =? u)) (map_to_list (n_kid ns))
        then Next (NState (n_arc ns) (<[t:=u]> (n_kid ns)) (n_in ns))
        else Illegal
    | NEnd t =>
        match n_kid ns !! t with
        | Some u => if is_free (n_arc ns) u && idle_kid ns u
                    then Next (NState (n_arc ns) (delete t (n_kid ns)) (n_in ns)) else Illegal
        | None => Illegal
        end
    end.
End nest.

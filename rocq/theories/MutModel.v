(** Interned values with interior mutability.  [T: Eq + Hash] (with [Send + Sync] where
    required) may contain atomics or mutexes, so the value behind a handle, [&T], can be changed
    in safe code while it is interned; Eq and Hash may depend on the part that changes.  Here
    the interners get one more action: a client stores another value through a handle.

    The new value has the type, the size and the interned handles of the old one; handles that
    move in and out of an interned value are not modelled.  One search is one step, as in the
    models that are extended; a store that happens in the middle of a search is a store before
    or after it.  Searches go by the current hash of stored values.  A real table remembers the
    hash under which it put a value, so after a store that changes the hash a search may miss or
    find the value by chance.  For the claims about stores that do not change the hash there is no
    difference.  The claim about arbitrary stores is for arbitrary Eq and Hash, so [V] may be taken
    to contain what the table remembers.  In the counterexamples the value that is found wrongly
    has not been changed. *)
From stdpp Require Import gmap list numbers.
From Verif Require Import Base.
From Verif Require ArcModel InternModel ArenaModel NewModel.

(** The [&T] of arc.rs:327-362, intern.rs:361-393, arena.rs:434-447. *)
Inductive mlabel (L S : Type) :=
| MDo (l : L)      (* as in the model that is extended *)
| MSet (x : S).    (* a store through a handle *)
Global Arguments MDo {L S}.
Global Arguments MSet {L S}.

(** ** ArcIntern: as_ref, deref (/repo/src/arc.rs:327-332, 356-362) give [&T].  The handle is one
    that a client owns or, by following [ks], one inside an interned value. *)
Section arc.
  Import ArcModel.
  Context {V : Type} (E : tyenv V).
  (** arc.rs:327-332, 356-362. *)
  Record arc_store := AS { as_ptr : ptr; as_path : list ptr; as_val : V }.

  (** To [data]: arc.rs:87. *)
  Definition store (st : state V) (p : ptr) (c : cell V) (v : V) : state V :=
    set_heap st (<[p_addr p := Cell (c_ser c) (c_count c) (Some v)]> (st_heap st)).
  (** arc.rs:327-332, 356-362. *)
  Definition arc_mstep (st : state V) (l : mlabel (label V) arc_store) : outcome (state V) :=
    match l with
    | MDo l => step E st l
    | MSet (AS p ks v) =>
        match borrow E st p ks with
        | Next k =>
            match deref st k with
            | Some c =>
                match c_data c with
                | Some d => if (te_ty E v =? te_ty E d) && bool_decide (te_kids E v = te_kids E d)
                            then Next (store st k c v) else Illegal
                | None => UB
                end
            | None => UB
            end
        | UB => UB
        | _ => Illegal
        end
    end.
End arc.
Global Arguments arc_store : clear implicits.

(** ** Intern: as_ref, deref (/repo/src/intern.rs:244-246, 361-393).  A handle can be used by anybody once
    it has been returned. *)
Section intern.
  Import InternModel.
  Context {V Q : Type} (E : ienv V Q).
  (** intern.rs:361-393. *)
  Record int_store := IS { is_ptr : iptr; is_val : V }.

  (** Through the pointer of intern.rs:56. *)
  Definition istore (st : istate V Q) (p : iptr) (x : iobj V) (v : V) : istate V Q :=
    set_objs st (<[ip_ser p := IObj (io_addr x) v (io_leaked x)]> (i_objs st)).
  (** intern.rs:361-393. *)
  Definition int_mstep (st : istate V Q) (l : mlabel (ilabel V Q) int_store) : outcome (istate V Q) :=
    match l with
    | MDo l => istep E st l
    | MSet (IS p v) =>
        if returned p (i_log st) then
          match i_objs st !! ip_ser p with
          | Some x => if (ie_ty E v =? ie_ty E (io_val x)) && (ie_meta E v =? ie_meta E (io_val x))
                      then Next (istore st p x v) else Illegal
          | None => UB
          end
        else Illegal
    end.
End intern.
Global Arguments int_store : clear implicits.

(** ** Arena: as_ref, deref, into_ref (/repo/src/arena.rs:434-447, 510-512), while the arena
    exists. *)
Section arena.
  Import InternModel ArenaModel.
  Context {V Q : Type} (E : ienv V Q).
  (** arena.rs:434-447. *)
  Record are_store := RS { rs_arena : nat; rs_ptr : iptr; rs_val : V }.

  (** Through the pointer of arena.rs:82. *)
  Definition astore (st : astate V Q) (p : iptr) (x : aobj V) (v : V) : astate V Q :=
    AState (<[ip_ser p := AObj (ao_addr x) v]> (a_objs st)) (a_arenas st) (a_locks st) (a_poison st)
      (a_threads st) (a_next st) (a_nextr st) (a_log st).
  (** arena.rs:434-447, 510-512. *)
  Definition are_mstep (st : astate V Q) (l : mlabel (alabel V Q) are_store) : outcome (astate V Q) :=
    match l with
    | MDo l => astep E st l
    | MSet (RS r p v) =>
        if a_returned r p (a_log st) then
          match a_arenas st !! r, a_objs st !! ip_ser p with
          | Some _, Some x => if (ie_ty E v =? ie_ty E (ao_val x)) && (ie_meta E v =? ie_meta E (ao_val x))
                              then Next (astore st p x v) else Illegal
          | Some _, None => UB
          | None, _ => Illegal
          end
        else Illegal
    end.
End arena.
Global Arguments are_store : clear implicits.

(** ** The Intern of typearena.rs: as_ref, deref (/repo/src/typearena.rs:295-297, 379-408).  As for Intern. *)
Section new.
  Import InternModel NewModel.
  Context {V Q : Type} (E : ienv V Q).
  (** Through the pointer of typearena.rs:145. *)
  Definition nstore (s : nstate V Q) (p : iptr) (x : iobj V) (v : V) : nstate V Q :=
    NState (<[ip_ser p := IObj (io_addr x) v (io_leaked x)]> (n_objs s)) (n_vecs s) (n_resv s) (n_sets s) (n_locks s)
      (n_poison s) (n_threads s) (n_next s) (n_log s).
  (** typearena.rs:295-297, 379-408. *)
  Definition new_mstep (s : nstate V Q) (l : mlabel (ilabel V Q) (int_store V)) : outcome (nstate V Q) :=
    match l with
    | MDo l => nstep E s l
    | MSet (IS p v) =>
        if returned p (n_log s) then
          match n_objs s !! ip_ser p with
          | Some x => if (ie_ty E v =? ie_ty E (io_val x)) && (ie_meta E v =? ie_meta E (io_val x))
                      then Next (nstore s p x v) else Illegal
          | None => UB
          end
        else Illegal
    end.
End new.

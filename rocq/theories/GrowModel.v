(** ArcIntern (/repo/src/arc.rs, /repo/src/arc_dst.rs) with panics in all user code.  ArcModel
    lets Hash and Eq panic in searches only ([LPanic]); here Hash may also panic

    - inside [e.insert(())] (arc.rs:249-255, arc_dst.rs:98-105): dashmap inserts into a hashbrown
      table, which hashes the new key and, when the table is full, all the keys in it;
    - inside [DashMap::shrink_to_fit] (arc.rs:185-187), which hashes all the keys of a shard;

    and the user's [Drop] may panic wherever a value is dropped.

    What the libraries do then: growing and shrinking build a second table and leave the old one
    as it was; only when many removed entries have left their marks, the table is rehashed in
    place, and hashbrown's [rehash_in_place] drops every entry not yet rehashed when Hash panics.
    The key being inserted is dropped and the guard is released by unwinding, as after any other
    panic.  (dashmap 5's [VacantEntry::insert] keeps a bitwise copy of the key for a while and
    may drop it twice; that is dashmap's own affair and left out.) *)
From stdpp Require Import gmap list numbers.
From Verif Require Import Base ArcModel.

(** arc.rs:185-187, 254, 257, 322. *)
Inductive glabel (V : Type) :=
| GDo (l : label V)                         (* a step or a call, as in ArcModel *)
| GInsert (t : nat) (gone : list ptr)       (* Hash panics in [t]'s [e.insert(())]; the table
                                               loses the entries [gone] *)
| GShrink (t : nat)                         (* Hash panics in [t]'s [shrink_to_fit] *)
| GDrop (t : nat).                          (* Drop of a value that [t] is dropping panics *)
Global Arguments GDo {V}.
Global Arguments GInsert {V}.
Global Arguments GShrink {V}.
Global Arguments GDrop {V}.

Section grow.
  Context {V : Type} (E : tyenv V).
  (** Where the handle to be returned is made: before the insertion as in the source ([true];
      arc.rs:251-254, arc_dst.rs:100-103), or after it ([false]: not what the code does). *)
  Context (early : bool).
  Implicit Types (st : state V) (p q : ptr).

  (** Entry [p] is dropped by the table: its value, and later its memory, although handles to
      it may exist (hashbrown, [rehash_in_place]). Inside arc.rs:254 or arc_dst.rs:103. *)
  Definition lose st p : state V :=
    match deref st p with
    | Some c => take_data (set_table st (remove_entry p (st_table st))) p c
    | None => st
    end.
  (** The destructors that run for it.  Simplification: they run after the guard is released, in
      reality before that; there is no difference unless the value owns handles.
      Inside arc.rs:254 or arc_dst.rs:103. *)
  Definition lost_work st p : list item :=
    match data st p with Some d => drop_box E d p | None => [] end.

  Definition gstep st (l : glabel V) : outcome (state V) :=
    match l with
    | GDo l => step E st l
    | GInsert t gone =>
        match get_pc st t with
        | PVac k v q =>
            if bool_decide (NoDup gone) && bool_decide (gone ⊆ st_table st) &&
               forallb (in_shard E st (te_ty E v) (te_hash E v mod te_shards E)) gone
            then match deref st q with
                 | Some c =>
                     match c_data c with
                     | Some d =>
                         (* entries of the table, then the key; the guard; then [p], a local
                            of [new] that exists already, is dropped: arc.rs:251-254 *)
                         Next (set_pc (unlock (take_data (fold_left lose gone st) q c) (lock_of E v)) t
                                 (PWork (flat_map (lost_work st) gone ++ drop_box E d q
                                         ++ if early then [IDrop q] else []) None))
                     | None => UB
                     end
                 | None => UB
                 end
            else Illegal
        | _ => Illegal
        end
    | GShrink t =>
        match get_pc st t with
        | PShrink ty i =>
            (* the shard's lock was free and is released again *)
            if i <? te_shards E then
              match st_locks st !! (ty, i) with
              | Some _ => Blocked
              | None => Next (set_pc st t PFree)
              end
            else Illegal
        | _ => Illegal
        end
    | GDrop t =>
        (* a value is dropped with its box after a removal (arc.rs:320-322) or as the argument
           of a call (arc.rs:224); what is left of it and of the call's locals is still
           dropped, and so is a return value already computed.  More than in the code: at any
           time during the drops, and any number of times (a second panic would abort). *)
        match get_pc st t with
        | PWork w r =>
            Next (set_pc st t (PWork (w ++ match r with Some (_, x) => [IDrop x] | None => [] end) None))
        | _ => Illegal
        end
    end.
End grow.

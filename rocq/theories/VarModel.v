(** ArcIntern (/repo/src/arc.rs) with subtyping.  [ArcIntern<T>] consists of a
    [NonNull<RefCount<T>>] (arc.rs:54-56), so it is covariant in [T]: where [A] is a subtype of
    [B], an [ArcIntern<A>] may be used as an [ArcIntern<B>].  Subtypes that are [Eq + Hash + Send +
    Sync + 'static] and yet different types exist: [for<'a> fn(&'a str)] is a subtype of
    [fn(&'static str)], and their [TypeId]s differ.

    Nothing happens when a handle is coerced.  Cloning it, reading it and counting do not depend
    on the type; dropping the last handle does: [Drop] asks for the container of the type the
    handle has now (arc.rs:321-322, [Self::get_container()]), which is not the one the object is
    in.

    More than in the code: the type of a handle is chosen only when its drop gets to the removal,
    so any handle may have been coerced, also one inside an interned value. *)
From stdpp Require Import gmap list numbers.
From Verif Require Import Base ArcModel.

Inductive vlabel (V : Type) :=
| VDo (l : label V)              (* a step or a call, as in ArcModel *)
| VAs (t ty i : nat).            (* [t] drops a handle that was coerced to type [ty] and is at
                                    m.remove(self.pointer.as_ref()): arc.rs:322; [i] as in LStep *)
Global Arguments VDo {V}.
Global Arguments VAs {V}.

Section var.
  Context {V : Type} (E : tyenv V).
  (** Value [d], used as a value of type [ty]; [None] unless its type is a subtype of [ty].  The
      bits are the same, Eq and Hash are those of [ty]. *)
  Context (up : nat -> V -> option V).
  Implicit Types (st : state V).

  (** A step of arc.rs:185-331; [VAs] is arc.rs:321-322. *)
  Definition vstep st (l : vlabel V) : outcome (state V) :=
    match l with
    | VDo l => step E st l
    | VAs t ty i =>
        match get_pc st t with
        | PWork (IRemove p :: w) r =>
            (* as in ArcModel, but in the container of [ty] *)
            match data st p with
            | None => UB
            | Some d =>
                match up ty d with
                | None => Illegal
                | Some d' =>
                    match st_locks st !! lock_of E d' with
                    | Some _ => Blocked
                    | None =>
                        if readable st then
                          match pick i (matches E st d') with
                          | Some q => Next (set_pc (lock st (lock_of E d') t) t
                                                   (PRem (lock_of E d') q w r))
                          | None =>
                              (* nothing found, nothing removed; ghost: as after a panic *)
                              Next (set_pc (add_zombie st p) t (PWork w r))
                          end
                        else UB
                    end
                end
            end
        | _ => Illegal
        end
    end.
End var.

(** Vocabulary for deadlocks of [Arena] (arena.rs 59-174, 406-427). *)
From stdpp Require Import gmap list numbers.
From Verif Require Import Base InternModel InternSpec ArenaModel ArenaSpec.

Section spec.
  Context {V Q : Type} (E : ienv V Q).
  Implicit Types (st : astate V Q) (f g : aframe V Q) (r t : nat) (rk : nat -> nat).

  (** The call of frame [f] has the mutex of arena [r]: it has got it and not yet dropped the
      guard.  (While the argument of a call, or an arena, is dropped no mutex is held.) *)
  Definition a_holds r f : Prop :=
    match f with
    | AWait _ _ _ | AArg _ _ _ _ _ | ADead _ _ => False
    | _ => a_arena f = Some r
    end.
  (** User code that runs with the mutex of one arena only makes calls on arenas of higher rank. *)
  Definition a_ordered rk st : Prop := forall t k1 r o b k2,
    a_stack st t = k1 ++ AWait r o b :: k2 -> forall g r', g ∈ k2 -> a_holds r' g -> rk r' < rk r.
  (** The threads [D] wait for each other: everyone waits for a mutex that one of them
      (possibly the same) has taken in a call that its current call is nested in. *)
  Definition a_deadlocked st (D : nat -> Prop) : Prop := forall t, D t ->
    exists r o b k u f k' g, a_stack st t = AWait r o b :: k /\
      D u /\ a_stack st u = f :: k' /\ g ∈ k' /\ a_holds r g.
  (** Nobody makes a call from user code that runs with a mutex. *)
  Definition a_flat st : Prop := forall t f k g r, a_stack st t = f :: k -> g ∈ k -> ~ a_holds r g.
End spec.

(** Vocabulary for deadlocks of [NewIntern] (typearena.rs 23-84, 210-290). *)
From stdpp Require Import gmap list numbers.
From Verif Require Import Base InternModel InternSpec NewModel NewSpec.

Section spec.
  Context {V Q : Type} (E : ienv V Q).
  Implicit Types (s : nstate V Q) (f g : nframe V Q) (o : iop V Q) (t ty : nat) (rk : nat -> nat).

  (** The call of frame [f] is for type [ty] and has the mutex of its set. *)
  Definition n_holds ty f : Prop := inside f /\ type_of E f = ty.
  (** User code that runs with the mutex of one type only makes calls for types of higher rank. *)
  Definition n_ordered rk s : Prop := forall t k1 f k2,
    nstack s t = k1 ++ f :: k2 -> forall g ty, g ∈ k2 -> n_holds ty g -> rk ty < rk (type_of E f).
  (** Nobody makes a call from user code that runs with a mutex. *)
  Definition n_flat s : Prop := forall t f k g, nstack s t = f :: k -> g ∈ k -> ~ inside g.
  (** The threads [D] wait for each other: everyone waits for the mutex of a type that one of
      them (possibly the same) has taken in a call that its current call is nested in. *)
  Definition n_deadlocked s (D : nat -> Prop) : Prop := forall t, D t ->
    exists o b i k u f k' g, nstack s t = NLock o b i :: k /\
      D u /\ nstack s u = f :: k' /\ g ∈ k' /\ n_holds (op_ty E o) g.
  (** User code of this frame runs because of a panic: it drops an argument. *)
  Definition n_unwinding f : Prop :=
    match f with NPanic _ _ | NIn _ (FDup _ _ RPanic) => True | _ => False end.
  (** Nobody makes a call from such code. *)
  Definition n_calm s : Prop := forall t f k g, nstack s t = f :: k -> g ∈ k -> ~ n_unwinding g.
  (** The next step of thread [t] aborts the process: the call finds its mutex free but poisoned,
      so it panics, while an outer call of the thread is unwinding. *)
  Definition n_aborts s t : Prop := exists o b i k g, nstack s t = NLock o b i :: k /\
    n_locks s !! (slot E (op_ty E o), i) = None /\ (slot E (op_ty E o), i) ∈ n_poison s /\ g ∈ k /\ n_unwinding g.
  (** The call of frame [f] has not got its mutex yet. *)
  Definition n_before f : Prop :=
    match f with NScan _ _ _ | NPush _ _ | NPub _ _ _ | NLock _ _ _ => True | NPanic _ _ | NIn _ _ => False end.
End spec.

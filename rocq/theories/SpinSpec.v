(** Vocabulary for progress of intern calls that wait for an object to be removed. *)
From stdpp Require Import gmap list numbers.
From Verif Require Import Base ArcModel ArcSpec NestModel.

Section spec.
  Context {V : Type} (E : tyenv V).
  Implicit Types (st : state V) (t : nat) (p : ptr).

  (** Thread [t] has dropped the last handle to [p] and has not yet taken its entry out. *)
  Definition removing st t p : Prop :=
    match get_pc st t with
    | PWork w _ => IRemove p ∈ w
    | PRem _ q w _ => q = p \/ IRemove p ∈ w
    | _ => False
    end.

  (** An infinite execution: state [x n], then [s n] happens, which is neither blocked nor
      illegal. *)
  Definition infinite (s : nat -> label V) (x : nat -> state V) : Prop :=
    x 0 = init /\ forall n, step E (x n) (s n) = Next (x (S n)).

  (** The scheduler never forgets [t]. *)
  Definition fair_to (s : nat -> label V) t : Prop := forall n, exists m, n <= m /\ actor (s m) = Some t.
End spec.

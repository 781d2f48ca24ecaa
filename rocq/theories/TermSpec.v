(** Vocabulary for C75: running the calls of Intern, NewIntern and Arena to their end. *)
From stdpp Require Import gmap list numbers.
From Verif Require Import Base InternModel ArenaModel.

Section spec.
  (** [own t l]: label [l] is a step of the running call of thread [t]. *)
  Context {S L : Type} (step : S -> L -> outcome S) (own : nat -> L -> Prop).
  Implicit Types (st : S) (s : nat -> L) (x : nat -> S) (t n m : nat).

  (** An infinite execution from [st] in which no call begins: [s n] is attempted in [x n].  An
      attempt that is blocked or illegal changes nothing. *)
  Definition runs_on st s x : Prop :=
    x 0 = st /\ forall n, (exists t, own t (s n)) /\ exec step (x n) (s n) = Some (x (Datatypes.S n)).
  (** Thread [t] can take a step. *)
  Definition able st t : Prop := exists l st', own t l /\ step st l = Next st'.
  (** Thread [t] takes a step at time [n]. *)
  Definition moves s x t n : Prop := own t (s n) /\ step (x n) (s n) = Next (x (Datatypes.S n)).
  (** At any time, each thread will step, or there is a later time at which it cannot. *)
  Definition fair s x : Prop := forall t n, exists m, n <= m /\ (moves s x t m \/ ~ able (x m) t).

  (** How many of the attempts [ls] are steps. *)
  Fixpoint taken st (ls : list L) : nat :=
    match ls with
    | [] => 0
    | l :: ls' => match step st l with Next st' => 1 + taken st' ls' | _ => taken st ls' end
    end.
End spec.

(** A step of a running call of thread [t]: user code may return or panic. *)
Definition i_own {V Q} (t : nat) (l : ilabel V Q) : Prop :=
  match l with IStep u _ _ | IConv u _ | IPanic u => u = t | ICall _ _ _ | IDeref _ => False end.
Definition a_own {V Q} (t : nat) (l : alabel V Q) : Prop :=
  match l with LStep u _ _ | LConv u _ | LPanic u => u = t | LArena _ _ | LCall _ _ _ _ | LRead _ _ | LDrop _ _ => False end.

(** The frames of all threads, each counted with weight [w]. *)
Definition weigh {F} (w : F -> nat) (m : gmap nat (list F)) : nat :=
  sum_list (w <$> concat (snd <$> map_to_list m)).

(** Of the frames of an arena: a call, or the drop of an arena with the elements [ps].  At most
    so many steps (C75). *)
Definition a_most {V Q} (f : aframe V Q) : nat :=
  match f with ADead _ ps => S (length ps) | _ => 9 end.

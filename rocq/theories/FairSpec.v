(** Vocabulary for C74: running ArcIntern calls to their end without new calls. *)
From stdpp Require Import gmap list numbers.
From Verif Require Import Base ArcModel.

Section spec.
  Context {V : Type} (E : tyenv V).
  Implicit Types (st : state V) (s : nat -> label V) (x : nat -> state V) (t n m : nat).

  (** An infinite execution from [st]: [s n] is attempted in [x n].  An attempt that is blocked
      or illegal changes nothing. *)
  Definition execution st s x : Prop :=
    x 0 = st /\ forall n, exec (step E) (x n) (s n) = Some (x (S n)).

  (** No call begins, nothing panics: running calls take steps. *)
  Definition only_steps s : Prop := forall n, exists t a i, s n = LStep t a i.

  (** Thread [t] can take a step of its call. *)
  Definition can_step st t : Prop := exists a i st', step E st (LStep t a i) = Next st'.
  (** Thread [t] takes a step at time [n]. *)
  Definition acts s x t n : Prop :=
    exists a i, s n = LStep t a i /\ step E (x n) (s n) = Next (x (S n)).

  (** At any time, each thread will step, or there is a time after which it can never step.
      So a thread that is able to step again and again does step. *)
  Definition strongly_fair s x : Prop := forall t n,
    exists m, n <= m /\ (acts s x t m \/ forall m', m <= m' -> ~ can_step (x m') t).
  (** Weaker: at any time, each thread will step, or there is a later time at which it cannot.
      So a thread that is able to step from some time on does step. *)
  Definition weakly_fair s x : Prop := forall t n,
    exists m, n <= m /\ (acts s x t m \/ ~ can_step (x m) t).

  (** Thread [t] is in the part of an intern call that may be repeated: searching, or finding
      that the object it found has no handles (arc.rs:226-243, arc_dst.rs:78-94). *)
  Definition searches st t : bool :=
    match get_pc st t with
    | PLookup _ _ _ | PHit _ _ _ _ | PUndo _ _ _ _ => true
    | PInc _ _ _ _ old => (old =? 0)%N
    | _ => false
    end.

  (** How many steps of [ls] happen, other than searches. *)
  Fixpoint other_steps st (ls : list (label V)) : nat :=
    match ls with
    | [] => 0
    | l :: ls' =>
        match step E st l with
        | Next st' =>
            (match l with LStep t _ _ => if searches st t then 0 else 1 | _ => 1 end)
            + other_steps st' ls'
        | _ => other_steps st ls'
        end
    end.
End spec.

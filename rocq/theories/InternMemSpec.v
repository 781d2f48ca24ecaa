(** Vocabulary for the property about what [Intern] keeps allocated. *)
From stdpp Require Import gmap list numbers.
From Verif Require Import Base InternModel InternSpec.

Section spec.
  Context {V Q : Type} (E : ienv V Q).
  Implicit Types (st : istate V Q) (f : frame V Q) (ls : list (ilabel V Q)).

  (** Allocation number [s] is in the hands of a running call: it is the box that the call was
      given, or the call has leaked it and is about to insert it. *)
  Definition in_hand f (s : nat) : Prop :=
    match f with
    | FWait _ (Some p) | FGet _ (Some p) | FDup _ (Some p) _ | FIns _ p => ip_ser p = s
    | _ => False
    end.
  (** In state [st], step [lb] ends the insertion of allocation number [s], which has been
      leaked, without having inserted it: user code panicked or said that the value is there
      already. *)
  Definition abandons st (lb : ilabel V Q) (s : nat) : Prop :=
    exists t o p k r st', get_stack st t = FIns o p :: k /\ ip_ser p = s /\ lab_thread lb = Some t /\
      istep E st lb = Next st' /\ get_stack st' t = FDone o r :: k /\ i_log st' = i_log st.
  (** This happened in the course of the execution [ls]. *)
  Definition abandoned ls (s : nat) : Prop :=
    exists ls1 lb ls2 st, ls = ls1 ++ lb :: ls2 /\ run (istep E) iinit ls1 = Some st /\ abandons st lb s.

  (** User code does not panic while a new value is inserted. *)
  Definition no_insert_panic ls : Prop :=
    forall ls1 t ls2 st o p k, ls = ls1 ++ IPanic t :: ls2 -> run (istep E) iinit ls1 = Some st ->
      get_stack st t <> FIns o p :: k.
  (** No call is running. *)
  Definition all_returned st : Prop := forall t, get_stack st t = [].
End spec.

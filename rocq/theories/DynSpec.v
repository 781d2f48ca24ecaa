(** Vocabulary for property C71: [Intern<dyn Trait>], [Arena<dyn Trait>]. *)
From stdpp Require Import gmap list.
From Verif Require Import Base InternModel InternSpec ArenaModel NewModel.

Section spec.
  Context {V Q C : Type} (E : ienv V Q).
  (** The concrete type of a trait object.  The metadata of a pointer to it, [ie_meta], is its vtable: one
      type may have several, and several types may have the same. *)
  Context (conc : V -> C).

  (** Eq of [ty] compares concrete types first; the values of a zero-sized type are all equal. *)
  Definition by_concrete_type (ty : nat) : Prop :=
    (forall u v, ie_ty E u = ty -> ie_ty E v = ty -> ie_eq E u v = true -> conc u = conc v) /\
    (forall u v, ie_ty E u = ty -> ie_ty E v = ty -> is_zst E u = true -> is_zst E v = true -> conc u = conc v -> ie_eq E u v = true).
  (** No two zero-sized types share a vtable. *)
  Definition zst_vtables (ty : nat) : Prop :=
    forall u v, ie_ty E u = ty -> ie_ty E v = ty -> is_zst E u = true -> ie_meta E u = ie_meta E v -> conc u = conc v.

  (** Every zero-sized value of the type can be made from a reference ([Box<T>: From<&I>]). *)
  Definition zst_from (ty : nat) : Prop :=
    forall v, ie_ty E v = ty -> is_zst E v = true -> exists w q, ie_from E w q v = true.

  (** Handles of values of type [ty] compare as the values do, in every execution. *)
  Definition intern_eq_right (ty : nat) : Prop :=
    forall ls st t1 o1 p1 t2 o2 p2 v1 v2, no_clear ls -> run (istep E) iinit ls = Some st ->
      EvRet t1 o1 (RPtr p1) ∈ i_log st -> EvRet t2 o2 (RPtr p2) ∈ i_log st -> op_ty E o1 = ty -> op_ty E o2 = ty ->
      iread st p1 = Some v1 -> iread st p2 = Some v2 -> iptr_eqb p1 p2 = ie_eq E v1 v2.
  Definition typearena_eq_right (ty : nat) : Prop :=
    forall ls s t1 o1 p1 t2 o2 p2 v1 v2, no_clear ls -> run (nstep E) ninit ls = Some s ->
      EvRet t1 o1 (RPtr p1) ∈ n_log s -> EvRet t2 o2 (RPtr p2) ∈ n_log s -> op_ty E o1 = ty -> op_ty E o2 = ty ->
      iread (nmem s) p1 = Some v1 -> iread (nmem s) p2 = Some v2 -> iptr_eqb p1 p2 = ie_eq E v1 v2.
  Definition arena_eq_right (ty : nat) : Prop :=
    forall ls st r x t1 o1 b1 p1 t2 o2 b2 p2 v1 v2, run (astep E) ainit ls = Some st ->
      AvRet t1 r o1 b1 (AP p1) ∈ a_log st -> AvRet t2 r o2 b2 (AP p2) ∈ a_log st ->
      a_arenas st !! r = Some x -> ar_ty x = ty ->
      a_read st p1 = Some v1 -> a_read st p2 = Some v2 -> iptr_eqb p1 p2 = ie_eq E v1 v2.
End spec.

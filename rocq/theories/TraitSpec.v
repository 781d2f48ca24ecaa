(** Which executions safe Rust programs have, as far as Send and Sync are concerned, and which
    references a thread can get hold of. *)
From stdpp Require Import gmap list numbers.
From Verif Require Import Base InternModel ArcModel ArenaModel TraitModel.

(** Send and Sync of the user's types, and which Rust type each type number of the other
    models stands for. *)
Record traits := Traits {
  tr_send : nat -> bool;
  tr_sync : nat -> bool;
  tr_type : nat -> rty;
}.
Definition sends (B : traits) (x : rty) : Prop := is_send (tr_send B) (tr_sync B) x = true.
Definition syncs (B : traits) (x : rty) : Prop := is_sync (tr_send B) (tr_sync B) x = true.

Section spec.
  Context {V Q : Type} (B : traits).

  (** Every call of [Intern] or [NewIntern] compiles. *)
  Definition intern_compiles (E : ienv V Q) (ls : list (ilabel V Q)) : Prop := forall t o a,
    ICall t o a ∈ ls -> meets_bounds (tr_send B) (tr_sync B) (tr_type B (op_ty E o)) = true.
  (** Every call of [ArcIntern] compiles. *)
  Definition arc_compiles (E : tyenv V) (ls : list (label V)) : Prop := forall t k v,
    LNew t k v ∈ ls -> meets_bounds (tr_send B) (tr_sync B) (tr_type B (te_ty E v)) = true.

  (** Thread [t] made arena [r], of type [ty]. *)
  Definition made_by (E : ienv V Q) (ls : list (alabel V Q)) (r t ty : nat) : Prop :=
    exists l1 l2 st st', ls = l1 ++ LArena t ty :: l2 /\ run (astep E) ainit l1 = Some st /\
      astep E st (LArena t ty) = Next st' /\ r = a_nextr st.
  (** A thread other than the one that made it can call an arena only if it was given a
      reference to it, or the arena itself. *)
  Definition arena_compiles (E : ienv V Q) (ls : list (alabel V Q)) : Prop :=
    forall l1 l2 t r o a, ls = l1 ++ LCall t r o a :: l2 -> forall u ty, made_by E l1 r u ty ->
    t = u \/ sends B (RRef (RArena (tr_type B ty))) \/ sends B (RArena (tr_type B ty)).

  (** Thread [t] has, or had, the reference [p] into arena [r]: one of its calls returned it,
      or another thread that had it passed the handle, or a reference to the handle. *)
  Inductive got (l : list (aevent V Q)) (r ty : nat) (p : iptr) : nat -> Prop :=
  | got_call t o b : AvRet t r o b (AP p) ∈ l -> got l r ty p t
  | got_passed u t : got l r ty p u ->
      sends B (RArenaIntern (tr_type B ty)) \/ sends B (RRef (RArenaIntern (tr_type B ty))) -> got l r ty p t.
End spec.

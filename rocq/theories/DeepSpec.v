(** Vocabulary for C47, C48. *)
From stdpp Require Import gmap list numbers.
From Verif Require Import Base DeepModel.
Local Open Scope N_scope.

Fixpoint nsum {A} (f : A -> N) (l : list A) : N :=
  match l with [] => 0 | x :: l' => f x + nsum f l' end.

Section spec.
  Context {V : Type} (D : denv V).

  (** Memory that a field owns alone. *)
  Definition owned_bytes (x : piece) : N := match x with POwn n => n | _ => 0 end.
  (** Bytes of a value itself and of what it owns alone. *)
  Definition own_size (v : V) : N := d_size D v + nsum owned_bytes (d_fields D v).
  (** The same for what an Arc points to. *)
  Definition shared_size (a : nat) : N :=
    match d_shared D !! a with Some (n, k) => n + nsum owned_bytes k | None => 0 end.

  (** Arc [a] is reachable from the fields [w], directly or through other Arcs. *)
  Inductive leads (w : list piece) : nat -> Prop :=
  | leads_direct a : PShared a ∈ w -> leads w a
  | leads_through a n k b : leads w a -> d_shared D !! a = Some (n, k) -> PShared b ∈ k -> leads w b.

  (** No Arc dangles. *)
  Definition valid (w : list piece) : Prop := forall a, PShared a ∈ w -> is_Some (d_shared D !! a).
  Definition heap_valid : Prop := forall a n k, d_shared D !! a = Some (n, k) -> valid k.

  (** The size of a reference: one word, two for an unsized type. *)
  Definition ref_bytes (fat : bool) : N := if fat then 2 * d_word D else d_word D.
  (** What an ArenaIntern handle adds although its pointer is part of the value's own size. *)
  Definition surplus (x : piece) : N := match x with PArenaIntern fat => ref_bytes fat | _ => 0 end.
  Definition own_surplus (v : V) : N := nsum surplus (d_fields D v).
  Definition shared_surplus (a : nat) : N :=
    match d_shared D !! a with Some (_, k) => nsum surplus k | None => 0 end.
  Definition no_arena_handles (vs : list V) : Prop :=
    (forall v fat, v ∈ vs -> PArenaIntern fat ∉ d_fields D v) /\
    (forall a n k fat, d_shared D !! a = Some (n, k) -> PArenaIntern fat ∉ k).
  (** No value's Arcs dangle. *)
  Definition values_valid (vs : list V) : Prop := forall v, v ∈ vs -> valid (d_fields D v).

  (** [R] lists, without repetition, the Arcs reachable from the value. *)
  Definition arcs_of (v : V) (R : list nat) : Prop := NoDup R /\ forall a, a ∈ R <-> leads (d_fields D v) a.
  (** The same for several values together. *)
  Definition arcs_of_all (vs : list V) (R : list nat) : Prop :=
    NoDup R /\ forall a, a ∈ R <-> exists v, v ∈ vs /\ leads (d_fields D v) a.
End spec.

(** In how many of the lists [a] is. *)
Definition times (Rs : list (list nat)) (a : nat) : N := nsum (λ R, if decide (a ∈ R) then 1 else 0) Rs.

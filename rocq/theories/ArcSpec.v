(** Vocabulary in which the ArcIntern properties are stated.  Nothing here is used by the
    model's [step]; everything is a plain reading of a state. *)
From stdpp Require Import gmap list numbers.
From Verif Require Import Base ArcModel.

Section spec.
  Context {V : Type} (E : tyenv V).
  Implicit Types (st : state V) (p : ptr).

  (** The user's type is lawful: Eq is an equivalence relation, Hash agrees with it, and
      values of different types are never compared. *)
  Record lawful : Prop := Lawful {
    law_refl : forall v, te_eq E v v = true;
    law_sym : forall u v, te_eq E u v = true -> te_eq E v u = true;
    law_trans : forall u v w, te_eq E u v = true -> te_eq E v w = true -> te_eq E u w = true;
    law_hash : forall u v, te_eq E u v = true -> te_hash E u = te_hash E v;
    law_ty : forall u v, te_eq E u v = true -> te_ty E u = te_ty E v;
  }.

  (** Weaker: Eq is reflexive, symmetric and compatible with Hash, but maybe not
      transitive. *)
  Record tame : Prop := Tame {
    tame_refl : forall v, te_eq E v v = true;
    tame_sym : forall u v, te_eq E u v = true -> te_eq E v u = true;
    tame_hash : forall u v, te_eq E u v = true -> te_hash E u = te_hash E v;
  }.

  (** In between: no transitivity. *)
  Record coherent : Prop := Coherent {
    coh_refl : forall v, te_eq E v v = true;
    coh_sym : forall u v, te_eq E u v = true -> te_eq E v u = true;
    coh_hash : forall u v, te_eq E u v = true -> te_hash E u = te_hash E v;
    coh_ty : forall u v, te_eq E u v = true -> te_ty E u = te_ty E v;
  }.
  Lemma lawful_coherent : lawful -> coherent.
  Proof. intros []. by constructor. Qed.
  Lemma lawful_tame : lawful -> tame.
  Proof. intros []. by constructor. Qed.

  (** No ArcIntern call is in progress. *)
  Definition quiescent st : Prop := forall t, get_pc st t = PFree.

  (** How many ArcIntern values pointing at [p] exist in a state: held by clients,
      forgotten, owned by interned values, or held by a running call. *)
  Definition b2n (b : bool) : nat := if b then 1 else 0.
  Definition is_p p q : nat := b2n (bool_decide (q = p)).

  Definition item_handles p (it : item) : nat :=
    match it with IDrop q => is_p p q | _ => 0 end.
  Fixpoint work_handles p (w : list item) : nat :=
    match w with [] => 0 | it :: w' => item_handles p it + work_handles p w' end.
  Definition ret_handles p (r : option (V * ptr)) : nat :=
    match r with Some (_, q) => is_p p q | None => 0 end.
  (** handles inside the value owned by a running call of [ArcIntern::new] *)
  Definition arg_handles p (k : kind) (v : V) : nat :=
    match k with KSized => occ p (te_kids E v) | KDst => 0 end.
  Definition pc_handles p (x : pc V) : nat :=
    match x with
    | PLookup k v _ | PHit k v _ _ | PUndo k v _ _ | PAlloc k v _ => arg_handles p k v
    | PInc k v _ q old => arg_handles p k v + if (old =? 0)%N then 0 else is_p p q
    | PIns _ _ q => is_p p q
    | PRem _ _ w r | PWork w r => work_handles p w + ret_handles p r
    | _ => 0
    end.
  Definition cell_handles p (c : cell V) : nat :=
    match c_data c with Some v => occ p (te_kids E v) | None => 0 end.

  Definition handles_to st p : nat :=
    occ p (st_pool st) + occ p (st_gone st)
    + msum (cell_handles p) (st_heap st) + msum (pc_handles p) (st_threads st).

  (** A handle to [p] exists somewhere. *)
  Definition alive st p : Prop := 0 < handles_to st p.

  (** Executions in which at most 2^W - 1 = usize::MAX handles to any one object ever
      coexist. *)
  Definition bounded (ls : list (label V)) : Prop :=
    forall ls1 ls2 st1, ls = ls1 ++ ls2 -> run (step E) init ls1 = Some st1 ->
    forall p, (N.of_nat (handles_to st1 p) < te_mod E)%N.

  (** usize has at least two values. *)
  Definition wide : Prop := (2 <= te_mod E)%N.

  (** [owns st r p]: starting from handle [r] one reaches [p] by following the handles
      owned by interned values. *)
  Inductive owns st : ptr -> ptr -> Prop :=
  | owns_refl p : owns st p p
  | owns_step r d k p :
      data st r = Some d -> k ∈ te_kids E d -> owns st k p -> owns st r p.

  (** [p] is an object of type [ty] that some handle points to. *)
  Definition live_object st (ty : nat) p : Prop :=
    alive st p /\ exists d, data st p = Some d /\ te_ty E d = ty.

  (** Number of calls in progress. *)
  Definition in_call (x : pc V) : nat := match x with PFree => 0 | _ => 1 end.
  Definition calls st : nat := msum in_call (st_threads st).

  (** Thread [t] is inside an intern call that was given [v] and has not returned. *)
  Definition interning st (t : nat) (v : V) : Prop :=
    match get_pc st t with
    | PLookup _ u _ | PHit _ u _ _ | PInc _ u _ _ _ | PUndo _ u _ _ | PAlloc _ u _
    | PEntry _ u _ | PVac _ u _ | POcc _ u _ | PIns _ u _
    | PRem _ _ _ (Some (u, _)) | PWork _ (Some (u, _)) => u = v
    | _ => False
    end.

  (** No drop was interrupted by a panic of the user's Hash/Eq. *)
  Definition is_panic (l : label V) : Prop := match l with LPanic _ => True | _ => False end.
  Definition no_panic (ls : list (label V)) : Prop := Forall (λ l, ~ is_panic l) ls.
End spec.

(** Vocabulary for C76: user code that answers differently every time it is asked. *)
From stdpp Require Import gmap list numbers.
From Verif Require Import Base InternModel ArcModel.

(** The answers of [Eq], [Hash] and [Borrow], of the values and of their borrowed forms, and how
    far a search of a table looks (a consequence of [Hash]). *)
Record code (V Q : Type) := Code {
  co_eq : V -> V -> bool;
  co_hash : V -> nat;
  co_borrow : nat -> V -> Q;
  co_qeq : Q -> Q -> bool;
  co_qhash : Q -> nat;
  co_sees : nat -> nat -> bool;
}.
Global Arguments Code {V Q}.
Global Arguments co_eq {V Q}.
Global Arguments co_hash {V Q}.
Global Arguments co_borrow {V Q}.
Global Arguments co_qeq {V Q}.
Global Arguments co_qhash {V Q}.
Global Arguments co_sees {V Q}.

(** The types of [E], with these answers. *)
Definition with_code {V Q} (E : ienv V Q) (c : code V Q) : ienv V Q :=
  IEnv (ie_ty E) (co_eq c) (co_hash c) (co_borrow c) (co_qeq c) (co_qhash c) (ie_from E) (co_sees c)
    (ie_meta E) (ie_zst E) (ie_dangle E) (ie_tid E) (ie_usize E) (ie_cells E).

(** A step in which user code answers as the label says. *)
Definition whim {V Q S L} (step : ienv V Q -> S -> L -> outcome S) (E : ienv V Q) (st : S) (cl : code V Q * L) : outcome S :=
  step (with_code E cl.1) st cl.2.
Definition whim_own {V Q L} (own : nat -> L -> Prop) (t : nat) (cl : code V Q * L) : Prop := own t cl.2.

(** The same for ArcIntern, where only the answers of [Eq] vary. *)
Definition with_eq {V} (E : tyenv V) (e : V -> V -> bool) : tyenv V :=
  TyEnv V e (te_hash E) (te_ty E) (te_kids E) (te_sees E) (te_shards E) (te_mod E).
Definition whim_arc {V} (E : tyenv V) (st : ArcModel.state V) (cl : (V -> V -> bool) * label V) : outcome (ArcModel.state V) :=
  ArcModel.step (with_eq E cl.1) st cl.2.
(** An equivalence relation. *)
Definition equivalence {V} (e : V -> V -> bool) : Prop :=
  (forall v, e v v = true) /\ (forall u v, e u v = true -> e v u = true) /\
  (forall u v w, e u v = true -> e v w = true -> e u w = true).

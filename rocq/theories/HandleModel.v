(** Eq, Hash and Ord of handles: /repo/src/intern.rs:409-456, /repo/src/arc.rs:378-425,
    /repo/src/typearena.rs:424-471, /repo/src/arena.rs:515-533 (no Ord there). *)
From stdpp Require Import gmap list numbers.
From Verif Require Import Base ArcModel InternModel.

(** Six comparison operations. (intern.rs:429-456, arc.rs:398-425.) *)
Record ops (P : Type) := Ops {
  o_cmp : P -> P -> option comparison;             (* Ord::cmp *)
  o_pcmp : P -> P -> option (option comparison);   (* PartialOrd::partial_cmp *)
  o_lt : P -> P -> option bool;
  o_le : P -> P -> option bool;
  o_gt : P -> P -> option bool;
  o_ge : P -> P -> option bool;
}.
Global Arguments Ops {P}.
Global Arguments o_cmp {P}.
Global Arguments o_pcmp {P}.
Global Arguments o_lt {P}.
Global Arguments o_le {P}.
Global Arguments o_gt {P}.
Global Arguments o_ge {P}.

(** [self.as_ref().f(other)]: both sides dereferenced ([rd]); [None] if one dangles.
    (intern.rs:429-456, arc.rs:398-425.) *)
Definition via {P V R} (rd : P -> option V) (f : V -> V -> option R) (p q : P) : option R :=
  match rd p, rd q with Some u, Some v => f u v | _, _ => None end.
(** The handles' impls: intern.rs:429-456, arc.rs:398-425, typearena.rs:444-471; [O] are the
    values' own impls. *)
Definition handle_ops {P V} (rd : P -> option V) (O : ops V) : ops P :=
  Ops (via rd (o_cmp O)) (via rd (o_pcmp O)) (via rd (o_lt O)) (via rd (o_le O)) (via rd (o_gt O)) (via rd (o_ge O)).

(** What [get_pointer().hash(state)] writes to the hasher (intern.rs:414-419, arc.rs:383-388,
    typearena.rs:429-434, arena.rs:520-525): the address, and the metadata of a fat pointer. *)
Definition hash_words (fat : bool) (p : iptr) : list nat :=
  if fat then [ip_addr p; ip_meta p] else [ip_addr p].
(** The same for ArcIntern.  [ptr] has no metadata (ArcModel.v); a handle's metadata is that
    of its object: [meta] of the value. (arc.rs:383-388.) *)
Definition arc_hash_words {V} (meta : V -> list nat) (st : state V) (p : ptr) : option (list nat) :=
  (λ d, p_addr p :: meta d) <$> data st p.
(** [core::ptr::eq] with metadata (arc.rs:390-396). *)
Definition arc_ptr_eq {V} (meta : V -> list nat) (st : state V) (p q : ptr) : option bool :=
  via (data st) (λ u v, Some (handle_eqb p q && bool_decide (meta u = meta v))) p q.

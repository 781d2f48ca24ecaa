(** Vocabulary for executions with user code that calls back. *)
From stdpp Require Import gmap list numbers relations.
From Verif Require Import Base ArcModel ArcSpec NestModel.

Section spec.
  Context {V : Type} (E : tyenv V).
  Implicit Types (ns : nstate V) (t u : nat).

  (** As for [bounded]: at most usize::MAX handles to one object. *)
  Definition nbounded (nls : list (nlabel V)) : Prop :=
    forall nls1 nls2 ns, nls = nls1 ++ nls2 -> run (nstep E) ninit nls1 = Some ns ->
    forall p, (N.of_nat (handles_to E (n_arc ns) p) < te_mod E)%N.

  (** [u] runs inside [t]'s user code, possibly several levels down; or is [t]. *)
  Definition within ns : nat -> nat -> Prop := rtc (λ x y, n_kid ns !! x = Some y).

  (** What user code calls while a search holds a lock needs only locks that come earlier in
      some order. *)
  Definition in_order (rank : nat * nat -> nat) ns : Prop :=
    forall lk t u lk', n_in ns !! lk = Some t -> within ns t u -> u <> t ->
    want E (n_arc ns) u = Some lk' -> rank lk' < rank lk.

  Definition panics (nl : nlabel V) (t : nat) : Prop := nl = NDo (LPanic t).
End spec.

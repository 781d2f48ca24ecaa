(** Vocabulary for the property about panics outside searches. *)
From stdpp Require Import gmap list numbers.
From Verif Require Import Base ArcModel ArcSpec GrowModel.

Section spec.
  Context {V : Type} (E : tyenv V) (early : bool).

  (** As [bounded]: fewer than 2^W handles to any one object at any time. *)
  Definition gbounded (ls : list (glabel V)) : Prop :=
    forall ls1 ls2 st1, ls = ls1 ++ ls2 -> run (gstep E early) init ls1 = Some st1 ->
    forall p, (N.of_nat (handles_to E st1 p) < te_mod E)%N.

  (** Hash never panics inside [e.insert(())]. *)
  Definition insert_returns (ls : list (glabel V)) : Prop :=
    Forall (λ l, match l with GInsert _ _ => False | _ => True end) ls.
  (** It may, but the table keeps its entries: it is not being rehashed in place. *)
  Definition entries_kept (ls : list (glabel V)) : Prop :=
    Forall (λ l, match l with GInsert _ gone => gone = [] | _ => True end) ls.
  (** Hash and Eq do not panic in searches. *)
  Definition searches_return (ls : list (glabel V)) : Prop :=
    Forall (λ l, match l with GDo (LPanic _) => False | _ => True end) ls.
End spec.

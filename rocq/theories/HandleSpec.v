(** Vocabulary for C49. *)
From stdpp Require Import gmap list numbers.
From Verif Require Import Base HandleModel.

(** On [H] the operations are defined and form a total order whose equality is [eqb], as the
    documentation of Ord and PartialOrd demands. *)
Record total_order {P : Type} (H : P -> Prop) (eqb : P -> P -> bool) (O : ops P) : Prop := TotalOrder {
  to_cmp : forall p q, H p -> H q -> exists c, o_cmp O p q = Some c /\
    o_cmp O q p = Some (CompOpp c) /\ o_pcmp O p q = Some (Some c) /\
    o_lt O p q = Some (bool_decide (c = Lt)) /\ o_le O p q = Some (bool_decide (c <> Gt)) /\
    o_gt O p q = Some (bool_decide (c = Gt)) /\ o_ge O p q = Some (bool_decide (c <> Lt)) /\
    (c = Eq <-> eqb p q = true);
  to_trans : forall p q r c, H p -> H q -> H r -> o_cmp O p q = Some c -> o_cmp O q r = Some c -> o_cmp O p r = Some c;
}.
(** Every operation gives for [p], [q] what [O] gives for [u], [v]. *)
Definition same_results {P V : Type} (O' : ops P) (O : ops V) p q u v : Prop :=
  o_cmp O' p q = o_cmp O u v /\ o_pcmp O' p q = o_pcmp O u v /\ o_lt O' p q = o_lt O u v /\
  o_le O' p q = o_le O u v /\ o_gt O' p q = o_gt O u v /\ o_ge O' p q = o_ge O u v.

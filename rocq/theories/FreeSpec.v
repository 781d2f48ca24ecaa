(** Vocabulary of C67: the memory in use, and the nesting of destructors. *)
From stdpp Require Import gmap list numbers.
From Verif Require Import Base ArcModel ArcSpec.

Section spec.
  Context {V : Type} (E : tyenv V).
  Implicit Types (st : state V) (p q : ptr).

  (** The boxes being dropped in a worklist.  The worklist is the call stack of the destructors,
      innermost first: a box is below whatever the destructor of its value has yet to do. *)
  Fixpoint freeing (w : list item) : list ptr :=
    match w with
    | [] => []
    | IFree q :: w' => q :: freeing w'
    | _ :: w' => freeing w'
    end.
  (** The boxes whose destructors thread [t] is in, innermost first. *)
  Definition nested st (t : nat) : list ptr :=
    match get_pc st t with PRem _ _ w _ | PWork w _ => freeing w | _ => [] end.

  (** The boxes a thread owns: the one it has made and not inserted, and those it is dropping. *)
  Definition pc_boxes (x : pc V) : list ptr :=
    match x with
    | PLookup _ _ (Some q) | PHit _ _ (Some q) _ | PInc _ _ (Some q) _ _ | PUndo _ _ (Some q) _
    | PAlloc _ _ (Some q) | PEntry _ _ q | PVac _ _ q | POcc _ _ q => [q]
    | PRem _ _ w _ | PWork w _ => freeing w
    | _ => []
    end.
  Definition boxes st : list ptr := concat (pc_boxes <$> (map_to_list (st_threads st)).*2).

  (** At some moment of the execution [ls] the value of [q] contained handle [k]. *)
  Definition contained (ls : list (label V)) q k : Prop :=
    exists ls1 ls2 st1 d, ls = ls1 ++ ls2 /\ run (step E) init ls1 = Some st1 /\
      data st1 q = Some d /\ k ∈ te_kids E d.

  (** Each of [ps] has one handle: the first one's is the client's, that of any other is the first
      handle in the value before it. *)
  Inductive single st : list ptr -> Prop :=
  | single_one p d : handles_to E st p = 1 -> data st p = Some d -> single st [p]
  | single_cons p d k ks ps : handles_to E st p = 1 -> data st p = Some d -> te_kids E d = k :: ks ->
      single st (k :: ps) -> single st (p :: k :: ps).
End spec.

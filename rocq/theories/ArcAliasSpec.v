(** Vocabulary for property C69. *)
From stdpp Require Import list.
From Verif Require Import Base ArcModel.

Section spec.
  Context {V : Type}.
  Implicit Types (st : state V) (p : ptr).
  (** The first thing the step does is to use the pointer of a handle of [p]: [clone], [refcount],
      [deref], and [drop] from its decrement to the removal. *)
  Definition begins_with st (l : label V) p : Prop :=
    match l with
    | LClone q _ | LRef q _ | LDeref q _ => q = p
    | LStep t _ _ =>
        match get_pc st t with
        | PWork (IDrop q :: _) _ | PWork (IRemove q :: _) _ | PRem _ q _ _ => q = p
        | _ => False
        end
    | _ => False
    end.
  (** [clone] of a handle of [p], or the decrement of its [drop]. *)
  Definition writes_count st (l : label V) p : Prop :=
    match l with
    | LClone q [] => q = p
    | LStep t _ _ => match get_pc st t with PWork (IDrop q :: _) _ => q = p | _ => False end
    | _ => False
    end.
  (** [new] has found [p] in the table and increments its count. *)
  Definition finds st t p : Prop := match get_pc st t with PHit _ _ _ q => q = p | _ => False end.
  (** [p] was taken out of the table and is dropped. *)
  Definition drops_box st t p : Prop := match get_pc st t with PWork (IFree q :: _) _ => q = p | _ => False end.
End spec.

(** Vocabulary for the property about subtyping. *)
From stdpp Require Import gmap list numbers.
From Verif Require Import Base ArcModel ArcSpec VarModel.

Section spec.
  Context {V : Type} (E : tyenv V) (up : nat -> V -> option V).

  (** A value used at another type is a value of that type. *)
  Definition up_typed : Prop := forall ty v v', up ty v = Some v' -> te_ty E v' = ty.

  (** As [bounded]: fewer than 2^W handles to any one object at any time. *)
  Definition vbounded (ls : list (vlabel V)) : Prop :=
    forall ls1 ls2 st1, ls = ls1 ++ ls2 -> run (vstep E up) init ls1 = Some st1 ->
    forall p, (N.of_nat (handles_to E st1 p) < te_mod E)%N.

  (** [v] is interned in the course of an execution. *)
  Definition interned (ls : list (vlabel V)) (v : V) : Prop := exists t k, VDo (LNew t k v) ∈ ls.

  (** No two values are interned such that one, used at another type, equals the other. *)
  Definition apart (ls : list (vlabel V)) : Prop :=
    forall v w ty v', interned ls v -> interned ls w -> up ty v = Some v' -> te_eq E v' w = false.

  (** Thread [t] calls [ArcIntern::new(v)] and is not disturbed; the allocator returns [a]. *)
  Definition undisturbed (t a : nat) (v : V) : list (vlabel V) :=
    VDo (LNew t KSized v) :: replicate 6 (VDo (LStep t a 0)).

  (** let a = ArcIntern::<A>::new(v); let b = ArcIntern::<B>::new(w);
      let c: ArcIntern<B> = a; drop(c); *b        where B is type number [ty]. *)
  Definition five_lines (ty : nat) (v w : V) : list (vlabel V) :=
    undisturbed 0 0 v ++ undisturbed 0 1 w ++
    [VDo (LDrop 0 (Ptr 0 0)); VDo (LStep 0 0 0); VAs 0 ty 0; VDo (LStep 0 0 0); VDo (LDeref (Ptr 1 1) [])].
End spec.

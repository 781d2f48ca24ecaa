(** Vocabulary of property C73 for [NewIntern]. *)
From stdpp Require Import gmap list numbers.
From Verif Require Import Base InternModel InternSpec NewModel NewSpec IsolSpec.

(** Sets are known by their index in their container, which changes when sets pushed earlier are
    taken away: [σ c i] is the new index of set [i] of container [c]. *)
Section rename.
  Context {V Q : Type} (E : ienv V Q) (ρ : nat -> nat) (σ : nat -> nat -> nat).
  Definition ren_nframe (f : nframe V Q) : nframe V Q :=
    let j := σ (slot E (type_of E f)) in
    match f with
    | NScan o b again => NScan o (ren_ptr ρ <$> b) again
    | NPush o b => NPush o (ren_ptr ρ <$> b)
    | NPub o b i => NPub o (ren_ptr ρ <$> b) (j i)
    | NLock o b i => NLock o (ren_ptr ρ <$> b) (j i)
    | NPanic o b => NPanic o (ren_ptr ρ <$> b)
    | NIn i g => NIn (j i) (ren_frame ρ g)
    end.
End rename.

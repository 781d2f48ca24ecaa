(** Vocabulary for the properties of [NewIntern]. *)
From stdpp Require Import gmap list numbers.
From Verif Require Import Base InternModel InternSpec NewModel.

Section spec.
  Context {V Q : Type} (E : ienv V Q).
  Implicit Types (s : nstate V Q) (f : nframe V Q).

  (** The call a frame belongs to. *)
  Definition call_of f : iop V Q :=
    match f with
    | NScan o _ _ | NPush o _ | NPub o _ _ | NLock o _ _ | NPanic o _ => o
    | NIn _ (FWait o _ | FGet o _ | FStore o _ | FIns o _ | FDup o _ _ | FDone o _) => o
    | NIn _ (FConv ty w q) => ORef ty w q
    end.
  Definition type_of f : nat := op_ty E (call_of f).
  (** The call has chosen set number [i] of its container: it waits for its mutex or has it. *)
  Definition uses f (i : nat) : Prop :=
    match f with NLock _ _ j | NIn j _ => j = i | _ => False end.
  (** The mutex is held: user code may be running and the set may be read and written. *)
  Definition inside f : Prop := match f with NIn _ _ => True | _ => False end.
  (** Thread [t]'s current user code, which runs inside a call for type [ty], panics. *)
  Definition user_panic s (l : ilabel V Q) (ty : nat) : Prop :=
    exists t f k, l = IPanic t /\ nstack s t = f :: k /\ inside f /\ type_of f = ty.
End spec.

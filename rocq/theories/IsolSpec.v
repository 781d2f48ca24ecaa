(** Vocabulary of property C73: what is left of an execution of the Intern model when the calls
    for some of the types are taken away. *)
From stdpp Require Import gmap list numbers.
From Verif Require Import Base InternModel InternSpec.

(** ** Renaming the ghost serials.  A machine pointer is its address and its metadata; the serial
    counts allocations, so it changes when earlier allocations are taken away. *)
Section rename.
  Context {V Q : Type} (ρ : nat -> nat).
  Definition ren_ptr (p : iptr) : iptr := IPtr (ip_addr p) (ip_meta p) (ρ (ip_ser p)).
  Definition ren_res (r : ires) : ires := match r with RPtr p => RPtr (ren_ptr p) | _ => r end.
  Definition ren_frame (f : frame V Q) : frame V Q :=
    match f with
    | FWait o b => FWait o (ren_ptr <$> b)
    | FGet o b => FGet o (ren_ptr <$> b)
    | FConv ty w q => FConv ty w q
    | FStore o v => FStore o v
    | FIns o p => FIns o (ren_ptr p)
    | FDup o b r => FDup o (ren_ptr <$> b) (ren_res r)
    | FDone o r => FDone o (ren_res r)
    end.
  Definition ren_event (e : ievent V Q) : ievent V Q :=
    match e with
    | EvIns t o p v => EvIns t o (ren_ptr p) v
    | EvClr ty => EvClr ty
    | EvRet t o r => EvRet t o (ren_res r)
    | EvRead p v => EvRead (ren_ptr p) v
    end.
  Definition ren_label (l : ilabel V Q) : ilabel V Q :=
    match l with IDeref p => IDeref (ren_ptr p) | _ => l end.
End rename.

Section isolate.
  Context {V Q : Type} (E : ienv V Q).
  (** The type an event is about. *)
  Definition event_ty (e : ievent V Q) : nat :=
    match e with
    | EvIns _ o _ _ | EvRet _ o _ => op_ty E o
    | EvClr ty => ty
    | EvRead _ v => ie_ty E v
    end.
  (** The part of a list that is about types in [keep]. *)
  Definition about {A} (ty : A -> nat) (keep : nat -> bool) (l : list A) : list A :=
    List.filter (λ x, keep (ty x)) l.
End isolate.

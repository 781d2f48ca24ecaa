(** What a constructor's argument stands for, independently of how it is interned. *)
From stdpp Require Import list.
From Verif Require Import ArcModel ArcCtorModel.

(** The elements somebody looking at the owner sees. *)
Definition source_contents {A} (s : source A) : list A :=
  match s with
  | SRef l => l | SBox l => l | SArc l => l | SRc l => l | SCowB l => l
  | SVec buf len => take len buf
  | SCowO buf len => take len buf
  end.

Definition ctor_content {V A Q} (of_slice : nat -> list A -> V) (conv : Q -> V)
    (c : ctor V A Q) : V :=
  match c with
  | CNew v | CFromT v | CDefaultT v | CDeserializeT v => v
  | CFromRef q => conv q
  | CFrom ty s | CVisit ty s => of_slice ty (source_contents s)
  | CDefaultD ty => of_slice ty []
  end.

(** The constructors of [ArcIntern<[T]>] and [ArcIntern<str>]; [T: Copy] there, so that the
    contents own no handle. *)
Definition of_dst {V A Q} (c : ctor V A Q) : Prop :=
  match c with CFrom _ _ | CDefaultD _ | CVisit _ _ => True | _ => False end.
Global Instance of_dst_dec {V A Q} (c : ctor V A Q) : Decision (of_dst c).
Proof. destruct c; apply _. Defined.

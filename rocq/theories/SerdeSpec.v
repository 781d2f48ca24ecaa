(** Kinds of formats, and what a visitor call carries. *)
From stdpp Require Import gmap list numbers.
From Verif Require Import Base SerdeModel.

(** The text of a call that carries a string, the octets of one that carries bytes. *)
Definition text (e : visit) : option (list N) :=
  match e with
  | VStr s | VBorrowedStr s | VChar s => Some s
  | VString buf len => Some (take len buf)
  | _ => None
  end.
Definition octets (e : visit) : option (list N) :=
  match e with
  | VBytes s | VBorrowedBytes s => Some s
  | VByteBuf buf len => Some (take len buf)
  | _ => None
  end.

Section spec.
  Context {W : Type} (F : format W).

  (** [T] survives the format: what [ser] writes, [de] reads back as the same value. *)
  Definition round_trips {V} (same : V -> V -> Prop) (ser : V -> dval) (de : W -> option V) : Prop :=
    forall v w, f_enc F (ser v) = Some w -> exists v', de w = Some v' /\ same v v'.

  (** Asked for a string, the format gives back the string that was written. *)
  Definition keeps_strings : Prop :=
    forall s w, f_enc F (DStr s) = Some w -> exists e, f_str F w = Some e /\ text e = Some s.

  (** Asked for bytes where a sequence was written, the format fails or gives a sequence
      (JSON, CBOR, MessagePack, RON, ...). *)
  Definition tells_seqs_from_bytes : Prop :=
    forall l w e, f_enc F (DSeq l) = Some w -> f_bytes F w = Some e -> exists l', e = VSeq l'.

  (** A sequence of octets is written like bytes (bincode, postcard). *)
  Definition writes_seqs_like_bytes : Prop :=
    (forall s, f_enc F (DSeq (DU8 <$> s)) = f_enc F (DBytes s)) /\
    (forall s w, f_enc F (DBytes s) = Some w -> exists e, f_bytes F w = Some e /\ octets e = Some s).
End spec.

(** Serde support: /repo/src/arc.rs:427-434, 450-460, /repo/src/intern.rs:458-465, 480-486,
    /repo/src/arc_dst.rs:230-297 (and /repo/src/typearena.rs:473-480, 495-502, which has the
    text of intern.rs).

    Serialising a handle makes calls on the format's [Serializer]; they are recorded as a
    value of serde's data model.  Deserialising asks the format's [Deserializer] for
    something and the format calls back one method of a [Visitor].  Formats are arbitrary
    functions; nothing is assumed about them here. *)
From stdpp Require Import gmap list numbers.
From Verif Require Import Base ArcModel ArcCtorModel InternModel.

(** What is written to a [Serializer].  [DOther] stands for all that the impls below never
    write themselves; [T]'s own impl may. (arc.rs:429-434, intern.rs:460-465.) *)
Inductive dval :=
| DU8 (b : N)               (* serialize_u8 *)
| DStr (s : list N)         (* serialize_str, as UTF-8 *)
| DBytes (s : list N)       (* serialize_bytes *)
| DSeq (l : list dval)      (* serialize_seq, the elements, end *)
| DOther (n : nat) (l : list dval).

(** The method of the visitor that a [Deserializer] calls.  [VString]/[VByteBuf] carry a
    [String]/[Vec<u8>]: its buffer and its length.  [VOther]: bools, numbers, options, units,
    maps, enums. (arc_dst.rs:236-256, 268-289.) *)
Inductive visit :=
| VStr (s : list N)
| VBorrowedStr (s : list N)
| VString (buf : list N) (len : nat)
| VChar (s : list N)        (* a char, as UTF-8 *)
| VBytes (s : list N)
| VBorrowedBytes (s : list N)
| VByteBuf (buf : list N) (len : nat)
| VSeq (l : list dval)
| VOther (n : nat).

(** A format with wire type [W].  [None]: the format reports an error by itself.
    (The parameters [S] and [D] of arc.rs:431, arc_dst.rs:260, 294.) *)
Record format (W : Type) := Format {
  f_enc : dval -> option W;
  f_str : W -> option visit;     (* deserialize_str *)
  f_bytes : W -> option visit;   (* deserialize_bytes *)
}.
Global Arguments Format {W}.
Global Arguments f_enc {W}.
Global Arguments f_str {W}.
Global Arguments f_bytes {W}.

(** [StrVisitor] (arc_dst.rs:236-256): what is given to [ArcIntern::from]; [None] is the error
    [invalid_type] of the methods that are not overridden.  By default (serde's Visitor)
    visit_borrowed_str and visit_char forward to visit_str. *)
Definition str_visitor (e : visit) : option (source N) :=
  match e with
  | VString buf len => Some (SVec buf len)      (* 243-248 *)
  | VStr s => Some (SRef s)                     (* 250-255 *)
  | VBorrowedStr s => Some (SRef s)
  | VChar s => Some (SRef s)
  | _ => None
  end.
(** [BytesVisitor] (arc_dst.rs:268-289).  By default visit_borrowed_bytes forwards to
    visit_bytes.  The feature "alloc" is on whenever "arc" is (Cargo.toml:52, 58). *)
Definition bytes_visitor (e : visit) : option (source N) :=
  match e with
  | VBytes s => Some (SRef s)                   (* 275-280 *)
  | VByteBuf buf len => Some (SVec buf len)     (* 282-288 *)
  | VBorrowedBytes s => Some (SRef s)
  | _ => None
  end.

(** serde's own impls: [str] is a string, [[u8]] is a sequence of numbers. Called by arc.rs:432. *)
Definition ser_str (s : list N) : dval := DStr s.
(** Called by arc.rs:432. *)
Definition ser_u8s (l : list N) : dval := DSeq (DU8 <$> l).

Section arc.
  Context {V Q W : Type}.
  (** [Serialize for ArcIntern<T>] (arc.rs:429-434): [T]'s impl [ser] on the value the handle
      points to.  [None]: there is none, undefined behaviour. *)
  Definition ser_arc (ser : V -> dval) (st : state V) (p : ptr) : option dval := ser <$> data st p.
  (** [Deserialize for ArcIntern<T>] (arc.rs:452-460): [de] is [T::deserialize] on this format.
      The result is the interning call that is made; [None] is an error. *)
  Definition de_arc (de : W -> option V) (w : W) : option (ctor V N Q) := CDeserializeT <$> de w.
  (** [Deserialize for ArcIntern<str>] (arc_dst.rs:259-263); [ty] is the number of [str]. *)
  Definition de_arc_str (F : format W) (ty : nat) (w : W) : option (ctor V N Q) :=
    match f_str F w with Some e => CVisit ty <$> str_visitor e | None => None end.
  (** [Deserialize for ArcIntern<[u8]>] (arc_dst.rs:293-297). *)
  Definition de_arc_bytes (F : format W) (ty : nat) (w : W) : option (ctor V N Q) :=
    match f_bytes F w with Some e => CVisit ty <$> bytes_visitor e | None => None end.

  (** The same for [Intern] (intern.rs:460-465, 482-486). *)
  Definition ser_intern (ser : V -> dval) (st : istate V Q) (p : iptr) : option dval := ser <$> iread st p.
  (** intern.rs:482-486. *)
  Definition de_intern (de : W -> option V) (w : W) : option (iop V Q) := ONew <$> de w.
End arc.

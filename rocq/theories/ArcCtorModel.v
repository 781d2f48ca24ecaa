(** All the ways to build an [ArcIntern], and comparison of a handle with plain strings
    and slices. *)
From stdpp Require Import gmap list numbers.
From Verif Require Import Base ArcModel ArcSpec.

(** Owners of slice (or str) contents.  [Vec]/[String] keep spare capacity: [buf] is the
    whole buffer and only the first [len] elements are contents.
    The types of arc_dst.rs:121-168 and 212-228. *)
Inductive source (A : Type) :=
| SRef (l : list A)                     (* &[T], &str, &mut [T], [T], str, [T; N], &[T; N] *)
| SVec (buf : list A) (len : nat)       (* Vec<T>, String *)
| SBox (l : list A)                     (* Box<[T]>, Box<str> *)
| SArc (l : list A)                     (* Arc<[T]>, Arc<str> *)
| SRc (l : list A)                      (* Rc<[T]>, Rc<str> *)
| SCowB (l : list A)                    (* Cow::Borrowed *)
| SCowO (buf : list A) (len : nat).     (* Cow::Owned, i.e. a Vec or String *)
Global Arguments SRef {A}.
Global Arguments SVec {A}.
Global Arguments SBox {A}.
Global Arguments SArc {A}.
Global Arguments SRc {A}.
Global Arguments SCowB {A}.
Global Arguments SCowO {A}.

(** [&f[..]] for each owner (std [Index]/[Deref]). (arc_dst.rs:132, 191, 195, 203, 207.) *)
Definition full_slice {A} (s : source A) : list A :=
  match s with
  | SRef l | SBox l | SArc l | SRc l | SCowB l => l
  | SVec buf len | SCowO buf len => take len buf
  end.

Section ctor.
  Context {V A Q : Type} (E : tyenv V).
  (** The value of type [[T]] or [str] (type number [ty]) with given contents. *)
  Context (of_slice : nat -> list A -> V).
  (** [T::from(&q)] for [from_ref]. *)
  Context (conv : Q -> V).

  (** Constructors.  [ty] says which [[T]]/[str]. *)
  Inductive ctor :=
  | CNew (v : V)                          (* ArcIntern::new, arc.rs:224 *)
  | CFromT (v : V)                        (* From<T>, arc.rs:436-441 *)
  | CFromRef (q : Q)                      (* from_ref, arc.rs:193-200 *)
  | CDefaultT (d : V)                     (* Default where T::default() is d, arc.rs:443-448 *)
  | CDeserializeT (v : V)                 (* Deserialize when T::deserialize gave v, arc.rs:450-460 *)
  | CFrom (ty : nat) (s : source A)       (* From<&str>, From<String>, ..., arc_dst.rs:121-168 *)
  | CDefaultD (ty : nat)                  (* Default for str / [T], arc_dst.rs:170-182 *)
  | CVisit (ty : nat) (s : source A).     (* visit_str/visit_string/visit_bytes/visit_byte_buf, arc_dst.rs:243-255, 275-288 *)

  (** [From<&str>] / [From<&[T]>]: arc_dst.rs:121-125, 155-164. *)
  Definition from_slice_ref (ty : nat) (l : list A) : kind * V := (KDst, of_slice ty l).

  (** [impl_from!] (arc_dst.rs:127-140, 165-168) forwards [&f[..]]; [Cow] (arc_dst.rs:141-153)
      forwards to the impl of its content. *)
  Definition from_owned (ty : nat) (s : source A) : kind * V := from_slice_ref ty (full_slice s).
  (** arc_dst.rs:121-168. *)
  Definition from_source (ty : nat) (s : source A) : kind * V :=
    match s with
    | SRef l => from_slice_ref ty l
    | SCowB b => from_slice_ref ty b
    | SCowO buf len => from_owned ty (SVec buf len)
    | _ => from_owned ty s
    end.

  (** The interning call a constructor makes.
      arc.rs:193-200, 436-460; arc_dst.rs:121-182, 243-288. *)
  Definition call (c : ctor) : kind * V :=
    match c with
    | CNew v => (KSized, v)
    | CFromT v => (KSized, v)
    | CFromRef q => (KSized, conv q)
    | CDefaultT d => (KSized, d)
    | CDeserializeT v => (KSized, v)
    | CFrom ty s => from_source ty s
    | CDefaultD ty => from_slice_ref ty []
    | CVisit ty s => from_source ty s
    end.

  (** The label by which thread [t] calls the constructor.
      arc.rs:193-200, 224; arc_dst.rs:121-182. *)
  Definition construct (t : nat) (c : ctor) : label V := LNew t (fst (call c)) (snd (call c)).

  (** [impl_eq!] (arc_dst.rs:185-228): both sides are sliced and compared with the slices'
      own [eq]/[ne], in the order written. *)
  Definition handle_eq_source (st : state V) (p : ptr) (ty : nat) (s : source A) : option bool :=
    match data st p with Some d => Some (te_eq E d (of_slice ty (full_slice s))) | None => None end.
  (** arc_dst.rs:202-204. *)
  Definition source_eq_handle (st : state V) (ty : nat) (s : source A) (p : ptr) : option bool :=
    match data st p with Some d => Some (te_eq E (of_slice ty (full_slice s)) d) | None => None end.
  (** arc_dst.rs:194-196. *)
  Definition handle_ne_source (st : state V) (p : ptr) (ty : nat) (s : source A) : option bool :=
    negb <$> handle_eq_source st p ty s.
  (** arc_dst.rs:206-208. *)
  Definition source_ne_handle (st : state V) (ty : nat) (s : source A) (p : ptr) : option bool :=
    negb <$> source_eq_handle st ty s p.
End ctor.
Global Arguments ctor : clear implicits.
Global Arguments CNew {V A Q}.
Global Arguments CFromT {V A Q}.
Global Arguments CFromRef {V A Q}.
Global Arguments CDefaultT {V A Q}.
Global Arguments CDeserializeT {V A Q}.
Global Arguments CFrom {V A Q}.
Global Arguments CDefaultD {V A Q}.
Global Arguments CVisit {V A Q}.

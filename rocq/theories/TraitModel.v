(** The auto traits [Send] and [Sync] of the crate's types, as rustc derives them from the
    fields, and the trait bounds of the interning functions. *)
From stdpp Require Import list numbers.

(** Types, without lifetimes.  [RBase i] is any type of the user's. *)
Inductive rty :=
| RBase (i : nat)
| RRef (T : rty)         (* &T *)
| RBox (T : rty)         (* Box<T> *)
| RSet (T : rty)         (* HashSet<T>, a struct of a HashMap<T, ()>: boxedset.rs:11 *)
| RMutex (T : rty)       (* std::sync::Mutex<T> or spin::mutex::Mutex<T> *)
| RArcIntern (T : rty).  (* ArcIntern<T>: arc.rs:54-56 *)

(** The other types of the crate are structs with one field. *)
Definition RIntern (T : rty) : rty := RRef T.                  (* intern.rs:55-57, typearena.rs:144-146 *)
Definition RArena (T : rty) : rty := RMutex (RSet (RBox T)).   (* arena.rs:51-56 *)
Definition RArenaIntern (T : rty) : rty := RRef T.             (* arena.rs:81-83 *)

Section traits.
  (** Which of the user's types are Send and Sync. *)
  Context (base_send base_sync : nat -> bool).

  (** (Send, Sync).  The rules of the standard library: [&T] is Send and Sync iff [T] is Sync;
      [Box] and collections have what their contents have; a mutex is Send and Sync iff its
      contents are Send.  ArcIntern has a raw pointer; the traits come from the two
      [unsafe impl]s at arc.rs:81-82. *)
  Fixpoint auto (x : rty) : bool * bool :=
    match x with
    | RBase i => (base_send i, base_sync i)
    | RRef T => ((auto T).2, (auto T).2)
    | RBox T | RSet T => auto T
    | RMutex T => ((auto T).1, (auto T).1)
    | RArcIntern T => ((auto T).1 && (auto T).2, (auto T).1 && (auto T).2)
    end.
  (** As required at intern.rs:201, arc.rs:140. *)
  Definition is_send x : bool := (auto x).1.
  (** As required at intern.rs:201, arc.rs:140. *)
  Definition is_sync x : bool := (auto x).2.

  (** The bounds [T: Send + Sync] of every constructor of Intern (intern.rs:134-149, 167, 201,
      239), NewIntern (typearena.rs:191-206, 224, 251, 290) and ArcIntern (arc.rs:54, 140, 216,
      arc_dst.rs:66).  [Arena::new] and the [intern] functions of Arena have no such bound
      (arena.rs:100, 112, 134, 176, 205, 262, 319, 375, 404). *)
  Definition meets_bounds T : bool := is_send T && is_sync T.
End traits.

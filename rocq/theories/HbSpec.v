(** Happens-before and data races for the containers that are protected by mutexes ([Intern],
    [NewIntern], [Arena]); vocabulary of C58, C59 and C60. *)
From stdpp Require Import gmap list numbers.
From Verif Require Import Base InternModel.

(** What releases and acquires synchronise through: the mutex of a container, the length of an
    AppendOnlyVec when it comes to exceed an index, anything in the clients' code (channels,
    their own mutexes, spawning and joining threads). *)
Inductive sobj := SLock (x : nat * nat) | SElt (x : nat * nat) | SMsg (m : nat).
(** What is accessed: an interned (or boxed) value, identified by the serial number of its
    allocation; the contents of a mutex; a published element of an AppendOnlyVec, or the
    memory of an arena's mutex (initialising and freeing it are writes, locking and unlocking
    need no order among themselves and count as reads). *)
Inductive mloc := LVal (s : nat) | LSet (x : nat * nat) | LElt (x : nat * nat).

(** What a thread does. *)
Inductive act :=
| ATouch (l : list (mloc * bool))  (* accesses; [true]: writes (or frees), [false]: reads *)
| AAcq (x : sobj)                  (* lock, load(Acquire), ... *)
| ARel (x : sobj)                  (* unlock, store(Release), ... *)
| AGot (p : iptr)                  (* a call returns handle [p] to its caller *)
| ARead (p : iptr)                 (* client code reads the value behind [p] *)
| AMade (r : nat)                  (* arena [r] is returned to its creator *)
| AUse (r : nat)                   (* a call on arena [r] starts *)
| AEnd (r : nat)                   (* a use of arena [r], or of a handle into it, ends *)
| ADrop (r : nat).                 (* the drop of arena [r] begins *)

Definition touched (a : act) : list (mloc * bool) :=
  match a with ATouch l => l | ARead p => [(LVal (ip_ser p), false)] | _ => [] end.
(** A release synchronises with the later acquires of the same object.  (The length of an
    AppendOnlyVec is changed by read-modify-writes only, so a load that gives length [n] reads
    from the release sequences of the publications of all indices below [n].) *)
Definition syncs (a b : act) : Prop := match a, b with ARel x, AAcq y => x = y | _, _ => False end.

(** An execution: which thread does what, in order. *)
Notation acts := (list (nat * act)).
(** The transitive closure of program order and synchronises-with. *)
Inductive hb (evs : acts) : nat -> nat -> Prop :=
| hb_edge i j e f : i < j -> evs !! i = Some e -> evs !! j = Some f ->
    e.1 = f.1 \/ syncs e.2 f.2 -> hb evs i j
| hb_trans i j k : hb evs i j -> hb evs j k -> hb evs i k.

(** Two accesses of one location, one of them a write. *)
Definition clash (a b : act) : Prop :=
  exists k w w', (k, w) ∈ touched a /\ (k, w') ∈ touched b /\ w || w' = true.
Definition race_free (evs : acts) : Prop :=
  forall i j e f, i < j -> evs !! i = Some e -> evs !! j = Some f -> clash e.2 f.2 -> hb evs i j.
Definition data_race (evs : acts) : Prop :=
  exists i j e f, i < j /\ evs !! i = Some e /\ evs !! j = Some f /\ clash e.2 f.2 /\ ~ hb evs i j.

(** What safe client code guarantees.  A thread reads through a handle only if a call that
    returned it happens before: handles travel between threads by synchronised means. *)
Definition handles_travel (evs : acts) : Prop :=
  forall j t p, evs !! j = Some (t, ARead p) -> exists i u, evs !! i = Some (u, AGot p) /\ hb evs i j.
(** Whoever drops an arena owns it: all uses by reference ended before. *)
Definition drops_are_last (evs : acts) : Prop :=
  forall i j t u r, evs !! i = Some (t, AEnd r) -> evs !! j = Some (u, ADrop r) -> hb evs i j.
(** A thread calls an arena only if its creation happens before. *)
Definition arenas_travel (evs : acts) : Prop :=
  forall j t r, evs !! j = Some (t, AUse r) -> exists i u, evs !! i = Some (u, AMade r) /\ hb evs i j.

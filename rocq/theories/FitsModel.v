(** Executable model of the [Fits64] implementation for [Intern<T>] (feature tinyset):
    /repo/src/intern.rs:289-338, and the copy in /repo/src/typearena.rs:311-363, which has
    its own static.

    Numbers are in [N]; [u64] is the range below [2^64].  The atomic is accessed with
    [Ordering::Relaxed]: a load may return the initial null although another thread has
    already stored a pointer.  (A compare_exchange that succeeds reads the newest value; one
    that fails read something else than null, and only one other value is ever stored.) *)
From stdpp Require Import gmap list numbers.
From Verif Require Import Base.
Local Open Scope N_scope.

(** The [u64] of intern.rs:329, 334. *)
Definition u64_bound : N := 2 ^ 64.

(** [sz::<T>()] is [a] below: the alignment of [T] (intern.rs:316-318). *)
(** [to_u64] of a handle at address [p], given [heap_location()]: intern.rs:334-336. *)
Definition to_code (a h p : N) : N := N.lxor (p / a) (h / a).
(** [from_u64]: intern.rs:329-333.  [None] if the multiplication overflows [u64] (panics in
    a debug build). *)
Definition from_code (a h x : N) : option N :=
  let p := N.lxor x (h / a) * a in if p <? u64_bound then Some p else None.

(** What a thread calls; the alignment is that of the type of the handle.
    intern.rs:297, 329, 334. *)
Inductive hop :=
| HHeap                   (* heap_location() *)
| HTo (a p : N)           (* handle.to_u64(), the handle being at address p *)
| HFrom (a x : N).        (* Intern::from_u64(x) *)
(** Where a call is: intern.rs:297-314. *)
Inductive hframe :=
| HLoad (o : hop)               (* before the load: line 300 *)
| HAlloc (o : hop)              (* the load returned null; before allocate_ptr: line 302 *)
| HCas (o : hop) (q : N)        (* before compare_exchange, ptr = q: lines 303-311 *)
| HUse (o : hop) (h : N).       (* heap_location() has the result h *)
(** What intern.rs:297-336 returned. *)
Inductive hevent :=
| HvHeap (t : nat) (h : N)
| HvTo (t : nat) (a p x : N)
| HvFrom (t : nat) (a x : N) (r : option N).
Record hstate := HState {
  h_loc : N;                     (* HEAP_LOCATION, 0 = null: lines 298-299 *)
  h_threads : gmap nat hframe;
  h_log : list hevent;           (* newest first *)
}.
(** intern.rs:298-299. *)
Definition hinit : hstate := HState 0 ∅ [].
(** Bookkeeping of the model, no counterpart in /repo. *)
Definition hset (s : hstate) (t : nat) (f : hframe) : hstate :=
  HState (h_loc s) (<[t:=f]> (h_threads s)) (h_log s).

(** [stale]: the load returns null; [q]: the address [allocate_ptr] obtains (Box::leak of a
    new box, not null). (intern.rs:300, 302.) *)
Inductive hlabel :=
| HCall (t : nat) (o : hop)
| HStep (t : nat) (stale : bool) (q : N).

(** intern.rs:297-336. *)
Definition hstep (s : hstate) (l : hlabel) : outcome hstate :=
  match l with
  | HCall t o =>
      match h_threads s !! t with
      | Some _ => Illegal
      | None =>
          if match o with
             | HHeap => true
             | HTo a p => negb (a =? 0) && (p <? u64_bound)
             | HFrom a x => negb (a =? 0) && (x <? u64_bound)
             end
          then Next (hset s t (HLoad o)) else Illegal
      end
  | HStep t stale q =>
      match h_threads s !! t with
      | None => Illegal
      | Some (HLoad o) =>
          let p := if stale then 0 else h_loc s in
          Next (hset s t (if p =? 0 then HAlloc o else HUse o p))
      | Some (HAlloc o) =>
          if negb (q =? 0) && (q <? u64_bound) then Next (hset s t (HCas o q)) else Illegal
      | Some (HCas o q) =>
          if h_loc s =? 0
          then Next (HState q (<[t:=HUse o q]> (h_threads s)) (h_log s))
          else Next (hset s t (HUse o (h_loc s)))
      | Some (HUse o h) =>
          let e := match o with
                   | HHeap => HvHeap t h
                   | HTo a p => HvTo t a p (to_code a h p)
                   | HFrom a x => HvFrom t a x (from_code a h x)
                   end in
          Next (HState (h_loc s) (delete t (h_threads s)) (e :: h_log s))
      end
  end.

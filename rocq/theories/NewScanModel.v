(** [NewIntern] again, with the loads of [AppendOnlyVec::count] made explicit.

    [NewModel] lets [iter()] miss the set of a type whenever it likes, except right after the
    thread's own push.  Here a load returns a number: any length the vector has had, but never
    less than what the same thread has read or written before (coherence of a single atomic
    location, which holds for every ordering).  Everything else is [NewModel]'s. *)
From stdpp Require Import gmap list numbers.
From Verif Require Import Base InternModel NewModel.

(** NewModel's state (typearena.rs:16-21) and what the loads returned. *)
Record cstate (V Q : Type) := CState {
  c_new : nstate V Q;
  c_seen : gmap (nat * nat) nat;       (* thread, container -> largest count it has read or written *)
}.
Global Arguments CState {V Q}.
Global Arguments c_new {V Q}.
Global Arguments c_seen {V Q}.

Section model.
  Context {V Q : Type} (E : ienv V Q).
  Implicit Types (s : cstate V Q).

  (** typearena.rs:20-21. *)
  Definition cinit : cstate V Q := CState ninit ∅.
  (** Bookkeeping of the model, no counterpart in /repo. *)
  Definition seen s (t c : nat) : nat := default 0 (c_seen s !! (t, c)).
  (** A step of [NewModel] that does not touch [count]. (All but typearena.rs:64, 71, 77.) *)
  Definition lift_to s (seen' : gmap (nat * nat) nat) (r : outcome (nstate V Q)) : outcome (cstate V Q) :=
    match r with
    | Next n => Next (CState n seen')
    | Blocked => Blocked
    | Illegal => Illegal
    | UB => UB
    end.

  Definition cstep s (l : ilabel V Q) : outcome (cstate V Q) :=
    match l with
    | IStep t a j =>
        match nstack (c_new s) t with
        | NScan o b again :: k =>
            (* iter() loads count once, j is what it reads; then the first j elements are
               searched: typearena.rs:64-65, 77-78.  Not finding the type the second time is
               unreachable!(), line 83, counted as UB. *)
            let c := slot E (op_ty E o) in
            let v := nvec (c_new s) c in
            if (seen s t c <=? j) && (j <=? length v) then
              match find_ty (op_ty E o) (take j v) with
              | Some i => Next (CState (nset_stack (c_new s) t (NLock o b i :: k)) (<[(t, c) := j]> (c_seen s)))
              | None => if again then UB
                        else Next (CState (nset_stack (c_new s) t (NPush o b :: k)) (<[(t, c) := j]> (c_seen s)))
              end
            else Illegal
        | NPub o b i :: k =>
            (* the compare_exchange that succeeds writes i + 1: typearena.rs:71 *)
            lift_to s (<[(t, slot E (op_ty E o)) := S i]> (c_seen s)) (nstep E (c_new s) l)
        | _ => lift_to s (c_seen s) (nstep E (c_new s) l)
        end
    | _ => lift_to s (c_seen s) (nstep E (c_new s) l)
    end.

  (** Does every load of this step, if any, return the current count? (typearena.rs:64, 77.) *)
  Definition fresh s (l : ilabel V Q) : bool :=
    match l with
    | IStep t _ j => match nstack (c_new s) t with
                     | NScan o _ _ :: _ => j =? length (nvec (c_new s) (slot E (op_ty E o)))
                     | _ => true
                     end
    | _ => true
    end.
  (** The sequentially consistent executions among those of [cstep]. (typearena.rs:23-84.) *)
  Definition fstep s (l : ilabel V Q) : outcome (cstate V Q) := if fresh s l then cstep s l else Illegal.
End model.

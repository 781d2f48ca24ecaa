(** Executions for the examples about deadlocks of [NewIntern]. *)
From stdpp Require Import gmap list numbers.
From Verif Require Import Base InternModel InternSpec InternEx NewModel NewSpec NewEx NewWait.

Lemma n_threads_in {V Q : Type} (s : nstate V Q) l t : (map_to_list (n_threads s)).*1 = l -> t ∈ l \/ nstack s t = [].
Proof.
  intros <-. unfold nstack. destruct (n_threads s !! t) as [k|] eqn:Ht; [left|by right].
  apply elem_of_list_fmap. exists (t, k). split; [done|]. by apply elem_of_map_to_list.
Qed.
(** A set that exists: from the call to holding its mutex, 2 steps. *)
Definition w_first (ty : nat) : nlabels := [ICall 9 (OLen ty) 0] ++ nsteps 9 0 6.
(** Thread 1 converts for type 2 and makes a call for type 0, in the same container; thread 2 has
    just reserved index 2 of that container. *)
Definition w_up : nlabels :=
  w_first 2 ++ w_first 0 ++ [ICall 1 (ORef 2 0 (8, 0)) 0] ++ nsteps 1 0 3 ++
  [ICall 1 (ONew (IV 0 3 0)) 0; IStep 1 0 0; ICall 2 (OBox (IV 0 3 0)) 100; IStep 2 0 1; IStep 2 0 0].
(** Threads 1 and 2 nest types 0 and 1 in opposite orders. *)
Definition w_abba : nlabels :=
  w_first 0 ++ w_first 1 ++ [ICall 1 (ORef 0 0 (8, 0)) 0] ++ nsteps 1 0 3 ++ [ICall 2 (ORef 1 0 (8, 0)) 0] ++ nsteps 2 0 3 ++
  [ICall 1 (ONew (IV 1 3 0)) 0; IStep 1 0 0; ICall 2 (ONew (IV 0 3 0)) 0; IStep 2 0 0].
(** A conversion for type 1 has panicked.  Then thread 1 panics in a call for type 0; the Drop of its
    argument makes a call for type 1. *)
Definition w_abort : nlabels :=
  w_first 0 ++ w_first 1 ++ [ICall 2 (ORef 1 0 (8, 0)) 0] ++ nsteps 2 0 3 ++ [IPanic 2; IStep 2 0 0] ++
  [ICall 1 (OBox (IV 0 3 0)) 100] ++ nsteps 1 0 2 ++ [IPanic 1; ICall 1 (ONew (IV 1 3 0)) 0; IStep 1 0 0].
(** Thread 1 is inside its own conversion. *)
Definition w_again : nlabels := [ICall 1 (ORef 0 0 (8, 0)) 0] ++ nsteps 1 0 6.

(** Property C75: the calls of Intern, of the Intern of typearena.rs and of Arena, and drops of
    arenas, end (src/intern.rs 160-290, container.rs 18-60, typearena.rs 60-305, arena.rs 59-174,
    406-427).  Vocabulary: TermSpec.v; deadlocks: InternSpec.v, NewWait.v, ArenaWait.v. *)
From stdpp Require Import gmap list numbers.
From Verif Require Import Base InternModel InternSpec InternEx NewModel NewSpec NewEx NewWait NewWaitEx
  ArenaModel ArenaSpec ArenaStep ArenaLawful ArenaEx ArenaWait TermSpec TermIntern TermNew TermArena TermEx PropArenaWait PropNewWait.

(** ** C75.  However the steps of running calls are scheduled, and wherever user code panics, a call
    takes at most 6 steps (of those of the model), *)
Theorem C75_intern_bounded {V Q : Type} (E : ienv V Q) ls0 st ls :
  run (istep E) iinit ls0 = Some st -> (forall lb, lb ∈ ls -> exists t, i_own t lb) ->
  taken (istep E) st ls <= 6 * weigh (λ _, 1) (i_threads st).
Proof. exact (i_bounded E ls0 st ls). Qed.
Print Assumptions C75_intern_bounded.
(** at most 10 in typearena.rs, where a failed compare_exchange of [push] is not a step, *)
Theorem C75_new_bounded {V Q : Type} (E : ienv V Q) ls0 s ls :
  run (nstep E) ninit ls0 = Some s -> (forall lb, lb ∈ ls -> exists t, i_own t lb) ->
  taken (nstep E) s ls <= 10 * weigh (λ _, 1) (n_threads s).
Proof. exact (n_bounded E ls0 s ls). Qed.
Print Assumptions C75_new_bounded.
(** at most 9 for a call on an arena, and one more than there are elements for its drop. *)
Theorem C75_arena_bounded {V Q : Type} (E : ienv V Q) ls0 st ls :
  run (astep E) ainit ls0 = Some st -> (forall lb, lb ∈ ls -> exists t, a_own t lb) ->
  taken (astep E) st ls <= weigh a_most (a_threads st).
Proof. exact (a_bounded E ls0 st ls). Qed.
Print Assumptions C75_arena_bounded.
(** These numbers are reached. *)
Example C75_bounded_example :
  (run (istep fullE) iinit ti_one = Some (iafter fullE ti_one) /\ (forall lb, lb ∈ ti_long -> exists t, i_own t lb) /\
   weigh (λ _, 1) (i_threads (iafter fullE ti_one)) = 1 /\ taken (istep fullE) (iafter fullE ti_one) ti_long = 6) /\
  (run (nstep fullE) ninit ti_one = Some (nafter fullE ti_one) /\ (forall lb, lb ∈ tn_long -> exists t, i_own t lb) /\
   weigh (λ _, 1) (n_threads (nafter fullE ti_one)) = 1 /\ taken (nstep fullE) (nafter fullE ti_one) tn_long = 10) /\
  (run (astep asymE) ainit ta_asym = Some (aafter asymE ta_asym) /\ (forall lb, lb ∈ ta_long -> exists t, a_own t lb) /\
   weigh a_most (a_threads (aafter asymE ta_asym)) = 9 /\ taken (astep asymE) (aafter asymE ta_asym) ta_long = 9).
Proof.
  split_and!; first [by apply iafter_run; vm_compute|by apply nafter_run; vm_compute|by apply aafter_run; vm_compute
    |by apply all_own_own; repeat constructor|by apply all_aown_own; repeat constructor|by vm_compute].
Qed.

(** When no thread can take a step, all calls have returned, or those that have not wait for each
    other, from inside nested calls (in typearena.rs, or the process is about to abort). *)
Theorem C75_intern_stuck {V Q : Type} (E : ienv V Q) ls0 st :
  run (istep E) iinit ls0 = Some st -> total_from E -> (forall t, ~ able (istep E) i_own st t) ->
  (forall t, get_stack st t = []) \/
  ((exists t, get_stack st t <> []) /\ deadlocked E st (λ t, get_stack st t <> [])).
Proof. exact (i_stuck E ls0 st). Qed.
Print Assumptions C75_intern_stuck.
Theorem C75_new_stuck {V Q : Type} (E : ienv V Q) ls0 s :
  run (nstep E) ninit ls0 = Some s -> total_from E -> (forall t, ~ able (nstep E) i_own s t) ->
  (forall t, nstack s t = []) \/ (exists t, n_aborts E s t) \/
  ((exists t, nstack s t <> []) /\ n_deadlocked E s (λ t, nstack s t <> [])).
Proof. exact (n_stuck E ls0 s). Qed.
Print Assumptions C75_new_stuck.
Theorem C75_arena_stuck {V Q : Type} (E : ienv V Q) ls0 st :
  (forall o, a_sound E o) -> run (astep E) ainit ls0 = Some st -> total_from E -> (forall t, ~ able (astep E) a_own st t) ->
  (forall t, a_stack st t = []) \/
  ((exists t, a_stack st t <> []) /\ a_deadlocked st (λ t, a_stack st t <> [])).
Proof. exact (a_stuck E ls0 st). Qed.
Print Assumptions C75_arena_stuck.

(** So every weakly fair execution without new calls comes to rest, in such a state; *)
Theorem C75_intern_settles {V Q : Type} (E : ienv V Q) ls0 st s x :
  run (istep E) iinit ls0 = Some st -> total_from E ->
  runs_on (istep E) i_own st s x -> fair (istep E) i_own s x ->
  exists n, (forall m, n <= m -> x m = x n) /\
    ((forall t, get_stack (x n) t = []) \/
     ((exists t, get_stack (x n) t <> []) /\ deadlocked E (x n) (λ t, get_stack (x n) t <> []))).
Proof. exact (i_settles E ls0 st s x). Qed.
Print Assumptions C75_intern_settles.
Theorem C75_new_settles {V Q : Type} (E : ienv V Q) ls0 st s x :
  run (nstep E) ninit ls0 = Some st -> total_from E ->
  runs_on (nstep E) i_own st s x -> fair (nstep E) i_own s x ->
  exists n, (forall m, n <= m -> x m = x n) /\
    ((forall t, nstack (x n) t = []) \/ (exists t, n_aborts E (x n) t) \/
     ((exists t, nstack (x n) t <> []) /\ n_deadlocked E (x n) (λ t, nstack (x n) t <> []))).
Proof. exact (n_settles E ls0 st s x). Qed.
Print Assumptions C75_new_settles.
Theorem C75_arena_settles {V Q : Type} (E : ienv V Q) ls0 st s x :
  (forall o, a_sound E o) -> run (astep E) ainit ls0 = Some st -> total_from E ->
  runs_on (astep E) a_own st s x -> fair (astep E) a_own s x ->
  exists n, (forall m, n <= m -> x m = x n) /\
    ((forall t, a_stack (x n) t = []) \/
     ((exists t, a_stack (x n) t <> []) /\ a_deadlocked (x n) (λ t, a_stack (x n) t <> []))).
Proof. exact (a_settles E ls0 st s x). Qed.
Print Assumptions C75_arena_settles.
(** Threads 1 and 2 nest types 0 and 1 in opposite orders. *)
Example C75_deadlock_example :
  run (istep fullE) iinit ti_cross = Some (iafter fullE ti_cross) /\ total_from fullE /\
  (forall t, ~ able (istep fullE) i_own (iafter fullE ti_cross) t) /\
  get_stack (iafter fullE ti_cross) 1 = [FWait (ONew (IV 1 3 0)) None; FConv 0 0 (8, 0)] /\
  exists s x, runs_on (istep fullE) i_own (iafter fullE ti_cross) s x /\ fair (istep fullE) i_own s x.
Proof. split_and!; [by apply iafter_run; vm_compute|apply fullE_total|apply ti_cross_unable|by vm_compute|apply ti_cross_on]. Qed.

(** and if user code only makes calls in an order, every call returns, for good. *)
Theorem C75_intern_returns {V Q : Type} (E : ienv V Q) ls0 st s x :
  run (istep E) iinit ls0 = Some st -> total_from E -> ordered E st ->
  runs_on (istep E) i_own st s x -> fair (istep E) i_own s x ->
  exists n, forall m, n <= m -> forall t, get_stack (x m) t = [].
Proof. exact (i_returns E ls0 st s x). Qed.
Print Assumptions C75_intern_returns.
Theorem C75_new_returns {V Q : Type} (E : ienv V Q) ls0 st rk s x :
  run (nstep E) ninit ls0 = Some st -> total_from E -> n_ordered E rk st -> n_calm st ->
  runs_on (nstep E) i_own st s x -> fair (nstep E) i_own s x ->
  exists n, forall m, n <= m -> forall t, nstack (x m) t = [].
Proof. exact (n_returns E ls0 st rk s x). Qed.
Print Assumptions C75_new_returns.
Theorem C75_arena_returns {V Q : Type} (E : ienv V Q) ls0 st rk s x :
  (forall o, a_sound E o) -> run (astep E) ainit ls0 = Some st -> total_from E -> a_ordered rk st ->
  runs_on (astep E) a_own st s x -> fair (astep E) a_own s x ->
  exists n, forall m, n <= m -> forall t, a_stack (x m) t = [].
Proof. exact (a_returns E ls0 st rk s x). Qed.
Print Assumptions C75_arena_returns.
(** Thread 1 interns type 1 from a conversion for type 0; thread 2 waits. *)
Example C75_intern_example :
  run (istep fullE) iinit ti_nest = Some (iafter fullE ti_nest) /\ total_from fullE /\ ordered fullE (iafter fullE ti_nest) /\
  get_stack (iafter fullE ti_nest) 1 = [FWait (ONew (IV 1 3 0)) None; FConv 0 0 (8, 0)] /\
  get_stack (iafter fullE ti_nest) 2 = [FWait (OLen 0) None] /\
  exists s x, runs_on (istep fullE) i_own (iafter fullE ti_nest) s x /\ fair (istep fullE) i_own s x.
Proof.
  split_and!; [by apply iafter_run; vm_compute|apply fullE_total|apply ti_nest_ordered|by vm_compute|by vm_compute|].
  apply (i_ended ti_nest ti_end); [by vm_compute|repeat constructor|by vm_compute].
Qed.
(** The state of C61_ordered_example. *)
Example C75_new_example :
  run (nstep fullE) ninit w_up = Some (nafter fullE w_up) /\ total_from fullE /\
  n_ordered fullE (λ ty, 2 - ty) (nafter fullE w_up) /\ n_calm (nafter fullE w_up) /\
  nstack (nafter fullE w_up) 1 = [NLock (ONew (IV 0 3 0)) None 1; NIn 0 (FConv 2 0 (8, 0))] /\
  exists s x, runs_on (nstep fullE) i_own (nafter fullE w_up) s x /\ fair (nstep fullE) i_own s x.
Proof.
  destruct C61_ordered_example as (H1&H2&_&H3&_&H4&H5).
  split_and!; [exact H2|exact H1|exact H4|exact H5|exact H3|].
  apply (n_ended w_up tn_end); [by vm_compute|repeat constructor|by vm_compute].
Qed.
(** Thread 1 makes a call on arena 0 from a conversion for arena 1, for which thread 2 waits; thread
    3 drops arena 2. *)
Example C75_arena_example :
  (forall o, a_sound fullE o) /\ run (astep fullE) ainit ta_up = Some (aafter fullE ta_up) /\ total_from fullE /\
  a_ordered (λ r, 1 - r) (aafter fullE ta_up) /\
  a_stack (aafter fullE ta_up) 1 = [AWait 0 (ANew (IV 0 3 0)) None; AConv 1 0 (8, 0)] /\
  a_stack (aafter fullE ta_up) 3 = [ADead 2 [IPtr 301 0 1; IPtr 300 0 0]] /\
  exists s x, runs_on (astep fullE) a_own (aafter fullE ta_up) s x /\ fair (astep fullE) a_own s x.
Proof.
  split_and!; [apply fullE_sound|by apply aafter_run; vm_compute|apply fullE_total|apply ta_up_ordered|by vm_compute|by vm_compute|].
  apply (a_ended ta_up ta_end); [by vm_compute|repeat constructor|by vm_compute].
Qed.

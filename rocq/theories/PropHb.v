(** Properties C58, C59, C60: data races in Intern, NewIntern and Arena (src/intern.rs,
    src/typearena.rs, src/arena.rs).  Happens-before and data races: HbSpec.v.  What the threads
    do to memory: HbModel.v, HbNewModel.v, HbArenaModel.v. *)
From stdpp Require Import gmap list numbers.
From Verif Require Import Base InternModel InternSpec InternEx NewModel NewEx ArenaModel ArenaEx HbSpec HbModel HbThm
  HbInternFinal HbNewModel HbNewFinal HbArenaModel HbArenaFinal.

(** ** C58.  Whatever the threads and the user code called by them do, if handles go from thread
    to thread by synchronised means only, then no execution with Intern has a data race.  No law
    of Eq, Hash and so on is needed. *)
Theorem C58_intern_race_free {V Q} (E : ienv V Q) (ls : list (hlabel (ilabel V Q))) :
  let evs := hevents (istep E) i_by (i_does E) (i_looks E) iinit ls in
  is_Some (run (hstep (istep E) i_by (i_does E) (i_looks E)) (iinit, []) ls) /\
  (handles_travel evs -> race_free evs).
Proof. exact (intern_race_free E ls). Qed.
Print Assumptions C58_intern_race_free.
(** Thread 1 creates the value (event 4), 2 searches for an equal one, is given the same pointer
    (event 17) and gives it to 3; all three read it.  Thread 2 frees its own box (event 15). *)
Example C58_intern_race_free_case :
  let evs := toy_events hb_ls in
  handles_travel evs /\ length evs = 22 /\
  evs !! 4 = Some (1, ATouch [(LVal 0, true)]) /\
  evs !! 12 = Some (1, ARead (IPtr 100 0 0)) /\
  evs !! 15 = Some (2, ATouch [(LVal 1, true)]) /\ evs !! 17 = Some (2, AGot (IPtr 100 0 0)) /\
  evs !! 18 = Some (2, ARead (IPtr 100 0 0)) /\ evs !! 21 = Some (3, ARead (IPtr 100 0 0)).
Proof. split_and!; [apply travelb_spec; by vm_compute|by vm_compute..]. Qed.

(** If a handle is used by a thread that it did not reach by synchronised means there can be
    a race. *)
Theorem C58_unsynchronised_handle_refuted :
  exists (E : ienv ival (nat * nat)) ls, data_race (hevents (istep E) i_by (i_does E) (i_looks E) iinit ls).
Proof. exact (ex_intro _ toyE (ex_intro _ hb_bad bad_race)). Qed.
Print Assumptions C58_unsynchronised_handle_refuted.

(** The mutexes are needed: were they not to synchronise, the execution above would have races. *)
Example C58_mutex_needed : data_race (List.filter (λ e : nat * act, match e.2 with AAcq (SLock _) | ARel (SLock _) => false | _ => true end)
                                (toy_events hb_ls)).
Proof. exact no_mutex_race. Qed.

(** The states of these executions are those of InternModel, no more and no less. *)
Theorem C58_model_exact {V Q} (E : ienv V Q) (st : istate V Q) :
  (exists ls, run (istep E) iinit ls = Some st) <->
  (exists ls evs, run (hstep (istep E) i_by (i_does E) (i_looks E)) (iinit, []) ls = Some (st, evs)).
Proof. exact (intern_exact E st). Qed.
Print Assumptions C58_model_exact.
Example C58_model_exact_case : exists ls evs, run (hstep (istep toyE) i_by (i_does toyE) (i_looks toyE)) (iinit, []) ls = Some (iafter toyE ex_all, evs).
Proof. apply C58_model_exact. exists ex_all. apply iafter_run. by vm_compute. Qed.

(** ** C59.  The same for the [Intern] of typearena.rs: the unsynchronised search through the
    AppendOnlyVec, loads of old lengths and sets pushed twice make no data race. *)
Theorem C59_new_intern_race_free {V Q} (E : ienv V Q) (ls : list (hlabel (ilabel V Q))) :
  let evs := hevents (nstep E) i_by (n_does E) (n_looks E) ninit ls in
  is_Some (run (hstep (nstep E) i_by (n_does E) (n_looks E)) (ninit, []) ls) /\
  (handles_travel evs -> race_free evs).
Proof. exact (new_race_free E ls). Qed.
Print Assumptions C59_new_intern_race_free.
(** Thread 1 pushes the set (event 1), publishes it (2) and puts a value there (10, 11).  Thread 2
    reads an old length, pushes a second set (14), finds the first (17), waits for its mutex and
    is given the pointer (29), which it gives to 3. *)
Example C59_new_intern_race_free_case :
  let evs := ntoy_events nhb_ls in
  handles_travel evs /\ length evs = 34 /\
  evs !! 1 = Some (1, ATouch [(LElt (5, 0), true); (LSet (5, 0), true)]) /\
  evs !! 10 = Some (1, ATouch [(LVal 0, true)]) /\
  evs !! 14 = Some (2, ATouch [(LElt (5, 1), true); (LSet (5, 1), true)]) /\
  evs !! 17 = Some (2, ATouch [(LElt (5, 0), false)]) /\
  evs !! 24 = Some (2, ATouch [(LSet (5, 0), false); (LVal 0, false); (LVal 1, false)]) /\
  evs !! 29 = Some (2, AGot (IPtr 100 0 0)) /\ evs !! 33 = Some (3, ARead (IPtr 100 0 0)).
Proof. split_and!; [apply travelb_spec; by vm_compute|by vm_compute..]. Qed.

Theorem C59_unsynchronised_handle_refuted :
  exists (E : ienv ival (nat * nat)) ls, data_race (hevents (nstep E) i_by (n_does E) (n_looks E) ninit ls).
Proof. exact (ex_intro _ toyE (ex_intro _ nhb_bad nbad_race)). Qed.
Print Assumptions C59_unsynchronised_handle_refuted.

(** Both kinds of synchronisation are needed: without that of the mutexes, or without the
    Acquire and Release of the vector's length, the execution above would have races. *)
Example C59_mutex_needed : data_race (List.filter no_lock (ntoy_events nhb_ls)).
Proof. exact no_lock_race. Qed.
Example C59_length_needed : data_race (List.filter no_count (ntoy_events nhb_ls)).
Proof. exact no_count_race. Qed.

(** The states of these executions are those of NewModel. *)
Theorem C59_model_exact {V Q} (E : ienv V Q) (s : nstate V Q) :
  (exists ls, run (nstep E) ninit ls = Some s) <->
  (exists ls evs, run (hstep (nstep E) i_by (n_does E) (n_looks E)) (ninit, []) ls = Some (s, evs)).
Proof. exact (new_exact E s). Qed.
Print Assumptions C59_model_exact.
Example C59_model_exact_case : exists ls evs, run (hstep (nstep toyE) i_by (n_does toyE) (n_looks toyE)) (ninit, []) ls = Some (nafter toyE ex_nall, evs).
Proof. apply C59_model_exact. exists ex_nall. apply nafter_run. by vm_compute. Qed.

(** ** C60.  Arenas are also created and dropped.  If handles and arenas go from thread to thread
    by synchronised means only, and all uses of an arena happen before its drop, then no
    execution has a data race; creating, locking and freeing an arena count as accesses of its
    memory, dropping it as writes to all its values.  No law of Eq, Hash and so on is needed for
    this, but to exclude undefined behaviour, after which there is no execution. *)
Theorem C60_arena_race_free {V Q} (E : ienv V Q) ls st evs :
  run (hstep (astep E) a_by a_does a_looks) (ainit, []) ls = Some (st, evs) ->
  handles_travel evs -> arenas_travel evs -> drops_are_last evs -> race_free evs.
Proof. exact (arena_race_free E ls st evs). Qed.
Print Assumptions C60_arena_race_free.
(** Thread 1 creates an arena (event 0) and lends it to 2.  Thread 1 puts a value there (events 12
    and 13); 2 finds it (23), reads it (29) and gives the arena back (31); 1 drops it (35), and so
    the value (37). *)
Example C60_arena_race_free_case : exists st,
  let evs := atoy_events ahb_ls in
  run (hstep (astep toyE) a_by a_does a_looks) (ainit, []) ahb_ls = Some (st, evs) /\
  handles_travel evs /\ arenas_travel evs /\ drops_are_last evs /\ length evs = 39 /\
  evs !! 0 = Some (1, ATouch [(LElt (0, 0), true); (LSet (0, 0), true)]) /\
  evs !! 12 = Some (1, ATouch [(LVal 1, true)]) /\
  evs !! 13 = Some (1, ATouch [(LSet (0, 0), true); (LSet (0, 0), false); (LVal 1, false)]) /\
  evs !! 23 = Some (2, ATouch [(LSet (0, 0), false); (LVal 1, false); (LVal 0, false)]) /\
  evs !! 29 = Some (2, ARead (IPtr 100 0 1)) /\ evs !! 31 = Some (2, ARel (SMsg 8)) /\
  evs !! 35 = Some (1, ADrop 0) /\ evs !! 37 = Some (1, ATouch [(LSet (0, 0), false); (LVal 1, true)]).
Proof.
  destruct (ahb_run ahb_ls) as [st Hs]; [by vm_compute|]. exists st. split; [exact Hs|].
  split_and!; [apply travelb_spec; by vm_compute|apply arenasb_spec; by vm_compute|apply dropsb_spec; by vm_compute|by vm_compute..].
Qed.

(** With lawful Eq and Hash all executions are defined. *)
Theorem C60_defined {V Q} (E : ienv V Q) ls :
  ilawful E -> icoherent E -> is_Some (run (hstep (astep E) a_by a_does a_looks) (ainit, []) ls).
Proof. exact (arena_defined E ls). Qed.
Print Assumptions C60_defined.
Example C60_defined_case : ilawful toyE /\ icoherent toyE.
Proof. exact (conj toyE_lawful toyE_coherent). Qed.

(** None of the three conditions can be left out: a drop that does not wait for other threads, an
    arena or a handle that reaches a thread without synchronisation can make a race. *)
Theorem C60_early_drop_refuted :
  exists (E : ienv ival (nat * nat)) ls st evs, run (hstep (astep E) a_by a_does a_looks) (ainit, []) ls = Some (st, evs) /\
  handles_travel evs /\ arenas_travel evs /\ data_race evs.
Proof. exact (ex_intro _ toyE (ex_intro _ ahb_drop drop_race)). Qed.
Print Assumptions C60_early_drop_refuted.
Theorem C60_unsynchronised_arena_refuted :
  exists (E : ienv ival (nat * nat)) ls st evs, run (hstep (astep E) a_by a_does a_looks) (ainit, []) ls = Some (st, evs) /\
  handles_travel evs /\ drops_are_last evs /\ data_race evs.
Proof. exact (ex_intro _ toyE (ex_intro _ ahb_arena arena_race)). Qed.
Print Assumptions C60_unsynchronised_arena_refuted.
Theorem C60_unsynchronised_handle_refuted :
  exists (E : ienv ival (nat * nat)) ls st evs, run (hstep (astep E) a_by a_does a_looks) (ainit, []) ls = Some (st, evs) /\
  arenas_travel evs /\ drops_are_last evs /\ data_race evs.
Proof. exact (ex_intro _ toyE (ex_intro _ ahb_handle handle_race)). Qed.
Print Assumptions C60_unsynchronised_handle_refuted.

(** The mutexes are needed. *)
Example C60_mutex_needed : data_race (List.filter no_lock (atoy_events ahb_ls)).
Proof. exact ano_lock_race. Qed.

(** The states of these executions are those of ArenaModel. *)
Theorem C60_model_exact {V Q} (E : ienv V Q) (st : astate V Q) :
  (exists ls, run (astep E) ainit ls = Some st) <->
  (exists ls evs, run (hstep (astep E) a_by a_does a_looks) (ainit, []) ls = Some (st, evs)).
Proof. exact (arena_exact E st). Qed.
Print Assumptions C60_model_exact.
Example C60_model_exact_case : exists ls evs, run (hstep (astep toyE) a_by a_does a_looks) (ainit, []) ls = Some (aafter toyE ex_all_dropped, evs).
Proof. apply C60_model_exact. exists ex_all_dropped. apply aafter_run. by vm_compute. Qed.

(** Property C73: noninterference between the types of Intern, between those of NewIntern and
    between arenas.  Statements only; vocabulary in IsolSpec.v, NIsolSpec.v and AIsolSpec.v. *)
From stdpp Require Import gmap list numbers.
From Verif Require Import Base InternModel InternSpec InternEx IsolSpec Isol ArenaModel ArenaSpec ArenaEx AIsolSpec AIsol
  NewModel NewSpec NewEx NIsolSpec NIsol.

(** C73.  Take any execution and any set [keep] of types.  The calls for the other types could
    have been left out: the remaining labels are an execution too, with the same addresses, in
    which every call for a kept type goes through the same steps and returns the same result,
    every dereference reads the same value, and the sets and the memory of the kept types are the
    same.  Only the ghost serials are renumbered, by [ρ], one-to-one.  Types may share a
    container, threads may use several types, and calls may be nested in the user code of calls
    for other types. *)
Theorem C73_types_do_not_interfere {V Q : Type} (E : ienv V Q) (keep : nat -> bool) ls st :
  run (istep E) iinit ls = Some st ->
  exists (ρ : nat -> nat) ls' st',
    run (istep E) iinit ls' = Some st' /\
    ls' `sublist_of` map (ren_label ρ) ls /\
    (forall t o a, ICall t o a ∈ ls' -> keep (op_ty E o) = true) /\
    i_log st' = map (ren_event ρ) (about (event_ty E) keep (i_log st)) /\
    (forall t, get_stack st' t = map (ren_frame ρ) (about (frame_ty E) keep (get_stack st t))) /\
    (forall ty, keep ty = true -> set_of E st' ty = map (ren_ptr ρ) (set_of E st ty)) /\
    (forall n x, i_objs st !! n = Some x -> keep (ie_ty E (io_val x)) = true -> i_objs st' !! ρ n = Some x) /\
    (forall m x, i_objs st' !! m = Some x -> exists n, m = ρ n /\ i_objs st !! n = Some x /\ keep (ie_ty E (io_val x)) = true) /\
    (forall n m x y, i_objs st !! n = Some x -> i_objs st !! m = Some y ->
      keep (ie_ty E (io_val x)) = true -> keep (ie_ty E (io_val y)) = true -> ρ n = ρ m -> n = m).
Proof. exact (types_isolated E keep ls st). Qed.
Print Assumptions C73_types_do_not_interfere.

(** The execution of the examples of C18-C23 without its calls for type 2, whose set is in the
    same container as that of type 0.  Value 8 of type 0 is the fifth allocation of one and the
    second of the other. *)
Example C73_example :
  let keep := λ ty, ty =? 0 in
  let ρ := λ n, if n =? 4 then 1 else 0 in
  let alone := [ICall 1 (ONew (IV 0 4 0)) 0; ICall 2 (ONew (IV 0 5 0)) 0; IStep 1 0 0; IStep 1 0 0;
     IStep 1 100 0; IStep 1 0 0; IStep 1 0 0] ++ replicate 4 (IStep 2 0 0) ++
    [ICall 1 (ORef 0 0 (8, 0)) 0; IStep 1 0 0; IStep 1 0 0; IConv 1 (IV 0 8 0); IStep 1 500 0; IStep 1 0 0; IStep 1 0 0] ++
    icall 2 0 (OIs 0 1 (9, 0)) 3 ++ icall 2 0 (OIs 0 1 (12, 0)) 3 ++ icall 2 0 (OLen 0) 2 in
  run (istep toyE) iinit ex_all = Some (iafter toyE ex_all) /\
  run (istep toyE) iinit alone = Some (iafter toyE alone) /\
  slot toyE 0 = slot toyE 2 /\
  i_log (iafter toyE alone) = map (ren_event ρ) (about (event_ty toyE) keep (i_log (iafter toyE ex_all))) /\
  set_of toyE (iafter toyE ex_all) 0 = [pD; pA] /\
  set_of toyE (iafter toyE alone) 0 = [IPtr 500 0 1; pA] /\
  length (i_log (iafter toyE ex_all)) = 14 /\ length (i_log (iafter toyE alone)) = 8.
Proof. split_and!; try (by apply iafter_run; vm_compute); by vm_compute. Qed.

(** Hash of type 0 interns a value of type 1.  What remains for type 1 is the nested call, made
    on its own. *)
Example C73_nested_example :
  let ls := [ICall 1 (OBox (IV 0 4 0)) 64; IStep 1 0 0; ICall 1 (ONew (IV 1 6 0)) 0; IStep 1 0 0;
    IStep 1 0 0; IStep 1 128 0; IStep 1 0 0; IStep 1 0 0; IPanic 1; IStep 1 0 0] in
  let alone := [ICall 1 (ONew (IV 1 6 0)) 0; IStep 1 0 0; IStep 1 0 0; IStep 1 128 0; IStep 1 0 0; IStep 1 0 0] in
  run (istep toyE) iinit ls = Some (iafter toyE ls) /\
  run (istep toyE) iinit alone = Some (iafter toyE alone) /\
  get_stack (iafter toyE ls) 1 = [FDone (OBox (IV 0 4 0)) RPanic] /\ get_stack (iafter toyE alone) 1 = [] /\
  i_log (iafter toyE ls) = [EvRet 1 (ONew (IV 1 6 0)) (RPtr (IPtr 128 0 1)); EvIns 1 (ONew (IV 1 6 0)) (IPtr 128 0 1) (IV 1 6 0)] /\
  i_log (iafter toyE alone) = map (ren_event (λ _, 0)) (i_log (iafter toyE ls)).
Proof. split_and!; try (by apply iafter_run; vm_compute); by vm_compute. Qed.

(** The same for NewIntern, where a type has its own sets and mutexes.  Sets are known by their
    index in their container, so these are renumbered too, by [σ]: the kept types remain in the
    container in the same order.  A set of a kept type is poisoned exactly when it was. *)
Theorem C73_new_types_do_not_interfere {V Q : Type} (E : ienv V Q) (keep : nat -> bool) ls s :
  run (nstep E) ninit ls = Some s ->
  exists (ρ : nat -> nat) (σ : nat -> nat -> nat) ls' s',
    run (nstep E) ninit ls' = Some s' /\
    ls' `sublist_of` map (ren_label ρ) ls /\
    (forall t o a, ICall t o a ∈ ls' -> keep (op_ty E o) = true) /\
    n_log s' = map (ren_event ρ) (about (event_ty E) keep (n_log s)) /\
    (forall t, nstack s' t = map (ren_nframe E ρ σ) (about (type_of E) keep (nstack s t))) /\
    (forall c, nvec s' c = about (λ ty, ty) keep (nvec s c)) /\
    (forall c i ty, nvec s c !! i = Some ty -> keep ty = true ->
      nvec s' c !! σ c i = Some ty /\
      nset s' (c, σ c i) = map (ren_ptr ρ) (nset s (c, i)) /\
      n_locks s' !! (c, σ c i) = n_locks s !! (c, i) /\
      ((c, σ c i) ∈ n_poison s' <-> (c, i) ∈ n_poison s)) /\
    (forall n x, n_objs s !! n = Some x -> keep (ie_ty E (io_val x)) = true -> n_objs s' !! ρ n = Some x) /\
    (forall m x, n_objs s' !! m = Some x -> exists n, m = ρ n /\ n_objs s !! n = Some x /\ keep (ie_ty E (io_val x)) = true) /\
    (forall n m x y, n_objs s !! n = Some x -> n_objs s !! m = Some y ->
      keep (ie_ty E (io_val x)) = true -> keep (ie_ty E (io_val y)) = true -> ρ n = ρ m -> n = m) /\
    (forall c i j ty u, nvec s c !! i = Some ty -> nvec s c !! j = Some u -> keep ty = true -> keep u = true ->
      σ c i = σ c j -> i = j).
Proof. exact (new_types_isolated E keep ls s). Qed.
Print Assumptions C73_new_types_do_not_interfere.
(** Three threads race to create sets: type 0 gets indices 0 and 2, type 2 gets 1.  Without type 2,
    the sets of type 0 have indices 0 and 1. *)
Example C73_new_example :
  let keep := λ ty, ty =? 0 in
  let alone := List.filter (λ l, match l with ICall 3 _ _ | IStep 3 _ _ => false | _ => true end) ex_nall in
  let s := nafter toyE ex_nall in
  let s' := nafter toyE alone in
  run (nstep toyE) ninit ex_nall = Some s /\ run (nstep toyE) ninit alone = Some s' /\
  nvec s 5 = [0; 2; 0] /\ nvec s' 5 = [0; 0] /\
  n_log s' = map (ren_event pred) (about (event_ty toyE) keep (n_log s)) /\ length (n_log s) = 8 /\ length (n_log s') = 6 /\
  nset s (5, 0) = [IPtr 500 0 2; IPtr 100 0 1] /\ nset s (5, 1) = [IPtr 300 3 0] /\ nset s' (5, 0) = [IPtr 500 0 1; IPtr 100 0 0].
Proof. split_and!; try (by apply nafter_run; vm_compute); by vm_compute. Qed.
(** While both sets of type 0 are being pushed, the thread with index 2 waits for the two before it;
    without type 2 it has index 1. *)
Example C73_new_push_example :
  let alone := List.filter (λ l, match l with ICall 3 _ _ | IStep 3 _ _ => false | _ => true end) ex_push in
  run (nstep toyE) ninit ex_push = Some (nafter toyE ex_push) /\ run (nstep toyE) ninit alone = Some (nafter toyE alone) /\
  nstack (nafter toyE ex_push) 1 = [NPub (ONew (IV 0 4 0)) None 2] /\
  nstack (nafter toyE alone) 1 = map (ren_nframe toyE (λ n, n) (λ _ i, pred i)) (nstack (nafter toyE ex_push) 1).
Proof. split_and!; try (by apply nafter_run; vm_compute); by vm_compute. Qed.
(** The same for arenas: for any set [keep] of them, the calls on the others and their drops could
    have been left out (they are still created; an arena is known by its number).  [ours] tells
    which allocations belong to the kept arenas.  No law about the user's types is needed. *)
Theorem C73_arenas_do_not_interfere {V Q : Type} (E : ienv V Q) (keep : nat -> bool) ls st :
  run (astep E) ainit ls = Some st ->
  exists (ρ : nat -> nat) (ours : nat -> bool) ls' st',
    run (astep E) ainit ls' = Some st' /\
    ls' `sublist_of` map (ren_alabel ρ) ls /\ Forall (uses_only keep) ls' /\
    a_log st' = map (ren_aevent ρ) (List.filter (aev_kept keep ours) (a_log st)) /\
    (forall t, a_stack st' t = map (ren_aframe ρ) (about f_arena keep (a_stack st t))) /\
    (forall r, keep r = true -> a_locks st' !! r = a_locks st !! r /\
      a_arenas st' !! r = (λ x, Ar (ar_ty x) (map (ren_ptr ρ) (ar_set x))) <$> a_arenas st !! r) /\
    (forall r x p, a_arenas st !! r = Some x -> p ∈ ar_set x -> ours (ip_ser p) = keep r) /\
    (forall n, ours n = true -> a_objs st' !! ρ n = a_objs st !! n) /\
    (forall m x, a_objs st' !! m = Some x -> exists n, m = ρ n /\ ours n = true) /\
    (forall n m, ours n = true -> ours m = true -> ρ n = ρ m -> n = m).
Proof. exact (arenas_isolated E keep ls st). Qed.
Print Assumptions C73_arenas_do_not_interfere.
(** Arena 0 is filled and dropped, arena 1 holds 30.  Without the uses of arena 0, the handle of
    arena 1 has the same address; its serial was 4 and is 0. *)
Example C73_arena_example :
  let alone := [LArena 1 0; LArena 1 0; LCall 2 1 (ANew (IV 0 30 0)) 0] ++ steps 2 103 7 in
  let keep := λ r, r =? 1 in
  run (astep toyE) ainit ex_dropped = Some (aafter toyE ex_dropped) /\
  run (astep toyE) ainit alone = Some (aafter toyE alone) /\
  a_log (aafter toyE alone) =
    map (ren_aevent (λ _, 0)) (List.filter (aev_kept keep (λ n, n =? 4)) (a_log (aafter toyE ex_dropped))) /\
  a_set (aafter toyE ex_dropped) 1 = [IPtr 103 0 4] /\ a_set (aafter toyE alone) 1 = [IPtr 103 0 0] /\
  length (a_log (aafter toyE ex_dropped)) = 17 /\ length (a_log (aafter toyE alone)) = 4.
Proof. split_and!; try (by apply aafter_run; vm_compute); by vm_compute. Qed.

(** If an execution has undefined behaviour (C34, C35), the uses of one arena have it
    on their own: what is done to other arenas cannot make an arena unsound. *)
Theorem C73_undefined_behaviour_of_one_arena {V Q : Type} (E : ienv V Q) ls :
  run (astep E) ainit ls = None ->
  exists r (ρ : nat -> nat) ls', run (astep E) ainit ls' = None /\
    ls' `sublist_of` map (ren_alabel ρ) ls /\ Forall (uses_only (λ u, u =? r)) ls'.
Proof. exact (ub_of_one_arena E ls). Qed.
Print Assumptions C73_undefined_behaviour_of_one_arena.
(** Arena 0 is used in between, arena 1 with an Eq that is not symmetric. *)
Example C73_undefined_example :
  let ls := [LArena 1 0; LArena 1 0; LCall 1 1 (ANew (IV 0 7 0)) 0] ++ steps 1 100 7
    ++ [LCall 2 0 (ANew (IV 0 3 0)) 0] ++ steps 2 200 7 ++ [LCall 1 1 (ANew (IV 0 5 0)) 0] ++ steps 1 101 6 in
  let alone := [LArena 1 0; LArena 1 0; LCall 1 1 (ANew (IV 0 7 0)) 0] ++ steps 1 100 7
    ++ [LCall 1 1 (ANew (IV 0 5 0)) 0] ++ steps 1 101 6 in
  run (astep asymE) ainit ls = None /\ run (astep asymE) ainit alone = None.
Proof. split; by vm_compute. Qed.

(** Arena: properties C30-C35 and C37.  Statements only; vocabulary in ArenaSpec.v and
    InternSpec.v, the proofs are in the files imported. *)
From stdpp Require Import gmap list numbers.
From Verif Require Import Base InternModel InternSpec InternEx ArenaModel ArenaSpec ArenaLawful ArenaFinal ArenaMore ArenaEx.

(** C30.  Two handles returned by calls on the same live arena. *)
Theorem C30_handles_eq_iff_values_eq {V Q : Type} (E : ienv V Q) ls st r t1 o1 b1 p1 t2 o2 b2 p2 v1 v2 :
  ilawful E -> icoherent E -> zst_eq E -> run (astep E) ainit ls = Some st ->
  AvRet t1 r o1 b1 (AP p1) ∈ a_log st -> AvRet t2 r o2 b2 (AP p2) ∈ a_log st -> is_Some (a_arenas st !! r) ->
  a_read st p1 = Some v1 -> a_read st p2 = Some v2 ->
  iptr_eqb p1 p2 = ie_eq E v1 v2.
Proof. exact (arena_handles_eq E ls st r t1 o1 b1 p1 t2 o2 b2 p2 v1 v2). Qed.
Print Assumptions C30_handles_eq_iff_values_eq.
Example C30_example :
  let st := aafter toyE ex_arena in
  ilawful toyE /\ icoherent toyE /\ zst_eq toyE /\ run (astep toyE) ainit ex_arena = Some st /\
  AvRet 1 0 (ANew (IV 0 30 0)) None (AP (IPtr 100 0 1)) ∈ a_log st /\
  AvRet 2 0 (ABox (IV 0 31 0)) (Some (IPtr 200 0 0)) (AP (IPtr 100 0 1)) ∈ a_log st /\
  AvRet 1 0 (ARef 0 (8, 0)) None (AP (IPtr 101 0 2)) ∈ a_log st /\
  is_Some (a_arenas st !! 0) /\ a_read st (IPtr 100 0 1) = Some (IV 0 30 0) /\ a_read st (IPtr 101 0 2) = Some (IV 0 8 0).
Proof.
  split_and!; [apply toyE_lawful|apply toyE_coherent|apply toyE_zst_eq|by apply aafter_run; vm_compute
    |first [by vm_compute|apply elem_of_list_In; vm_compute; tauto|eexists; by vm_compute]..].
Qed.
(** The handle's value is Eq to what the call was given. *)
Theorem C30_result_equals_argument {V Q : Type} (E : ienv V Q) ls st r t o b p :
  ilawful E -> icoherent E -> run (astep E) ainit ls = Some st ->
  AvRet t r o b (AP p) ∈ a_log st -> is_Some (a_arenas st !! r) ->
  exists d, a_read st p = Some d /\ a_asks E o d.
Proof. exact (arena_result_asked E ls st r t o b p). Qed.
Print Assumptions C30_result_equals_argument.

(** C31.  No execution has undefined behaviour. *)
Theorem C31_no_undefined_behaviour {V Q : Type} (E : ienv V Q) ls :
  ilawful E -> icoherent E -> exists st, run (astep E) ainit ls = Some st.
Proof. exact (arena_no_ub E ls). Qed.
Print Assumptions C31_no_undefined_behaviour.
(** A handle points to the same object at the same address until its arena is dropped
    (whatever the types do). *)
Theorem C31_handle_valid_until_drop {V Q : Type} (E : ienv V Q) ls1 ls2 st1 st2 t r o b p :
  run (astep E) ainit ls1 = Some st1 -> AvRet t r o b (AP p) ∈ a_log st1 ->
  run (astep E) st1 ls2 = Some st2 -> is_Some (a_arenas st2 !! r) ->
  exists v, a_objs st1 !! ip_ser p = Some (AObj (ip_addr p) v) /\ a_objs st2 !! ip_ser p = Some (AObj (ip_addr p) v).
Proof. exact (arena_handle_valid E ls1 ls2 st1 st2 t r o b p). Qed.
Print Assumptions C31_handle_valid_until_drop.
(** Arena 1 survives the drop of arena 0. *)
Example C31_valid_example :
  let st1 := aafter toyE ex_arena in let st2 := aafter toyE ex_dropped in
  run (astep toyE) ainit ex_arena = Some st1 /\
  AvRet 2 1 (ANew (IV 0 30 0)) None (AP (IPtr 103 0 4)) ∈ a_log st1 /\
  (exists ls2, run (astep toyE) st1 ls2 = Some st2) /\ is_Some (a_arenas st2 !! 1) /\ a_arenas st2 !! 0 = None.
Proof.
  split_and!; [by apply aafter_run; vm_compute|apply elem_of_list_In; vm_compute; tauto| |eexists; by vm_compute|by vm_compute].
  exists ([LDrop 1 0] ++ steps 1 0 4). pose proof (aafter_run toyE ex_dropped ltac:(by vm_compute)) as H. unfold ex_dropped at 1 in H.
  rewrite run_app, (aafter_run toyE ex_arena ltac:(by vm_compute)) in H. exact H.
Qed.
(** Before the drop of the arena starts, nothing that was stored in it is freed. *)
Theorem C31_not_freed_before_drop {V Q : Type} (E : ienv V Q) ls st t r o p v :
  run (astep E) ainit ls = Some st -> AvIns t r o p v ∈ a_log st -> AvDrop r ∉ a_log st ->
  freed p (a_log st) = 0 /\ a_read st p = Some v.
Proof. exact (arena_not_before E ls st t r o p v). Qed.
Print Assumptions C31_not_freed_before_drop.
(** When the drop has finished, everything stored in it has been freed, once. *)
Theorem C31_drop_frees_once {V Q : Type} (E : ienv V Q) ls st t r o p v :
  run (astep E) ainit ls = Some st -> AvGone r ∈ a_log st -> AvIns t r o p v ∈ a_log st ->
  freed p (a_log st) = 1 /\ a_objs st !! ip_ser p = None.
Proof. exact (arena_drop_frees E ls st t r o p v). Qed.
Print Assumptions C31_drop_frees_once.
(** If the drop of one of its values panics, the other boxes that were left are leaked. *)
Theorem C31_panicking_drop {V Q : Type} (E : ienv V Q) ls st t r o p v ps :
  run (astep E) ainit ls = Some st -> AvLeak r ps ∈ a_log st -> AvIns t r o p v ∈ a_log st ->
  freed p (a_log st) = if bool_decide (ip_ser p ∈ ip_ser <$> ps) then 0 else 1.
Proof. exact (arena_drop_leaks E ls st t r o p v ps). Qed.
Print Assumptions C31_panicking_drop.
(** What was stored in an arena is freed by the drop of that arena, which frees nothing
    else. *)
Theorem C31_freed_by_own_arena {V Q : Type} (E : ienv V Q) ls st t r o p v w p' :
  run (astep E) ainit ls = Some st -> AvIns t r o p v ∈ a_log st -> AvFree w p' ∈ a_log st -> ip_ser p' = ip_ser p ->
  w = Some r.
Proof. exact (arena_freed_by E ls st t r o p v w p'). Qed.
Print Assumptions C31_freed_by_own_arena.
Theorem C31_drop_frees_nothing_else {V Q : Type} (E : ienv V Q) ls st r p :
  run (astep E) ainit ls = Some st -> AvFree (Some r) p ∈ a_log st ->
  exists t o p' v, AvIns t r o p' v ∈ a_log st /\ ip_ser p' = ip_ser p.
Proof. exact (arena_frees_own E ls st r p). Qed.
Print Assumptions C31_drop_frees_nothing_else.
(** No block is freed twice, and nothing leaks unless a drop panics. *)
Theorem C31_no_double_free {V Q : Type} (E : ienv V Q) ls st p :
  run (astep E) ainit ls = Some st -> freed p (a_log st) <= 1.
Proof. exact (λ Hr, freed_le E st p (ArenaStep.areach_inv E ls st Hr)). Qed.
Print Assumptions C31_no_double_free.
Theorem C31_no_leak {V Q : Type} (E : ienv V Q) ls st :
  run (astep E) ainit ls = Some st -> (forall t, a_stack st t = []) -> a_arenas st = ∅ ->
  (forall r ps, AvLeak r ps ∉ a_log st) -> a_objs st = ∅.
Proof. exact (arena_no_leak E ls st). Qed.
Print Assumptions C31_no_leak.
Example C31_drop_example :
  let st := aafter toyE ex_dropped in
  run (astep toyE) ainit ex_dropped = Some st /\ AvGone 0 ∈ a_log st /\ AvDrop 1 ∉ a_log st /\
  AvIns 1 0 (ABox (IV 0 40 0)) (IPtr 102 0 3) (IV 0 40 0) ∈ a_log st /\ AvFree (Some 0) (IPtr 102 0 3) ∈ a_log st /\
  AvIns 2 1 (ANew (IV 0 30 0)) (IPtr 103 0 4) (IV 0 30 0) ∈ a_log st.
Proof.
  split_and!; [by apply aafter_run; vm_compute|apply elem_of_list_In; vm_compute; tauto| |apply elem_of_list_In; vm_compute; tauto..].
  intros H%elem_of_list_In. vm_compute in H. intuition discriminate.
Qed.
Example C31_leak_example :
  let st := aafter toyE ex_leaked in
  run (astep toyE) ainit ex_leaked = Some st /\ AvLeak 0 [IPtr 100 0 1] ∈ a_log st /\
  AvIns 1 0 (ARef 0 (8, 0)) (IPtr 101 0 2) (IV 0 8 0) ∈ a_log st /\ freed (IPtr 101 0 2) (a_log st) = 1 /\
  AvIns 1 0 (ANew (IV 0 30 0)) (IPtr 100 0 1) (IV 0 30 0) ∈ a_log st /\ freed (IPtr 100 0 1) (a_log st) = 0.
Proof. split_and!; [by apply aafter_run; vm_compute|first [by vm_compute|apply elem_of_list_In; vm_compute; tauto]..]. Qed.
Example C31_no_leak_example :
  let st := aafter toyE ex_all_dropped in
  run (astep toyE) ainit ex_all_dropped = Some st /\ map_to_list (a_arenas st) = [] /\
  forallb (λ k, match k.2 with [] => true | _ => false end) (map_to_list (a_threads st)) = true.
Proof. split_and!; [by apply aafter_run; vm_compute|by vm_compute..]. Qed.

(** C32.  If one value is Eq to what two calls on an arena were given, they return the same
    handle ([o1] and [o2] may be different entry points). *)
Theorem C32_entry_points_agree {V Q : Type} (E : ienv V Q) ls st r x t1 o1 b1 p1 t2 o2 b2 p2 d :
  ilawful E -> icoherent E -> run (astep E) ainit ls = Some st -> a_arenas st !! r = Some x ->
  AvRet t1 r o1 b1 (AP p1) ∈ a_log st -> AvRet t2 r o2 b2 (AP p2) ∈ a_log st ->
  ie_ty E d = ar_ty x -> a_asks E o1 d -> a_asks E o2 d -> p1 = p2.
Proof. exact (arena_same_handle E ls st r x t1 o1 b1 p1 t2 o2 b2 p2 d). Qed.
Print Assumptions C32_entry_points_agree.
Example C32_example :
  let st := aafter toyE ex_arena in
  run (astep toyE) ainit ex_arena = Some st /\ ar_ty <$> a_arenas st !! 0 = Some 0 /\
  AvRet 1 0 (ANew (IV 0 30 0)) None (AP (IPtr 100 0 1)) ∈ a_log st /\
  AvRet 2 0 (ABox (IV 0 31 0)) (Some (IPtr 200 0 0)) (AP (IPtr 100 0 1)) ∈ a_log st /\
  a_asks toyE (ANew (IV 0 30 0)) (IV 0 30 0) /\ a_asks toyE (ABox (IV 0 31 0)) (IV 0 30 0).
Proof. split_and!; [by apply aafter_run; vm_compute|first [by vm_compute|apply elem_of_list_In; vm_compute; tauto]..]. Qed.
(** The box given to [intern_box] (recorded in the return event): either it was stored and
    the result is that box, or it has been freed once and was never stored. *)
Theorem C32_box_stored_or_freed {V Q : Type} (E : ienv V Q) ls st t r v b x :
  run (astep E) ainit ls = Some st -> AvRet t r (ABox v) b x ∈ a_log st ->
  exists p, b = Some p /\
    ((x = AP p /\ exists t', AvIns t' r (ABox v) p v ∈ a_log st) \/
     (freed p (a_log st) = 1 /\ forall t' r' o' p' v', AvIns t' r' o' p' v' ∈ a_log st -> ip_ser p' <> ip_ser p)).
Proof. exact (arena_box E ls st t r v b x). Qed.
Print Assumptions C32_box_stored_or_freed.
Example C32_box_example :
  let st := aafter toyE ex_arena in
  run (astep toyE) ainit ex_arena = Some st /\
  AvRet 2 0 (ABox (IV 0 31 0)) (Some (IPtr 200 0 0)) (AP (IPtr 100 0 1)) ∈ a_log st /\ freed (IPtr 200 0 0) (a_log st) = 1 /\
  AvRet 1 0 (ABox (IV 0 40 0)) (Some (IPtr 102 0 3)) (AP (IPtr 102 0 3)) ∈ a_log st.
Proof. split_and!; [by apply aafter_run; vm_compute|first [by vm_compute|apply elem_of_list_In; vm_compute; tauto]..]. Qed.

(** C33.  A step on another arena (a call, a panic, a drop) leaves arena [r], its mutex and
    its objects alone. *)
Theorem C33_arenas_independent {V Q : Type} (E : ienv V Q) ls st lb st' r :
  run (astep E) ainit ls = Some st -> astep E st lb = Next st' -> l_arena st lb <> Some r ->
  (a_arenas st' !! r = a_arenas st !! r /\ a_locks st' !! r = a_locks st !! r /\ (r ∈ a_poison st' <-> r ∈ a_poison st)) /\
  forall x p, a_arenas st !! r = Some x -> p ∈ ar_set x -> a_objs st' !! ip_ser p = a_objs st !! ip_ser p.
Proof. exact (arena_independent E ls st lb st' r). Qed.
Print Assumptions C33_arenas_independent.
Theorem C33_different_arenas_not_equal {V Q : Type} (E : ienv V Q) ls st r1 r2 x1 x2 t1 o1 b1 p1 t2 o2 b2 p2 v1 :
  run (astep E) ainit ls = Some st -> r1 <> r2 -> a_arenas st !! r1 = Some x1 -> a_arenas st !! r2 = Some x2 ->
  ar_ty x1 = ar_ty x2 -> AvRet t1 r1 o1 b1 (AP p1) ∈ a_log st -> AvRet t2 r2 o2 b2 (AP p2) ∈ a_log st ->
  a_read st p1 = Some v1 -> is_zst E v1 = false -> iptr_eqb p1 p2 = false.
Proof. exact (arenas_differ E ls st r1 r2 x1 x2 t1 o1 b1 p1 t2 o2 b2 p2 v1). Qed.
Print Assumptions C33_different_arenas_not_equal.
Example C33_example :
  let st := aafter toyE ex_arena in
  run (astep toyE) ainit ex_arena = Some st /\ ar_ty <$> a_arenas st !! 0 = Some 0 /\ ar_ty <$> a_arenas st !! 1 = Some 0 /\
  AvRet 1 0 (ANew (IV 0 30 0)) None (AP (IPtr 100 0 1)) ∈ a_log st /\
  AvRet 2 1 (ANew (IV 0 30 0)) None (AP (IPtr 103 0 4)) ∈ a_log st /\
  a_read st (IPtr 100 0 1) = Some (IV 0 30 0) /\ is_zst toyE (IV 0 30 0) = false.
Proof. split_and!; [by apply aafter_run; vm_compute|first [by vm_compute|apply elem_of_list_In; vm_compute; tauto]..]. Qed.
(** Zero-sized values (and empty slices, strings): always equal. *)
Theorem C33_zero_sized_equal {V Q : Type} (E : ienv V Q) ls st r1 r2 x1 x2 t1 o1 b1 p1 t2 o2 b2 p2 v1 v2 :
  run (astep E) ainit ls = Some st -> a_arenas st !! r1 = Some x1 -> a_arenas st !! r2 = Some x2 ->
  ar_ty x1 = ar_ty x2 -> AvRet t1 r1 o1 b1 (AP p1) ∈ a_log st -> AvRet t2 r2 o2 b2 (AP p2) ∈ a_log st ->
  a_read st p1 = Some v1 -> a_read st p2 = Some v2 -> is_zst E v1 = true -> ie_meta E v1 = ie_meta E v2 ->
  iptr_eqb p1 p2 = true.
Proof. exact (arenas_zst_equal E ls st r1 r2 x1 x2 t1 o1 b1 p1 t2 o2 b2 p2 v1 v2). Qed.
Print Assumptions C33_zero_sized_equal.
Example C33_zero_sized_example :
  let st := aafter toyE ex_zst in
  run (astep toyE) ainit ex_zst = Some st /\ ar_ty <$> a_arenas st !! 0 = Some 2 /\ ar_ty <$> a_arenas st !! 1 = Some 2 /\
  AvRet 1 0 (ANew (IV 2 1 0)) None (AP (IPtr 16 0 0)) ∈ a_log st /\
  AvRet 1 1 (ANew (IV 2 5 0)) None (AP (IPtr 16 0 1)) ∈ a_log st /\
  a_read st (IPtr 16 0 0) = Some (IV 2 1 0) /\ a_read st (IPtr 16 0 1) = Some (IV 2 5 0) /\ is_zst toyE (IV 2 1 0) = true.
Proof. split_and!; [by apply aafter_run; vm_compute|first [by vm_compute|apply elem_of_list_In; vm_compute; tauto]..]. Qed.

(** C34.  With lawful Eq, Hash and Borrow: memory safe in all executions exactly when the
    conversion is coherent.  So every normalising conversion dangles somewhere. *)
Theorem C34_safe_iff_coherent {V Q : Type} (E : ienv V Q) :
  ilawful E -> (forall ls, run (astep E) ainit ls <> None) <-> icoherent E.
Proof. exact (arena_safe_iff_coherent E). Qed.
Print Assumptions C34_safe_iff_coherent.
(** [normE]: the conversion rounds down to a multiple of 4.  4 is stored; 6 is not found, but
    converted to 4, which [insert] finds present. *)
Theorem C34_normalising_conversion_dangles :
  exists (E : ienv ival (nat * nat)) ls, ilawful E /\ zst_eq E /\ run (astep E) ainit ls = None.
Proof. exact norm_dangles. Qed.
Print Assumptions C34_normalising_conversion_dangles.
(** The step that goes wrong makes a reference to the box that [insert] has just dropped. *)
Example C34_example :
  let st := aafter normE ex_dangle in
  run (astep normE) ainit ex_dangle = Some st /\
  a_stack st 1 = [AMake 0 (ARef 0 (6, 0)) None (IPtr 101 0 1)] /\ a_objs st !! 1 = None /\
  astep normE st (LStep 1 0 0) = UB.
Proof. split_and!; [by apply aafter_run; vm_compute|by vm_compute..]. Qed.

(** C35.  Undefined behaviour arises nowhere but in that step. *)
Theorem C35_only_dangling_references {V Q : Type} (E : ienv V Q) ls :
  run (astep E) ainit ls = None ->
  exists ls1 t a i ls2 st r o b p k, ls = ls1 ++ LStep t a i :: ls2 /\ run (astep E) ainit ls1 = Some st /\
    a_stack st t = AMake r o b p :: k /\ a_objs st !! ip_ser p = None.
Proof. exact (arena_ub_only E ls). Qed.
Print Assumptions C35_only_dangling_references.
(** For any types: safe in all executions iff every call's search finds what its insertion
    would find ([a_sound]); and without [intern_ref] and [intern_from] iff Eq is symmetric
    between values (of one type) that a search may compare. *)
Theorem C35_safe_iff_sound {V Q : Type} (E : ienv V Q) :
  (forall ls, run (astep E) ainit ls <> None) <-> (forall o, a_sound E o).
Proof. exact (arena_safe_iff E). Qed.
Print Assumptions C35_safe_iff_sound.
Theorem C35_safe_iff_symmetric {V Q : Type} (E : ienv V Q) :
  (forall ls, no_refs ls -> run (astep E) ainit ls <> None) <->
  (forall u v, ie_ty E u = ie_ty E v -> seen E (ie_hash E u) v = true -> ie_eq E u v = true -> ie_eq E v u = true).
Proof. exact (arena_safe_iff_sym E). Qed.
Print Assumptions C35_safe_iff_symmetric.
(** [asymE]: Eq is [<=]; reflexive, transitive and compatible with Hash.  7 is stored; a
    search for 5 asks 7 == 5, the insertion of 5 asks 5 == 7. *)
Theorem C35_asymmetric_eq_dangles :
  exists (E : ienv ival (nat * nat)) ls,
    (forall v, ie_eq E v v = true) /\ (forall u v, ie_eq E u v = true -> ie_hash E u = ie_hash E v) /\
    no_refs ls /\ run (astep E) ainit ls = None.
Proof. exact asym_dangles. Qed.
Print Assumptions C35_asymmetric_eq_dangles.
Example C35_example : ilawful toyE /\ icoherent toyE /\ forall o, a_sound toyE o.
Proof. split_and!; [apply toyE_lawful|apply toyE_coherent|intros o; apply lawful_sound; [apply toyE_lawful|apply toyE_coherent]]. Qed.

(** C37.  Within three steps of its own the panicking thread has released the mutex, dropped
    what the call owned and left the call; no set has changed.  (A panic in the drop of the
    argument comes after the mutex was released.) *)
Theorem C37_panic_releases_mutex {V Q : Type} (E : ienv V Q) ls st t st1 f k :
  run (astep E) ainit ls = Some st -> astep E st (LPanic t) = Next st1 ->
  a_stack st t = f :: k -> (forall r ps, f <> ADead r ps) ->
  exists r o b n st2 es,
    f_arena f = r /\ n <= 3 /\ run (astep E) st1 (replicate n (LStep t 0 0)) = Some st2 /\
    a_log st2 = AvRet t r o b APanic :: es ++ a_log st /\ Forall (λ e, exists p, e = AvFree None p) es /\
    a_arenas st2 = a_arenas st /\ a_stack st2 t = k /\
    (a_locks st2 !! r = None \/ (a_locks st2 = a_locks st /\ exists p m, f = AArg r o b m (AP p))).
Proof. exact (arena_panic E ls st t st1 f k). Qed.
Print Assumptions C37_panic_releases_mutex.
Example C37_example :
  let st := aafter toyE ex_panic_a in
  run (astep toyE) ainit ex_panic_a = Some st /\
  a_stack st 1 = [AGet 0 (ABox (IV 0 50 0)) (Some (IPtr 104 0 5))] /\ a_locks st !! 0 = Some 1 /\
  exists st1, astep toyE st (LPanic 1) = Next st1.
Proof. split_and!; [by apply aafter_run; vm_compute|first [by vm_compute|eexists; by vm_compute]..]. Qed.
(** Poison is invisible. *)
Theorem C37_poison_ignored {V Q : Type} (E : ienv V Q) ls st P st' :
  run (astep E) st ls = Some st' ->
  exists P', run (astep E) (a_with_poison st P) ls = Some (a_with_poison st' P').
Proof. exact (arena_poison_ignored E ls st P st'). Qed.
Print Assumptions C37_poison_ignored.
(** After any history, including panics, a call on an arena that is not in use completes on
    its own and returns a handle.  Uniqueness is C30, which allows panics anywhere. *)
Theorem C37_later_calls_work {V Q : Type} (E : ienv V Q) ls0 st t r o x :
  run (astep E) ainit ls0 = Some st -> total_from E -> a_sound E o ->
  match o with ANew v | AOwned v | ABox v => ie_ty E v = ar_ty x | ARef _ _ => True end ->
  a_stack st t = [] -> a_arenas st !! r = Some x -> a_locks st !! r = None ->
  exists a ls st' b p l, run (astep E) st (LCall t r o a :: ls) = Some st' /\
    (forall lb, lb ∈ ls -> a_quiet lb /\ l_thread lb = Some t) /\
    a_stack st' t = [] /\ a_log st' = AvRet t r o b (AP p) :: l.
Proof. exact (arena_later_call E ls0 st t r o x). Qed.
Print Assumptions C37_later_calls_work.
Example C37_later_example :
  let st := aafter fullE ex_panic_b in
  run (astep fullE) ainit ex_panic_b = Some st /\ total_from fullE /\ (forall o, a_sound fullE o) /\
  bool_decide (0 ∈ a_poison st) = true /\ a_stack st 1 = [] /\ ar_ty <$> a_arenas st !! 0 = Some 0 /\ a_locks st !! 0 = None.
Proof.
  split_and!; [by apply aafter_run; vm_compute|apply fullE_total| |by vm_compute..].
  intros o. apply lawful_sound; [apply fullE_lawful|apply fullE_coherent].
Qed.

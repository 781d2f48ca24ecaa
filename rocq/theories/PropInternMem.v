(** Intern and NewIntern: property C63, what is kept allocated.  Statements only; vocabulary in
    InternSpec.v and InternMemSpec.v. *)
From stdpp Require Import gmap list numbers.
From Verif Require Import Base InternModel InternSpec InternEx InternMemSpec InternMem NewModel NewEx NewMem InternMemEx.

(** C63.  For arbitrary user code and at any time: the allocations made by or given to [Intern]
    and not freed are those in the hands of a running call, those that have been inserted into a
    set, and those that a call had leaked but whose insertion failed.  Everything else has been
    freed, in particular every box that turned out to be a duplicate. *)
Theorem C63_where_memory_is {V Q : Type} (E : ienv V Q) ls st s :
  run (istep E) iinit ls = Some st ->
  (is_Some (i_objs st !! s) <->
     (exists t f, f ∈ get_stack st t /\ in_hand f s) \/
     (exists t o p v, EvIns t o p v ∈ i_log st /\ ip_ser p = s) \/
     abandoned E ls s).
Proof. exact (where_allocated E ls st s). Qed.
Print Assumptions C63_where_memory_is.
(** The three exclude each other, and an allocation is in the hands of one call only. *)
Theorem C63_one_place {V Q : Type} (E : ienv V Q) ls st s :
  run (istep E) iinit ls = Some st ->
  (forall t1 i1 f1 t2 i2 f2, get_stack st t1 !! i1 = Some f1 -> in_hand f1 s ->
     get_stack st t2 !! i2 = Some f2 -> in_hand f2 s -> t1 = t2 /\ i1 = i2) /\
  (forall t f t' o p v, f ∈ get_stack st t -> in_hand f s -> EvIns t' o p v ∈ i_log st -> ip_ser p <> s) /\
  (forall t f, f ∈ get_stack st t -> in_hand f s -> ~ abandoned E ls s) /\
  (forall t' o p v, EvIns t' o p v ∈ i_log st -> abandoned E ls s -> ip_ser p <> s).
Proof. exact (one_place E ls st s). Qed.
Print Assumptions C63_one_place.
(** Allocation 0 is in the set, 1 was abandoned, 2 is about to be inserted, 3 is a box waiting. *)
Example C63_where_example :
  let st := iafter toyE ex_middle in
  run (istep toyE) iinit ex_middle = Some st /\ (map_to_list (i_objs st)).*1 = [0; 1; 3; 2] /\
  EvIns 3 (ONew (IV 0 2 0)) (IPtr 100 0 0) (IV 0 2 0) ∈ i_log st /\
  abandoned toyE ex_middle 1 /\
  get_stack st 2 = [FIns (ONew (IV 0 4 0)) (IPtr 300 0 2)] /\ in_hand (FIns (ONew (IV 0 4 0)) (IPtr 300 0 2) : frame ival (nat * nat)) 2 /\
  get_stack st 1 = [FWait (OBox (IV 0 6 0)) (Some (IPtr 400 0 3))] /\
  in_hand (FWait (OBox (IV 0 6 0)) (Some (IPtr 400 0 3)) : frame ival (nat * nat)) 3.
Proof.
  split_and!; [by apply iafter_run; vm_compute|by vm_compute| | |by vm_compute|done|by vm_compute|done].
  - apply elem_of_list_In. vm_compute. tauto.
  - exists (take 10 ex_middle), (IPanic 4), (drop 11 ex_middle), (iafter toyE (take 10 ex_middle)).
    split_and!; [by vm_compute|by apply iafter_run; vm_compute|].
    exists 4, (ONew (IV 0 8 0)), (IPtr 200 0 1), [], RPanic. eexists.
    split_and!; [by vm_compute|done|done|by vm_compute|by vm_compute|by vm_compute].
Qed.

(** For lawful types, if no insertion panics and no set is cleared: when no call is running there
    is exactly one allocation per value, and somebody has been given a handle to it. *)
Theorem C63_one_allocation_per_value {V Q : Type} (E : ienv V Q) ls st :
  ilawful E -> icoherent E -> no_insert_panic E ls -> no_clear ls ->
  run (istep E) iinit ls = Some st -> all_returned st ->
  (forall s1 x1 s2 x2, i_objs st !! s1 = Some x1 -> i_objs st !! s2 = Some x2 ->
     ie_ty E (io_val x1) = ie_ty E (io_val x2) -> ie_eq E (io_val x1) (io_val x2) = true -> s1 = s2) /\
  (forall s x, i_objs st !! s = Some x -> exists t o p, EvRet t o (RPtr p) ∈ i_log st /\ ip_ser p = s).
Proof. exact (one_per_value E ls st). Qed.
Print Assumptions C63_one_allocation_per_value.
(** [num_objects_interned] is then the number of allocations of the type. *)
Theorem C63_len_is_memory {V Q : Type} (E : ienv V Q) ls st t ty n l :
  ilawful E -> icoherent E -> no_insert_panic E ls -> no_clear ls ->
  run (istep E) iinit ls = Some st -> all_returned st -> i_log st = EvRet t (OLen ty) (RNum n) :: l ->
  n = size (filter (λ sx : nat * iobj V, ie_ty E (io_val sx.2) = ty) (i_objs st)).
Proof. exact (len_is_size E ls st t ty n l). Qed.
Print Assumptions C63_len_is_memory.
(** Seven allocations were made; the boxes of a search that panicked and of two duplicates were
    freed. *)
Example C63_rest_example :
  let st := iafter toyE ex_calm in
  ilawful toyE /\ icoherent toyE /\ no_insert_panic toyE ex_calm /\ no_clear ex_calm /\
  run (istep toyE) iinit ex_calm = Some st /\ all_returned st /\
  (exists l, i_log st = EvRet 5 (OLen 0) (RNum 2) :: l) /\ IPanic 4 ∈ ex_calm /\
  i_next st = 7 /\ (map_to_list (i_objs st)).*1 = [1; 3; 5; 2] /\
  size (filter (λ sx : nat * iobj ival, iv_ty (io_val sx.2) = 0) (i_objs st)) = 2.
Proof.
  split_and!; [apply toyE_lawful|apply toyE_coherent|by apply ins_calm_check; vm_compute|by apply no_clear_check; vm_compute|
    by apply iafter_run; vm_compute|by apply all_returned_check; vm_compute|eexists; by vm_compute| |by vm_compute..].
  apply elem_of_list_In. vm_compute. tauto.
Qed.

(** Without the hypothesis on panics there is no bound: for lawful types, every number of
    allocations of one and the same value is possible, with no handle to any of them. *)
Theorem C63_panics_leak_refuted :
  exists E : ienv ival (nat * nat), ilawful E /\ icoherent E /\ forall n, exists ls st v,
    run (istep E) iinit ls = Some st /\ no_clear ls /\ all_returned st /\
    size (i_objs st) = n /\ (forall s x, i_objs st !! s = Some x -> io_val x = v) /\
    (forall t o p, EvRet t o (RPtr p) ∉ i_log st).
Proof.
  exact (ex_intro _ fullE (conj fullE_lawful (conj fullE_coherent (λ n,
    match leak_all n with ex_intro _ ls (ex_intro _ st H) => ex_intro _ ls (ex_intro _ st (ex_intro _ v0 H)) end)))).
Qed.
Print Assumptions C63_panics_leak_refuted.
Example C63_panics_example :
  let st := iafter fullE (leak 2) in
  run (istep fullE) iinit (leak 2) = Some st /\ i_log st = [EvRet 1 (ONew v0) RPanic; EvRet 1 (ONew v0) RPanic] /\
  map_to_list (i_objs st) = [(0, IObj 100 v0 true); (1, IObj 101 v0 true)].
Proof. split_and!; [by apply iafter_run; vm_compute|by vm_compute|by vm_compute]. Qed.

(** [NewIntern]: likewise one allocation per value for every type for which no call has
    panicked... *)
Theorem C63_new_one_allocation_per_value {V Q : Type} (E : ienv V Q) :
  ilawful E -> icoherent E -> forall ls s, run (nstep E) ninit ls = Some s -> no_clear ls -> (forall t, nstack s t = []) ->
  forall ty, (forall t o, EvRet t o RPanic ∈ n_log s -> op_ty E o <> ty) ->
  (forall n1 x1 n2 x2, n_objs s !! n1 = Some x1 -> n_objs s !! n2 = Some x2 ->
     ie_ty E (io_val x1) = ty -> ie_ty E (io_val x2) = ty -> ie_eq E (io_val x1) (io_val x2) = true -> n1 = n2) /\
  (forall n x, n_objs s !! n = Some x -> ie_ty E (io_val x) = ty ->
     exists t o p, EvRet t o (RPtr p) ∈ n_log s /\ ip_ser p = n).
Proof. exact (new_one_per_value E). Qed.
Print Assumptions C63_new_one_allocation_per_value.
(** ... and the others lose at most one allocation, because a panic disables the type (C39). *)
Theorem C63_new_leaks_once_per_type {V Q : Type} (E : ienv V Q) :
  ilawful E -> icoherent E -> forall ls s n1 x1 n2 x2, run (nstep E) ninit ls = Some s -> (forall t, nstack s t = []) ->
  n_objs s !! n1 = Some x1 -> n_objs s !! n2 = Some x2 -> ie_ty E (io_val x1) = ie_ty E (io_val x2) ->
  (forall t o p, EvRet t o (RPtr p) ∈ n_log s -> ip_ser p <> n1 /\ ip_ser p <> n2) -> n1 = n2.
Proof. exact (new_leaks_once E). Qed.
Print Assumptions C63_new_leaks_once_per_type.
(** Allocation 1 of type 0 is lost; allocation 2, a box for the disabled type, was freed;
    allocation 3 is of another type. *)
Example C63_new_example :
  let s := nafter toyE ex_nleak in
  ilawful toyE /\ icoherent toyE /\ run (nstep toyE) ninit ex_nleak = Some s /\ no_clear ex_nleak /\ (forall t, nstack s t = []) /\
  n_objs s !! 1 = Some (IObj 200 (IV 0 8 0) true) /\ (map_to_list (n_objs s)).*1 = [0; 1; 3] /\
  n_log s = [EvRet 2 (OBox (IV 1 8 0)) (RPtr (IPtr 400 0 3)); EvIns 2 (OBox (IV 1 8 0)) (IPtr 400 0 3) (IV 1 8 0);
    EvRet 2 (OBox (IV 0 8 0)) RPanic; EvRet 1 (ONew (IV 0 8 0)) RPanic;
    EvRet 3 (ONew (IV 0 4 0)) (RPtr (IPtr 100 0 0)); EvIns 3 (ONew (IV 0 4 0)) (IPtr 100 0 0) (IV 0 4 0)].
Proof.
  split_and!; [apply toyE_lawful|apply toyE_coherent|by apply nafter_run; vm_compute|by apply no_clear_check; vm_compute|
    by apply n_all_returned_check; vm_compute|by vm_compute..].
Qed.

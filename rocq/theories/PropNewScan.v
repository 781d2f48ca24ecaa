(** NewIntern: property C72, how many sets the push race creates.  Statements only; the loads of
    the vector's length are made explicit in NewScanModel.v. *)
From stdpp Require Import gmap list numbers.
From Verif Require Import Base InternModel InternSpec InternEx NewModel NewSpec NewEx NewScanModel NewScan NewScanMore NewScanEx.

(** C72.  The executions with coherent loads are executions of [NewModel]: there is no undefined
    behaviour, unreachable!() is not reached, and what is proved of [NewModel] holds of them.  In
    particular a thread cannot miss the set it has just pushed; [NewModel] assumes this. *)
Theorem C72_coherent_loads_suffice {V Q : Type} (E : ienv V Q) ls :
  exists x ls', run (cstep E) cinit ls = Some x /\ run (nstep E) ninit ls' = Some (c_new x) /\
    (forall t o a, ICall t o a ∈ ls' -> ICall t o a ∈ ls).
Proof. exact (coherent_refines E ls). Qed.
Print Assumptions C72_coherent_loads_suffice.

(** The sets of a container were pushed for different pairs of a thread and a type: each thread
    creates at most one set for each type it uses. *)
Theorem C72_one_set_per_thread_and_type {V Q : Type} (E : ienv V Q) ls x c :
  run (cstep E) cinit ls = Some x ->
  exists ps : list (nat * nat), ps.*2 = nvec (c_new x) c /\ NoDup ps /\
    forall t ty, (t, ty) ∈ ps -> slot E ty = c /\ exists o a, ICall t o a ∈ ls /\ op_ty E o = ty.
Proof. exact (one_set_per_thread E ls x c). Qed.
Print Assumptions C72_one_set_per_thread_and_type.
(** Once one of its calls for a type has returned, a thread creates no set for it. *)
Theorem C72_only_first_calls_create {V Q : Type} (E : ienv V Q) ls x t o r o' b i :
  run (cstep E) cinit ls = Some x -> EvRet t o r ∈ n_log (c_new x) -> op_ty E o' = op_ty E o ->
  NPush o' b ∉ nstack (c_new x) t /\ NPub o' b i ∉ nstack (c_new x) t.
Proof. exact (only_first_creates E ls x t o r o' b i). Qed.
Print Assumptions C72_only_first_calls_create.
(** Thread 1 creates the set of type 0 and returns, thread 3 that of type 2 in the same container.
    Thread 2 reads the old length 0 and pushes another set for type 0.  Its second call may not read the length 0 again: that label is skipped. *)
Example C72_example :
  let x := cafter toyE ex_sets in
  run (cstep toyE) cinit ex_sets = Some x /\ nvec (c_new x) 5 = [0; 2; 0] /\
  EvRet 2 (ONew (IV 0 4 0)) (RPtr (IPtr 100 0 0)) ∈ n_log (c_new x) /\
  nstack (c_new x) 2 = [NScan (OLen 0) None false] /\ seen x 2 5 = 3 /\ seen x 1 5 = 1 /\
  cstep toyE x (IStep 2 0 0) = Illegal /\
  match cstep toyE x (IStep 2 0 3) with Next x' => nstack (c_new x') 2 = [NLock (OLen 0) None 0] | _ => False end.
Proof.
  split_and!; [by apply cafter_run; vm_compute|by vm_compute| |by vm_compute..].
  apply elem_of_list_In. vm_compute. tauto.
Qed.

(** "We'll just use the first one" (typearena.rs:72-76): a set that is not the first of its type
    stays empty, and its mutex is never locked. *)
Theorem C72_losers_are_never_used {V Q : Type} (E : ienv V Q) ls s c ty i j :
  run (nstep E) ninit ls = Some s -> nvec s c !! j = Some ty -> nvec s c !! i = Some ty -> j < i ->
  n_sets s !! (c, i) = None /\ n_locks s !! (c, i) = None /\ (c, i) ∉ n_poison s /\
  forall t f, f ∈ nstack s t -> slot E (type_of E f) = c -> ~ uses f i.
Proof. exact (losers_unused E ls s c ty i j). Qed.
Print Assumptions C72_losers_are_never_used.
Example C72_losers_example :
  let s := nafter toyE ex_nall in
  run (nstep toyE) ninit ex_nall = Some s /\ nvec s 5 = [0; 2; 0] /\ n_sets s !! (5, 2) = None /\
  length (default [] (n_sets s !! (5, 0))) = 2.
Proof. split_and!; [by apply nafter_run; vm_compute|by vm_compute..]. Qed.

(** The bound is attained, for every type and every number of threads, even if all loads return
    the current length: n threads leave n sets behind, n - 1 of them useless. *)
Theorem C72_bound_is_attained {V Q : Type} (E : ienv V Q) ty n :
  exists ls x, run (fstep E) cinit ls = Some x /\ (forall t o a, ICall t o a ∈ ls -> t < n) /\
    (forall t, nstack (c_new x) t = []) /\ nvec (c_new x) (slot E ty) = replicate n ty.
Proof. exact (bound_attained E ty n). Qed.
Print Assumptions C72_bound_is_attained.
(** Those executions are among those of [cstep]. *)
Theorem C72_fresh_is_coherent {V Q : Type} (E : ienv V Q) ls x :
  run (fstep E) cinit ls = Some x -> exists ls', ls' `sublist_of` ls /\ run (cstep E) cinit ls' = Some x.
Proof. exact (fresh_coherent E ls cinit x). Qed.
Print Assumptions C72_fresh_is_coherent.
Example C72_attained_example :
  let x := default cinit (run (fstep toyE) cinit (crowd 0 3)) in
  nvec (c_new x) 5 = [0; 0; 0] /\ length (n_log (c_new x)) = 3 /\
  (if run (fstep toyE) cinit (crowd 0 3) then true else false) = true.
Proof. split_and!; by vm_compute. Qed.

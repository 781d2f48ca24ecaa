(** The experimental [Intern] of typearena.rs: properties C38 and C39.  Statements only;
    vocabulary in NewSpec.v and InternSpec.v, the proofs are in NewFinal.v. *)
From stdpp Require Import gmap list numbers.
From Verif Require Import Base InternModel InternSpec InternEx NewModel NewSpec NewFinal NewEx.

(** C38.  Two calls, at any two times of an execution, are for the same type iff they use
    the same set, whichever way the sets were pushed. *)
Theorem C38_same_type_same_set {V Q : Type} (E : ienv V Q) ls1 ls2 s1 s2 t1 f1 i1 t2 f2 i2 :
  run (nstep E) ninit ls1 = Some s1 -> run (nstep E) s1 ls2 = Some s2 ->
  f1 ∈ nstack s1 t1 -> uses f1 i1 -> f2 ∈ nstack s2 t2 -> uses f2 i2 ->
  (type_of E f1 = type_of E f2 <-> (slot E (type_of E f1), i1) = (slot E (type_of E f2), i2)).
Proof. exact (same_set E ls1 ls2 s1 s2 t1 f1 i1 t2 f2 i2). Qed.
Print Assumptions C38_same_type_same_set.
(** Two sets were pushed for type 0, and one for type 2 in the same container. *)
Example C38_race_example :
  let s := nafter toyE ex_nrace in
  run (nstep toyE) ninit ex_nrace = Some s /\ nvec s 5 = [0; 2; 0] /\
  nstack s 1 = [NIn 0 (FGet (ONew (IV 0 4 0)) None)] /\
  nstack s 2 = [NLock (ORef 0 0 (5, 0)) None 0] /\
  nstack s 3 = [NIn 1 (FGet (OBox (IV 2 6 3)) (Some (IPtr 300 3 0)))].
Proof. split; [by apply nafter_run; vm_compute|by vm_compute]. Qed.
(** It is the first set of that type in the container. *)
Theorem C38_first_set_is_used {V Q : Type} (E : ienv V Q) ls s t f i :
  run (nstep E) ninit ls = Some s -> f ∈ nstack s t -> uses f i ->
  nvec s (slot E (type_of E f)) !! i = Some (type_of E f) /\
  forall j, j < i -> nvec s (slot E (type_of E f)) !! j <> Some (type_of E f).
Proof. exact (set_is_first E ls s t f i). Qed.
Print Assumptions C38_first_set_is_used.
(** unreachable!() is not reached, and there is no undefined behaviour, whatever the user's
    Eq, Hash, Borrow and From do. *)
Theorem C38_no_undefined_behaviour {V Q : Type} (E : ienv V Q) ls : exists s, run (nstep E) ninit ls = Some s.
Proof. exact (never_stuck E ls). Qed.
Print Assumptions C38_no_undefined_behaviour.
(** A push does not spin for ever: as many steps of other threads as there are sets before
    it to count, and one of its own, complete it. *)
Theorem C38_push_finishes {V Q : Type} (E : ienv V Q) ls s t o b i k :
  run (nstep E) ninit ls = Some s -> nstack s t = NPub o b i :: k ->
  exists ts s', length ts = S (i - length (nvec s (slot E (op_ty E o)))) /\
    run (nstep E) s ((λ u, IStep u 0 0) <$> ts) = Some s' /\
    nstack s' t = NScan o b true :: k /\ nvec s' (slot E (op_ty E o)) !! i = Some (op_ty E o).
Proof. exact (push_finishes E ls s t o b i k). Qed.
Print Assumptions C38_push_finishes.
Example C38_push_example :
  let s := nafter toyE ex_push in
  run (nstep toyE) ninit ex_push = Some s /\ nstack s 1 = [NPub (ONew (IV 0 4 0)) None 2] /\ nvec s 5 = [] /\
  nstep toyE s (IStep 1 0 0) = Blocked.
Proof. split; [by apply nafter_run; vm_compute|by vm_compute]. Qed.
(** Handles of one type are == iff their values are Eq. *)
Theorem C38_handles_eq_iff_values_eq {V Q : Type} (E : ienv V Q) ls s t1 o1 p1 t2 o2 p2 v1 v2 :
  ilawful E -> icoherent E -> zst_eq E -> no_clear ls -> run (nstep E) ninit ls = Some s ->
  EvRet t1 o1 (RPtr p1) ∈ n_log s -> EvRet t2 o2 (RPtr p2) ∈ n_log s -> op_ty E o1 = op_ty E o2 ->
  iread (nmem s) p1 = Some v1 -> iread (nmem s) p2 = Some v2 ->
  iptr_eqb p1 p2 = ie_eq E v1 v2.
Proof. exact (n_unique E ls s t1 o1 p1 t2 o2 p2 v1 v2). Qed.
Print Assumptions C38_handles_eq_iff_values_eq.
Example C38_handles_example :
  let s := nafter toyE ex_nall in
  ilawful toyE /\ icoherent toyE /\ zst_eq toyE /\ no_clear ex_nall /\ run (nstep toyE) ninit ex_nall = Some s /\
  EvRet 1 (ONew (IV 0 4 0)) (RPtr (IPtr 100 0 1)) ∈ n_log s /\
  EvRet 2 (ORef 0 0 (5, 0)) (RPtr (IPtr 100 0 1)) ∈ n_log s /\
  EvRet 1 (ORef 0 0 (9, 0)) (RPtr (IPtr 500 0 2)) ∈ n_log s /\
  EvRet 3 (OBox (IV 2 6 3)) (RPtr (IPtr 300 3 0)) ∈ n_log s /\
  EvRet 2 (OLen 0) (RNum 2) ∈ n_log s /\
  iread (nmem s) (IPtr 100 0 1) = Some (IV 0 4 0) /\ iread (nmem s) (IPtr 500 0 2) = Some (IV 0 9 0).
Proof.
  split_and!; [apply toyE_lawful|apply toyE_coherent|apply toyE_zst_eq|by apply no_clear_check|by apply nafter_run; vm_compute
    |first [by vm_compute|apply elem_of_list_In; vm_compute; tauto]..].
Qed.
(** The value is Eq to what the call was given. *)
Theorem C38_result_equals_argument {V Q : Type} (E : ienv V Q) ls s t o p :
  ilawful E -> icoherent E -> run (nstep E) ninit ls = Some s -> EvRet t o (RPtr p) ∈ n_log s ->
  exists d, iread (nmem s) p = Some d /\ asks E o d.
Proof. exact (n_result E ls s t o p). Qed.
Print Assumptions C38_result_equals_argument.
(** It was inserted once, by a call that supplied it, and no Eq value of the type ever else. *)
Theorem C38_inserted_once {V Q : Type} (E : ienv V Q) ls s t o p d :
  ilawful E -> icoherent E -> no_clear ls -> run (nstep E) ninit ls = Some s ->
  EvRet t o (RPtr p) ∈ n_log s -> iread (nmem s) p = Some d ->
  exists t0 o0 l1 l2, n_log s = l1 ++ EvIns t0 o0 p d :: l2 /\ op_ty E o0 = op_ty E o /\ supplies E o0 d /\
    forall t' o' p' d', EvIns t' o' p' d' ∈ l1 ++ l2 -> op_ty E o' = op_ty E o -> ie_eq E d' d = false.
Proof. exact (n_one_insertion E ls s t o p d). Qed.
Print Assumptions C38_inserted_once.
(** num_objects_interned counts the Eq classes inserted before it returned. *)
Theorem C38_len_is_exact {V Q : Type} (E : ienv V Q) ls s l1 l2 t ty n :
  ilawful E -> run (nstep E) ninit ls = Some s -> no_clear ls ->
  n_log s = l1 ++ EvRet t (OLen ty) (RNum n) :: l2 ->
  exists vs, length vs = n /\ ForallOrdPairs (λ a b, ie_eq E b a = false) vs /\
    (forall d, d ∈ vs <-> exists t' o' p, EvIns t' o' p d ∈ l2 /\ ie_ty E d = ty).
Proof. exact (n_len E ls s l1 l2 t ty n). Qed.
Print Assumptions C38_len_is_exact.

(** C39.  Once a call for a type has panicked, in every continuation calls for that type
    return only by panicking, nothing of the type is inserted or cleared and nobody gets
    into the set. *)
Theorem C39_type_disabled_for_ever {V Q : Type} (E : ienv V Q) ls1 ls2 s1 s2 t o :
  run (nstep E) ninit ls1 = Some s1 -> EvRet t o RPanic ∈ n_log s1 -> run (nstep E) s1 ls2 = Some s2 ->
  exists l, n_log s2 = l ++ n_log s1 /\
    (forall t' o' r, EvRet t' o' r ∈ l -> op_ty E o' = op_ty E o -> r = RPanic) /\
    (forall t' o' p v, EvIns t' o' p v ∈ l -> op_ty E o' <> op_ty E o) /\
    EvClr (op_ty E o) ∉ l /\
    (forall t' f, f ∈ nstack s2 t' -> inside f -> type_of E f <> op_ty E o).
Proof. exact (panic_forever E ls1 ls2 s1 s2 t o). Qed.
Print Assumptions C39_type_disabled_for_ever.
(** Thread 2's comparison panics; thread 3, which was waiting, and a later call of thread 1
    panic too.  Type 2 works, in the same container, and the old handle can be read. *)
Example C39_example :
  let s1 := nafter toyE ex_npanic in let s2 := nafter toyE (ex_npanic ++ ex_nlater) in
  run (nstep toyE) ninit ex_npanic = Some s1 /\ EvRet 2 (OBox (IV 0 5 0)) RPanic ∈ n_log s1 /\
  EvRet 1 (ONew (IV 0 4 0)) (RPtr (IPtr 100 0 0)) ∈ n_log s1 /\
  run (nstep toyE) s1 ex_nlater = Some s2 /\
  n_log s2 = [EvRead (IPtr 100 0 0) (IV 0 4 0); EvRet 1 (ONew (IV 2 1 3)) (RPtr (IPtr 400 3 2));
    EvIns 1 (ONew (IV 2 1 3)) (IPtr 400 3 2) (IV 2 1 3);
    EvRet 1 (OLen 0) RPanic; EvRet 3 (ONew (IV 0 4 0)) RPanic] ++ n_log s1.
Proof.
  split_and!; [by apply nafter_run; vm_compute|apply elem_of_list_In; vm_compute; tauto..| |by vm_compute].
  by apply nafter_app; vm_compute.
Qed.
(** Already from the moment of the panic, before the mutex is released. *)
Theorem C39_disabled_from_the_panic_on {V Q : Type} (E : ienv V Q) ls1 l ls2 s1 s1' s2 ty :
  run (nstep E) ninit ls1 = Some s1 -> nstep E s1 l = Next s1' -> user_panic E s1 l ty -> run (nstep E) s1' ls2 = Some s2 ->
  exists l', n_log s2 = l' ++ n_log s1 /\
    (forall t' o' r, EvRet t' o' r ∈ l' -> op_ty E o' = ty -> r = RPanic) /\
    (forall t' o' p v, EvIns t' o' p v ∈ l' -> op_ty E o' <> ty) /\
    EvClr ty ∉ l'.
Proof. exact (user_panic_forever E ls1 l ls2 s1 s1' s2 ty). Qed.
Print Assumptions C39_disabled_from_the_panic_on.
(** The panic of [ex_npanic]. *)
Example C39_user_panic_example :
  let ls := take 16 ex_npanic in let s := nafter toyE ls in
  run (nstep toyE) ninit ls = Some s /\ ex_npanic !! 16 = Some (IPanic 2) /\ user_panic toyE s (IPanic 2) 0 /\
  match nstep toyE s (IPanic 2) with Next s' => nstack s' 2 = [NIn 0 (FDup (OBox (IV 0 5 0)) (Some (IPtr 200 0 1)) RPanic)] | _ => False end.
Proof.
  split_and!; [by apply nafter_run; vm_compute|by vm_compute| |by vm_compute].
  exists 2, (NIn 0 (FGet (OBox (IV 0 5 0)) (Some (IPtr 200 0 1)))), []. split_and!; by vm_compute.
Qed.
(** Such a call does return: in three steps of its thread, from any state, if it reads the
    latest length of the vector.  (A thread that is unwinding may not panic again: the process
    aborts.) *)
Theorem C39_call_panics {V Q : Type} (E : ienv V Q) ls s t o t' o' :
  run (nstep E) ninit ls = Some s -> EvRet t o RPanic ∈ n_log s -> op_ty E o' = op_ty E o ->
  (forall ty w q, o' <> OIs ty w q) ->
  match nstack s t' with f :: _ => nin_user f = true | [] => True end -> existsb unwinds (nstack s t') = false ->
  exists a s', run (nstep E) s [ICall t' o' a; IStep t' 0 0; IStep t' 0 0; IStep t' 0 0] = Some s' /\
    nstack s' t' = nstack s t' /\ n_log s' = EvRet t' o' RPanic :: n_log s.
Proof. exact (call_panics E ls s t o t' o'). Qed.
Print Assumptions C39_call_panics.
(** The cause is always a panic of user code in a call for that type. *)
Theorem C39_only_user_panics {V Q : Type} (E : ienv V Q) ls s t o :
  run (nstep E) ninit ls = Some s -> EvRet t o RPanic ∈ n_log s ->
  exists ls1 l ls2 s1 s2, ls = ls1 ++ l :: ls2 /\
    run (nstep E) ninit ls1 = Some s1 /\ nstep E s1 l = Next s2 /\ user_panic E s1 l (op_ty E o).
Proof. exact (panic_cause E ls s t o). Qed.
Print Assumptions C39_only_user_panics.
(** Handles stay valid, panics or not: same address, same value, and reading is defined. *)
Theorem C39_handles_stay_valid {V Q : Type} (E : ienv V Q) ls1 ls2 s1 s2 t o p :
  run (nstep E) ninit ls1 = Some s1 -> EvRet t o (RPtr p) ∈ n_log s1 -> run (nstep E) s1 ls2 = Some s2 ->
  exists v, ie_ty E v = op_ty E o /\ ip_meta p = ie_meta E v /\
    n_objs s1 !! ip_ser p = Some (IObj (ip_addr p) v true) /\
    n_objs s2 !! ip_ser p = Some (IObj (ip_addr p) v true) /\
    nstep E s2 (IDeref p) = Next (nevent s2 (EvRead p v)).
Proof. exact (n_handle_valid E ls1 ls2 s1 s2 t o p). Qed.
Print Assumptions C39_handles_stay_valid.

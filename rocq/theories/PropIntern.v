(** Intern: properties C18-C23, C25-C29.  Statements only; vocabulary in InternSpec.v, the
    types and executions of the examples in InternEx.v. *)
From stdpp Require Import gmap list numbers.
From Verif Require Import Base InternModel InternSpec InternFinal InternMore InternLive InternWaste InternEx.

(** C18 *)
Theorem C18_handles_eq_iff_values_eq {V Q : Type} (E : ienv V Q) ls st t1 o1 p1 t2 o2 p2 v1 v2 :
  ilawful E -> icoherent E -> zst_eq E -> no_clear ls -> run (istep E) iinit ls = Some st ->
  EvRet t1 o1 (RPtr p1) ∈ i_log st -> EvRet t2 o2 (RPtr p2) ∈ i_log st -> op_ty E o1 = op_ty E o2 ->
  iread st p1 = Some v1 -> iread st p2 = Some v2 ->
  iptr_eqb p1 p2 = ie_eq E v1 v2.
Proof. exact (handles_eq E ls st t1 o1 p1 t2 o2 p2 v1 v2). Qed.
Print Assumptions C18_handles_eq_iff_values_eq.
(** Eq values by different threads; an empty slice boxed twice; unequal ones. *)
Example C18_example :
  ilawful toyE /\ icoherent toyE /\ zst_eq toyE /\ no_clear ex_all /\
  run (istep toyE) iinit ex_all = Some (iafter toyE ex_all) /\
  EvRet 1 (ONew (IV 0 4 0)) (RPtr pA) ∈ i_log (iafter toyE ex_all) /\
  EvRet 2 (ONew (IV 0 5 0)) (RPtr pA) ∈ i_log (iafter toyE ex_all) /\
  EvRet 3 (OBox (IV 2 0 0)) (RPtr pC) ∈ i_log (iafter toyE ex_all) /\
  EvRet 1 (OBox (IV 2 1 0)) (RPtr pC) ∈ i_log (iafter toyE ex_all) /\
  EvRet 3 (OVia (IV 2 9 3)) (RPtr pB) ∈ i_log (iafter toyE ex_all) /\
  EvRet 1 (ORef 0 0 (8, 0)) (RPtr pD) ∈ i_log (iafter toyE ex_all) /\
  is_zst toyE (IV 2 0 0) = true.
Proof.
  split_and!; [apply toyE_lawful|apply toyE_coherent|apply toyE_zst_eq|by apply no_clear_check; vm_compute
    |by apply iafter_run; vm_compute|apply elem_of_list_In; vm_compute; tauto..|done].
Qed.

(** C19 *)
Theorem C19_handle_valid_forever {V Q : Type} (E : ienv V Q) ls1 ls2 st1 st2 t o p :
  run (istep E) iinit ls1 = Some st1 -> EvRet t o (RPtr p) ∈ i_log st1 ->
  run (istep E) st1 ls2 = Some st2 ->
  exists v, ie_ty E v = op_ty E o /\ ip_meta p = ie_meta E v /\
    i_objs st1 !! ip_ser p = Some (IObj (ip_addr p) v true) /\
    i_objs st2 !! ip_ser p = Some (IObj (ip_addr p) v true) /\
    istep E st2 (IDeref p) = Next (add_event st2 (EvRead p v)).
Proof. exact (handle_valid E ls1 ls2 st1 st2 t o p). Qed.
Print Assumptions C19_handle_valid_forever.
Example C19_example :
  run (istep toyE) iinit ex_race = Some (iafter toyE ex_race) /\
  EvRet 2 (ONew (IV 0 5 0)) (RPtr pA) ∈ i_log (iafter toyE ex_race) /\
  (head ∘ i_log) <$> run (istep toyE) (iafter toyE ex_race) (icall 1 0 (OClear 0) 2 ++ ex_ref ++ [IDeref pA]) =
    Some (Some (EvRead pA (IV 0 4 0))).
Proof.
  split_and!; [by apply iafter_run; vm_compute|apply elem_of_list_In; vm_compute; tauto|by vm_compute].
Qed.

(** C20.  [asks E o d]: [d] is Eq to what call [o] was given. *)
Theorem C20_result_equals_argument {V Q : Type} (E : ienv V Q) ls st t o p :
  ilawful E -> icoherent E -> run (istep E) iinit ls = Some st -> EvRet t o (RPtr p) ∈ i_log st ->
  exists d, iread st p = Some d /\ asks E o d.
Proof. exact (value_eq E ls st t o p). Qed.
Print Assumptions C20_result_equals_argument.
Example C20_example :
  EvRet 2 (ONew (IV 0 5 0)) (RPtr pA) ∈ i_log (iafter toyE ex_all) /\
  iread (iafter toyE ex_all) pA = Some (IV 0 4 0) /\ ie_eq toyE (IV 0 4 0) (IV 0 5 0) = true.
Proof. split_and!; [apply elem_of_list_In; vm_compute; tauto|by vm_compute|done]. Qed.

(** The value read is the one inserted first: exactly one value of its class was ever
    inserted, by a call that supplied it. *)
Theorem C20_first_representative {V Q : Type} (E : ienv V Q) ls st t o p d :
  ilawful E -> icoherent E -> no_clear ls -> run (istep E) iinit ls = Some st ->
  EvRet t o (RPtr p) ∈ i_log st -> iread st p = Some d ->
  exists t0 o0 l1 l2, i_log st = l1 ++ EvIns t0 o0 p d :: l2 /\ op_ty E o0 = op_ty E o /\ supplies E o0 d /\
    forall t' o' p' d', EvIns t' o' p' d' ∈ l1 ++ l2 -> op_ty E o' = op_ty E o -> ie_eq E d' d = false.
Proof. exact (one_insertion E ls st t o p d). Qed.
Print Assumptions C20_first_representative.
Example C20_first_example :
  EvRet 2 (ONew (IV 0 5 0)) (RPtr pA) ∈ i_log (iafter toyE ex_all) /\
  EvIns 1 (ONew (IV 0 4 0)) pA (IV 0 4 0) ∈ i_log (iafter toyE ex_all).
Proof. split; apply elem_of_list_In; vm_compute; tauto. Qed.

Theorem C20_equal_argument_same_handle {V Q : Type} (E : ienv V Q) ls st t1 o1 p1 t2 o2 p2 d1 :
  ilawful E -> icoherent E -> no_clear ls -> run (istep E) iinit ls = Some st ->
  EvRet t1 o1 (RPtr p1) ∈ i_log st -> EvRet t2 o2 (RPtr p2) ∈ i_log st ->
  iread st p1 = Some d1 -> asks E o2 d1 -> p2 = p1.
Proof. exact (same_class E ls st t1 o1 p1 t2 o2 p2 d1). Qed.
Print Assumptions C20_equal_argument_same_handle.
Example C20_same_example :
  EvRet 1 (ONew (IV 0 4 0)) (RPtr pA) ∈ i_log (iafter toyE ex_all) /\
  EvRet 2 (ONew (IV 0 5 0)) (RPtr pA) ∈ i_log (iafter toyE ex_all) /\
  asks toyE (ONew (IV 0 5 0)) (IV 0 4 0).
Proof. split_and!; [apply elem_of_list_In; vm_compute; tauto..|by vm_compute]. Qed.

(** C21 *)
Theorem C21_is_interned_exact {V Q : Type} (E : ienv V Q) ls st l1 l2 t ty w q b :
  ilawful E -> run (istep E) iinit ls = Some st -> no_clear ls ->
  i_log st = l1 ++ EvRet t (OIs ty w q) (RBool b) :: l2 ->
  b = true <-> exists t' o' p d, EvIns t' o' p d ∈ l2 /\ ie_ty E d = ty /\ ie_qeq E (ie_borrow E w d) q = true.
Proof. exact (is_interned_exact E ls st l1 l2 t ty w q b). Qed.
Print Assumptions C21_is_interned_exact.
(** 9 is Eq to 8, which was interned; nothing Eq to 12 was. *)
Example C21_example :
  (exists l1 l2, i_log (iafter toyE ex_all) = l1 ++ EvRet 2 (OIs 0 1 (9, 0)) (RBool true) :: l2 /\
     EvIns 1 (ORef 0 0 (8, 0)) pD (IV 0 8 0) ∈ l2) /\
  (exists l1 l2, i_log (iafter toyE ex_all) = l1 ++ EvRet 2 (OIs 0 1 (12, 0)) (RBool false) :: l2).
Proof.
  split.
  - exists (take 3 (i_log (iafter toyE ex_all))), (drop 4 (i_log (iafter toyE ex_all))).
    split; [by vm_compute|apply elem_of_list_In; vm_compute; tauto].
  - exists (take 2 (i_log (iafter toyE ex_all))), (drop 3 (i_log (iafter toyE ex_all))). by vm_compute.
Qed.

(** Everything that a returned handle reads counts as interned. *)
Theorem C21_returned_is_interned {V Q : Type} (E : ienv V Q) ls st l1 l2 l3 t1 o1 p d t ty w q b :
  ilawful E -> icoherent E -> no_clear ls -> run (istep E) iinit ls = Some st ->
  i_log st = l1 ++ EvRet t (OIs ty w q) (RBool b) :: l2 ++ EvRet t1 o1 (RPtr p) :: l3 ->
  op_ty E o1 = ty -> iread st p = Some d -> ie_qeq E (ie_borrow E w d) q = true -> b = true.
Proof. exact (is_interned_after E ls st l1 l2 l3 t1 o1 p d t ty w q b). Qed.
Print Assumptions C21_returned_is_interned.
Example C21_returned_example :
  exists l1 l2 l3, i_log (iafter toyE ex_all) =
    l1 ++ EvRet 2 (OIs 0 1 (9, 0)) (RBool true) :: l2 ++ EvRet 1 (ORef 0 0 (8, 0)) (RPtr pD) :: l3 /\
  iread (iafter toyE ex_all) pD = Some (IV 0 8 0) /\
  ie_qeq toyE (ie_borrow toyE 1 (IV 0 8 0)) (9, 0) = true.
Proof.
  exists (take 3 (i_log (iafter toyE ex_all))), [], (drop 5 (i_log (iafter toyE ex_all))).
  split_and!; by vm_compute.
Qed.

Theorem C21_is_interned_monotone {V Q : Type} (E : ienv V Q) ls st l1 l2 l3 t1 t2 ty w q b :
  ilawful E -> no_clear ls -> run (istep E) iinit ls = Some st ->
  i_log st = l1 ++ EvRet t2 (OIs ty w q) (RBool b) :: l2 ++ EvRet t1 (OIs ty w q) (RBool true) :: l3 ->
  b = true.
Proof. exact (is_interned_mono E ls st l1 l2 l3 t1 t2 ty w q b). Qed.
Print Assumptions C21_is_interned_monotone.
Example C21_monotone_example :
  exists l1 l2 l3, i_log (iafter toyE (ex_all ++ icall 3 0 (ONew (IV 0 20 0)) 1 ++ icall 2 0 (OIs 0 1 (9, 0)) 3 ++
      replicate 4 (IStep 3 700 0) ++ icall 2 0 (OIs 0 1 (9, 0)) 3)) =
    l1 ++ EvRet 2 (OIs 0 1 (9, 0)) (RBool true) :: l2 ++ EvRet 2 (OIs 0 1 (9, 0)) (RBool true) :: l3 /\ l2 <> [].
Proof. by exists [], (take 5 (drop 1 (i_log (iafter toyE (ex_all ++ icall 3 0 (ONew (IV 0 20 0)) 1 ++ icall 2 0 (OIs 0 1 (9, 0)) 3 ++
      replicate 4 (IStep 3 700 0) ++ icall 2 0 (OIs 0 1 (9, 0)) 3))))), (drop 7 (i_log (iafter toyE (ex_all ++ icall 3 0 (ONew (IV 0 20 0)) 1 ++ icall 2 0 (OIs 0 1 (9, 0)) 3 ++
      replicate 4 (IStep 3 700 0) ++ icall 2 0 (OIs 0 1 (9, 0)) 3)))); vm_compute. Qed.

(** Queries never insert: only a call that supplies a value does. *)
Theorem C21_only_supplied_values_inserted {V Q : Type} (E : ienv V Q) ls st t o p v :
  run (istep E) iinit ls = Some st -> EvIns t o p v ∈ i_log st -> supplies E o v /\ ie_ty E v = op_ty E o.
Proof. exact (inserts_supplied E ls st t o p v). Qed.
Print Assumptions C21_only_supplied_values_inserted.

(** C22 *)
Theorem C22_len_exact {V Q : Type} (E : ienv V Q) ls st l1 l2 t ty n :
  ilawful E -> run (istep E) iinit ls = Some st -> no_clear ls ->
  i_log st = l1 ++ EvRet t (OLen ty) (RNum n) :: l2 ->
  exists vs, length vs = n /\ ForallOrdPairs (λ a b, ie_eq E b a = false) vs /\
    (forall d, d ∈ vs <-> exists t' o' p, EvIns t' o' p d ∈ l2 /\ ie_ty E d = ty) /\
    (icoherent E -> forall t' o' p, EvRet t' o' (RPtr p) ∈ l2 -> op_ty E o' = ty ->
      exists d, iread st p = Some d /\ d ∈ vs).
Proof. exact (len_exact E ls st l1 l2 t ty n). Qed.
Print Assumptions C22_len_exact.
(** Three handles of type 0 for two classes; type 2 has two as well. *)
Example C22_example :
  exists l, i_log (iafter toyE ex_all) = EvRet 2 (OLen 2) (RNum 2) :: EvRet 2 (OLen 0) (RNum 2) :: l.
Proof. eexists. by vm_compute. Qed.

Theorem C22_len_monotone {V Q : Type} (E : ienv V Q) ls st l1 l2 l3 t1 t2 ty n m :
  run (istep E) iinit ls = Some st -> no_clear ls -> ilawful E ->
  i_log st = l1 ++ EvRet t2 (OLen ty) (RNum m) :: l2 ++ EvRet t1 (OLen ty) (RNum n) :: l3 -> n <= m.
Proof. exact (len_mono E ls st l1 l2 l3 t1 t2 ty n m). Qed.
Print Assumptions C22_len_monotone.
Example C22_monotone_example :
  exists l2 l3, i_log (iafter toyE (icall 1 0 (OLen 2) 2 ++ ex_all)) =
    EvRet 2 (OLen 2) (RNum 2) :: l2 ++ EvRet 1 (OLen 2) (RNum 0) :: l3.
Proof.
  exists (take 13 (drop 1 (i_log (iafter toyE (icall 1 0 (OLen 2) 2 ++ ex_all))))), []. by vm_compute.
Qed.

(** C23.  The set of a type changes only when an insertion for that type ends, or when it
    is cleared: [set_of] of every other type, in the same container or not, is untouched. *)
Theorem C23_sets_isolated {V Q : Type} (E : ienv V Q) ls st lb st' ty :
  run (istep E) iinit ls = Some st -> istep E st lb = Next st' -> set_of E st' ty <> set_of E st ty ->
  exists t f k, lab_thread lb = Some t /\ get_stack st t = f :: k /\
    ((exists o p, f = FIns o p /\ op_ty E o = ty) \/ exists b, f = FWait (OClear ty) b).
Proof. exact (λ Hr, sets_isolated E st lb st' ty (reach_inv E ls st Hr)). Qed.
Print Assumptions C23_sets_isolated.
(** Types 0 and 2 are in one container. *)
Example C23_example :
  slot toyE 0 = 5 /\ slot toyE 2 = 5 /\
  container (iafter toyE ex_all) 5 = [(0, [pD; pA]); (2, [pC; pB])].
Proof. split_and!; by vm_compute. Qed.

Theorem C23_set_has_only_its_type {V Q : Type} (E : ienv V Q) ls st ty p :
  run (istep E) iinit ls = Some st -> p ∈ set_of E st ty -> exists v, iread st p = Some v /\ ie_ty E v = ty.
Proof. exact (set_typed E ls st ty p). Qed.
Print Assumptions C23_set_has_only_its_type.

Theorem C23_set_complete {V Q : Type} (E : ienv V Q) ls st t o p v :
  run (istep E) iinit ls = Some st -> no_clear ls ->
  EvIns t o p v ∈ i_log st -> p ∈ set_of E st (ie_ty E v).
Proof. exact (set_complete E ls st t o p v). Qed.
Print Assumptions C23_set_complete.

(** A type has at most one set in its container's vector. *)
Theorem C23_one_set_per_type {V Q : Type} (E : ienv V Q) ls st s :
  run (istep E) iinit ls = Some st -> NoDup (container st s).*1.
Proof. exact (one_set E ls st s). Qed.
Print Assumptions C23_one_set_per_type.

(** C25.  Within two steps of its own the panicking thread has released the mutex and left
    the call; no set has changed. *)
Theorem C25_panic_releases_mutex {V Q : Type} (E : ienv V Q) ls st t st1 :
  run (istep E) iinit ls = Some st -> istep E st (IPanic t) = Next st1 ->
  exists f k o n st2,
    get_stack st t = f :: k /\ frame_ty E f = op_ty E o /\ n <= 2 /\
    run (istep E) st1 (replicate n (IStep t 0 0)) = Some st2 /\
    i_log st2 = EvRet t o RPanic :: i_log st /\ i_slots st2 = i_slots st /\
    i_locks st2 !! slot E (op_ty E o) = None /\ get_stack st2 t = k.
Proof. exact (λ Hr, panic_cleanup E st t st1 (reach_inv E ls st Hr)). Qed.
Print Assumptions C25_panic_releases_mutex.
(** Eq panics while thread 1 searches with a box in hand; the box is freed, the mutex
    poisoned. *)
Definition ex_panic : list (ilabel ival (nat * nat)) :=
  ex_all ++ [ICall 1 (OBox (IV 0 30 0)) 600; IStep 1 0 0; IPanic 1; IStep 1 0 0; IStep 1 0 0].
Example C25_example :
  run (istep toyE) iinit ex_panic = Some (iafter toyE ex_panic) /\
  (exists l, i_log (iafter toyE ex_panic) = EvRet 1 (OBox (IV 0 30 0)) RPanic :: l) /\
  bool_decide (5 ∈ i_poison (iafter toyE ex_panic)) = true /\
  i_objs (iafter toyE ex_panic) !! 5 = None.
Proof. split_and!; [by apply iafter_run; vm_compute|eexists; by vm_compute|by vm_compute..]. Qed.

(** Poison is invisible: from states that differ in it, the same steps do the same. *)
Theorem C25_poison_ignored {V Q : Type} (E : ienv V Q) ls st P st' :
  run (istep E) st ls = Some st' ->
  exists P', run (istep E) (with_poison st P) ls = Some (with_poison st' P').
Proof. exact (poison_run E ls st P st'). Qed.
Print Assumptions C25_poison_ignored.

(** After any history, including panics, a call on a container that is not in use completes
    on its own without panicking.  Uniqueness is C18, which allows panics anywhere. *)
Theorem C25_later_calls_work {V Q : Type} (E : ienv V Q) ls0 st t o :
  run (istep E) iinit ls0 = Some st -> total_from E ->
  get_stack st t = [] -> i_locks st !! slot E (op_ty E o) = None ->
  exists a ls st' r l, run (istep E) st (ICall t o a :: ls) = Some st' /\
    (forall lb, lb ∈ ls -> quiet lb /\ lab_thread lb = Some t) /\
    get_stack st' t = [] /\ i_log st' = EvRet t o r :: l /\ r <> RPanic.
Proof. exact (λ Hr, later_call E st t o (reach_inv E ls0 st Hr)). Qed.
Print Assumptions C25_later_calls_work.
Definition ex_panic2 : list (ilabel ival (nat * nat)) :=
  [ICall 1 (ORef 0 0 (8, 0)) 0; IStep 1 0 0; IStep 1 0 0; IPanic 1; IStep 1 0 0].
Example C25_later_example :
  total_from fullE /\ run (istep fullE) iinit ex_panic2 = Some (iafter fullE ex_panic2) /\
  bool_decide (5 ∈ i_poison (iafter fullE ex_panic2)) = true /\
  get_stack (iafter fullE ex_panic2) 1 = [] /\ i_locks (iafter fullE ex_panic2) !! 5 = None.
Proof. split_and!; [apply fullE_total|by apply iafter_run; vm_compute|by vm_compute..]. Qed.

(** C26.  With coherence C18 and C20 hold.  Without it: every [from_ref] that returns a value
    not Eq to its key has made an allocation of its own, which no other such call returns. *)
Theorem C26_incoherent_calls_allocate {V Q : Type} (E : ienv V Q) ls st l1 l2 l3 t1 ty1 w1 q1 p1 d1 t2 ty2 w2 q2 p2 d2 :
  run (istep E) iinit ls = Some st ->
  i_log st = l1 ++ EvRet t2 (ORef ty2 w2 q2) (RPtr p2) :: l2 ++ EvRet t1 (ORef ty1 w1 q1) (RPtr p1) :: l3 ->
  iread st p1 = Some d1 -> ie_qeq E (ie_borrow E w1 d1) q1 = false ->
  iread st p2 = Some d2 -> ie_qeq E (ie_borrow E w2 d2) q2 = false ->
  ip_ser p1 <> ip_ser p2 /\ (is_zst E d1 = false -> is_zst E d2 = false -> iptr_eqb p1 p2 = false).
Proof. exact (missed_fresh E ls st l1 l2 l3 t1 ty1 w1 q1 p1 d1 t2 ty2 w2 q2 p2 d2). Qed.
Print Assumptions C26_incoherent_calls_allocate.
Example C26_example :
  exists l3, i_log (iafter normE (waste 2)) =
    EvRet 1 (ORef 0 0 (2, 0)) (RPtr (IPtr 101 0 1)) :: EvRet 1 (ORef 0 0 (2, 0)) (RPtr (IPtr 100 0 0)) :: l3 /\
  iread (iafter normE (waste 2)) (IPtr 100 0 0) = Some v0 /\ iread (iafter normE (waste 2)) (IPtr 101 0 1) = Some v0 /\
  ie_qeq normE (ie_borrow normE 0 v0) (2, 0) = false /\ is_zst normE v0 = false.
Proof. eexists. split_and!; by vm_compute. Qed.

(** A conversion that is not coherent, with lawful Eq, Hash and Borrow: [n] calls give [n]
    pairwise unequal handles to the same value, while one object counts as interned. *)
Theorem C26_uniqueness_without_coherence_refuted :
  exists (E : ienv ival (nat * nat)) q v, ilawful E /\ zst_eq E /\ forall n, 0 < n ->
  exists ls st (hs : list iptr), run (istep E) iinit ls = Some st /\ no_clear ls /\ length hs = n /\
    (forall p, p ∈ hs -> EvRet 1 (ORef 0 0 q) (RPtr p) ∈ i_log st /\ iread st p = Some v) /\
    (forall i j p p', hs !! i = Some p -> hs !! j = Some p' -> i <> j -> iptr_eqb p p' = false) /\
    (exists l, i_log st = EvRet 1 (OLen 0) (RNum 1) :: l).
Proof. exact (ex_intro _ normE (ex_intro _ (2, 0) (ex_intro _ v0 (conj normE_lawful (conj normE_zst_eq waste_all))))). Qed.
Print Assumptions C26_uniqueness_without_coherence_refuted.

(** C27.  From every reachable state, either all running calls can be finished, or threads
    that wait for each other from inside nested calls block the rest. *)
Theorem C27_finish_or_deadlock {V Q : Type} (E : ienv V Q) ls0 st :
  run (istep E) iinit ls0 = Some st -> total_from E ->
  exists ls st', run (istep E) st ls = Some st' /\ (forall lb, lb ∈ ls -> quiet lb) /\
    ((forall t, get_stack st' t = []) \/
     ((exists t, get_stack st' t <> []) /\ deadlocked E st' (λ t, get_stack st' t <> []))).
Proof. exact (λ Hr, finish_or_dead E st (reach_inv E ls0 st Hr)). Qed.
Print Assumptions C27_finish_or_deadlock.

(** Such a deadlock involves a nested call, *)
Theorem C27_deadlock_needs_nesting {V Q : Type} (E : ienv V Q) st D :
  deadlocked E st D -> (exists t, D t) -> exists t, D t /\ 2 <= length (get_stack st t).
Proof. exact (dead_nested E st D). Qed.
Print Assumptions C27_deadlock_needs_nesting.

(** so without nested calls, or when nested calls only go to containers of higher number,
    there is none: all calls can be finished. *)
Theorem C27_no_deadlock_without_nesting {V Q : Type} (E : ienv V Q) ls0 st :
  run (istep E) iinit ls0 = Some st -> total_from E -> (forall t, length (get_stack st t) <= 1) ->
  exists ls st', run (istep E) st ls = Some st' /\ (forall lb, lb ∈ ls -> quiet lb) /\
    forall t, get_stack st' t = [].
Proof. exact (λ Hr HT Hf, all_finish E st (reach_inv E ls0 st Hr) HT (flat_ordered E st Hf)). Qed.
Print Assumptions C27_no_deadlock_without_nesting.

Theorem C27_no_deadlock_if_ordered {V Q : Type} (E : ienv V Q) ls0 st :
  run (istep E) iinit ls0 = Some st -> total_from E -> ordered E st ->
  exists ls st', run (istep E) st ls = Some st' /\ (forall lb, lb ∈ ls -> quiet lb) /\
    forall t, get_stack st' t = [].
Proof. exact (λ Hr, all_finish E st (reach_inv E ls0 st Hr)). Qed.
Print Assumptions C27_no_deadlock_if_ordered.
(** Thread 1 converts for type 0 (container 5) and interns type 1 (container 6) meanwhile;
    thread 2 waits for container 5. *)
Definition ex_nest : list (ilabel ival (nat * nat)) :=
  [ICall 1 (ORef 0 0 (8, 0)) 0; IStep 1 0 0; IStep 1 0 0; ICall 1 (ONew (IV 1 3 0)) 0; ICall 2 (OLen 0) 0].
Example C27_ordered_example :
  get_stack (iafter fullE ex_nest) 1 = [FWait (ONew (IV 1 3 0)) None; FConv 0 0 (8, 0)] /\
  get_stack (iafter fullE ex_nest) 2 = [FWait (OLen 0) None] /\
  slot fullE 0 = 5 /\ slot fullE 1 = 6.
Proof. split_and!; by vm_compute. Qed.

(** A callback that interns a value of the same type, or of any type of the same container,
    never returns, and from then on no call on that container returns. *)
Theorem C27_reentrancy_deadlocks {V Q : Type} (E : ienv V Q) ls0 st t f k o a st1 ls st2 :
  run (istep E) iinit ls0 = Some st -> get_stack st t = f :: k ->
  istep E st (ICall t o a) = Next st1 -> slot E (op_ty E o) = slot E (frame_ty E f) ->
  run (istep E) st1 ls = Some st2 ->
  get_stack st2 t = get_stack st1 t /\
  forall u o' r, slot E (op_ty E o') = slot E (frame_ty E f) -> EvRet u o' r ∈ i_log st2 -> EvRet u o' r ∈ i_log st1.
Proof. exact (reenter_forever E ls0 st t f k o a st1 ls st2). Qed.
Print Assumptions C27_reentrancy_deadlocks.
(** [T::from] of type 0 calls back for the same type; for type 2, which happens to share the
    container. *)
Definition ex_conv : list (ilabel ival (nat * nat)) := [ICall 1 (ORef 0 0 (8, 0)) 0; IStep 1 0 0; IStep 1 0 0].
Example C27_reentrancy_example :
  get_stack (iafter fullE ex_conv) 1 = [FConv 0 0 (8, 0)] /\
  (exists st1, istep fullE (iafter fullE ex_conv) (ICall 1 (ONew (IV 0 3 0)) 0) = Next st1) /\
  (exists st1, istep fullE (iafter fullE ex_conv) (ICall 1 (ONew (IV 2 3 0)) 0) = Next st1) /\
  slot fullE 2 = slot fullE 0.
Proof. split_and!; [by vm_compute|eexists; by vm_compute|eexists; by vm_compute|by vm_compute]. Qed.

(** In general a deadlock is for ever. *)
Theorem C27_deadlock_is_forever {V Q : Type} (E : ienv V Q) ls0 st D ls st' :
  run (istep E) iinit ls0 = Some st -> deadlocked E st D -> run (istep E) st ls = Some st' ->
  forall t, D t -> get_stack st' t = get_stack st t.
Proof. exact (λ Hr, dead_forever E st D ls st' (reach_inv E ls0 st Hr)). Qed.
Print Assumptions C27_deadlock_is_forever.
(** Threads 1 and 2 nest types 0 and 1 in opposite orders. *)
Definition ex_cross : list (ilabel ival (nat * nat)) :=
  [ICall 1 (ORef 0 0 (8, 0)) 0; IStep 1 0 0; IStep 1 0 0; ICall 2 (ORef 1 0 (8, 0)) 0; IStep 2 0 0; IStep 2 0 0;
   ICall 1 (ONew (IV 1 3 0)) 0; ICall 2 (ONew (IV 0 3 0)) 0].
Example C27_cross_example :
  run (istep fullE) iinit ex_cross = Some (iafter fullE ex_cross) /\
  deadlocked fullE (iafter fullE ex_cross) (λ t, t = 1 \/ t = 2).
Proof. split; [by apply iafter_run; vm_compute|exact ex_cross_dead]. Qed.

(** C28.  No law is assumed: Eq, Hash, Borrow and From are arbitrary functions (relations). *)
Theorem C28_memory_safe {V Q : Type} (E : ienv V Q) ls :
  exists st, run (istep E) iinit ls = Some st /\
    forall t o p, EvRet t o (RPtr p) ∈ i_log st -> exists v, iread st p = Some v /\ ie_ty E v = op_ty E o.
Proof. exact (never_ub E ls). Qed.
Print Assumptions C28_memory_safe.

(** C29.  C19 holds with clears; but a handle from before a clear is unequal to every handle
    from after it (unless zero-sized). *)
Theorem C29_clear_breaks_uniqueness {V Q : Type} (E : ienv V Q) ls st l1 l2 ty t1 o1 p1 t2 o2 p2 v1 :
  ilawful E -> icoherent E -> run (istep E) iinit ls = Some st ->
  i_log st = l1 ++ EvClr ty :: l2 ->
  EvRet t1 o1 (RPtr p1) ∈ l2 -> op_ty E o1 = ty -> EvRet t2 o2 (RPtr p2) ∈ l1 -> op_ty E o2 = ty ->
  iread st p1 = Some v1 -> ie_zst E ty (ie_meta E v1) = false ->
  iptr_eqb p1 p2 = false.
Proof. exact (clear_fresh E ls st l1 l2 ty t1 o1 p1 t2 o2 p2 v1). Qed.
Print Assumptions C29_clear_breaks_uniqueness.
Definition ex_clear : list (ilabel ival (nat * nat)) :=
  icall 1 100 (ONew (IV 0 4 0)) 5 ++ icall 1 0 (OClear 0) 2 ++ icall 1 200 (ONew (IV 0 4 0)) 5.
Example C29_example :
  i_log (iafter toyE ex_clear) =
    [EvRet 1 (ONew (IV 0 4 0)) (RPtr (IPtr 200 0 1)); EvIns 1 (ONew (IV 0 4 0)) (IPtr 200 0 1) (IV 0 4 0);
     EvRet 1 (OClear 0) RUnit; EvClr 0;
     EvRet 1 (ONew (IV 0 4 0)) (RPtr (IPtr 100 0 0)); EvIns 1 (ONew (IV 0 4 0)) (IPtr 100 0 0) (IV 0 4 0)] /\
  iread (iafter toyE ex_clear) (IPtr 100 0 0) = Some (IV 0 4 0).
Proof. split; by vm_compute. Qed.

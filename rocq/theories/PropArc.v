(** ArcIntern: properties C01-C15, C17, C50.  Statements only; vocabulary in ArcSpec.v. *)
From stdpp Require Import gmap list numbers.
From Verif Require Import Base ArcModel ArcSpec ArcLen ArcTame ArcProps ArcShrink ArcCtorModel ArcCtorSpec ArcEx
  ArcFinal ArcWit.

(** C01.  No execution has undefined behaviour.  Transitivity of Eq is not needed. *)
Theorem C01_memory_safe {V : Type} (E : tyenv V) ls : tame E -> wide E -> bounded E ls -> run (step E) init ls <> None.
Proof. exact (tame_safe E ls). Qed.
Print Assumptions C01_memory_safe.
Example C01_example :
  tame exE /\ wide exE /\ bounded exE (ex_ls ++ ex_reads ++ ex_drops) /\
  st_log (after exE (ex_ls ++ ex_reads ++ ex_drops)) <> [] /\
  st_heap (after exE ex_ls) !! 10 = Some (Cell 0 3 (Some leaf4)).
Proof.
  split_and!; [apply lawful_tame, nodes_lawful|done|by apply ex_bounded|by vm_compute|by vm_compute].
Qed.

Theorem C01_memory_safe_short {V : Type} (E : tyenv V) ls :
  tame E -> (N.of_nat (length ls) < te_mod E)%N -> run (step E) init ls <> None.
Proof. exact (tame_safe_short E ls). Qed.
Print Assumptions C01_memory_safe_short.
(** 2^64 steps are more than any machine takes. *)
Example C01_short_example :
  tame (nodes 4 (2 ^ 64)) /\ (N.of_nat (length (ex_ls ++ ex_drops)) < te_mod (nodes 4 (2 ^ 64)))%N.
Proof. split; [apply lawful_tame, nodes_lawful|by vm_compute]. Qed.

(** C02 *)
Theorem C02_handles_eq_iff_values_eq {V : Type} (E : tyenv V) ls st p q :
  lawful E -> wide E -> bounded E ls -> run (step E) init ls = Some st ->
  alive E st p -> alive E st q ->
  exists u v, data st p = Some u /\ data st q = Some v /\ handle_eqb p q = te_eq E u v.
Proof. exact (λ HL HW, handles_eq_iff E HL HW ls st p q). Qed.
Print Assumptions C02_handles_eq_iff_values_eq.
Example C02_example :
  lawful exE /\ wide exE /\ bounded exE ex_ls /\ run (step exE) init ex_ls = Some (after exE ex_ls) /\
  alive exE (after exE ex_ls) exA /\ alive exE (after exE ex_ls) exB /\
  data (after exE ex_ls) exA = Some leaf4 /\ te_eq exE leaf4 leaf5 = true.
Proof.
  split_and!; [apply nodes_lawful|done|by apply ex_bounded|by apply after_run; vm_compute
    |by apply alive_b; vm_compute|by apply alive_b; vm_compute|by vm_compute|done].
Qed.

Theorem C02_results_eq_iff_arguments_eq {V : Type} (E : tyenv V) ls st t1 v1 p1 t2 v2 p2 :
  lawful E -> wide E -> bounded E ls -> run (step E) init ls = Some st ->
  EvNew t1 v1 p1 ∈ st_log st -> EvNew t2 v2 p2 ∈ st_log st ->
  alive E st p1 -> alive E st p2 -> handle_eqb p1 p2 = te_eq E v1 v2.
Proof. exact (λ HL HW, new_eq_iff E HL HW ls st t1 v1 p1 t2 v2 p2). Qed.
Print Assumptions C02_results_eq_iff_arguments_eq.
Example C02_results_example :
  EvNew 1 leaf4 exA ∈ st_log (after exE ex_ls) /\ EvNew 2 leaf5 exA ∈ st_log (after exE ex_ls) /\
  EvNew 1 parent exB ∈ st_log (after exE ex_ls) /\
  te_eq exE leaf4 leaf5 = true /\ te_eq exE leaf4 parent = false.
Proof. split_and!; try done; apply elem_of_list_In; vm_compute; tauto. Qed.

(** C03 *)
Theorem C03_handle_reads_what_was_interned {V : Type} (E : tyenv V) ls st t v p :
  lawful E -> wide E -> bounded E ls -> run (step E) init ls = Some st ->
  EvNew t v p ∈ st_log st -> alive E st p ->
  exists d, data st p = Some d /\ te_eq E v d = true.
Proof. exact (λ HL HW, new_reads E HL HW ls st t v p). Qed.
Print Assumptions C03_handle_reads_what_was_interned.
Example C03_example :
  EvNew 2 leaf5 exA ∈ st_log (after exE ex_ls) /\ alive exE (after exE ex_ls) exA /\
  data (after exE ex_ls) exA = Some leaf4.
Proof.
  split_and!; [apply elem_of_list_In; vm_compute; tauto|by apply alive_b; vm_compute|by vm_compute].
Qed.

Theorem C03_handle_keeps_its_object {V : Type} (E : tyenv V) ls1 ls2 st1 st2 p :
  lawful E -> wide E -> bounded E (ls1 ++ ls2) ->
  run (step E) init ls1 = Some st1 -> run (step E) st1 ls2 = Some st2 ->
  alive E st1 p -> alive E st2 p -> exists d, data st1 p = Some d /\ data st2 p = Some d.
Proof. exact (λ HL HW, same_object E HL HW ls1 ls2 st1 st2 p). Qed.
Print Assumptions C03_handle_keeps_its_object.
(** The first handle to [exA] is dropped in between; the other ones keep it. *)
Example C03_keeps_example :
  let st1 := after exE ex_ls in let st2 := after exE (ex_ls ++ LDrop 1 exA :: steps 1 0 2) in
  run (step exE) st1 (LDrop 1 exA :: steps 1 0 2) = Some st2 /\
  bounded exE (ex_ls ++ LDrop 1 exA :: steps 1 0 2) /\
  alive exE st1 exA /\ alive exE st2 exA /\ handles_to exE st1 exA = 3 /\ handles_to exE st2 exA = 2.
Proof.
  split_and!; [by vm_compute|by apply ex_bounded|by apply alive_b; vm_compute
    |by apply alive_b; vm_compute|by vm_compute|by vm_compute].
Qed.

Theorem C03_reads_consistent {V : Type} (E : tyenv V) ls st :
  lawful E -> wide E -> bounded E ls -> run (step E) init ls = Some st ->
  (forall p d d', EvDeref p d ∈ st_log st -> EvDeref p d' ∈ st_log st -> d = d') /\
  (forall t v p d, EvNew t v p ∈ st_log st -> EvDeref p d ∈ st_log st -> te_eq E v d = true).
Proof. exact (λ HL HW, deref_consistent E HL HW ls st). Qed.
Print Assumptions C03_reads_consistent.
Example C03_reads_example :
  EvDeref exA leaf4 ∈ st_log (after exE (ex_ls ++ ex_reads)) /\
  EvNew 2 leaf5 exA ∈ st_log (after exE (ex_ls ++ ex_reads)).
Proof. split; apply elem_of_list_In; vm_compute; tauto. Qed.

(** C04 *)
Theorem C04_refcount_exact {V : Type} (E : tyenv V) ls st p ks st' :
  lawful E -> wide E -> bounded E ls -> run (step E) init ls = Some st ->
  step E st (LRef p ks) = Next st' ->
  exists k, st_log st' = EvRef k (N.of_nat (handles_to E st k)) :: st_log st /\
    borrow E st p ks = Next k /\ alive E st k.
Proof. exact (λ HL HW, refcount_now E HL HW ls st p ks st'). Qed.
Print Assumptions C04_refcount_exact.
(** Two client handles and one inside [exB]. *)
Example C04_example :
  handles_to exE (after exE ex_ls) exA = 3 /\
  st_log (after exE (ex_ls ++ [LRef exB [exA]])) = EvRef exA 3 :: st_log (after exE ex_ls).
Proof. split; by vm_compute. Qed.

(** C05 *)
Theorem C05_no_leak {V : Type} (E : tyenv V) ls st :
  lawful E -> wide E -> bounded E ls -> no_panic ls -> run (step E) init ls = Some st ->
  quiescent st ->
  NoDup (st_table st) /\
  (forall p, p ∈ st_table st <-> alive E st p) /\
  (forall a c, st_heap st !! a = Some c <->
     exists p, alive E st p /\ p_addr p = a /\ deref st p = Some c) /\
  (forall p, alive E st p -> exists r, r ∈ st_pool st ++ st_gone st /\ owns E st r p) /\
  (st_pool st = [] -> st_gone st = [] -> st_table st = [] /\ st_heap st = ∅).
Proof. exact (λ HL HW, no_leak E HL HW ls st). Qed.
Print Assumptions C05_no_leak.
Example C05_example :
  let st1 := after exE ex_ls in let st2 := after exE (ex_ls ++ ex_drops) in
  no_panic (ex_ls ++ ex_drops) /\ quiescent st1 /\ quiescent st2 /\
  st_table st1 = [exB; exA] /\ st_pool st2 = [] /\ st_gone st2 = [] /\ st_table st2 = [].
Proof.
  split_and!; [by apply no_panic_b; vm_compute|by apply quiescent_b; vm_compute
    |by apply quiescent_b; vm_compute|by vm_compute..].
Qed.

(** C06 *)
Theorem C06_live_handle_pins_object {V : Type} (E : tyenv V) ls st l st' p d :
  lawful E -> wide E -> bounded E (ls ++ [l]) -> run (step E) init ls = Some st ->
  alive E st p -> data st p = Some d -> step E st l = Next st' ->
  p ∈ st_table st /\ p ∈ st_table st' /\ data st' p = Some d /\
  forall t v q, st_log st' = EvNew t v q :: st_log st -> te_eq E v d = true -> q = p.
Proof. exact (λ HL HW, pinned E HL HW ls st l st' p d). Qed.
Print Assumptions C06_live_handle_pins_object.
(** Thread 2's call, given [leaf5], returns while handles to [exA] (reading [leaf4]) live. *)
Example C06_example :
  let ls := removelast ex_ls in
  alive exE (after exE ls) exA /\ data (after exE ls) exA = Some leaf4 /\
  step exE (after exE ls) (LStep 2 0 0) = Next (after exE ex_ls) /\
  st_log (after exE ex_ls) = EvNew 2 leaf5 exA :: st_log (after exE ls).
Proof. split_and!; [by apply alive_b; vm_compute|by vm_compute|by vm_compute|by vm_compute]. Qed.

(** C07 *)
Theorem C07_num_objects_exact {V : Type} (E : tyenv V) ls st t ty :
  lawful E -> wide E -> bounded E ls -> no_panic ls -> run (step E) init ls = Some st ->
  quiescent st -> 0 < te_shards E ->
  exists st' objs,
    run (step E) st (LLen t ty :: replicate (S (te_shards E)) (LStep t 0 0)) = Some st' /\
    quiescent st' /\
    st_log st' = EvLen t ty (length objs) :: st_log st /\
    NoDup objs /\ (forall p, p ∈ objs <-> live_object E st ty p) /\
    (forall p q u v, p ∈ objs -> q ∈ objs -> data st p = Some u -> data st q = Some v ->
       te_eq E u v = true -> p = q).
Proof. exact (λ HL HW, len_exact E HL HW ls st t ty). Qed.
Print Assumptions C07_num_objects_exact.
Example C07_example :
  quiescent (after exE ex_ls) /\ no_panic ex_ls /\ live_object exE (after exE ex_ls) 1 exB /\
  st_log (after exE (ex_ls ++ LLen 3 1 :: steps 3 0 3)) = EvLen 3 1 1 :: st_log (after exE ex_ls).
Proof.
  split_and!; [by apply quiescent_b; vm_compute|by apply no_panic_b; vm_compute| |by vm_compute].
  split; [by apply alive_b; vm_compute|]. exists parent. split; by vm_compute.
Qed.

(** C08, what does hold: the result is the sum of the shard lengths at the moments the
    shards are visited, in increasing order. *)
Theorem C08_num_objects_sums_visits {V : Type} (E : tyenv V) st0 t ty ls st' n rest :
  get_pc st0 t = PFree ->
  run (step E) st0 (LLen t ty :: ls) = Some st' ->
  (forall l1 l2 st1, ls = l1 ++ l2 -> run (step E) st0 (LLen t ty :: l1) = Some st1 ->
     l2 <> [] -> get_pc st1 t <> PFree) ->
  st_log st' = EvLen t ty n :: rest ->
  get_pc st' t = PFree ->
  exists (time : nat -> nat) (at_time : nat -> state V),
    (forall i, i < te_shards E -> time i < length ls /\
       run (step E) st0 (LLen t ty :: take (time i) ls) = Some (at_time i)) /\
    (forall i j, i < j < te_shards E -> time i < time j) /\
    n = shards_total (λ i, shard_len E (at_time i) ty i) (te_shards E).
Proof. exact (len_visits E st0 t ty ls st' n rest). Qed.
Print Assumptions C08_num_objects_sums_visits.
(** A call whose two visits see different states. *)
Example C08_visits_example :
  let ls := LStep 3 0 0 :: LDrop 1 exB :: steps 1 0 6 ++ [LStep 3 0 0; LStep 3 0 0] in
  get_pc (after exE ex_ls) 3 = PFree /\
  st_log (after exE (ex_ls ++ LLen 3 1 :: ls)) = EvLen 3 1 0 :: st_log (after exE ex_ls) /\
  get_pc (after exE (ex_ls ++ LLen 3 1 :: ls)) 3 = PFree.
Proof. split_and!; by vm_compute. Qed.

Theorem C08_num_objects_snapshot_refuted :
  exists (E : tyenv node) pre st0 t ty ls st' rest,
    lawful E /\ (2 <= te_mod E)%N /\ bounded E (pre ++ LLen t ty :: ls) /\
    run (step E) init pre = Some st0 /\ get_pc st0 t = PFree /\
    run (step E) st0 (LLen t ty :: ls) = Some st' /\
    st_log st' = EvLen t ty 0 :: rest /\
    forall l1 l2 st1, ls = l1 ++ l2 -> run (step E) st0 (LLen t ty :: l1) = Some st1 ->
      exists p, live_object E st1 ty p.
Proof. exact len_not_snapshot. Qed.
Print Assumptions C08_num_objects_snapshot_refuted.

(** C09.  The bound of C01 is the best possible: for every number [M] of usize values there
    is an execution with at most [M] handles to any object at any time that has undefined
    behaviour... *)
Theorem C09_bound_is_tight (M : N) : (2 <= M)%N ->
  exists (E : tyenv node) ls,
    lawful E /\ te_mod E = M /\ no_panic ls /\
    (forall ls1 ls2 st1, ls = ls1 ++ ls2 -> run (step E) init ls1 = Some st1 ->
       forall p, (N.of_nat (handles_to E st1 p) <= M)%N) /\
    run (step E) init ls = None.
Proof. exact (overflow_tight M). Qed.
Print Assumptions C09_bound_is_tight.

(** ... and one in which, after the set-up [warm] (one object, one handle [p0]), a single
    thread clones and forgets [M - 1] times, clones, drops one handle and reads the other. *)
Theorem C09_clone_forget_overflow (M : N) : (2 <= M)%N ->
  run (step (nodes 1 M)) init (warm ++ repeat_cf (N.to_nat (M - 1)) ++ tail1) = None.
Proof. exact (overflow_one_thread M). Qed.
Print Assumptions C09_clone_forget_overflow.
Example C09_example :
  run (step (nodes 1 4)) init (warm ++ repeat_cf 3 ++ tail1) = None /\
  run (step (nodes 1 4)) init (warm ++ repeat_cf 2 ++ tail1) <> None.
Proof. split; by vm_compute. Qed.

(** C10.  Without symmetry (reflexivity, transitivity and a compatible Hash kept), an
    execution with few handles and no panics has undefined behaviour, namely a step makes
    the data of an object unreadable while a client holds a handle to it. *)
Theorem C10_lawless_eq_memory_safe_refuted :
  exists (E : tyenv nat) ls,
    (forall v, te_eq E v v = true) /\
    (forall u v w, te_eq E u v = true -> te_eq E v w = true -> te_eq E u w = true) /\
    (forall u v, te_hash E u = te_hash E v /\ te_ty E u = te_ty E v) /\
    (N.of_nat (length ls) < te_mod E)%N /\ no_panic ls /\
    run (step E) init ls = None.
Proof. exact asym_ub. Qed.
Print Assumptions C10_lawless_eq_memory_safe_refuted.

Theorem C10_lawless_eq_pins_object_refuted :
  exists (E : tyenv nat) ls st l st' p d,
    (forall v, te_eq E v v = true) /\
    (forall u v w, te_eq E u v = true -> te_eq E v w = true -> te_eq E u w = true) /\
    (forall u v, te_hash E u = te_hash E v /\ te_ty E u = te_ty E v) /\
    (N.of_nat (length ls) < te_mod E)%N /\ no_panic ls /\
    run (step E) init ls = Some st /\ p ∈ st_pool st /\ data st p = Some d /\
    step E st l = Next st' /\ p ∈ st_pool st' /\ data st' p = None.
Proof. exact asym_frees_live. Qed.
Print Assumptions C10_lawless_eq_pins_object_refuted.

(** The same for an equivalence relation that Hash does not respect. *)
Theorem C10_lawless_hash_memory_safe_refuted :
  exists (E : tyenv nat) ls,
    (forall v, te_eq E v v = true) /\
    (forall u v, te_eq E u v = true -> te_eq E v u = true) /\
    (forall u v w, te_eq E u v = true -> te_eq E v w = true -> te_eq E u w = true) /\
    (N.of_nat (length ls) < te_mod E)%N /\ no_panic ls /\
    run (step E) init ls = None.
Proof. exact badhash_ub. Qed.
Print Assumptions C10_lawless_hash_memory_safe_refuted.

(** C11 *)
Theorem C11_no_deadlock {V : Type} (E : tyenv V) ls st t :
  lawful E -> wide E -> bounded E ls -> run (step E) init ls = Some st -> get_pc st t <> PFree ->
  exists t' a st', get_pc st t' <> PFree /\ step E st (LStep t' a 0) = Next st'.
Proof. exact (λ HL HW, never_deadlocks E HL HW ls st t). Qed.
Print Assumptions C11_no_deadlock.
(** Thread 2 waits for the shard thread 1 has locked. *)
Example C11_example :
  let ls := ex_ls ++ [LNew 1 KSized leaf4; LStep 1 0 0; LNew 2 KSized leaf5] in
  bounded exE ls /\ get_pc (after exE ls) 2 <> PFree /\
  step exE (after exE ls) (LStep 2 0 0) = Blocked.
Proof. split_and!; [by apply ex_bounded|by vm_compute|by vm_compute]. Qed.

(** C12 *)
Theorem C12_calls_can_finish {V : Type} (E : tyenv V) ls st :
  lawful E -> wide E -> bounded E ls -> no_panic ls -> run (step E) init ls = Some st ->
  (forall p, (N.of_nat (handles_to E st p + calls st) < te_mod E)%N) ->
  exists ls' st', Forall (λ l, exists t a, l = LStep t a 0) ls' /\
    run (step E) st ls' = Some st' /\ quiescent st' /\
    forall t v, interning st t v ->
      exists p l1 l2, st_log st' = l1 ++ EvNew t v p :: l2 ++ st_log st.
Proof. exact (λ HL HW, calls_can_finish E HL HW ls st). Qed.
Print Assumptions C12_calls_can_finish.
(** Thread 1 has dropped the last handle to its object but not removed it yet; thread 2 is
    interning an Eq value and will have to go round its loop. *)
Example C12_example :
  let ls := intern 1 10 KSized leaf4 ++ [LDrop 1 exA; LStep 1 0 0; LNew 2 KSized leaf5; LStep 2 0 0; LStep 2 0 0] in
  no_panic ls /\ interning (after exE ls) 2 leaf5 /\
  get_pc (after exE ls) 2 = PInc KSized leaf5 None exA 0 /\ get_pc (after exE ls) 1 = PWork [IRemove exA] None /\
  (forall p, (N.of_nat (handles_to exE (after exE ls) p + calls (after exE ls)) < te_mod exE)%N).
Proof.
  split_and!; [by apply no_panic_b; vm_compute|by vm_compute|by vm_compute|by vm_compute|].
  apply few. by vm_compute.
Qed.

(** C13.  [st0] is about to remove [p] (the count reached 0) when Hash/Eq panics. *)
Theorem C13_panic_in_last_drop_poisons {V : Type} (E : tyenv V) ls1 st0 t0 p w r d st1 ls2 ls3 st2 st3 :
  lawful E -> wide E -> bounded E (ls1 ++ LPanic t0 :: ls2 ++ ls3) ->
  run (step E) init ls1 = Some st0 ->
  get_pc st0 t0 = PWork (IRemove p :: w) r -> data st0 p = Some d ->
  step E st0 (LPanic t0) = Next st1 ->
  run (step E) st1 ls2 = Some st2 -> run (step E) st2 ls3 = Some st3 ->
  p ∈ st_table st3 /\ data st3 p = Some d /\ handles_to E st3 p = 0 /\
  (exists new, st_log st3 = new ++ st_log st1 /\
     forall t v q, EvNew t v q ∈ new -> te_eq E v d = false) /\
  (forall t v, interning st2 t v -> te_eq E v d = true -> LPanic t ∉ ls3 -> interning st3 t v).
Proof. exact (λ HL HW, panic_poison E HL HW ls1 st0 t0 p w r d st1 ls2 ls3 st2 st3). Qed.
Print Assumptions C13_panic_in_last_drop_poisons.
Example C13_example :
  let ls1 := intern 1 10 KSized leaf4 ++ [LDrop 1 exA; LStep 1 0 0] in
  let ls2 := [LNew 2 KSized leaf5; LStep 2 0 0] in
  get_pc (after exE ls1) 1 = PWork [IRemove exA] None /\ data (after exE ls1) exA = Some leaf4 /\
  step exE (after exE ls1) (LPanic 1) = Next (after exE (ls1 ++ [LPanic 1])) /\
  interning (after exE (ls1 ++ LPanic 1 :: ls2)) 2 leaf5 /\ te_eq exE leaf5 leaf4 = true /\
  get_pc (after exE (ls1 ++ LPanic 1 :: ls2 ++ steps 2 0 100)) 2 <> PFree.
Proof. split_and!; by vm_compute. Qed.

(** C14 *)
Theorem C14_children_alive {V : Type} (E : tyenv V) ls st p d k :
  lawful E -> wide E -> bounded E ls -> run (step E) init ls = Some st ->
  p ∈ st_table st -> data st p = Some d -> k ∈ te_kids E d ->
  alive E st k /\ k ∈ st_table st /\ exists d', data st k = Some d'.
Proof. exact (λ HL HW, kids_alive E (lawful_coherent E HL) HW ls st p d k). Qed.
Print Assumptions C14_children_alive.
Example C14_children_example :
  exB ∈ st_table (after exE ex_ls) /\ data (after exE ex_ls) exB = Some parent /\ exA ∈ te_kids exE parent.
Proof. split_and!; [apply elem_of_list_In; vm_compute; tauto|by vm_compute|by left]. Qed.

Theorem C14_released_outside_locks {V : Type} (E : tyenv V) ls st l st' p :
  lawful E -> wide E -> bounded E ls -> run (step E) init ls = Some st ->
  step E st l = Next st' -> handles_to E st' p < handles_to E st p ->
  exists t a i, l = LStep t a i /\ forall lk, st_locks st !! lk <> Some t.
Proof. exact (λ HL HW, destroy_unlocked E (lawful_coherent E HL) HW ls st l st' p). Qed.
Print Assumptions C14_released_outside_locks.
Example C14_released_example :
  let ls := ex_ls ++ LDrop 1 exB :: steps 1 0 3 in
  handles_to exE (after exE ls) exA = 3 /\ handles_to exE (after exE (ls ++ [LStep 1 0 0])) exA = 2.
Proof. split; by vm_compute. Qed.

Theorem C14_everything_freed {V : Type} (E : tyenv V) ls st :
  lawful E -> wide E -> bounded E ls -> no_panic ls -> run (step E) init ls = Some st ->
  (forall p, (N.of_nat (handles_to E st p + calls st) < te_mod E)%N) ->
  st_pool st = [] -> st_gone st = [] -> (forall t v, ~ interning st t v) ->
  exists ls' st', Forall (λ l, exists t a, l = LStep t a 0) ls' /\
    run (step E) st ls' = Some st' /\ quiescent st' /\ st_table st' = [] /\ st_heap st' = ∅.
Proof. exact (λ HL HW, all_freed E HL HW ls st). Qed.
Print Assumptions C14_everything_freed.
(** The last handle to the parent is being dropped; its child is still interned. *)
Example C14_freed_example :
  let ls := ex_ls ++ LDrop 1 exA :: steps 1 0 2 ++ LDrop 2 exA :: steps 2 0 2 ++ [LDrop 1 exB] in
  no_panic ls /\ st_pool (after exE ls) = [] /\ st_gone (after exE ls) = [] /\
  st_table (after exE ls) = [exB; exA] /\ get_pc (after exE ls) 1 = PWork [IDrop exB] None /\
  st_heap (after exE (ls ++ steps 1 0 9)) = ∅.
Proof.
  split_and!; [by apply no_panic_b; vm_compute|by vm_compute..|].
  apply (bool_decide_unpack _). by vm_compute.
Qed.

(** C15 *)
Theorem C15_constructors_agree {V : Type} (E : tyenv V) {A Q : Type} (of_slice : nat -> list A -> V) (conv : Q -> V)
    ls st t1 (c1 : ctor V A Q) p1 t2 (c2 : ctor V A Q) p2 :
  lawful E -> wide E -> bounded E ls -> run (step E) init ls = Some st ->
  EvNew t1 (snd (call of_slice conv c1)) p1 ∈ st_log st ->
  EvNew t2 (snd (call of_slice conv c2)) p2 ∈ st_log st ->
  alive E st p1 -> alive E st p2 ->
  handle_eqb p1 p2 = te_eq E (ctor_content of_slice conv c1) (ctor_content of_slice conv c2).
Proof. exact (λ HL HW, ctors_agree E HL HW of_slice conv ls st t1 c1 p1 t2 c2 p2). Qed.
Print Assumptions C15_constructors_agree.
(** Contents are lists of numbers; a boxed slice, a vector with spare capacity and [new]. *)
Definition ex_slice (ty : nat) (l : list nat) : node := Node ty (list_sum l) [].
Definition ex_c1 : ctor node nat nat := CFrom 0 (SCowO [1; 3; 9] 2).
Definition ex_c2 : ctor node nat nat := CFromRef 5.
Definition ex_c3 : ctor node nat nat := CFrom 0 (SBox [1; 4]).
Definition ex_conv (n : nat) : node := Node 0 n [].
Definition ex_ctors : list (label node) :=
  construct ex_slice ex_conv 1 ex_c1 :: steps 1 10 6 ++ construct ex_slice ex_conv 2 ex_c2 :: steps 2 0 4
  ++ construct ex_slice ex_conv 1 ex_c3 :: steps 1 0 4.
Example C15_example :
  st_log (after exE ex_ctors) = [EvNew 1 (Node 0 5 []) exA; EvNew 2 (Node 0 5 []) exA; EvNew 1 (Node 0 4 []) exA] /\
  ctor_content ex_slice ex_conv ex_c1 = Node 0 4 [] /\ ctor_content ex_slice ex_conv ex_c2 = Node 0 5 [] /\
  alive exE (after exE ex_ctors) exA.
Proof. split_and!; [by vm_compute..|by apply alive_b; vm_compute]. Qed.

(** Every constructor can be called, and interns its content; handles inside the content move
    in. *)
Theorem C15_constructor_starts {V : Type} (E : tyenv V) {A Q : Type} (of_slice : nat -> list A -> V) (conv : Q -> V)
    st t (c : ctor V A Q) pl :
  get_pc st t = PFree -> (of_dst c -> te_kids E (ctor_content of_slice conv c) = []) ->
  rem_all (te_kids E (ctor_content of_slice conv c)) (st_pool st) = Some pl ->
  exists st', step E st (construct of_slice conv t c) = Next st' /\
    interning st' t (ctor_content of_slice conv c) /\ st_pool st' = pl.
Proof. exact (ctor_starts E of_slice conv st t c pl). Qed.
Print Assumptions C15_constructor_starts.
(** [from_ref] with a conversion giving a value that owns a handle. *)
Example C15_starts_example :
  let st := after exE (intern 1 10 KSized leaf4) in
  get_pc st 1 = PFree /\ rem_all (te_kids exE parent) (st_pool st) = Some [] /\
  match step exE st (construct ex_slice (λ _ : unit, parent) 1 (CFromRef ())) with
  | Next st' => interning st' 1 parent | _ => False end.
Proof. split_and!; by vm_compute. Qed.

(** C17 *)
Theorem C17_shrink_unobservable {V : Type} (E : tyenv V) ls :
  exists ls', sublist ls' ls /\ Forall (λ l, ~ is_shrink l) ls' /\
    match run (step E) init ls with
    | None => run (step E) init ls' = None
    | Some st => exists st', run (step E) init ls' = Some st' /\
        st_heap st' = st_heap st /\ st_table st' = st_table st /\ st_pool st' = st_pool st /\
        st_gone st' = st_gone st /\ st_log st' = st_log st /\ st_locks st' = st_locks st /\
        forall t, get_pc st' t = match get_pc st t with PShrink _ _ => PFree | x => x end
    end.
Proof. exact (shrink_erasable E ls). Qed.
Print Assumptions C17_shrink_unobservable.
(** A shrink running while thread 2 interns. *)
Example C17_example :
  let ls := intern 1 10 KSized leaf4 ++ [LShrink 3 0; LNew 2 KSized leaf5; LStep 3 0 0; LStep 2 0 0; LStep 3 0 0] ++ steps 2 0 3 ++ [LStep 3 0 0] in
  let ls' := intern 1 10 KSized leaf4 ++ [LNew 2 KSized leaf5; LStep 2 0 0] ++ steps 2 0 3 in
  sublist ls' ls /\ st_log (after exE ls) = st_log (after exE ls') /\ st_log (after exE ls) <> [].
Proof.
  split_and!; [|by vm_compute|by vm_compute]. simpl.
  repeat (apply sublist_skip || (apply sublist_cons; apply sublist_skip) || apply sublist_nil
    || apply sublist_cons).
Qed.

(** C50 *)
Theorem C50_compare_with_plain {V : Type} (E : tyenv V) {A Q : Type} (of_slice : nat -> list A -> V) (conv : Q -> V)
    ls st p ty (s : source A) t q :
  lawful E -> wide E -> bounded E ls -> run (step E) init ls = Some st -> alive E st p ->
  exists b, handle_eq_source E of_slice st p ty s = Some b /\
    source_eq_handle E of_slice st ty s p = Some b /\
    handle_ne_source E of_slice st p ty s = Some (negb b) /\
    source_ne_handle E of_slice st ty s p = Some (negb b) /\
    (forall d, data st p = Some d -> b = te_eq E d (of_slice ty (source_contents s))) /\
    (EvNew t (snd (call of_slice conv (CFrom ty s))) q ∈ st_log st -> alive E st q ->
     handle_eqb p q = b).
Proof. exact (λ HL HW, compare_source E HL HW of_slice conv ls st p ty s t q). Qed.
Print Assumptions C50_compare_with_plain.
Example C50_example :
  handle_eq_source exE ex_slice (after exE ex_ctors) exA 0 (SVec [2; 2; 7] 2) = Some true /\
  source_ne_handle exE ex_slice (after exE ex_ctors) 0 (SArc [2; 2; 7]) exA = Some true.
Proof. split; by vm_compute. Qed.


(** Property C74: running calls come to an end when no new ones are made
    (src/arc.rs 216-262, 293-340; src/arc_dst.rs 66-119). *)
From stdpp Require Import gmap list numbers.
From Verif Require Import Base ArcModel ArcSpec ArcLive ArcFinal ArcEx ArcWit SpinSpec FairSpec Fair FairEx.

(** ** C74.  From a reachable state, without panics and with room in the counts, let the running
    calls take steps in any order, such that a thread that is able to step again and again does
    step.  Then there is a time at which all calls have returned, and every value that was being
    interned has its handle. *)
Theorem C74_calls_return {V : Type} (E : tyenv V) ls st s x :
  coherent E -> wide E -> bounded E ls -> no_panic ls -> run (step E) init ls = Some st ->
  (forall p, (N.of_nat (handles_to E st p + calls st) < te_mod E)%N) ->
  execution E st s x -> only_steps s -> strongly_fair E s x ->
  exists n, quiescent (x n) /\ (forall m, n <= m -> x m = x n) /\
    forall t v, interning st t v ->
      exists p l1 l2, st_log (x n) = l1 ++ EvNew t v p :: l2 ++ st_log st.
Proof. exact (λ HC HW, calls_return E HC HW ls st s x). Qed.
Print Assumptions C74_calls_return.
(** Thread 1 has dropped the last handle to [exA]; thread 2 has found it and must look again,
    thread 3 interns an equal value too.  The three threads take turns: thread 3 finds [exA] as
    well, and later finds its own box beaten by that of thread 2. *)
Definition f_ls : list (label node) :=
  intern 1 10 KSized leaf4 ++
  [LDrop 1 exA; LStep 1 0 0; LNew 2 KSized leaf5; LStep 2 0 0; LStep 2 0 0; LNew 3 KSized leaf4].
Definition f_s (n : nat) : label node := LStep (1 + n mod 3) (30 + n) 0.
Example C74_example :
  let st := after exE f_ls in let x := attempts exE st f_s in
  lawful exE /\ wide exE /\ bounded exE f_ls /\ no_panic f_ls /\ run (step exE) init f_ls = Some st /\
  (forall p, (N.of_nat (handles_to exE st p + calls st) < te_mod exE)%N) /\
  execution exE st f_s x /\ only_steps f_s /\ strongly_fair exE f_s x /\
  interning st 2 leaf5 /\ interning st 3 leaf4 /\ removing st 1 exA /\
  get_pc (x 9) 3 = PInc KSized leaf4 None exA 0 /\ get_pc (x 33) 3 = POcc KSized leaf4 (Ptr 53 2) /\
  calls (x 60) = 0.
Proof.
  intros st x.
  assert (coherent exE) as HC by apply lawful_coherent, nodes_lawful.
  assert (bounded exE f_ls) as Hb by (by apply ex_bounded; vm_compute).
  assert (no_panic f_ls) as Hn by (by apply no_panic_b; vm_compute).
  assert (run (step exE) init f_ls = Some st) as Hr by (by apply after_run; vm_compute).
  assert (forall p, (N.of_nat (handles_to exE st p + calls st) < te_mod exE)%N) as Hroom by (apply few; by vm_compute).
  assert (only_steps f_s) as Hon by (intros n; unfold f_s; eauto).
  assert (execution exE st f_s x) as Hex by (by apply (reached_execution exE f_ls)).
  assert (calls (x 60) = 0) as Hend by by vm_compute.
  assert (get_pc st 1 = PWork [IRemove exA] None) as Hpc by by vm_compute.
  split_and!; [apply nodes_lawful|done|done|done|done|done|done|done|by eapply ended_fair|by vm_compute|by vm_compute| | | |done].
  - unfold removing. rewrite Hpc. by left.
  - by vm_compute.
  - by vm_compute.
Qed.

(** Whatever the scheduler does, only a bounded number of steps are not part of a search: the
    running calls cannot keep each other busy for ever except by searching. *)
Theorem C74_bounded_work {V : Type} (E : tyenv V) ls st :
  coherent E -> wide E -> bounded E ls -> no_panic ls -> run (step E) init ls = Some st ->
  (forall p, (N.of_nat (handles_to E st p + calls st) < te_mod E)%N) ->
  exists B, forall ls', Forall (λ l, exists t a i, l = LStep t a i) ls' -> other_steps E st ls' <= B.
Proof. exact (λ HC HW, work_bounded E HC HW ls st). Qed.
Print Assumptions C74_bounded_work.
(** In the example above, 14 of the first 60 attempts are steps other than searches. *)
Example C74_bounded_example :
  let st := after exE f_ls in let ls' := f_s <$> seq 0 60 in
  run (step exE) init f_ls = Some st /\ Forall (λ l, exists t a i, l = LStep t a i) ls' /\
  other_steps exE st ls' = 14.
Proof.
  split_and!; [by apply after_run; vm_compute| |by vm_compute].
  apply list.Forall_forall. intros l (n&->&_)%elem_of_list_fmap. unfold f_s. eauto.
Qed.

(** It is not enough that a thread steps if it can step from some time on: thread 1 may be given
    its turns to remove the object only when the shard is locked by thread 2, which looks for
    that object and finds it again and again. *)
Theorem C74_weak_fairness_refuted :
  exists (E : tyenv node) ls st s x,
    lawful E /\ te_mod E = (2 ^ 64)%N /\ bounded E ls /\ no_panic ls /\ run (step E) init ls = Some st /\
    (forall p, (N.of_nat (handles_to E st p + calls st) < te_mod E)%N) /\
    execution E st s x /\ only_steps s /\ weakly_fair E s x /\
    forall n, removing (x n) 1 exA /\ interning (x n) 2 leaf4.
Proof. exact weak_livelock. Qed.
Print Assumptions C74_weak_fairness_refuted.

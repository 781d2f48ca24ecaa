(** Property C54: the wait of an intern call for an object that is being removed
    (src/arc.rs 225-243 and 293-322, src/arc_dst.rs 76-94). *)
From stdpp Require Import gmap list numbers.
From Verif Require Import Base ArcModel ArcSpec ArcFinal ArcEx NestModel SpinSpec SpinFinal SpinWit.

(** ** C54.  A call that is about to search, finds its shard unlocked and no equal object without
    handles has its result after at most five steps. *)
Theorem C54_undisturbed_call {V : Type} (E : tyenv V) ls st t k v b a i :
  coherent E -> wide E -> bounded E ls -> run (step E) init ls = Some st ->
  get_pc st t = PLookup k v b -> st_locks st !! lock_of E v = None ->
  (forall p d, p ∈ st_table st -> data st p = Some d -> te_eq E v d = true -> alive E st p) ->
  st_heap st !! a = None ->
  exists n st' p w, n <= 5 /\ run (step E) st (replicate n (LStep t a i)) = Some st' /\
    get_pc st' t = PWork w (Some (v, p)).
Proof. exact (λ HC HW, undisturbed E HC HW ls st t k v b a i). Qed.
Print Assumptions C54_undisturbed_call.
(** Thread 2 looks for [leaf5], which is equal to the interned [leaf4], and thread 3 for a value
    nobody has interned. *)
Definition ex_two : list (label node) :=
  intern 1 10 KSized leaf4 ++ [LNew 2 KDst leaf5; LNew 3 KSized (Node 0 8 [])].
Example C54_undisturbed_example :
  let st := after exE ex_two in
  lawful exE /\ wide exE /\ bounded exE ex_two /\ run (step exE) init ex_two = Some st /\
  get_pc st 2 = PLookup KDst leaf5 None /\ get_pc st 3 = PLookup KSized (Node 0 8 []) None /\
  st_locks st !! lock_of exE leaf5 = None /\ st_locks st !! lock_of exE (Node 0 8 []) = None /\ st_table st = [exA] /\ data st exA = Some leaf4 /\ alive exE st exA /\ st_heap st !! 20 = None.
Proof.
  split_and!; [apply nodes_lawful|done|by apply ex_bounded; vm_compute|by apply after_run; vm_compute|by vm_compute|by vm_compute|by vm_compute|by vm_compute|by vm_compute|by vm_compute| |by vm_compute].
  apply alive_b. by vm_compute.
Qed.

(** A call goes round again after finding count 0 only if nobody has a handle to the equal object
    it found, and another thread is about to remove it or gave up because Hash or Eq panicked. *)
Theorem C54_retry_has_a_cause {V : Type} (E : tyenv V) ls st t k v b p :
  coherent E -> wide E -> bounded E ls -> run (step E) init ls = Some st ->
  get_pc st t = PInc k v b p 0 ->
  exists d, data st p = Some d /\ te_eq E v d = true /\ p ∈ st_table st /\ ~ alive E st p /\
    (p ∈ st_zombies st \/ exists u, u <> t /\ removing st u p).
Proof. exact (λ HC HW, retry_cause E HC HW ls st t k v b p). Qed.
Print Assumptions C54_retry_has_a_cause.
(** Thread 1 has dropped the only handle; thread 2 finds the object. *)
Definition ex_drop_find : list (label node) :=
  intern 1 10 KSized leaf4 ++ [LDrop 1 exA; LStep 1 0 0; LNew 2 KSized leaf5; LStep 2 0 0; LStep 2 0 0].
Example C54_retry_example :
  let st := after exE ex_drop_find in
  bounded exE ex_drop_find /\ run (step exE) init ex_drop_find = Some st /\
  get_pc st 2 = PInc KSized leaf5 None exA 0 /\ removing st 1 exA.
Proof.
  split_and!; [by apply ex_bounded; vm_compute|by apply after_run; vm_compute|by vm_compute|].
  assert (get_pc (after exE ex_drop_find) 1 = PWork [IRemove exA] None) as Hpc by by vm_compute.
  unfold removing. rewrite Hpc. by left.
Qed.

(** While the thread that has dropped the last handle does nothing, no call for an equal value
    returns, whatever the other threads do. *)
Theorem C54_waits_for_the_dropper {V : Type} (E : tyenv V) ls1 ls2 st1 st2 t0 p d t v :
  lawful E -> wide E -> bounded E (ls1 ++ ls2) ->
  run (step E) init ls1 = Some st1 -> run (step E) st1 ls2 = Some st2 ->
  (forall l, l ∈ ls2 -> actor l <> Some t0) -> removing st1 t0 p -> data st1 p = Some d ->
  te_eq E v d = true -> interning st1 t v -> LPanic t ∉ ls2 -> interning st2 t v.
Proof.
  exact (λ HL HW, waits_for_dropper E (lawful_coherent E HL) HW (law_trans E HL) ls1 ls2 st1 st2 t0 p d t v).
Qed.
Print Assumptions C54_waits_for_the_dropper.
Example C54_waits_example :
  let st := after exE ex_drop_find in let more := steps 2 0 100 in
  bounded exE (ex_drop_find ++ more) /\ run (step exE) init ex_drop_find = Some st /\
  run (step exE) st more = Some (after exE (ex_drop_find ++ more)) /\
  Forall (λ l, actor l <> Some 1) more /\ removing st 1 exA /\ data st exA = Some leaf4 /\
  interning st 2 leaf5.
Proof.
  split_and!; [by apply ex_bounded; vm_compute|by apply after_run; vm_compute| | | |by vm_compute..].
  - assert (run (step exE) init ex_drop_find = Some (after exE ex_drop_find)) as H by (by apply after_run; vm_compute).
    assert (run (step exE) init (ex_drop_find ++ steps 2 0 100) = Some (after exE (ex_drop_find ++ steps 2 0 100)))
      as H2 by (by apply after_run; vm_compute).
    by rewrite run_app, H in H2.
  - by apply Forall_replicate.
  - assert (get_pc (after exE ex_drop_find) 1 = PWork [IRemove exA] None) as Hpc by by vm_compute.
    unfold removing. rewrite Hpc. by left.
Qed.

(** It is not true that every intern call returns if all threads keep running: thread 2 may find
    the object that thread 1 is removing each time, while thread 1 interns and drops for ever.
    There is never more than one handle, and nobody panics or is blocked. *)
Theorem C54_calls_return_if_fair_refuted :
  exists (E : tyenv node) (s : nat -> label node) (x : nat -> state node),
    lawful E /\ te_mod E = (2 ^ 64)%N /\ infinite E s x /\ fair_to s 1 /\ fair_to s 2 /\
    (forall n, match s n with
               | LNew t _ v => (t = 1 \/ t = 2) /\ v = leaf4
               | LDrop t _ | LShrink t _ | LStep t _ _ => t = 1 \/ t = 2
               | _ => False
               end) /\
    s 3 = LNew 2 KSized leaf4 /\ (forall n, 3 < n -> interning (x n) 2 leaf4) /\
    (forall n p, handles_to E (x n) p <= 1) /\
    (forall k, exists n, k <= length (st_log (x n)) /\
       forall e, e ∈ st_log (x n) -> exists p, e = EvNew 1 leaf4 p).
Proof. exact starvation. Qed.
Print Assumptions C54_calls_return_if_fair_refuted.

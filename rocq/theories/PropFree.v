(** Memory in use and nesting of destructors of ArcIntern: property C67.  Statements only; vocabulary
    in FreeSpec.v and SpinSpec.v. *)
From stdpp Require Import gmap list numbers.
From Verif Require Import Base ArcModel ArcSpec ArcReach ArcFinal ArcEx SpinSpec FreeSpec FreeProof FreeEx.

(** At every moment each allocation is in a table or owned by one thread, once. *)
Theorem C67_memory {V : Type} (E : tyenv V) ls st :
  coherent E -> wide E -> bounded E ls -> run (step E) init ls = Some st ->
  NoDup (p_addr <$> st_table st ++ boxes st) /\
  (forall a, is_Some (st_heap st !! a) <-> a ∈ p_addr <$> st_table st ++ boxes st) /\
  size (st_heap st) = length (st_table st) + length (boxes st).
Proof. exact (λ HC HW, memory E HC HW ls st). Qed.
Print Assumptions C67_memory.

(** An entry of a table has a handle, or one thread is about to remove it. *)
Theorem C67_entries {V : Type} (E : tyenv V) ls st p :
  coherent E -> wide E -> bounded E ls -> no_panic ls -> run (step E) init ls = Some st ->
  p ∈ st_table st -> ~ alive E st p ->
  exists t, removing st t p /\ forall t', removing st t' p -> t' = t.
Proof. exact (λ HC HW, entries E HC HW ls st p). Qed.
Print Assumptions C67_entries.
(** Thread 1 drops the parent and then, inside that, is to remove the leaf, while thread 2 has made a box. *)
Example C67_memory_example :
  let ls := intern 1 10 KSized leaf4 ++ intern 1 20 KSized parent ++ LDrop 1 exB :: steps 1 0 4 ++
    LNew 2 KSized (Node 0 8 []) :: steps 2 30 2 in
  let st := after exE ls in
  bounded exE ls /\ no_panic ls /\ run (step exE) init ls = Some st /\
  st_table st = [exA] /\ boxes st = [exB; Ptr 30 2] /\ (map_to_list (st_heap st)).*1 = [20; 10; 30] /\
  removing st 1 exA /\ nested st 1 = [exB].
Proof.
  split_and!; [apply short_bounded; [apply lawful_coherent, nodes_lawful|unfold wide; simpl; lia|by vm_compute]
  |by apply no_panic_b; vm_compute|apply after_run; by vm_compute|by vm_compute..| |by vm_compute].
  unfold removing. vm_compute. left.
Qed.

(** The boxes whose destructors a thread is in: a handle to each of them was inside the value of the
    next one.  Values are interned before what contains them. *)
Theorem C67_nesting {V : Type} (E : tyenv V) ls st t i q q' :
  coherent E -> wide E -> bounded E ls -> run (step E) init ls = Some st ->
  nested st t !! i = Some q -> nested st t !! S i = Some q' ->
  contained E ls q' q /\ p_ser q < p_ser q'.
Proof. exact (λ HC HW, nesting E HC HW ls st t i q q'). Qed.
Print Assumptions C67_nesting.
Example C67_nesting_example :
  let ls := intern 1 10 KSized leaf4 ++ intern 1 20 KSized parent ++ LDrop 1 exB :: steps 1 0 6 in
  bounded exE ls /\ run (step exE) init ls = Some (after exE ls) /\ nested (after exE ls) 1 = [exA; exB].
Proof.
  split_and!; [apply short_bounded; [apply lawful_coherent, nodes_lawful|unfold wide; simpl; lia|by vm_compute]
  |apply after_run; by vm_compute|by vm_compute].
Qed.

(** Dropping is recursive: where [p :: ps] are objects with one handle each, the client's and the first one in
    the object before, dropping [p] leads to [length (p :: ps)] destructors inside each other. *)
Theorem C67_depth {V : Type} (E : tyenv V) ls st t p ps :
  coherent E -> wide E -> bounded E ls -> run (step E) init ls = Some st ->
  get_pc st t = PFree -> (forall l, st_locks st !! l = None) -> p ∈ st_pool st -> single E st (p :: ps) ->
  exists st', run (step E) st (LDrop t p :: replicate (3 * length (p :: ps)) (LStep t 0 0)) = Some st' /\
    nested st' t = rev (p :: ps).
Proof. exact (λ HC HW, deep E HC HW ls st t p ps). Qed.
Print Assumptions C67_depth.
Example C67_depth_example :
  let st := after exE (intern 1 10 KSized leaf4 ++ intern 1 20 KSized parent) in
  get_pc st 1 = PFree /\ st_locks st = ∅ /\ st_pool st = [exB] /\ single exE st [exB; exA].
Proof.
  split_and!; [by vm_compute|apply (bool_decide_unpack _); by vm_compute|by vm_compute|].
  apply (single_cons _ _ exB parent exA []); [by vm_compute..|].
  apply (single_one _ _ exA leaf4); by vm_compute.
Qed.

(** There is no limit to it, even in one thread and without panics. *)
Theorem C67_depth_unbounded (n : nat) : exists (E : tyenv node) ls st t,
  lawful E /\ wide E /\ (N.of_nat (length ls) < te_mod E)%N /\ no_panic ls /\
  run (step E) init ls = Some st /\ length (nested st t) = n.
Proof. exact (unbounded n). Qed.
Print Assumptions C67_depth_unbounded.

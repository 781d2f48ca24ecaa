(** Property C51, second half: the operations given to each step of RaceModel (src/arc.rs 207-325,
    src/arc_dst.rs 66-119) account for everything that it does, so that the absence of data
    races is not due to an access that was left out.  Vocabulary: RaceAccSpec.v. *)
From stdpp Require Import gmap list numbers.
From Verif Require Import Base ArcModel ArcSpec ArcEx RaceModel RaceSpec RaceEx RaceAccSpec RaceAcc RaceAccEx.

(** Data: if a step is not said to read, create or destroy object [k], then with other data in
    [k] (that belongs to the same shard of the same table) it does the same. *)
Theorem C51_reads_data {V} (E : tyenv V) (O : orders) ls s l s' k v :
  coherent E -> wide E -> acquires (o_sub O) = true -> releases (o_sub O) = true -> rbounded E O ls ->
  run (rstep E O) rinit ls = Some s -> rstep E O s l = Next s' ->
  ~ touches (ops E O s l) k TRead -> ~ touches (ops E O s l) k TWrite ->
  (forall a c d, st_heap (r_st s) !! a = Some c -> c_ser c = k -> c_data c = Some d -> lock_of E v = lock_of E d) ->
  rstep E O (poke (poke_data k v) s) l = Next (poke (poke_data k v) s').
Proof. exact (λ HL HW Ha Hr Hb Hs, rrun_reads_data E O s l s' k v (rrun_inv E O ls s HL HW Ha Hr Hb Hs)). Qed.
Print Assumptions C51_reads_data.
(** The search of thread 2 in shard 1 does not read object 0. *)
Example C51_reads_data_case :
  let s := acc_s 2 in
  exists s', rstep exE code_orders s acc_l = Next s' /\
    ~ touches (ops exE code_orders s acc_l) 0 TRead /\ ~ touches (ops exE code_orders s acc_l) 0 TWrite /\
    touches (ops exE code_orders s acc_l) 1 TRead /\
    data (r_st s) exA = Some leaf4 /\ data (r_st (poke (poke_data 0 leaf5) s')) exA = Some leaf5 /\
    (forall a c d, st_heap (r_st s) !! a = Some c -> c_ser c = 0 -> c_data c = Some d -> lock_of exE leaf5 = lock_of exE d).
Proof.
  exists (acc_s 3). split_and!; [apply acc_step; lia|apply untouched; by vm_compute|apply untouched; by vm_compute| |by vm_compute|by vm_compute|apply same_lock; by vm_compute].
  exists (MTouch [(1, TRead)]). split; [|apply elem_of_list_here].
  set (x := ops _ _ _ _). vm_compute in x. subst x. apply elem_of_list_here.
Qed.
(** These states are reachable, with the orderings of the code. *)
Example C51_acc_hyps_case : forall n, n <= 5 ->
  coherent exE /\ wide exE /\ acquires (o_sub code_orders) = true /\ releases (o_sub code_orders) = true /\
  rbounded exE code_orders (acc_ls n) /\ run (rstep exE code_orders) rinit (acc_ls n) = Some (acc_s n).
Proof. exact acc_hyps. Qed.

(** Count: if a step is not said to operate on the count of [k], nor to create or destroy [k],
    then with another count in [k] it does the same. *)
Theorem C51_reads_count {V} (E : tyenv V) (O : orders) s l s' k n :
  rstep E O s l = Next s' ->
  ~ touches (ops E O s l) k TAtomic -> ~ touches (ops E O s l) k TWrite ->
  rstep E O (poke (poke_count k n) s) l = Next (poke (poke_count k n) s').
Proof. exact (λ Hs H1 H2, erase_ops_count E O s l s' k n (conj H1 H2) Hs). Qed.
Print Assumptions C51_reads_count.
(** Reading data through a handle does not look at the count. *)
Example C51_reads_count_case :
  let s := acc_s 0 in let l := RDeref 1 0 [] in
  exists s', rstep exE code_orders s l = Next s' /\
    ~ touches (ops exE code_orders s l) 0 TAtomic /\ ~ touches (ops exE code_orders s l) 0 TWrite /\
    touches (ops exE code_orders s l) 0 TRead.
Proof.
  exists (rafter exE code_orders (acc_ls 0 ++ [RDeref 1 0 []])). split_and!; [by apply rafter_step; vm_compute|apply untouched; by vm_compute..|].
  exists (MTouch [(0, TRead)]). split; [|apply elem_of_list_here].
  set (x := ops _ _ _ _). vm_compute in x. subst x. apply elem_of_list_here.
Qed.

(** Writes: objects are created and destroyed by writes, and counts changed by
    read-modify-writes; no data is changed. *)
Theorem C51_writes {V} (E : tyenv V) (O : orders) s l s' :
  rstep E O s l = Next s' -> heap_written s (ops E O s l) s'.
Proof. exact (rstep_written E O s l s'). Qed.
Print Assumptions C51_writes.
(** A clone changes a count, and the second step of the call creates an object. *)
Example C51_writes_case :
  (exists s', rstep exE code_orders (acc_s 0) (RClone 1 0 [] 5) = Next s' /\
     st_heap (r_st (acc_s 0)) !! 10 = Some (Cell 0 2 (Some leaf4)) /\ st_heap (r_st s') !! 10 = Some (Cell 0 3 (Some leaf4)) /\
     ops exE code_orders (acc_s 0) (RClone 1 0 [] 5) = [MTouch []; MRmw 0 Relaxed]) /\
  (exists s', rstep exE code_orders (acc_s 1) acc_l = Next s' /\
     st_heap (r_st (acc_s 1)) !! 30 = None /\ st_heap (r_st s') !! 30 = Some (Cell 1 1 (Some leaf6)) /\
     ops exE code_orders (acc_s 1) acc_l = [MTouch [(1, TWrite)]]).
Proof. 
  split; [exists (rafter exE code_orders (acc_ls 0 ++ [RClone 1 0 [] 5])); (split; [by apply rafter_step; vm_compute|])|
    exists (acc_s 2); (split; [apply acc_step; lia|])]; split_and!; by vm_compute.
 Qed.

(** Locks: acquired and released when the state of the lock changes. *)
Theorem C51_locks {V} (E : tyenv V) (O : orders) ls s l s' :
  coherent E -> wide E -> acquires (o_sub O) = true -> releases (o_sub O) = true -> rbounded E O ls ->
  run (rstep E O) rinit ls = Some s -> rstep E O s l = Next s' ->
  locks_moved s (actor l) (ops E O s l) s'.
Proof. exact (λ HL HW Ha Hr Hb Hs, rstep_locks E O s l s' (rrun_inv E O ls s HL HW Ha Hr Hb Hs)). Qed.
Print Assumptions C51_locks.
(** Searching for the place of the new entry takes the lock, which is released after it has been
    inserted. *)
Example C51_locks_case :
  (exists s', rstep exE code_orders (acc_s 2) acc_l = Next s' /\
     st_locks (r_st (acc_s 2)) !! (0, 1) = None /\ st_locks (r_st s') !! (0, 1) = Some 2 /\
     ops exE code_orders (acc_s 2) acc_l = [MTouch [(1, TRead)]; MAcq (0, 1); MTouch []]) /\
  (exists s', rstep exE code_orders (acc_s 4) acc_l = Next s' /\
     st_locks (r_st (acc_s 4)) !! (0, 1) = Some 2 /\ st_locks (r_st s') !! (0, 1) = None /\
     ops exE code_orders (acc_s 4) acc_l = [MRel (0, 1)]).
Proof. 
  split; [exists (acc_s 3)|exists (acc_s 5)]; (split; [apply acc_step; lia|]); split_and!; by vm_compute.
 Qed.

(** The table: a step that does not have shard [sh] locked does the same if the shard is empty;
    and an entry is inserted or removed only by a thread that holds the lock of its shard. *)
Theorem C51_table_reads {V} (E : tyenv V) (O : orders) ls s l s' sh :
  coherent E -> wide E -> acquires (o_sub O) = true -> releases (o_sub O) = true -> rbounded E O ls ->
  run (rstep E O) rinit ls = Some s -> rstep E O s l = Next s' ->
  ~ has_shard s (actor l) (ops E O s l) sh ->
  rstep E O (less (of_shard E s sh) s) l = Next (less (of_shard E s sh) s').
Proof. exact (λ HL HW Ha Hr Hb Hs Hl Hn, rstep_table_read E O s l s' sh (rrun_inv E O ls s HL HW Ha Hr Hb Hs) Hn Hl). Qed.
Print Assumptions C51_table_reads.
(** A search in shard 1; shard 0 has an entry. *)
Example C51_table_reads_case :
  let s := acc_s 2 in
  exists s', rstep exE code_orders s acc_l = Next s' /\ ~ has_shard s 2 (ops exE code_orders s acc_l) (0, 0) /\
    has_shard s 2 (ops exE code_orders s acc_l) (0, 1) /\
    st_table (r_st s) = [exA] /\ st_table (r_st (less (of_shard exE s (0, 0)) s)) = [].
Proof.
  exists (acc_s 3). split_and!; [apply acc_step; lia| | |by vm_compute..].
  - intros [H|[H|(n&H&_)]]; [by vm_compute in H| |by vm_compute in H].
    vm_compute in H. repeat (apply elem_of_cons in H as [H|H]; [done|]). by apply elem_of_nil in H.
  - right. left. vm_compute. right. left.
Qed.

Theorem C51_table_writes {V} (E : tyenv V) (O : orders) ls s l s' q d :
  coherent E -> wide E -> acquires (o_sub O) = true -> releases (o_sub O) = true -> rbounded E O ls ->
  run (rstep E O) rinit ls = Some s -> rstep E O s l = Next s' ->
  ~ (q ∈ st_table (r_st s) <-> q ∈ st_table (r_st s')) -> data (r_st s) q = Some d ->
  st_locks (r_st s) !! lock_of E d = Some (actor l).
Proof. exact (λ HL HW Ha Hr Hb Hs, rstep_table_write E O s l s' q d (rrun_inv E O ls s HL HW Ha Hr Hb Hs)). Qed.
Print Assumptions C51_table_writes.
Example C51_table_writes_case :
  let s := acc_s 3 in
  exists s', rstep exE code_orders s acc_l = Next s' /\ data (r_st s) (Ptr 30 1) = Some leaf6 /\
    ~ (Ptr 30 1 ∈ st_table (r_st s) <-> Ptr 30 1 ∈ st_table (r_st s')) /\
    st_table (r_st s) = [exA] /\ st_table (r_st s') = [Ptr 30 1; exA].
Proof.
  exists (acc_s 4). split_and!; [apply acc_step; lia|by vm_compute| |by vm_compute..].
  intros [_ H]. assert (Ptr 30 1 ∈ [exA]) as Hx by (apply H; vm_compute; left). apply elem_of_list_singleton in Hx. done.
Qed.

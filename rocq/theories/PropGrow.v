(** ArcIntern: property C62, panics of user code outside searches.  Statements only;
    vocabulary in ArcSpec.v and GrowSpec.v. *)
From stdpp Require Import gmap list numbers.
From Verif Require Import Base ArcModel ArcSpec ArcEx ArcFinal GrowModel GrowSpec GrowProof GrowEx.

(** C62.  With the handle made before the insertion, as in the source ([true]), both intern
    functions have undefined behaviour when Hash panics in [e.insert(())]: one thread, one value,
    nothing lost from any table, whatever the size of usize. *)
Theorem C62_panic_in_insert_refuted (k : kind) (M : N) :
  exists (E : tyenv node) ls,
    lawful E /\ te_mod E = M /\ length ls = 7 /\ entries_kept ls /\ run (gstep E true) init ls = None.
Proof. exact (insert_panic_refuted k M). Qed.
Print Assumptions C62_panic_in_insert_refuted.

(** It is not a matter of luck: whatever has happened before, a value that owns no handles is
    freed and then used by the next two steps of its thread... *)
Theorem C62_panic_in_insert_is_ub {V : Type} (E : tyenv V) st t k v q d st1 :
  get_pc st t = PVac k v q -> data st q = Some d -> te_kids E d = [] ->
  gstep E true st (GInsert t []) = Next st1 ->
  run (gstep E true) st1 [GDo (LStep t 0 0); GDo (LStep t 0 0)] = None.
Proof. exact (insert_panic_ub E true st t k v q d st1 eq_refl). Qed.
Print Assumptions C62_panic_in_insert_is_ub.

(** ... and in general the thread never gets out of the call: undefined behaviour comes first. *)
Theorem C62_no_return_from_panic_in_insert {V : Type} (E : tyenv V) ls st t gone k v q st1 ls2 st2 :
  run (gstep E true) init ls = Some st -> get_pc st t = PVac k v q ->
  gstep E true st (GInsert t gone) = Next st1 -> run (gstep E true) st1 ls2 = Some st2 ->
  get_pc st2 t <> PFree.
Proof. exact (insert_panic_stuck E true ls st t gone k v q st1 ls2 st2 eq_refl). Qed.
Print Assumptions C62_no_return_from_panic_in_insert.
Example C62_panic_example :
  let ls := (GDo <$> intern 1 10 KSized leaf4) ++ to_insert 2 20 KSized (Node 1 7 [exA]) in
  let s := gafter exE true ls in
  run (gstep exE true) init ls = Some s /\ get_pc s 2 = PVac KSized (Node 1 7 [exA]) (Ptr 20 1) /\
  get_pc (gafter exE true (ls ++ [GInsert 2 []])) 2
    = PWork [IDrop exA; IFree (Ptr 20 1); IDrop (Ptr 20 1)] None /\
  run (gstep exE true) init (ls ++ GInsert 2 [] :: (GDo <$> steps 2 0 5)) <> None /\
  run (gstep exE true) init (ls ++ GInsert 2 [] :: (GDo <$> steps 2 0 6)) = None.
Proof. split_and!; vm_compute; done. Qed.

(** Entries dropped by a rehash in place: their values are gone for good, and reading one
    through a handle that a client still has is undefined behaviour. *)
Theorem C62_lost_entries_dangle {V : Type} (E : tyenv V) early ls st t gone st1 p ls2 st2 :
  run (gstep E early) init ls = Some st -> gstep E early st (GInsert t gone) = Next st1 ->
  p ∈ gone -> run (gstep E early) st1 ls2 = Some st2 ->
  data st2 p = None /\ (p ∈ st_pool st2 -> gstep E early st2 (GDo (LDeref p [])) = UB).
Proof. exact (lost_dangle E early ls st t gone st1 p ls2 st2). Qed.
Print Assumptions C62_lost_entries_dangle.
Example C62_lost_example :
  run (gstep exE true) init rehash = Some (gafter exE true rehash) /\
  st_pool (gafter exE true rehash) = [exA] /\ st_table (gafter exE true rehash) = [] /\
  st_table (gafter exE true (take 11 rehash)) = [exA] /\
  get_pc (gafter exE true rehash) 2 = PWork [IFree exA; IFree exD; IDrop exD] None /\
  get_pc (gafter exE false rehash) 2 = PWork [IFree exA; IFree exD] None.
Proof. split_and!; vm_compute; done. Qed.
(** Only entries of the shard are lost, each of them once. *)
Example C62_shard_example :
  let s := gafter exE true (take 11 rehash) in
  let s' := gafter exE true ((GDo <$> intern 1 10 KSized leaf4) ++ to_insert 2 20 KSized (Node 0 6 [])) in
  let s'' := gafter exE true ((GDo <$> intern 1 10 KSized leaf4) ++ to_insert 2 20 KSized (Node 1 8 [])) in
  (exists s1, gstep exE true s (GInsert 2 [exA]) = Next s1) /\
  gstep exE true s (GInsert 2 [exA; exA]) = Illegal /\ gstep exE true s (GInsert 2 [exD]) = Illegal /\
  st_table s' = [exA] /\ (exists v, get_pc s' 2 = PVac KSized v exD) /\
  gstep exE true s' (GInsert 2 [exA]) = Illegal /\
  st_table s'' = [exA] /\ (exists v, get_pc s'' 2 = PVac KSized v exD) /\
  gstep exE true s'' (GInsert 2 [exA]) = Illegal.
Proof. split_and!; try (vm_compute; reflexivity); eexists; vm_compute; reflexivity. Qed.

(** Without such a panic nothing changes: Hash may panic in searches and in [shrink_to_fit], and
    Drop anywhere. *)
Theorem C62_safe_if_insert_returns {V : Type} (E : tyenv V) early ls :
  tame E -> wide E -> gbounded E early ls -> insert_returns ls -> run (gstep E early) init ls <> None.
Proof. exact (safe_if_insert_returns E early ls). Qed.
Print Assumptions C62_safe_if_insert_returns.

(** If the handle were made after the insertion ([false]), panics in it would be harmless as
    well, unless a table is rehashed in place... *)
Theorem C62_safe_if_handle_made_last {V : Type} (E : tyenv V) ls :
  tame E -> wide E -> gbounded E false ls -> entries_kept ls -> run (gstep E false) init ls <> None.
Proof. exact (safe_if_handle_last E ls). Qed.
Print Assumptions C62_safe_if_handle_made_last.
Example C62_safe_example :
  tame exE /\ wide exE /\ gbounded exE false calm_ls /\ entries_kept calm_ls /\
  insert_returns (take 20 calm_ls) /\ ~ insert_returns calm_ls /\
  length (st_table (gafter exE false calm_ls)) = 3 /\
  get_pc (gafter exE false (take 36 calm_ls)) 3 = PWork [] (Some (leaf5, exA)) /\
  get_pc (gafter exE false (take 37 calm_ls)) 3 = PWork [IDrop exA] None /\
  st_heap (gafter exE false calm_ls) !! 10 = Some (Cell 0 1 (Some leaf4)).
Proof.
  split_and!; [apply lawful_tame, nodes_lawful|done|exact calm_bounded|exact calm_kept|..].
  - unfold insert_returns. by repeat constructor.
  - intros H. by repeat (apply Forall_cons_1 in H as [? H]).
  - by vm_compute.
  - by vm_compute.
  - by vm_compute.
  - by vm_compute.
Qed.

(** Such panics leave nothing behind (panics in searches do, see C13): once all calls are over
    the tables hold exactly the objects with handles, and there is no other memory. *)
Theorem C62_nothing_leaks {V : Type} (E : tyenv V) early ls st :
  lawful E -> wide E -> gbounded E early ls ->
  insert_returns ls \/ early = false /\ entries_kept ls -> searches_return ls ->
  run (gstep E early) init ls = Some st -> quiescent st ->
  NoDup (st_table st) /\
  (forall p, p ∈ st_table st <-> alive E st p) /\
  (forall a c, st_heap st !! a = Some c <->
     exists p, alive E st p /\ p_addr p = a /\ deref st p = Some c) /\
  (forall p, alive E st p -> exists r, r ∈ st_pool st ++ st_gone st /\ owns E st r p) /\
  (st_pool st = [] -> st_gone st = [] -> st_table st = [] /\ st_heap st = ∅).
Proof. exact (nothing_leaks E early ls st). Qed.
Print Assumptions C62_nothing_leaks.
Example C62_leak_example :
  searches_return calm_ls /\ quiescent (gafter exE false calm_ls) /\
  st_pool (gafter exE false calm_ls) = [Ptr 30 3; exD; exA] /\
  st_table (gafter exE false calm_ls) = [Ptr 30 3; exD; exA].
Proof.
  split_and!; [unfold searches_return; by repeat constructor|by apply quiescent_b; vm_compute|by vm_compute..].
Qed.

(** ... in which case that is not enough. *)
Theorem C62_handle_made_last_refuted (M : N) :
  exists (E : tyenv node) ls p,
    lawful E /\ te_mod E = M /\ length ls = 12 /\
    (exists st, run (gstep E false) init ls = Some st /\ p ∈ st_pool st) /\
    run (gstep E false) init (ls ++ [GDo (LDeref p [])]) = None.
Proof. exact (handle_last_refuted M). Qed.
Print Assumptions C62_handle_made_last_refuted.

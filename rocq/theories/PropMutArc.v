(** Interior mutability, ArcIntern: property C65.  Statements only; vocabulary in MutSpec.v. *)
From stdpp Require Import gmap list numbers.
From Verif Require Import Base ArcModel ArcSpec ArcEx MutModel MutSpec MutArc MutReadArc MutEx.

(** Lawful types, no panics, no overflow, one thread: undefined behaviour. *)
Theorem C65_arc_memory_safe_refuted :
  exists (E : tyenv node) ls,
    lawful E /\ coherent E /\ wide E /\ (N.of_nat (length ls) < te_mod E)%N /\
    (forall t, MDo (LPanic t) ∉ ls) /\ run (arc_mstep E) init ls = None.
Proof. exact arc_store_refute. Qed.
Print Assumptions C65_arc_memory_safe_refuted.

(** Not a matter of particular types: intern two values, make the first Eq to the second, drop
    it, and look at the second. *)
Theorem C65_arc_set_and_drop {V : Type} (E : tyenv V) v w w' :
  te_eq E w v = false -> te_eq E w' w = true -> te_hash E w' = te_hash E w ->
  te_ty E w' = te_ty E v -> te_ty E w' = te_ty E w ->
  te_kids E v = [] -> te_kids E w = [] -> te_kids E w' = [] ->
  run (arc_mstep E) init (set_and_drop v w w') = None.
Proof. exact (set_and_drop_ub E v w w'). Qed.
Print Assumptions C65_arc_set_and_drop.
(** All but the last line can be executed; the value of [b] is then gone. *)
Example C65_arc_set_and_drop_example :
  let w := Node 0 8 [] in
  te_eq exE w leaf4 = false /\ te_eq exE w w = true /\
  let st := mafter (removelast (set_and_drop leaf4 w w)) in
  st_pool st = [Ptr 1 1] /\ get_pc st 0 = PWork [IFree (Ptr 1 1)] None /\ data st (Ptr 1 1) = None /\
  data (mafter (alone 0 0 leaf4 ++ alone 0 1 w)) (Ptr 1 1) = Some w.
Proof. split_and!; by vm_compute. Qed.

(** Stores that Eq and Hash do not see make no difference, whatever Eq and Hash do. *)
Theorem C65_arc_unseen_stores {V : Type} (E : tyenv V) ls st :
  quiet E ls -> run (arc_mstep E) init ls = Some st ->
  exists st', run (step E) init (plain ls) = Some st' /\ like E st st'.
Proof. exact (quiet_like E ls st). Qed.
Print Assumptions C65_arc_unseen_stores.
(** Hence memory is safe with such stores ... *)
Theorem C65_arc_unseen_stores_safe {V : Type} (E : tyenv V) ls :
  coherent E -> wide E -> quiet E ls -> bounded E (plain ls) -> run (arc_mstep E) init ls <> None.
Proof. exact (λ HC HW, quiet_safe E HC HW ls). Qed.
Print Assumptions C65_arc_unseen_stores_safe.
Theorem C65_arc_unseen_stores_safe_short {V : Type} (E : tyenv V) ls :
  coherent E -> wide E -> quiet E ls -> (N.of_nat (length ls) < te_mod E)%N -> run (arc_mstep E) init ls <> None.
Proof. exact (λ HC HW, quiet_safe_short E HC HW ls). Qed.
Print Assumptions C65_arc_unseen_stores_safe_short.
(** ... in particular if every value is replaced by one that is Eq to it and contains the same
    handles. *)
Theorem C65_arc_eq_is_unseen {V : Type} (E : tyenv V) d d' :
  lawful E -> te_eq E d d' = true -> te_kids E d = te_kids E d' -> unseen E d d'.
Proof. exact (eq_unseen E d d'). Qed.
Print Assumptions C65_arc_eq_is_unseen.
Example C65_arc_unseen_example :
  quiet exE quiet_leaf /\ data (mafter (take 8 quiet_leaf)) exA = Some leaf5 /\ data (mafter (take 14 quiet_leaf)) exA = Some leaf4 /\
  st_pool (mafter (take 14 quiet_leaf)) = [exA; exA] /\
  st_pool (mafter quiet_leaf) = [] /\ st_heap (mafter quiet_leaf) !! p_addr exA = None /\ get_pc (mafter quiet_leaf) 2 = PFree.
Proof. split; [apply quiet_leaf_quiet|]. split_and!; by vm_compute. Qed.

(** What is read, with any stores, any Eq and Hash: as long as the object exists, the last value stored to it, or what it
    was before if nothing is stored through a handle that refers to it. *)
Theorem C65_arc_unstored_values_stay {V : Type} (E : tyenv V) ls1 ls2 st1 st2 p d d' :
  run (arc_mstep E) init ls1 = Some st1 -> run (arc_mstep E) st1 ls2 = Some st2 ->
  (forall l1 q ks v l2 st k, ls2 = l1 ++ MSet (AS q ks v) :: l2 -> run (arc_mstep E) st1 l1 = Some st ->
     borrow E st q ks = Next k -> k <> p) ->
  data st1 p = Some d -> data st2 p = Some d' -> d' = d.
Proof. exact (arc_unstored E ls1 ls2 st1 st2 p d d'). Qed.
Print Assumptions C65_arc_unstored_values_stay.
Theorem C65_arc_last_store_is_read {V : Type} (E : tyenv V) ls1 ls2 st1 st2 st3 q ks v p d :
  run (arc_mstep E) init ls1 = Some st1 -> borrow E st1 q ks = Next p ->
  arc_mstep E st1 (MSet (AS q ks v)) = Next st2 -> run (arc_mstep E) st2 ls2 = Some st3 ->
  (forall l1 q' ks' v' l2 st k, ls2 = l1 ++ MSet (AS q' ks' v') :: l2 -> run (arc_mstep E) st2 l1 = Some st ->
     borrow E st q' ks' = Next k -> k <> p) ->
  data st3 p = Some d -> d = v.
Proof. exact (arc_last_store E ls1 ls2 st1 st2 st3 q ks v p d). Qed.
Print Assumptions C65_arc_last_store_is_read.
(** A store, and then another thread interns the same value. *)
Example C65_arc_read_example :
  let ls2 := MDo <$> LNew 2 KDst leaf5 :: ArcEx.steps 2 0 4 in
  let st1 := mafter (take 7 quiet_leaf) in let st2 := mafter (take 8 quiet_leaf) in let st3 := mafter (take 13 quiet_leaf) in
  data st1 exA = Some leaf4 /\ borrow exE st1 exA [] = Next exA /\ arc_mstep exE st1 (MSet (AS exA [] leaf5)) = Next st2 /\
  run (arc_mstep exE) st2 ls2 = Some st3 /\ data st3 exA = Some leaf5 /\
  (forall l1 q ks v l2 st k, ls2 = l1 ++ MSet (AS q ks v) :: l2 -> run (arc_mstep exE) st2 l1 = Some st ->
     borrow exE st q ks = Next k -> k <> exA).
Proof.
  split_and!; [by vm_compute..|]. intros l1 q ks v l2 st k Hl. exfalso.
  assert (MSet (AS q ks v) ∈ MDo <$> LNew 2 KDst leaf5 :: ArcEx.steps 2 0 4) as Hin.
  { rewrite Hl. apply elem_of_app. right. by left. }
  by apply elem_of_list_fmap in Hin as (x&H&_).
Qed.

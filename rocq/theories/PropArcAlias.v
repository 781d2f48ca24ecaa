(** Property C69: [ArcIntern] and the aliasing models of Rust. *)
From stdpp Require Import gmap list numbers.
From Verif Require Import Base ArcModel ArcSpec ArcEx ArcFinal AliasModel ArcAliasModel ArcAliasSpec ArcAliasFinal ArcAliasBadFinal ArcAliasSeen.

(** C69.  Where the pointer of a handle is taken from the Box that is in the table, no program has
    undefined behaviour under Tree Borrows: that is, if [e.insert(())] does not retag the Box, or if the
    pointer is taken after it. *)
Theorem C69_tree_borrows {V : Type} im n m k late (E : tyenv V) ls :
  late = true \/ n = [] -> coherent E -> wide E -> bounded E (fst <$> ls) ->
  exists cs, run (cstep trees im n m k late E) cinit ls = Some cs /\ run (step E) init (fst <$> ls) = Some (cs_arc cs).
Proof. exact (safe_trees im n m k late E ls). Qed.
Print Assumptions C69_tree_borrows.
(** The same under Stacked Borrows, if in addition [m.remove] does not retag the Box while its argument
    is protected. *)
Theorem C69_stacked_borrows {V : Type} im n m late (E : tyenv V) ls :
  late = true \/ n = [] -> coherent E -> wide E -> bounded E (fst <$> ls) ->
  exists cs, run (cstep stacked im n m [] late E) cinit ls = Some cs /\ run (step E) init (fst <$> ls) = Some (cs_arc cs).
Proof. intros Hl. exact (safe_stacked im n m [] late E ls Hl eq_refl). Qed.
Print Assumptions C69_stacked_borrows.

(** If [e.insert(())] retags the Box, as the code takes the pointer before, then under Stacked Borrows
    every use of the handle [new] returned for a new value is undefined ... *)
Theorem C69_stacked_borrows_first_handle {V : Type} im n m k (E : tyenv V) ls cs l j p st' :
  coherent E -> wide E -> n <> [] -> bounded E (fst <$> ls) ->
  run (cstep stacked im n m k false E) cinit ls = Some cs -> step E (cs_arc cs) l = Next st' ->
  begins_with (cs_arc cs) l p -> j (p_ser p) = 0 ->
  cstep stacked im n m k false E cs (l, j) = UB.
Proof. exact (λ HL HW, bad_stacked im n m k E HL HW ls cs l j p st'). Qed.
Print Assumptions C69_stacked_borrows_first_handle.
(** ... and if [m.remove] does, so is every removal, wherever the pointer was taken. *)
Theorem C69_stacked_borrows_remove {V : Type} im n m k late (E : tyenv V) cs t lk q w r a i j :
  k <> [] -> get_pc (cs_arc cs) t = PRem lk q w r -> cstep stacked im n m k late E cs (LStep t a i, j) = UB.
Proof. exact (bad_remove im n m k E late cs t lk q w r a i j). Qed.
Print Assumptions C69_stacked_borrows_remove.

(** Under Tree Borrows this handle may be used; but if it was cloned or dropped, then nobody may find the
    value in the table, or drop the Box: with a retag that is protected ... *)
Theorem C69_tree_borrows_box_protected {V : Type} im n m k (E : tyenv V) ls cs l j cs1 ls' cs2 p t a i j' :
  coherent E -> wide E -> true ∈ n -> bounded E (fst <$> ls ++ (l, j) :: ls') ->
  run (cstep trees im n m k false E) cinit ls = Some cs -> writes_count (cs_arc cs) l p -> j (p_ser p) = 0 ->
  cstep trees im n m k false E cs (l, j) = Next cs1 ->
  run (cstep trees im n m k false E) cs1 ls' = Some cs2 ->
  finds (cs_arc cs2) t p \/ drops_box (cs_arc cs2) t p ->
  cstep trees im n m k false E cs2 (LStep t a i, j') = UB.
Proof. exact (λ HL HW, bad_trees_protected im n m k E HL HW ls cs l j cs1 ls' cs2 p t a i j'). Qed.
Print Assumptions C69_tree_borrows_box_protected.
(** ... and with any other, if the value was found before. *)
Theorem C69_tree_borrows_box {V : Type} im n m k (E : tyenv V) ls0 cs0 t0 a0 i0 j0 cs1 ls1 cs2 l j cs3 ls2 cs4 p t a i j' :
  coherent E -> wide E -> n <> [] ->
  bounded E (fst <$> (ls0 ++ (LStep t0 a0 i0, j0) :: ls1) ++ (l, j) :: ls2) ->
  run (cstep trees im n m k false E) cinit ls0 = Some cs0 -> finds (cs_arc cs0) t0 p ->
  cstep trees im n m k false E cs0 (LStep t0 a0 i0, j0) = Next cs1 ->
  run (cstep trees im n m k false E) cs1 ls1 = Some cs2 -> writes_count (cs_arc cs2) l p -> j (p_ser p) = 0 ->
  cstep trees im n m k false E cs2 (l, j) = Next cs3 ->
  run (cstep trees im n m k false E) cs3 ls2 = Some cs4 ->
  finds (cs_arc cs4) t p \/ drops_box (cs_arc cs4) t p ->
  cstep trees im n m k false E cs4 (LStep t a i, j') = UB.
Proof. exact (λ HL HW, bad_trees im n m k E HL HW ls0 cs0 t0 a0 i0 j0 cs1 ls1 cs2 l j cs3 ls2 cs4 p t a i j'). Qed.
Print Assumptions C69_tree_borrows_box.
(** One program, undefined under both models for every such retagging: [new] and [new] of the same value,
    [drop] and [drop]. *)
Theorem C69_refuted : exists (E : tyenv node) ls, lawful E /\ wide E /\ bounded E (fst <$> ls) /\
  is_Some (run (step E) init (fst <$> ls)) /\
  forall im n m k, n <> [] ->
    run (cstep stacked im n m k false E) cinit ls = None /\ run (cstep trees im n m k false E) cinit ls = None.
Proof. exact arc_refuted. Qed.
Print Assumptions C69_refuted.

(** The machines follow the program, whatever they say; every allocated block has one, and whatever is in
    the table has been pointed to by a handle. *)
Theorem C69_same {V : Type} (M : machine) im n m k late (E : tyenv V) ls cs :
  run (cstep M im n m k late E) cinit ls = Some cs -> run (step E) init (fst <$> ls) = Some (cs_arc cs).
Proof. exact (arc_same M im n m k late E ls cs). Qed.
Print Assumptions C69_same.
Theorem C69_machines {V : Type} (M : machine) im n m k late (E : tyenv V) ls cs :
  coherent E -> wide E -> bounded E (fst <$> ls) -> run (cstep M im n m k late E) cinit ls = Some cs ->
  (forall a c, st_heap (cs_arc cs) !! a = Some c -> is_Some (cs_objs cs !! c_ser c)) /\
  (forall p, p ∈ st_table (cs_arc cs) -> exists x h, cs_objs cs !! p_ser p = Some x /\ h ∈ co_hands x).
Proof. exact (shown_run M im n m k late E ls cs). Qed.
Print Assumptions C69_machines.

(** No use of a block is kept from them: a step that would be undefined if the block of [p] were not
    there is undefined if it has no machines. *)
Theorem C69_no_use_missed {V : Type} (M : machine) im n m k late (E : tyenv V) (cs : cstate M) l j st' p :
  step E (cs_arc cs) l = Next st' -> is_Some (deref (cs_arc cs) p) -> step E (free (cs_arc cs) p) l = UB ->
  cs_objs cs !! p_ser p = None -> cstep M im n m k late E cs (l, j) = UB.
Proof. exact (arc_seen M im n m k late E cs l j st' p). Qed.
Print Assumptions C69_no_use_missed.

(** Two threads, two values, one inside the other: cloned, found, read and dropped. *)
Example C69_tree_example :
  let ls := at0 (ex_ls ++ ex_reads ++ ex_drops) in
  let cs := cafter trees false [] [true] [true; false] false exE ls in
  coherent exE /\ wide exE /\ bounded exE (fst <$> ls) /\
  run (cstep trees false [] [true] [true; false] false exE) cinit ls = Some cs /\
  cs_objs cs !! 0 = None /\ cs_objs cs !! 1 = None /\ st_next (cs_arc cs) = 2.
Proof.
  split_and!; [apply lawful_coherent, nodes_lawful|done|by apply ex_bounded|by apply cafter_run; vm_compute|by vm_compute..].
Qed.
Example C69_late_example :
  let ls := at0 (ex_ls ++ ex_reads) in
  let cs := cafter trees true [true; false] [] [] true exE ls in
  run (cstep trees true [true; false] [] [] true exE) cinit ls = Some cs /\
  (co_hands <$> cs_objs cs !! 0) = Some [[4; 3; 2; 0]; [11; 3; 2; 0]] /\ (co_box <$> cs_objs cs !! 1) = Some [3; 2; 0].
Proof. split_and!; [by apply cafter_run; vm_compute|by vm_compute..]. Qed.
Example C69_stacked_example :
  let ls := at0 (ex_ls ++ ex_reads ++ ex_drops) in
  run (cstep stacked false [true] [true] [] true exE) cinit ls = Some (cafter stacked false [true] [true] [] true exE ls) /\
  run (cstep stacked false [] [true] [] false exE) cinit ls = Some (cafter stacked false [] [true] [] false exE ls).
Proof. split; apply cafter_run; by vm_compute. Qed.

(** A value is interned, and the handle is about to be cloned. *)
Example C69_first_handle_example :
  let cs := cafter stacked false [false] [] [] false exE (at0 (intern 1 10 KSized leaf4)) in
  run (cstep stacked false [false] [] [] false exE) cinit (at0 (intern 1 10 KSized leaf4)) = Some cs /\
  begins_with (cs_arc cs) (LClone exA []) exA /\
  nexts exE (cs_arc cs) (LClone exA []) = true /\
  cstep stacked false [false] [] [] false exE cs (LClone exA [], λ _, 0) = UB.
Proof. split_and!; [by apply cafter_run; vm_compute|by vm_compute..]. Qed.
Example C69_remove_example :
  let ls := at0 (intern 1 10 KSized leaf4 ++ LDrop 1 exA :: steps 1 0 2) in
  let cs := cafter stacked false [] [] [false] false exE ls in
  run (cstep stacked false [] [] [false] false exE) cinit ls = Some cs /\
  match get_pc (cs_arc cs) 1 with PRem _ q _ _ => q = exA | _ => False end.
Proof. split; [by apply cafter_run; vm_compute|by vm_compute]. Qed.
(** The handle is dropped, and the value removed; the Box is about to be dropped. *)
Example C69_box_protected_example :
  let ls := at0 (intern 1 10 KSized leaf4 ++ [LDrop 1 exA]) in
  let ls' := at0 (LStep 1 0 0 :: steps 1 0 2) in
  let cs := cafter trees false [true] [] [] false exE ls in
  let cs2 := cafter trees false [true] [] [] false exE (ls ++ ls') in
  run (cstep trees false [true] [] [] false exE) cinit ls = Some cs /\ writes_count (cs_arc cs) (LStep 1 0 0) exA /\
  run (cstep trees false [true] [] [] false exE) cinit (ls ++ ls') = Some cs2 /\ drops_box (cs_arc cs2) 1 exA.
Proof. split_and!; [by apply cafter_run; vm_compute|by vm_compute|by apply cafter_run; vm_compute|by vm_compute]. Qed.
Example C69_box_example :
  let cs0 := cafter trees false [false] [] [] false exE (at0 two_new) in
  let cs2 := cafter trees false [false] [] [] false exE (at0 (two_new ++ LStep 1 11 0 :: two_drop)) in
  let cs4 := cafter trees false [false] [] [] false exE (at0 (two_new ++ LStep 1 11 0 :: two_drop ++ LStep 1 0 0 :: two_last)) in
  finds (cs_arc cs0) 1 exA /\ writes_count (cs_arc cs2) (LStep 1 0 0) exA /\
  run (cstep trees false [false] [] [] false exE) cinit (at0 (two_new ++ LStep 1 11 0 :: two_drop ++ LStep 1 0 0 :: two_last)) = Some cs4 /\
  drops_box (cs_arc cs4) 1 exA.
Proof. split_and!; [by vm_compute|by vm_compute|by apply cafter_run; vm_compute|by vm_compute]. Qed.
(** A search reads what is in the table. *)
Example C69_no_use_missed_example :
  let st := cs_arc (cafter trees false [] [] [] false exE (at0 (intern 1 10 KSized leaf4 ++ [LNew 1 KSized leaf4]))) in
  nexts exE st (LStep 1 0 0) = true /\ deref st exA = Some (Cell 0 1%N (Some leaf4)) /\
  step exE (free st exA) (LStep 1 0 0) = UB.
Proof. split_and!; by vm_compute. Qed.

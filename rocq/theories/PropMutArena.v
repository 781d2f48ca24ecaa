(** Interior mutability, Arena: property C65.  Statements only; vocabulary in MutSpec.v. *)
From stdpp Require Import gmap list numbers.
From Verif Require Import Base InternModel InternSpec InternEx ArenaModel ArenaSpec MutModel MutSpec MutArena MutReadArc MutEx.

(** Lawful types and no panics: undefined behaviour. *)
Theorem C65_arena_memory_safe_refuted :
  exists (E : ienv ival (nat * nat)) ls,
    ilawful E /\ icoherent E /\ zst_eq E /\ (forall t, MDo (LPanic t) ∉ ls) /\ run (are_mstep E) ainit ls = None.
Proof. exact arena_store_refute. Qed.
Print Assumptions C65_arena_memory_safe_refuted.

(** Not a matter of particular types: a stored value becomes Eq to one that has been searched
    for but not inserted. *)
Theorem C65_arena_set_between {V Q : Type} (E : ienv V Q) ty v w w' :
  ie_ty E v = ty -> ie_ty E w = ty -> ie_ty E w' = ty -> ie_meta E w' = ie_meta E v ->
  is_zst E v = false -> is_zst E w = false ->
  ie_eq E v w = false -> ie_eq E w w' = true -> ie_hash E w' = ie_hash E w ->
  run (are_mstep E) ainit (set_between E ty v w w') = None.
Proof. exact (set_between_ub E ty v w w'). Qed.
Print Assumptions C65_arena_set_between.
(** All but the last step can be executed; the box to which the handle would point is gone. *)
Example C65_arena_set_between_example :
  ie_eq toyE i4 i8 = false /\ ie_eq toyE i8 i8 = true /\
  let st := raafter (removelast (set_between toyE 0 i4 i8 i8)) in
  a_stack st 1 = [AMake 0 (ANew i8) None (IPtr 1 0 1)] /\ a_read st (IPtr 1 0 1) = None /\ a_read st (IPtr 0 0 0) = Some i8.
Proof. split_and!; by vm_compute. Qed.

(** Stores that Eq, Hash and Borrow do not see make no difference, whatever Eq and Hash do. *)
Theorem C65_arena_unseen_stores {V Q : Type} (E : ienv V Q) ls st :
  aquiet E ls -> run (are_mstep E) ainit ls = Some st ->
  exists st', run (astep E) ainit (plain ls) = Some st' /\ alike E st st'.
Proof. exact (aquiet_like E ls st). Qed.
Print Assumptions C65_arena_unseen_stores.
Theorem C65_arena_unseen_stores_safe {V Q : Type} (E : ienv V Q) ls :
  ilawful E -> icoherent E -> aquiet E ls -> run (are_mstep E) ainit ls <> None.
Proof. exact (aquiet_safe E ls). Qed.
Print Assumptions C65_arena_unseen_stores_safe.
Example C65_arena_unseen_example :
  aquiet toyE ex_unseen_arena /\ a_read (raafter ex_unseen_arena) (IPtr 0 0 0) = Some i5 /\
  a_stack (raafter ex_unseen_arena) 1 = [AArg 0 (ANew i8) None false (AP (IPtr 1 0 1))].
Proof. split; [apply ex_unseen_arena_quiet|]. split_and!; by vm_compute. Qed.

(** What is read, with any stores, any Eq and Hash: as long as the box exists, the last value stored to it, or what it
    was before if nothing is stored. *)
Theorem C65_arena_unstored_values_stay {V Q : Type} (E : ienv V Q) ls1 ls2 st1 st2 p d d' :
  run (are_mstep E) ainit ls1 = Some st1 -> run (are_mstep E) st1 ls2 = Some st2 ->
  (forall r q v, MSet (RS r q v) ∈ ls2 -> ip_ser q <> ip_ser p) ->
  a_read st1 p = Some d -> a_read st2 p = Some d' -> d' = d.
Proof. exact (arena_unstored E ls1 ls2 st1 st2 p d d'). Qed.
Print Assumptions C65_arena_unstored_values_stay.
Theorem C65_arena_last_store_is_read {V Q : Type} (E : ienv V Q) ls1 ls2 st1 st2 st3 r p v d :
  run (are_mstep E) ainit ls1 = Some st1 -> are_mstep E st1 (MSet (RS r p v)) = Next st2 ->
  run (are_mstep E) st2 ls2 = Some st3 -> (forall r q w, MSet (RS r q w) ∈ ls2 -> ip_ser q <> ip_ser p) ->
  a_read st3 p = Some d -> d = v.
Proof. exact (arena_last_store E ls1 ls2 st1 st2 st3 r p v d). Qed.
Print Assumptions C65_arena_last_store_is_read.
(** The store of 5 to the box of 4, while another thread interns 8. *)
Example C65_arena_read_example :
  let p := IPtr 0 0 0 in let ls2 := drop 14 ex_unseen_arena in
  let st1 := raafter (take 13 ex_unseen_arena) in let st2 := raafter (take 14 ex_unseen_arena) in
  let st3 := raafter ex_unseen_arena in
  a_read st1 p = Some i4 /\ are_mstep toyE st1 (MSet (RS 0 p i5)) = Next st2 /\
  run (are_mstep toyE) st2 ls2 = Some st3 /\ a_read st3 p = Some i5 /\
  (forall r q w, MSet (RS r q w) ∈ ls2 -> ip_ser q <> ip_ser p).
Proof.
  split_and!; [by vm_compute..|]. intros r q w H%elem_of_list_In. vm_compute in H.
  repeat (destruct H as [H|H]; [discriminate H|]). done.
Qed.

(** Interior mutability, the Intern of typearena.rs: property C65.  Statements only; vocabulary in MutSpec.v. *)
From stdpp Require Import gmap list numbers.
From Verif Require Import Base InternModel InternSpec InternEx NewModel MutModel MutSpec MutIntern MutNew MutRead MutEx.

(** As for Intern: memory is safe with any stores, whatever Eq and Hash do. *)
Theorem C65_new_any_stores_safe {V Q : Type} (E : ienv V Q) ls :
  exists s, run (new_mstep E) ninit ls = Some s /\
    (forall t o p, EvRet t o (RPtr p) ∈ n_log s -> exists x, n_objs s !! ip_ser p = Some x /\
       io_addr x = ip_addr p /\ io_leaked x = true /\ ie_ty E (io_val x) = op_ty E o /\ ie_meta E (io_val x) = ip_meta p) /\
    (forall j1 j2 x1 x2, n_objs s !! j1 = Some x1 -> n_objs s !! j2 = Some x2 ->
       is_zst E (io_val x1) = false -> is_zst E (io_val x2) = false -> io_addr x1 = io_addr x2 -> j1 = j2).
Proof. exact (new_stores_safe E ls). Qed.
Print Assumptions C65_new_any_stores_safe.
Theorem C65_new_handles_for_ever {V Q : Type} (E : ienv V Q) ls2 s1 s2 t o p :
  EvRet t o (RPtr p) ∈ n_log s1 -> run (new_mstep E) s1 ls2 = Some s2 -> EvRet t o (RPtr p) ∈ n_log s2.
Proof. exact (new_stores_persist E ls2 s1 s2 t o p). Qed.
Print Assumptions C65_new_handles_for_ever.
(** After the store, 4 is interned again, and 8 is found where 4 was. *)
Example C65_new_any_example :
  iread (nmem (mnafter ex_nset)) ip4 = Some i8 /\ iread (nmem (mnafter ex_nset)) ip8 = Some i4 /\
  List.filter (λ e, match e with EvRet _ _ _ => true | _ => false end) (n_log (mnafter ex_nset)) =
    [EvRet 2 (ONew i8) (RPtr ip4); EvRet 2 (ONew i4) (RPtr ip8); EvRet 1 (ONew i4) (RPtr ip4)].
Proof. split_and!; by vm_compute. Qed.

(** A value that is not stored to stays the same, whatever is done with the others and whatever Eq and Hash do. *)
Theorem C65_new_unstored_values_stay {V Q : Type} (E : ienv V Q) ls1 ls2 s1 s2 t o p :
  run (new_mstep E) ninit ls1 = Some s1 -> EvRet t o (RPtr p) ∈ n_log s1 ->
  run (new_mstep E) s1 ls2 = Some s2 -> (forall v, MSet (IS p v) ∉ ls2) ->
  exists d, iread (nmem s1) p = Some d /\ iread (nmem s2) p = Some d.
Proof. exact (new_unstored E ls1 ls2 s1 s2 t o p). Qed.
Print Assumptions C65_new_unstored_values_stay.
(** One that is stored to has the value of the last store. *)
Theorem C65_new_last_store_is_read {V Q : Type} (E : ienv V Q) ls1 ls2 s1 s2 t o p d v :
  run (new_mstep E) ninit ls1 = Some s1 -> EvRet t o (RPtr p) ∈ n_log s1 ->
  iread (nmem s1) p = Some d -> ie_ty E v = ie_ty E d -> ie_meta E v = ie_meta E d ->
  run (new_mstep E) s1 (MSet (IS p v) :: ls2) = Some s2 -> (forall w, MSet (IS p w) ∉ ls2) ->
  iread (nmem s2) p = Some v.
Proof. exact (new_last_store E ls1 ls2 s1 s2 t o p d v). Qed.
Print Assumptions C65_new_last_store_is_read.
(** The store is followed by two more calls; what is stored, 8, is not what the object was made for. *)
Example C65_new_read_example :
  let s1 := mnafter (take 10 ex_nset) in let s2 := mnafter ex_nset in
  EvRet 1 (ONew i4) (RPtr ip4) ∈ n_log s1 /\ iread (nmem s1) ip4 = Some i4 /\
  run (new_mstep toyE) s1 (drop 10 ex_nset) = Some s2 /\ iread (nmem s2) ip4 = Some i8.
Proof. split_and!; [apply elem_of_list_In; vm_compute; tauto|by vm_compute..]. Qed.

(** Equal values may get different handles. *)
Theorem C65_new_unique_refuted :
  exists (E : ienv ival (nat * nat)) ls s t1 t2 v p q,
    ilawful E /\ icoherent E /\ zst_eq E /\ (forall t ty a, MDo (ICall t (OClear ty) a) ∉ ls) /\
    run (new_mstep E) ninit ls = Some s /\
    EvRet t1 (ONew v) (RPtr p) ∈ n_log s /\ EvRet t2 (ONew v) (RPtr q) ∈ n_log s /\ iptr_eqb p q = false.
Proof. exact new_store_refute. Qed.
Print Assumptions C65_new_unique_refuted.

(** Stores that Eq, Hash and Borrow do not see make no difference. *)
Theorem C65_new_unseen_stores {V Q : Type} (E : ienv V Q) ls :
  nquiet E ls ->
  exists s s', run (new_mstep E) ninit ls = Some s /\ run (nstep E) ninit (plain ls) = Some s' /\ nlike E s s'.
Proof. exact (nquiet_like E ls). Qed.
Print Assumptions C65_new_unseen_stores.
Example C65_new_unseen_example :
  nquiet toyE ex_nunseen /\ EvRead ip4 i5 ∈ n_log (mnafter ex_nunseen) /\
  EvRet 2 (ONew i4) (RPtr ip4) ∈ n_log (mnafter ex_nunseen).
Proof. split; [apply ex_nunseen_quiet|]. split; apply elem_of_list_In; vm_compute; tauto. Qed.

(** Interior mutability, Intern: property C65.  Statements only; vocabulary in MutSpec.v. *)
From stdpp Require Import gmap list numbers.
From Verif Require Import Base InternModel InternSpec InternEx MutModel MutSpec MutIntern MutRead MutEx.

(** Memory is safe with any stores, whatever Eq and Hash do: every handle that was ever
    returned points to a leaked object of its type and length, at its address; objects that
    are not zero-sized have different addresses. *)
Theorem C65_intern_any_stores_safe {V Q : Type} (E : ienv V Q) ls :
  exists st, run (int_mstep E) iinit ls = Some st /\
    (forall t o p, EvRet t o (RPtr p) ∈ i_log st -> exists x, i_objs st !! ip_ser p = Some x /\
       io_addr x = ip_addr p /\ io_leaked x = true /\ ie_ty E (io_val x) = op_ty E o /\ ie_meta E (io_val x) = ip_meta p) /\
    (forall s1 s2 x1 x2, i_objs st !! s1 = Some x1 -> i_objs st !! s2 = Some x2 ->
       is_zst E (io_val x1) = false -> is_zst E (io_val x2) = false -> io_addr x1 = io_addr x2 -> s1 = s2).
Proof. exact (intern_stores_safe E ls). Qed.
Print Assumptions C65_intern_any_stores_safe.
(** Later stores and calls take no handle back. *)
Theorem C65_intern_handles_for_ever {V Q : Type} (E : ienv V Q) ls2 st1 st2 t o p :
  EvRet t o (RPtr p) ∈ i_log st1 -> run (int_mstep E) st1 ls2 = Some st2 ->
  EvRet t o (RPtr p) ∈ i_log st2.
Proof. exact (intern_stores_persist E ls2 st1 st2 t o p). Qed.
Print Assumptions C65_intern_handles_for_ever.
(** After the store, 4 is interned again, and 8 is found where 4 was. *)
Example C65_intern_any_example :
  iread (miafter ex_set) ip4 = Some i8 /\ iread (miafter ex_set) ip8 = Some i4 /\
  set_of toyE (miafter ex_set) 0 = [ip8; ip4] /\
  List.filter (λ e, match e with EvRet _ _ _ => true | _ => false end) (i_log (miafter ex_set)) =
    [EvRet 2 (ONew i8) (RPtr ip4); EvRet 2 (ONew i4) (RPtr ip8); EvRet 1 (ONew i4) (RPtr ip4)].
Proof. split_and!; by vm_compute. Qed.

(** A value that is not stored to stays the same, whatever is done with the others and whatever Eq and Hash do. *)
Theorem C65_intern_unstored_values_stay {V Q : Type} (E : ienv V Q) ls1 ls2 st1 st2 t o p :
  run (int_mstep E) iinit ls1 = Some st1 -> EvRet t o (RPtr p) ∈ i_log st1 ->
  run (int_mstep E) st1 ls2 = Some st2 -> (forall v, MSet (IS p v) ∉ ls2) ->
  exists d, iread st1 p = Some d /\ iread st2 p = Some d.
Proof. exact (intern_unstored E ls1 ls2 st1 st2 t o p). Qed.
Print Assumptions C65_intern_unstored_values_stay.
(** One that is stored to has the value of the last store. *)
Theorem C65_intern_last_store_is_read {V Q : Type} (E : ienv V Q) ls1 ls2 st1 st2 t o p d v :
  run (int_mstep E) iinit ls1 = Some st1 -> EvRet t o (RPtr p) ∈ i_log st1 ->
  iread st1 p = Some d -> ie_ty E v = ie_ty E d -> ie_meta E v = ie_meta E d ->
  run (int_mstep E) st1 (MSet (IS p v) :: ls2) = Some st2 -> (forall w, MSet (IS p w) ∉ ls2) ->
  iread st2 p = Some v.
Proof. exact (intern_last_store E ls1 ls2 st1 st2 t o p d v). Qed.
Print Assumptions C65_intern_last_store_is_read.
(** The store is followed by two more calls; what is stored, 8, is not what the object was made for. *)
Example C65_intern_read_example :
  let st1 := miafter (take 6 ex_set) in let st2 := miafter ex_set in
  EvRet 1 (ONew i4) (RPtr ip4) ∈ i_log st1 /\ iread st1 ip4 = Some i4 /\
  run (int_mstep toyE) st1 (drop 6 ex_set) = Some st2 /\ iread st2 ip4 = Some i8.
Proof. split_and!; [apply elem_of_list_In; vm_compute; tauto|by vm_compute..]. Qed.

(** But equal values may get different handles. *)
Theorem C65_intern_unique_refuted :
  exists (E : ienv ival (nat * nat)) ls st t1 t2 v p q,
    ilawful E /\ icoherent E /\ zst_eq E /\ (forall t ty a, MDo (ICall t (OClear ty) a) ∉ ls) /\
    run (int_mstep E) iinit ls = Some st /\
    EvRet t1 (ONew v) (RPtr p) ∈ i_log st /\ EvRet t2 (ONew v) (RPtr q) ∈ i_log st /\ iptr_eqb p q = false.
Proof. exact intern_store_refute. Qed.
Print Assumptions C65_intern_unique_refuted.

(** Stores that Eq, Hash and Borrow do not see make no difference. *)
Theorem C65_intern_unseen_stores {V Q : Type} (E : ienv V Q) ls :
  iquiet E ls ->
  exists st st', run (int_mstep E) iinit ls = Some st /\ run (istep E) iinit (plain ls) = Some st' /\ ilike E st st'.
Proof. exact (iquiet_like E ls). Qed.
Print Assumptions C65_intern_unseen_stores.
Theorem C65_intern_eq_is_unseen {V Q : Type} (E : ienv V Q) d d' :
  ilawful E -> ie_eq E d d' = true -> ie_ty E d = ie_ty E d' -> ie_meta E d = ie_meta E d' -> iunseen E d d'.
Proof. exact (ieq_unseen E d d'). Qed.
Print Assumptions C65_intern_eq_is_unseen.
Example C65_intern_unseen_example :
  iquiet toyE ex_unseen /\ EvRead ip4 i5 ∈ i_log (miafter ex_unseen) /\
  EvRet 2 (ONew i4) (RPtr ip4) ∈ i_log (miafter ex_unseen).
Proof. split; [apply ex_unseen_quiet|]. split; apply elem_of_list_In; vm_compute; tauto. Qed.

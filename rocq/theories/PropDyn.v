(** Property C71: interning trait objects. *)
From stdpp Require Import gmap list numbers.
From Verif Require Import Base InternModel InternSpec InternEx NewModel NewEx ArenaModel ArenaEx DynSpec DynFinal.

(** C71.  That handles compare as the values do depends on the zero-sized values alone: those with the
    same pointer metadata have to be equal.  If two are not, a program that interns both gets equal handles. *)
Theorem C71_zero_sized {V Q : Type} (E : ienv V Q) ty :
  ilawful E -> icoherent E -> (intern_eq_right E ty <-> zst_eq_at E ty).
Proof. exact (intern_zst E ty). Qed.
Print Assumptions C71_zero_sized.
Theorem C71_zero_sized_typearena {V Q : Type} (E : ienv V Q) ty :
  ilawful E -> icoherent E -> (typearena_eq_right E ty <-> zst_eq_at E ty).
Proof. exact (typearena_zst E ty). Qed.
Print Assumptions C71_zero_sized_typearena.
Theorem C71_zero_sized_arena {V Q : Type} (E : ienv V Q) ty :
  ilawful E -> icoherent E -> zst_from E ty -> (arena_eq_right E ty <-> zst_eq_at E ty).
Proof. exact (arena_zst E ty). Qed.
Print Assumptions C71_zero_sized_arena.

(** For trait objects: it does not matter how many vtables a type has, and which of them a box comes with;
    what matters is that no two zero-sized types share one. *)
Theorem C71_trait_objects {V Q C : Type} (E : ienv V Q) (conc : V -> C) ty :
  ilawful E -> icoherent E -> by_concrete_type E conc ty -> (intern_eq_right E ty <-> zst_vtables E conc ty).
Proof. exact (intern_dyn E conc ty). Qed.
Print Assumptions C71_trait_objects.
Theorem C71_trait_objects_typearena {V Q C : Type} (E : ienv V Q) (conc : V -> C) ty :
  ilawful E -> icoherent E -> by_concrete_type E conc ty -> (typearena_eq_right E ty <-> zst_vtables E conc ty).
Proof. exact (typearena_dyn E conc ty). Qed.
Print Assumptions C71_trait_objects_typearena.
Theorem C71_trait_objects_arena {V Q C : Type} (E : ienv V Q) (conc : V -> C) ty :
  ilawful E -> icoherent E -> zst_from E ty -> by_concrete_type E conc ty -> (arena_eq_right E ty <-> zst_vtables E conc ty).
Proof. exact (arena_dyn E conc ty). Qed.
Print Assumptions C71_trait_objects_arena.

(** Four implementations of a trait, one of them with two vtables; if the vtables of the two structs without
    fields are merged, their handles are equal. *)
Example C71_example m :
  ilawful (dynE m) /\ icoherent (dynE m) /\ zst_from (dynE m) 0 /\ by_concrete_type (dynE m) do_type 0 /\
  zst_vtables (dynE false) do_type 0 /\ ~ zst_vtables (dynE true) do_type 0.
Proof. split_and!; [apply dynE_lawful|apply dynE_coherent|apply dynE_from|apply dynE_by_type|apply dynE_unmerged|apply dynE_merged]. Qed.
(** The same number, boxed with either vtable, and the two structs. *)
Definition ex_dyn : list (ilabel dobj (ctype * nat)) :=
  [ICall 1 (OBox (DObj CNum 7 0)) 100] ++ replicate 4 (IStep 1 0 0) ++
  [ICall 2 (OBox (DObj CNum 7 1)) 101] ++ replicate 4 (IStep 2 0 0) ++
  [ICall 1 (OBox (DObj CUnitA 0 0)) 0] ++ replicate 4 (IStep 1 0 0) ++
  [ICall 2 (OBox (DObj CUnitB 0 0)) 0] ++ replicate 4 (IStep 2 0 0).
Example C71_run_example :
  no_clear ex_dyn /\
  (let st := iafter (dynE false) ex_dyn in
   run (istep (dynE false)) iinit ex_dyn = Some st /\
   EvRet 1 (OBox (DObj CNum 7 0)) (RPtr (IPtr 100 2 0)) ∈ i_log st /\ EvRet 2 (OBox (DObj CNum 7 1)) (RPtr (IPtr 100 2 0)) ∈ i_log st /\
   EvRet 1 (OBox (DObj CUnitA 0 0)) (RPtr (IPtr 1 0 2)) ∈ i_log st /\ EvRet 2 (OBox (DObj CUnitB 0 0)) (RPtr (IPtr 1 1 3)) ∈ i_log st) /\
  (let st := iafter (dynE true) ex_dyn in
   run (istep (dynE true)) iinit ex_dyn = Some st /\
   EvRet 1 (OBox (DObj CUnitA 0 0)) (RPtr (IPtr 1 0 2)) ∈ i_log st /\ EvRet 2 (OBox (DObj CUnitB 0 0)) (RPtr (IPtr 1 0 3)) ∈ i_log st).
Proof.
  split.
  { intros t ty a H. unfold ex_dyn in H. cbn [replicate app] in H. repeat (apply elem_of_cons in H as [H|H]; [done|]). by apply elem_of_nil in H. }
  split; (split; [by apply iafter_run; vm_compute|]); split_and!; apply elem_of_list_In; vm_compute; tauto.
Qed.

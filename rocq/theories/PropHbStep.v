(** Properties C58, C59, C60, second half: the acts given to each step (HbModel.v, HbNewModel.v,
    HbArenaModel.v) account for everything that it does, so that the absence of data races is
    not due to an access that was left out.  Vocabulary: HbStepSpec.v.

    Reads: what a step is not said to access can be replaced by something else, and the step
    does the same as before (an allocation keeps its size).  Writes: what a step changes it is
    said to write.  Synchronisation: locks are acquired and released when the state of the lock
    changes, what a lock protects is accessed with the lock. *)
From stdpp Require Import gmap list numbers.
From Verif Require Import Base InternModel InternSpec InternEx NewModel NewEx ArenaModel ArenaEx HbSpec HbModel HbNewModel
  HbArenaModel HbStepSpec HbStep HbStepNew HbStepArena HbStepEx.

(** ** Intern (C58) *)
Theorem C58_reads_value {V Q} (E : ienv V Q) st t l st' s v :
  i_by l t = true -> istep E st l = Next st' -> ~ does_access (i_does E st t l) (LVal s) ->
  (forall x, i_value st s = Some x -> is_zst E v = is_zst E x) ->
  istep E (i_other_value st s v) l = Next (i_other_value st' s v).
Proof. exact (i_reads_value E st t l st' s v). Qed.
Print Assumptions C58_reads_value.
(** Thread 2 has a box of 5, not looked at yet; thread 1 inserts 4. *)
Example C58_reads_value_case :
  let st := iafter toyE step_ls in let l := IStep 1 0 0 in
  exists st', istep toyE st l = Next st' /\ ~ does_access (i_does toyE st 1 l) (LVal 0) /\
    i_value st 0 = Some (IV 0 5 0) /\ is_zst toyE (IV 0 7 0) = is_zst toyE (IV 0 5 0) /\
    i_value (i_other_value st' 0 (IV 0 7 0)) 0 = Some (IV 0 7 0).
Proof. eexists. split_and!; [by vm_compute|apply accessb_no; by vm_compute|by vm_compute..]. Qed.

Theorem C58_reads_set {V Q} (E : ienv V Q) st t l st' c m :
  i_by l t = true -> istep E st l = Next st' -> ~ does_access (i_does E st t l) (LSet (c, 0)) ->
  istep E (i_other_set st c m) l = Next (i_other_set st' c m).
Proof. exact (i_reads_set E st t l st' c m). Qed.
Print Assumptions C58_reads_set.
(** The call of thread 2 has not come to the set. *)
Example C58_reads_set_case :
  let st := iafter toyE (take 1 step_ls) in let l := ICall 2 (OBox (IV 0 5 0)) 200 in
  exists st', istep toyE st l = Next st' /\ ~ does_access (i_does toyE st 2 l) (LSet (5, 0)).
Proof. eexists. split_and!; [by vm_compute|apply accessb_no; by vm_compute]. Qed.

Theorem C58_writes {V Q} (E : ienv V Q) st t l st' :
  i_by l t = true -> istep E st l = Next st' -> i_written st (i_does E st t l) st'.
Proof. exact (i_writes E st t l st'). Qed.
Print Assumptions C58_writes.
Example C58_writes_case :
  let st := iafter toyE step_ls in let l := IStep 1 0 0 in
  exists st', istep toyE st l = Next st' /\ i_slots st !! 5 = Some [(0, [])] /\ i_slots st' !! 5 = Some [(0, [IPtr 100 0 1])].
Proof. eexists. split_and!; by vm_compute. Qed.

Theorem C58_syncs {V Q} (E : ienv V Q) ls st t l st' :
  run (istep E) iinit ls = Some st -> i_by l t = true -> istep E st l = Next st' ->
  i_synced st t (i_does E st t l) st'.
Proof. exact (i_syncs E ls st t l st'). Qed.
Print Assumptions C58_syncs.
Example C58_syncs_case :
  let ls := step_ls ++ [IStep 1 0 0] in let st := iafter toyE ls in let l := IStep 1 0 0 in
  exists st', run (istep toyE) iinit ls = Some st /\ istep toyE st l = Next st' /\
    i_locks st !! 5 = Some 1 /\ i_locks st' !! 5 = None.
Proof. eexists. split_and!; [apply iafter_run; by vm_compute|by vm_compute..]. Qed.

(** ** NewIntern (C59) *)
Theorem C59_reads_value {V Q} (E : ienv V Q) s t l s' k v :
  i_by l t = true -> nstep E s l = Next s' -> ~ does_access (n_does E s t l) (LVal k) ->
  (forall x, n_value s k = Some x -> is_zst E v = is_zst E x) ->
  nstep E (n_other_value s k v) l = Next (n_other_value s' k v).
Proof. exact (n_reads_value E s t l s' k v). Qed.
Print Assumptions C59_reads_value.
(** Thread 2 has a box of 5, not looked at yet; thread 1 inserts 4 into the set it has pushed. *)
Example C59_reads_value_case :
  let s := nafter toyE nstep_ls in let l := IStep 1 0 0 in
  exists s', nstep toyE s l = Next s' /\ ~ does_access (n_does toyE s 1 l) (LVal 0) /\
    n_value s 0 = Some (IV 0 5 0) /\ is_zst toyE (IV 0 7 0) = is_zst toyE (IV 0 5 0) /\
    n_value (n_other_value s' 0 (IV 0 7 0)) 0 = Some (IV 0 7 0).
Proof. eexists. split_and!; [by vm_compute|apply accessb_no; by vm_compute|by vm_compute..]. Qed.

Theorem C59_reads_set {V Q} (E : ienv V Q) s t l s' x m :
  i_by l t = true -> nstep E s l = Next s' -> ~ does_access (n_does E s t l) (LSet x) ->
  nstep E (n_other_set s x m) l = Next (n_other_set s' x m).
Proof. exact (n_reads_set E s t l s' x m). Qed.
Print Assumptions C59_reads_set.
(** Thread 2 searches the vector, not the set. *)
Example C59_reads_set_case :
  let s := nafter toyE nstep_ls in let l := IStep 2 0 0 in
  exists s', nstep toyE s l = Next s' /\ ~ does_access (n_does toyE s 2 l) (LSet (5, 0)) /\
    n_does toyE s 2 l = [AAcq (SElt (5, 0)); ATouch [(LElt (5, 0), false)]].
Proof. eexists. split_and!; [by vm_compute|apply accessb_no; by vm_compute|by vm_compute]. Qed.

Theorem C59_reads_elt {V Q} (E : ienv V Q) s t l s' c i ty :
  i_by l t = true -> nstep E s l = Next s' -> ~ does_access (n_does E s t l) (LElt (c, i)) -> i < length (nvec s c) ->
  nstep E (n_other_elt s c i ty) l = Next (n_other_elt s' c i ty).
Proof. exact (n_reads_elt E s t l s' c i ty). Qed.
Print Assumptions C59_reads_elt.
(** The vector has three elements, of types 0, 2 and 0; a search for type 0 ends at the first. *)
Example C59_reads_elt_case :
  let s0 := nafter toyE (ex_nall ++ [ICall 4 (OLen 0) 0]) in let l := IStep 4 0 0 in
  exists s', nstep toyE s0 l = Next s' /\ ~ does_access (n_does toyE s0 4 l) (LElt (5, 1)) /\ 1 < length (nvec s0 5) /\
    nvec s0 5 = [0; 2; 0] /\ nvec (n_other_elt s0 5 1 0) 5 = [0; 0; 0].
Proof. eexists. split_and!; [by vm_compute|apply accessb_no; by vm_compute|apply Nat.ltb_lt; by vm_compute|by vm_compute..]. Qed.

Theorem C59_writes {V Q} (E : ienv V Q) s t l s' :
  i_by l t = true -> nstep E s l = Next s' -> n_written s (n_does E s t l) s'.
Proof. exact (n_writes E s t l s'). Qed.
Print Assumptions C59_writes.
Example C59_writes_case :
  let s := nafter toyE nstep_ls in let l := IStep 1 0 0 in
  exists s', nstep toyE s l = Next s' /\ nset s (5, 0) = [] /\ nset s' (5, 0) = [IPtr 100 0 1].
Proof. eexists. split_and!; by vm_compute. Qed.

Theorem C59_syncs {V Q} (E : ienv V Q) ls s t l s' :
  run (nstep E) ninit ls = Some s -> i_by l t = true -> nstep E s l = Next s' ->
  n_synced s t (n_does E s t l) s'.
Proof. exact (n_syncs E ls s t l s'). Qed.
Print Assumptions C59_syncs.
Example C59_syncs_case :
  let ls := nstep_ls ++ [IStep 1 0 0] in let s := nafter toyE ls in let l := IStep 1 0 0 in
  exists s', run (nstep toyE) ninit ls = Some s /\ nstep toyE s l = Next s' /\
    n_locks s !! (5, 0) = Some 1 /\ n_locks s' !! (5, 0) = None.
Proof. eexists. split_and!; [apply nafter_run; by vm_compute|by vm_compute..]. Qed.

(** ** Arena (C60) *)
Theorem C60_reads_value {V Q} (E : ienv V Q) st t l st' s v :
  a_by l t = true -> astep E st l = Next st' -> ~ does_access (a_does st t l) (LVal s) ->
  (forall x, a_value st s = Some x -> is_zst E v = is_zst E x) ->
  astep E (a_other_value st s v) l = Next (a_other_value st' s v).
Proof. exact (a_reads_value E st t l st' s v). Qed.
Print Assumptions C60_reads_value.
(** Thread 2 has a box of 5, not looked at yet; thread 1 inserts 4. *)
Example C60_reads_value_case :
  let st := aafter toyE astep_ls in let l := LStep 1 0 0 in
  exists st', astep toyE st l = Next st' /\ ~ does_access (a_does st 1 l) (LVal 0) /\
    a_value st 0 = Some (IV 0 5 0) /\ is_zst toyE (IV 0 7 0) = is_zst toyE (IV 0 5 0) /\
    a_value (a_other_value st' 0 (IV 0 7 0)) 0 = Some (IV 0 7 0).
Proof. eexists. split_and!; [by vm_compute|apply accessb_no; by vm_compute|by vm_compute..]. Qed.

Theorem C60_reads_set {V Q} (E : ienv V Q) st t l st' r m :
  a_by l t = true -> astep E st l = Next st' -> ~ does_access (a_does st t l) (LSet (r, 0)) ->
  astep E (a_other_set st r m) l = Next (a_other_set st' r m).
Proof. exact (a_reads_set E st t l st' r m). Qed.
Print Assumptions C60_reads_set.
(** The other arena plays no part. *)
Example C60_reads_set_case :
  let st := aafter toyE astep_ls in let l := LStep 1 0 0 in
  exists st', astep toyE st l = Next st' /\ ~ does_access (a_does st 1 l) (LSet (1, 0)) /\
    a_set (a_other_set st' 1 [IPtr 7 0 0]) 1 = [IPtr 7 0 0].
Proof. eexists. split_and!; [by vm_compute|apply accessb_no; by vm_compute|by vm_compute]. Qed.

Theorem C60_writes {V Q} (E : ienv V Q) st t l st' :
  a_by l t = true -> astep E st l = Next st' -> a_written st (a_does st t l) st'.
Proof. exact (a_writes E st t l st'). Qed.
Print Assumptions C60_writes.
Example C60_writes_case :
  let st := aafter toyE astep_ls in let l := LStep 1 0 0 in
  exists st', astep toyE st l = Next st' /\ a_set st 0 = [] /\ a_set st' 0 = [IPtr 100 0 1].
Proof. eexists. split_and!; by vm_compute. Qed.

Theorem C60_syncs {V Q} (E : ienv V Q) ls st t l st' :
  run (astep E) ainit ls = Some st -> a_by l t = true -> astep E st l = Next st' ->
  a_synced st t l (a_does st t l) st'.
Proof. exact (a_syncs E ls st t l st'). Qed.
Print Assumptions C60_syncs.
(** A lock is released; the end of a call. *)
Example C60_syncs_case :
  let ls := astep_ls ++ steps 1 0 2 in let st := aafter toyE ls in let l := LStep 1 0 0 in
  exists st' st2, run (astep toyE) ainit ls = Some st /\ astep toyE st l = Next st' /\
    a_locks st !! 0 = Some 1 /\ a_locks st' !! 0 = None /\
    run (astep toyE) ainit (ls ++ [l]) = Some st' /\ astep toyE st' l = Next st2 /\
    a_does st' 1 l = [ATouch []; AGot (IPtr 100 0 1); AEnd 0].
Proof. eexists _, _. split_and!; [apply aafter_run; by vm_compute|by vm_compute..]. Qed.

(** Property C51: data races in ArcIntern (src/arc.rs 220-325, src/arc_dst.rs 66-119). *)
From stdpp Require Import gmap list numbers.
From Verif Require Import Base ArcModel ArcSpec ArcEx RaceModel RaceSpec RaceThm RaceEx.

(** ** C51.  If the decrement in Drop is an acquire and a release operation then, whatever the
    orderings of the other operations on the counts, no execution has a data race: creation and
    destruction of an interned value are ordered by happens-before with every other access
    to it. *)
Theorem C51_race_free {V} (E : tyenv V) (O : orders) (ls : list (rlabel V)) :
  coherent E -> wide E ->
  acquires (o_sub O) = true -> releases (o_sub O) = true ->
  rbounded E O ls ->
  is_Some (run (rstep E O) rinit ls) /\ race_free (events E O ls).
Proof. exact (rrun_race_free E O ls). Qed.
Print Assumptions C51_race_free.

(** In particular with the orderings in the code; and should the load of [refcount()] read an
    old value and not synchronise. *)
Theorem C51_code_race_free {V} (E : tyenv V) (o_load : ordering) (ls : list (rlabel V)) :
  coherent E -> wide E ->
  let O := Orders SeqCst SeqCst Relaxed SeqCst o_load in
  rbounded E O ls ->
  is_Some (run (rstep E O) rinit ls) /\ race_free (events E O ls).
Proof. intros HL HW O. exact (rrun_race_free E O ls HL HW eq_refl eq_refl). Qed.
Print Assumptions C51_code_race_free.

(** The hypotheses are met by an execution in which two threads share a value, read it
    through handles and through handles inside another value, and destroy both. *)
Example race_free_case : coherent exE /\ wide exE /\ rbounded exE code_orders race_ls
  /\ length (events exE code_orders race_ls) = 46
  /\ events exE code_orders race_ls !! 22 = Some (2, MTouch [(1, TRead); (0, TRead)])
  /\ events exE code_orders race_ls !! 34 = Some (1, MTouch [(1, TWrite)])
  /\ events exE code_orders race_ls !! 37 = Some (1, MRmw 0 SeqCst)
  /\ events exE code_orders race_ls !! 44 = Some (2, MTouch [(0, TWrite)]).
Proof.
  assert (coherent exE) as HC by apply lawful_coherent, nodes_lawful.
  assert (wide exE) as HW by (unfold wide; simpl; lia).
  split; [done|]. split; [done|].
  split; [apply rshort_bounded; [done|done|vm_compute; done]|].
  repeat (split; [vm_compute; reflexivity|]). vm_compute. reflexivity.
Qed.

(** Weaker orderings are not enough: whatever the other orderings, with a decrement that does
    not acquire or does not release there is a race. *)
Theorem C51_weaker_drop_races (O : orders) :
  acquires (o_sub O) = false \/ releases (o_sub O) = false ->
  exists (E : tyenv node) ls, lawful E /\ wide E /\ rbounded E O ls /\
    is_Some (run (rstep E O) rinit ls) /\ data_race (events E O ls).
Proof.
  exact (λ HO, ex_intro _ exE (ex_intro _ share_ls (share_witness O HO))).
Qed.
Print Assumptions C51_weaker_drop_races.

Example weaker_drop_case :
  let O := Orders SeqCst SeqCst SeqCst Release SeqCst in
  acquires (o_sub O) = false /\ releases (o_sub O) = true.
Proof. done. Qed.

(** The instrumented executions are those of ArcModel, no more and no less. *)
Theorem C51_model_exact {V} (E : tyenv V) (O : orders) (st : state V) :
  (exists ls, run (step E) init ls = Some st) <->
  (exists rls s, run (rstep E O) rinit rls = Some s /\ r_st s = st).
Proof. exact (rrun_exact E O st). Qed.
Print Assumptions C51_model_exact.

Theorem C51_model_ub {V} (E : tyenv V) (O : orders) :
  (exists ls, run (step E) init ls = None) <-> (exists rls, run (rstep E O) rinit rls = None).
Proof. exact (rrun_ub_exact E O). Qed.
Print Assumptions C51_model_ub.

Example race_model_case :
  exists rls s, run (rstep exE code_orders) rinit rls = Some s /\ r_st s = after exE (ex_ls ++ ex_reads).
Proof.
  apply C51_model_exact. exists (ex_ls ++ ex_reads). apply after_run. vm_compute. reflexivity.
Qed.

(** Subtyping: property C64.  Statements only; vocabulary in VarSpec.v. *)
From stdpp Require Import gmap list numbers.
From Verif Require Import Base ArcModel ArcSpec ArcEx VarModel VarSpec VarProof InternModel InternSpec InternEx VarEx.

(** Lawful types, no panics, no overflow, one thread: undefined behaviour. *)
Theorem C64_memory_safe_refuted :
  exists (E : tyenv node) up ls,
    lawful E /\ up_typed E up /\ (forall ty v v', up ty v = Some v' -> te_kids E v' = te_kids E v) /\
    (N.of_nat (length ls) < te_mod E)%N /\ (forall t, VDo (LPanic t) ∉ ls) /\
    run (vstep E up) init ls = None.
Proof. exact five_lines_refute. Qed.
Print Assumptions C64_memory_safe_refuted.

(** Not a matter of particular types: the same five lines do it for every proper supertype. *)
Theorem C64_five_lines {V : Type} (E : tyenv V) up ty v w :
  up ty v = Some w -> te_ty E w <> te_ty E v -> te_eq E w w = true ->
  te_kids E v = [] -> te_kids E w = [] ->
  run (vstep E up) init (five_lines ty v w) = None.
Proof. exact (five_lines_ub E up ty v w). Qed.
Print Assumptions C64_five_lines.
(** All but the last of the five lines can be executed; the object of [b] is then gone. *)
Example C64_five_example :
  zero_below_one 1 leaf4 = Some leaf4' /\ te_ty exE leaf4' <> te_ty exE leaf4 /\
  let st := vafter (removelast (five_lines 1 leaf4 leaf4')) in
  st_pool st = [Ptr 1 1] /\ get_pc st 0 = PWork [IFree (Ptr 1 1)] None /\ data st (Ptr 1 1) = None /\
  data (vafter (undisturbed 0 0 leaf4 ++ undisturbed 0 1 leaf4')) (Ptr 1 1) = Some leaf4'.
Proof. split_and!; by vm_compute. Qed.

(** In any state: once the search at the other type finds an object that a client has a handle
    to, reading through that handle is undefined behaviour. *)
Theorem C64_finds_a_live_object {V : Type} (E : tyenv V) up st t ty i st1 l q w r :
  vstep E up st (VAs t ty i) = Next st1 -> get_pc st1 t = PRem l q w r -> q ∈ st_pool st ->
  run (vstep E up) st1 [VDo (LStep t 0 0); VDo (LDeref q [])] = None.
Proof. exact (found_ub' E up st t ty i st1 l q w r). Qed.
Print Assumptions C64_finds_a_live_object.
Example C64_finds_example :
  let ls := undisturbed 0 0 leaf4 ++ undisturbed 0 1 leaf4' ++ [VDo (LDrop 0 (Ptr 0 0)); VDo (LStep 0 0 0)] in
  get_pc (vafter (ls ++ [VAs 0 1 0])) 0 = PRem (1, 0) (Ptr 1 1) [] None /\
  Ptr 1 1 ∈ st_pool (vafter ls).
Proof. split; [by vm_compute|apply elem_of_list_In; vm_compute; tauto]. Qed.

(** Where the type is the one the handle was made with, the drop is the one of ArcModel. *)
Theorem C64_same_type {V : Type} (E : tyenv V) up st t a ty i p w r d :
  get_pc st t = PWork (IRemove p :: w) r -> data st p = Some d -> p ∈ st_table st -> te_eq E d d = true ->
  up ty d = Some d -> vstep E up st (VAs t ty i) = step E st (LStep t a i).
Proof. exact (same_type E up st t a ty i p w r d). Qed.
Print Assumptions C64_same_type.
Example C64_same_example :
  get_pc (vafter lose_leaf) 1 = PWork [IRemove exA] None /\ data (vafter lose_leaf) exA = Some leaf4 /\
  exA ∈ st_table (vafter lose_leaf) /\ te_eq exE leaf4 leaf4 = true.
Proof. split_and!; [by vm_compute..|apply elem_of_list_In; vm_compute; tauto|done]. Qed.

(** If no value equal to a coerced one is interned at the other type, memory is safe. *)
Theorem C64_safe_when_apart {V : Type} (E : tyenv V) up ls :
  coherent E -> wide E -> apart E up ls -> vbounded E up ls -> run (vstep E up) init ls <> None.
Proof. exact (λ HC HW, apart_safe E up HC HW ls). Qed.
Print Assumptions C64_safe_when_apart.
Theorem C64_safe_when_apart_short {V : Type} (E : tyenv V) up ls :
  coherent E -> wide E -> apart E up ls -> (N.of_nat (length ls) < te_mod E)%N -> run (vstep E up) init ls <> None.
Proof. exact (λ HC HW, apart_safe_short E up HC HW ls). Qed.
Print Assumptions C64_safe_when_apart_short.
Example C64_apart_example :
  let ls := lose_leaf ++ VAs 1 1 0 :: want_leaf in
  apart exE zero_below_one ls /\ vbounded exE zero_below_one ls /\
  zero_below_one 1 leaf4 <> None /\ vafter (lose_leaf ++ [VAs 1 1 0]) <> vafter lose_leaf.
Proof.
  split_and!; [apply zeros_apart; repeat constructor|apply zeros_bounded; [repeat constructor|by vm_compute]|done|].
  intros H%(f_equal st_zombies). by vm_compute in H.
Qed.

(** But the object is never freed, and no call that interns an Eq value ever returns: it goes
    round in its loop, waiting for the object to disappear. *)
Theorem C64_lost_for_ever {V : Type} (E : tyenv V) up ls1 st0 t0 ty i p w r d st1 ls2 ls3 st2 st3 :
  lawful E -> wide E ->
  apart E up (ls1 ++ VAs t0 ty i :: ls2 ++ ls3) -> vbounded E up (ls1 ++ VAs t0 ty i :: ls2 ++ ls3) ->
  run (vstep E up) init ls1 = Some st0 ->
  get_pc st0 t0 = PWork (IRemove p :: w) r -> data st0 p = Some d ->
  vstep E up st0 (VAs t0 ty i) = Next st1 ->
  run (vstep E up) st1 ls2 = Some st2 -> run (vstep E up) st2 ls3 = Some st3 ->
  p ∈ st_table st3 /\ data st3 p = Some d /\ handles_to E st3 p = 0 /\
  (exists new, st_log st3 = new ++ st_log st1 /\
     forall t v q, EvNew t v q ∈ new -> te_eq E v d = false) /\
  (forall t v, interning st2 t v -> te_eq E v d = true -> VDo (LPanic t) ∉ ls3 -> interning st3 t v).
Proof. exact (λ HL HW, lost E up HL HW ls1 st0 t0 ty i p w r d st1 ls2 ls3 st2 st3). Qed.
Print Assumptions C64_lost_for_ever.
Example C64_lost_example :
  let ls := lose_leaf ++ VAs 1 1 0 :: want_leaf ++ replicate 100 (VDo (LStep 2 0 0)) in
  apart exE zero_below_one ls /\ vbounded exE zero_below_one ls /\
  get_pc (vafter lose_leaf) 1 = PWork [IRemove exA] None /\ data (vafter lose_leaf) exA = Some leaf4 /\
  vstep exE zero_below_one (vafter lose_leaf) (VAs 1 1 0) = Next (vafter (lose_leaf ++ [VAs 1 1 0])) /\
  interning (vafter (lose_leaf ++ VAs 1 1 0 :: want_leaf)) 2 leaf5 /\ te_eq exE leaf5 leaf4 = true /\
  get_pc (vafter ls) 2 <> PFree.
Proof.
  split_and!; [apply zeros_apart; repeat constructor|apply zeros_bounded; [repeat constructor|by vm_compute]|by vm_compute..].
Qed.

(** Handles of one type, equal values, different handles. *)
Theorem C64_handles_eq_refuted :
  exists (E : tyenv node) up ls st p q v w ty,
    lawful E /\ up_typed E up /\ (N.of_nat (length ls) < te_mod E)%N /\
    run (vstep E up) init ls = Some st /\ p ∈ st_pool st /\ q ∈ st_pool st /\
    data st p = Some v /\ data st q = Some w /\ up ty v = Some w /\ te_ty E w = ty /\
    te_eq E w w = true /\ handle_eqb p q = false.
Proof. exact two_handles_refute. Qed.
Print Assumptions C64_handles_eq_refuted.

(** [Intern<T>] is a [&'static T] and covariant too: nothing dangles, but handles that have been
    coerced are not equal to handles of the other type, whatever Eq says. *)
Theorem C64_intern_handles_eq_refuted :
  exists (E : ienv ival (nat * nat)) (up : nat -> ival -> option ival) ls st t1 p1 t2 p2 v w,
    ilawful E /\ icoherent E /\ zst_eq E /\ no_clear ls /\ run (istep E) iinit ls = Some st /\
    (forall ty u u', up ty u = Some u' -> ie_ty E u' = ty) /\ up (ie_ty E w) v = Some w /\
    EvRet t1 (ONew v) (RPtr p1) ∈ i_log st /\ EvRet t2 (ONew w) (RPtr p2) ∈ i_log st /\
    iread st p1 = Some v /\ iread st p2 = Some w /\ ie_eq E w w = true /\ iptr_eqb p1 p2 = false.
Proof. exact intern_two_refute. Qed.
Print Assumptions C64_intern_handles_eq_refuted.

Theorem C64_intern_never_equal {V Q : Type} (E : ienv V Q) ls st t1 o1 p1 t2 o2 p2 v1 v2 :
  run (istep E) iinit ls = Some st ->
  EvRet t1 o1 (RPtr p1) ∈ i_log st -> EvRet t2 o2 (RPtr p2) ∈ i_log st -> op_ty E o1 <> op_ty E o2 ->
  iread st p1 = Some v1 -> iread st p2 = Some v2 -> is_zst E v1 = false -> is_zst E v2 = false ->
  iptr_eqb p1 p2 = false.
Proof. exact (other_type_other_handle E ls st t1 o1 p1 t2 o2 p2 v1 v2). Qed.
Print Assumptions C64_intern_never_equal.
Example C64_intern_example :
  let st := iafter toyE ex_two in
  EvRet 1 (ONew (IV 0 4 0)) (RPtr (IPtr 100 0 0)) ∈ i_log st /\
  EvRet 1 (ONew (IV 1 4 0)) (RPtr (IPtr 200 0 1)) ∈ i_log st /\
  op_ty toyE (ONew (IV 0 4 0)) <> op_ty toyE (ONew (IV 1 4 0)) /\
  iread st (IPtr 100 0 0) = Some (IV 0 4 0) /\ iread st (IPtr 200 0 1) = Some (IV 1 4 0).
Proof. split_and!; [apply elem_of_list_In; vm_compute; tauto|apply elem_of_list_In; vm_compute; tauto|done|by vm_compute|by vm_compute]. Qed.

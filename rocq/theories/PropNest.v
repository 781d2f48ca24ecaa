(** Property C53: ArcIntern and user code that calls back (src/arc.rs 224-322, src/arc_dst.rs
    66-119). *)
From stdpp Require Import gmap list numbers relations.
From Verif Require Import Base ArcModel ArcSpec ArcEx NestModel NestSpec NestFinal SpinSpec NestSpin.

(** ** C53.  Whatever Hash, Eq and Drop call, memory safety holds, *)
Theorem C53_reentrant_memory_safe {V : Type} (E : tyenv V) nls :
  tame E -> wide E -> nbounded E nls -> run (nstep E) ninit nls <> None.
Proof. exact (nested_safe E nls). Qed.
Print Assumptions C53_reentrant_memory_safe.

(** and everything proved about the states of concurrent executions without call-backs holds:
    the states are the same. *)
Theorem C53_reentrant_is_concurrent {V : Type} (E : tyenv V) nls ns :
  run (nstep E) ninit nls = Some ns ->
  exists ls, sublist (NDo <$> ls) nls /\ run (step E) init ls = Some (n_arc ns) /\
    (nbounded E nls -> bounded E ls).
Proof. exact (nested_concurrent E nls ns). Qed.
Print Assumptions C53_reentrant_is_concurrent.

(** Thread 1 looks for [leaf4] and Eq interns a value of another type meanwhile. *)
Definition inner : node := Node 1 7 [].
Definition ex_call_back : list (nlabel node) :=
  [NDo (LNew 1 KSized leaf4); NEnter 1; NCall 1 5] ++ (NDo <$> intern 5 20 KSized inner) ++
  [NEnd 1] ++ (NDo <$> steps 1 10 6).
Example C53_safe_example :
  tame exE /\ wide exE /\ nbounded exE ex_call_back /\
  run (nstep exE) ninit ex_call_back = Some (nafter exE ex_call_back) /\
  st_log (n_arc (nafter exE ex_call_back)) = [EvNew 1 leaf4 (Ptr 10 1); EvNew 5 inner (Ptr 20 0)].
Proof.
  split_and!; [apply lawful_tame, nodes_lawful|done|by apply nshort_bounded; [apply lawful_coherent, nodes_lawful|..]|by apply nafter_run; vm_compute|by vm_compute].
Qed.

(** Every call-back is allowed, at any level of nesting: Hash and Eq in the searches, destructors of
    values in the drops. *)
Theorem C53_any_call_back {V : Type} (E : tyenv V) ns t :
  (exists k v b, get_pc (n_arc ns) t = PLookup k v b) \/ (exists k v q, get_pc (n_arc ns) t = PEntry k v q) \/
  (exists w r, get_pc (n_arc ns) t = PWork w r) ->
  n_kid ns !! t = None ->
  exists m, forall u, m <= u ->
    nstep E ns (NCall t u) = Next (NState (n_arc ns) (<[t:=u]> (n_kid ns)) (n_in ns)).
Proof. exact (fresh_call E ns t). Qed.
Print Assumptions C53_any_call_back.
(** Inside the second of two call-backs. *)
Definition ex_deeper : list (nlabel node) :=
  [NDo (LNew 1 KSized leaf4); NEnter 1; NCall 1 5; NDo (LNew 5 KSized inner); NCall 5 7; NDo (LNew 7 KSized leaf5)].
Example C53_any_example :
  let ns := nafter exE ex_deeper in
  run (nstep exE) ninit ex_deeper = Some ns /\ n_kid ns !! 1 = Some 5 /\ n_kid ns !! 5 = Some 7 /\
  get_pc (n_arc ns) 7 = PLookup KSized leaf5 None /\ n_kid ns !! 7 = None.
Proof. split_and!; [by apply nafter_run; vm_compute|by vm_compute..]. Qed.

(** There is no deadlock if what is called inside a search needs only locks that come earlier
    in some order than the one the search holds. *)
Theorem C53_no_deadlock_if_ordered {V : Type} (E : tyenv V) (rank : nat * nat -> nat) nls ns t :
  coherent E -> wide E -> nbounded E nls -> run (nstep E) ninit nls = Some ns ->
  in_order E rank ns -> get_pc (n_arc ns) t <> PFree ->
  exists l ns', nstep E ns l = Next ns' /\
    ((exists u a, l = NDo (LStep u a 0)) \/ exists u, l = NEnd u).
Proof. exact (λ HC HW, ordered_goes_on E HC HW rank nls ns t). Qed.
Print Assumptions C53_no_deadlock_if_ordered.
(** In the middle of the call-back; thread 2 waits for thread 1. *)
Definition ex_middle : list (nlabel node) :=
  [NDo (LNew 1 KSized leaf4); NEnter 1; NCall 1 5; NDo (LNew 5 KSized inner); NDo (LNew 2 KSized leaf5)].
Example C53_ordered_example :
  let ns := nafter exE ex_middle in
  nbounded exE ex_middle /\ run (nstep exE) ninit ex_middle = Some ns /\
  in_order exE (λ lk, 1 - fst lk) ns /\ get_pc (n_arc ns) 2 = PLookup KSized leaf5 None /\
  nstep exE ns (NDo (LStep 2 0 0)) = Blocked /\ nstep exE ns (NDo (LStep 1 0 0)) = Illegal.
Proof.
  split_and!; [by apply nshort_bounded; [apply lawful_coherent, nodes_lawful|..]|by apply nafter_run; vm_compute| |by vm_compute..].
  assert (n_in (nafter exE ex_middle) = {[(0, 0) := 1]}) as Hin by by vm_compute.
  assert (n_kid (nafter exE ex_middle) = {[1 := 5]}) as Hkid by by vm_compute.
  intros lk t u lk' Hlk Hw Hne Hwant. rewrite Hin in Hlk. apply lookup_singleton_Some in Hlk as [<- <-].
  unfold within in Hw. rewrite Hkid in Hw.
  assert (u = 5) as ->.
  { apply rtc_inv in Hw as [<-|(y&Hy&Hw)]; [done|]. apply lookup_singleton_Some in Hy as [_ <-].
    apply rtc_inv in Hw as [<-|(y&Hy&_)]; [done|]. by apply lookup_singleton_Some in Hy as [? _]. }
  assert (want exE (n_arc (nafter exE ex_middle)) 5 = Some (1, 1)) as Hw5 by by vm_compute.
  rewrite Hw5 in Hwant. injection Hwant as <-. simpl. lia.
Qed.

(** But a call-back that interns a value of the shard that the search has locked never returns,
    and so none of the calls it runs in. *)
Theorem C53_same_shard_deadlocks {V : Type} (E : tyenv V) nls0 ns0 lk t u k v b nls ns :
  run (nstep E) ninit nls0 = Some ns0 -> n_in ns0 !! lk = Some t -> within ns0 t u -> u <> t ->
  get_pc (n_arc ns0) u = PLookup k v b -> lock_of E v = lk ->
  run (nstep E) ns0 nls = Some ns -> NDo (LPanic u) ∉ nls ->
  forall x, within ns0 t x -> within ns0 x u ->
    get_pc (n_arc ns) x = get_pc (n_arc ns0) x /\ get_pc (n_arc ns) x <> PFree.
Proof. exact (stuck_run E nls0 ns0 lk t u k v b nls ns). Qed.
Print Assumptions C53_same_shard_deadlocks.
(** Eq of [leaf4] interns a value with another hash; there are two shards. *)
Definition ex_stuck : list (nlabel node) :=
  [NDo (LNew 1 KSized leaf4); NEnter 1; NCall 1 5; NDo (LNew 5 KSized (Node 0 8 []))].
Example C53_deadlock_example :
  let ns := nafter exE ex_stuck in
  run (nstep exE) ninit ex_stuck = Some ns /\ n_in ns !! (0, 0) = Some 1 /\ within ns 1 5 /\
  get_pc (n_arc ns) 5 = PLookup KSized (Node 0 8 []) None /\ lock_of exE (Node 0 8 []) = (0, 0) /\
  te_hash exE leaf4 <> te_hash exE (Node 0 8 []).
Proof.
  split_and!; [by apply nafter_run; vm_compute|by vm_compute| |by vm_compute..|done].
  apply rtc_once. by vm_compute.
Qed.

(** A call-back made by Hash or Eq while the last handle to [p] is being dropped, if it interns an equal
    value, goes round its loop for ever, even if it needs no lock: it waits for the call it runs in. *)
Theorem C53_equal_value_waits_for_itself {V : Type} (E : tyenv V) nls0 ns0 nls ns t p d u v :
  lawful E -> wide E -> nbounded E (nls0 ++ nls) ->
  run (nstep E) ninit nls0 = Some ns0 -> run (nstep E) ns0 nls = Some ns ->
  removing (n_arc ns0) t p -> data (n_arc ns0) p = Some d -> te_eq E v d = true ->
  within ns0 t u -> u <> t -> interning (n_arc ns0) u v -> NDo (LPanic u) ∉ nls ->
  get_pc (n_arc ns) t = get_pc (n_arc ns0) t /\ interning (n_arc ns) u v.
Proof.
  exact (λ HL HW, waits_inside E (lawful_coherent E HL) HW (law_trans E HL) nls0 ns0 nls ns t p d u v).
Qed.
Print Assumptions C53_equal_value_waits_for_itself.
(** Thread 1 drops the last handle; no shard is locked when Hash interns an equal value. *)
Definition ex_hash_interns : list (nlabel node) :=
  (NDo <$> intern 1 10 KSized leaf4 ++ [LDrop 1 exA; LStep 1 0 0]) ++ [NCall 1 5; NDo (LNew 5 KSized leaf5)].
Example C53_waits_example :
  let ns0 := nafter exE ex_hash_interns in let nls := NDo <$> steps 5 20 100 in
  nbounded exE (ex_hash_interns ++ nls) /\ run (nstep exE) ninit ex_hash_interns = Some ns0 /\
  run (nstep exE) ns0 nls = Some (nafter exE (ex_hash_interns ++ nls)) /\
  removing (n_arc ns0) 1 exA /\ data (n_arc ns0) exA = Some leaf4 /\ te_eq exE leaf5 leaf4 = true /\
  within ns0 1 5 /\ interning (n_arc ns0) 5 leaf5 /\ n_in ns0 = ∅ /\ st_locks (n_arc ns0) = ∅.
Proof.
  split_and!; [by apply nshort_bounded; [apply lawful_coherent, nodes_lawful|..]|by apply nafter_run; vm_compute|
    | |by vm_compute..| |by vm_compute|by vm_compute|].
  - assert (run (nstep exE) ninit ex_hash_interns = Some (nafter exE ex_hash_interns)) as H by (by apply nafter_run; vm_compute).
    assert (run (nstep exE) ninit (ex_hash_interns ++ (NDo <$> steps 5 20 100)) =
      Some (nafter exE (ex_hash_interns ++ (NDo <$> steps 5 20 100)))) as H2 by (by apply nafter_run; vm_compute).
    by rewrite run_app, H in H2.
  - assert (get_pc (n_arc (nafter exE ex_hash_interns)) 1 = PWork [IRemove exA] None) as Hpc by by vm_compute.
    unfold removing. rewrite Hpc. by left.
  - apply rtc_once. by vm_compute.
  - apply (bool_decide_unpack _). by vm_compute.
Qed.

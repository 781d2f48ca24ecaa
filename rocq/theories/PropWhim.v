(** Property C76: user code that answers differently every time it is asked (src/intern.rs 160-290,
    typearena.rs 60-305, arena.rs 59-174, arc.rs 140-390).  Vocabulary: WhimSpec.v, TermSpec.v. *)
From stdpp Require Import gmap list numbers.
From Verif Require Import Base InternModel InternSpec InternEx NewModel NewSpec NewWait NewEx
  ArenaModel ArenaSpec ArenaEx ArcModel TermSpec WhimSpec Whim WhimArena WhimEx.

(** ** C76.  Whatever [Eq], [Hash] and [Borrow] answer in each single step, Intern has no undefined
    behaviour, *)
Theorem C76_intern_safe {V Q : Type} (E : ienv V Q) ls : exists st, run (whim istep E) iinit ls = Some st.
Proof. exact (w_safe E ls). Qed.
Print Assumptions C76_intern_safe.
Theorem C76_new_safe {V Q : Type} (E : ienv V Q) ls : exists s, run (whim nstep E) ninit ls = Some s.
Proof. exact (wn_safe E ls). Qed.
Print Assumptions C76_new_safe.
(** and every handle points to one value of its type for ever. *)
Theorem C76_intern_handles {V Q : Type} (E : ienv V Q) ls1 ls2 st1 st2 t o p c :
  run (whim istep E) iinit ls1 = Some st1 -> EvRet t o (RPtr p) ∈ i_log st1 -> run (whim istep E) st1 ls2 = Some st2 ->
  exists v, ie_ty E v = op_ty E o /\ ip_meta p = ie_meta E v /\
    i_objs st1 !! ip_ser p = Some (IObj (ip_addr p) v true) /\
    i_objs st2 !! ip_ser p = Some (IObj (ip_addr p) v true) /\
    whim istep E st2 (c, IDeref p) = Next (add_event st2 (EvRead p v)).
Proof. exact (w_handle E ls1 ls2 st1 st2 t o p c). Qed.
Print Assumptions C76_intern_handles.
Theorem C76_new_handles {V Q : Type} (E : ienv V Q) ls1 ls2 s1 s2 t o p c :
  run (whim nstep E) ninit ls1 = Some s1 -> EvRet t o (RPtr p) ∈ n_log s1 -> run (whim nstep E) s1 ls2 = Some s2 ->
  exists v, ie_ty E v = op_ty E o /\ ip_meta p = ie_meta E v /\
    n_objs s1 !! ip_ser p = Some (IObj (ip_addr p) v true) /\
    n_objs s2 !! ip_ser p = Some (IObj (ip_addr p) v true) /\
    whim nstep E s2 (c, IDeref p) = Next (nevent s2 (EvRead p v)).
Proof. exact (wn_handle E ls1 ls2 s1 s2 t o p c). Qed.
Print Assumptions C76_new_handles.
(** 8 is interned; a search with an Eq that says no misses it, the insertion with an Eq that says yes
    keeps the old entry; the handle returned points to the new value all the same. *)
Example C76_handles_example :
  (run iw iinit w_odd = Some (wafter iw iinit w_odd) /\
   run iw (wafter iw iinit w_odd) w_odd_end = Some (wafter iw (wafter iw iinit w_odd) w_odd_end) /\
   EvRet 1 (ORef 0 0 (8, 0)) (RPtr (IPtr 101 0 2)) ∈ i_log (wafter iw (wafter iw iinit w_odd) w_odd_end) /\
   iread (wafter iw (wafter iw iinit w_odd) w_odd_end) (IPtr 101 0 2) = Some (IV 0 8 0) /\
   set_of fullE (wafter iw (wafter iw iinit w_odd) w_odd_end) 0 = [IPtr 99 0 0]) /\
  (run nw ninit wn_odd = Some (wafter nw ninit wn_odd) /\
   run nw (wafter nw ninit wn_odd) wn_odd_end = Some (wafter nw (wafter nw ninit wn_odd) wn_odd_end) /\
   EvRet 1 (ORef 0 0 (8, 0)) (RPtr (IPtr 101 0 2)) ∈ n_log (wafter nw (wafter nw ninit wn_odd) wn_odd_end) /\
   n_objs (wafter nw (wafter nw ninit wn_odd) wn_odd_end) !! 2 = Some (IObj 101 (IV 0 8 0) true)).
Proof.
  split_and!; first [by apply wafter_run; vm_compute|by vm_compute|vm_compute; right; by left].
Qed.

(** Nor can it keep a call from ending: C75 holds as it is. *)
Theorem C76_intern_bounded {V Q : Type} (E : ienv V Q) ls0 st ls :
  run (whim istep E) iinit ls0 = Some st -> (forall cl, cl ∈ ls -> exists t, whim_own i_own t cl) ->
  taken (whim istep E) st ls <= 6 * weigh (λ _, 1) (i_threads st).
Proof. exact (w_bounded E ls0 st ls). Qed.
Print Assumptions C76_intern_bounded.
Theorem C76_new_bounded {V Q : Type} (E : ienv V Q) ls0 s ls :
  run (whim nstep E) ninit ls0 = Some s -> (forall cl, cl ∈ ls -> exists t, whim_own i_own t cl) ->
  taken (whim nstep E) s ls <= 10 * weigh (λ _, 1) (n_threads s).
Proof. exact (wn_bounded E ls0 s ls). Qed.
Print Assumptions C76_new_bounded.
Theorem C76_intern_settles {V Q : Type} (E : ienv V Q) ls0 st s x :
  run (whim istep E) iinit ls0 = Some st -> total_from E ->
  runs_on (whim istep E) (whim_own i_own) st s x -> fair (whim istep E) (whim_own i_own) s x ->
  exists n, (forall m, n <= m -> x m = x n) /\
    ((forall t, get_stack (x n) t = []) \/
     ((exists t, get_stack (x n) t <> []) /\ deadlocked E (x n) (λ t, get_stack (x n) t <> []))).
Proof. exact (w_settles E ls0 st s x). Qed.
Print Assumptions C76_intern_settles.
Theorem C76_new_settles {V Q : Type} (E : ienv V Q) ls0 st s x :
  run (whim nstep E) ninit ls0 = Some st -> total_from E ->
  runs_on (whim nstep E) (whim_own i_own) st s x -> fair (whim nstep E) (whim_own i_own) s x ->
  exists n, (forall m, n <= m -> x m = x n) /\
    ((forall t, nstack (x n) t = []) \/ (exists t, n_aborts E (x n) t) \/
     ((exists t, nstack (x n) t <> []) /\ n_deadlocked E (x n) (λ t, nstack (x n) t <> []))).
Proof. exact (wn_settles E ls0 st s x). Qed.
Print Assumptions C76_new_settles.
Theorem C76_intern_returns {V Q : Type} (E : ienv V Q) ls0 st s x :
  run (whim istep E) iinit ls0 = Some st -> total_from E -> ordered E st ->
  runs_on (whim istep E) (whim_own i_own) st s x -> fair (whim istep E) (whim_own i_own) s x ->
  exists n, forall m, n <= m -> forall t, get_stack (x m) t = [].
Proof. exact (w_returns E ls0 st s x). Qed.
Print Assumptions C76_intern_returns.
Theorem C76_new_returns {V Q : Type} (E : ienv V Q) ls0 st rk s x :
  run (whim nstep E) ninit ls0 = Some st -> total_from E -> n_ordered E rk st -> n_calm st ->
  runs_on (whim nstep E) (whim_own i_own) st s x -> fair (whim nstep E) (whim_own i_own) s x ->
  exists n, forall m, n <= m -> forall t, nstack (x m) t = [].
Proof. exact (wn_returns E ls0 st rk s x). Qed.
Print Assumptions C76_new_returns.
Example C76_ends_example :
  (run iw iinit w_odd = Some (wafter iw iinit w_odd) /\ total_from fullE /\ ordered fullE (wafter iw iinit w_odd) /\
   get_stack (wafter iw iinit w_odd) 1 = [FWait (ONew (IV 1 3 0)) None; FConv 0 0 (8, 0)] /\
   exists s x, runs_on iw ow (wafter iw iinit w_odd) s x /\ fair iw ow s x) /\
  (run nw ninit wn_odd = Some (wafter nw ninit wn_odd) /\ total_from fullE /\
   n_ordered fullE id (wafter nw ninit wn_odd) /\ n_calm (wafter nw ninit wn_odd) /\
   nstack (wafter nw ninit wn_odd) 1 = [NScan (ONew (IV 1 3 0)) None false; NIn 0 (FConv 0 0 (8, 0))] /\
   exists s x, runs_on nw ow (wafter nw ninit wn_odd) s x /\ fair nw ow s x).
Proof.
  split; [split; [by apply wafter_run; vm_compute|split; [apply fullE_total|split; [apply w_odd_ordered|split; [by vm_compute|]]]]
         |split; [by apply wafter_run; vm_compute|split; [apply fullE_total|split; [apply wn_odd_ordered|split; [apply wn_odd_ordered|split; [by vm_compute|]]]]]].
  - apply (iw_ended w_odd w_odd_end); [by vm_compute|repeat constructor|by vm_compute].
  - apply (nw_ended wn_odd wn_odd_end); [by vm_compute|repeat constructor|by vm_compute].
Qed.

(** What is lost is uniqueness, even if the code is lawful at each moment. *)
Theorem C76_unique_refuted : exists (E : ienv ival (nat * nat)) ls st t o p v t' o' p' v' c,
  (forall cl, cl ∈ ls -> ilawful (with_code E cl.1)) /\ run (whim istep E) iinit ls = Some st /\
  EvRet t o (RPtr p) ∈ i_log st /\ EvRet t' o' (RPtr p') ∈ i_log st /\ p <> p' /\
  whim istep E st (c, IDeref p) = Next (add_event st (EvRead p v)) /\
  whim istep E st (c, IDeref p') = Next (add_event st (EvRead p' v')) /\
  ilawful (with_code E c) /\ ie_ty E v = ie_ty E v' /\ co_eq c v v' = true.
Proof. exact w_not_unique. Qed.
Print Assumptions C76_unique_refuted.
(** Arena is memory safe for the answers [C] exactly if every search finds what any insertion would
    find, each with answers of its own. *)
Theorem C76_arena_safe_iff {V Q : Type} (E : ienv V Q) (C : code V Q -> Prop) :
  (forall ls, (forall cl, cl ∈ ls -> C cl.1) -> run (whim astep E) ainit ls <> None) <->
  (forall c c' o v d, C c -> C c' -> a_supplies E o v -> ie_ty E v = ie_ty E d ->
    ins_match (with_code E c') v d = true -> a_match (with_code E c) o d = true).
Proof. exact (wa_safe_iff E C). Qed.
Print Assumptions C76_arena_safe_iff.
(** For example with a Hash that changes all the time, if a search compares with every entry: 30 and
    31, which are Eq, get the same handle under three of them. *)
Example C76_arena_safe_example :
  (forall c c' o v d, (exists h, c = rehash h) -> (exists h, c' = rehash h) -> a_supplies fullE o v ->
    ie_ty fullE v = ie_ty fullE d -> ins_match (with_code fullE c') v d = true -> a_match (with_code fullE c) o d = true) /\
  (forall cl, cl ∈ aw_hash -> exists h, cl.1 = rehash h) /\
  run (whim astep fullE) ainit aw_hash = Some (wafter (whim astep fullE) ainit aw_hash) /\
  AvRet 1 0 (ANew (IV 0 30 0)) None (AP (IPtr 100 0 0)) ∈ a_log (wafter (whim astep fullE) ainit aw_hash) /\
  AvRet 2 0 (ABox (IV 0 31 0)) (Some (IPtr 101 0 1)) (AP (IPtr 100 0 0)) ∈ a_log (wafter (whim astep fullE) ainit aw_hash) /\
  a_read (wafter (whim astep fullE) ainit aw_hash) (IPtr 100 0 0) = Some (IV 0 30 0).
Proof.
  split; [exact rehash_agree|split_and!]; [|by apply wafter_run; vm_compute| | |by vm_compute].
  - unfold aw_hash. intros cl. rewrite !elem_of_app, !elem_of_list_fmap. intros [(?&->&_)|[(?&->&_)|(?&->&_)]]; by eexists.
  - vm_compute. repeat first [by left|right].
  - vm_compute. by left.
Qed.
(** As long as there is no undefined behaviour, a handle stays valid until its arena is dropped, no
    box is freed twice, and calls end as in C75, whatever the answers. *)
Theorem C76_arena_handles {V Q : Type} (E : ienv V Q) ls1 ls2 st1 st2 t r o b p :
  run (whim astep E) ainit ls1 = Some st1 -> AvRet t r o b (AP p) ∈ a_log st1 ->
  run (whim astep E) st1 ls2 = Some st2 -> is_Some (a_arenas st2 !! r) ->
  exists v, a_objs st1 !! ip_ser p = Some (AObj (ip_addr p) v) /\ a_objs st2 !! ip_ser p = Some (AObj (ip_addr p) v).
Proof. exact (wa_handle E ls1 ls2 st1 st2 t r o b p). Qed.
Print Assumptions C76_arena_handles.
Theorem C76_arena_no_double_free {V Q : Type} (E : ienv V Q) ls st p :
  run (whim astep E) ainit ls = Some st -> freed p (a_log st) <= 1.
Proof. exact (wa_freed E ls st p). Qed.
Print Assumptions C76_arena_no_double_free.
Theorem C76_arena_bounded {V Q : Type} (E : ienv V Q) ls0 st ls :
  run (whim astep E) ainit ls0 = Some st -> (forall cl, cl ∈ ls -> exists t, whim_own a_own t cl) ->
  taken (whim astep E) st ls <= weigh a_most (a_threads st).
Proof. exact (wa_bounded E ls0 st ls). Qed.
Print Assumptions C76_arena_bounded.
(** Arena and ArcIntern are not safe for all such code, even if it is lawful at each moment: Arena if
    the search does not find what the insertion finds, *)
Theorem C76_arena_refuted : exists (E : ienv ival (nat * nat)) ls,
  (forall cl, cl ∈ ls -> ilawful (with_code E cl.1)) /\ no_refs ls.*2 /\ run (whim astep E) ainit ls = None.
Proof. exact aw_ub. Qed.
Print Assumptions C76_arena_refuted.
(** ArcIntern if two values are equal when one of them is removed that were not when they were
    inserted.  Here only [Eq] varies; it is an equivalence relation at each moment. *)
Theorem C76_arc_refuted : exists (E : tyenv nat) ls,
  (forall cl, cl ∈ ls -> equivalence cl.1) /\ (forall u v, te_hash E u = te_hash E v /\ te_ty E u = te_ty E v) /\
  (N.of_nat (length ls) < te_mod E)%N /\ run (whim_arc E) init ls = None.
Proof. exact arc_whim_ub. Qed.
Print Assumptions C76_arc_refuted.

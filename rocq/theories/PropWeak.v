(** Property C66: what [refcount()] may return under the memory model of Rust (src/arc.rs 207-209). *)
From stdpp Require Import gmap list numbers.
From Verif Require Import Base ArcModel ArcSpec ArcEx RaceModel RaceSpec RaceEx.
From Verif Require Import WeakModel WeakSpec WeakSafe WeakCoh WeakVal WeakLow WeakThm WeakEx.

(** ** C66.  Whichever values the loads return, there is no undefined behaviour and no data race. *)
Theorem C66_race_free {V} (E : tyenv V) (O : orders) (ls : list (wlabel V)) :
  coherent E -> wide E ->
  acquires (o_sub O) = true -> releases (o_sub O) = true ->
  wbounded E O ls ->
  is_Some (run (wstep E O) winit ls) /\ wrace_free (wevents E O ls).
Proof. exact (λ HL HW Hacq Hrel, wrun_race_free E O HL HW Hacq Hrel ls). Qed.
Print Assumptions C66_race_free.

Example weak_race_free_case : coherent exE /\ wide exE /\ wbounded exE code_orders reads_ls
  /\ acquires (o_sub code_orders) = true /\ releases (o_sub code_orders) = true
  /\ wevents exE code_orders reads_ls !! 14 = Some (1, ReadCount 0 Acquire 0)
  /\ wevents exE code_orders reads_ls !! 17 = Some (1, ReadCount 0 Acquire 1)
  /\ w_got (wafter reads_ls) = [(1, leafp, 1%N); (1, leafp, 2%N)].
Proof.
  split; [apply exE_coherent|]. split; [apply exE_wide|].
  split; [apply wshort_bounded; [apply exE_coherent|apply exE_wide|vm_compute; done]|].
  split; [done|]. split; [done|].
  split; [vm_compute; reflexivity|]. split; vm_compute; reflexivity.
Qed.

(** The loads are coherent.  A load returns one of the values the count has had so far; none older
    than a write that happens before it, and none older than what was returned by a load that
    happens before it. *)
Theorem C66_coherent {V} (E : tyenv V) (O : orders) (ls : list (wlabel V)) j u k o w :
  let evs := wevents E O ls in
  evs !! j = Some (u, ReadCount k o w) ->
  w <= rmws k (take j evs) /\
  (forall i u' o', evs !! i = Some (u', Op (MRmw k o')) -> whb evs i j -> S (rmws k (take i evs)) <= w) /\
  (forall i u' o' w', evs !! i = Some (u', ReadCount k o' w') -> whb evs i j -> w' <= w).
Proof. exact (weak_coherent E O ls j u k o w). Qed.
Print Assumptions C66_coherent.

Example weak_coherent_case :
  wevents exE code_orders reads_ls !! 17 = Some (1, ReadCount 0 Acquire 1) /\
  rmws 0 (take 17 (wevents exE code_orders reads_ls)) = 2 /\
  wevents exE code_orders reads_ls !! 14 = Some (1, ReadCount 0 Acquire 0) /\
  whb (wevents exE code_orders reads_ls) 14 17 /\
  wevents exE code_orders reads_ls !! 11 = Some (2, Op (MRmw 0 SeqCst)) /\
  whb (wevents exE code_orders reads_ls) 11 17.
Proof.
  split; [vm_compute; reflexivity|]. split; [vm_compute; reflexivity|]. split; [vm_compute; reflexivity|].
  split; [eapply whb_edge; [lia|vm_compute; reflexivity|vm_compute; reflexivity|by left]|].
  split; [vm_compute; reflexivity|].
  eapply whb_edge; [lia|vm_compute; reflexivity|vm_compute; reflexivity|]. right.
  split; [done|]. split; [done|]. split; [done|]. vm_compute. lia.
Qed.

(** And that is the only restriction on what a load returns. *)
Theorem C66_possible {V} (E : tyenv V) (O : orders) (ls : list (wlabel V)) x t h ks w y :
  run (wstep E O) winit ls = Some x ->
  r_hands (w_race x) !! h = Some y ->
  let k := p_ser (target (h_ptr y) ks) in
  let evs := wevents E O ls in
  (exists x', wstep E O x (WRef t h ks w) = Next x') <->
  (exists s, rstep E O (w_race x) (RRef t h ks) = Next s) /\
  w <= rmws k evs /\
  (forall i u o, evs !! i = Some (u, Op (MRmw k o)) -> wknown evs t i -> S (rmws k (take i evs)) <= w) /\
  (forall i u o w', evs !! i = Some (u, ReadCount k o w') -> wknown evs t i -> w' <= w).
Proof. exact (weak_possible E O ls x t h ks w y). Qed.
Print Assumptions C66_possible.

(** After thread 2 has interned the value of thread 1 and dropped it again, thread 1 may read any of
    the three values of the count; once it has been told of that, only the newest one; after it
    has read the middle one, not the first. *)
Example weak_possible_case :
  run (wstep exE code_orders) winit three_ls = Some (wafter three_ls) /\
  h_ptr <$> r_hands (w_race (wafter three_ls)) !! 0 = Some leafp /\
  let may ls w := match wstep exE code_orders (wafter ls) (WRef 1 0 [] w) with Next _ => true | _ => false end in
  may three_ls <$> [0; 1; 2; 3] = [true; true; true; false] /\
  may told_ls <$> [0; 1; 2; 3] = [false; false; true; false] /\
  may reads_ls <$> [0; 1; 2; 3] = [false; true; true; false] /\
  may clone_ls <$> [0; 1; 2; 3] = [false; false; true; true].
Proof.
  split; [apply wafter_run; vm_compute; reflexivity|]. split; [vm_compute; reflexivity|]. cbv zeta.
  split; [vm_compute; reflexivity|]. split; [vm_compute; reflexivity|]. split; vm_compute; reflexivity.
Qed.

(** What [refcount()] returns is the number of handles to the object there were at some earlier moment, when
    there was at least one; namely when the count had been changed [w] times. *)
Theorem C66_refcount_value {V} (E : tyenv V) (O : orders) (ls : list (wlabel V)) x t h ks w x' y :
  coherent E -> wide E ->
  acquires (o_sub O) = true -> releases (o_sub O) = true ->
  wbounded E O ls ->
  run (wstep E O) winit ls = Some x ->
  r_hands (w_race x) !! h = Some y ->
  wstep E O x (WRef t h ks w) = Next x' ->
  let p := target (h_ptr y) ks in
  exists ls1 ls2 x1, ls = ls1 ++ ls2 /\ run (wstep E O) winit ls1 = Some x1 /\
    w_got x' = w_got x ++ [(t, p, N.of_nat (whandles E x1 p))] /\
    0 < whandles E x1 p /\ rmws (p_ser p) (wevents E O ls1) = w.
Proof. exact (λ HL HW Hacq Hrel, weak_value E O HL HW Hacq Hrel ls x t h ks w x' y). Qed.
Print Assumptions C66_refcount_value.

(** It is no less than the number of handles to the object that the thread may use: it is not when there are
    two of them that it returns 1. *)
Theorem C66_refcount_lower {V} (E : tyenv V) (O : orders) (ls : list (wlabel V)) x t h ks w x' y n hs :
  coherent E -> wide E ->
  acquires (o_sub O) = true -> releases (o_sub O) = true ->
  wbounded E O ls ->
  run (wstep E O) winit ls = Some x ->
  r_hands (w_race x) !! h = Some y ->
  wstep E O x (WRef t h ks w) = Next x' ->
  let p := target (h_ptr y) ks in
  w_got x' = w_got x ++ [(t, p, n)] ->
  NoDup hs ->
  (forall h', h' ∈ hs -> exists y', may_use (w_race x) t h' = Some y' /\ h_ptr y' = p) ->
  (N.of_nat (length hs) <= n)%N.
Proof. exact (λ HL HW Hacq Hrel, weak_lower E O HL HW Hacq Hrel ls x t h ks w x' y n hs). Qed.
Print Assumptions C66_refcount_lower.

(** It is the number of handles to the object there are, if all changes of the count happen before the
    call. *)
Theorem C66_refcount_exact {V} (E : tyenv V) (O : orders) (ls : list (wlabel V)) x t h ks w x' y :
  coherent E -> wide E ->
  acquires (o_sub O) = true -> releases (o_sub O) = true ->
  wbounded E O ls ->
  run (wstep E O) winit ls = Some x ->
  r_hands (w_race x) !! h = Some y ->
  wstep E O x (WRef t h ks w) = Next x' ->
  let p := target (h_ptr y) ks in
  (forall i u o, wevents E O ls !! i = Some (u, Op (MRmw (p_ser p) o)) -> wknown (wevents E O ls) t i) ->
  w_got x' = w_got x ++ [(t, p, N.of_nat (whandles E x p))].
Proof. exact (λ HL HW Hacq Hrel, weak_exact E O HL HW Hacq Hrel ls x t h ks w x' y). Qed.
Print Assumptions C66_refcount_exact.

(** Thread 1 holds two handles and reads 3, the number of a moment ago. *)
Example weak_refcount_case :
  wbounded exE code_orders clone_ls /\
  run (wstep exE code_orders) winit clone_ls = Some (wafter clone_ls) /\
  h_ptr <$> r_hands (w_race (wafter clone_ls)) !! 0 = Some leafp /\
  (exists x', wstep exE code_orders (wafter clone_ls) (WRef 1 0 [] 2) = Next x' /\ w_got x' = [(1, leafp, 3%N)]) /\
  w_got (wafter clone_ls) = [] /\
  h_ptr <$> may_use (w_race (wafter clone_ls)) 1 0 = Some leafp /\
  h_ptr <$> may_use (w_race (wafter clone_ls)) 1 2 = Some leafp /\
  whandles exE (wafter clone_ls) leafp = 2.
Proof.
  split; [apply wshort_bounded; [apply exE_coherent|apply exE_wide|vm_compute; done]|].
  split; [apply wafter_run; vm_compute; reflexivity|].
  split; [vm_compute; reflexivity|].
  split; [apply wafter_got; vm_compute; reflexivity|].
  split; [vm_compute; reflexivity|]. split; [vm_compute; reflexivity|]. split; vm_compute; reflexivity.
Qed.

Example weak_exact_case :
  wbounded exE code_orders told_ls /\
  run (wstep exE code_orders) winit told_ls = Some (wafter told_ls) /\
  h_ptr <$> r_hands (w_race (wafter told_ls)) !! 0 = Some leafp /\
  (exists x', wstep exE code_orders (wafter told_ls) (WRef 1 0 [] 2) = Next x' /\ w_got x' = [(1, leafp, 1%N)]) /\
  (forall i u o, wevents exE code_orders told_ls !! i = Some (u, Op (MRmw (p_ser leafp) o)) ->
     wknown (wevents exE code_orders told_ls) 1 i) /\
  wevents exE code_orders told_ls !! 11 = Some (2, Op (MRmw 0 SeqCst)).
Proof.
  split; [apply wshort_bounded; [apply exE_coherent|apply exE_wide|vm_compute; done]|].
  split; [apply wafter_run; vm_compute; reflexivity|].
  split; [vm_compute; reflexivity|].
  split; [apply wafter_got; vm_compute; reflexivity|].
  split; [exact told_known|vm_compute; reflexivity].
Qed.

(** Otherwise, with the orderings in the code, it may be too small: 1, with another handle in existence; *)
Theorem C66_stale_low : exists (E : tyenv node) ls x t h w x' p,
  lawful E /\ wide E /\ wbounded E code_orders ls /\
  run (wstep E code_orders) winit ls = Some x /\ wstep E code_orders x (WRef t h [] w) = Next x' /\
  w_got x' = w_got x ++ [(t, p, 1%N)] /\ whandles E x p = 2.
Proof. exact stale_low. Qed.
Print Assumptions C66_stale_low.

(** and too large: 2, with no other handle in existence. *)
Theorem C66_stale_high : exists (E : tyenv node) ls x t h w x' p,
  lawful E /\ wide E /\ wbounded E code_orders ls /\
  run (wstep E code_orders) winit ls = Some x /\ wstep E code_orders x (WRef t h [] w) = Next x' /\
  w_got x' = w_got x ++ [(t, p, 2%N)] /\ whandles E x p = 1.
Proof. exact stale_high. Qed.
Print Assumptions C66_stale_high.

(** The executions are those of ArcModel, no more and no less. *)
Theorem C66_model_exact {V} (E : tyenv V) (O : orders) (st : state V) :
  (exists ls, run (step E) init ls = Some st) <->
  (exists ls x, run (wstep E O) winit ls = Some x /\ r_st (w_race x) = st).
Proof. exact (wrun_exact E O st). Qed.
Print Assumptions C66_model_exact.

Theorem C66_model_ub {V} (E : tyenv V) (O : orders) :
  (exists ls, run (step E) init ls = None) <-> (exists ls, run (wstep E O) winit ls = None).
Proof. exact (wrun_ub_exact E O). Qed.
Print Assumptions C66_model_ub.

Example weak_model_case :
  exists ls x, run (wstep exE code_orders) winit ls = Some x /\ r_st (w_race x) = after exE (ex_ls ++ ex_reads).
Proof.
  apply C66_model_exact. exists (ex_ls ++ ex_reads). apply after_run. vm_compute. reflexivity.
Qed.

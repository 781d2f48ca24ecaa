(** Property C61: deadlocks of NewIntern (src/typearena.rs 23-84, 210-290).  Vocabulary: NewWait.v. *)
From stdpp Require Import gmap list numbers.
From Verif Require Import Base InternModel InternSpec InternEx NewModel NewSpec NewEx NewWait NewWaitEx NewLive.

(** ** C61.  From every reachable state, either all running calls can be finished, or a thread can
    be brought to the point where it aborts the process, or a state can be reached in which all
    threads that are not finished wait for each other from inside nested calls.  In particular
    nobody waits for ever in [push], whose threads wait for each other. *)
Theorem C61_finish_or_deadlock {V Q : Type} (E : ienv V Q) ls0 s :
  total_from E -> run (nstep E) ninit ls0 = Some s ->
  exists ls s', run (nstep E) s ls = Some s' /\ (forall lb, lb ∈ ls -> quiet lb) /\
    ((forall t, nstack s' t = []) \/ (exists t, n_aborts E s' t) \/
     ((exists t, nstack s' t <> []) /\ n_deadlocked E s' (λ t, nstack s' t <> []))).
Proof. exact (λ HT Hr, nfinish_or_dead E s (LI_reach E ls0 s Hr) HT). Qed.
Print Assumptions C61_finish_or_deadlock.

(** Such a deadlock involves a call made by user code that runs with the mutex of a type; *)
Theorem C61_deadlock_needs_nesting {V Q : Type} (E : ienv V Q) s D :
  n_deadlocked E s D -> (exists t, D t) ->
  exists t f k g, D t /\ nstack s t = f :: k /\ g ∈ k /\ inside g.
Proof. exact (ndead_nested E s D). Qed.
Print Assumptions C61_deadlock_needs_nesting.

(** so there is none without such calls, *)
Theorem C61_no_deadlock_without_nesting {V Q : Type} (E : ienv V Q) ls0 s :
  total_from E -> run (nstep E) ninit ls0 = Some s -> n_flat s -> n_calm s ->
  exists ls s', run (nstep E) s ls = Some s' /\ (forall lb, lb ∈ ls -> quiet lb) /\ forall t, nstack s' t = [].
Proof. exact (λ HT Hr Hf, n_all_finish_calm E id s (LI_reach E ls0 s Hr) HT (n_flat_ordered E s Hf)). Qed.
Print Assumptions C61_no_deadlock_without_nesting.
(** or if the types have ranks and such calls are for types of higher rank only -- whether or not
    the types share a container.  An abort needs a call made while unwinding. *)
Theorem C61_no_deadlock_if_ordered {V Q : Type} (E : ienv V Q) ls0 s rk :
  total_from E -> run (nstep E) ninit ls0 = Some s -> n_ordered E rk s ->
  exists ls s', run (nstep E) s ls = Some s' /\ (forall lb, lb ∈ ls -> quiet lb) /\
    ((forall t, nstack s' t = []) \/ exists t, n_aborts E s' t).
Proof. exact (λ HT Hr, n_all_finish E rk s (LI_reach E ls0 s Hr) HT). Qed.
Print Assumptions C61_no_deadlock_if_ordered.
Theorem C61_finish_if_ordered_and_calm {V Q : Type} (E : ienv V Q) ls0 s rk :
  total_from E -> run (nstep E) ninit ls0 = Some s -> n_ordered E rk s -> n_calm s ->
  exists ls s', run (nstep E) s ls = Some s' /\ (forall lb, lb ∈ ls -> quiet lb) /\ forall t, nstack s' t = [].
Proof. exact (λ HT Hr, n_all_finish_calm E rk s (LI_reach E ls0 s Hr) HT). Qed.
Print Assumptions C61_finish_if_ordered_and_calm.

(** Types 2 and 0 share a container.  Thread 1 makes a call for type 0 from a conversion for type
    2; thread 2 is in [push]. *)
Example C61_ordered_example :
  let s := nafter fullE w_up in
  total_from fullE /\ run (nstep fullE) ninit w_up = Some s /\ slot fullE 0 = slot fullE 2 /\
  nstack s 1 = [NLock (ONew (IV 0 3 0)) None 1; NIn 0 (FConv 2 0 (8, 0))] /\
  nstack s 2 = [NPub (OBox (IV 0 3 0)) (Some (IPtr 100 0 0)) 2] /\
  n_ordered fullE (λ ty, 2 - ty) s /\ n_calm s.
Proof.
  intros s; subst s. assert (nstack (nafter fullE w_up) 1 = [NLock (ONew (IV 0 3 0)) None 1; NIn 0 (FConv 2 0 (8, 0))]) as H1 by (by vm_compute).
  assert (nstack (nafter fullE w_up) 2 = [NPub (OBox (IV 0 3 0)) (Some (IPtr 100 0 0)) 2]) as H2 by (by vm_compute).
  assert (nstack (nafter fullE w_up) 9 = []) as H9 by (by vm_compute).
  assert ((map_to_list (n_threads (nafter fullE w_up))).*1 = [1; 9; 2]) as H3 by (by vm_compute).
  split_and!; [apply fullE_total|by apply nafter_run; vm_compute|by vm_compute|done|done|..];
    revert H1 H2 H9 H3; generalize (nafter fullE w_up) as s; intros s H1 H2 H9 H3.
  - intros t k1 f k2 Hst g ty Hg Hh. destruct (n_threads_in s _ t H3) as [Hin|Hn]; [|rewrite Hn in Hst; by destruct k1].
    apply elem_of_list_In in Hin as [<-|[<-|[<-|[]]]]; [rewrite H1 in Hst|rewrite H9 in Hst; by destruct k1|rewrite H2 in Hst].
    + destruct k1 as [|? [|? [|]]]; try done; simplify_eq/=; [|by apply elem_of_nil in Hg].
      apply elem_of_list_singleton in Hg as ->. destruct Hh as [_ <-]. compute. lia.
    + destruct k1 as [|? [|? [|]]]; try done; simplify_eq/=. by apply elem_of_nil in Hg.
  - intros t f k g Hst Hg. destruct (n_threads_in s _ t H3) as [Hin|Hn]; [|by rewrite Hn in Hst].
    apply elem_of_list_In in Hin as [<-|[<-|[<-|[]]]]; [rewrite H1 in Hst|by rewrite H9 in Hst|rewrite H2 in Hst].
    + injection Hst as ? <-. apply elem_of_list_singleton in Hg as ->. intros [].
    + injection Hst as ? <-. by apply elem_of_nil in Hg.
Qed.
(** The same threads, thread 1 without the outer call: *)
Example C61_flat_example :
  let s := nafter fullE ex_push in
  run (nstep fullE) ninit ex_push = Some s /\
  nstack s 1 = [NPub (ONew (IV 0 4 0)) None 2] /\ nstack s 2 = [NPub (ORef 0 0 (5, 0)) None 0] /\
  nstack s 3 = [NPub (OBox (IV 2 6 3)) (Some (IPtr 300 3 0)) 1] /\ n_flat s /\ n_calm s.
Proof.
  intros s; subst s. assert (nstack (nafter fullE ex_push) 1 = [NPub (ONew (IV 0 4 0)) None 2]) as H1 by (by vm_compute).
  assert (nstack (nafter fullE ex_push) 2 = [NPub (ORef 0 0 (5, 0)) None 0]) as H2 by (by vm_compute).
  assert (nstack (nafter fullE ex_push) 3 = [NPub (OBox (IV 2 6 3)) (Some (IPtr 300 3 0)) 1]) as H3 by (by vm_compute).
  assert (forall t f k g, nstack (nafter fullE ex_push) t = f :: k -> g ∈ k -> False) as H.
  { intros t f k g Hst Hg. destruct (n_threads_in (nafter fullE ex_push) [1; 3; 2] t) as [Hin|Hn]; [by vm_compute| |by rewrite Hn in Hst].
    apply elem_of_list_In in Hin as [<-|[<-|[<-|[]]]]; [rewrite H1 in Hst|rewrite H3 in Hst|rewrite H2 in Hst];
      injection Hst as ? <-; by apply elem_of_nil in Hg. }
  split_and!; [by apply nafter_run; vm_compute|done|done|done|..]; intros t f k g Hst Hg _; by eapply H.
Qed.
(** A call made while unwinding may abort the process, ordered or not. *)
Example C61_abort_example :
  let s := nafter fullE w_abort in
  run (nstep fullE) ninit w_abort = Some s /\ n_aborts fullE s 1 /\ n_ordered fullE id s.
Proof.
  intros s; subst s.
  assert (nstack (nafter fullE w_abort) 1 = [NLock (ONew (IV 1 3 0)) None 0; NIn 0 (FDup (OBox (IV 0 3 0)) (Some (IPtr 100 0 0)) RPanic)]) as H1
    by (by vm_compute).
  assert (nstack (nafter fullE w_abort) 2 = []) as H2 by (by vm_compute).
  assert (nstack (nafter fullE w_abort) 9 = []) as H9 by (by vm_compute).
  assert ((slot fullE (op_ty fullE (ONew (IV 1 3 0))), 0) ∈ n_poison (nafter fullE w_abort)) as Hp.
  { assert (bool_decide ((slot fullE (op_ty fullE (ONew (IV 1 3 0))), 0) ∈ n_poison (nafter fullE w_abort)) = true) as H by (by vm_compute).
    by apply bool_decide_eq_true in H. }
  split_and!; [by apply nafter_run; vm_compute|..]; [clear H2 H9|clear Hp].
  - eexists _, _, _, _, _. split_and!; [exact H1|by vm_compute|exact Hp|by left|done].
  - assert ((map_to_list (n_threads (nafter fullE w_abort))).*1 = [1; 9; 2]) as H3 by (by vm_compute).
    revert H1 H2 H9 H3. generalize (nafter fullE w_abort) as s. intros s H1 H2 H9 H3 t k1 f k2 Hst g ty Hg Hh.
    destruct (n_threads_in s _ t H3) as [Hin|Hn]; [|rewrite Hn in Hst; by destruct k1].
    apply elem_of_list_In in Hin as [<-|[<-|[<-|[]]]]; [rewrite H1 in Hst|rewrite H9 in Hst; by destruct k1|rewrite H2 in Hst; by destruct k1].
    destruct k1 as [|? [|? [|]]]; try done; simplify_eq/=; [|by apply elem_of_nil in Hg].
    apply elem_of_list_singleton in Hg as ->. destruct Hh as [_ <-]. compute. lia.
Qed.

(** User code called with the mutex of a type that makes a call for the same type never returns,
    and that call never gets the mutex. *)
Theorem C61_reentrancy_deadlocks {V Q : Type} (E : ienv V Q) ls0 s t f k o a s1 ls s2 :
  run (nstep E) ninit ls0 = Some s -> nstack s t = f :: k -> n_holds E (op_ty E o) f ->
  nstep E s (ICall t o a) = Next s1 -> run (nstep E) s1 ls = Some s2 ->
  exists g, nstack s2 t = g :: f :: k /\ n_before g /\ call_of g = o.
Proof. exact (λ Hr Hst Hh, n_reenter_forever E ls0 s t f k o a s1 ls s2 Hr Hst (proj1 Hh) (proj2 Hh)). Qed.
Print Assumptions C61_reentrancy_deadlocks.
Example C61_reentrancy_example :
  let s := nafter fullE w_again in
  run (nstep fullE) ninit w_again = Some s /\ nstack s 1 = [NIn 0 (FConv 0 0 (8, 0))] /\
  n_holds fullE (op_ty fullE (ONew (IV 0 3 0))) (NIn 0 (FConv 0 0 (8, 0))) /\
  exists s1, nstep fullE s (ICall 1 (ONew (IV 0 3 0)) 0) = Next s1.
Proof. split_and!; [by apply nafter_run; vm_compute|by vm_compute|done|eexists; by vm_compute]. Qed.

(** In general a deadlock is for ever, *)
Theorem C61_deadlock_is_forever {V Q : Type} (E : ienv V Q) ls0 s D ls s' :
  run (nstep E) ninit ls0 = Some s -> n_deadlocked E s D -> run (nstep E) s ls = Some s' ->
  forall t, D t -> nstack s' t = nstack s t.
Proof. exact (λ Hr, ndead_forever E ls s D s' (LI_reach E ls0 s Hr)). Qed.
Print Assumptions C61_deadlock_is_forever.
(** and whoever makes a call for a type whose mutex is held inside it never gets it. *)
Theorem C61_deadlocked_type_is_lost {V Q : Type} (E : ienv V Q) ls0 s D u f k g ty ls1 s1 ls2 s2 t f1 k1 :
  run (nstep E) ninit ls0 = Some s -> n_deadlocked E s D -> D u -> nstack s u = f :: k -> g ∈ k -> n_holds E ty g ->
  run (nstep E) s ls1 = Some s1 -> nstack s1 t = f1 :: k1 -> n_before f1 -> type_of E f1 = ty ->
  run (nstep E) s1 ls2 = Some s2 ->
  exists f2, nstack s2 t = f2 :: k1 /\ n_before f2 /\ call_of f2 = call_of f1.
Proof. exact (ndead_lost E ls0 s D u f k g ty ls1 s1 ls2 s2 t f1 k1). Qed.
Print Assumptions C61_deadlocked_type_is_lost.
(** Threads 1 and 2 nest types 0 and 1 in opposite orders; later thread 3 makes a call for type 0. *)
Example C61_abba_example :
  let s := nafter fullE w_abba in
  run (nstep fullE) ninit w_abba = Some s /\ n_deadlocked fullE s (λ t, t = 1 \/ t = 2) /\
  nstack s 1 = [NLock (ONew (IV 1 3 0)) None 0; NIn 0 (FConv 0 0 (8, 0))] /\
  nstack s 2 = [NLock (ONew (IV 0 3 0)) None 0; NIn 0 (FConv 1 0 (8, 0))] /\
  exists s1, run (nstep fullE) s [ICall 3 (ONew (IV 0 3 0)) 0] = Some s1 /\ nstack s1 3 = [NScan (ONew (IV 0 3 0)) None false].
Proof.
  intros s; subst s. assert (nstack (nafter fullE w_abba) 1 = [NLock (ONew (IV 1 3 0)) None 0; NIn 0 (FConv 0 0 (8, 0))]) as H1 by (by vm_compute).
  assert (nstack (nafter fullE w_abba) 2 = [NLock (ONew (IV 0 3 0)) None 0; NIn 0 (FConv 1 0 (8, 0))]) as H2 by (by vm_compute).
  split_and!; [by apply nafter_run; vm_compute| |done|done|].
  2:{ exists (nafter fullE (w_abba ++ [ICall 3 (ONew (IV 0 3 0)) 0])). split; [by apply nafter_app; vm_compute|by vm_compute]. }
  revert H1 H2. generalize (nafter fullE w_abba) as s. intros s H1 H2.
  intros t [->| ->]; eexists _, _, _, _; [exists 2|exists 1]; eexists _, _, _;
    split_and!; [exact H1|by right|exact H2|by left|done|exact H2|by left|exact H1|by left|done].
Qed.

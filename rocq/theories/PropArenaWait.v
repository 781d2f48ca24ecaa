(** Property C57: deadlocks of Arena (src/arena.rs 59-174, 406-427).  Vocabulary: ArenaWait.v. *)
From stdpp Require Import gmap list numbers.
From Verif Require Import Base InternModel InternSpec InternEx ArenaModel ArenaSpec ArenaInv ArenaStep ArenaLawful ArenaEx ArenaWait ArenaLive.

(** ** C57.  From every reachable state, either all running calls, and drops of arenas, can be
    finished, or a state can be reached in which all threads that are not finished wait for
    each other from inside nested calls. *)
Theorem C57_finish_or_deadlock {V Q : Type} (E : ienv V Q) ls0 st :
  (forall o, a_sound E o) -> total_from E -> run (astep E) ainit ls0 = Some st ->
  exists ls st', run (astep E) st ls = Some st' /\ (forall lb, lb ∈ ls -> a_quiet lb) /\
    ((forall t, a_stack st' t = []) \/
     ((exists t, a_stack st' t <> []) /\ a_deadlocked st' (λ t, a_stack st' t <> []))).
Proof. exact (λ HS HT Hr, afinish_or_dead E st (areach_inv E ls0 st Hr) (a_safe_reach E ls0 st HS Hr) HT). Qed.
Print Assumptions C57_finish_or_deadlock.

(** Such a deadlock involves a call made by user code that runs with the mutex of an arena; *)
Theorem C57_deadlock_needs_nesting {V Q : Type} (st : astate V Q) D :
  a_deadlocked st D -> (exists t, D t) ->
  exists t f k g r, D t /\ a_stack st t = f :: k /\ g ∈ k /\ a_holds r g.
Proof. exact (adead_nested st D). Qed.
Print Assumptions C57_deadlock_needs_nesting.

(** so there is none without such calls, *)
Theorem C57_no_deadlock_without_nesting {V Q : Type} (E : ienv V Q) ls0 st :
  (forall o, a_sound E o) -> total_from E -> run (astep E) ainit ls0 = Some st -> a_flat st ->
  exists ls st', run (astep E) st ls = Some st' /\ (forall lb, lb ∈ ls -> a_quiet lb) /\
    forall t, a_stack st' t = [].
Proof.
  exact (λ HS HT Hr Hf, a_all_finish E id st (areach_inv E ls0 st Hr) (a_safe_reach E ls0 st HS Hr) HT (a_flat_ordered st Hf)).
Qed.
Print Assumptions C57_no_deadlock_without_nesting.
(** or if the arenas have ranks and such calls only go to arenas of higher rank. *)
Theorem C57_no_deadlock_if_ordered {V Q : Type} (E : ienv V Q) ls0 st rk :
  (forall o, a_sound E o) -> total_from E -> run (astep E) ainit ls0 = Some st -> a_ordered rk st ->
  exists ls st', run (astep E) st ls = Some st' /\ (forall lb, lb ∈ ls -> a_quiet lb) /\
    forall t, a_stack st' t = [].
Proof. exact (λ HS HT Hr, a_all_finish E rk st (areach_inv E ls0 st Hr) (a_safe_reach E ls0 st HS Hr) HT). Qed.
Print Assumptions C57_no_deadlock_if_ordered.

Lemma fullE_sound : forall o, a_sound fullE o.
Proof. intros o. apply lawful_sound; [apply fullE_lawful|apply fullE_coherent]. Qed.
Lemma two_threads {V Q : Type} (st : astate V Q) t : (map_to_list (a_threads st)).*1 = [1; 2] -> t = 1 \/ t = 2 \/ a_stack st t = [].
Proof.
  intros Hn. unfold a_stack. destruct (a_threads st !! t) as [k|] eqn:Ht; [|by auto].
  assert (t ∈ [1; 2]) as Hin; [|apply elem_of_list_In in Hin as [<-|[<-|[]]]; by auto].
  rewrite <- Hn. apply elem_of_list_fmap. exists (t, k). split; [done|]. by apply elem_of_map_to_list.
Qed.
(** Thread 1 converts for arena 1 and makes a call on arena 0 meanwhile, so arena 0 needs the
    higher rank; thread 2 waits for arena 1. *)
Definition ex_up : list (alabel ival (nat * nat)) :=
  [LArena 1 0; LArena 1 0; LCall 1 1 (ARef 0 (8, 0)) 0] ++ steps 1 0 2 ++
  [LCall 1 0 (ANew (IV 0 3 0)) 0; LCall 2 1 (ABox (IV 0 3 0)) 100].
Example C57_ordered_example :
  (forall o, a_sound fullE o) /\ total_from fullE /\ run (astep fullE) ainit ex_up = Some (aafter fullE ex_up) /\
  a_stack (aafter fullE ex_up) 1 = [AWait 0 (ANew (IV 0 3 0)) None; AConv 1 0 (8, 0)] /\
  a_stack (aafter fullE ex_up) 2 = [AWait 1 (ABox (IV 0 3 0)) (Some (IPtr 100 0 0))] /\
  a_ordered (λ r, 1 - r) (aafter fullE ex_up).
Proof.
  assert (a_stack (aafter fullE ex_up) 1 = [AWait 0 (ANew (IV 0 3 0)) None; AConv 1 0 (8, 0)]) as H1 by (by vm_compute).
  assert (a_stack (aafter fullE ex_up) 2 = [AWait 1 (ABox (IV 0 3 0)) (Some (IPtr 100 0 0))]) as H2 by (by vm_compute).
  assert ((map_to_list (a_threads (aafter fullE ex_up))).*1 = [1; 2]) as H3 by (by vm_compute).
  split_and!; [apply fullE_sound|apply fullE_total|by apply aafter_run; vm_compute|done|done|].
  revert H1 H2 H3. generalize (aafter fullE ex_up) as st. intros st H1 H2 H3 t k1 r o b k2 Hst g r' Hg Hh.
  destruct (two_threads st t H3) as [->|[->|Hn]]; [rewrite H1 in Hst|rewrite H2 in Hst|rewrite Hn in Hst; by destruct k1].
  - destruct k1 as [|? [|? [|]]]; try done. injection Hst as <- _ _ <-.
    apply elem_of_list_singleton in Hg as ->. injection Hh as <-. simpl. lia.
  - destruct k1 as [|? [|? [|]]]; try done. injection Hst as _ _ _ <-. by apply elem_of_nil in Hg.
Qed.
(** The Drop of an argument, or of a value in an arena that is dropped, may make calls on any
    arena: no mutex is held then.  Thread 1 drops its argument, thread 2 drops arena 1; both make
    a call on arena 0. *)
Definition ex_flat : list (alabel ival (nat * nat)) :=
  [LArena 1 0; LArena 1 0; LCall 1 0 (ANew (IV 0 3 0)) 0] ++ steps 1 100 7 ++
  [LCall 2 1 (ANew (IV 0 3 0)) 0] ++ steps 2 200 7 ++
  [LCall 1 0 (ANew (IV 0 3 0)) 0] ++ steps 1 100 3 ++
  [LCall 1 0 (ANew (IV 0 4 0)) 0; LDrop 2 1; LCall 2 0 (ANew (IV 0 5 0)) 0] ++ steps 2 0 1.
Example C57_flat_example :
  run (astep fullE) ainit ex_flat = Some (aafter fullE ex_flat) /\
  a_stack (aafter fullE ex_flat) 1 = [AWait 0 (ANew (IV 0 4 0)) None; AArg 0 (ANew (IV 0 3 0)) None true (AP (IPtr 100 0 0))] /\
  a_stack (aafter fullE ex_flat) 2 = [AGet 0 (ANew (IV 0 5 0)) None; ADead 1 [IPtr 200 0 1]] /\
  a_flat (aafter fullE ex_flat).
Proof.
  assert (a_stack (aafter fullE ex_flat) 1 =
    [AWait 0 (ANew (IV 0 4 0)) None; AArg 0 (ANew (IV 0 3 0)) None true (AP (IPtr 100 0 0))]) as H1 by (by vm_compute).
  assert (a_stack (aafter fullE ex_flat) 2 = [AGet 0 (ANew (IV 0 5 0)) None; ADead 1 [IPtr 200 0 1]]) as H2 by (by vm_compute).
  assert ((map_to_list (a_threads (aafter fullE ex_flat))).*1 = [1; 2]) as H3 by (by vm_compute).
  split_and!; [by apply aafter_run; vm_compute|done|done|].
  revert H1 H2 H3. generalize (aafter fullE ex_flat) as st. intros st H1 H2 H3 t f k g r Hst Hg Hh.
  destruct (two_threads st t H3) as [->|[->|Hn]]; [rewrite H1 in Hst|rewrite H2 in Hst|by rewrite Hn in Hst];
    injection Hst as _ <-; by apply elem_of_list_singleton in Hg as ->.
Qed.

(** User code called with the mutex of an arena that makes a call on the same arena never
    returns, and the arena is never dropped. *)
Theorem C57_reentrancy_deadlocks {V Q : Type} (E : ienv V Q) ls0 st t f k r o a st1 ls st2 :
  run (astep E) ainit ls0 = Some st -> a_stack st t = f :: k -> a_holds r f ->
  astep E st (LCall t r o a) = Next st1 -> run (astep E) st1 ls = Some st2 ->
  a_stack st2 t = a_stack st1 t /\ a_arenas st2 !! r = a_arenas st1 !! r.
Proof. exact (a_reenter_forever E ls0 st t f k r o a st1 ls st2). Qed.
Print Assumptions C57_reentrancy_deadlocks.
Definition ex_again : list (alabel ival (nat * nat)) := [LArena 1 0; LCall 1 0 (ARef 0 (8, 0)) 0] ++ steps 1 0 2.
Example C57_reentrancy_example :
  run (astep fullE) ainit ex_again = Some (aafter fullE ex_again) /\
  a_stack (aafter fullE ex_again) 1 = [AConv 0 0 (8, 0)] /\ a_holds 0 (AConv (V := ival) 0 0 (8, 0)) /\
  exists st1, astep fullE (aafter fullE ex_again) (LCall 1 0 (ANew (IV 0 3 0)) 0) = Next st1.
Proof. split_and!; [by apply aafter_run; vm_compute|by vm_compute|done|eexists; by vm_compute]. Qed.

(** In general a deadlock is for ever.  An arena whose mutex is held inside it is never dropped
    and keeps its values; whoever makes a call on it is stuck as well. *)
Theorem C57_deadlock_is_forever {V Q : Type} (E : ienv V Q) ls0 st D ls st' :
  run (astep E) ainit ls0 = Some st -> a_deadlocked st D -> run (astep E) st ls = Some st' ->
  forall t, D t -> a_stack st' t = a_stack st t.
Proof. exact (λ Hr HD Hr', proj1 (adead_forever E ls st D st' (areach_inv E ls0 st Hr) HD Hr')). Qed.
Print Assumptions C57_deadlock_is_forever.
Theorem C57_deadlocked_arena_is_lost {V Q : Type} (E : ienv V Q) ls0 st D u f k g r ls st1 ls2 st2 :
  run (astep E) ainit ls0 = Some st -> a_deadlocked st D -> D u -> a_stack st u = f :: k -> g ∈ k -> a_holds r g ->
  run (astep E) st ls = Some st1 -> run (astep E) st1 ls2 = Some st2 ->
  a_arenas st1 !! r = a_arenas st !! r /\
  forall t o b k', a_stack st1 t = AWait r o b :: k' -> a_stack st2 t = a_stack st1 t.
Proof. exact (adead_lost E ls0 st D u f k g r ls st1 ls2 st2). Qed.
Print Assumptions C57_deadlocked_arena_is_lost.
(** Threads 1 and 2 nest arenas 0 and 1 in opposite orders; later thread 3 makes a call on arena
    0. *)
Definition ex_abba : list (alabel ival (nat * nat)) :=
  [LArena 1 0; LArena 1 0; LCall 1 0 (ARef 0 (8, 0)) 0] ++ steps 1 0 2 ++ [LCall 2 1 (ARef 0 (8, 0)) 0] ++ steps 2 0 2 ++
  [LCall 1 1 (ANew (IV 0 3 0)) 0; LCall 2 0 (ANew (IV 0 3 0)) 0].
Example C57_abba_example :
  let st := aafter fullE ex_abba in
  run (astep fullE) ainit ex_abba = Some st /\ a_deadlocked st (λ t, t = 1 \/ t = 2) /\
  a_stack st 1 = [AWait 1 (ANew (IV 0 3 0)) None; AConv 0 0 (8, 0)] /\
  a_stack st 2 = [AWait 0 (ANew (IV 0 3 0)) None; AConv 1 0 (8, 0)] /\
  exists st1, run (astep fullE) st [LCall 3 0 (ANew (IV 0 3 0)) 0] = Some st1 /\
    a_stack st1 3 = [AWait 0 (ANew (IV 0 3 0)) None].
Proof.
  intros st; subst st. assert (a_stack (aafter fullE ex_abba) 1 = [AWait 1 (ANew (IV 0 3 0)) None; AConv 0 0 (8, 0)]) as H1 by (by vm_compute).
  assert (a_stack (aafter fullE ex_abba) 2 = [AWait 0 (ANew (IV 0 3 0)) None; AConv 1 0 (8, 0)]) as H2 by (by vm_compute).
  split_and!; [by apply aafter_run; vm_compute| |done|done|eexists; by vm_compute].
  intros t [->| ->]; [exists 1|exists 0]; eexists _, _, _; [exists 2|exists 1]; eexists _, _, _;
    split_and!; [exact H1|by right|exact H2|by left|done|exact H2|by left|exact H1|by left|done].
Qed.

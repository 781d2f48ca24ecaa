(** Concrete executions of WeakModel. *)
From stdpp Require Import gmap list numbers.
From Verif Require Import Base ArcModel ArcSpec ArcEx RaceModel RaceSpec RaceEx WeakModel WeakSpec WeakThm.

Definition wafter (ls : list (wlabel node)) : wstate node :=
  default winit (run (wstep exE code_orders) winit ls).
Lemma wafter_run ls :
  match run (wstep exE code_orders) winit ls with Some _ => true | None => false end = true ->
  run (wstep exE code_orders) winit ls = Some (wafter ls).
Proof. unfold wafter. by destruct (run (wstep exE code_orders) winit ls). Qed.

Lemma wafter_got ls w r :
  match wstep exE code_orders (wafter ls) (WRef 1 0 [] w) with Next x' => Some (w_got x') | _ => None end = Some r ->
  exists x', wstep exE code_orders (wafter ls) (WRef 1 0 [] w) = Next x' /\ w_got x' = r.
Proof. intros H. destruct (wstep _ _ _ _) as [x'| | |]; try done. injection H as <-. by exists x'. Qed.

(** Threads 1 and 2 intern Eq values. *)
Definition two_ls : list (wlabel node) :=
  WL <$> rintern 1 10 leaf4 [] 0 ++ RNew 2 KSized leaf4 [] :: rsteps 2 0 1 5.
(** Thread 2 drops its handle as well. *)
Definition three_ls : list (wlabel node) := two_ls ++ (WL <$> RDrop 2 1 :: rsteps 2 0 9 2).
(** Thread 2 then tells thread 1 of it. *)
Definition told_ls : list (wlabel node) := three_ls ++ [WL (RSend 2 0); WL (RRecv 1 0)].
(** Thread 1 clones its handle, after thread 2 has interned the value and before it drops it. *)
Definition clone_ls : list (wlabel node) :=
  two_ls ++ WL (RClone 1 0 [] 2) :: (WL <$> RDrop 2 1 :: rsteps 2 0 9 2).
(** Thread 1 reads the count between the two operations of thread 2, then after them. *)
Definition reads_ls : list (wlabel node) :=
  two_ls ++ WRef 1 0 [] 0 :: (WL <$> RDrop 2 1 :: rsteps 2 0 9 2) ++ [WRef 1 0 [] 1].

Definition leafp : ptr := Ptr 10 0.

Lemma exE_coherent : coherent exE.
Proof. apply lawful_coherent, nodes_lawful. Qed.
Lemma exE_wide : wide exE.
Proof. unfold wide. simpl. lia. Qed.

(** The operations of [told_ls], from the second [new] on. *)
Lemma told_events : drop 9 (wevents exE code_orders told_ls) =
  [(2, Op (MAcq (0, 0))); (2, Op (MTouch [(0, TRead)])); (2, Op (MRmw 0 SeqCst)); (2, Op (MRel (0, 0)));
   (2, Op (MRmw 0 SeqCst)); (2, Op (MSend 0)); (1, Op (MRecv 0))].
Proof. vm_compute. reflexivity. Qed.
Lemma told_known i u o : wevents exE code_orders told_ls !! i = Some (u, Op (MRmw 0 o)) ->
  wknown (wevents exE code_orders told_ls) 1 i.
Proof.
  intros Hi.
  assert (i = 11 \/ i = 13) as Hi'.
  { revert Hi. vm_compute. do 16 (destruct i as [|i]; [try (by left); try (by right); discriminate|]). discriminate. }
  exists 15, (1, Op (MRecv 0)). split; [vm_compute; reflexivity|]. split; [done|]. right.
  apply whb_trans with 14.
  - destruct Hi' as [-> | ->]; (eapply whb_edge; [lia|vm_compute; reflexivity|vm_compute; reflexivity|by left]).
  - eapply whb_edge; [lia|vm_compute; reflexivity|vm_compute; reflexivity|]. right. done.
Qed.

Lemma stale_low : exists (E : tyenv node) ls x t h w x' p,
  lawful E /\ wide E /\ wbounded E code_orders ls /\
  run (wstep E code_orders) winit ls = Some x /\ wstep E code_orders x (WRef t h [] w) = Next x' /\
  w_got x' = w_got x ++ [(t, p, 1%N)] /\ whandles E x p = 2.
Proof.
  destruct (wafter_got two_ls 0 [(1, leafp, 1%N)]) as (x'&Hs&Hg); [vm_compute; reflexivity|].
  exists exE, two_ls, (wafter two_ls), 1, 0, 0, x', leafp.
  split; [apply nodes_lawful|]. split; [apply exE_wide|].
  split; [apply wshort_bounded; [apply exE_coherent|apply exE_wide|vm_compute; done]|].
  split; [apply wafter_run; vm_compute; reflexivity|].
  split; [done|]. split; [rewrite Hg|]; vm_compute; reflexivity.
Qed.
Lemma stale_high : exists (E : tyenv node) ls x t h w x' p,
  lawful E /\ wide E /\ wbounded E code_orders ls /\
  run (wstep E code_orders) winit ls = Some x /\ wstep E code_orders x (WRef t h [] w) = Next x' /\
  w_got x' = w_got x ++ [(t, p, 2%N)] /\ whandles E x p = 1.
Proof.
  destruct (wafter_got three_ls 1 [(1, leafp, 2%N)]) as (x'&Hs&Hg); [vm_compute; reflexivity|].
  exists exE, three_ls, (wafter three_ls), 1, 0, 1, x', leafp.
  split; [apply nodes_lawful|]. split; [apply exE_wide|].
  split; [apply wshort_bounded; [apply exE_coherent|apply exE_wide|vm_compute; done]|].
  split; [apply wafter_run; vm_compute; reflexivity|].
  split; [done|]. split; [rewrite Hg|]; vm_compute; reflexivity.
Qed.

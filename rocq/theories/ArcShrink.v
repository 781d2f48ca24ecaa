(** [shrink_to_fit] is unobservable: every execution has the same effect as the one in
    which all the shrink calls are left out. *)
From stdpp Require Import gmap list numbers.
From Verif Require Import Base ArcModel ArcSpec ArcInv ArcStep ArcSafe ArcReach.

Section shrink.
  Context {V : Type} (E : tyenv V).
  Implicit Types (st : state V) (v d : V) (p q : ptr) (ls : list (label V)).

  Definition is_shrink (l : label V) : Prop := match l with LShrink _ _ => True | _ => False end.
  Definition erase_pc (x : pc V) : pc V := match x with PShrink _ _ => PFree | _ => x end.

  Definition set_threads st (th : gmap nat (pc V)) : state V :=
    State (st_heap st) (st_table st) (st_locks st) (st_pool st) (st_gone st)
          th (st_next st) (st_zombies st) (st_log st).

  Definition sim st (th : gmap nat (pc V)) : Prop :=
    forall t, default PFree (th !! t) = erase_pc (get_pc st t).

  Lemma sim_set st th t x : sim st th -> erase_pc x = x -> sim (set_pc st t x) (<[t:=x]> th).
  Proof.
    intros Hs Hx t'. rewrite get_pc_set. destruct (decide (t' = t)) as [->|].
    - rewrite lookup_insert. done.
    - rewrite lookup_insert_ne by done. apply Hs.
  Qed.
  Lemma sim_threads st st' th : st_threads st' = st_threads st -> sim st th -> sim st' th.
  Proof. intros H Hs t. unfold get_pc. rewrite H. apply Hs. Qed.
  Lemma sim_set' st st' th t x : sim st th -> erase_pc x = x ->
    st_threads st' = <[t:=x]> (st_threads st) -> sim st' (<[t:=x]> th).
  Proof.
    intros Hs Hx Ht. eapply sim_threads; [|by apply (sim_set st th t x)]. by rewrite Ht.
  Qed.

  Lemma follow_threads st th p ks : follow E (set_threads st th) p ks = follow E st p ks.
  Proof.
    revert p. induction ks as [|k ks IH]; intros p; simpl; [done|].
    change (data (set_threads st th) p) with (data st p).
    destruct (data st p); [|done]. by destruct (decide _).
  Qed.

  Definition thread_of (l : label V) : option nat :=
    match l with
    | LNew t _ _ | LDrop t _ | LLen t _ | LShrink t _ | LStep t _ _ | LPanic t => Some t
    | _ => None
    end.

  Lemma step_sim st th l :
    sim st th -> ~ is_shrink l ->
    (forall t, thread_of l = Some t -> erase_pc (get_pc st t) = get_pc st t) ->
    match step E st l with
    | Next st1 => exists th1, step E (set_threads st th) l = Next (set_threads st1 th1) /\ sim st1 th1
    | Blocked => step E (set_threads st th) l = Blocked
    | Illegal => step E (set_threads st th) l = Illegal
    | UB => step E (set_threads st th) l = UB
    end.
  Proof.
    intros Hsim Hl Hth.
    assert (forall t, thread_of l = Some t -> get_pc (set_threads st th) t = get_pc st t) as Hget.
    { intros t Ht. rewrite <- (Hth t Ht). apply (Hsim t). }
    assert (forall t, thread_of l = Some t -> forall ty j, get_pc st t <> PShrink ty j) as Hns.
    { intros t Ht ty j Hx. specialize (Hth t Ht). rewrite Hx in Hth. done. }
    destruct l as [t k v|t q|q ks|q|q ks|q ks|t ty|t ty|t a i|t]; simpl.
    - rewrite (Hget t eq_refl). destruct (get_pc st t); try done. destruct k.
      + change (st_pool (set_threads st th)) with (st_pool st). destruct rem_all; [|done].
        eexists. split; [reflexivity|]. by eapply sim_set'.
      + destruct te_kids; [|done]. eexists. split; [reflexivity|]. by eapply sim_set'.
    - rewrite (Hget t eq_refl). destruct (get_pc st t); try done.
      change (st_pool (set_threads st th)) with (st_pool st). destruct rem1; [|done].
      eexists. split; [reflexivity|]. by eapply sim_set'.
    - unfold borrow. change (st_pool (set_threads st th)) with (st_pool st).
      destruct (decide _); [|done]. rewrite follow_threads. destruct (follow E st q ks) as [k| | |]; try done.
      change (deref (set_threads st th) k) with (deref st k). destruct (deref st k); [|done].
      eexists. split; [reflexivity|]. by eapply sim_threads.
    - change (st_pool (set_threads st th)) with (st_pool st). destruct rem1; [|done].
      eexists. split; [reflexivity|]. by eapply sim_threads.
    - unfold borrow. change (st_pool (set_threads st th)) with (st_pool st).
      destruct (decide _); [|done]. rewrite follow_threads. destruct (follow E st q ks) as [k| | |]; try done.
      change (deref (set_threads st th) k) with (deref st k). destruct (deref st k); [|done].
      eexists. split; [reflexivity|]. by eapply sim_threads.
    - unfold borrow. change (st_pool (set_threads st th)) with (st_pool st).
      destruct (decide _); [|done]. rewrite follow_threads. destruct (follow E st q ks) as [k| | |]; try done.
      change (data (set_threads st th) k) with (data st k). destruct (data st k); [|done].
      eexists. split; [reflexivity|]. by eapply sim_threads.
    - rewrite (Hget t eq_refl). destruct (get_pc st t); try done.
      eexists. split; [reflexivity|]. by eapply sim_set'.
    - by destruct Hl.
    - unfold step_thread. rewrite (Hget t eq_refl). specialize (Hns t eq_refl).
      change (st_locks (set_threads st th)) with (st_locks st).
      change (st_heap (set_threads st th)) with (st_heap st).
      change (readable (set_threads st th)) with (readable st).
      change (matches E (set_threads st th)) with (matches E st).
      change (data (set_threads st th)) with (data st).
      change (deref (set_threads st th)) with (deref st).
      change (shard_len E (set_threads st th)) with (shard_len E st).
      destruct (get_pc st t) as [|k v b|k v b q|k v b q old|k v b q|k v b|k v q|k v q|k v q|k v q|l' q w r|w r|ty j acc|ty j];
        try done; try (by destruct (Hns ty j));
      repeat (match goal with
        | |- match (match ?x with _ => _ end) with _ => _ end => destruct x
        end); try done; eexists; (split; [reflexivity|]; by eapply sim_set').
    - unfold step_panic. rewrite (Hget t eq_refl).
      change (deref (set_threads st th)) with (deref st).
      destruct (get_pc st t) as [|k v b|k v b q|k v b q old|k v b q|k v b|k v q|k v q|k v q|k v q|l' q w r|w r|ty j acc|ty j];
        try done;
      repeat (match goal with
        | |- match (match ?x with _ => _ end) with _ => _ end => destruct x
        end); try done; eexists; (split; [reflexivity|]; by eapply sim_set').
  Qed.

  (** Steps of a shrink call change nothing but the calling thread's program counter. *)
  Lemma shrink_step st l st' :
    step E st l = Next st' ->
    (is_shrink l \/ exists t, thread_of l = Some t /\ erase_pc (get_pc st t) <> get_pc st t) ->
    exists t x, st' = set_pc st t x /\ erase_pc x = PFree /\ erase_pc (get_pc st t) = PFree.
  Proof.
    intros Hs [Hl|(t&Ht&Hne)].
    - destruct l as [t k v|t q|q ks|q|q ks|q ks|t ty|t ty|t a i|t]; try done. simpl in Hs.
      destruct (get_pc st t) eqn:Hpc; try done. injection Hs as <-. exists t, (PShrink ty 0).
      by rewrite Hpc.
    - destruct (get_pc st t) as [|k v b|k v b q|k v b q old|k v b q|k v b|k v q|k v q|k v q|k v q|l' q w r|w r|ty j acc|ty j] eqn:Hpc;
        try done. exists t.
      destruct l as [t' k v|t' q|q ks|q|q ks|q ks|t' ty'|t' ty'|t' a i|t']; simpl in Ht; simplify_eq;
        simpl in Hs; unfold step_thread, step_panic in Hs; rewrite Hpc in Hs; try done.
      destruct (j <? te_shards E).
      + destruct (st_locks st !! (ty, j)); [done|]. injection Hs as <-. exists (PShrink ty (S j)).
        by rewrite Hpc.
      + injection Hs as <-. exists PFree. by rewrite Hpc.
  Qed.

  (** They are never undefined behaviour. *)
  Lemma shrink_no_ub st l :
    (is_shrink l \/ exists t, thread_of l = Some t /\ erase_pc (get_pc st t) <> get_pc st t) ->
    step E st l <> UB.
  Proof.
    intros [Hl|(t&Ht&Hne)].
    - destruct l; try done. simpl. by destruct (get_pc st t).
    - destruct (get_pc st t) as [| | | | | | | | | | | | |ty j] eqn:Hpc; try done.
      destruct l as [t' k v|t' q|q ks|q|q ks|q ks|t' ty'|t' ty'|t' a i|t']; simpl in Ht; simplify_eq;
        simpl; unfold step_thread, step_panic; rewrite Hpc; try done.
      destruct (j <? te_shards E); [|done]. by destruct (st_locks st !! (ty, j)).
  Qed.

  Theorem shrink_erasable ls :
    exists ls', sublist ls' ls /\ Forall (λ l, ~ is_shrink l) ls' /\
      match run (step E) init ls with
      | None => run (step E) init ls' = None
      | Some st => exists st', run (step E) init ls' = Some st' /\
          st_heap st' = st_heap st /\ st_table st' = st_table st /\ st_pool st' = st_pool st /\
          st_gone st' = st_gone st /\ st_log st' = st_log st /\ st_locks st' = st_locks st /\
          forall t, get_pc st' t = match get_pc st t with PShrink _ _ => PFree | x => x end
      end.
  Proof.
    assert (forall st th, sim st th -> exists ls', sublist ls' ls /\ Forall (λ l, ~ is_shrink l) ls' /\
      match run (step E) st ls with
      | None => run (step E) (set_threads st th) ls' = None
      | Some st1 => exists th1, run (step E) (set_threads st th) ls' = Some (set_threads st1 th1) /\ sim st1 th1
      end) as H.
    { induction ls as [|l ls IH]; intros st th Hsim.
      - exists []. split_and!; [constructor|constructor|]. simpl. eauto.
      - assert (Decision (is_shrink l)) as Hd1 by (destruct l; simpl; apply _).
        destruct (decide (is_shrink l)) as [Hsh|Hsh];
          [|destruct (thread_of l) as [t|] eqn:Ht; [destruct (get_pc st t) eqn:Hpc|]].
        (* shrink steps are dropped *)
        1, 15: assert (is_shrink l \/ exists t, thread_of l = Some t /\ erase_pc (get_pc st t) <> get_pc st t) as Hc
            by (first [by left | right; exists t; by rewrite Hpc]);
          destruct (step E st l) as [st1| | |] eqn:Hs; simpl; unfold exec; rewrite Hs;
          [|destruct (IH st th Hsim) as (ls'&?&?&?); exists ls'; split_and!; [by constructor|done..]..|by destruct (shrink_no_ub st l Hc)];
          destruct (shrink_step st l st1 Hs Hc) as (t'&x&->&Hx&He);
          destruct (IH (set_pc st t' x) th) as (ls'&?&?&?);
          [intros t2; rewrite get_pc_set; destruct (decide (t2 = t')) as [->|]; [rewrite Hx; rewrite (Hsim t'); exact He|apply Hsim]
          |exists ls'; split_and!; [by constructor|done..]].
        all: assert (forall t, thread_of l = Some t -> erase_pc (get_pc st t) = get_pc st t) as Hth
            by (intros t0 Ht0; rewrite Ht in Ht0; simplify_eq; by rewrite Hpc);
          pose proof (step_sim st th l Hsim Hsh Hth) as Hst;
          simpl; unfold exec;
          (destruct (step E st l) as [st1| | |];
           [destruct Hst as (th1&Hst&Hsim1); destruct (IH st1 th1 Hsim1) as (ls'&?&?&?)
           |destruct (IH st th Hsim) as (ls'&?&?&?)
           |destruct (IH st th Hsim) as (ls'&?&?&?)
           |exists [l]]);
          [exists (l :: ls'); simpl; unfold exec; rewrite Hst; split_and!; [by constructor|by constructor|done]
          |exists ls'; split_and!; [by constructor|done..]
          |exists ls'; split_and!; [by constructor|done..]
          |simpl; unfold exec; rewrite Hst; split_and!; [constructor; apply sublist_nil_l|by repeat constructor|done]]. }
    destruct (H init ∅) as (ls'&Hsub&Hf&Hr).
    { intros t. unfold get_pc. simpl. by rewrite lookup_empty. }
    exists ls'. split_and!; [done..|]. change (set_threads init ∅) with (@init V) in Hr.
    destruct (run (step E) init ls) as [st|]; [|done].
    destruct Hr as (th&Hr&Hsim). eexists. split; [exact Hr|]. split_and!; try done.
    intros t. specialize (Hsim t). change (get_pc (set_threads st th) t) with (default PFree (th !! t)).
    rewrite Hsim. by destruct (get_pc st t).
  Qed.
End shrink.

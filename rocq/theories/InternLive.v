(** Deadlocks of the Intern model: exactly the sets of threads waiting for each other from
    inside nested calls. *)
From stdpp Require Import gmap list numbers fin_sets.
From Verif Require Import Base InternModel InternSpec InternInv InternStep InternLaw InternFinal InternMore.
Require Import ZifyBool ZifyNat ZifyN.

Section live.
  Context {V Q : Type} (E : ienv V Q).
  Implicit Types (st : istate V Q) (v d : V) (p : iptr) (o : iop V Q) (f g : frame V Q) (t ty s : nat).
  Implicit Types (ls : list (ilabel V Q)) (l : list (ievent V Q)) (lb : ilabel V Q) (D : nat -> Prop).
  Notation slot := (slot E).
  Notation op_ty := (op_ty E).
  Notation IInv := (IInv E).
  Notation held := (held E).
  Notation total_from := (total_from E).

  Lemma holds_held s g : holds E s g <-> held s g = 1.
  Proof.
    unfold holds, InternInv.held. split.
    - intros [Hn Hs]. destruct g; try (by rewrite Hs, Nat.eqb_refl). by destruct (Hn o b).
    - destruct g; simpl; try (destruct (Nat.eqb_spec (slot (frame_ty E _)) s); [|done]; by split); try done;
        match goal with |- context [?x =? s] => destruct (Nat.eqb_spec x s); done end.
  Qed.

  Lemma dead_step st D lb st' : IInv st -> deadlocked E st D -> istep E st lb = Next st' ->
    forall t, D t -> get_stack st' t = get_stack st t.
  Proof.
    intros HI HD Hs t Ht. destruct (HD t Ht) as (o&b&k&u&f&k'&g&Hst&Hu&Hstu&Hg&Hh%holds_held).
    destruct (istep_move E _ _ _ Hs) as [(p&v&_&_&->&->)|(t'&fs&fs'&k0&s1&Hst'&Hm&->&Hlb'&Hc)]; [done|].
    destruct (decide (t' = t)) as [->|Hne].
    2:{ rewrite get_stack_set, decide_False by done. destruct (move_ok E st t' fs fs' k0 s1 HI Hst' Hm) as [[] _].
        pose proof (stack_upd _ _ _ _ t tr_new) as Hup. rewrite get_stack_set in Hup. rewrite !decide_False in Hup by done. done. }
    exfalso. assert (is_Some (i_locks st !! slot (op_ty o))) as [x Hx].
    { pose proof (v_locks _ _ HI (slot (op_ty o))) as Hv. unfold lk in Hv.
      destruct (i_locks st !! slot (op_ty o)); [done|].
      pose proof (msum_stack_ge (held (slot (op_ty o))) st u) as Hge. rewrite Hstu in Hge.
      simpl in Hge. pose proof (lsum_ge (held (slot (op_ty o))) k' g Hg). lia. }
    destruct fs as [|f0 fs].
    - destruct (Hc eq_refl) as (o'&b'&a&->&_). simpl in Hs. rewrite Hst in Hs. done.
    - rewrite Hst in Hst'. injection Hst' as <- ->. inversion Hm; subst; simpl in *; congruence.
  Qed.
  Lemma dead_stays st D st' : (forall t, D t -> get_stack st' t = get_stack st t) ->
    deadlocked E st D -> deadlocked E st' D.
  Proof.
    intros Heq HD t Ht. destruct (HD t Ht) as (o&b&k&u&f&k'&g&Hst&Hu&Hstu&Hg&Hh).
    exists o, b, k, u, f, k', g. split_and!; [by rewrite Heq|done|by rewrite Heq|done|done].
  Qed.
  Lemma dead_forever st D ls st' : IInv st -> deadlocked E st D -> run (istep E) st ls = Some st' ->
    forall t, D t -> get_stack st' t = get_stack st t.
  Proof.
    intros HI HD Hr. revert ls st st' HI Hr HD.
    apply (run_ind' E (λ st st', deadlocked E st D -> forall t, D t -> get_stack st' t = get_stack st t)); [done|].
    intros st lb st1 st2 HI Hs HI1 IH HD t Ht. pose proof (dead_step _ _ _ _ HI HD Hs) as Heq.
    rewrite (IH (dead_stays _ _ _ Heq HD) t Ht). by apply Heq.
  Qed.
  (** A container whose mutex is held inside the deadlock is dead for everybody. *)
  Lemma dead_container st D u f k g ls st' : IInv st -> deadlocked E st D -> run (istep E) st ls = Some st' ->
    D u -> get_stack st u = f :: k -> g ∈ k ->
    forall s, holds E s g -> forall t o r, slot (op_ty o) = s -> EvRet t o r ∈ i_log st' -> EvRet t o r ∈ i_log st.
  Proof.
    intros HI HD Hr Hu Hstu Hg s Hh%holds_held t o r Hsl. revert ls st st' HI Hr HD Hstu.
    apply (run_ind' E (λ st st', deadlocked E st D -> get_stack st u = f :: k -> EvRet t o r ∈ i_log st' -> EvRet t o r ∈ i_log st)); [done|].
    intros st lb st1 st2 HI Hs HI1 IH HD Hstu Hin. pose proof (dead_step _ _ _ _ HI HD Hs) as Heq.
    specialize (IH (dead_stays _ _ _ Heq HD)). rewrite (Heq u Hu) in IH. specialize (IH Hstu Hin).
    destruct (HD u Hu) as (o0&b0&k0&_&_&_&_&Hstu'&_). rewrite Hstu in Hstu'. injection Hstu' as -> <-.
    destruct (istep_move E _ _ _ Hs) as [(p&v&_&_&->&->)|(t'&fs&fs'&k'&s1&Hst'&Hm&->&Hlb'&Hc)].
    { simpl in IH. by apply elem_of_cons in IH as [?|?]. }
    destruct Hm; simpl in IH; try done.
    - by destruct (ialloc_spec E _ _ _ _ _ _ HI H) as (->&_).
    - by apply elem_of_cons in IH as [?|?].
    - unfold ileak in H0. destruct (i_objs st !! ip_ser p) as [x|]; [|done]. destruct (io_leaked x); [done|]. by injection H0 as <-.
    - by destruct (ialloc_spec E _ _ _ _ _ _ HI H) as (->&_).
    - by apply elem_of_cons in IH as [?|?].
    - unfold ifree in H. destruct (i_objs st !! ip_ser p) as [x|]; [|done]. destruct (io_leaked x); [done|]. by injection H as <-.
    - apply elem_of_cons in IH as [[= -> -> ->]|?]; [exfalso|done].
      assert (t' <> u) as Hne. { intros ->. rewrite Hstu in Hst'. done. }
      pose proof (msum_stack_ge2 (held s) st t' u Hne) as Hge.
      rewrite (v_locks _ _ HI), Hst', Hstu in Hge. simpl in Hge. rewrite Hsl, Nat.eqb_refl in Hge.
      pose proof (lsum_ge (held s) k g Hg). pose proof (lk_le st s). lia.
  Qed.

  (** Every deadlocked thread is inside a nested call, and so is the thread it waits for. *)
  Lemma dead_nested st D : deadlocked E st D -> (exists t, D t) -> exists t, D t /\ 2 <= length (get_stack st t).
  Proof.
    intros HD [t Ht]. destruct (HD t Ht) as (o&b&k&u&f&k'&g&Hst&Hu&Hstu&Hg&Hh). exists u. split; [done|].
    rewrite Hstu. destruct k'; [by apply elem_of_nil in Hg|]. simpl. lia.
  Qed.

  (** Either everything can be finished or a deadlock is reached. *)
  Lemma finish_or_dead st : IInv st -> total_from ->
    exists ls st', run (istep E) st ls = Some st' /\ (forall lb, lb ∈ ls -> quiet lb) /\
      ((forall t, get_stack st' t = []) \/
       ((exists t, get_stack st' t <> []) /\ deadlocked E st' (λ t, get_stack st' t <> []))).
  Proof.
    intros HI HT. remember (msum (lsum rank) (i_threads st)) as n eqn:Hn. revert st HI Hn.
    induction n as [n IH] using lt_wf_ind. intros st HI Hn.
    destruct (decide (map_Forall (λ _ k, match k with
      | FWait o _ :: _ => match i_locks st !! slot (op_ty o) with Some _ => true | None => false end
      | [] => true | _ => false end = true) (i_threads st))) as [Hall|Hsome].
    - exists [], st. split_and!; [done|intros lb Hin; by apply elem_of_nil in Hin|].
      destruct (decide (map_Forall (λ _ k, k = []) (i_threads st))) as [Hemp|Hne].
      { left. intros t. unfold get_stack. destruct (i_threads st !! t) as [k|] eqn:Ht; [|done]. by apply Hemp in Ht. }
      right. split.
      { apply map_not_Forall in Hne as (t&k&Ht&Hk); [|apply _]. exists t. unfold get_stack. by rewrite Ht. }
      assert (forall t, get_stack st t <> [] -> exists o b k, get_stack st t = FWait o b :: k /\ is_Some (i_locks st !! slot (op_ty o))) as Hw.
      { intros t. unfold get_stack. destruct (i_threads st !! t) as [k|] eqn:Ht; [|done].
        pose proof (Hall _ _ Ht) as Hk. simpl in Hk. simpl. intros Hk0. destruct k as [|[] k]; try done.
        eexists _, _, _. split; [done|]. by destruct (i_locks st !! slot (op_ty o)). }
      intros t Ht. destruct (Hw t Ht) as (o&b&k&Hst&Hl). destruct (holder E st _ HI Hl) as (u&g&Hg&Hh).
      assert (get_stack st u <> []) as Hu. { intros Hu. rewrite Hu in Hg. by apply elem_of_nil in Hg. }
      destruct (Hw u Hu) as (o'&b'&k'&Hstu&_). exists o, b, k, u, (FWait o' b'), k', g. split_and!; try done.
      + rewrite Hstu in Hg. by apply elem_of_cons in Hg as [->|Hg].
      + by apply holds_held.
    - apply map_not_Forall in Hsome as (u&ks&Hu&Hk); [|apply _].
      destruct ks as [|f k]; [done|].
      assert (get_stack st u = f :: k) as Hst. { unfold get_stack. by rewrite Hu. }
      assert (~ waiting E st f) as Hw. { intros (o&b&->&[x Hw]). by rewrite Hw in Hk. }
      destruct (thread_steps E st u f k HI HT Hst Hw) as (lb&st'&fs'&st1&Hs&Hq&Hlb&Hm&->&Hrk&Hnw&_).
      destruct (move_ok E st u [f] fs' k st1 HI Hst Hm) as [Htr HI'].
      set (st' := set_stack st1 u (fs' ++ k)) in *.
      destruct (IH (msum (lsum rank) (i_threads st'))) with (st := st') as (ls&st2&Hr&Hqs&Hend); try done.
      { pose proof (msum_stack rank st st' u _ (tr_new _ _ _ _ _ _ _ Htr)) as Hms.
        rewrite Hst, lsum_app in Hms. change (lsum rank (f :: k)) with (rank f + lsum rank k) in Hms. lia. }
      exists (lb :: ls), st2. split_and!; [|intros lb' [->|?]%elem_of_cons; auto|done].
      simpl run. unfold exec. by rewrite Hs.
  Qed.

  (** A callback that calls back on a container its thread has locked. *)
  Lemma reenter st t f k o a st1 :
    get_stack st t = f :: k -> istep E st (ICall t o a) = Next st1 -> slot (op_ty o) = slot (frame_ty E f) ->
    exists b, get_stack st1 t = FWait o b :: f :: k /\ deadlocked E st1 (λ u, u = t) /\ holds E (slot (op_ty o)) f.
  Proof.
    intros Hst Hs Hsl. simpl in Hs. rewrite Hst in Hs. destruct (in_user f) eqn:Hu; [|done].
    assert (holds E (slot (op_ty o)) f) as Hh. { split; [|done]. by intros ? ? ->. }
    assert (exists b, get_stack st1 t = FWait o b :: f :: k) as [b Hst1].
    { destruct o; try (injection Hs as <-; rewrite get_stack_set, decide_True by done; by eexists).
      destruct (ialloc E st a v false) as [[st2 p]|]; [|done]. injection Hs as <-.
      rewrite get_stack_set, decide_True by done. by eexists. }
    exists b. split_and!; try done. intros u ->. exists o, b, (f :: k), t, (FWait o b), (f :: k), f.
    split_and!; try done. by left.
  Qed.
  Lemma reenter_forever ls0 st t f k o a st1 ls st2 :
    run (istep E) iinit ls0 = Some st -> get_stack st t = f :: k ->
    istep E st (ICall t o a) = Next st1 -> slot (op_ty o) = slot (frame_ty E f) ->
    run (istep E) st1 ls = Some st2 ->
    get_stack st2 t = get_stack st1 t /\
    forall u o' r, slot (op_ty o') = slot (frame_ty E f) -> EvRet u o' r ∈ i_log st2 -> EvRet u o' r ∈ i_log st1.
  Proof.
    intros Hr Hst Hs Hsl Hr2. pose proof (reach_inv E _ _ Hr) as HI. pose proof (istep_inv E _ _ _ HI Hs) as HI1.
    destruct (reenter st t f k o a st1 Hst Hs Hsl) as (b&Hst1&HD&Hh). split.
    - by apply (dead_forever st1 (λ u, u = t) ls st2).
    - intros u o' r Hsl'. apply (dead_container st1 (λ u, u = t) t (FWait o b) (f :: k) f ls st2) with (s := slot (op_ty o)); try done.
      + by left.
      + by rewrite Hsl.
  Qed.
End live.

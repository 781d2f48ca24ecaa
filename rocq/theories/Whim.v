(** C76: the invariants of Intern and NewIntern do not depend on the answers of Eq, Hash and Borrow. *)
From stdpp Require Import gmap list numbers.
From Verif Require Import Base InternModel InternSpec InternInv InternStep InternLaw InternFinal InternMore InternLive
  NewModel NewSpec NewSim NewStep NewFinal NewWait NewLive TermSpec Term TermIntern TermNew WhimSpec.
Require Import ZifyBool ZifyNat ZifyN.

Section intern.
  Context {V Q : Type} (E : ienv V Q).
  Implicit Types (st : istate V Q) (c : code V Q) (cl : code V Q * ilabel V Q) (ls : list (code V Q * ilabel V Q)) (t : nat).
  Notation wstep := (whim istep E).
  Notation wown := (whim_own i_own).

  Lemma IInv_to c st : IInv E st -> IInv (with_code E c) st.
  Proof. intros []. by constructor. Qed.
  Lemma IInv_from c st : IInv (with_code E c) st -> IInv E st.
  Proof. intros []. by constructor. Qed.
  Lemma w_inv st cl st' : IInv E st -> wstep st cl = Next st' -> IInv E st'.
  Proof. intros HI Hs. eapply IInv_from, istep_inv; [|exact Hs]. by apply IInv_to. Qed.
  Lemma w_noub st cl : IInv E st -> wstep st cl <> UB.
  Proof. intros HI. apply istep_safe. by apply IInv_to. Qed.
  Lemma w_reach ls st st' : IInv E st -> run wstep st ls = Some st' -> IInv E st'.
  Proof.
    revert st. induction ls as [|l ls IH]; intros st HI; simpl; [by intros [= ->]|].
    unfold exec. destruct (wstep st l) as [st1| | |] eqn:Hs; try done; [|by apply IH..].
    apply IH. by eapply w_inv.
  Qed.
  Lemma w_safe ls : exists st, run wstep iinit ls = Some st.
  Proof.
    assert (forall ls st, IInv E st -> exists st', run wstep st ls = Some st') as H.
    { clear ls. induction ls as [|l ls IH]; intros st HI; simpl; [by eexists|].
      unfold exec. destruct (wstep st l) as [st1| | |] eqn:Hs; [|by apply IH..|by apply w_noub in Hs].
      apply IH. by eapply w_inv. }
    apply H, iinv_init.
  Qed.
  Lemma w_keeps ls st st' ty p v : IInv E st -> run wstep st ls = Some st' ->
    (points E st ty p v true -> points E st' ty p v true) /\ exists l, i_log st' = l ++ i_log st.
  Proof.
    revert st. induction ls as [|cl ls IH]; intros st HI; simpl; [intros [= ->]; split; [done|by exists []]|].
    unfold exec. destruct (wstep st cl) as [st1| | |] eqn:Hs; try done; [|by apply IH..].
    intros Hr. destruct (IH st1) as [Hp [l2 Hl2]]; [by eapply w_inv|done|].
    destruct (step_log (with_code E cl.1) _ _ _ (IInv_to _ _ HI) Hs) as [l1 Hl1]. split.
    - intros H. apply Hp. by apply (step_points (with_code E cl.1) _ _ _ _ _ _ (IInv_to _ _ HI) Hs).
    - exists (l2 ++ l1). by rewrite Hl2, Hl1, app_assoc.
  Qed.
  Lemma w_handle ls1 ls2 st1 st2 t o p c :
    run wstep iinit ls1 = Some st1 -> EvRet t o (RPtr p) ∈ i_log st1 -> run wstep st1 ls2 = Some st2 ->
    exists v, ie_ty E v = op_ty E o /\ ip_meta p = ie_meta E v /\
      i_objs st1 !! ip_ser p = Some (IObj (ip_addr p) v true) /\
      i_objs st2 !! ip_ser p = Some (IObj (ip_addr p) v true) /\
      wstep st2 (c, IDeref p) = Next (add_event st2 (EvRead p v)).
  Proof.
    intros Hr1 Hin Hr2. pose proof (w_reach _ _ _ (iinv_init E) Hr1) as HI.
    destruct (v_log _ _ HI _ Hin) as [v Hp]. destruct (w_keeps _ _ _ (op_ty E o) p v HI Hr2) as [Hk [l Hl]].
    pose proof (Hk Hp) as Hp2. exists v. split_and!; [apply Hp|apply Hp|apply Hp|apply Hp2|].
    unfold whim. simpl.
    assert (returned p (i_log st2) = true) as ->.
    { apply returned_in. exists t, o. rewrite Hl. apply elem_of_app. by right. }
    by rewrite (points_read E _ _ _ _ _ Hp2).
  Qed.

  Lemma w_own_inv st t cl st' : IInv E st -> wown t cl -> wstep st cl = Next st' -> IInv E st'.
  Proof. intros HI _. by apply w_inv. Qed.
  Lemma w_own_mu st t cl st' : IInv E st -> wown t cl -> wstep st cl = Next st' -> imu st' < imu st.
  Proof. intros HI Ho Hs. by apply (iown_mu (with_code E cl.1) _ _ _ _ (IInv_to _ _ HI) Ho Hs). Qed.
  Lemma w_own_ordered st t cl st' : IInv E st -> wown t cl -> wstep st cl = Next st' -> ordered E st -> ordered E st'.
  Proof. intros HI Ho Hs. apply (iown_ordered (with_code E cl.1) _ _ _ _ (IInv_to _ _ HI) Ho Hs). Qed.
  Lemma w_able st t : able wstep wown st t <-> exists c, able (istep (with_code E c)) i_own st t.
  Proof.
    split; [intros ([c lb]&st'&Ho&Hs); by exists c, lb, st'|intros (c&lb&st'&Ho&Hs); by exists (c, lb), st'].
  Qed.
  (** Which thread can step does not depend on the answers. *)
  Lemma w_able_any c st t : IInv E st -> total_from E -> able wstep wown st t -> able (istep (with_code E c)) i_own st t.
  Proof.
    intros HI HT ([c' lb]&st'&Ho&Hs).
    destruct (iown_step (with_code E c') _ _ _ _ Ho Hs) as (f&k&fs&Hst&_).
    apply (iable _ st t f k); [by apply IInv_to|done|done|].
    intros (o&b&->&[x Hx]). change (slot (with_code E c)) with (slot E) in Hx. change (op_ty (with_code E c)) with (op_ty E) in Hx.
    destruct lb; try done; unfold whim_own in Ho; simpl in Ho; subst; unfold whim in Hs; simpl in Hs;
      unfold istep_thread, istep_panic in Hs; rewrite Hst in Hs; try done.
    change (slot (with_code E c')) with (slot E) in Hs. change (op_ty (with_code E c')) with (op_ty E) in Hs.
    by rewrite Hx in Hs.
  Qed.
  Definition some_code : code V Q := Code (ie_eq E) (ie_hash E) (ie_borrow E) (ie_qeq E) (ie_qhash E) (ie_sees E).
  Lemma w_unable st : (forall t, ~ able wstep wown st t) -> forall t, ~ able (istep (with_code E some_code)) i_own st t.
  Proof. intros H t Ha. apply (H t), w_able. by exists some_code. Qed.
  Lemma w_dec st : IInv E st -> total_from E -> (exists t, able wstep wown st t) \/ forall t, ~ able wstep wown st t.
  Proof.
    intros HI HT. destruct (iable_dec (with_code E some_code) st (IInv_to _ _ HI) HT) as [[t Ht]|Hn].
    - left. exists t. apply w_able. by eexists.
    - right. intros t Ha. apply (Hn t). by apply w_able_any.
  Qed.

  Lemma w_bounded ls0 st ls : run wstep iinit ls0 = Some st -> (forall cl, cl ∈ ls -> exists t, wown t cl) ->
    taken wstep st ls <= 6 * weigh (λ _, 1) (i_threads st).
  Proof.
    intros Hr Ho. rewrite weigh_msum, <- msum_const.
    pose proof (taken_le wstep wown (IInv E) imu w_own_inv w_own_mu ls st (w_reach _ _ _ (iinv_init E) Hr) Ho) as Hle.
    pose proof (msum_lsum_mono ileft (λ _, 6) (i_threads st) ileft_le). unfold imu in Hle. lia.
  Qed.
  Lemma w_settles ls0 st s x : run wstep iinit ls0 = Some st -> total_from E ->
    runs_on wstep wown st s x -> fair wstep wown s x ->
    exists n, (forall m, n <= m -> x m = x n) /\
      ((forall t, get_stack (x n) t = []) \/
       ((exists t, get_stack (x n) t <> []) /\ deadlocked E (x n) (λ t, get_stack (x n) t <> []))).
  Proof.
    intros Hr HT Hx Hf. pose proof (w_reach _ _ _ (iinv_init E) Hr) as HI.
    destruct (settles wstep wown (IInv E) imu w_own_inv w_own_mu st s x Hx HI Hf) as (n&Hn&Hm); [by intros; apply w_dec|].
    exists n. split; [done|].
    apply (istuck (with_code E some_code)); [|done|by apply w_unable].
    apply IInv_to. by apply (on_inv wstep wown (IInv E) imu w_own_inv w_own_mu st s x Hx HI).
  Qed.
  Lemma w_returns ls0 st s x : run wstep iinit ls0 = Some st -> total_from E -> ordered E st ->
    runs_on wstep wown st s x -> fair wstep wown s x ->
    exists n, forall m, n <= m -> forall t, get_stack (x m) t = [].
  Proof.
    intros Hr HT Hord Hx Hf. pose proof (w_reach _ _ _ (iinv_init E) Hr) as HI.
    destruct (settles wstep wown (IInv E) imu w_own_inv w_own_mu st s x Hx HI Hf) as (n&Hn&Hm); [by intros; apply w_dec|].
    exists n. intros m Hle t. rewrite (Hm m Hle). revert t.
    apply (istuck_ordered (with_code E some_code)); [|done|by apply w_unable|].
    - apply IInv_to. by apply (on_inv wstep wown (IInv E) imu w_own_inv w_own_mu st s x Hx HI).
    - by apply (kept wstep wown (IInv E) imu w_own_inv w_own_mu st s x Hx HI); [apply w_own_ordered|].
  Qed.
End intern.

Section new.
  Context {V Q : Type} (E : ienv V Q).
  Implicit Types (s : nstate V Q) (c : code V Q) (cl : code V Q * ilabel V Q) (ls : list (code V Q * ilabel V Q)) (t : nat).
  Notation wstep := (whim nstep E).
  Notation wown := (whim_own i_own).

  Lemma LI_to c s : LI E s -> LI (with_code E c) s.
  Proof.
    intros ((st&HI&HR)&HP&HO). split_and!.
    - exists st. split; [destruct HI; by constructor|]. destruct HR as [[] ? ?]. constructor; [constructor|..]; done.
    - destruct HP. by constructor.
    - done.
  Qed.
  Lemma LI_from c s : LI (with_code E c) s -> LI E s.
  Proof.
    intros ((st&HI&HR)&HP&HO). split_and!.
    - exists st. split; [destruct HI; by constructor|]. destruct HR as [[] ? ?]. constructor; [constructor|..]; done.
    - destruct HP. by constructor.
    - done.
  Qed.
  Lemma LI_init : LI E ninit.
  Proof. by apply (LI_reach E []). Qed.
  Lemma wn_inv s cl s' : LI E s -> wstep s cl = Next s' -> LI E s'.
  Proof. intros HI Hs. eapply LI_from, LI_step; [|exact Hs]. by apply LI_to. Qed.
  Lemma wn_noub s cl : LI E s -> wstep s cl <> UB.
  Proof. intros HI. destruct (LI_to cl.1 s HI) as ((st&HI1&HR)&_&_). by apply (nstep_safe (with_code E cl.1) s st). Qed.
  Lemma wn_reach ls s s' : LI E s -> run wstep s ls = Some s' -> LI E s'.
  Proof.
    revert s. induction ls as [|l ls IH]; intros s HI; simpl; [by intros [= ->]|].
    unfold exec. destruct (wstep s l) as [st1| | |] eqn:Hs; try done; [|by apply IH..].
    apply IH. by eapply wn_inv.
  Qed.
  Lemma wn_safe ls : exists s, run wstep ninit ls = Some s.
  Proof.
    assert (forall ls s, LI E s -> exists s', run wstep s ls = Some s') as H.
    { clear ls. induction ls as [|l ls IH]; intros s HI; simpl; [by eexists|].
      unfold exec. destruct (wstep s l) as [st1| | |] eqn:Hs; [|by apply IH..|by apply wn_noub in Hs].
      apply IH. by eapply wn_inv. }
    apply H, LI_init.
  Qed.
  Lemma wn_points s cl s' ty p v : LI E s -> wstep s cl = Next s' -> npoints E s ty p v -> npoints E s' ty p v.
  Proof.
    intros HI Hs Hp. destruct (LI_to cl.1 s HI) as ((st&HI1&HR)&_&_).
    destruct (nstep_sim (with_code E cl.1) _ _ _ _ HI1 HR Hs) as (st'&Hsim&HR').
    unfold npoints in *. rewrite <- (r_objs _ _ _ (r_base _ _ _ HR)) in Hp.
    rewrite <- (r_objs _ _ _ (r_base _ _ _ HR')). by apply (sim_points (with_code E cl.1) st st').
  Qed.
  Lemma wn_keeps ls s s' ty p v : LI E s -> run wstep s ls = Some s' ->
    (npoints E s ty p v -> npoints E s' ty p v) /\ exists l, n_log s' = l ++ n_log s.
  Proof.
    revert s. induction ls as [|cl ls IH]; intros s HI; simpl; [intros [= ->]; split; [done|by exists []]|].
    unfold exec. destruct (wstep s cl) as [s1| | |] eqn:Hs; try done; [|by apply IH..].
    intros Hr. destruct (IH s1) as [Hp [l2 Hl2]]; [by eapply wn_inv|done|].
    destruct (step_log_n (with_code E cl.1) _ _ _ Hs) as [l1 Hl1]. split.
    - intros H. apply Hp. by eapply wn_points.
    - exists (l2 ++ l1). by rewrite Hl2, Hl1, app_assoc.
  Qed.
  Lemma wn_handle ls1 ls2 s1 s2 t o p c :
    run wstep ninit ls1 = Some s1 -> EvRet t o (RPtr p) ∈ n_log s1 -> run wstep s1 ls2 = Some s2 ->
    exists v, ie_ty E v = op_ty E o /\ ip_meta p = ie_meta E v /\
      n_objs s1 !! ip_ser p = Some (IObj (ip_addr p) v true) /\
      n_objs s2 !! ip_ser p = Some (IObj (ip_addr p) v true) /\
      wstep s2 (c, IDeref p) = Next (nevent s2 (EvRead p v)).
  Proof.
    intros Hr1 Hin Hr2. pose proof (wn_reach _ _ _ LI_init Hr1) as HI.
    assert (exists v, npoints E s1 (op_ty E o) p v) as (v&Hp).
    { destruct HI as ((st&HI&HR)&_&_). pose proof (r_base _ _ _ HR) as HR0.
      pose proof Hin as Hin'. rewrite <- (r_log _ _ _ HR0) in Hin'. destruct (v_log _ _ HI _ Hin') as [v Hp]. exists v.
      unfold npoints. rewrite <- (r_objs _ _ _ HR0). exact Hp. }
    destruct (wn_keeps _ _ _ (op_ty E o) p v HI Hr2) as [Hk [l Hl]].
    pose proof (Hk Hp) as Hp2. exists v. split_and!; [apply Hp|apply Hp|apply Hp|apply Hp2|].
    unfold whim. simpl.
    assert (returned p (n_log s2) = true) as ->.
    { apply returned_in. exists t, o. rewrite Hl. apply elem_of_app. by right. }
    unfold iread. simpl. destruct Hp2 as (->&_). done.
  Qed.

  Lemma wn_own_inv s t cl s' : LI E s -> wown t cl -> wstep s cl = Next s' -> LI E s'.
  Proof. intros HI _. by apply wn_inv. Qed.
  Lemma wn_own_mu s t cl s' : LI E s -> wown t cl -> wstep s cl = Next s' -> nmu s' < nmu s.
  Proof. intros HI Ho Hs. by apply (nown_mu (with_code E cl.1) _ _ _ _ (LI_to _ _ HI) Ho Hs). Qed.
  Lemma wn_own_ordered rk s t cl s' : LI E s -> wown t cl -> wstep s cl = Next s' -> n_ordered E rk s -> n_ordered E rk s'.
  Proof. intros HI Ho Hs. apply (nown_ordered (with_code E cl.1) rk _ _ _ _ (LI_to _ _ HI) Ho Hs). Qed.
  Lemma wn_own_calm s t cl s' : LI E s -> wown t cl -> wstep s cl = Next s' -> n_calm s -> n_calm s'.
  Proof. intros HI Ho Hs. apply (nown_calm (with_code E cl.1) _ _ _ _ (LI_to _ _ HI) Ho Hs). Qed.
  Lemma wn_able s t : able wstep wown s t <-> exists c, able (nstep (with_code E c)) i_own s t.
  Proof.
    split; [intros ([c lb]&s'&Ho&Hs); by exists c, lb, s'|intros (c&lb&s'&Ho&Hs); by exists (c, lb), s'].
  Qed.
  Lemma wn_can s t : able wstep wown s t -> exists f k, nstack s t = f :: k /\ n_can E s (f :: k) = true.
  Proof.
    intros ([c lb]&s'&Ho&Hs). destruct (nown_step (with_code E c) _ _ _ _ Ho Hs) as (f&k&fs&Hst&_).
    exists f, k. split; [done|]. destruct f as [o b again|o b|o b i|o b i|o b|i g]; try done; simpl.
    - destruct lb; try done; unfold whim_own in Ho; simpl in Ho; subst; unfold whim in Hs; simpl in Hs;
        unfold nstep_thread, nstep_panic in Hs; rewrite Hst in Hs; try done.
      + change (op_ty (with_code E c)) with (op_ty E) in Hs. change (slot (with_code E c)) with (slot E) in Hs. by destruct (_ =? _).
      + cbn in Hs. by destruct (existsb unwinds k).
    - destruct lb; try done; unfold whim_own in Ho; simpl in Ho; subst; unfold whim in Hs; simpl in Hs;
        unfold nstep_thread, nstep_panic in Hs; rewrite Hst in Hs; try done.
      + change (op_ty (with_code E c)) with (op_ty E) in Hs. change (slot (with_code E c)) with (slot E) in Hs.
        destruct (n_locks s !! _); [done|]. destruct (bool_decide _); [|done]. by destruct (existsb unwinds k).
      + cbn in Hs. by destruct (existsb unwinds k).
  Qed.
  Lemma wn_unable s : (forall t, ~ able wstep wown s t) -> forall t, ~ able (nstep (with_code E (some_code E))) i_own s t.
  Proof. intros H t Ha. apply (H t), wn_able. by eexists. Qed.
  Lemma wn_dec s : LI E s -> total_from E -> (exists t, able wstep wown s t) \/ forall t, ~ able wstep wown s t.
  Proof.
    intros HI HT. destruct (nable_dec (with_code E (some_code E)) s (LI_to _ _ HI) HT) as [[t Ht]|Hn].
    - left. exists t. apply wn_able. by eexists.
    - right. intros t Ha. destruct (wn_can s t Ha) as (f&k&Hst&Hc). apply (Hn t).
      by apply (nable (with_code E (some_code E)) s t f k (LI_to _ _ HI) HT Hst).
  Qed.
  Lemma wn_bounded ls0 s ls : run wstep ninit ls0 = Some s -> (forall cl, cl ∈ ls -> exists t, wown t cl) ->
    taken wstep s ls <= 10 * weigh (λ _, 1) (n_threads s).
  Proof.
    intros Hr Ho. rewrite weigh_msum, <- msum_const.
    pose proof (taken_le wstep wown (LI E) nmu wn_own_inv wn_own_mu ls s (wn_reach _ _ _ LI_init Hr) Ho) as Hle.
    pose proof (msum_lsum_mono nleft (λ _, 10) (n_threads s) nleft_le). unfold nmu in Hle. lia.
  Qed.
  Lemma wn_settles ls0 s z x : run wstep ninit ls0 = Some s -> total_from E ->
    runs_on wstep wown s z x -> fair wstep wown z x ->
    exists n, (forall m, n <= m -> x m = x n) /\
      ((forall t, nstack (x n) t = []) \/ (exists t, n_aborts E (x n) t) \/
       ((exists t, nstack (x n) t <> []) /\ n_deadlocked E (x n) (λ t, nstack (x n) t <> []))).
  Proof.
    intros Hr HT Hx Hf. pose proof (wn_reach _ _ _ LI_init Hr) as HI.
    destruct (settles wstep wown (LI E) nmu wn_own_inv wn_own_mu s z x Hx HI Hf) as (n&Hn&Hm); [by intros; apply wn_dec|].
    exists n. split; [done|].
    pose proof (on_inv wstep wown (LI E) nmu wn_own_inv wn_own_mu s z x Hx HI n) as HIn. apply (LI_to (some_code E)) in HIn.
    apply (nstuck (with_code E (some_code E))); [done|]. apply stuck_of; [done|done|]. by apply wn_unable.
  Qed.
  Lemma wn_returns ls0 s rk z x : run wstep ninit ls0 = Some s -> total_from E -> n_ordered E rk s -> n_calm s ->
    runs_on wstep wown s z x -> fair wstep wown z x ->
    exists n, forall m, n <= m -> forall t, nstack (x m) t = [].
  Proof.
    intros Hr HT Hord Hc Hx Hf. pose proof (wn_reach _ _ _ LI_init Hr) as HI.
    destruct (settles wstep wown (LI E) nmu wn_own_inv wn_own_mu s z x Hx HI Hf) as (n&Hn&Hm); [by intros; apply wn_dec|].
    exists n. intros m Hle t. rewrite (Hm m Hle). revert t.
    pose proof (on_inv wstep wown (LI E) nmu wn_own_inv wn_own_mu s z x Hx HI n) as HIn. apply (LI_to (some_code E)) in HIn.
    apply (ordered_stuck (with_code E (some_code E)) rk); [done|apply stuck_of; [done|done|]; by apply wn_unable| |].
    - by apply (kept wstep wown (LI E) nmu wn_own_inv wn_own_mu s z x Hx HI); [apply wn_own_ordered|].
    - intros t. apply calm_no_abort. by apply (kept wstep wown (LI E) nmu wn_own_inv wn_own_mu s z x Hx HI); [apply wn_own_calm|].
  Qed.
End new.

(** Deadlocks of the Arena model: exactly the sets of threads waiting for each other from
    inside nested calls. *)
From stdpp Require Import gmap list numbers.
From Verif Require Import Base InternModel InternSpec InternInv InternStep InternMore ArenaModel ArenaSpec ArenaInv ArenaStep
  ArenaFinal ArenaMore ArenaWait.
Require Import ZifyBool ZifyNat ZifyN.

Section live.
  Context {V Q : Type} (E : ienv V Q).
  Implicit Types (st : astate V Q) (v d : V) (p : iptr) (o : aop V Q) (f g : aframe V Q) (t r : nat).
  Implicit Types (ls : list (alabel V Q)) (lb : alabel V Q) (D : nat -> Prop) (rk : nat -> nat).
  Notation AInv := (AInv E).
  Notation total_from := (total_from E).

  Definition arank f : nat :=
    match f with
    | AWait _ _ _ => 10 | AGet _ _ _ => 9 | AConv _ _ _ => 8 | AStore _ _ _ (Some _) => 7 | AStore _ _ _ None => 6
    | AIns _ _ _ _ => 5 | AKill _ _ _ _ _ => 4 | AMake _ _ _ _ => 3 | ARel _ _ _ _ _ => 2 | AArg _ _ _ _ _ => 1
    | ADead _ ps => S (length ps)
    end.
  Definition a_waiting st f : Prop := exists r o b, f = AWait r o b /\ is_Some (a_locks st !! r).

  (** A thread that is not waiting for a mutex can take a step, which makes its stack smaller
      (or is undefined). *)
  Lemma athread_steps st t f k :
    AInv st -> total_from -> a_stack st t = f :: k -> ~ a_waiting st f ->
    exists lb, a_quiet lb /\ l_thread lb = Some t /\
      (astep E st lb = UB \/ exists st' fs', astep E st lb = Next st' /\
        a_threads st' = <[t := fs' ++ k]> (a_threads st) /\ lsum arank fs' < arank f /\ forall r o b, AWait r o b ∉ fs').
  Proof.
    intros HI HT Hst Hw.
    assert (aframe_ok E st f) as Hfr. { apply (x_frames _ _ HI t). rewrite Hst. by left. }
    assert (forall st' f', a_threads st' = <[t := f' :: k]> (a_threads st) -> arank f' < arank f ->
      (match f' with AWait _ _ _ => False | _ => True end) ->
      exists fs', a_threads st' = <[t := fs' ++ k]> (a_threads st) /\ lsum arank fs' < arank f /\ forall r o b, AWait r o b ∉ fs') as H1.
    { intros st' f' Hth Hr Hf'. exists [f']. split_and!; [done|simpl; lia|]. intros r o b <-%elem_of_list_singleton. done. }
    assert (forall st', a_threads st' = <[t := k]> (a_threads st) -> 0 < arank f ->
      exists fs', a_threads st' = <[t := fs' ++ k]> (a_threads st) /\ lsum arank fs' < arank f /\ forall r o b, AWait r o b ∉ fs') as H0.
    { intros st' Hth Hr. exists []. split_and!; [done|simpl; lia|]. intros r o b Hin. by apply elem_of_nil in Hin. }
    assert (forall lb st', a_quiet lb -> l_thread lb = Some t -> astep E st lb = Next st' ->
      (exists fs', a_threads st' = <[t := fs' ++ k]> (a_threads st) /\ lsum arank fs' < arank f /\ forall r o b, AWait r o b ∉ fs') ->
      exists lb, a_quiet lb /\ l_thread lb = Some t /\
      (astep E st lb = UB \/ exists st' fs', astep E st lb = Next st' /\
        a_threads st' = <[t := fs' ++ k]> (a_threads st) /\ lsum arank fs' < arank f /\ forall r o b, AWait r o b ∉ fs')) as Hgo.
    { intros lb st' Hq Hl Hs (fs'&?&?&?). exists lb. split_and!; try done. right. exists st', fs'. split_and!; done. }
    assert (astep E st (LStep t 0 0) = UB -> exists lb, a_quiet lb /\ l_thread lb = Some t /\
      (astep E st lb = UB \/ exists st' fs', astep E st lb = Next st' /\
        a_threads st' = <[t := fs' ++ k]> (a_threads st) /\ lsum arank fs' < arank f /\ forall r o b, AWait r o b ∉ fs')) as Hub.
    { intros Hu. exists (LStep t 0 0). split_and!; try done. by left. }
    assert (forall w p st1, a_free st w p = Some st1 -> a_threads st1 = a_threads st) as Hfree.
    { intros w p st1. unfold a_free. destruct (a_objs st !! ip_ser p); [|done]. by intros [= <-]. }
    destruct f as [r o b|r o b|r w q|r o v b|r o b p|r o b p pn|r o b p|r o b m x|r o b m x|r ps].
    - destruct (a_locks st !! r) eqn:Hl; [destruct Hw; exists r, o, b; by rewrite Hl|].
      eapply (Hgo (LStep t 0 0)); [done|done|simpl; unfold a_step_thread; rewrite Hst, Hl; reflexivity|].
      by apply (H1 _ (AGet r o b)); [|simpl; lia|].
    - destruct (a_readable st (a_set st r)) eqn:Hrd; [|apply Hub; simpl; unfold a_step_thread; by rewrite Hst, Hrd].
      destruct (ipick 0 (a_cands st (a_match E o) (a_set st r))) as [p|] eqn:Hp.
      { eapply (Hgo (LStep t 0 0)); [done|done|simpl; unfold a_step_thread; rewrite Hst, Hrd, Hp; reflexivity|].
        by apply (H1 _ (ARel r o b true (AP p))); [|simpl; lia|]. }
      destruct o as [v|w q|v|v].
      + eapply (Hgo (LStep t 0 0)); [done|done|simpl; unfold a_step_thread; rewrite Hst, Hrd, Hp; reflexivity|].
        by eapply (H1 _ (AStore r _ v None)); [|simpl; lia|].
      + eapply (Hgo (LStep t 0 0)); [done|done|simpl; unfold a_step_thread; rewrite Hst, Hrd, Hp; reflexivity|].
        by eapply (H1 _ (AConv r w q)); [|simpl; lia|].
      + eapply (Hgo (LStep t 0 0)); [done|done|simpl; unfold a_step_thread; rewrite Hst, Hrd, Hp; reflexivity|].
        by eapply (H1 _ (AStore r _ v b)); [|destruct b; simpl; lia|].
      + destruct Hfr as (ty&_&_&p&->&_).
        eapply (Hgo (LStep t 0 0)); [done|done|simpl; unfold a_step_thread; rewrite Hst, Hrd, Hp; reflexivity|].
        by eapply (H1 _ (AIns r _ _ p)); [|simpl; lia|].
    - destruct Hfr as (ty&x&Hx&Hty). destruct (HT (ar_ty x) w q) as (v&Hf&Hv).
      eapply (Hgo (LConv t v)); [done|done|simpl; rewrite Hst, Hf, Hx, Hv; simpl; rewrite bool_decide_true by done; reflexivity|].
      by eapply (H1 _ (AStore r _ v None)); [|simpl; lia|].
    - destruct b as [q|].
      + destruct (a_free st None q) as [st1|] eqn:Hf; [|apply Hub; simpl; unfold a_step_thread; by rewrite Hst, Hf].
        eapply (Hgo (LStep t 0 0)); [done|done|simpl; unfold a_step_thread; rewrite Hst, Hf; reflexivity|].
        eapply (H1 _ (AStore r _ v None)); [simpl; by rewrite (Hfree _ _ _ Hf)|simpl; lia|done].
      + destruct (alloc_some E st v) as (a&st1&p&Ha).
        eapply (Hgo (LStep t a 0)); [done|done|simpl; unfold a_step_thread; rewrite Hst, Ha; reflexivity|].
        eapply (H1 _ (AIns r _ _ p)); [|simpl; lia|done]. simpl.
        destruct (a_alloc_spec E _ _ _ _ _ HI Ha) as (->&_). done.
    - destruct (astep E st (LStep t 0 0)) as [st'| | |] eqn:Hs; [|exfalso|exfalso|by apply Hub]; pose proof Hs as Hs'; simpl in Hs';
        unfold a_step_thread in Hs'; rewrite Hst in Hs'; destruct (a_read st p) as [v|]; try done; destruct (a_arenas st !! r) as [x|]; try done;
        destruct (a_readable st (ar_set x)); try done; destruct (a_cands st (ins_match E v) (ar_set x)); try done.
      all: injection Hs' as <-; eapply (Hgo (LStep t 0 0)); [done|done|done|].
      + by eapply (H1 _ (AMake r o b p)); [|simpl; lia|].
      + by eapply (H1 _ (AKill r o b p false)); [|simpl; lia|].
    - destruct (a_free st None p) as [st1|] eqn:Hf; [|apply Hub; simpl; unfold a_step_thread; by rewrite Hst, Hf].
      eapply (Hgo (LStep t 0 0)); [done|done|simpl; unfold a_step_thread; rewrite Hst, Hf; reflexivity|].
      eapply (H1 _ (if pn then ARel r o b false APanic else AMake r o b p)); [simpl; by rewrite (Hfree _ _ _ Hf)|destruct pn; simpl; lia|by destruct pn].
    - destruct (a_read st p) as [v|] eqn:Hp; [|apply Hub; simpl; unfold a_step_thread; by rewrite Hst, Hp].
      eapply (Hgo (LStep t 0 0)); [done|done|simpl; unfold a_step_thread; rewrite Hst, Hp; reflexivity|].
      by eapply (H1 _ (ARel r o b false (AP p))); [|simpl; lia|].
    - eapply (Hgo (LStep t 0 0)); [done|done|simpl; unfold a_step_thread; rewrite Hst; reflexivity|].
      by eapply (H1 _ (AArg r o b m x)); [|simpl; lia|].
    - destruct (a_free_opt st (if m then b else None)) as [st1|] eqn:Hf; [|apply Hub; simpl; unfold a_step_thread; by rewrite Hst, Hf].
      eapply (Hgo (LStep t 0 0)); [done|done|simpl; unfold a_step_thread; rewrite Hst, Hf; reflexivity|].
      apply H0; [|simpl; lia]. simpl. unfold a_free_opt in Hf. destruct m, b; simpl in Hf; try (by rewrite (Hfree _ _ _ Hf)); by injection Hf as <-.
    - destruct ps as [|p ps].
      + eapply (Hgo (LStep t 0 0)); [done|done|simpl; unfold a_step_thread; rewrite Hst; reflexivity|].
        apply H0; [done|simpl; lia].
      + destruct (a_free st (Some r) p) as [st1|] eqn:Hf; [|apply Hub; simpl; unfold a_step_thread; by rewrite Hst, Hf].
        eapply (Hgo (LStep t 0 0)); [done|done|simpl; unfold a_step_thread; rewrite Hst, Hf; reflexivity|].
        eapply (H1 _ (ADead r ps)); [simpl; by rewrite (Hfree _ _ _ Hf)|simpl; lia|done].
  Qed.

  (** ** Who has a mutex *)
  Lemma a_holds_lock r g : a_holds r g <-> has_lock r g = 1.
  Proof.
    destruct g; simpl; try (split; [done|lia]); destruct (Nat.eqb_spec r0 r) as [->|Hne]; split; congruence || done.
  Qed.
  Lemma aholder st r : AInv st -> is_Some (a_locks st !! r) -> exists u g, g ∈ a_stack st u /\ a_holds r g.
  Proof.
    intros HI [x Hx]. pose proof (x_locks _ _ HI r) as H. unfold alk in H. rewrite Hx in H.
    destruct (msum_pos (lsum (has_lock r)) (a_threads st)) as (u&k&Hu&Hk); [lia|].
    destruct (lsum_pos (has_lock r) k Hk) as (g&Hg&Hp). exists u, g. unfold a_stack. rewrite Hu. simpl.
    split; [done|]. apply a_holds_lock. unfold has_lock in *. destruct g; try lia; destruct (_ =? r); lia.
  Qed.
  Lemma ahold_locked st r u g : AInv st -> g ∈ a_stack st u -> a_holds r g -> is_Some (a_locks st !! r).
  Proof.
    intros HI Hg Hh%a_holds_lock. pose proof (x_locks _ _ HI r) as H. unfold alk in H.
    destruct (a_locks st !! r); [done|]. pose proof (msum_astack_ge (has_lock r) st u).
    pose proof (lsum_ge (has_lock r) _ _ Hg). lia.
  Qed.
  Lemma ahold_two st r u u' g k f k' : AInv st -> a_stack st u = k -> g ∈ k -> a_holds r g ->
    a_stack st u' = f :: k' -> 0 < has_lock r f -> u <> u' -> False.
  Proof.
    intros HI Hk Hg Hh%a_holds_lock Hk' Hf Hne. pose proof (x_locks _ _ HI r) as H. unfold alk in H.
    pose proof (msum_astack_ge2 (has_lock r) st u u' Hne) as H2. rewrite Hk, Hk' in H2. simpl in H2.
    pose proof (lsum_ge (has_lock r) _ _ Hg). destruct (a_locks st !! r); lia.
  Qed.

  (** ** Deadlocks last *)
  Lemma adead_step st D lb st' : AInv st -> a_deadlocked st D -> astep E st lb = Next st' ->
    AInv st' /\ (forall t, D t -> a_stack st' t = a_stack st t) /\
    (forall u g r, D u -> g ∈ a_stack st u -> a_holds r g -> a_arenas st' !! r = a_arenas st !! r).
  Proof.
    intros HI HD Hs. destruct (astep_move_call E _ _ _ Hs) as (t'&fs&fs'&k0&Hst'&Hm&_&Hc).
    destruct (amove_ok E _ _ _ _ _ _ HI Hst' Hm) as (es&[]&HI').
    assert (forall t, D t -> t = t' -> fs = [] /\ fs' = []) as Hme.
    { intros t Ht <-. destruct (HD t Ht) as (r&o&b&k&u&f&k'&g&Hst&Hu&Hstu&Hg&Hh).
      assert (is_Some (a_locks st !! r)) as [x Hx]. { apply (ahold_locked st r u g HI); [|done]. rewrite Hstu. by right. }
      destruct fs as [|f0 fs].
      - split; [done|]. destruct fs' as [|f1 fs']; [done|]. destruct (Hc eq_refl) as [Hrd _].
        unfold a_ready in Hrd. rewrite Hst in Hrd. by specialize (Hrd ltac:(done)).
      - exfalso. rewrite Hst in Hst'. injection Hst' as <- ->. inversion Hm; subst; congruence. }
    split_and!; [done| |].
    - intros t Ht. rewrite y_new. destruct (decide (t' = t)) as [->|]; [|done].
      destruct (Hme t Ht eq_refl) as [-> ->]. done.
    - intros u g r Hu Hg Hh. destruct (y_sets r) as [?|[Hl|Hi]]; [done|exfalso..].
      + destruct fs as [|f fs]; [simpl in Hl; lia|]. assert (u <> t') as Hne. { intros Heq. by destruct (Hme u Hu Heq). }
        assert (fs = []) as -> by (by inversion Hm). simpl in Hl.
        eapply (ahold_two st r u t' g _ f k0); try done. lia.
      + apply a_idle_spec with (t := u) (f := g) in Hi; [|done]. apply Hi. by destruct g.
  Qed.
  Lemma adead_stays st D st' : (forall t, D t -> a_stack st' t = a_stack st t) ->
    a_deadlocked st D -> a_deadlocked st' D.
  Proof.
    intros Heq HD t Ht. destruct (HD t Ht) as (r&o&b&k&u&f&k'&g&Hst&Hu&Hstu&Hg&Hh).
    exists r, o, b, k, u, f, k', g. split_and!; [by rewrite Heq|done|by rewrite Heq|done|done].
  Qed.
  Lemma adead_forever ls st D st' : AInv st -> a_deadlocked st D -> run (astep E) st ls = Some st' ->
    (forall t, D t -> a_stack st' t = a_stack st t) /\
    (forall u g r, D u -> g ∈ a_stack st u -> a_holds r g -> a_arenas st' !! r = a_arenas st !! r).
  Proof.
    revert st. induction ls as [|lb ls IH]; intros st HI HD Hr; simpl in Hr; [by injection Hr as <-|].
    unfold exec in Hr. destruct (astep E st lb) as [st1| | |] eqn:Hs; try done; try (by apply IH).
    destruct (adead_step st D lb st1 HI HD Hs) as (HI1&Heq&Hset).
    destruct (IH st1 HI1 (adead_stays _ _ _ Heq HD) Hr) as [Heq1 Hset1]. split.
    - intros t Ht. by rewrite Heq1, Heq.
    - intros u g r Hu Hg Hh. rewrite (Hset1 u g r Hu); [by apply (Hset u g r)| |done]. by rewrite Heq.
  Qed.
  (** Whoever waits for a mutex held there waits for ever. *)
  Lemma adead_more st D u f k g r : a_deadlocked st D -> D u -> a_stack st u = f :: k -> g ∈ k -> a_holds r g ->
    a_deadlocked st (λ t, D t \/ exists o b k, a_stack st t = AWait r o b :: k).
  Proof.
    intros HD Hu Hst Hg Hh t [Ht|(o&b&k'&Ht)].
    - destruct (HD t Ht) as (r'&o&b&k1&u'&f'&k'&g'&?&?&?&?&?). exists r', o, b, k1, u', f', k', g'. split_and!; try done. by left.
    - exists r, o, b, k', u, f, k, g. split_and!; try done. by left.
  Qed.
  Lemma adead_lost ls0 st D u f k g r ls st1 ls2 st2 :
    run (astep E) ainit ls0 = Some st -> a_deadlocked st D -> D u -> a_stack st u = f :: k -> g ∈ k -> a_holds r g ->
    run (astep E) st ls = Some st1 -> run (astep E) st1 ls2 = Some st2 ->
    a_arenas st1 !! r = a_arenas st !! r /\
    forall t o b k', a_stack st1 t = AWait r o b :: k' -> a_stack st2 t = a_stack st1 t.
  Proof.
    intros Hr0 HD Hu Hst Hg Hh Hr Hr2. pose proof (areach_inv E _ _ Hr0) as HI.
    destruct (adead_forever ls st D st1 HI HD Hr) as [Heq Hset]. split.
    - apply (Hset u g r); [done| |done]. rewrite Hst. by right.
    - intros t o b k' Ht. pose proof (adead_stays _ _ _ Heq HD) as HD1.
      assert (a_stack st1 u = f :: k) as Hst1 by (by rewrite Heq).
      destruct (adead_forever ls2 st1 _ st2 (arun_inv E _ _ _ HI Hr) (adead_more st1 D u f k g r HD1 Hu Hst1 Hg Hh) Hr2) as [Heq2 _].
      apply Heq2. right. by exists o, b, k'.
  Qed.
  Lemma adead_nested st D : a_deadlocked st D -> (exists t, D t) ->
    exists t f k g r, D t /\ a_stack st t = f :: k /\ g ∈ k /\ a_holds r g.
  Proof.
    intros HD [t Ht]. destruct (HD t Ht) as (r&o&b&k&u&f&k'&g&Hst&Hu&Hstu&Hg&Hh). by exists u, f, k', g, r.
  Qed.

  (** ** Progress *)
  Definition a_safe st : Prop := forall ls, run (astep E) st ls <> None.
  Lemma a_safe_step st lb st' : a_safe st -> astep E st lb = Next st' -> a_safe st'.
  Proof. intros HS Hs ls. specialize (HS (lb :: ls)). simpl in HS. unfold exec in HS. by rewrite Hs in HS. Qed.
  Lemma a_safe_reach ls0 st : (forall o, a_sound E o) -> run (astep E) ainit ls0 = Some st -> a_safe st.
  Proof.
    intros Hso Hr ls Hn. apply (proj2 (arena_safe_iff E) Hso (ls0 ++ ls)). rewrite run_app, Hr. done.
  Qed.
  Lemma asafe_steps st t f k :
    AInv st -> a_safe st -> total_from -> a_stack st t = f :: k -> ~ a_waiting st f ->
    exists lb st' fs', a_quiet lb /\ astep E st lb = Next st' /\ a_safe st' /\ AInv st' /\
      (forall u, a_stack st' u = if decide (t = u) then fs' ++ k else a_stack st u) /\
      msum (lsum arank) (a_threads st') < msum (lsum arank) (a_threads st) /\ forall r o b, AWait r o b ∉ fs'.
  Proof.
    intros HI HS HT Hst Hw. destruct (athread_steps st t f k HI HT Hst Hw) as (lb&Hq&_&[Hu|(st'&fs'&Hs&Hth&Hrk&Hn)]).
    { exfalso. apply (HS [lb]). simpl. unfold exec. by rewrite Hu. }
    exists lb, st', fs'. split_and!; try done; [by eapply a_safe_step|by eapply astep_inv| |].
    - intros u. unfold a_stack. rewrite Hth. destruct (decide (t = u)) as [->|]; [by rewrite lookup_insert|by rewrite lookup_insert_ne].
    - rewrite Hth. pose proof (msum_astack arank st t (fs' ++ k)) as Hm. rewrite Hst, lsum_app in Hm.
      change (lsum arank (f :: k)) with (arank f + lsum arank k) in Hm. lia.
  Qed.

  Lemma afinish_or_dead st : AInv st -> a_safe st -> total_from ->
    exists ls st', run (astep E) st ls = Some st' /\ (forall lb, lb ∈ ls -> a_quiet lb) /\
      ((forall t, a_stack st' t = []) \/
       ((exists t, a_stack st' t <> []) /\ a_deadlocked st' (λ t, a_stack st' t <> []))).
  Proof.
    intros HI HS HT. remember (msum (lsum arank) (a_threads st)) as n eqn:Hn. revert st HI HS Hn.
    induction n as [n IH] using lt_wf_ind. intros st HI HS Hn.
    destruct (decide (map_Forall (λ _ k, match k with
      | AWait r _ _ :: _ => match a_locks st !! r with Some _ => true | None => false end
      | [] => true | _ => false end = true) (a_threads st))) as [Hall|Hsome].
    - exists [], st. split_and!; [done|intros lb Hin; by apply elem_of_nil in Hin|].
      destruct (decide (map_Forall (λ _ k, k = []) (a_threads st))) as [Hemp|Hne].
      { left. intros t. unfold a_stack. destruct (a_threads st !! t) as [k|] eqn:Ht; [|done]. by apply Hemp in Ht. }
      right. split.
      { apply map_not_Forall in Hne as (t&k&Ht&Hk); [|intros ? []; [by left|by right]]. exists t. unfold a_stack. by rewrite Ht. }
      assert (forall t, a_stack st t <> [] -> exists r o b k, a_stack st t = AWait r o b :: k /\ is_Some (a_locks st !! r)) as Hw.
      { intros t. unfold a_stack. destruct (a_threads st !! t) as [k|] eqn:Ht; [|done].
        pose proof (Hall _ _ Ht) as Hk. simpl in Hk. simpl. intros Hk0. destruct k as [|[] k]; try done.
        eexists _, _, _, _. split; [done|]. by destruct (a_locks st !! r). }
      intros t Ht. destruct (Hw t Ht) as (r&o&b&k&Hst&Hl). destruct (aholder st _ HI Hl) as (u&g&Hg&Hh).
      assert (a_stack st u <> []) as Hu. { intros Hu. rewrite Hu in Hg. by apply elem_of_nil in Hg. }
      destruct (Hw u Hu) as (r'&o'&b'&k'&Hstu&_). exists r, o, b, k, u, (AWait r' o' b'), k', g. split_and!; try done.
      rewrite Hstu in Hg. by apply elem_of_cons in Hg as [->|Hg].
    - apply map_not_Forall in Hsome as (u&ks&Hu&Hk); [|apply _].
      destruct ks as [|f k]; [done|].
      assert (a_stack st u = f :: k) as Hst. { unfold a_stack. by rewrite Hu. }
      assert (~ a_waiting st f) as Hw. { intros (r&o&b&->&[x Hw]). by rewrite Hw in Hk. }
      destruct (asafe_steps st u f k HI HS HT Hst Hw) as (lb&st'&fs'&Hq&Hs&HS'&HI'&_&Hlt&_).
      destruct (IH (msum (lsum arank) (a_threads st'))) with (st := st') as (ls&st2&Hr&Hqs&Hend); try done; [lia|].
      exists (lb :: ls), st2. split_and!; [|intros lb' [->|?]%elem_of_cons; auto|done].
      simpl run. unfold exec. by rewrite Hs.
  Qed.

  (** ** Ordered calls *)
  Definition rk_bound rk st : nat := S (msum (lsum (λ f, match f with AWait r _ _ => rk r | _ => 0 end)) (a_threads st)).
  Lemma rk_lt rk st u r o b : AWait r o b ∈ a_stack st u -> rk r < rk_bound rk st.
  Proof.
    intros Hf. set (w := λ f : aframe V Q, match f with AWait r _ _ => rk r | _ => 0 end).
    pose proof (msum_astack_ge w st u). pose proof (lsum_ge w _ _ Hf). unfold rk_bound. fold w. simpl in *. lia.
  Qed.
  Lemma a_some_can_step rk st r : AInv st -> a_ordered rk st -> is_Some (a_locks st !! r) ->
    exists u f k, a_stack st u = f :: k /\ ~ a_waiting st f.
  Proof.
    intros HI Ho. remember (rk_bound rk st - rk r) as n eqn:Hn. revert r Hn.
    induction n as [n IH] using lt_wf_ind. intros r Hn Hl.
    destruct (aholder st r HI Hl) as (u&g&Hg&Hh).
    destruct (a_stack st u) as [|f k] eqn:Hst; [by apply elem_of_nil in Hg|].
    assert (a_waiting st f \/ ~ a_waiting st f) as [(r'&o&b&->&Hw)|Hw].
    { destruct f; try (right; intros (?&?&?&?&?); done).
      destruct (a_locks st !! r0) eqn:Hl'; [left; exists r0, o, b; by rewrite Hl'|].
      right. intros (r'&o'&b'&[= <- <- <-]&Hw). rewrite Hl' in Hw. by destruct Hw. }
    - apply elem_of_cons in Hg as [->|Hg]; [done|].
      pose proof (Ho u [] r' o b k Hst g r Hg Hh). assert (rk r' < rk_bound rk st). { apply (rk_lt rk st u r' o b). rewrite Hst. by left. }
      by apply (IH (rk_bound rk st - rk r') ltac:(lia) r').
    - by exists u, f, k.
  Qed.
  Lemma a_all_finish rk st : AInv st -> a_safe st -> total_from -> a_ordered rk st ->
    exists ls st', run (astep E) st ls = Some st' /\ (forall lb, lb ∈ ls -> a_quiet lb) /\
      forall t, a_stack st' t = [].
  Proof.
    intros HI HS HT. remember (msum (lsum arank) (a_threads st)) as n eqn:Hn. revert st HI HS Hn.
    induction n as [n IH] using lt_wf_ind. intros st HI HS Hn Ho.
    destruct (decide (map_Forall (λ _ k, k = []) (a_threads st))) as [Hall|Hsome].
    { exists [], st. split_and!; [done|intros lb Hin; by apply elem_of_nil in Hin|].
      intros t. unfold a_stack. destruct (a_threads st !! t) as [k|] eqn:Ht; [|done]. by apply Hall in Ht. }
    assert (exists u f k, a_stack st u = f :: k /\ ~ a_waiting st f) as (u&f&k&Hst&Hw).
    { apply map_not_Forall in Hsome as (t&k&Ht&Hk); [|intros ? []; [by left|by right]]. destruct k as [|f k]; [done|].
      assert (a_stack st t = f :: k) as Hst. { unfold a_stack. by rewrite Ht. }
      destruct f as [r o b| | | | | | | | |].
      2-10: exists t; eexists; exists k; split; [done|intros (?&?&?&?&?); done].
      destruct (a_locks st !! r) eqn:Hl.
      - apply (a_some_can_step rk st r HI Ho). by rewrite Hl.
      - exists t, (AWait r o b), k. split; [done|]. intros (r'&o'&b'&[= <- <- <-]&Hw). rewrite Hl in Hw. by destruct Hw. }
    destruct (asafe_steps st u f k HI HS HT Hst Hw) as (lb&st'&fs'&Hq&Hs&HS'&HI'&Hnew&Hlt&Hnw).
    assert (a_ordered rk st') as Ho'.
    { intros t k1 r o b k2 Hst' g r' Hg. rewrite Hnew in Hst'.
      destruct (decide (u = t)) as [<-|]; [|by apply (Ho t k1 r o b k2)].
      assert (exists k0, k = k0 ++ AWait r o b :: k2) as [k0 ->].
      { clear -Hst' Hnw. revert k1 Hst'. induction fs' as [|x fs' IH]; intros k1 Heq; [by exists k1|].
        destruct k1 as [|y k1]; simpl in Heq; injection Heq as Hx Heq; subst x.
        - exfalso. apply (Hnw r o b). by left.
        - apply IH in Heq; [done|]. intros r1 o' b' Hin. apply (Hnw r1 o' b'). by right. }
      by apply (Ho u (f :: k0) r o b k2). }
    destruct (IH (msum (lsum arank) (a_threads st'))) with (st := st') as (ls&st2&Hr&Hqs&Hend); try done; [lia|].
    exists (lb :: ls), st2. split_and!; [|intros lb' [->|?]%elem_of_cons; auto|done].
    simpl run. unfold exec. by rewrite Hs.
  Qed.
  Lemma a_flat_ordered st : a_flat st -> a_ordered id st.
  Proof.
    intros Hf t k1 r o b k2 Hst g r' Hg Hh. exfalso. destruct k1 as [|f k1]; simpl in Hst.
    - by apply (Hf t _ _ g r' Hst).
    - apply (Hf t _ _ g r' Hst); [|done]. apply elem_of_app. right. by right.
  Qed.

  (** ** Re-entrant calls *)
  Lemma a_reenter st t f k r o a st1 :
    a_stack st t = f :: k -> a_holds r f -> astep E st (LCall t r o a) = Next st1 ->
    exists b, a_stack st1 t = AWait r o b :: f :: k /\ a_deadlocked st1 (λ u, u = t).
  Proof.
    intros Hst Hh Hs.
    assert (exists b, a_stack st1 t = AWait r o b :: f :: k) as [b Hst1].
    { simpl in Hs. destruct (a_arenas st !! r) as [x|]; [|done]. destruct (a_ready st t); [|done].
      destruct o; repeat case_match; try done; injection Hs as <-; rewrite set_stack_get, decide_True, ?Hst by done; by eexists. }
    exists b. split; [done|]. intros u ->. exists r, o, b, (f :: k), t, (AWait r o b), (f :: k), f.
    split_and!; try done. by left.
  Qed.
  Lemma a_reenter_forever ls0 st t f k r o a st1 ls st2 :
    run (astep E) ainit ls0 = Some st -> a_stack st t = f :: k -> a_holds r f ->
    astep E st (LCall t r o a) = Next st1 -> run (astep E) st1 ls = Some st2 ->
    a_stack st2 t = a_stack st1 t /\ a_arenas st2 !! r = a_arenas st1 !! r.
  Proof.
    intros Hr Hst Hh Hs Hr2. pose proof (areach_inv E _ _ Hr) as HI. pose proof (astep_inv E _ _ _ HI Hs) as HI1.
    destruct (a_reenter st t f k r o a st1 Hst Hh Hs) as (b&Hst1&HD).
    destruct (adead_forever ls st1 _ st2 HI1 HD Hr2) as [Heq Hset]. split; [by apply Heq|].
    apply (Hset t f r eq_refl); [|done]. rewrite Hst1. right. by left.
  Qed.
End live.

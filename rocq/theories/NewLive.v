(** Deadlocks of the NewIntern model: exactly the sets of threads waiting for each other from
    inside nested calls.  Pushing a set never blocks for good. *)
From stdpp Require Import gmap list numbers.
From Verif Require Import Base InternModel InternSpec InternInv InternStep InternLaw InternFinal InternMore
  NewModel NewSpec NewSim NewStep NewFinal NewWait.
Require Import ZifyBool ZifyNat ZifyN.

Section live.
  Context {V Q : Type} (E : ienv V Q).
  Implicit Types (s : nstate V Q) (st : istate V Q) (v d : V) (p : iptr) (o : iop V Q) (f g : nframe V Q) (t u ty c i : nat).
  Implicit Types (ls : list (ilabel V Q)) (lb : ilabel V Q) (D : nat -> Prop) (rk : nat -> nat).
  Notation op_ty := (op_ty E).
  Notation E1 := (E1 E).
  Notation first := (first E).
  Notation slot := (slot E).
  Notation NInv := (NInv E).
  Notation PInv := (PInv E).
  Notation type_of := (type_of E).
  Notation total_from := (total_from E).

  (** ** All invariants *)
  Definition no_is s : Prop := forall t f, f ∈ nstack s t -> match call_of f with OIs _ _ _ => False | _ => True end.
  Definition MI s : Prop := exists st, IInv E1 st /\ R E s st.
  Definition LI s : Prop := MI s /\ PInv s /\ no_is s.
  Lemma MI_step s l s' : MI s -> nstep E s l = Next s' -> MI s'.
  Proof.
    intros (st&HI&HR) H. destruct (nstep_sim _ _ _ _ _ HI HR H) as (st'&Hs&HR'). exists st'. split; [|done]. by eapply sim_inv.
  Qed.
  Lemma no_is_step s l s' : no_is s -> nstep E s l = Next s' -> no_is s'.
  Proof.
    intros H Hs t f Hin. destruct (shape_frame E s l s' t f (nstep_shape E _ _ _ Hs) Hin) as [Hf|[(o&b&a&->&->)|(_&f0&k&Hst&Hc&_)]].
    - by apply (H t).
    - simpl in *. destruct (match nstack s t with [] => true | _ => _ end); [|done]. by destruct o.
    - rewrite Hc. apply (H t). rewrite Hst. by left.
  Qed.
  Lemma LI_step s l s' : LI s -> nstep E s l = Next s' -> LI s'.
  Proof. intros (?&?&?) Hs. split_and!; [by eapply MI_step|by eapply pinv_step|by eapply no_is_step]. Qed.
  Lemma LI_run ls s s' : LI s -> run (nstep E) s ls = Some s' -> LI s'.
  Proof.
    revert s. induction ls as [|l ls IH]; intros s HI Hr; simpl in Hr; [by injection Hr as <-|].
    unfold exec in Hr. destruct (nstep E s l) as [s1| | |] eqn:Hs; try done; [|by eapply IH..].
    eapply IH; [|done]. by eapply LI_step.
  Qed.
  Lemma LI_reach ls s : run (nstep E) ninit ls = Some s -> LI s.
  Proof.
    apply LI_run. split_and!; [exists iinit; split; [apply iinv_init|apply R_init]|apply pinv_init|].
    intros t f Hf. unfold nstack in Hf. simpl in Hf. rewrite lookup_empty in Hf. by apply elem_of_nil in Hf.
  Qed.

  (** ** Steps of a thread *)
  Definition nrank f : nat :=
    match f with
    | NScan _ _ false => 14 | NPush _ _ => 13 | NPub _ _ _ => 12 | NScan _ _ true => 11 | NLock _ _ _ => 10
    | NIn _ (FWait _ _) => 9 | NIn _ (FGet _ _) => 8 | NIn _ (FConv _ _ _) => 7 | NIn _ (FStore _ _) => 6 | NIn _ (FIns _ _) => 5
    | NIn _ (FDup _ _ _) => 4 | NIn _ (FDone _ _) => 3 | NPanic _ _ => 1
    end.
  Definition n_can s (ks : list (nframe V Q)) : bool :=
    match ks with
    | NLock o _ i :: k =>
        match n_locks s !! (slot (op_ty o), i) with
        | Some _ => false
        | None => negb (bool_decide ((slot (op_ty o), i) ∈ n_poison s) && existsb unwinds k)
        end
    | NPub o _ i :: _ => length (nvec s (slot (op_ty o))) =? i
    | _ => true
    end.
  Lemma unwinds_spec k : existsb unwinds k = true <-> exists g : nframe V Q, g ∈ k /\ n_unwinding g.
  Proof.
    rewrite existsb_exists. split; intros (g&Hg&Hu); exists g; rewrite elem_of_list_In in *; (split; [done|]);
      destruct g as [| | | | |? []]; try done; simpl in *; by destruct (_ : ires).
  Qed.

  (** A step that is not a call and not a panic makes the stack smaller. *)
  Lemma quiet_rank s lb s' t f k : nstep E s lb = Next s' -> quiet lb -> lab_thread lb = Some t -> nstack s t = f :: k ->
    nstack s' t = k \/ exists f', nstack s' t = f' :: k /\ nrank f' < nrank f.
  Proof.
    intros Hs Hq Hl Hst.
    assert (forall s1 k', nstack (nset_stack s1 t k') t = k') as Hset.
    { intros s1 k'. unfold nstack. simpl. by rewrite lookup_insert. }
    assert (forall s1 e, nstack (nevent s1 e) t = nstack s1 t) as Hev by done.
    destruct lb as [t' o a|t' a j|t' v|t'|p]; try done; injection Hl as ->; simpl in Hs.
    - unfold nstep_thread in Hs. rewrite Hst in Hs.
      destruct f as [o b []|o b|o b i|o b i|o b|i g]; repeat (case_match; try done); injection Hs as <-; rewrite ?Hev, ?Hset;
        first [by left|right; eexists; (split; [reflexivity|simpl; lia])].
    - rewrite Hst in Hs. repeat (case_match; try done). injection Hs as <-. rewrite Hset. right. eexists. split; [done|]. simpl. lia.
  Qed.

  Lemma nthread_next s t f k : LI s -> total_from -> nstack s t = f :: k -> n_can s (f :: k) = true ->
    exists lb s', quiet lb /\ lab_thread lb = Some t /\ nstep E s lb = Next s'.
  Proof.
    intros (HI&HP&HO) HT Hst Hc.
    assert (f ∈ nstack s t) as Hin by (rewrite Hst; by left).
    pose proof (HO t f Hin) as Hno. destruct HI as (st&HI&HR).
    assert (forall a, nstep E s (IStep t a 0) <> Blocked -> nstep E s (IStep t a 0) <> Illegal ->
      exists lb s', quiet lb /\ lab_thread lb = Some t /\ nstep E s lb = Next s') as Hgo.
    { intros a Hb Hi. pose proof (nstep_safe E s st (IStep t a 0) HI HR) as Hu.
      destruct (nstep E s (IStep t a 0)) as [s'| | |] eqn:Hs; try done. by exists (IStep t a 0), s'. }
    assert (frame_ok E1 st (erase f)) as Hfr.
    { apply (v_frames _ _ HI t). rewrite (R_stack E s st t HR), Hst. csimpl. by left. }
    destruct f as [o b again|o b|o b i|o b i|o b|i g].
    - apply (Hgo 0); simpl; unfold nstep_thread; rewrite Hst; repeat case_match; done.
    - apply (Hgo 0); simpl; unfold nstep_thread; by rewrite Hst.
    - apply (Hgo 0); simpl; unfold nstep_thread; rewrite Hst; simpl in Hc; by rewrite Hc.
    - simpl in Hc. apply (Hgo 0); simpl; unfold nstep_thread; rewrite Hst; destruct (n_locks s !! _); try done;
        (destruct (bool_decide _); [destruct (existsb unwinds k)|]); try done; by destruct o.
    - apply (Hgo 0); simpl; unfold nstep_thread; rewrite Hst; repeat case_match; done.
    - destruct g as [o b|o b|ty w q|o v|o p|o b r|o r].
      + exfalso. by destruct (r_frames _ _ _ HR _ _ Hin).
      + simpl in Hfr, Hno. destruct Hfr as [Hb Ho].
        apply (Hgo 0); simpl; unfold nstep_thread; rewrite Hst; (destruct (ireadable _ _); [|done]);
          destruct (ipick 0 _); destruct o; try done; destruct Hb as (p&->&_); by destruct (ileak _ _).
      + destruct (HT ty w q) as (v&Hf&Hty). exists (IConv t v). simpl. rewrite Hst, Hf, Hty, Nat.eqb_refl. by eexists.
      + destruct (ialloc_some E (nmem s) v true) as (a&m&p&Ha).
        apply (Hgo a); simpl; unfold nstep_thread; by rewrite Hst, Ha.
      + apply (Hgo 0); simpl; unfold nstep_thread; rewrite Hst; repeat case_match; done.
      + apply (Hgo 0); simpl; unfold nstep_thread; rewrite Hst; repeat case_match; done.
      + apply (Hgo 0); simpl; unfold nstep_thread; rewrite Hst; repeat case_match; done.
  Qed.

  (** What a quiet step does to the stacks. *)
  Definition down s s' : Prop := exists t f k fs', nstack s t = f :: k /\
    n_threads s' = <[t := fs' ++ k]> (n_threads s) /\ lsum nrank fs' < nrank f /\
    (fs' = [] \/ exists f', fs' = [f'] /\ call_of f' = call_of f).
  Lemma nthread_down s t f k : LI s -> total_from -> nstack s t = f :: k -> n_can s (f :: k) = true ->
    exists lb s', quiet lb /\ nstep E s lb = Next s' /\ down s s'.
  Proof.
    intros HI HT Hst Hc. destruct (nthread_next s t f k HI HT Hst Hc) as (lb&s'&Hq&Hl&Hs). exists lb, s'. split_and!; try done.
    pose proof (quiet_rank s lb s' t f k Hs Hq Hl Hst) as Hrk.
    destruct (nstep_shape E _ _ _ Hs) as [p v -> ->|t' o b a -> _ _ _ _ _ _|t' f' fs' k' Hl' _ Hst' Hth Hf _ _ _]; [done|done|].
    assert (t' = t) as -> by congruence. rewrite Hst in Hst'. injection Hst' as <- <-.
    exists t, f, k, fs'. rewrite (stack_ins s s' t _ t Hth), decide_True in Hrk by done.
    split_and!; try done.
    - destruct Hf as [->|(f'&->&_)]; simpl; [destruct f as [? ? []|? ?|? ? ?|? ? ?|? ?|? []]; simpl; lia|].
      destruct Hrk as [Hk|(f2&Hk&Hlt)].
      + simpl in Hk. exfalso. apply (f_equal length) in Hk. simpl in Hk. lia.
      + injection Hk as ->. lia.
    - destruct Hf as [->|(f'&->&Hcall&_)]; [by left|right; by exists f'].
  Qed.
  Lemma down_rank s s' : down s s' -> msum (lsum nrank) (n_threads s') < msum (lsum nrank) (n_threads s).
  Proof.
    intros (t&f&k&fs'&Hst&Hth&Hlt&_). rewrite Hth.
    pose proof (msum_insert_default (lsum nrank) (n_threads s) t (fs' ++ k) []) as Hm. specialize (Hm eq_refl).
    fold (nstack s t) in Hm. rewrite Hst, lsum_app in Hm. change (lsum nrank (f :: k)) with (nrank f + lsum nrank k) in Hm. lia.
  Qed.
  Lemma down_stack s s' : down s s' -> forall u, nstack s' u = nstack s u \/
    exists f k, nstack s u = f :: k /\ (nstack s' u = k \/ exists f', nstack s' u = f' :: k /\ call_of f' = call_of f).
  Proof.
    intros (t&f&k&fs'&Hst&Hth&_&Hf) u. rewrite (stack_ins s s' t _ u Hth). destruct (decide (t = u)) as [<-|]; [|by left].
    right. exists f, k. split; [done|]. destruct Hf as [->|(f'&->&?)]; [by left|right; by exists f'].
  Qed.

  (** ** Who has a mutex *)
  Lemma nholder s o b i t : LI s -> NLock o b i ∈ nstack s t -> is_Some (n_locks s !! (slot (op_ty o), i)) ->
    exists u g, g ∈ nstack s u /\ n_holds E (op_ty o) g.
  Proof.
    intros ((st&HI&HR)&_&_) Hin Hl. pose proof (r_frames _ _ _ HR _ _ Hin) as Hf. simpl in Hf.
    assert (is_Some (i_locks st !! InternModel.slot E1 (op_ty o))) as Hl'.
    { by rewrite (r_locks _ _ _ (r_base _ _ _ HR)), Hf. }
    destruct (holder E1 st _ HI Hl') as (u&g&Hg&Hh). rewrite (R_stack E s st u HR) in Hg.
    apply elem_of_list_fmap in Hg as (g'&->&Hg'). exists u, g'. split; [done|].
    destruct g' as [o' b' ag|o' b'|o' b' i'|o' b' i'|o' b'|i' g']; simpl in Hh; try done. split; [done|].
    rewrite call_frame_ty. apply held_slot in Hh. rewrite !slot1 in Hh. done.
  Qed.
  Lemma nhold_locked s u g o b i t : LI s -> g ∈ nstack s u -> n_holds E (op_ty o) g -> NLock o b i ∈ nstack s t ->
    is_Some (n_locks s !! (slot (op_ty o), i)).
  Proof.
    intros (HI&_&_) Hg [Hins Hty] Hin. pose proof HI as (st&HI1&HR). pose proof (r_frames _ _ _ HR _ _ Hin) as Hf. simpl in Hf.
    rewrite <- Hty in *. apply not_eq_None_Some. by eapply inside_locked0.
  Qed.

  (** ** Stuck states *)
  Definition stuck s : Prop := forall t k, n_threads s !! t = Some k -> k = [] \/ n_can s k = false.
  Lemma go_down (P : nstate V Q -> Prop) s : (forall s s', P s -> down s s' -> P s') -> LI s -> total_from -> P s ->
    exists ls s', run (nstep E) s ls = Some s' /\ (forall lb, lb ∈ ls -> quiet lb) /\ LI s' /\ P s' /\ stuck s'.
  Proof.
    intros HPd HI HT. remember (msum (lsum nrank) (n_threads s)) as n eqn:Hn. revert s HI Hn.
    induction n as [n IH] using lt_wf_ind. intros s HI Hn HP.
    destruct (decide (map_Forall (λ _ k, match k with [] => true | _ => negb (n_can s k) end = true) (n_threads s))) as [Hall|Hsome].
    - exists [], s. split_and!; [done|intros lb Hin; by apply elem_of_nil in Hin|done|done|].
      intros t k Hk. apply Hall in Hk. destruct k; [by left|right]. by apply negb_true_iff in Hk.
    - apply map_not_Forall in Hsome as (u&ks&Hu&Hk); [|apply _]. destruct ks as [|f k]; [done|].
      assert (nstack s u = f :: k) as Hst. { unfold nstack. by rewrite Hu. }
      assert (n_can s (f :: k) = true) as Hc. { destruct (n_can s (f :: k)); done. }
      destruct (nthread_down s u f k HI HT Hst Hc) as (lb&s'&Hq&Hs&Hd). pose proof (down_rank _ _ Hd).
      destruct (IH (msum (lsum nrank) (n_threads s'))) with (s := s') as (ls&s2&Hr&Hqs&?&?&?); try done; [lia|by eapply LI_step|by eapply HPd|].
      exists (lb :: ls), s2. split_and!; [|intros lb' [->|?]%elem_of_cons; auto|done..].
      simpl run. unfold exec. by rewrite Hs.
  Qed.
  Lemma stuck_stack s t f k : stuck s -> nstack s t = f :: k -> n_can s (f :: k) = false.
  Proof.
    unfold nstack. intros HS Hst. destruct (n_threads s !! t) as [k'|] eqn:Ht; [|done]. simpl in Hst. subst k'.
    by destruct (HS _ _ Ht).
  Qed.
  Lemma stuck_cases s t f k : LI s -> stuck s -> nstack s t = f :: k ->
    n_aborts E s t \/ exists o b i, f = NLock o b i /\ is_Some (n_locks s !! (slot (op_ty o), i)).
  Proof.
    intros (_&HP&_) HS Hst. pose proof (stuck_stack s t f k HS Hst) as Hc.
    destruct f as [o b again|o b|o b i|o b i|o b|i g]; try done; simpl in Hc.
    - exfalso. pose proof (p_range _ _ HP _ _ _ _ _ Hst) as Hr. apply Nat.eqb_neq in Hc.
      destruct (p_held _ _ HP (slot (op_ty o)) (length (nvec s (slot (op_ty o))))) as (u&o'&b'&k'&Hu&Hs); [lia|].
      pose proof (stuck_stack s u _ k' HS Hu) as Hc'. simpl in Hc'. by rewrite Hs, Nat.eqb_refl in Hc'.
    - destruct (n_locks s !! _) as [x|] eqn:Hl; [right; exists o, b, i; by rewrite Hl|left].
      apply negb_false_iff, andb_true_iff in Hc as [Hp Hu]. apply bool_decide_eq_true in Hp.
      apply unwinds_spec in Hu as (g&Hg&Hu). by exists o, b, i, k, g.
  Qed.

  Lemma nfinish_or_dead s : LI s -> total_from ->
    exists ls s', run (nstep E) s ls = Some s' /\ (forall lb, lb ∈ ls -> quiet lb) /\
      ((forall t, nstack s' t = []) \/ (exists t, n_aborts E s' t) \/
       ((exists t, nstack s' t <> []) /\ n_deadlocked E s' (λ t, nstack s' t <> []))).
  Proof.
    intros HI HT. destruct (go_down (λ _, True) s) as (ls&s'&Hr&Hq&HI'&_&HS); try done. exists ls, s'. split_and!; try done.
    destruct (decide (map_Forall (λ _ k, k = []) (n_threads s'))) as [Hemp|Hne].
    { left. intros t. unfold nstack. destruct (n_threads s' !! t) as [k|] eqn:Ht; [|done]. by apply Hemp in Ht. }
    right. destruct (decide (map_Forall (λ _ k, match k with
      | NLock o _ i :: _ => match n_locks s' !! (slot (op_ty o), i) with Some _ => true | None => false end | [] => true | _ => false end = true)
      (n_threads s'))) as [Hall|Hsome].
    - right. split.
      { apply map_not_Forall in Hne as (t&k&Ht&Hk); [|intros ? []; [by left|by right]]. exists t. unfold nstack. by rewrite Ht. }
      assert (forall t, nstack s' t <> [] -> exists o b i k, nstack s' t = NLock o b i :: k /\ is_Some (n_locks s' !! (slot (op_ty o), i))) as Hw.
      { intros t. unfold nstack. destruct (n_threads s' !! t) as [k|] eqn:Ht; [|done]. pose proof (Hall _ _ Ht) as Hk. simpl in Hk.
        simpl. intros Hk0. destruct k as [|[] k]; try done. eexists _, _, _, _. split; [done|]. by destruct (n_locks s' !! _). }
      intros t Ht. destruct (Hw t Ht) as (o&b&i&k&Hst&Hl). destruct (nholder s' o b i t HI') as (u&g&Hg&Hh); [rewrite Hst; by left|done|].
      assert (nstack s' u <> []) as Hu. { intros Hu. rewrite Hu in Hg. by apply elem_of_nil in Hg. }
      destruct (Hw u Hu) as (o'&b'&i'&k'&Hstu&_). exists o, b, i, k, u, (NLock o' b' i'), k', g. split_and!; try done.
      rewrite Hstu in Hg. apply elem_of_cons in Hg as [->|Hg]; [by destruct Hh|done].
    - left. apply map_not_Forall in Hsome as (t&k&Ht&Hk); [|apply _]. exists t.
      assert (nstack s' t = k) as Hst. { unfold nstack. by rewrite Ht. } destruct k as [|f k]; [done|].
      destruct (stuck_cases s' t f k HI' HS Hst) as [?|(o&b&i&->&[x Hl])]; [done|]. by rewrite Hl in Hk.
  Qed.

  (** ** Ordered calls *)
  Definition trk_bound rk s : nat := S (msum (lsum (λ f, rk (type_of f))) (n_threads s)).
  Lemma trk_lt rk s u f : f ∈ nstack s u -> rk (type_of f) < trk_bound rk s.
  Proof.
    intros Hf. pose proof (lsum_ge (λ f, rk (type_of f)) _ _ Hf). unfold trk_bound. unfold nstack in *.
    destruct (n_threads s !! u) as [k|] eqn:Hu; [|by apply elem_of_nil in Hf].
    pose proof (msum_ge (lsum (λ f, rk (type_of f))) _ _ _ Hu). simpl in *. lia.
  Qed.
  Lemma ordered_stuck rk s : LI s -> stuck s -> n_ordered E rk s -> (forall t, ~ n_aborts E s t) -> forall t, nstack s t = [].
  Proof.
    intros HI HS Ho Ha. assert (forall n t f k, trk_bound rk s - rk (type_of f) = n -> nstack s t = f :: k -> False) as H.
    { induction n as [n IH] using lt_wf_ind. intros t f k Hn Hst.
      destruct (stuck_cases s t f k HI HS Hst) as [Hab|(o&b&i&->&Hl)]; [by apply (Ha t)|].
      destruct (nholder s o b i t HI) as (u&g&Hg&Hh); [rewrite Hst; by left|done|].
      destruct (nstack s u) as [|f' k'] eqn:Hu; [by apply elem_of_nil in Hg|].
      assert (g ∈ k') as Hg'.
      { apply elem_of_cons in Hg as [->|?]; [exfalso|done]. destruct (stuck_cases s u f' k' HI HS Hu) as [Hab|(o'&b'&i'&->&_)]; [by apply (Ha u)|].
        by destruct Hh. }
      pose proof (Ho u [] f' k' Hu g _ Hg' Hh) as Hlt. change (type_of (NLock o b i)) with (op_ty o) in Hn.
      pose proof (trk_lt rk s u f') as Hb. rewrite Hu in Hb. specialize (Hb ltac:(by left)).
      eapply (IH (trk_bound rk s - rk (type_of f')) ltac:(lia) u f' k'); done. }
    intros t. destruct (nstack s t) as [|f k] eqn:Hst; [done|]. exfalso. by eapply H.
  Qed.
  Lemma ordered_down rk s s' : n_ordered E rk s -> down s s' -> n_ordered E rk s'.
  Proof.
    intros Ho Hd t k1 f k2 Hst' g ty Hg Hh. destruct (down_stack _ _ Hd t) as [Heq|(f0&k&Hst&[Hk|(f'&Hk&Hc)])].
    - rewrite Heq in Hst'. by eapply Ho.
    - rewrite Hk in Hst'. subst k. by apply (Ho t (f0 :: k1) f k2 Hst g ty).
    - rewrite Hk in Hst'. destruct k1 as [|x k1]; simpl in Hst'; injection Hst' as <- ->.
      + replace (type_of f') with (type_of f0) by (unfold NewSpec.type_of; by rewrite Hc). by apply (Ho t [] f0 k2 Hst g ty).
      + by apply (Ho t (f0 :: k1) f k2 Hst g ty).
  Qed.
  Lemma calm_down s s' : n_calm s -> down s s' -> n_calm s'.
  Proof.
    intros Ho Hd t f k2 g Hst' Hg. destruct (down_stack _ _ Hd t) as [Heq|(f0&k&Hst&[Hk|(f'&Hk&_)])].
    - rewrite Heq in Hst'. by eapply Ho.
    - rewrite Hk in Hst'. subst k. apply (Ho t f0 (f :: k2) g Hst). by right.
    - rewrite Hk in Hst'. injection Hst' as <- ->. by apply (Ho t f0 k2 g Hst).
  Qed.
  Lemma calm_no_abort s t : n_calm s -> ~ n_aborts E s t.
  Proof. intros Hc (o&b&i&k&g&Hst&_&_&Hg&Hu). by eapply Hc. Qed.
  Lemma abort_dec s : (exists t, n_aborts E s t) \/ (forall t, ~ n_aborts E s t).
  Proof.
    set (P := λ (_ : nat) (ks : list (nframe V Q)), match ks with
      | NLock o _ i :: k => match n_locks s !! (slot (op_ty o), i) with Some _ => true | None =>
          negb (bool_decide ((slot (op_ty o), i) ∈ n_poison s) && existsb unwinds k) end | _ => true end = true).
    assert (forall t ks, Decision (P t ks)) as Hdec by (intros; unfold P; apply _).
    destruct (decide (map_Forall P (n_threads s))) as [Hall|Hsome].
    - right. intros t (o&b&i&k&g&Hst&Hl&Hp&Hg&Hu). unfold nstack in Hst. destruct (n_threads s !! t) as [ks|] eqn:Ht; [|done].
      simpl in Hst. subst ks. apply Hall in Ht. unfold P in Ht. rewrite Hl, bool_decide_eq_true_2 in Ht by done.
      assert (existsb unwinds k = true) as Hx by (apply unwinds_spec; by exists g). by rewrite Hx in Ht.
    - left. apply map_not_Forall in Hsome as (t&ks&Ht&Hk); [|apply Hdec]. exists t. unfold P in Hk.
      destruct ks as [|[o b again|o b|o b i|o b i|o b|i g] k]; try done. destruct (n_locks s !! _) eqn:Hl; [done|].
      destruct (bool_decide _) eqn:Hp; [|done]. destruct (existsb unwinds k) eqn:Hu; [|done]. apply unwinds_spec in Hu as (g&Hg&Hu).
      apply bool_decide_eq_true in Hp. exists o, b, i, k, g. unfold nstack. by rewrite Ht.
  Qed.
  Lemma n_all_finish rk s : LI s -> total_from -> n_ordered E rk s ->
    exists ls s', run (nstep E) s ls = Some s' /\ (forall lb, lb ∈ ls -> quiet lb) /\
      ((forall t, nstack s' t = []) \/ exists t, n_aborts E s' t).
  Proof.
    intros HI HT Ho. destruct (go_down (n_ordered E rk) s) as (ls&s'&Hr&Hq&HI'&Ho'&HS); try done; [apply ordered_down|].
    exists ls, s'. split_and!; try done. destruct (abort_dec s') as [?|Hna]; [by right|left]. by eapply ordered_stuck.
  Qed.
  Lemma n_all_finish_calm rk s : LI s -> total_from -> n_ordered E rk s -> n_calm s ->
    exists ls s', run (nstep E) s ls = Some s' /\ (forall lb, lb ∈ ls -> quiet lb) /\ forall t, nstack s' t = [].
  Proof.
    intros HI HT Ho Hc. destruct (go_down (λ s, n_ordered E rk s /\ n_calm s) s) as (ls&s'&Hr&Hq&HI'&(Ho'&Hc')&HS); try done.
    { intros s1 s2 [? ?] ?. split; [by eapply ordered_down|by eapply calm_down]. }
    exists ls, s'. split_and!; try done. eapply ordered_stuck; try done. intros t. by apply calm_no_abort.
  Qed.
  Lemma n_flat_ordered s : n_flat s -> n_ordered E id s.
  Proof.
    intros Hf t k1 f k2 Hst g ty Hg [Hi _]. exfalso. destruct k1 as [|f' k1]; simpl in Hst.
    - by apply (Hf t _ _ g Hst).
    - apply (Hf t _ _ g Hst); [|done]. apply elem_of_app. right. by right.
  Qed.

  (** ** Deadlocks last *)
  Lemma ndead_step s D lb s' : LI s -> n_deadlocked E s D -> nstep E s lb = Next s' ->
    (forall t, D t -> nstack s' t = nstack s t).
  Proof.
    intros HI HD Hs t Ht. destruct (HD t Ht) as (o&b&i&k&u&f&k'&g&Hst&Hu&Hstu&Hg&Hh).
    assert (is_Some (n_locks s !! (slot (op_ty o), i))) as [x Hx].
    { eapply (nhold_locked s u g o b i t HI); [rewrite Hstu; by right|done|rewrite Hst; by left]. }
    destruct (nstep_shape E _ _ _ Hs) as [p v -> ->|t' o' b' a -> Hth Hus _ _ _ _|t' f' fs' k0 Hl _ Hst' Hth _ _ _ _]; [done|..];
      rewrite (stack_ins s s' t' _ t Hth); (destruct (decide (t' = t)) as [->|]; [exfalso|done]).
    - by rewrite Hst in Hus.
    - destruct lb as [t' o1 a|t' a j|t' v|t'|p]; try done; injection Hl as ->; simpl in Hs.
      + by rewrite Hst in Hs.
      + unfold nstep_thread in Hs. by rewrite Hst, Hx in Hs.
      + by rewrite Hst in Hs.
      + unfold nstep_panic in Hs. rewrite Hst in Hs. by destruct (existsb _ _).
  Qed.
  Lemma ndead_stays s D s' : (forall t, D t -> nstack s' t = nstack s t) ->
    n_deadlocked E s D -> n_deadlocked E s' D.
  Proof.
    intros Heq HD t Ht. destruct (HD t Ht) as (o&b&i&k&u&f&k'&g&Hst&Hu&Hstu&Hg&Hh).
    exists o, b, i, k, u, f, k', g. split_and!; [by rewrite Heq|done|by rewrite Heq|done|done].
  Qed.
  Lemma ndead_forever ls s D s' : LI s -> n_deadlocked E s D -> run (nstep E) s ls = Some s' ->
    forall t, D t -> nstack s' t = nstack s t.
  Proof.
    revert s. induction ls as [|lb ls IH]; intros s HI HD Hr; simpl in Hr; [by injection Hr as <-|].
    unfold exec in Hr. destruct (nstep E s lb) as [s1| | |] eqn:Hs; try done; try (by apply IH).
    pose proof (ndead_step s D lb s1 HI HD Hs) as Heq. intros t Ht.
    rewrite (IH s1 (LI_step _ _ _ HI Hs) (ndead_stays _ _ _ Heq HD) Hr) by done. by apply Heq.
  Qed.
  Lemma ndead_nested s D : n_deadlocked E s D -> (exists t, D t) ->
    exists t f k g, D t /\ nstack s t = f :: k /\ g ∈ k /\ inside g.
  Proof.
    intros HD [t Ht]. destruct (HD t Ht) as (o&b&i&k&u&f&k'&g&Hst&Hu&Hstu&Hg&Hh&_). by exists u, f, k', g.
  Qed.

  (** ** A mutex that is never given back *)
  (** Calls for type [ty] that have not got the mutex do not get it while frame [g], below the top
      of some stack, has it. *)
  Lemma kept_step s lb s' ty u g t f k : LI s -> g ∈ nstack s u -> n_holds E ty g -> nstep E s lb = Next s' ->
    nstack s t = f :: k -> n_before f -> type_of f = ty ->
    exists f', nstack s' t = f' :: k /\ n_before f' /\ call_of f' = call_of f.
  Proof.
    intros HI Hg Hh Hs Hst Hb Hty.
    destruct (nstep_shape E _ _ _ Hs) as [p v -> ->|t' o' b' a -> Hth Hus _ _ _ _|t' f' fs' k0 Hl _ Hst' Hth Hf _ _ _]; [by exists f|..];
      rewrite (stack_ins s s' t' _ t Hth); (destruct (decide (t' = t)) as [->|]; [|by exists f]).
    - rewrite Hst in Hus. by destruct f.
    - rewrite Hst in Hst'. injection Hst' as <- <-.
      destruct lb as [t' o1 a|t' a j|t' v|t'|p]; try done; injection Hl as ->; simpl in Hs.
      + rewrite Hst in Hs. by destruct f.
      + unfold nstep_thread in Hs. rewrite Hst in Hs.
        assert (forall f1 s1, s' = nset_stack s1 t (f1 :: k) -> nstack s' t = f1 :: k) as Hset.
        { intros f1 s1 ->. unfold nstack. simpl. by rewrite lookup_insert. }
        rewrite (stack_ins s s' t _ t Hth), decide_True in Hset by done.
        destruct f as [o b again|o b|o b i|o b i|o b|i g0]; try done.
        * destruct (find_ty _ _); [destruct (_ || _)|destruct again; [done|]]; injection Hs as <-; eexists; (split; [by eapply Hset|done]).
        * injection Hs as <-. eexists; (split; [by eapply Hset|done]).
        * destruct (_ =? i); [|done]. injection Hs as <-. eexists; (split; [by eapply Hset|done]).
        * destruct (nhold_locked s u g o b i t HI Hg) as [x Hx]; [|rewrite Hst; by left|by rewrite Hx in Hs].
          destruct Hh as [Hi Ht]. split; [done|]. by rewrite Ht, <- Hty.
      + rewrite Hst in Hs. by destruct f.
      + unfold nstep_panic in Hs. rewrite Hst in Hs. destruct (existsb _ _); [done|]. by destruct f.
  Qed.
  Lemma n_reenter s t f k o a s1 : LI s -> nstack s t = f :: k -> inside f -> type_of f = op_ty o ->
    nstep E s (ICall t o a) = Next s1 -> exists b, nstack s1 t = NScan o b false :: f :: k.
  Proof.
    intros HI Hst Hi Hty Hs. destruct (nstep_shape E _ _ _ Hs) as [p v ? ->|t' o' b' a' Heq Hth Hus _ _ _ _|t' f' fs' k0 Hl Hno _ _ _ _ _ _].
    - done.
    - injection Heq as <- <- <-. exists b'. rewrite (stack_ins s s1 t _ t Hth), decide_True, Hst by done. done.
    - injection Hl as <-. by destruct (Hno o a).
  Qed.
  Lemma n_reenter_forever ls0 s t f k o a s1 ls s2 :
    run (nstep E) ninit ls0 = Some s -> nstack s t = f :: k -> inside f -> type_of f = op_ty o ->
    nstep E s (ICall t o a) = Next s1 -> run (nstep E) s1 ls = Some s2 ->
    exists g, nstack s2 t = g :: f :: k /\ n_before g /\ call_of g = o.
  Proof.
    intros Hr Hst Hi Hty Hs Hr2. pose proof (LI_reach _ _ Hr) as HI. pose proof (LI_step _ _ _ HI Hs) as HI1.
    destruct (n_reenter s t f k o a s1 HI Hst Hi Hty Hs) as (b&Hst1).
    assert (exists g, nstack s1 t = g :: f :: k /\ n_before g /\ call_of g = o) as H by (by eexists).
    clear Hs Hst1 Hr Hst HI. revert s1 HI1 Hr2 H. induction ls as [|lb ls IH]; intros s1 HI Hr2 (g&Hg&Hb&Hc); simpl in Hr2.
    { injection Hr2 as <-. by exists g. }
    unfold exec in Hr2. destruct (nstep E s1 lb) as [s3| | |] eqn:Hs; try done; try (eapply IH; try done; by exists g).
    apply (IH s3); [by eapply LI_step|done|].
    destruct (kept_step s1 lb s3 (op_ty o) t f t g (f :: k) HI) as (g'&Hg'&Hb'&Hc'); try done.
    - rewrite Hg. right. by left.
    - unfold NewSpec.type_of. by rewrite Hc.
    - exists g'. by rewrite Hc', Hc.
  Qed.
  Lemma ndead_lost ls0 s D u f k g ty ls1 s1 ls2 s2 t f1 k1 :
    run (nstep E) ninit ls0 = Some s -> n_deadlocked E s D -> D u -> nstack s u = f :: k -> g ∈ k -> n_holds E ty g ->
    run (nstep E) s ls1 = Some s1 -> nstack s1 t = f1 :: k1 -> n_before f1 -> type_of f1 = ty ->
    run (nstep E) s1 ls2 = Some s2 ->
    exists f2, nstack s2 t = f2 :: k1 /\ n_before f2 /\ call_of f2 = call_of f1.
  Proof.
    intros Hr HD Hu Hst Hg Hh Hr1 Ht Hb Hty Hr2. pose proof (LI_reach _ _ Hr) as HI. pose proof (LI_run _ _ _ HI Hr1) as HI1.
    pose proof (ndead_forever _ _ _ _ HI HD Hr1) as Heq. pose proof (ndead_stays _ _ _ Heq HD) as HD1.
    assert (nstack s1 u = f :: k) as Hst1 by (by rewrite Heq).
    clear Hr1 Heq HI Hst. revert s1 f1 HI1 HD1 Hst1 Ht Hb Hty Hr2. clear HD.
    induction ls2 as [|lb ls IH]; intros s1 f1 HI HD Hst Ht Hb Hty Hr2; simpl in Hr2.
    { injection Hr2 as <-. by exists f1. }
    unfold exec in Hr2. destruct (nstep E s1 lb) as [s3| | |] eqn:Hs; try done; try (by eapply IH).
    destruct (kept_step s1 lb s3 ty u g t f1 k1 HI) as (f2&Ht2&Hb2&Hc2); try done; [rewrite Hst; by right|].
    pose proof (ndead_step s1 D lb s3 HI HD Hs) as Heq.
    destruct (IH s3 f2) as (f3&?&?&Hc3); try done.
    - by eapply LI_step.
    - by eapply ndead_stays.
    - by rewrite Heq.
    - unfold NewSpec.type_of. by rewrite Hc2.
    - exists f3. split_and!; try done. by rewrite Hc3.
  Qed.
End live.

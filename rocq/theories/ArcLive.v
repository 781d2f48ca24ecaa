(** Progress of the ArcIntern model: no deadlock, and every call can be run to its end. *)
From stdpp Require Import gmap list numbers.
From Verif Require Import Base ArcModel ArcSpec ArcInv ArcStep ArcSafe ArcReach.
Require Import ZifyBool ZifyNat ZifyN.

Section live.
  Context {V : Type} (E : tyenv V).
  Implicit Types (st : state V) (v d : V) (p q : ptr) (ls : list (label V)).
  Notation hc := (handles_to E).
  Context (HC : coherent E) (HW : wide E).

  Lemma free_addr st : exists a, st_heap st !! a = None.
  Proof.
    pose (D := dom (st_heap st) : gset nat).
    exists (fresh D). apply (not_elem_of_dom (D:=gset nat)). apply is_fresh.
  Qed.

  Lemma holder_steps st t l :
    Inv E st -> pc_lock E (get_pc st t) = Some l -> exists st', step E st (LStep t 0 0) = Next st'.
  Proof.
    intros HI Hl. pose proof (inv_pc _ _ HI t) as Hok. simpl. unfold step_thread.
    destruct (get_pc st t) as [|k v b|k v b p|k v b p old|k v b p|k v b|k v q|k v q|k v q|k v q|l' q w r|w r|ty j acc|ty j] eqn:Hpc;
      simpl in Hok, Hl; try done; eauto.
    - destruct Hok as [_ [Hp _]]. destruct (table_deref _ _ HI p Hp) as (c&d&->&_). eauto.
    - destruct Hok as (_&[Hp _]&_). destruct (table_deref _ _ HI p Hp) as (c&d&->&_).
      destruct (old =? 0)%N; eauto.
    - destruct Hok as [Hb _]. unfold box_ok in Hb. rewrite Hb. destruct k; eauto.
    - destruct Hok as (Hp&_). destruct (table_deref _ _ HI q Hp) as (c&d&->&->&_). eauto.
  Qed.

  Definition unlocked st : Prop := forall l, st_locks st !! l = None.

  (** A thread inside a call can step when no shard is locked. *)
  Lemma unlocked_steps st t :
    Inv E st -> unlocked st -> get_pc st t <> PFree ->
    exists a st', step E st (LStep t a 0) = Next st'.
  Proof.
    intros HI Hlk Hne. pose proof (inv_pc _ _ HI t) as Hok.
    destruct (free_addr st) as [a Ha]. exists a. simpl. unfold step_thread.
    destruct (get_pc st t) as [|k v b|k v b p|k v b p old|k v b p|k v b|k v q|k v q|k v q|k v q|l' q w r|w r|ty j acc|ty j] eqn:Hpc;
      simpl in Hok; try done; eauto.
    - rewrite Hlk, (inv_readable _ _ HI). destruct pick; eauto.
    - destruct Hok as [_ [Hp _]]. destruct (table_deref _ _ HI p Hp) as (c&d&->&_). eauto.
    - destruct Hok as (_&[Hp _]&_). destruct (table_deref _ _ HI p Hp) as (c&d&->&_).
      destruct (old =? 0)%N; eauto.
    - rewrite Ha. destruct k, b; eauto.
    - destruct Hok as [Hb _]. unfold box_ok in Hb.
      rewrite (proj2 (data_Some st q v)) by eauto.
      rewrite Hlk, (inv_readable _ _ HI). destruct pick; eauto.
    - destruct Hok as [Hb _]. unfold box_ok in Hb. rewrite Hb. destruct k; eauto.
    - destruct Hok as (Hp&_). destruct (table_deref _ _ HI q Hp) as (c&d&->&->&_). eauto.
    - destruct w as [|[p|p|q] w].
      + destruct r as [[v p]|]; eauto.
      + destruct (pc_hand E st t p HI) as (c&d&->&_); [|eauto].
        rewrite Hpc. simpl. rewrite is_p_self. lia.
      + destruct (rem_hand E st t p HI) as (_&_&c&d&_&_&->).
        { rewrite Hpc. simpl. rewrite is_p_self. lia. }
        rewrite Hlk, (inv_readable _ _ HI). destruct pick; eauto.
      + destruct Hok as [Hf _]. destruct (Hf q) as (c&->&_); [by left|eauto].
    - destruct (j <? te_shards E); [|eauto]. rewrite Hlk. eauto.
    - destruct (j <? te_shards E); [|eauto]. rewrite Hlk. eauto.
  Qed.

  Theorem no_deadlock st t :
    Inv E st -> get_pc st t <> PFree ->
    exists t' a st', get_pc st t' <> PFree /\ step E st (LStep t' a 0) = Next st'.
  Proof.
    intros HI Hne.
    destruct (decide (st_locks st = ∅)) as [He|He].
    - destruct (unlocked_steps st t HI) as (a&st'&Hs); [|done|eauto 10].
      intros l. by rewrite He, lookup_empty.
    - apply map_choose in He as (l&t'&Hl). apply (inv_lock _ _ HI) in Hl.
      destruct (holder_steps st t' l HI Hl) as [st' Hs]. exists t', 0, st'. split; [|done].
      intros Hx. by rewrite Hx in Hl.
  Qed.

  (** ** Room: the handles that exist plus those the running calls may still create. *)
  Definition pc_pot (x : pc V) : nat :=
    match x with
    | PLookup _ _ _ | PHit _ _ _ _ | PUndo _ _ _ _ | PAlloc _ _ _ | PEntry _ _ _
    | PVac _ _ _ | POcc _ _ _ => 1
    | PInc _ _ _ _ old => if (old =? 0)%N then 1 else 0
    | _ => 0
    end.
  Definition pot st : nat := msum pc_pot (st_threads st).
  Definition roomy st : Prop := forall p, (N.of_nat (hc st p + pot st) < te_mod E)%N.

  Lemma roomy_fits st : roomy st -> fits E st.
  Proof. intros H p. specialize (H p). lia. Qed.

  Lemma msum_le {A} (f g : A -> nat) m : (forall x, f x <= g x) -> msum f m <= msum g m.
  Proof.
    intros H. induction m as [|k x m Hk IH] using map_ind; [by rewrite !msum_empty|].
    rewrite !msum_insert_None by done. specialize (H x). lia.
  Qed.
  Lemma pot_calls st : pot st <= calls st.
  Proof. apply msum_le. intros []; simpl; try lia. destruct (old =? 0)%N; lia. Qed.

  Lemma step_other st t a i st' t' :
    step E st (LStep t a i) = Next st' -> t' <> t -> get_pc st' t' = get_pc st t'.
  Proof.
    intros Hs Hne. simpl in Hs. unfold step_thread in Hs.
    assert (forall x, get_pc (set_pc st t x) t' = get_pc st t') as Hoth.
    { intros x. rewrite get_pc_set. by rewrite decide_False. }
    repeat (match goal with
      | H : Next _ = Next _ |- _ => injection H as <-
      | H : (match ?x with _ => _ end) = Next _ |- _ => destruct x; try done
      end); exact (Hoth _).
  Qed.

  Lemma step_threads st t a i st' :
    step E st (LStep t a i) = Next st' -> st_threads st' = <[t := get_pc st' t]> (st_threads st).
  Proof.
    intros Hs. simpl in Hs. unfold step_thread in Hs.
    assert (forall (s : state V) x, st_threads s = <[t := x]> (st_threads st) ->
              st_threads s = <[t := get_pc s t]> (st_threads st)) as Hx.
    { intros s x H. unfold get_pc. rewrite H at 2. rewrite lookup_insert. done. }
    repeat (match goal with
      | H : Next _ = Next _ |- _ => injection H as <-
      | H : (match ?x with _ => _ end) = Next _ |- _ => destruct x; try done
      end); by eapply Hx.
  Qed.

  Lemma step_pot st t a i st' p :
    Inv E st -> step E st (LStep t a i) = Next st' -> hc st' p + pot st' <= hc st p + pot st.
  Proof.
    intros HI Hs. pose proof (step_hc E st _ st' p HI Hs) as Hh.
    assert (pot st' + pc_pot (get_pc st t) = pot st + pc_pot (get_pc st' t)) as Hp.
    { unfold pot. rewrite (step_threads _ _ _ _ _ Hs).
      pose proof (msum_insert_default pc_pot (st_threads st) t (get_pc st' t) PFree eq_refl).
      unfold get_pc in *. lia. }
    assert (creates st (LStep t a i) + pc_pot (get_pc st' t) <= pc_pot (get_pc st t)); [|lia].
    clear Hp Hh. assert (forall (s : state V) x, get_pc (set_pc s t x) t = x) as Hg.
    { intros s x. rewrite get_pc_set. by rewrite decide_True. }
    simpl in Hs |- *. unfold step_thread in Hs. clear HI.
    destruct (get_pc st t) as [|k v b|k v b q|k v b q old|k v b q|k v b|k v q|k v q|k v q|k v q|l' q w r|w r|ty j acc|ty j] eqn:Hpc;
    repeat (match goal with
      | H : Next _ = Next _ |- _ => injection H as <-
      | H : (match ?x with _ => _ end) = Next _ |- _ => destruct x eqn:?; try done
      end); try (rewrite ?Hg; simpl; lia).
    - done.
    - rewrite Hg. simpl. destruct (c_count _ =? 0)%N; lia.
    - rewrite Hg. simpl. rewrite Heqb0. lia.
    - change (0 + pc_pot (get_pc (set_pc st t PFree) t) <= 0). rewrite Hg. simpl. lia.
    - change (0 + pc_pot (get_pc (set_pc st t PFree) t) <= 0). rewrite Hg. simpl. lia.
  Qed.

  Lemma roomy_step st t a i st' :
    Inv E st -> step E st (LStep t a i) = Next st' -> roomy st -> roomy st'.
  Proof.
    intros HI Hs Hr p. pose proof (step_pot st t a i st' p HI Hs). specialize (Hr p). lia.
  Qed.

  Lemma step_zombies st t a i st' :
    step E st (LStep t a i) = Next st' -> st_zombies st' = st_zombies st.
  Proof. intros Hs. by destruct (step_mono E _ _ _ Hs) as (_&_&[?|[[] _]]). Qed.

  (** ** Schedules: threads take steps, each of which succeeds. *)
  Inductive sched : state V -> state V -> Prop :=
  | sched_refl st : sched st st
  | sched_step st t a st1 st2 :
      step E st (LStep t a 0) = Next st1 -> sched st1 st2 -> sched st st2.

  Lemma sched_trans st1 st2 st3 : sched st1 st2 -> sched st2 st3 -> sched st1 st3.
  Proof. induction 1; [done|]. intros. econstructor; eauto. Qed.

  Lemma sched_run st st' : sched st st' ->
    exists ls, Forall (λ l, exists t a, l = LStep t a 0) ls /\ run (step E) st ls = Some st'.
  Proof.
    induction 1 as [st|st t a st1 st2 Hs _ (ls&Hf&Hr)].
    - exists []. split; [constructor|done].
    - exists (LStep t a 0 :: ls). split; [constructor; eauto|]. simpl run. unfold exec.
      by rewrite Hs.
  Qed.

  (** Good states: invariant, room, and nothing abandoned by a panic. *)
  Definition good st : Prop := Inv E st /\ roomy st /\ st_zombies st = [].

  Lemma good_step st t a st' : good st -> step E st (LStep t a 0) = Next st' -> good st'.
  Proof.
    intros (HI&Hr&Hz) Hs. split_and!.
    - eapply step_inv; [done..|by apply roomy_fits|done].
    - by eapply roomy_step.
    - by rewrite (step_zombies _ _ _ _ _ Hs).
  Qed.

  (** Thread [t] alone brings its call to an end. *)
  Definition ends t st : Prop :=
    exists st', sched st st' /\ good st' /\ unlocked st' /\ get_pc st' t = PFree /\
      forall t', t' <> t -> get_pc st' t' = get_pc st t'.

  Lemma ends_step st t a st1 : step E st (LStep t a 0) = Next st1 -> ends t st1 -> ends t st.
  Proof.
    intros Hs (st'&Hso&Hg&Hu&Hp&Ho). exists st'. split_and!; try done.
    - by econstructor.
    - intros t' Hne. rewrite Ho by done. by eapply step_other.
  Qed.

  Lemma get_set st t x : get_pc (set_pc st t x) t = x.
  Proof. rewrite get_pc_set. by rewrite decide_True. Qed.

  (** Work left: every pending drop may free one object and so queue its children. *)
  Definition cell_w (c : cell V) : nat :=
    match c_data c with Some v => 4 * length (te_kids E v) | None => 0 end.
  Definition item_w (it : item) : nat := match it with IDrop _ => 4 | IRemove _ => 3 | IFree _ => 1 end.
  Fixpoint work_w (w : list item) : nat :=
    match w with [] => 0 | it :: w' => item_w it + work_w w' end.
  Lemma work_w_app w1 w2 : work_w (w1 ++ w2) = work_w w1 + work_w w2.
  Proof. induction w1; simpl; lia. Qed.
  Lemma work_w_drops (l : list ptr) : work_w (IDrop <$> l) = 4 * length l.
  Proof.
    induction l as [|x l IH]; [done|].
    change (work_w (IDrop <$> (x :: l))) with (4 + work_w (IDrop <$> l)). rewrite IH. simpl. lia.
  Qed.

  Lemma cellw_update (h : gmap nat (cell V)) a c c' :
    h !! a = Some c -> c_data c' = c_data c -> msum cell_w (<[a:=c']> h) = msum cell_w h.
  Proof.
    intros Ha Hd. pose proof (msum_insert_Some cell_w h a c' c Ha) as H.
    assert (cell_w c' = cell_w c) by (unfold cell_w; by rewrite Hd). lia.
  Qed.

  Lemma unlocked_relock st l t : unlocked st -> unlocked (unlock (lock st l t) l).
  Proof.
    intros Hun l'. simpl. destruct (decide (l' = l)) as [->|].
    - by rewrite lookup_delete.
    - rewrite lookup_delete_ne, lookup_insert_ne by done. apply Hun.
  Qed.

  Lemma work_ends n : forall st t w r,
    msum cell_w (st_heap st) + work_w w <= n ->
    good st -> unlocked st -> get_pc st t = PWork w r -> ends t st.
  Proof.
    induction n as [n IH] using lt_wf_ind. intros st t w r Hn HG Hun Hpc.
    assert (forall st1 w1 r1, step E st (LStep t 0 0) = Next st1 ->
      unlocked st1 -> get_pc st1 t = PWork w1 r1 ->
      msum cell_w (st_heap st1) + work_w w1 < msum cell_w (st_heap st) + work_w w ->
      ends t st) as Hgo.
    { intros st1 w1 r1 Hs Hl1 Hpc1 Hlt.
      eapply ends_step; [exact Hs|].
      eapply (IH (msum cell_w (st_heap st1) + work_w w1)); [lia|done| |done|done].
      by eapply good_step. }
    pose proof HG as (HI&Hroom&Hz).
    pose proof (inv_pc _ _ HI t) as Hok. rewrite Hpc in Hok. simpl in Hok.
    destruct Hok as [Hfree Hret].
    destruct w as [|[p|p|q] w].
    - (* return *)
      assert (exists st', step E st (LStep t 0 0) = Next st' /\ get_pc st' t = PFree /\ unlocked st') as (st'&Hs&Hp'&Hu').
      { simpl. unfold step_thread. rewrite Hpc. destruct r as [[v p]|]; eexists; split_and!;
          try done; apply (get_set st t PFree). }
      eapply ends_step; [exact Hs|]. exists st'. split_and!; [constructor| |done..].
      by eapply good_step.
    - (* IDrop *)
      destruct (pc_hand E st t p HI) as (c&d&Hc&_).
      { rewrite Hpc. simpl. rewrite is_p_self. lia. }
      pose proof Hc as [Hca _]%deref_Some.
      eapply (Hgo _ (if (c_count c =? 1)%N then IRemove p :: w else w) r).
      + simpl. unfold step_thread. rewrite Hpc, Hc. done.
      + exact Hun.
      + apply (get_set _ t).
      + simpl. rewrite (cellw_update _ _ c) by done. destruct (c_count c =? 1)%N; simpl; lia.
    - (* IRemove *)
      destruct (rem_hand E st t p HI) as (Hin&H0&c&d&Hc&Hcd&Hd).
      { rewrite Hpc. simpl. rewrite is_p_self. lia. }
      destruct (pick 0 (matches E st d)) as [q|] eqn:Hp.
      2: { exfalso. pose proof (pick_match_none E HC _ _ _ Hp p d Hin Hd) as Hx.
           by rewrite (coh_refl _ HC) in Hx. }
      set (st1 := set_pc (lock st (lock_of E d) t) t (PRem (lock_of E d) q w r)).
      assert (step E st (LStep t 0 0) = Next st1) as Hs1.
      { simpl. unfold step_thread. rewrite Hpc, Hd, Hun, (inv_readable _ _ HI), Hp. done. }
      pose proof (good_step _ _ _ _ HG Hs1) as HG1. pose proof HG1 as (HI1&_).
      assert (get_pc st1 t = PRem (lock_of E d) q w r) as Hpc1 by apply (get_set _ t).
      pose proof (inv_pc _ _ HI1 t) as Hok1. rewrite Hpc1 in Hok1. simpl in Hok1.
      destruct Hok1 as (Hq&_). destruct (table_deref _ _ HI1 q Hq) as (c1&d1&Hc1&Hcd1&_).
      set (st2 := set_pc (take_data (unlock (set_table st1 (remove_entry q (st_table st1))) (lock_of E d)) q c1) t
                 (PWork (drop_box E d1 q ++ w) r)).
      assert (step E st1 (LStep t 0 0) = Next st2) as Hs2.
      { simpl. unfold step_thread. rewrite Hpc1, Hc1, Hcd1. done. }
      pose proof (good_step _ _ _ _ HG1 Hs2) as HG2.
      assert (unlocked st2) as Hun2 by exact (unlocked_relock st _ t Hun).
      assert (get_pc st2 t = PWork (drop_box E d1 q ++ w) r) as Hpc2 by apply (get_set _ t).
      apply deref_Some in Hc1 as [Hc1 _].
      assert (msum cell_w (st_heap st2) + work_w (drop_box E d1 q ++ w)
              < msum cell_w (st_heap st) + (3 + work_w w)) as Hw.
      { simpl. unfold drop_box. rewrite !work_w_app, work_w_drops. simpl. change (st_heap st1) with (st_heap st) in *.
        pose proof (msum_insert_Some cell_w (st_heap st) _ (Cell (c_ser c1) (c_count c1) None) c1 Hc1) as Hm.
        assert (cell_w c1 = 4 * length (te_kids E d1)) as Hcw by (unfold cell_w; by rewrite Hcd1).
        rewrite Hcw in Hm. change (cell_w (Cell (c_ser c1) (c_count c1) None)) with 0 in Hm. lia. }
      simpl in Hn.
      eapply ends_step; [exact Hs1|]. eapply ends_step; [exact Hs2|].
      eapply (IH (msum cell_w (st_heap st2) + work_w (drop_box E d1 q ++ w))); [lia|done..].
    - (* IFree *)
      destruct (Hfree q) as (c&Hc&Hk); [by left|]. pose proof Hc as [Hca _]%deref_Some.
      eapply (Hgo _ w r).
      + simpl. unfold step_thread. rewrite Hpc, Hc. done.
      + exact Hun.
      + apply (get_set _ t).
      + simpl. rewrite (msum_delete cell_w (st_heap st) _ c Hca). lia.
  Qed.

  (** In a state with no removal under way every entry has a handle. *)
  Lemma no_removal_live st p :
    Inv E st -> st_zombies st = [] -> (forall t, pc_rc p (get_pc st t) = 0) ->
    p ∈ st_table st -> 0 < hc st p.
  Proof.
    intros HI Hz Hrc Hp. pose proof (inv_rem _ _ HI p Hp) as Hr. unfold rc in Hr.
    rewrite Hz in Hr. simpl in Hr.
    destruct (decide (msum (pc_rc p) (st_threads st) = 0)) as [H0|H0].
    - destruct (Nat.eqb_spec (hc st p) 0); lia.
    - exfalso. destruct (tsum_pos (pc_rc p) st) as [t Ht]; [lia|]. rewrite Hrc in Ht. lia.
  Qed.

  (** A state in which no other thread is removing anything. *)
  Definition calm st t : Prop := forall t' p, t' <> t -> pc_rc p (get_pc st t') = 0.

  Lemma calm_step st t a st1 : calm st t -> step E st (LStep t a 0) = Next st1 -> calm st1 t.
  Proof.
    intros Hr Hs t' p Hne. rewrite (step_other _ _ _ _ _ _ Hs Hne). by apply Hr.
  Qed.

  Lemma table_data_step st l st1 p d :
    Inv E st -> step E st l = Next st1 -> Inv E st1 ->
    p ∈ st_table st -> p ∈ st_table st1 -> data st p = Some d -> data st1 p = Some d.
  Proof.
    intros HI Hs HI1 Hp Hp1 Hd. destruct (inv_live _ _ HI1 p Hp1) as [d1 Hd1].
    rewrite Hd1. f_equal.
    assert (p_ser p < st_next st) as Hser.
    { destruct (table_deref _ _ HI p Hp) as (c&d'&[Hc <-]%deref_Some&_). by eapply inv_ser. }
    pose proof (step_data_stable E st l st1 p d1 Hs Hser Hd1). congruence.
  Qed.

  (** [new] at the loop head when an equal value is interned. *)
  Lemma hit_ends st t k v b p0 :
    good st -> unlocked st -> calm st t ->
    get_pc st t = PLookup k v b -> hit_ok E st v p0 -> ends t st.
  Proof.
    intros HG Hun Hcalm Hpc Hhit. pose proof HG as (HI&_).
    destruct (pick 0 (matches E st v)) as [p|] eqn:Hp.
    2: { exfalso. destruct Hhit as [Hin (d&Hd&He)].
         rewrite (pick_match_none E HC _ _ _ Hp p0 d Hin Hd) in He. done. }
    pose proof (pick_match_hit E HC _ _ _ _ Hp) as [Hin (d&Hd&He)].
    set (st1 := set_pc (lock st (lock_of E v) t) t (PHit k v b p)).
    assert (step E st (LStep t 0 0) = Next st1) as Hs1.
    { simpl. unfold step_thread. rewrite Hpc, Hun, (inv_readable _ _ HI), Hp. done. }
    assert (get_pc st1 t = PHit k v b p) as Hpc1 by apply (get_set _ t).
    pose proof (good_step _ _ _ _ HG Hs1) as HG1. pose proof HG1 as (HI1&Hroom1&Hz1).
    pose proof (calm_step _ _ _ _ Hcalm Hs1) as Hcalm1.
    assert (0 < hc st1 p) as Hlive.
    { apply no_removal_live; [done|done| |done]. intros t'.
      destruct (decide (t' = t)) as [->|]; [by rewrite Hpc1|by apply Hcalm1]. }
    destruct (hand_deref E st1 p HI1 Hlive) as (c&d'&Hc&_).
    destruct (cnt_live E st1 p c HI1 (roomy_fits _ Hroom1) Hlive Hc) as [_ Hcnt].
    set (st2 := set_pc (set_count st1 p c (count_inc E (c_count c))) t (PInc k v b p (c_count c))).
    assert (step E st1 (LStep t 0 0) = Next st2) as Hs2.
    { simpl. unfold step_thread. rewrite Hpc1, Hc. done. }
    pose proof (good_step _ _ _ _ HG1 Hs2) as HG2.
    assert (get_pc st2 t = PInc k v b p (c_count c)) as Hpc2 by apply (get_set _ t).
    set (st3 := set_pc (unlock st2 (lock_of E v)) t (PWork (drop_args E k v b) (Some (v, p)))).
    assert (step E st2 (LStep t 0 0) = Next st3) as Hs3.
    { simpl. unfold step_thread. rewrite Hpc2. rewrite (proj2 (N.eqb_neq _ _)) by lia. done. }
    eapply ends_step; [exact Hs1|]. eapply ends_step; [exact Hs2|]. eapply ends_step; [exact Hs3|].
    eapply work_ends; [done|by eapply good_step|exact (unlocked_relock st _ t Hun)|apply (get_set _ t)].
  Qed.

  (** [new] with its box ready. *)
  Lemma entry_ends st t k v q :
    good st -> unlocked st -> calm st t -> get_pc st t = PEntry k v q -> ends t st.
  Proof.
    intros HG Hun Hcalm Hpc. pose proof HG as (HI&_).
    pose proof (inv_pc _ _ HI t) as Hok. rewrite Hpc in Hok. simpl in Hok.
    destruct Hok as [Hbox _]. unfold box_ok in Hbox.
    assert (data st q = Some v) as Hdq by (apply data_Some; eauto).
    destruct (pick 0 (matches E st v)) as [p|] eqn:Hp.
    - (* occupied *)
      pose proof (pick_match_hit E HC _ _ _ _ Hp) as [Hin (d&Hd&He)].
      set (st1 := set_pc (lock st (lock_of E v) t) t (POcc k v q)).
      assert (step E st (LStep t 0 0) = Next st1) as Hs1.
      { simpl. unfold step_thread. rewrite Hpc, Hdq, Hun, (inv_readable _ _ HI), Hp. done. }
      pose proof (good_step _ _ _ _ HG Hs1) as HG1. pose proof HG1 as (HI1&_).
      assert (get_pc st1 t = POcc k v q) as Hpc1 by apply (get_set _ t).
      assert (deref st1 q = Some (Cell (p_ser q) 1 (Some v))) as Hbox1 by exact Hbox.
      set (st2 := match k with
                  | KSized => set_pc (free (unlock st1 (lock_of E v)) q) t (PLookup KSized v None)
                  | KDst => set_pc (unlock st1 (lock_of E v)) t (PLookup KDst v (Some q)) end).
      assert (step E st1 (LStep t 0 0) = Next st2) as Hs2.
      { simpl. unfold step_thread. rewrite Hpc1, Hbox1. by destruct k. }
      pose proof (good_step _ _ _ _ HG1 Hs2) as HG2. pose proof HG2 as (HI2&_).
      assert (st_table st2 = st_table st) as Ht2 by (by destruct k).
      eapply ends_step; [exact Hs1|]. eapply ends_step; [exact Hs2|].
      apply (hit_ends st2 t k v (match k with KSized => None | KDst => Some q end) p).
      + done.
      + assert (st_locks st2 = st_locks (unlock (lock st (lock_of E v) t) (lock_of E v))) as Hlk by (by destruct k).
        intros l. rewrite Hlk. by apply unlocked_relock.
      + eapply calm_step; [|exact Hs2]. by eapply calm_step.
      + unfold st2. destruct k; apply (get_set _ t).
      + split; [by rewrite Ht2|]. exists d. split; [|done].
        eapply (table_data_step st1); [done|exact Hs2|done|done|by rewrite Ht2|].
        eapply (table_data_step st); [done|exact Hs1|done|done|done|done].
    - (* vacant *)
      set (st1 := set_pc (lock st (lock_of E v) t) t (PVac k v q)).
      assert (step E st (LStep t 0 0) = Next st1) as Hs1.
      { simpl. unfold step_thread. rewrite Hpc, Hdq, Hun, (inv_readable _ _ HI), Hp. done. }
      pose proof (good_step _ _ _ _ HG Hs1) as HG1. pose proof HG1 as (HI1&_).
      assert (get_pc st1 t = PVac k v q) as Hpc1 by apply (get_set _ t).
      set (st2 := set_pc (set_table st1 (q :: st_table st1)) t (PIns k v q)).
      assert (step E st1 (LStep t 0 0) = Next st2) as Hs2.
      { simpl. unfold step_thread. rewrite Hpc1. done. }
      pose proof (good_step _ _ _ _ HG1 Hs2) as HG2. pose proof HG2 as (HI2&_).
      assert (get_pc st2 t = PIns k v q) as Hpc2 by apply (get_set _ t).
      set (st3 := set_pc (unlock st2 (lock_of E v)) t (PWork [] (Some (v, q)))).
      assert (step E st2 (LStep t 0 0) = Next st3) as Hs3.
      { simpl. unfold step_thread. rewrite Hpc2. done. }
      eapply ends_step; [exact Hs1|]. eapply ends_step; [exact Hs2|]. eapply ends_step; [exact Hs3|].
      eapply work_ends; [done|by eapply good_step|exact (unlocked_relock st _ t Hun)|apply (get_set _ t)].
  Qed.

  Lemma alloc_ends st t k v b :
    good st -> unlocked st -> calm st t -> get_pc st t = PAlloc k v b -> ends t st.
  Proof.
    intros HG Hun Hcalm Hpc. pose proof HG as (HI&_).
    destruct (unlocked_steps st t HI Hun) as (a&st1&Hs1); [by rewrite Hpc|].
    assert (exists q, get_pc st1 t = PEntry k v q /\ st_locks st1 = st_locks st) as (q&Hpc1&Hl1).
    { pose proof Hs1 as Hs. simpl in Hs. unfold step_thread in Hs. rewrite Hpc in Hs.
      destruct k, b; try (destruct (st_heap st !! a); [done|]); injection Hs as <-; eexists;
        (split; [apply (get_set _ t)|done]). }
    eapply ends_step; [exact Hs1|].
    eapply entry_ends; [by eapply good_step| |by eapply calm_step|done].
    intros l. rewrite Hl1. apply Hun.
  Qed.

  Lemma lookup_ends st t k v b :
    good st -> unlocked st -> calm st t -> get_pc st t = PLookup k v b -> ends t st.
  Proof.
    intros HG Hun Hcalm Hpc. pose proof HG as (HI&_).
    destruct (pick 0 (matches E st v)) as [p|] eqn:Hp.
    { eapply hit_ends; try done. by eapply pick_match_hit. }
    set (st1 := set_pc st t (PAlloc k v b)).
    assert (step E st (LStep t 0 0) = Next st1) as Hs1.
    { simpl. unfold step_thread. rewrite Hpc, Hun, (inv_readable _ _ HI), Hp. done. }
    eapply ends_step; [exact Hs1|].
    eapply alloc_ends; [by eapply good_step|done|by eapply calm_step|apply (get_set _ t)].
  Qed.

  (** Counting and shrinking calls. *)
  Lemma len_ends m : forall st t ty j acc,
    good st -> unlocked st -> get_pc st t = PLen ty j acc -> te_shards E - j = m -> ends t st.
  Proof.
    induction m as [|m IH]; intros st t ty j acc HG Hun Hpc Hm.
    - set (st1 := add_log (set_pc st t PFree) (EvLen t ty acc)).
      assert (step E st (LStep t 0 0) = Next st1) as Hs.
      { simpl. unfold step_thread. rewrite Hpc, (proj2 (Nat.ltb_nlt _ _)) by lia. done. }
      eapply ends_step; [exact Hs|].
      exists st1. split_and!; [constructor|by eapply good_step|done| |done].
      apply (get_set st t PFree).
    - set (st1 := set_pc st t (PLen ty (S j) (acc + shard_len E st ty j))).
      assert (step E st (LStep t 0 0) = Next st1) as Hs.
      { simpl. unfold step_thread. rewrite Hpc, (proj2 (Nat.ltb_lt _ _)), Hun by lia. done. }
      eapply ends_step; [exact Hs|].
      eapply (IH st1); [by eapply good_step|done|apply (get_set st t)|lia].
  Qed.

  Lemma shrink_ends m : forall st t ty j,
    good st -> unlocked st -> get_pc st t = PShrink ty j -> te_shards E - j = m -> ends t st.
  Proof.
    induction m as [|m IH]; intros st t ty j HG Hun Hpc Hm.
    - set (st1 := set_pc st t PFree).
      assert (step E st (LStep t 0 0) = Next st1) as Hs.
      { simpl. unfold step_thread. rewrite Hpc, (proj2 (Nat.ltb_nlt _ _)) by lia. done. }
      eapply ends_step; [exact Hs|].
      exists st1. split_and!; [constructor|by eapply good_step|done| |done].
      apply (get_set st t PFree).
    - set (st1 := set_pc st t (PShrink ty (S j))).
      assert (step E st (LStep t 0 0) = Next st1) as Hs.
      { simpl. unfold step_thread. rewrite Hpc, (proj2 (Nat.ltb_lt _ _)), Hun by lia. done. }
      eapply ends_step; [exact Hs|].
      eapply (IH st1); [by eapply good_step|done|apply (get_set st t)|lia].
  Qed.

  (** ** The whole schedule *)

  (** Phase 1: run the lock holders until they let go. *)
  Definition lock_w (x : pc V) : nat :=
    match x with
    | PHit _ _ _ _ => 3 | PInc _ _ _ _ _ => 2 | PUndo _ _ _ _ => 1
    | PVac _ _ _ => 2 | PIns _ _ _ => 1 | POcc _ _ _ => 1 | PRem _ _ _ _ => 1
    | _ => 0
    end.

  Lemma phase_locks n : forall st, msum lock_w (st_threads st) <= n -> good st ->
    exists st', sched st st' /\ good st' /\ unlocked st'.
  Proof.
    induction n as [n IH] using lt_wf_ind. intros st Hn HG. pose proof HG as (HI&_).
    destruct (decide (st_locks st = ∅)) as [He|He].
    { exists st. split_and!; [constructor|done|]. intros l. by rewrite He, lookup_empty. }
    apply map_choose in He as (l&t&Hl). apply (inv_lock _ _ HI) in Hl.
    destruct (holder_steps st t l HI Hl) as [st1 Hs].
    assert (lock_w (get_pc st1 t) < lock_w (get_pc st t)) as Hlt.
    { clear IH Hn HG HI. simpl in Hs. unfold step_thread in Hs.
      destruct (get_pc st t) as [|k v b|k v b q|k v b q old|k v b q|k v b|k v q|k v q|k v q|k v q|l' q w r|w r|ty j acc|ty j] eqn:Hpc;
      simpl in Hl; try done;
      repeat (match goal with
        | H : Next _ = Next _ |- _ => injection H as <-
        | H : (match ?x with _ => _ end) = Next _ |- _ => destruct x eqn:?; try done
      end); rewrite (get_set _ t); simpl; lia. }
    pose proof (msum_insert_default lock_w (st_threads st) t (get_pc st1 t) PFree eq_refl) as Hm.
    rewrite <- (step_threads _ _ _ _ _ Hs) in Hm. change (default PFree (st_threads st !! t)) with (get_pc st t) in Hm.
    destruct (IH (msum lock_w (st_threads st1))) with (st := st1) as (st'&Hsc&?&?); [lia|done|by eapply good_step|].
    exists st'. split_and!; [by econstructor|done|done].
  Qed.

  Lemma tsum_drop (f : pc V -> nat) st st' t :
    f PFree = 0 -> (forall t', t' <> t -> get_pc st' t' = get_pc st t') ->
    msum f (st_threads st') + f (get_pc st t) = msum f (st_threads st) + f (get_pc st' t).
  Proof.
    intros H0 Ho.
    assert (forall s1 s2 : state V, (forall t', get_pc s1 t' = get_pc s2 t') ->
              msum f (st_threads s1) = msum f (st_threads s2)) as Hext.
    { clear Ho. intros [? ? ? ? ? m1 ? ? ?] [? ? ? ? ? m2 ? ? ?]. unfold get_pc. simpl.
      clear -H0. revert m2. induction m1 as [|k x m1 Hk IH] using map_ind; intros m2 H.
      - rewrite msum_empty. symmetry. apply msum_zero. intros k x Hk. specialize (H k).
        rewrite lookup_empty, Hk in H. simpl in H. by subst.
      - pose proof (H k) as Hx. rewrite lookup_insert in Hx. simpl in Hx.
        pose proof (msum_insert_default f m2 k PFree PFree H0) as Hm.
        rewrite msum_insert_None by done. rewrite <- Hx in Hm.
        rewrite (IH (<[k:=PFree]> m2)); [lia|].
        intros t'. specialize (H t'). destruct (decide (t' = k)) as [->|].
        + by rewrite lookup_insert, Hk.
        + by rewrite lookup_insert_ne in H |- *. }
    rewrite (Hext st' (set_pc st t (get_pc st' t))).
    - rewrite (Nat.add_comm (msum f (st_threads st))). apply (tsum_set f st t (get_pc st' t) H0).
    - intros t'. rewrite get_pc_set. destruct (decide (t' = t)) as [->|]; auto.
  Qed.

  (** Phase 2: run the threads that only have destructors left. *)
  Definition is_work (x : pc V) : nat := match x with PWork _ _ => 1 | _ => 0 end.

  Lemma phase_work n : forall st, msum is_work (st_threads st) <= n -> good st -> unlocked st ->
    exists st', sched st st' /\ good st' /\ unlocked st' /\ forall t, is_work (get_pc st' t) = 0.
  Proof.
    induction n as [n IH] using lt_wf_ind. intros st Hn HG Hun.
    destruct (decide (msum is_work (st_threads st) = 0)) as [H0|H0].
    { exists st. split_and!; [constructor|done|done|]. intros t.
      pose proof (tsum_ge is_work st t eq_refl). lia. }
    destruct (tsum_pos is_work st) as [t Ht]; [lia|].
    destruct (get_pc st t) as [| | | | | | | | | | |w r| |] eqn:Hpc; simpl in Ht; try lia.
    destruct (work_ends _ st t w r (le_n _) HG Hun Hpc) as (st1&Hsc&HG1&Hun1&Hp1&Ho1).
    pose proof (tsum_drop is_work st st1 t eq_refl Ho1) as Hd. rewrite Hpc, Hp1 in Hd. simpl in Hd.
    destruct (IH (msum is_work (st_threads st1))) with (st := st1) as (st'&Hsc'&?&?&?); [lia|done..|].
    exists st'. split_and!; [by eapply sched_trans|done..].
  Qed.

  (** Phase 3: run the others one after the other. *)
  Lemma phase_calls n : forall st, calls st <= n -> good st -> unlocked st ->
    (forall t, is_work (get_pc st t) = 0) ->
    exists st', sched st st' /\ good st' /\ quiescent st'.
  Proof.
    induction n as [n IH] using lt_wf_ind. intros st Hn HG Hun Hw. pose proof HG as (HI&_).
    destruct (decide (calls st = 0)) as [H0|H0].
    { exists st. split_and!; [constructor|done|]. intros t.
      pose proof (tsum_ge in_call st t eq_refl) as H. unfold calls in H0.
      destruct (get_pc st t); simpl in H; done || lia. }
    destruct (tsum_pos in_call st) as [t Ht]; [unfold calls in H0; lia|].
    assert (calm st t) as Hcalm.
    { intros t' p _. specialize (Hw t').
      destruct (get_pc st t') as [| | | | | | | | | |l' q w r| | |] eqn:Hpc; try done.
      pose proof (Hun l') as Hl. 
      assert (st_locks st !! l' = Some t') as Hl' by (apply (inv_lock _ _ HI); by rewrite Hpc).
      congruence. }
    assert (ends t st) as (st1&Hsc&HG1&Hun1&Hp1&Ho1).
    { assert (pc_lock E (get_pc st t) = None) as Hnl.
      { destruct (pc_lock E (get_pc st t)) as [l|] eqn:Hl; [|done].
        apply (inv_lock _ _ HI) in Hl. by rewrite Hun in Hl. }
      pose proof (Hw t) as Hwt.
      destruct (get_pc st t) as [|k v b|k v b q|k v b q old|k v b q|k v b|k v q|k v q|k v q|k v q|l' q w r|w r|ty j acc|ty j] eqn:Hpc;
        simpl in *; try done; try lia.
      - by eapply lookup_ends.
      - by eapply alloc_ends.
      - by eapply entry_ends.
      - by eapply len_ends.
      - by eapply shrink_ends. }
    pose proof (tsum_drop in_call st st1 t eq_refl Ho1) as Hd. rewrite Hp1 in Hd.
    unfold calls in *. simpl in Hd.
    destruct (IH (msum in_call (st_threads st1))) with (st := st1) as (st'&Hsc'&?&?);
      [lia|done|done|done| |].
    - intros t'. destruct (decide (t' = t)) as [->|]; [by rewrite Hp1|by rewrite Ho1].
    - exists st'. split_and!; [by eapply sched_trans|done..].
  Qed.

  (** What becomes of the result of an intern call. *)
  Lemma step_interning st t0 a i st' t v :
    Inv E st -> step E st (LStep t0 a i) = Next st' -> interning st t v ->
    interning st' t v \/ exists p, st_log st' = EvNew t v p :: st_log st.
  Proof.
    intros HI Hs Hin.
    destruct (decide (t = t0)) as [->|Hne].
    2: { left. unfold interning in *. by rewrite (step_other _ _ _ _ _ _ Hs Hne). }
    pose proof (inv_pc _ _ HI t0) as Hok.
    simpl in Hs. unfold step_thread in Hs. unfold interning in Hin |- *.
    destruct (get_pc st t0) as [|k u b|k u b q|k u b q old|k u b q|k u b|k u q|k u q|k u q|k u q|l' q w r|w r|ty j acc|ty j] eqn:Hpc;
      try done; simpl in Hok.
    all: try (destruct Hok as [Hb _]; unfold box_ok in Hb; rewrite Hb in Hs; simpl in Hs).
    all: try (repeat (match goal with
      | H : Next _ = Next _ |- _ => injection H as <-
      | H : (match ?x with _ => _ end) = Next _ |- _ => destruct x eqn:?; try done
      end); left; rewrite (get_set _ t0); done).
    destruct r as [[u p]|]; [|done]. subst u.
    destruct w as [|[x|x|x] w].
    { injection Hs as <-. right. eauto. }
    all: repeat (match goal with
      | H : Next _ = Next _ |- _ => injection H as <-
      | H : (match ?x with _ => _ end) = Next _ |- _ => destruct x eqn:?; try done
      end); left; rewrite (get_set _ t0); done.
  Qed.

  Lemma sched_interning st st' t v :
    good st -> sched st st' -> interning st t v ->
    interning st' t v \/ exists p l1 l2, st_log st' = l1 ++ EvNew t v p :: l2 ++ st_log st.
  Proof.
    intros HG Hsc. induction Hsc as [st|st t0 a st1 st2 Hs Hsc IH]; intros Hin; [by left|].
    assert (good st1) as HG1 by (by eapply good_step).
    assert (forall s1 s2, sched s1 s2 -> exists l, st_log s2 = l ++ st_log s1) as Hlog.
    { clear. induction 1 as [st|st t a st1 st2 Hs _ [l Hl]]; [by exists []|].
      destruct (step_mono E _ _ _ Hs) as (_&[Hx|[e Hx]]&_); rewrite Hx in Hl.
      - by exists l.
      - exists (l ++ [e]). rewrite <- app_assoc. done. }
    destruct (step_interning st t0 a 0 st1 t v (proj1 HG) Hs Hin) as [Hi|[p Hp]].
    - destruct (IH HG1 Hi) as [?|(p&l1&l2&Hl)]; [by left|right].
      destruct (step_mono E _ _ _ Hs) as (_&[Hx|[e Hx]]&_); rewrite Hx in Hl.
      + eauto.
      + exists p, l1, (l2 ++ [e]). rewrite <- app_assoc. done.
    - right. destruct (Hlog _ _ Hsc) as [l Hl]. exists p, l, []. rewrite Hl, Hp. done.
  Qed.

  Theorem completion st :
    Inv E st -> roomy st -> st_zombies st = [] ->
    exists ls st', Forall (λ l, exists t a, l = LStep t a 0) ls /\
      run (step E) st ls = Some st' /\ quiescent st' /\ Inv E st' /\ st_zombies st' = [] /\
      forall t v, interning st t v ->
        exists p l1 l2, st_log st' = l1 ++ EvNew t v p :: l2 ++ st_log st.
  Proof.
    intros HI Hr Hz. assert (good st) as HG by done.
    destruct (phase_locks _ st (le_n _) HG) as (st1&Hs1&HG1&Hun1).
    destruct (phase_work _ st1 (le_n _) HG1 Hun1) as (st2&Hs2&HG2&Hun2&Hw2).
    destruct (phase_calls _ st2 (le_n _) HG2 Hun2 Hw2) as (st3&Hs3&HG3&Hq).
    assert (sched st st3) as Hsc by eauto using sched_trans.
    destruct (sched_run _ _ Hsc) as (ls&Hf&Hrun). exists ls, st3. split_and!; try done; [apply HG3..|].
    intros t v Hin. destruct (sched_interning _ _ _ _ HG Hsc Hin) as [Hi|?]; [|done].
    unfold interning in Hi. by rewrite Hq in Hi.
  Qed.
End live.

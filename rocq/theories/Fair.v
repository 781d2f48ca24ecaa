(** C74: without new calls, ArcIntern calls return under a strongly fair scheduler. *)
From stdpp Require Import gmap list numbers.
From Verif Require Import Base ArcModel ArcSpec ArcInv ArcStep ArcSafe ArcReach ArcLive ArcFinal FairSpec.
Require Import ZifyBool ZifyNat ZifyN.

Section fair.
  Context {V : Type} (E : tyenv V).
  Implicit Types (st : state V) (v d : V) (p q : ptr) (ls : list (label V)) (t n m : nat).
  Notation hc := (handles_to E).
  Context (HC : coherent E) (HW : wide E).

  (** ** The measure *)
  Definition kw (k : kind) v : nat := match k with KSized => 4 * length (te_kids E v) | KDst => 0 end.
  Definition bw (b : option ptr) : nat := match b with Some _ => 1 | None => 0 end.
  Definition base (y : pc V) : nat :=
    match y with
    | PFree => 0
    | PLookup k v b | PHit k v b _ | PUndo k v b _ => kw k v + bw b + 10
    | PInc k v b _ old => kw k v + bw b + (if (old =? 0)%N then 10 else 2)
    | PAlloc k v b => kw k v + bw b + 9
    | PEntry _ _ _ => 8
    | POcc _ _ _ => 7
    | PVac _ _ _ => 4
    | PIns _ _ _ => 3
    | PRem _ _ w _ => 3 + work_w w
    | PWork w _ => 1 + work_w w
    | PLen _ i _ | PShrink _ i => te_shards E - i + 1
    end.
  (** The thread is past its search and an equal entry is in the table. *)
  Definition flag st (y : pc V) : nat :=
    match y with
    | PAlloc _ v _ | PEntry _ v _ => match matches E st v with [] => 0 | _ => 1 end
    | POcc _ _ _ => 1
    | _ => 0
    end.
  Definition heap_w st : nat := msum (cell_w E) (st_heap st).
  Definition phi st : nat :=
    5 * (pot st * pot st) + 5 * msum (flag st) (st_threads st) + msum base (st_threads st) + heap_w st.

  Definition busy (y : pc V) : nat :=
    match y with
    | PFree | PLookup _ _ _ | PHit _ _ _ _ | PUndo _ _ _ _ => 0
    | PInc _ _ _ _ old => if (old =? 0)%N then 0 else 1
    | _ => 1
    end.

  Lemma good_step_i st t a i st' : good E st -> step E st (LStep t a i) = Next st' -> good E st'.
  Proof.
    intros (HI&Hr&Hz) Hs. split_and!.
    - eapply step_inv; [done..|by apply roomy_fits|done].
    - by eapply roomy_step.
    - by rewrite (step_zombies E _ _ _ _ _ Hs).
  Qed.

  Lemma tsum_step (f : pc V -> nat) st t a i st' :
    f PFree = 0 -> step E st (LStep t a i) = Next st' ->
    msum f (st_threads st') + f (get_pc st t) = msum f (st_threads st) + f (get_pc st' t).
  Proof.
    intros H0 Hs. rewrite (step_threads E _ _ _ _ _ Hs).
    pose proof (msum_insert_default f (st_threads st) t (get_pc st' t) PFree H0).
    unfold get_pc in *. lia.
  Qed.

  Lemma flag_pot st y : flag st y <= pc_pot y.
  Proof. destruct y; simpl; try lia; destruct (matches E st v); lia. Qed.

  Lemma step_table st t a i st' :
    step E st (LStep t a i) = Next st' ->
    (exists k v q, get_pc st t = PVac k v q) \/ forall q, q ∈ st_table st' -> q ∈ st_table st.
  Proof.
    intros Hs. simpl in Hs. unfold step_thread in Hs.
    destruct (get_pc st t) as [|k v b|k v b q|k v b q old|k v b q|k v b|k v q|k v q|k v q|k v q|l' q w r|w r|ty j acc|ty j] eqn:Hpc;
    repeat (match goal with
      | H : Next _ = Next _ |- _ => injection H as <-
      | H : (match ?x with _ => _ end) = Next _ |- _ => destruct x eqn:?; try done
      end); try (right; done); try (left; by eauto).
    right. intros z. cbn. unfold remove_entry. rewrite elem_of_list_filter. by intros [_ ?].
  Qed.

  Lemma flag_mono st t a i st' y :
    Inv E st -> step E st (LStep t a i) = Next st' ->
    (forall k v q, get_pc st t <> PVac k v q) -> flag st' y <= flag st y.
  Proof.
    intros HI Hs Hv.
    assert (forall v, matches E st v = [] -> matches E st' v = []) as Hm.
    { intros v Hn. destruct (matches E st' v) as [|q l] eqn:Hl; [done|exfalso].
      assert (q ∈ matches E st' v) as Hq by (rewrite Hl; left).
      apply (elem_matches E HC) in Hq as (Hq&d&Hd&He).
      destruct (step_table _ _ _ _ _ Hs) as [(k&u&z&Hpc)|Ht]; [by eapply Hv|].
      assert (q ∈ matches E st v) as Hin.
      { apply (elem_matches E HC). split; [by apply Ht|]. exists d. split; [|done].
        eapply step_data_stable; [done| |done].
        destruct (table_deref _ _ HI q (Ht _ Hq)) as (c&d'&[Hc <-]%deref_Some&_). by eapply inv_ser. }
      rewrite Hn in Hin. by apply elem_of_nil in Hin. }
    destruct y; simpl; try lia.
    all: destruct (matches E st v) as [|] eqn:H1; [rewrite (Hm _ H1); lia|destruct (matches E st' v); lia].
  Qed.

  Lemma work_drop_args k v b st : arg_ok E st k v b -> work_w (drop_args E k v b) <= kw k v + bw b.
  Proof.
    destruct k; simpl.
    - intros ->. rewrite work_w_drops. simpl. lia.
    - intros _. destruct b; simpl; lia.
  Qed.

  Lemma local_step st t a i st' :
    good E st -> step E st (LStep t a i) = Next st' -> (forall k v q, get_pc st t <> PVac k v q) ->
    pc_pot (get_pc st' t) <= pc_pot (get_pc st t) /\
    5 * flag st' (get_pc st' t) + base (get_pc st' t) + heap_w st' + busy (get_pc st t)
    <= 5 * flag st' (get_pc st t) + base (get_pc st t) + heap_w st.
  Proof.
    intros (HI&_) Hs Hv. pose proof (inv_pc _ _ HI t) as Hok.
    simpl in Hs. unfold step_thread in Hs.
    destruct (get_pc st t) as [|k v b|k v b q|k v b q old|k v b q|k v b|k v q|k v q|k v q|k v q|l' q w r|w r|ty j acc|ty j] eqn:Hpc;
      simpl in Hok; [done|..].
    - (* PLookup *)
      destruct (st_locks st !! _); [done|]. destruct (readable st); [|done].
      destruct (pick i (matches E st v)) as [p|] eqn:Hp; injection Hs as <-; rewrite (get_set _ t).
      + cbn. change (heap_w _) with (heap_w st). lia.
      + assert (matches E st v = []) as Hn by (by eapply pick_None).
        cbn [pc_pot base busy flag].
        change (matches E (set_pc st t (PAlloc k v b)) v) with (matches E st v). rewrite Hn.
        change (heap_w (set_pc st t (PAlloc k v b))) with (heap_w st). lia.
    - (* PHit *)
      destruct (deref st q) as [c|] eqn:Hc; [|done]. injection Hs as <-. rewrite (get_set _ t).
      apply deref_Some in Hc as [Hc _].
      cbn [pc_pot base busy flag]. unfold heap_w. cbn. rewrite (cellw_update E _ _ c) by done.
      destruct (c_count c =? 0)%N; lia.
    - (* PInc *)
      destruct Hok as (Ha&_). destruct (old =? 0)%N eqn:Ho.
      + destruct (deref st q) as [c|] eqn:Hc; [|done]. injection Hs as <-. rewrite (get_set _ t).
        apply deref_Some in Hc as [Hc _].
        cbn [pc_pot base busy flag]. rewrite Ho. unfold heap_w. cbn. rewrite (cellw_update E _ _ c) by done. lia.
      + injection Hs as <-. rewrite (get_set _ t). cbn [pc_pot base busy flag]. rewrite Ho.
        pose proof (work_drop_args k v b st Ha). change (heap_w _) with (heap_w st) at 1. lia.
    - (* PUndo *)
      injection Hs as <-. rewrite (get_set _ t). cbn [pc_pot base busy flag].
      change (heap_w _) with (heap_w st) at 1. lia.
    - (* PAlloc *)
      assert (forall st1, get_pc st1 t = PEntry k v (Ptr a (st_next st)) ->
        st_heap st1 = <[a := Cell (st_next st) 1%N (Some v)]> (st_heap st) -> st_heap st !! a = None ->
        length (te_kids E v) * 4 = kw k v ->
        pc_pot (get_pc st1 t) <= 1 /\
        5 * flag st1 (get_pc st1 t) + base (get_pc st1 t) + heap_w st1 + 1
        <= 5 * flag st1 (PAlloc k v b) + (kw k v + bw b + 9) + heap_w st) as Hnew.
      { intros st1 Hp Hh Ha Hk. rewrite Hp. cbn [pc_pot base flag]. unfold heap_w. rewrite Hh.
        rewrite msum_insert_None by done. unfold cell_w at 1. cbn [c_data]. lia. }
      destruct k.
      + destruct (st_heap st !! a) eqn:Ha; [done|]. injection Hs as <-.
        apply Hnew; [apply (get_set _ t)|done|done|simpl; lia].
      + destruct b as [q|].
        * injection Hs as <-. rewrite (get_set _ t). cbn [pc_pot base busy flag kw bw].
          change (heap_w _) with (heap_w st) at 1. lia.
        * destruct (st_heap st !! a) eqn:Ha; [done|]. injection Hs as <-.
          destruct Hok as [Hk _].
          apply Hnew; [apply (get_set _ t)|done|done|by rewrite Hk].
    - (* PEntry *)
      destruct Hok as [Hb _]. unfold box_ok in Hb.
      rewrite (proj2 (data_Some st q v)) in Hs by eauto.
      destruct (st_locks st !! _); [done|]. destruct (readable st); [|done].
      destruct (pick i (matches E st v)) as [p|] eqn:Hp; injection Hs as <-; rewrite (get_set _ t);
        cbn [pc_pot base busy flag].
      + match goal with |- context [matches E ?s v] => change (matches E s v) with (matches E st v) end.
        destruct (matches E st v) eqn:Hm; [by destruct i|].
        change (heap_w _) with (heap_w st) at 1. lia.
      + change (heap_w _) with (heap_w st) at 1. lia.
    - by destruct (Hv k v q).
    - (* POcc *)
      destruct Hok as [Hb Hk]. unfold box_ok in Hb. destruct k.
      + rewrite Hb in Hs. cbn [c_data] in Hs. injection Hs as <-. rewrite (get_set _ t).
        apply deref_Some in Hb as [Hb _].
        cbn [pc_pot base busy flag kw bw]. unfold heap_w. cbn.
        rewrite (msum_delete (cell_w E) (st_heap st) _ _ Hb). unfold cell_w at 2. cbn [c_data]. lia.
      + injection Hs as <-. rewrite (get_set _ t). cbn [pc_pot base busy flag kw bw].
        change (heap_w _) with (heap_w st) at 1. lia.
    - (* PIns *)
      injection Hs as <-. rewrite (get_set _ t). cbn [pc_pot base busy flag work_w].
      change (heap_w _) with (heap_w st) at 1. lia.
    - (* PRem *)
      destruct (deref st q) as [c|] eqn:Hc; [|done]. destruct (c_data c) as [d|] eqn:Hd; [|done].
      injection Hs as <-. rewrite (get_set _ t). apply deref_Some in Hc as [Hc _].
      cbn [pc_pot base busy flag]. unfold heap_w. cbn. unfold drop_box.
      rewrite !work_w_app, work_w_drops. cbn [work_w item_w].
      pose proof (msum_insert_Some (cell_w E) (st_heap st) _ (Cell (c_ser c) (c_count c) None) c Hc) as Hm.
      assert (cell_w E c = 4 * length (te_kids E d)) as Hcw by (unfold cell_w; by rewrite Hd).
      rewrite Hcw in Hm. change (cell_w E (Cell (c_ser c) (c_count c) None)) with 0 in Hm. lia.
    - (* PWork *)
      destruct w as [|[p|p|q] w].
      + destruct r as [[v p]|]; injection Hs as <-.
        * change (get_pc _ t) with (get_pc (set_pc st t PFree) t). rewrite (get_set _ t).
          cbn [pc_pot base busy flag work_w]. change (heap_w _) with (heap_w st) at 1. lia.
        * rewrite (get_set _ t).
          cbn [pc_pot base busy flag work_w]. change (heap_w _) with (heap_w st) at 1. lia.
      + destruct (deref st p) as [c|] eqn:Hc; [|done]. injection Hs as <-. rewrite (get_set _ t).
        apply deref_Some in Hc as [Hc _].
        cbn [pc_pot base busy flag work_w item_w]. unfold heap_w. cbn. rewrite (cellw_update E _ _ c) by done.
        destruct (c_count c =? 1)%N; cbn [work_w item_w]; lia.
      + destruct (data st p) as [d|]; [|done].
        destruct (st_locks st !! _); [done|]. destruct (readable st); [|done].
        destruct (pick i (matches E st d)); injection Hs as <-; rewrite (get_set _ t);
          cbn [pc_pot base busy flag work_w item_w]; change (heap_w _) with (heap_w st) at 1; lia.
      + destruct (deref st q) as [c|] eqn:Hc; [|done]. injection Hs as <-. rewrite (get_set _ t).
        apply deref_Some in Hc as [Hc _].
        cbn [pc_pot base busy flag work_w item_w]. unfold heap_w. cbn.
        rewrite (msum_delete (cell_w E) (st_heap st) _ c Hc). lia.
    - (* PLen *)
      destruct (j <? te_shards E) eqn:Hj.
      + destruct (st_locks st !! _); [done|]. injection Hs as <-. rewrite (get_set _ t).
        cbn [pc_pot base busy flag]. change (heap_w _) with (heap_w st) at 1. lia.
      + injection Hs as <-. change (get_pc _ t) with (get_pc (set_pc st t PFree) t). rewrite (get_set _ t).
        cbn [pc_pot base busy flag]. change (heap_w _) with (heap_w st) at 1. lia.
    - (* PShrink *)
      destruct (j <? te_shards E) eqn:Hj.
      + destruct (st_locks st !! _); [done|]. injection Hs as <-. rewrite (get_set _ t).
        cbn [pc_pot base busy flag]. change (heap_w _) with (heap_w st) at 1. lia.
      + injection Hs as <-. rewrite (get_set _ t).
        cbn [pc_pot base busy flag]. change (heap_w _) with (heap_w st) at 1. lia.
  Qed.

  (** Every step but a search lowers the measure, and no step raises it. *)
  Lemma phi_step st t a i st' :
    good E st -> step E st (LStep t a i) = Next st' -> phi st' + busy (get_pc st t) <= phi st.
  Proof.
    intros HG Hs. pose proof HG as (HI&_).
    pose proof (tsum_step pc_pot _ _ _ _ _ eq_refl Hs) as Hpot. fold (pot st') (pot st) in Hpot.
    pose proof (tsum_step base _ _ _ _ _ eq_refl Hs) as Hbase.
    pose proof (tsum_step (flag st') _ _ _ _ _ eq_refl Hs) as Hflag.
    assert (msum (flag st') (st_threads st') <= pot st') as Hfp by (apply msum_le, flag_pot).
    unfold phi.
    assert ((exists k v q, get_pc st t = PVac k v q) \/ forall k v q, get_pc st t <> PVac k v q)
      as [(k&v&q&Hpc)|Hv] by (destruct (get_pc st t); eauto).
    - assert (get_pc st' t = PIns k v q /\ heap_w st' = heap_w st) as [Hpc' Hh].
      { simpl in Hs. unfold step_thread in Hs. rewrite Hpc in Hs. injection Hs as <-.
        by rewrite (get_set _ t). }
      rewrite Hpc, Hpc' in *. cbn [pc_pot base busy] in *. rewrite Hh.
      assert (pot st = S (pot st')) as -> by lia.
      assert (msum base (st_threads st') < msum base (st_threads st)) by lia.
      set (P := pot st') in *. set (F := msum (flag st') (st_threads st')) in *. nia.
    - destruct (local_step _ _ _ _ _ HG Hs Hv) as [Hp Hl].
      assert (msum (flag st') (st_threads st) <= msum (flag st) (st_threads st)) as Hm.
      { apply msum_le. intros y. by eapply flag_mono. }
      assert (pot st' * pot st' <= pot st * pot st) as Hq by (apply Nat.mul_le_mono; lia).
      lia.
  Qed.

  (** Without fairness: the number of steps other than searches is bounded. *)
  Lemma busy_searches st t : get_pc st t <> PFree -> busy (get_pc st t) = if searches st t then 0 else 1.
  Proof. unfold searches. by destruct (get_pc st t). Qed.

  Lemma bounded_work ls : forall st, good E st -> Forall (λ l, exists t a i, l = LStep t a i) ls ->
    other_steps E st ls <= phi st.
  Proof.
    induction ls as [|l ls IH]; intros st HG Hf; cbn [other_steps]; [lia|].
    apply Forall_cons_1 in Hf as [(t&a&i&->) Hf].
    destruct (step E st (LStep t a i)) as [st'| | |] eqn:Hs; try by apply IH.
    pose proof (phi_step _ _ _ _ _ HG Hs) as Hp.
    rewrite busy_searches in Hp.
    2: { intros Hx. simpl in Hs. unfold step_thread in Hs. by rewrite Hx in Hs. }
    pose proof (IH st' (good_step_i _ _ _ _ _ HG Hs) Hf). lia.
  Qed.

  (** ** What a thread waits for *)
  Definition wants st t : option (nat * nat) :=
    match get_pc st t with
    | PLookup _ v _ | PEntry _ v _ => Some (lock_of E v)
    | PWork (IRemove p :: _) _ => match data st p with Some d => Some (lock_of E d) | None => None end
    | PLen ty j _ | PShrink ty j => if j <? te_shards E then Some (ty, j) else None
    | _ => None
    end.

  Lemma free_steps st t :
    Inv E st -> get_pc st t <> PFree -> (forall l, wants st t = Some l -> st_locks st !! l = None) ->
    can_step E st t.
  Proof.
    intros HI Hne Hlk. pose proof (inv_pc _ _ HI t) as Hok. unfold wants in Hlk.
    destruct (free_addr st) as [a Ha]. exists a, 0. simpl. unfold step_thread.
    destruct (get_pc st t) as [|k v b|k v b p|k v b p old|k v b p|k v b|k v q|k v q|k v q|k v q|l' q w r|w r|ty j acc|ty j] eqn:Hpc;
      simpl in Hok; try done; eauto.
    - rewrite (Hlk _ eq_refl), (inv_readable _ _ HI). destruct pick; eauto.
    - destruct Hok as [_ [Hp _]]. destruct (table_deref _ _ HI p Hp) as (c&d&->&_). eauto.
    - destruct Hok as (_&[Hp _]&_). destruct (table_deref _ _ HI p Hp) as (c&d&->&_).
      destruct (old =? 0)%N; eauto.
    - rewrite Ha. destruct k, b; eauto.
    - destruct Hok as [Hb _]. unfold box_ok in Hb.
      rewrite (proj2 (data_Some st q v)) by eauto.
      rewrite (Hlk _ eq_refl), (inv_readable _ _ HI). destruct pick; eauto.
    - destruct Hok as [Hb _]. unfold box_ok in Hb. rewrite Hb. destruct k; eauto.
    - destruct Hok as (Hp&_). destruct (table_deref _ _ HI q Hp) as (c&d&->&->&_). eauto.
    - destruct w as [|[p|p|q] w].
      + destruct r as [[v p]|]; eauto.
      + destruct (pc_hand E st t p HI) as (c&d&->&_); [|eauto].
        rewrite Hpc. simpl. rewrite is_p_self. lia.
      + destruct (rem_hand E st t p HI) as (_&_&c&d&_&_&Hd).
        { rewrite Hpc. simpl. rewrite is_p_self. lia. }
        rewrite Hd in Hlk |- *. rewrite (Hlk _ eq_refl), (inv_readable _ _ HI). destruct pick; eauto.
      + destruct Hok as [Hf _]. destruct (Hf q) as (c&->&_); [by left|eauto].
    - destruct (j <? te_shards E); [|eauto]. rewrite (Hlk _ eq_refl). eauto.
    - destruct (j <? te_shards E); [|eauto]. rewrite (Hlk _ eq_refl). eauto.
  Qed.

  (** A lock holder either keeps its lock and gets nearer to letting go, or lets go. *)
  Lemma holder_next st t a i st' l :
    pc_lock E (get_pc st t) = Some l -> step E st (LStep t a i) = Next st' ->
    (pc_lock E (get_pc st' t) = Some l /\ lock_w (get_pc st' t) < lock_w (get_pc st t)) \/
    st_locks st' !! l = None.
  Proof.
    intros Hl Hs. simpl in Hs. unfold step_thread in Hs.
    destruct (get_pc st t) as [|k v b|k v b q|k v b q old|k v b q|k v b|k v q|k v q|k v q|k v q|l' q w r|w r|ty j acc|ty j] eqn:Hpc;
    simpl in Hl; try done; injection Hl as <-;
    repeat (match goal with
      | H : Next _ = Next _ |- _ => injection H as <-
      | H : (match ?x with _ => _ end) = Next _ |- _ => destruct x eqn:?; try done
      end); rewrite (get_set _ t); simpl; rewrite ?lookup_delete; auto with lia.
  Qed.

  (** A state in which every running call is searching. *)
  Definition spin (y : pc V) : nat :=
    match y with PUndo _ _ _ _ => 3 | PLookup _ _ _ => 2 | PHit _ _ _ _ => 1 | _ => 0 end.

  Lemma all_search_step st t a i st' :
    good E st -> (forall t', busy (get_pc st t') = 0) -> step E st (LStep t a i) = Next st' ->
    spin (get_pc st' t) < spin (get_pc st t) \/ busy (get_pc st' t) = 1.
  Proof.
    intros HG Hb Hs. pose proof HG as (HI&Hroom&Hz). pose proof (inv_pc _ _ HI t) as Hok.
    assert (forall p, p ∈ st_table st -> 0 < hc st p) as Hlive.
    { intros p Hp. apply (no_removal_live E st p HI Hz); [|done]. intros t'. specialize (Hb t').
      by destruct (get_pc st t'). }
    pose proof (Hb t) as Hbt. simpl in Hs. unfold step_thread in Hs.
    destruct (get_pc st t) as [|k v b|k v b q|k v b q old|k v b q|k v b|k v q|k v q|k v q|k v q|l' q w r|w r|ty j acc|ty j] eqn:Hpc;
      simpl in Hok, Hbt; try done.
    - destruct (st_locks st !! _); [done|]. destruct (readable st); [|done].
      destruct (pick i (matches E st v)) as [p|]; injection Hs as <-; rewrite (get_set _ t); simpl; auto with lia.
    - destruct (deref st q) as [c|] eqn:Hc; [|done]. injection Hs as <-. rewrite (get_set _ t). right. simpl.
      destruct Hok as [_ [Hq _]].
      destruct (cnt_live E st q c HI (roomy_fits E _ Hroom) (Hlive _ Hq) Hc) as [_ Hcnt].
      specialize (Hlive _ Hq). destruct (N.eqb_spec (c_count c) 0); [lia|done].
    - destruct (N.eqb_spec old 0) as [->|]; [|done]. destruct Hok as (_&[Hq _]&H0).
      specialize (H0 eq_refl). specialize (Hlive _ Hq). lia.
    - injection Hs as <-. rewrite (get_set _ t). simpl. auto with lia.
  Qed.

  (** ** Infinite executions *)
  Section exec.
    Context (st0 : state V) (s : nat -> label V) (x : nat -> state V).
    Context (HG0 : good E st0) (Hex : execution E st0 s x) (Hon : only_steps s).

    Lemma moves n : (exists t, acts E s x t n) \/ x (S n) = x n.
    Proof.
      destruct Hex as [_ H]. specialize (H n). destruct (Hon n) as (t&a&i&Hl). unfold exec in H.
      destruct (step E (x n) (s n)) eqn:Hs; try done.
      - injection H as H. left. exists t, a, i. by rewrite <- H.
      - right. by injection H.
      - right. by injection H.
    Qed.
    Lemma good_at n : good E (x n).
    Proof.
      induction n as [|n IH]; [by rewrite (proj1 Hex)|].
      destruct (moves n) as [(t&a&i&Hl&Hs)|Hx]; [|by rewrite Hx].
      rewrite Hl in Hs. by eapply good_step_i.
    Qed.
    Lemma inv_at n : Inv E (x n).
    Proof. apply good_at. Qed.

    Lemma phi_acts t n : acts E s x t n -> phi (x (S n)) + busy (get_pc (x n) t) <= phi (x n).
    Proof. intros (a&i&Hl&Hs). rewrite Hl in Hs. eapply phi_step; [apply good_at|done]. Qed.
    Lemma phi_mono n m : n <= m -> phi (x m) <= phi (x n).
    Proof.
      induction 1 as [|m _ IH]; [lia|].
      destruct (moves m) as [[t Ht]|Hx]; [|by rewrite Hx].
      pose proof (phi_acts _ _ Ht). lia.
    Qed.

    Lemma acts_can t n : acts E s x t n -> can_step E (x n) t.
    Proof. intros (a&i&Hl&Hs). rewrite Hl in Hs. by exists a, i, (x (S n)). Qed.

    Lemma stay_or_act t n m : n <= m ->
      (exists m0, n <= m0 < m /\ acts E s x t m0 /\ get_pc (x m0) t = get_pc (x n) t) \/
      get_pc (x m) t = get_pc (x n) t.
    Proof.
      induction 1 as [|m Hm [(m0&?&?&?)|IH]]; [by right|left; exists m0; split_and!; lia || done|].
      destruct (moves m) as [[t' Ht]|Hx]; [|right; by rewrite Hx].
      destruct (decide (t' = t)) as [->|Hne].
      - left. exists m. split_and!; lia || done.
      - right. destruct Ht as (a&i&Hl&Hs). rewrite Hl in Hs.
        by rewrite (step_other E _ _ _ _ _ t Hs).
    Qed.

    (** The first thing that happens after [n]. *)
    Lemma first_any t n m : n <= m -> acts E s x t m ->
      exists m0 t0, n <= m0 /\ acts E s x t0 m0 /\ x m0 = x n.
    Proof.
      intros Hm Ha.
      assert ((exists m0 t0, n <= m0 /\ acts E s x t0 m0 /\ x m0 = x n) \/ x m = x n) as [?|Hx]; [|done|by eauto].
      clear Ha. induction Hm as [|m Hm [?|IH]]; [by right|by left|].
      destruct (moves m) as [[t' Ht]|Hx]; [left; by eauto|right; by rewrite Hx].
    Qed.

    Lemma next_at n m : n <= m -> st_next (x n) <= st_next (x m).
    Proof.
      induction 1 as [|m _ IH]; [lia|]. destruct (moves m) as [(t&a&i&Hl&Hs)|Hx]; [|by rewrite Hx].
      destruct (step_mono E _ _ _ Hs) as (?&_). lia.
    Qed.
    Lemma data_back p d n m : n <= m -> p_ser p < st_next (x n) -> data (x m) p = Some d -> data (x n) p = Some d.
    Proof.
      intros Hm Hp. induction Hm as [|m Hm IH]; [done|].
      destruct (moves m) as [(t&a&i&Hl&Hs)|Hx]; [|by rewrite Hx].
      intros Hd. apply IH. eapply step_data_stable; [done| |done]. pose proof (next_at n m Hm). lia.
    Qed.

    Lemma wants_at t n m l : n <= m -> get_pc (x m) t = get_pc (x n) t ->
      wants (x n) t = Some l -> wants (x m) t = Some l.
    Proof.
      intros Hm Hpc. unfold wants. rewrite Hpc.
      destruct (get_pc (x n) t) as [| | | | | | | | | | |[|[p|p|q] w] r| |] eqn:Hp; try done.
      destruct (rem_hand E (x n) t p (inv_at n)) as (_&_&c&d&Hc&_&Hd).
      { rewrite Hp. simpl. rewrite is_p_self. lia. }
      destruct (rem_hand E (x m) t p (inv_at m)) as (_&_&c'&d'&_&_&Hd').
      { rewrite Hpc. simpl. rewrite is_p_self. lia. }
      assert (p_ser p < st_next (x n)) as Hser.
      { apply deref_Some in Hc as [Hc <-]. by eapply inv_ser; [apply inv_at|]. }
      pose proof (data_back p d' n m Hm Hser Hd') as Hd2. rewrite Hd in Hd2 |- *. injection Hd2 as <-. by rewrite Hd'.
    Qed.

    Context (Hfair : strongly_fair E s x).

    Lemma eventually t n :
      (forall m, n <= m -> get_pc (x m) t = get_pc (x n) t -> exists m', m <= m' /\ can_step E (x m') t) ->
      exists m0, n <= m0 /\ acts E s x t m0 /\ get_pc (x m0) t = get_pc (x n) t.
    Proof.
      intros H. destruct (Hfair t n) as (m&Hm&[Ha|Hn]).
      - destruct (stay_or_act t n m Hm) as [(m0&?&?&?)|Hpc]; [exists m0; split_and!; lia || done|].
        by exists m.
      - destruct (stay_or_act t n m Hm) as [(m0&?&?&?)|Hpc]; [exists m0; split_and!; lia || done|].
        destruct (H m Hm Hpc) as (m'&Hm'&Hc). exfalso. by eapply Hn.
    Qed.

    Lemma releases j : forall n t l, lock_w (get_pc (x n) t) <= j -> pc_lock E (get_pc (x n) t) = Some l ->
      exists m, n <= m /\ st_locks (x m) !! l = None.
    Proof.
      induction j as [j IH] using lt_wf_ind. intros n t l Hj Hl.
      destruct (eventually t n) as (m&Hm&(a&i&Hla&Hs)&Hpc).
      { intros m Hm Hpc. exists m. split; [done|].
        destruct (holder_steps E (x m) t l (inv_at m)) as [st' Hs]; [by rewrite Hpc|]. by exists 0, 0, st'. }
      rewrite Hla in Hs. rewrite <- Hpc in Hl, Hj.
      destruct (holder_next _ _ _ _ _ _ Hl Hs) as [[Hl' Hw]|Hfree].
      - destruct (IH (lock_w (get_pc (x (S m)) t))) with (n := S m) (t := t) (l := l) as (m'&Hm'&?); [lia|lia|done|].
        exists m'. split; [lia|done].
      - exists (S m). split; [lia|done].
    Qed.

    Lemma not_stuck t n : get_pc (x n) t <> PFree -> exists m, n <= m /\ can_step E (x m) t.
    Proof.
      intros Hne.
      destruct (wants (x n) t) as [l|] eqn:Hw.
      2: { exists n. split; [done|]. apply free_steps; [apply inv_at|done|]. by rewrite Hw. }
      assert (exists m, n <= m /\ st_locks (x m) !! l = None) as (m&Hm&Hl).
      { destruct (st_locks (x n) !! l) as [h|] eqn:Hl; [|by exists n].
        apply (inv_lock _ _ (inv_at n)) in Hl. by eapply releases. }
      destruct (stay_or_act t n m Hm) as [(m0&?&Ha&_)|Hpc].
      { exists m0. split; [lia|by apply acts_can]. }
      exists m. split; [done|]. apply free_steps; [apply inv_at|by rewrite Hpc|].
      intros l'. rewrite (wants_at t n m l Hm Hpc Hw). by intros [= <-].
    Qed.

    Lemma busy_falls t n : busy (get_pc (x n) t) = 1 -> exists m, n <= m /\ phi (x m) < phi (x n).
    Proof.
      intros Hb. destruct (eventually t n) as (m&Hm&Ha&Hpc).
      { intros m Hm Hpc. apply not_stuck. rewrite Hpc. by intros H; rewrite H in Hb. }
      exists (S m). split; [lia|]. pose proof (phi_acts _ _ Ha). rewrite Hpc in *. pose proof (phi_mono n m Hm). lia.
    Qed.

    Lemma busy_dec st : (exists t, busy (get_pc st t) = 1) \/ forall t, busy (get_pc st t) = 0.
    Proof.
      assert (forall y, busy y <= 1) as Hle by (intros []; simpl; try lia; destruct (old =? 0)%N; lia).
      destruct (decide (msum busy (st_threads st) = 0)) as [H0|H0].
      - right. intros t. pose proof (tsum_ge busy st t eq_refl). lia.
      - left. destruct (tsum_pos busy st) as [t Ht]; [lia|]. exists t. specialize (Hle (get_pc st t)). lia.
    Qed.

    Lemma falls j : forall n, msum spin (st_threads (x n)) <= j ->
      exists m, n <= m /\ (quiescent (x m) \/ phi (x m) < phi (x n)).
    Proof.
      induction j as [j IH] using lt_wf_ind. intros n Hj.
      destruct (busy_dec (x n)) as [[t Ht]|Hb].
      { destruct (busy_falls t n Ht) as (m&?&?). exists m. auto. }
      destruct (decide (calls (x n) = 0)) as [H0|H0].
      { exists n. split; [done|left]. intros t.
        pose proof (tsum_ge in_call (x n) t eq_refl) as H. unfold calls in H0.
        destruct (get_pc (x n) t); simpl in H; done || lia. }
      destruct (tsum_pos in_call (x n)) as [t Ht]; [unfold calls in H0; lia|].
      assert (exists m0 t0, n <= m0 /\ acts E s x t0 m0 /\ x m0 = x n) as (m0&t0&Hm0&Ha&Hx).
      { destruct (eventually t n) as (m&Hm&Ha&_).
        { intros m Hm Hpc. apply not_stuck. rewrite Hpc. intros H. rewrite H in Ht. simpl in Ht. lia. }
        by eapply first_any. }
      pose proof (phi_acts _ _ Ha) as Hp. destruct Ha as (a&i&Hl&Hs). rewrite Hl, Hx in Hs.
      rewrite Hx in Hp.
      destruct (all_search_step _ _ _ _ _ (good_at n) Hb Hs) as [Hsp|Hbu].
      - pose proof (tsum_step spin _ _ _ _ _ eq_refl Hs) as Hsum.
        destruct (IH (msum spin (st_threads (x (S m0))))) with (n := S m0) as (m&Hm&[?|?]); [lia|lia|..];
          exists m; (split; [lia|]); [by left|right; lia].
      - destruct (busy_falls _ _ Hbu) as (m&Hm&?). exists m. split; [lia|right; lia].
    Qed.

    Lemma finishes k : forall n, phi (x n) <= k -> exists m, n <= m /\ quiescent (x m).
    Proof.
      induction k as [k IH] using lt_wf_ind. intros n Hk.
      destruct (falls _ n (le_n _)) as (m&Hm&[?|Hlt]); [by exists m|].
      destruct (IH (phi (x m))) with (n := m) as (m'&?&?); [lia|lia|]. exists m'. split; [lia|done].
    Qed.

    Lemma quiescent_stays n m : n <= m -> quiescent (x n) -> x m = x n.
    Proof.
      intros Hm Hq. induction Hm as [|m Hm IH]; [done|].
      destruct (moves m) as [(t&a&i&Hl&Hs)|Hx]; [|by rewrite Hx]. exfalso.
      rewrite Hl, IH in Hs. simpl in Hs. unfold step_thread in Hs. by rewrite Hq in Hs.
    Qed.

    Lemma log_at n : exists l, st_log (x n) = l ++ st_log st0.
    Proof.
      induction n as [|n [l IH]]; [exists []; by rewrite (proj1 Hex)|].
      destruct (moves n) as [(t&a&i&Hl&Hs)|Hx]; [|exists l; by rewrite Hx].
      destruct (step_mono E _ _ _ Hs) as (_&[Hy|[e Hy]]&_); rewrite Hy, IH; [by exists l|by exists (e :: l)].
    Qed.

    Lemma interning_at t v n : interning st0 t v ->
      interning (x n) t v \/ exists p l1 l2, st_log (x n) = l1 ++ EvNew t v p :: l2 ++ st_log st0.
    Proof.
      intros Hin. induction n as [|n IH]; [left; by rewrite (proj1 Hex)|].
      destruct (moves n) as [(t0&a&i&Hl&Hs)|Hx]; [|by rewrite Hx].
      rewrite Hl in Hs. destruct IH as [IH|(p&l1&l2&IH)].
      - destruct (step_interning E _ _ _ _ _ _ _ (inv_at n) Hs IH) as [?|[p Hp]]; [by left|right].
        destruct (log_at n) as [l Hlog]. exists p, [], l. by rewrite Hp, Hlog.
      - right. destruct (step_mono E _ _ _ Hs) as (_&[Hy|[e Hy]]&_); rewrite Hy, IH; [by eauto|].
        exists p, (e :: l1), l2. done.
    Qed.
  End exec.

  Lemma calls_return ls st s x :
    bounded E ls -> no_panic ls -> run (step E) init ls = Some st ->
    (forall p, (N.of_nat (hc st p + calls st) < te_mod E)%N) ->
    execution E st s x -> only_steps s -> strongly_fair E s x ->
    exists n, quiescent (x n) /\ (forall m, n <= m -> x m = x n) /\
      forall t v, interning st t v ->
        exists p l1 l2, st_log (x n) = l1 ++ EvNew t v p :: l2 ++ st_log st.
  Proof.
    intros Hb Hn Hr Hroom Hex Hon Hf.
    assert (good E st) as HG.
    { split_and!; [by eapply run_Inv| |by eapply run_zombies].
      intros p. specialize (Hroom p). pose proof (pot_calls st). lia. }
    destruct (finishes st s x HG Hex Hon Hf _ 0 (le_n _)) as (n&_&Hq). exists n. split_and!; [done| |].
    - intros m Hm. by eapply quiescent_stays.
    - intros t v Hin. destruct (interning_at st s x HG Hex Hon t v n Hin) as [Hi|?]; [|done].
      unfold interning in Hi. by rewrite Hq in Hi.
  Qed.

  Lemma work_bounded ls st :
    bounded E ls -> no_panic ls -> run (step E) init ls = Some st ->
    (forall p, (N.of_nat (hc st p + calls st) < te_mod E)%N) ->
    exists B, forall ls', Forall (λ l, exists t a i, l = LStep t a i) ls' -> other_steps E st ls' <= B.
  Proof.
    intros Hb Hn Hr Hroom. exists (phi st). intros ls' Hf. apply bounded_work; [|done].
    split_and!; [by eapply run_Inv| |by eapply run_zombies].
    intros p. specialize (Hroom p). pose proof (pot_calls st). lia.
  Qed.
End fair.

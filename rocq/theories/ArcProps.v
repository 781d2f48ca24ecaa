(** Consequences of the ArcIntern invariant, in the form used by the property theorems. *)
From stdpp Require Import gmap list numbers.
From Verif Require Import Base ArcModel ArcSpec ArcInv ArcStep ArcSafe ArcReach ArcLen ArcLive.
Require Import ZifyBool ZifyNat ZifyN.

Section props.
  Context {V : Type} (E : tyenv V).
  Implicit Types (st : state V) (v d : V) (p q : ptr) (ls : list (label V)).
  Notation hc := (handles_to E).
  Context (HC : coherent E) (HW : wide E).

  (** ** Equality *)
  Lemma eq_iff ls st p q :
    bounded E ls -> run (step E) init ls = Some st -> alive E st p -> alive E st q ->
    exists u v, data st p = Some u /\ data st q = Some v /\ handle_eqb p q = te_eq E u v.
  Proof.
    intros Hb Hr Hp Hq. pose proof (run_Inv E HC HW ls st Hb Hr) as HI.
    destruct (hand_deref E st p HI Hp) as (_&u&_&_&Hu).
    destruct (hand_deref E st q HI Hq) as (_&v&_&_&Hv).
    exists u, v. split_and!; [done..|].
    pose proof (inv_hand _ _ HI p Hp) as Hpt. pose proof (inv_hand _ _ HI q Hq) as Hqt.
    unfold handle_eqb. destruct (te_eq E u v) eqn:He.
    - rewrite (inv_uniq _ _ HI p q u v) by done. apply Nat.eqb_refl.
    - apply Nat.eqb_neq. intros Ha. rewrite (table_ptr_inj _ _ HI p q Hpt Hqt Ha) in Hu.
      rewrite Hu in Hv. injection Hv as ->. by rewrite (coh_refl _ HC) in He.
  Qed.

  (** Handles to the same address are the same handle. *)
  Lemma addr_inj ls st p q :
    bounded E ls -> run (step E) init ls = Some st -> alive E st p -> alive E st q ->
    handle_eqb p q = true -> p = q.
  Proof.
    intros Hb Hr Hp Hq He. pose proof (run_Inv E HC HW ls st Hb Hr) as HI.
    apply (table_ptr_inj _ _ HI); [by apply (inv_hand _ _ HI)..|].
    by apply Nat.eqb_eq.
  Qed.

  (** ** Reference count *)
  Lemma refcount_exact ls st p ks st' :
    bounded E ls -> run (step E) init ls = Some st -> step E st (LRef p ks) = Next st' ->
    exists k, st_log st' = EvRef k (N.of_nat (hc st k)) :: st_log st /\
      borrow E st p ks = Next k /\ alive E st k.
  Proof.
    intros Hb Hr Hs. pose proof (run_Inv E HC HW ls st Hb Hr) as HI.
    pose proof (bounded_fits E ls st Hb Hr) as Hf. simpl in Hs.
    destruct (borrow_live E st p ks HI) as [_ Hl].
    destruct (borrow E st p ks) as [k| | |] eqn:Hk; try done.
    specialize (Hl k eq_refl).
    destruct (deref st k) as [c|] eqn:Hc; [|done]. injection Hs as <-.
    exists k. split_and!; [|done|done]. simpl. do 2 f_equal.
    by destruct (cnt_live E st k c HI Hf Hl Hc).
  Qed.

  (** ** What is interned in a quiescent state *)
  Lemma quiescent_exact_inv st :
    Inv E st -> quiescent st -> st_zombies st = [] ->
    NoDup (st_table st) /\
    (forall p, p ∈ st_table st <-> alive E st p) /\
    (forall a c, st_heap st !! a = Some c <->
       exists p, alive E st p /\ p_addr p = a /\ deref st p = Some c) /\
    (forall p, alive E st p -> exists r, r ∈ st_pool st ++ st_gone st /\ owns E st r p) /\
    (st_pool st = [] -> st_gone st = [] -> st_table st = [] /\ st_heap st = ∅).
  Proof.
    intros HI Hq Hz.
    assert (forall p, p ∈ st_table st <-> alive E st p) as Hta.
    { intros p. split; [|apply (inv_hand _ _ HI)]. intros Hp. unfold alive.
      apply no_removal_live; try done. intros t. by rewrite Hq. }
    assert (forall p, alive E st p -> exists r, r ∈ st_pool st ++ st_gone st /\ owns E st r p) as Hroot.
    { intros p Hp%Hta. destruct (quiescent_rooted E st p HI Hq Hp) as (r&Hr1&Ho).
      rewrite Hz, app_nil_r in Hr1. eauto. }
    assert (forall a c, st_heap st !! a = Some c <->
       exists p, alive E st p /\ p_addr p = a /\ deref st p = Some c) as Hheap.
    { intros a c. split.
      - intros Ha. destruct (quiescent_heap E st a c HI Hq Ha) as (p&Hp&?&?).
        exists p. by rewrite <- Hta.
      - intros (p&_&<-&[Ha _]%deref_Some). done. }
    split_and!; [by apply (table_NoDup E)|done..|].
    intros Hp Hg.
    assert (forall p, ~ alive E st p) as Hno.
    { intros p (r&Hin&_)%Hroot. rewrite Hp, Hg in Hin. by apply elem_of_nil in Hin. }
    split.
    - destruct (st_table st) as [|p tb]; [done|]. exfalso. apply (Hno p). apply Hta. by left.
    - apply map_eq. intros a. rewrite lookup_empty. destruct (st_heap st !! a) as [c|] eqn:Ha; [|done].
      apply Hheap in Ha as (p&Hx&_). by destruct (Hno p).
  Qed.

  (** ** Pinning *)
  Lemma step_keeps st l st' p :
    Inv E st -> Inv E st' -> alive E st p -> step E st l = Next st' ->
    p ∈ st_table st /\ p ∈ st_table st' /\ data st' p = data st p.
  Proof.
    intros HI HI' Hp Hs. pose proof (inv_hand _ _ HI p Hp) as Hin.
    assert (p ∈ st_table st') as Hin'.
    { assert (forall t l' w r, get_pc st t = PRem l' p w r -> False) as Hnr.
      { intros t l' w r Hpc. destruct (rem_hand E st t p HI) as (_&H0&_).
        - rewrite Hpc. simpl. rewrite is_p_self. lia.
        - unfold alive in Hp. lia. }
      clear HI'. destruct l as [t k v|t q|q ks|q|q ks|q ks|t ty|t ty|t a i|t]; simpl in Hs;
      unfold step_thread, step_panic in Hs.
      9: { destruct (get_pc st t) as [|k v b|k v b q|k v b q old|k v b q|k v b|k v q|k v q|k v q|k v q|l' q w r|w r|ty j acc|ty j] eqn:Hpc; try done;
        try (repeat (match goal with
              | H : Next _ = Next _ |- _ => injection H as <-
              | H : (match ?x with _ => _ end) = Next _ |- _ => destruct x; try done
              end); exact Hin).
        - injection Hs as <-. by right.
        - destruct (deref st q) as [c|]; [|done]. destruct (c_data c) as [d|]; [|done].
          injection Hs as <-. simpl. unfold remove_entry. apply elem_of_list_filter.
          split; [|done]. intros ->. by eapply Hnr. }
      all: repeat (match goal with
              | H : Next _ = Next _ |- _ => injection H as <-
              | H : (match ?x with _ => _ end) = Next _ |- _ => destruct x; try done
              end); exact Hin. }
    split_and!; [done..|].
    destruct (inv_live _ _ HI p Hin) as [d Hd]. rewrite Hd.
    by eapply (table_data_step E st l st').
  Qed.

  Lemma step_same_object st l st' p d t v q :
    Inv E st -> alive E st p -> data st p = Some d -> step E st l = Next st' ->
    st_log st' = EvNew t v q :: st_log st ->
    (forall a b c, te_eq E a b = true -> te_eq E b c = true -> te_eq E a c = true) ->
    te_eq E v d = true -> q = p.
  Proof.
    intros HI Hp Hd Hs Hlog Htr He.
    destruct (step_event E st l st' HI Hs) as [Hx|(e&Hl&_&_&Hev)].
    { rewrite Hx in Hlog. apply (f_equal length) in Hlog. simpl in Hlog. lia. }
    rewrite Hlog in Hl. injection Hl as <-. destruct Hev as (_&Hq&d'&Hd'&He').
    apply (inv_uniq _ _ HI q p d' d); [by apply (inv_hand _ _ HI)..|done|done|].
    eapply Htr; [|exact He]. by apply (coh_sym _ HC).
  Qed.

  (** ** Values own only live handles; destructors run outside the locks *)
  Lemma kids_alive ls st p d k :
    bounded E ls -> run (step E) init ls = Some st -> p ∈ st_table st -> data st p = Some d ->
    k ∈ te_kids E d -> alive E st k /\ k ∈ st_table st /\ exists d', data st k = Some d'.
  Proof.
    intros Hb Hr Hp Hd Hk. pose proof (run_Inv E HC HW ls st Hb Hr) as HI.
    apply data_Some in Hd as (c&[Hc _]%deref_Some&Hcd).
    assert (alive E st k) as Ha by (eapply hc_ge_kids; done).
    split_and!; [done|by apply (inv_hand _ _ HI)|].
    destruct (hand_deref E st k HI Ha) as (_&d'&_&_&?). eauto.
  Qed.

  (** The only step that destroys a handle is the one of [Drop::drop]. *)
  Definition destroys st (l : label V) p : nat :=
    match l with
    | LStep t _ _ => match get_pc st t with PWork (IDrop q :: _) _ => is_p p q | _ => 0 end
    | _ => 0
    end.
  Lemma step_hc_low st l st' p :
    Inv E st -> step E st l = Next st' -> hc st p <= hc st' p + destroys st l p.
  Proof.
    intros HI. destruct l as [t k v|t q|q ks|q|q ks|q ks|t ty|t ty|t a i|t]; simpl.
    - destruct (get_pc st t) eqn:Hpc; try done. destruct k.
      + destruct rem_all as [pl|] eqn:Hr; [|done]. intros [= <-]. unfold handles_to. simpl.
        pose proof (tsum_set (pc_handles E p) st t (PLookup KSized v None) eq_refl) as H1.
        rewrite Hpc in H1. simpl in H1. pose proof (rem_all_occ _ _ _ p Hr). lia.
      + destruct te_kids; [|done]. intros [= <-]. unfold handles_to. simpl.
        pose proof (tsum_set (pc_handles E p) st t (PLookup KDst v None) eq_refl) as H1.
        rewrite Hpc in H1. simpl in H1. lia.
    - destruct (get_pc st t) eqn:Hpc; try done. destruct rem1 as [pl|] eqn:Hr; [|done].
      intros [= <-]. unfold handles_to. simpl.
      pose proof (tsum_set (pc_handles E p) st t (PWork [IDrop q] None) eq_refl) as H1.
      rewrite Hpc in H1. simpl in H1. pose proof (rem1_occ _ _ _ p Hr).
      unfold is_p in *. case_bool_decide; destruct (decide (q = p)); simpl in *; try done; lia.
    - destruct (borrow E st q ks) as [k| | |]; try done.
      destruct (deref st k) as [c|] eqn:Hc; [|done]. intros [= <-].
      pose proof (hc_set_count E st k c (count_inc E (c_count c)) p Hc) as H1.
      unfold handles_to in H1 |- *. simpl in H1 |- *. destruct (decide (k = p)); lia.
    - destruct rem1 as [pl|] eqn:Hr; [|done]. intros [= <-]. unfold handles_to. simpl.
      pose proof (rem1_occ _ _ _ p Hr). lia.
    - destruct (borrow E st q ks) as [k| | |]; try done. destruct (deref st k); [|done].
      intros [= <-]. unfold handles_to. simpl. lia.
    - destruct (borrow E st q ks) as [k| | |]; try done. destruct (data st k); [|done].
      intros [= <-]. unfold handles_to. simpl. lia.
    - destruct (get_pc st t) eqn:Hpc; try done. intros [= <-]. unfold handles_to. simpl.
      pose proof (tsum_set (pc_handles E p) st t (PLen ty 0 0) eq_refl) as H1.
      rewrite Hpc in H1. simpl in H1. lia.
    - destruct (get_pc st t) eqn:Hpc; try done. intros [= <-]. unfold handles_to. simpl.
      pose proof (tsum_set (pc_handles E p) st t (PShrink ty 0) eq_refl) as H1.
      rewrite Hpc in H1. simpl in H1. lia.
    - unfold step_thread. pose proof (inv_pc _ _ HI t) as Hok.
      assert (forall x, hc (set_pc st t x) p + pc_handles E p (get_pc st t) = hc st p + pc_handles E p x) as HS.
      { intros x. apply hc_set_pc. }
      assert (forall q c n x, deref st q = Some c ->
        hc (set_pc (set_count st q c n) t x) p + pc_handles E p (get_pc st t)
        = hc st p + pc_handles E p x) as HCC.
      { intros q c n x Hc. rewrite <- (hc_set_count E st q c n p Hc).
        apply (hc_set_pc E (set_count st q c n)). }
      destruct (get_pc st t) as [|k v b|k v b q|k v b q old|k v b q|k v b|k v q|k v q|k v q|k v q|l q w r|w r|ty j acc|ty j] eqn:Hpc;
        simpl in Hok; try done; simpl in HCC, HS.
      + destruct (st_locks st !! lock_of E v); [done|]. destruct readable; [|done].
        destruct pick as [q|]; intros [= <-].
        * specialize (HS (PHit k v b q)). simpl in HS. unfold handles_to in *. simpl in *. lia.
        * specialize (HS (PAlloc k v b)). simpl in HS. lia.
      + destruct (deref st q) as [c|] eqn:Hc; [|done]. intros [= <-].
        specialize (HCC _ _ (count_inc E (c_count c)) (PInc k v b q (c_count c)) Hc). simpl in HCC.
        destruct (c_count c =? 0)%N; lia.
      + destruct (old =? 0)%N eqn:Hold.
        * destruct (deref st q) as [c|] eqn:Hc; [|done]. intros [= <-].
          specialize (HCC _ _ (count_dec E (c_count c)) (PUndo k v b q) Hc). simpl in HCC. lia.
        * intros [= <-]. specialize (HS (PWork (drop_args E k v b) (Some (v, q)))). simpl in HS.
          rewrite drop_args_handles in HS. unfold handles_to in *. simpl in *. lia.
      + intros [= <-]. specialize (HS (PLookup k v b)). unfold handles_to in *. simpl in *. lia.
      + assert (forall x, match st_heap st !! a with Some _ => Illegal | None =>
           Next (set_pc (alloc st a v) t (PEntry k v (Ptr a (st_next st)))) end = Next x ->
           hc st p <= hc x p + 0) as Hal.
        { intros x. destruct (st_heap st !! a) eqn:Ha; [done|]. intros [= <-].
          pose proof (tsum_set (pc_handles E p) st t (PEntry k v (Ptr a (st_next st))) eq_refl) as H1.
          rewrite Hpc in H1. simpl in H1. unfold handles_to. simpl.
          rewrite (msum_insert_None _ _ _ _ Ha). unfold cell_handles at 2. simpl.
          destruct k; simpl in *; lia. }
        destruct k, b as [q|]; try apply Hal.
        intros [= <-]. specialize (HS (PEntry KDst v q)). simpl in HS. lia.
      + destruct (data st q) as [d0|]; [|done]. destruct (st_locks st !! lock_of E d0); [done|].
        destruct readable; [|done]. destruct pick as [q'|]; intros [= <-].
        * specialize (HS (POcc k v q)). unfold handles_to in *. simpl in *. lia.
        * specialize (HS (PVac k v q)). unfold handles_to in *. simpl in *. lia.
      + intros [= <-]. specialize (HS (PIns k v q)).
        unfold handles_to in *. simpl in *. lia.
      + destruct k; intros Hs.
        * destruct Hok as [Hb _]. unfold box_ok in Hb. rewrite Hb in Hs. simpl in Hs. injection Hs as <-.
          apply deref_Some in Hb as [Hb _].
          specialize (HS (PLookup KSized v None)). unfold handles_to in *. simpl in *.
          pose proof (msum_delete (cell_handles E p) _ _ _ Hb) as Hm.
          change (cell_handles E p (Cell (p_ser q) 1%N (Some v))) with (occ p (te_kids E v)) in Hm. lia.
        * injection Hs as <-. specialize (HS (PLookup KDst v (Some q))).
          unfold handles_to in *. simpl in *. lia.
      + intros [= <-]. specialize (HS (PWork [] (Some (v, q)))). unfold handles_to in *. simpl in *. lia.
      + destruct (deref st q) as [c|] eqn:Hc; [|done]. destruct (c_data c) as [d|] eqn:Hd; [|done].
        intros [= <-]. apply deref_Some in Hc as [Hc _].
        specialize (HS (PWork (drop_box E d q ++ w) r)).
        pose proof (msum_insert_Some (cell_handles E p) (st_heap st) _
                    (Cell (c_ser c) (c_count c) None) c Hc) as H2.
        unfold cell_handles in H2 at 2 3. rewrite Hd in H2. simpl in H2.
        unfold handles_to in *. simpl in *. unfold drop_box in *.
        rewrite !work_handles_app, work_handles_drops in HS. simpl in HS.
        unfold drop_box. lia.
      + destruct w as [|[q|q|q] w].
        * destruct r as [[v q]|]; intros [= <-]; specialize (HS PFree); unfold handles_to in *; simpl in *.
          -- unfold is_p in HS. case_bool_decide; destruct (decide (q = p)); simpl in *; try done; lia.
          -- lia.
        * destruct (deref st q) as [c|] eqn:Hc; [|done]. intros [= <-].
          specialize (HCC _ _ (count_dec E (c_count c)) (PWork (if (c_count c =? 1)%N then IRemove q :: w else w) r) Hc).
          destruct (c_count c =? 1)%N; simpl in *; lia.
        * destruct (data st q) as [d0|]; [|done]. destruct (st_locks st !! lock_of E d0); [done|].
          destruct readable; [|done]. destruct pick as [q'|]; intros [= <-].
          -- specialize (HS (PRem (lock_of E d0) q' w r)). unfold handles_to in *. simpl in *. lia.
          -- specialize (HS (PWork w r)). unfold handles_to in *. simpl in *. lia.
        * destruct (deref st q) as [c|] eqn:Hc; [|done]. intros [= <-].
          destruct Hok as [Hf _]. destruct (Hf q) as (c'&Hc'&Hk); [by left|].
          rewrite Hc in Hc'. injection Hc' as <-.
          apply deref_Some in Hc as [Hc _].
          specialize (HS (PWork w r)). unfold handles_to in *. simpl in *.
          pose proof (msum_delete (cell_handles E p) _ _ _ Hc) as Hm.
          assert (cell_handles E p c = 0) as H0.
          { unfold cell_handles. destruct (c_data c); [|done]. by rewrite Hk. }
          lia.
      + destruct (j <? te_shards E).
        * destruct (st_locks st !! (ty, j)); [done|]. intros [= <-].
          specialize (HS (PLen ty (S j) (acc + shard_len E st ty j))). simpl in *. lia.
        * intros [= <-]. specialize (HS PFree). unfold handles_to in *. simpl in *. lia.
      + destruct (j <? te_shards E).
        * destruct (st_locks st !! (ty, j)); [done|]. intros [= <-].
          specialize (HS (PShrink ty (S j))). simpl in *. lia.
        * intros [= <-]. specialize (HS PFree). simpl in *. lia.
    - unfold step_panic. pose proof (inv_pc _ _ HI t) as Hok.
      assert (forall x, hc (set_pc st t x) p + pc_handles E p (get_pc st t) = hc st p + pc_handles E p x) as HS.
      { intros x. apply hc_set_pc. }
      destruct (get_pc st t) as [|k v b|k v b q|k v b q old|k v b q|k v b|k v q|k v q|k v q|k v q|l q w r|w r|ty j acc|ty j] eqn:Hpc;
        simpl in Hok; try done; simpl in HS.
      + intros [= <-]. specialize (HS (PWork (drop_args E k v b) None)). simpl in HS.
        rewrite drop_args_handles in HS. lia.
      + destruct (deref st q) as [c|] eqn:Hc; [|done]. destruct (c_data c) as [d|] eqn:Hd; [|done].
        intros [= <-]. apply deref_Some in Hc as [Hc _].
        specialize (HS (PWork (drop_box E d q) None)).
        pose proof (msum_insert_Some (cell_handles E p) (st_heap st) _
                    (Cell (c_ser c) (c_count c) None) c Hc) as H2.
        unfold cell_handles in H2 at 2 3. rewrite Hd in H2. simpl in H2.
        unfold handles_to in *. simpl in *. unfold drop_box in *.
        rewrite !work_handles_app, work_handles_drops in HS. simpl in HS. lia.
      + destruct w as [|[q|q|q] w]; try done. intros [= <-].
        specialize (HS (PWork (w ++ match r with Some (_, x) => [IDrop x] | None => [] end) None)).
        unfold handles_to in *. simpl in *. rewrite work_handles_app in HS.
        destruct r as [[v x]|]; simpl in *; lia.
  Qed.

  (** A handle only ever disappears in a step of a thread that holds no shard lock. *)
  Lemma destroy_unlocked ls st l st' p :
    bounded E ls -> run (step E) init ls = Some st -> step E st l = Next st' ->
    hc st' p < hc st p ->
    exists t a i, l = LStep t a i /\ forall lk, st_locks st !! lk <> Some t.
  Proof.
    intros Hb Hr Hs Hlt. pose proof (run_Inv E HC HW ls st Hb Hr) as HI.
    pose proof (step_hc_low st l st' p HI Hs) as H.
    destruct l as [t k v|t q|q ks|q|q ks|q ks|t ty|t ty|t a i|t]; simpl in H; try lia.
    exists t, a, i. split; [done|]. intros lk Hlk. apply (inv_lock _ _ HI) in Hlk.
    destruct (get_pc st t) as [| | | | | | | | | | |w r| |]; simpl in *; try lia; done.
  Qed.

  (** ** Zombies *)
  Lemma step_zombies_in st l st' p :
    step E st l = Next st' -> p ∈ st_zombies st -> p ∈ st_zombies st'.
  Proof.
    intros Hs Hp. destruct (step_mono E _ _ _ Hs) as (_&_&[->|[_ [q ->]]]); [done|by right].
  Qed.

  Lemma zombie_dead st p : Inv E st -> p ∈ st_zombies st ->
    p ∈ st_table st /\ hc st p = 0.
  Proof.
    intros HI Hp. apply occ_pos in Hp.
    assert (p ∈ st_table st) as Hin by (apply (inv_rem_in _ _ HI); unfold rc; lia).
    split; [done|]. pose proof (inv_rem _ _ HI p Hin) as Hr. unfold rc in Hr.
    destruct (Nat.eqb_spec (hc st p) 0); lia.
  Qed.

  Context (Htr : forall a b c, te_eq E a b = true -> te_eq E b c = true -> te_eq E a c = true).

  Lemma zombie_forever ls1 ls2 st1 st2 p d :
    bounded E (ls1 ++ ls2) -> run (step E) init ls1 = Some st1 -> run (step E) st1 ls2 = Some st2 ->
    p ∈ st_zombies st1 -> data st1 p = Some d ->
    p ∈ st_zombies st2 /\ p ∈ st_table st2 /\ data st2 p = Some d /\ hc st2 p = 0 /\
    exists new, st_log st2 = new ++ st_log st1 /\
      forall t v q, EvNew t v q ∈ new -> te_eq E v d = false.
  Proof.
    revert st2. induction ls2 as [|l ls2 IH] using rev_ind; intros st2 Hb Hr1 Hr2 Hz Hd.
    - simpl in Hr2. injection Hr2 as <-. rewrite app_nil_r in Hb.
      pose proof (run_Inv E HC HW ls1 st1 Hb Hr1) as HI.
      destruct (zombie_dead st1 p HI Hz). split_and!; try done.
      exists []. split; [done|]. by intros * ?%elem_of_nil.
    - rewrite run_snoc in Hr2. destruct (run (step E) st1 ls2) as [st|] eqn:Hr; [|done].
      pose proof Hb as Hb'. rewrite app_assoc in Hb'.
      pose proof (bounded_app E _ _ Hb') as Hb1.
      destruct (IH st Hb1 Hr1 eq_refl Hz Hd) as (Hz'&Hin&Hd'&H0&new&Hlog&Hnew).
      assert (run (step E) init (ls1 ++ ls2) = Some st) as Hrst by (by rewrite run_app, Hr1).
      pose proof (run_Inv E HC HW _ st Hb1 Hrst) as HI.
      unfold exec in Hr2.
      destruct (step E st l) as [st'| | |] eqn:Hs; simplify_eq; [|split_and!; eauto..].
      assert (run (step E) init ((ls1 ++ ls2) ++ [l]) = Some st2) as Hrst'.
      { rewrite run_snoc, Hrst. unfold exec. by rewrite Hs. }
      pose proof (run_Inv E HC HW _ st2 Hb' Hrst') as HI'.
      pose proof (step_zombies_in _ _ _ _ Hs Hz') as Hz2.
      destruct (zombie_dead st2 p HI' Hz2) as [Hin2 H02].
      split_and!; try done.
      + by eapply (table_data_step E st l).
      + destruct (step_event E st l st2 HI Hs) as [Hl|(e&Hl&_&_&He)].
        * exists new. rewrite Hl. done.
        * exists (e :: new). rewrite Hl, Hlog. split; [done|].
          intros t v q [<-|Hx]%elem_of_cons; [|by eapply Hnew].
          destruct (te_eq E v d) eqn:Hvd; [|done]. exfalso.
          destruct He as (_&Hq&d'&Hdq&Hvd').
          assert (q = p) as ->.
          { apply (inv_uniq _ _ HI q p d' d); [by apply (inv_hand _ _ HI)|done|done|done|].
            eapply Htr; [|exact Hvd]. by apply (coh_sym _ HC). }
          lia.
  Qed.

  (** A call to intern goes on until it returns or panics. *)
  Lemma step_interning_any st l st' t v :
    Inv E st -> step E st l = Next st' -> l <> LPanic t -> interning st t v ->
    interning st' t v \/ exists p, st_log st' = EvNew t v p :: st_log st.
  Proof.
    intros HI Hs Hl Hin.
    assert (get_pc st t <> PFree) as Hne.
    { intros Hp. unfold interning in Hin. by rewrite Hp in Hin. }
    assert (forall t' x, get_pc st t' = PFree \/ t' <> t -> get_pc (set_pc st t' x) t = get_pc st t) as Hoth.
    { intros t' x Ht'. rewrite get_pc_set. destruct (decide (t = t')) as [->|]; [|done].
      by destruct Ht'. }
    assert (forall s, get_pc s t = get_pc st t -> interning s t v) as Hsame.
    { intros s Hx. unfold interning. by rewrite Hx. }
    destruct l as [t' k u|t' q|q ks|q|q ks|q ks|t' ty'|t' ty'|t' a i|t'];
      try (by eapply step_interning); left; apply Hsame; simpl in Hs.
    - destruct (get_pc st t') eqn:Hp'; try done. destruct k.
      + destruct rem_all as [pl|]; [|done]. injection Hs as <-. exact (Hoth t' _ (or_introl Hp')).
      + destruct te_kids; [|done]. injection Hs as <-. exact (Hoth t' _ (or_introl Hp')).
    - destruct (get_pc st t') eqn:Hp'; try done. destruct rem1 as [pl|]; [|done].
      injection Hs as <-. exact (Hoth t' _ (or_introl Hp')).
    - destruct (borrow E st q ks); try done. destruct (deref st s); [|done]. by injection Hs as <-.
    - destruct rem1; [|done]. by injection Hs as <-.
    - destruct (borrow E st q ks); try done. destruct (deref st s); [|done]. by injection Hs as <-.
    - destruct (borrow E st q ks); try done. destruct (data st s); [|done]. by injection Hs as <-.
    - destruct (get_pc st t') eqn:Hp'; try done. injection Hs as <-. exact (Hoth t' _ (or_introl Hp')).
    - destruct (get_pc st t') eqn:Hp'; try done. injection Hs as <-. exact (Hoth t' _ (or_introl Hp')).
    - assert (t' <> t) as Ht by congruence. unfold step_panic in Hs.
      repeat (match goal with
        | H : Next _ = Next _ |- _ => injection H as <-
        | H : (match ?x with _ => _ end) = Next _ |- _ => destruct x; try done
        end); exact (Hoth t' _ (or_intror Ht)).
  Qed.

  Lemma zombie_spins ls1 ls2 st1 st2 p d t v :
    bounded E (ls1 ++ ls2) -> run (step E) init ls1 = Some st1 -> run (step E) st1 ls2 = Some st2 ->
    p ∈ st_zombies st1 -> data st1 p = Some d -> te_eq E v d = true -> interning st1 t v ->
    LPanic t ∉ ls2 -> interning st2 t v.
  Proof.
    revert st2. induction ls2 as [|l ls2 IH] using rev_ind; intros st2 Hb Hr1 Hr2 Hz Hd He Hin Hnp.
    - simpl in Hr2. by injection Hr2 as <-.
    - rewrite elem_of_app, elem_of_list_singleton in Hnp.
      rewrite run_snoc in Hr2. destruct (run (step E) st1 ls2) as [st|] eqn:Hr; [|done].
      pose proof Hb as Hb'. rewrite app_assoc in Hb'.
      pose proof (bounded_app E _ _ Hb') as Hb1.
      assert (interning st t v) as Hin' by (apply IH; try done; tauto).
      assert (run (step E) init (ls1 ++ ls2) = Some st) as Hrst by (by rewrite run_app, Hr1).
      pose proof (run_Inv E HC HW _ st Hb1 Hrst) as HI.
      unfold exec in Hr2.
      destruct (step E st l) as [st'| | |] eqn:Hs; simplify_eq; try done.
      destruct (step_interning_any st l st2 t v HI Hs) as [|[q Hq]]; [|done|done|].
      { intros ->. tauto. }
      exfalso.
      destruct (zombie_forever ls1 (ls2 ++ [l]) st1 st2 p d) as (_&_&_&_&new&Hlog&Hnew); try done.
      { rewrite run_snoc, Hr. unfold exec. by rewrite Hs. }
      destruct (zombie_forever ls1 ls2 st1 st p d) as (_&_&_&_&new'&Hlog'&_); try done.
      rewrite Hq, Hlog' in Hlog. change (EvNew t v q :: new' ++ st_log st1) with ((EvNew t v q :: new') ++ st_log st1) in Hlog.
      apply app_inv_tail in Hlog. subst new.
      rewrite (Hnew t v q) in He; [done|]. by left.
  Qed.
End props.

Section props2.
  Context {V : Type} (E : tyenv V).
  Implicit Types (st : state V) (v d : V) (p q : ptr) (ls : list (label V)).
  Context (HL : lawful E) (HW : wide E).

  (** Results of intern calls. *)
  Lemma new_eq_iff ls st t1 v1 p1 t2 v2 p2 :
    bounded E ls -> run (step E) init ls = Some st ->
    EvNew t1 v1 p1 ∈ st_log st -> EvNew t2 v2 p2 ∈ st_log st ->
    alive E st p1 -> alive E st p2 -> handle_eqb p1 p2 = te_eq E v1 v2.
  Proof.
    intros Hb Hr Hn1 Hn2 Ha1 Ha2. pose proof (lawful_coherent E HL) as HC.
    pose proof (run_Inv E HC HW ls st Hb Hr) as HI.
    destruct (eq_iff E HC HW ls st p1 p2 Hb Hr Ha1 Ha2) as (u&v&Hu&Hv&->).
    destruct (inv_log _ _ HI _ _ _ Hn1) as [_ H1]. specialize (H1 u Hu).
    destruct (inv_log _ _ HI _ _ _ Hn2) as [_ H2]. specialize (H2 v Hv).
    destruct (te_eq E v1 v2) eqn:He.
    - eapply law_trans; [done|by apply law_sym|]. by eapply law_trans.
    - destruct (te_eq E u v) eqn:Huv; [|done]. rewrite <- He. symmetry.
      eapply law_trans; [done|exact H1|]. eapply law_trans; [done|exact Huv|]. by apply law_sym.
  Qed.
End props2.

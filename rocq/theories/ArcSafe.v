(** The invariant is preserved by every label, and no label is undefined behaviour. *)
From stdpp Require Import gmap list numbers.
From Verif Require Import Base ArcModel ArcSpec ArcInv ArcStep.
Require Import ZifyBool ZifyNat ZifyN.

Section safe.
  Context {V : Type} (E : tyenv V).
  Context (HL : coherent E) (HW : wide E).
  Implicit Types (st : state V) (v d : V) (p q : ptr).

  Notation hc := (handles_to E).
  Notation Inv := (Inv E).
  Notation pc_ok := (pc_ok E).
  Notation pc_lock := (pc_lock E).

  Definition fits st : Prop := forall p, (N.of_nat (hc st p) < te_mod E)%N.

  (** A transient increment exists only while the lock is held and no handle exists. *)
  Lemma tc_dead st p : Inv st -> 0 < tc st p -> hc st p = 0.
  Proof.
    intros HI [t Ht]%tsum_pos. pose proof (inv_pc _ _ HI t) as Hok.
    destruct (get_pc st t); simpl in *; try lia.
    destruct (N.eqb_spec old 0); [|lia].
    unfold is_p in Ht. case_bool_decide; simpl in *; [|lia]. subst. tauto.
  Qed.

  Lemma cnt_live st p c : Inv st -> fits st -> 0 < hc st p -> deref st p = Some c ->
    tc st p = 0 /\ c_count c = N.of_nat (hc st p).
  Proof.
    intros HI Hf Hp Hc. assert (tc st p = 0) as Htc.
    { destruct (decide (tc st p = 0)); [done|]. pose proof (tc_dead st p HI). lia. }
    split; [done|].
    rewrite (inv_cnt _ _ HI p c) by (done || by apply (inv_hand _ _ HI)).
    rewrite Htc, Nat.add_0_r. apply N.mod_small. apply Hf.
  Qed.

  Lemma hand_deref st p : Inv st -> 0 < hc st p ->
    exists c d, deref st p = Some c /\ c_data c = Some d /\ data st p = Some d.
  Proof. intros HI Hp. apply (table_deref _ _ HI). by apply (inv_hand _ _ HI). Qed.

  Lemma pc_hand st t p : Inv st -> 0 < pc_handles E p (get_pc st t) ->
    exists c d, deref st p = Some c /\ c_data c = Some d /\ data st p = Some d.
  Proof. intros HI Hp. apply hand_deref; [done|]. pose proof (hc_ge_pc E st t p). lia. Qed.

  Lemma rem_hand st t p : Inv st -> 0 < pc_rc p (get_pc st t) ->
    p ∈ st_table st /\ hc st p = 0 /\
    exists c d, deref st p = Some c /\ c_data c = Some d /\ data st p = Some d.
  Proof.
    intros HI Hp. pose proof (tsum_ge (pc_rc p) st t eq_refl).
    assert (p ∈ st_table st) as Hin by (apply (inv_rem_in _ _ HI); unfold rc; lia).
    split; [done|]. split; [|by apply (table_deref _ _ HI)].
    pose proof (inv_rem _ _ HI p Hin) as Hr. unfold rc in Hr.
    destruct (Nat.eqb_spec (hc st p) 0); lia.
  Qed.

  (** Handles reachable by reference from a client's handle are live. *)
  Lemma follow_live st p ks :
    Inv st -> 0 < hc st p ->
    follow E st p ks <> UB /\ forall k, follow E st p ks = Next k -> 0 < hc st k.
  Proof.
    intros HI. revert p. induction ks as [|k ks IH]; intros p Hp; simpl.
    - split; [done|]. by intros ? [= <-].
    - destruct (hand_deref st p HI Hp) as (c&d&Hc&Hcd&->).
      destruct (decide (k ∈ te_kids E d)) as [Hk|]; [|done].
      apply IH. apply deref_Some in Hc as [Hc _]. by eapply hc_ge_kids.
  Qed.

  Lemma borrow_live st p ks :
    Inv st ->
    borrow E st p ks <> UB /\ forall k, borrow E st p ks = Next k -> 0 < hc st k.
  Proof.
    intros HI. unfold borrow. destruct (decide (p ∈ st_pool st)) as [Hp|]; [|done].
    apply follow_live; [done|]. by apply hc_ge_pool.
  Qed.

  (** ** No undefined behaviour *)
  Theorem step_no_ub st l : Inv st -> step E st l <> UB.
  Proof.
    intros HI. destruct l as [t k v|t p|p ks|p|p ks|p ks|t ty|t ty|t a i|t]; simpl.
    - destruct (get_pc st t); try done. destruct k; [by destruct rem_all|by destruct te_kids].
    - destruct (get_pc st t); try done. by destruct rem1.
    - destruct (borrow_live st p ks HI) as [Hub Hb].
      destruct (borrow E st p ks) as [k| | |] eqn:Hk; try done.
      destruct (hand_deref st k HI) as (c&d&->&_); [auto|done].
    - by destruct rem1.
    - destruct (borrow_live st p ks HI) as [Hub Hb].
      destruct (borrow E st p ks) as [k| | |] eqn:Hk; try done.
      destruct (hand_deref st k HI) as (c&d&->&_); [auto|done].
    - destruct (borrow_live st p ks HI) as [Hub Hb].
      destruct (borrow E st p ks) as [k| | |] eqn:Hk; try done.
      destruct (hand_deref st k HI) as (c&d&_&_&->); [auto|done].
    - by destruct (get_pc st t).
    - by destruct (get_pc st t).
    - unfold step_thread. pose proof (inv_pc _ _ HI t) as Hok.
      destruct (get_pc st t) as [|k v b|k v b p|k v b p old|k v b p|k v b|k v q|k v q|k v q|k v q|l q w r|w r|ty j acc|ty j] eqn:Hpc;
        simpl in Hok; try done.
      + destruct (st_locks st !! lock_of E v); [done|]. rewrite (inv_readable _ _ HI).
        by destruct pick.
      + destruct Hok as [_ [Hp _]]. by destruct (table_deref _ _ HI p Hp) as (c&d&->&_).
      + destruct Hok as (_&[Hp _]&_). destruct (table_deref _ _ HI p Hp) as (c&d&->&_).
        by destruct (old =? 0)%N.
      + destruct k, b; try done; by destruct (st_heap st !! a).
      + destruct Hok as [Hb _]. unfold data. rewrite Hb. simpl.
        destruct (st_locks st !! lock_of E v); [done|]. rewrite (inv_readable _ _ HI).
        by destruct pick.
      + destruct Hok as [Hb _]. rewrite Hb. by destruct k.
      + destruct Hok as (Hq&_). by destruct (table_deref _ _ HI q Hq) as (c&d&->&->&_).
      + destruct w as [|[p|p|q] w].
        * by destruct r as [[v p]|].
        * destruct (pc_hand st t p HI) as (c&d&->&_); [|done].
          rewrite Hpc. simpl. rewrite is_p_self. lia.
        * destruct (rem_hand st t p HI) as (_&_&c&d&_&_&->).
          { rewrite Hpc. simpl. rewrite is_p_self. lia. }
          destruct (st_locks st !! lock_of E d); [done|]. rewrite (inv_readable _ _ HI).
          by destruct pick.
        * destruct Hok as [Hf _]. destruct (Hf q) as (c&->&_); [by left|done].
      + destruct (j <? te_shards E); [|done]. by destruct (st_locks st !! (ty, j)).
      + destruct (j <? te_shards E); [|done]. by destruct (st_locks st !! (ty, j)).
    - unfold step_panic. pose proof (inv_pc _ _ HI t) as Hok.
      destruct (get_pc st t) as [|k v b|k v b p|k v b p old|k v b p|k v b|k v q|k v q|k v q|k v q|l q w r|w r|ty j acc|ty j] eqn:Hpc;
        simpl in Hok; try done.
      + destruct Hok as [Hb _]. by rewrite Hb.
      + by destruct w as [|[]].
  Qed.

  (** ** Preservation *)
  Lemma inv_init : Inv init.
  Proof.
    assert (forall p, hc init p = 0) as Hh.
    { intros p. unfold handles_to. simpl. by rewrite !msum_empty. }
    constructor; simpl.
    - by intros ? ?%elem_of_nil.
    - intros a. unfold oc. simpl. by rewrite msum_empty, lookup_empty.
    - by intros ???? ?%elem_of_nil.
    - by intros ?? ?%elem_of_nil.
    - intros p. rewrite Hh. lia.
    - intros p. unfold rc. simpl. rewrite msum_empty. lia.
    - by intros ? ?%elem_of_nil.
    - intros l t. unfold get_pc. simpl. rewrite !lookup_empty. done.
    - intros t. unfold get_pc. simpl. by rewrite lookup_empty.
    - intros a c. by rewrite lookup_empty.
    - intros a c v k. by rewrite lookup_empty.
    - by intros ??? ?%elem_of_nil.
  Qed.

  Lemma inv_lock_ok st : Inv st -> lock_ok E (st_locks st) (st_threads st).
  Proof. intros HI l t. apply (inv_lock _ _ HI). Qed.

  Lemma drop_args_handles p k v b : work_handles p (drop_args E k v b) = arg_handles E p k v.
  Proof. destruct k; simpl; [apply work_handles_drops|by destruct b]. Qed.
  Lemma drop_args_rc p k v b : work_rc p (drop_args E k v b) = 0.
  Proof. destruct k; simpl; [apply work_rc_drops|by destruct b]. Qed.
  Lemma drop_args_oc st a k v b : arg_ok E st k v b -> work_oc a (drop_args E k v b) = box_oc a b.
  Proof. destruct k; simpl; [intros ->; apply work_oc_drops|destruct b; simpl; lia]. Qed.
  Lemma drop_args_free st k v b : arg_ok E st k v b -> free_ok E st (drop_args E k v b).
  Proof.
    destruct k; simpl.
    - intros _ q (?&?&?)%elem_of_list_fmap. done.
    - intros [Hk Hb] q Hq. destruct b as [q'|]; [|by apply elem_of_nil in Hq].
      apply elem_of_list_singleton in Hq. simplify_eq.
      eexists. split; [by apply Hb|]. done.
  Qed.

  Ltac lkside Hpc := match goal with |- _ = ?b => transitivity b; [|reflexivity] end;
                     change (default PFree (st_threads ?s !! ?t)) with (get_pc s t);
                     rewrite ?Hpc; reflexivity.

  Lemma pc_lock_get st t : pc_lock (default PFree (st_threads st !! t)) = pc_lock (get_pc st t).
  Proof. done. Qed.

  Theorem step_inv st l st' : Inv st -> fits st -> step E st l = Next st' -> Inv st'.
  Proof.
    intros HI Hfit. destruct l as [t k v|t p|p ks|p|p ks|p ks|t ty|t ty|t a i|t]; simpl.
    - (* LNew *)
      destruct (get_pc st t) eqn:Hpc; try done. destruct k.
      + destruct rem_all as [pl|] eqn:Hr; [|done]. intros [= <-].
        eapply (inv_local E st _ t (PLookup KSized v None)); try done; rewrite ?Hpc; try done.
        * intros p. simpl. pose proof (rem_all_occ _ _ _ p Hr). lia.
        * apply lock_ok_same; [exact (inv_lock_ok st HI)|]. by rewrite pc_lock_get, Hpc.
        * intros. by left.
      + destruct te_kids eqn:Hk; [|done]. intros [= <-].
        eapply (inv_local E st _ t (PLookup KDst v None)); try done; rewrite ?Hpc; try done.
        * apply lock_ok_same; [exact (inv_lock_ok st HI)|]. by rewrite pc_lock_get, Hpc.
        * intros. by left.
    - (* LDrop *)
      destruct (get_pc st t) eqn:Hpc; try done.
      destruct rem1 as [pl|] eqn:Hr; [|done]. intros [= <-].
      eapply (inv_local E st _ t (PWork [IDrop p] None)); try done; rewrite ?Hpc; try done.
      + intros q. simpl. pose proof (rem1_occ _ _ _ q Hr) as H. unfold is_p.
        case_bool_decide; destruct (decide (p = q)); simpl; try done; lia.
      + apply lock_ok_same; [exact (inv_lock_ok st HI)|]. by rewrite pc_lock_get, Hpc.
      + split; [|done]. by intros q Hq%elem_of_list_singleton.
      + intros. by left.
    - (* LClone *)
      destruct (borrow_live st p ks HI) as [Hub Hb].
      destruct (borrow E st p ks) as [k| | |] eqn:Hk; try done.
      specialize (Hb k eq_refl). destruct (hand_deref st k HI Hb) as (c&d&Hc&_). rewrite Hc.
      intros [= <-]. destruct (cnt_live st k c HI Hfit Hb Hc) as [Htc Hcnt].
      set (st' := set_pool _ _).
      pose proof (inv_hand _ _ HI k Hb) as Hin.
      set (t := fresh (dom (st_threads st)) : nat).
      assert (st_threads st !! t = None) as Ht.
      { apply not_elem_of_dom. apply is_fresh. }
      (* add an idle thread entry to reuse the lemma about thread steps *)
      set (st'' := set_pc st' t PFree).
      assert (get_pc st t = PFree) as Hpc by (unfold get_pc; by rewrite Ht).
      assert (forall f : pc V -> nat, f PFree = 0 ->
                msum f (<[t:=PFree]> (st_threads st)) = msum f (st_threads st)) as Hms.
      { intros f Hf. rewrite msum_insert_None by done. lia. }
      assert (forall q, hc st'' q = hc st q + is_p q k) as Ehc.
      { intros q. pose proof (hc_set_count E st k c (count_inc E (c_count c)) q Hc) as H1.
        unfold handles_to in H1 |- *. simpl in H1 |- *. rewrite Hms by done.
        unfold is_p. case_bool_decide; destruct (decide (k = q)); simpl; try done; lia. }
      assert (Inv st'') as HI''.
      { eapply (inv_count E st st'' t PFree k c (count_inc E (c_count c))); try done; rewrite ?Hpc; try done.
        - intros q Hq. simpl. destruct (decide (k = q)); [done|]. lia.
        - rewrite Ehc, is_p_self. unfold tc. simpl. rewrite Hms by done. fold (tc st k).
          rewrite Htc. rewrite (inv_cnt _ _ HI k c Hin Hc), Htc, Nat.add_0_r, inc_mod by done.
          do 2 f_equal. lia.
        - rewrite Ehc, is_p_self. unfold rc. simpl. rewrite Hms by done. fold (rc st k).
          rewrite (inv_rem _ _ HI k Hin).
          destruct (Nat.eqb_spec (hc st k) 0), (Nat.eqb_spec (hc st k + 1) 0); lia.
        - lia. }
      assert (forall t', get_pc st'' t' = get_pc st' t') as Hg.
      { intros t'. unfold st''. rewrite get_pc_set. destruct (decide (t' = t)) as [->|]; [|done].
        symmetry. exact Hpc. }
      (* drop the idle entry again *)
      assert (forall q, hc st' q = hc st'' q) as E1.
      { intros q. unfold handles_to. simpl. by rewrite Hms. }
      assert (forall q, tc st' q = tc st'' q) as E2.
      { intros q. unfold tc. simpl. by rewrite Hms. }
      assert (forall q, rc st' q = rc st'' q) as E3.
      { intros q. unfold rc. simpl. by rewrite Hms. }
      assert (forall a, oc st' a = oc st'' a) as E4.
      { intros q. unfold oc. simpl. by rewrite Hms. }
      constructor.
      + apply (inv_live _ _ HI'').
      + intros a. rewrite E4. apply (inv_own _ _ HI'').
      + apply (inv_uniq _ _ HI'').
      + intros q c'. rewrite E1, E2. apply (inv_cnt _ _ HI'').
      + intros q. rewrite E1. apply (inv_hand _ _ HI'').
      + intros q. rewrite E3. apply (inv_rem_in _ _ HI'').
      + intros q. rewrite E3, E1. apply (inv_rem _ _ HI'').
      + intros l t'. rewrite <- Hg. apply (inv_lock _ _ HI'').
      + intros t'. rewrite <- Hg. eapply pc_ok_mono; [apply (inv_pc _ _ HI'' t')|..]; try done.
        intros q _. by rewrite E1.
      + apply (inv_ser _ _ HI'').
      + apply (inv_acyc _ _ HI'').
      + apply (inv_log _ _ HI'').
    - (* LForget *)
      destruct rem1 as [pl|] eqn:Hr; [|done]. intros [= <-].
      set (st' := set_gone _ _).
      assert (forall q, hc st' q = hc st q) as E1.
      { intros q. unfold handles_to. simpl. pose proof (rem1_occ _ _ _ q Hr). lia. }
      constructor; try apply HI.
      + intros q c'. rewrite E1. apply (inv_cnt _ _ HI).
      + intros q. rewrite E1. apply (inv_hand _ _ HI).
      + intros q. rewrite E1. apply (inv_rem _ _ HI).
      + intros t'. eapply pc_ok_mono; [apply (inv_pc _ _ HI t')|..]; try done.
        intros q _. by rewrite E1.
    - (* LRef *)
      destruct (borrow E st p ks) as [k| | |] eqn:Hk; try done.
      destruct (deref st k); [|done]. intros [= <-].
      constructor; try apply HI.
      intros t' v q. simpl. intros [?|?]%elem_of_cons; [done|]. by apply (inv_log _ _ HI t').
    - (* LDeref *)
      destruct (borrow E st p ks) as [k| | |] eqn:Hk; try done.
      destruct (data st k); [|done]. intros [= <-].
      constructor; try apply HI.
      intros t' v' q. simpl. intros [?|?]%elem_of_cons; [done|]. by apply (inv_log _ _ HI t').
    - (* LLen *)
      destruct (get_pc st t) eqn:Hpc; try done. intros [= <-].
      eapply (inv_local E st _ t (PLen ty 0 0)); try done; rewrite ?Hpc; try done.
      + apply lock_ok_same; [exact (inv_lock_ok st HI)|]. by rewrite pc_lock_get, Hpc.
      + intros. by left.
    - (* LShrink *)
      destruct (get_pc st t) eqn:Hpc; try done. intros [= <-].
      eapply (inv_local E st _ t (PShrink ty 0)); try done; rewrite ?Hpc; try done.
      + apply lock_ok_same; [exact (inv_lock_ok st HI)|]. by rewrite pc_lock_get, Hpc.
      + intros. by left.
    - (* LStep *)
      unfold step_thread. pose proof (inv_pc _ _ HI t) as Hok.
      destruct (get_pc st t) as [|k v b|k v b p|k v b p old|k v b p|k v b|k v q|k v q|k v q|k v q|l q w r|w r|ty j acc|ty j] eqn:Hpc;
        simpl in Hok; try done.
      + (* PLookup *)
        destruct (st_locks st !! lock_of E v) eqn:Hlk; [done|]. rewrite (inv_readable _ _ HI).
        destruct (pick i (matches E st v)) as [p|] eqn:Hp; intros [= <-].
        * eapply (inv_local E st _ t (PHit k v b p)); try done; rewrite ?Hpc; try done.
          -- apply lock_ok_acq; [exact (inv_lock_ok st HI)| |done|done]. by rewrite pc_lock_get, Hpc.
          -- split; [done|]. by eapply pick_match_hit.
          -- intros. by left.
        * eapply (inv_local E st _ t (PAlloc k v b)); try done; rewrite ?Hpc; try done.
          -- apply lock_ok_same; [exact (inv_lock_ok st HI)|]. by rewrite pc_lock_get, Hpc.
          -- intros. by left.
      + (* PHit *)
        destruct Hok as [Harg Hhit]. pose proof Hhit as [Hin (d&Hd&He)].
        destruct (table_deref _ _ HI p Hin) as (c&d'&Hc&Hcd&Hd'). rewrite Hc. intros [= <-].
        assert (tc st p = 0) as Htc.
        { destruct (decide (tc st p = 0)) as [|Hn]; [done|]. exfalso.
          destruct (tsum_pos (pc_tc p) st) as [t' Ht']; [unfold tc in Hn; lia|].
          pose proof (inv_pc _ _ HI t') as Hok'.
          destruct (get_pc st t') eqn:Hpc'; simpl in Ht'; try lia.
          destruct (old =? 0)%N; [|lia]. unfold is_p in Ht'.
          case_bool_decide; [|simpl in *; lia]. subst.
          simpl in Hok'. destruct Hok' as (_&[_ (d2&Hd2&He2)]&_).
          assert (t' = t); [|congruence].
          apply (lock_unique _ _ HI (lock_of E d)).
          - rewrite Hpc'. simpl. f_equal. assert (d2 = d) as -> by congruence. by apply law_lock.
          - rewrite Hpc. simpl. f_equal. by apply law_lock. }
        pose proof (inv_cnt _ _ HI p c Hin Hc) as Hcnt. rewrite Htc, Nat.add_0_r in Hcnt.
        assert (c_count c = N.of_nat (hc st p)) as Hcnt'.
        { rewrite Hcnt. apply N.mod_small, Hfit. }
        set (x' := PInc k v b p (c_count c)). set (st' := set_pc _ _ _).
        assert (forall q, hc st' q = hc st q + if (c_count c =? 0)%N then 0 else is_p q p) as Ehc.
        { intros q. pose proof (hc_set_pc E (set_count st p c (count_inc E (c_count c))) t x' q) as H1.
          rewrite hc_set_count in H1 by done. fold st' in H1.
          change (get_pc (set_count _ _ _ _) t) with (get_pc st t) in H1. rewrite Hpc in H1.
          simpl in H1. lia. }
        assert (forall q, tc st' q = tc st q + if (c_count c =? 0)%N then is_p q p else 0) as Etc.
        { intros q. pose proof (tc_set_pc (set_count st p c (count_inc E (c_count c))) t x' q) as H1.
          change (tc (set_count _ _ _ _) q) with (tc st q) in H1. fold st' in H1.
          change (get_pc (set_count _ _ _ _) t) with (get_pc st t) in H1. rewrite Hpc in H1.
          simpl in H1. lia. }
        assert (rc st' p = rc st p) as Erc.
        { pose proof (rc_set_pc (set_count st p c (count_inc E (c_count c))) t x' p) as H1.
          change (rc (set_count _ _ _ _) p) with (rc st p) in H1. fold st' in H1.
          change (get_pc (set_count _ _ _ _) t) with (get_pc st t) in H1. rewrite Hpc in H1.
          simpl in H1. lia. }
        eapply (inv_count E st st' t x' p c (count_inc E (c_count c))); try done; rewrite ?Hpc; try done.
        * intros q Hq. simpl. rewrite is_p_ne by done. destruct (c_count c =? 0)%N; lia.
        * intros q Hq. simpl. rewrite is_p_ne by done. by destruct (c_count c =? 0)%N.
        * rewrite Ehc, Etc, Htc. rewrite Hcnt at 1. rewrite inc_mod by done.
          rewrite is_p_self. f_equal. f_equal. destruct (c_count c =? 0)%N; lia.
        * rewrite Erc, Ehc, (inv_rem _ _ HI p Hin), is_p_self. rewrite Hcnt'.
          destruct (N.eqb_spec (N.of_nat (hc st p)) 0), (Nat.eqb_spec (hc st p) 0); try lia.
          { by rewrite Nat.add_0_r, (proj2 (Nat.eqb_eq _ _)). }
          { by rewrite (proj2 (Nat.eqb_neq _ _)) by lia. }
        * intros H0. rewrite Ehc, H0, Hcnt', H0. done.
        * simpl. split; [|split].
          -- eapply arg_ok_mono; [done|]. intros q' c' Ho Hq'. rewrite <- Hq'.
             apply deref_ext. simpl. rewrite lookup_insert_ne; [done|]. intros Ha.
             pose proof (table_not_box _ _ HI p t Hin) as H0. rewrite Hpc in H0. simpl in H0.
             rewrite <- Ha in Ho. lia.
          -- split; [done|]. exists d. split; [|done]. rewrite <- Hd.
             transitivity (data (set_count st p c (count_inc E (c_count c))) p); [done|].
             by apply data_set_count.
          -- intros H0. rewrite Ehc. rewrite H0. simpl. lia.
      + (* PInc *)
        destruct Hok as (Harg&Hhit&Hz). destruct (N.eqb_spec old 0) as [->|Hold].
        * pose proof Hhit as [Hin (d&Hd&He)].
          destruct (table_deref _ _ HI p Hin) as (c&d'&Hc&Hcd&Hd'). rewrite Hc. intros [= <-].
          specialize (Hz eq_refl).
          pose proof (inv_cnt _ _ HI p c Hin Hc) as Hcnt.
          assert (0 < tc st p) as Htc.
          { pose proof (tsum_ge (pc_tc p) st t eq_refl) as H1. rewrite Hpc in H1. simpl in H1.
            rewrite is_p_self in H1. unfold tc. lia. }
          set (x' := PUndo k v b p). set (st' := set_pc _ _ _).
          assert (forall q, hc st' q = hc st q) as Ehc.
          { intros q. pose proof (hc_set_pc E (set_count st p c (count_dec E (c_count c))) t x' q) as H1.
            rewrite hc_set_count in H1 by done. fold st' in H1.
            change (get_pc (set_count _ _ _ _) t) with (get_pc st t) in H1. rewrite Hpc in H1.
            simpl in H1. lia. }
          assert (forall q, tc st' q + is_p q p = tc st q) as Etc.
          { intros q. pose proof (tc_set_pc (set_count st p c (count_dec E (c_count c))) t x' q) as H1.
            change (tc (set_count _ _ _ _) q) with (tc st q) in H1. fold st' in H1.
            change (get_pc (set_count _ _ _ _) t) with (get_pc st t) in H1. rewrite Hpc in H1.
            simpl in H1. lia. }
          assert (rc st' p = rc st p) as Erc.
          { pose proof (rc_set_pc (set_count st p c (count_dec E (c_count c))) t x' p) as H1.
            change (rc (set_count _ _ _ _) p) with (rc st p) in H1. fold st' in H1.
            change (get_pc (set_count _ _ _ _) t) with (get_pc st t) in H1. rewrite Hpc in H1.
            simpl in H1. lia. }
          eapply (inv_count E st st' t x' p c (count_dec E (c_count c))); try done; rewrite ?Hpc; try done.
          -- intros q Hq. simpl. lia.
          -- intros q Hq. simpl. by rewrite is_p_ne.
          -- rewrite Ehc. specialize (Etc p). rewrite is_p_self in Etc.
             rewrite Hcnt, dec_mod by (done || lia). f_equal. f_equal. lia.
          -- rewrite Erc, Ehc. by apply (inv_rem _ _ HI).
          -- by rewrite Ehc.
          -- simpl. eapply arg_ok_mono; [done|]. intros q' c' Ho Hq'. rewrite <- Hq'.
             apply deref_ext. simpl. rewrite lookup_insert_ne; [done|]. intros Ha.
             pose proof (table_not_box _ _ HI p t Hin) as H0. rewrite Hpc in H0. simpl in H0.
             rewrite <- Ha in Ho. lia.
        * intros [= <-].
          eapply (inv_local E st _ t (PWork (drop_args E k v b) (Some (v, p)))); try done; rewrite ?Hpc; try done.
          -- intros q. simpl. rewrite drop_args_handles.
             rewrite (proj2 (N.eqb_neq _ _)) by done. lia.
          -- intros q. simpl. by rewrite (proj2 (N.eqb_neq _ _)).
          -- intros q. simpl. rewrite drop_args_rc. lia.
          -- intros a'. simpl. by eapply drop_args_oc.
          -- apply lock_ok_rel; [exact (inv_lock_ok st HI)| |done]. by rewrite pc_lock_get, Hpc.
          -- simpl. split; [by apply drop_args_free|]. intros v' p' [= <- <-]. apply Hhit.
          -- intros. by left.
      + (* PUndo *)
        intros [= <-].
        eapply (inv_local E st _ t (PLookup k v b)); try done; rewrite ?Hpc; try done.
        * apply lock_ok_rel; [exact (inv_lock_ok st HI)| |done]. by rewrite pc_lock_get, Hpc.
        * intros. by left.
      + (* PAlloc *)
        destruct k; simpl in Hok.
        * subst b. destruct (st_heap st !! a) eqn:Ha; [done|]. intros [= <-].
          by eapply inv_alloc.
        * destruct b as [q|].
          -- intros [= <-]. destruct Hok as [Hk Hb].
             eapply (inv_local E st _ t (PEntry KDst v q)); try done; rewrite ?Hpc; try done.
             ++ apply lock_ok_same; [exact (inv_lock_ok st HI)|]. by rewrite pc_lock_get, Hpc.
             ++ split; [by apply Hb|done].
             ++ intros. by left.
          -- destruct (st_heap st !! a) eqn:Ha; [done|]. intros [= <-]. by eapply inv_alloc.
      + (* PEntry *)
        destruct Hok as [Hb Hk]. unfold data at 1. rewrite Hb. simpl.
        destruct (st_locks st !! lock_of E v) eqn:Hlk; [done|]. rewrite (inv_readable _ _ HI).
        destruct (pick i (matches E st v)) as [p|] eqn:Hp; intros [= <-].
        * eapply (inv_local E st _ t (POcc k v q)); try done; rewrite ?Hpc; try done.
          -- apply lock_ok_acq; [exact (inv_lock_ok st HI)| |done|done]. by rewrite pc_lock_get, Hpc.
          -- intros. by left.
        * eapply (inv_local E st _ t (PVac k v q)); try done; rewrite ?Hpc; try done.
          -- apply lock_ok_acq; [exact (inv_lock_ok st HI)| |done|done]. by rewrite pc_lock_get, Hpc.
          -- split; [done|]. split; [done|]. by eapply pick_match_none.
          -- intros. by left.
      + (* PVac *) intros [= <-]. by apply inv_insert.
      + (* POcc *)
        destruct Hok as [Hb Hk]. rewrite Hb. simpl. destruct k; intros [= <-].
        * eapply (inv_unbox E st _ t q _ (PLookup KSized v None) None); try exact Hb; try done; rewrite ?Hpc; try done.
          -- simpl. rewrite at_addr_self. lia.
          -- apply lock_ok_rel; [exact (inv_lock_ok st HI)| |done]. by rewrite pc_lock_get, Hpc.
        * eapply (inv_local E st _ t (PLookup KDst v (Some q))); try done; rewrite ?Hpc; try done.
          -- apply lock_ok_rel; [exact (inv_lock_ok st HI)| |done]. by rewrite pc_lock_get, Hpc.
          -- simpl. split; [auto|]. by intros ? [= <-].
          -- intros. by left.
      + (* PIns *)
        intros [= <-]. destruct Hok as [Hin Hd].
        eapply (inv_local E st _ t (PWork [] (Some (v, q)))); try done; rewrite ?Hpc; try done.
        * apply lock_ok_rel; [exact (inv_lock_ok st HI)| |done]. by rewrite pc_lock_get, Hpc.
        * simpl. split; [by intros ? ?%elem_of_nil|]. intros ? ? [= <- <-].
          exists v. split; [done|]. apply (coh_refl _ HL).
        * intros. by left.
      + (* PRem *)
        destruct Hok as (Hin&_). destruct (table_deref _ _ HI q Hin) as (c&d&Hc&Hcd&_).
        rewrite Hc, Hcd. intros [= <-]. by eapply inv_remove.
      + (* PWork *)
        destruct Hok as [Hfree Hret]. destruct w as [|[p|p|q] w].
        * destruct r as [[v p]|]; intros [= <-].
          -- assert (0 < hc st p) as Hhp by (eapply ret_hc; left; eauto).
             eapply (inv_local E st _ t PFree); try done; rewrite ?Hpc; try done.
             ++ intros q. simpl. unfold is_p. case_bool_decide; destruct (decide (p = q)); simpl; try done; lia.
             ++ apply lock_ok_same; [exact (inv_lock_ok st HI)|]. by rewrite pc_lock_get, Hpc.
             ++ simpl. intros t' v' p' [Hl|Hl]%elem_of_cons; [|by left]. right. simplify_eq.
                split; [done|]. by apply Hret.
          -- eapply (inv_local E st _ t PFree); try done; rewrite ?Hpc; try done.
             ++ apply lock_ok_same; [exact (inv_lock_ok st HI)|]. by rewrite pc_lock_get, Hpc.
             ++ intros. by left.
        * (* IDrop *)
          assert (0 < hc st p) as Hhp.
          { pose proof (hc_ge_pc E st t p) as H. rewrite Hpc in H. simpl in H.
            rewrite is_p_self in H. lia. }
          destruct (hand_deref st p HI Hhp) as (c&d&Hc&Hcd&Hd). rewrite Hc. intros [= <-].
          destruct (cnt_live st p c HI Hfit Hhp Hc) as [Htc Hcnt].
          pose proof (inv_hand _ _ HI p Hhp) as Hin.
          pose proof (inv_cnt _ _ HI p c Hin Hc) as Hcnt2.
          set (x' := PWork (if (c_count c =? 1)%N then IRemove p :: w else w) r).
          set (st' := set_pc _ _ _).
          assert (forall q, pc_handles E q x' = work_handles q w + ret_handles q r) as Hx1.
          { intros q. unfold x'. by destruct (c_count c =? 1)%N. }
          assert (forall q, pc_rc q x' = work_rc q w + if (c_count c =? 1)%N then is_p q p else 0) as Hx2.
          { intros q. unfold x'. destruct (c_count c =? 1)%N; simpl; lia. }
          assert (forall q, hc st' q + is_p q p = hc st q) as Ehc.
          { intros q. pose proof (hc_set_pc E (set_count st p c (count_dec E (c_count c))) t x' q) as H1.
            rewrite hc_set_count in H1 by done. fold st' in H1.
            change (get_pc (set_count _ _ _ _) t) with (get_pc st t) in H1. rewrite Hpc in H1.
            rewrite Hx1 in H1. simpl in H1. lia. }
          assert (tc st' p = tc st p) as Etc.
          { pose proof (tc_set_pc (set_count st p c (count_dec E (c_count c))) t x' p) as H1.
            change (tc (set_count _ _ _ _) p) with (tc st p) in H1. fold st' in H1.
            change (get_pc (set_count _ _ _ _) t) with (get_pc st t) in H1. rewrite Hpc in H1.
            simpl in H1. lia. }
          assert (rc st' p = rc st p + if (c_count c =? 1)%N then 1 else 0) as Erc.
          { pose proof (rc_set_pc (set_count st p c (count_dec E (c_count c))) t x' p) as H1.
            change (rc (set_count _ _ _ _) p) with (rc st p) in H1. fold st' in H1.
            change (get_pc (set_count _ _ _ _) t) with (get_pc st t) in H1. rewrite Hpc in H1.
            rewrite Hx2, is_p_self in H1. simpl in H1. lia. }
          pose proof (Ehc p) as Ehp. rewrite is_p_self in Ehp.
          eapply (inv_count E st st' t x' p c (count_dec E (c_count c))); try done; rewrite ?Hpc; try done.
          -- intros q Hq. rewrite Hx1. simpl. rewrite is_p_ne by done. lia.
          -- intros q Hq. rewrite Hx2. simpl. rewrite is_p_ne by done. destruct (c_count c =? 1)%N; lia.
          -- intros a'. unfold x'. destruct (c_count c =? 1)%N; simpl; lia.
          -- rewrite Hcnt2, dec_mod by (done || lia). f_equal. f_equal. lia.
          -- rewrite Erc, (inv_rem _ _ HI p Hin), Hcnt.
             destruct (N.eqb_spec (N.of_nat (hc st p)) 1), (Nat.eqb_spec (hc st p) 0),
               (Nat.eqb_spec (hc st' p) 0); lia.
          -- lia.
          -- assert (free_ok E st' w) as Hf'.
             { apply (free_ok_mono E st); [intros q Hq; apply Hfree; by right|].
               intros q c' Ho Hq. rewrite <- Hq. apply deref_ext. simpl.
               rewrite lookup_insert_ne; [done|]. intros Ha.
               pose proof (table_not_box _ _ HI p t Hin) as H0. rewrite Hpc in H0. simpl in H0.
               rewrite <- Ha in Ho. lia. }
             assert (ret_ok E st' r) as Hr'.
             { eapply ret_ok_mono; [done|]. intros v p' d' _ Hd'. rewrite <- Hd'.
               transitivity (data (set_count st p c (count_dec E (c_count c))) p'); [done|].
               by apply data_set_count. }
             unfold x'. destruct (c_count c =? 1)%N; simpl; [|done]. split; [|done].
             intros q [?|Hq]%elem_of_cons; [done|]. by apply Hf'.
        * (* IRemove *)
          destruct (rem_hand st t p HI) as (Hin&H0&c&d&Hc&Hcd&Hd).
          { rewrite Hpc. simpl. rewrite is_p_self. lia. }
          rewrite Hd. destruct (st_locks st !! lock_of E d) eqn:Hlk; [done|].
          rewrite (inv_readable _ _ HI).
          destruct (pick i (matches E st d)) as [q|] eqn:Hp; intros [= <-].
          -- apply pick_Some, elem_matches in Hp as [Hq (d'&Hd'&He)]; [|done].
             assert (p = q) as <- by (by eapply inv_uniq).
             eapply (inv_local E st _ t (PRem (lock_of E d) p w r)); try done; rewrite ?Hpc; try done.
             ++ apply lock_ok_acq; [exact (inv_lock_ok st HI)| |done|done]. by rewrite pc_lock_get, Hpc.
             ++ simpl. split; [done|]. split; [by exists d|]. split; [|done].
                intros q' Hq'. apply Hfree. by right.
             ++ intros. by left.
          -- exfalso. pose proof (pick_match_none E HL _ _ _ Hp p d Hin Hd) as Hn.
             rewrite (coh_refl _ HL) in Hn. done.
        * (* IFree *)
          destruct (Hfree q) as (c&Hc&Hk); [by left|]. rewrite Hc. intros [= <-].
          eapply (inv_unbox E st _ t q c (PWork w r) None); try done; rewrite ?Hpc; try done.
          -- simpl. rewrite at_addr_self. lia.
          -- intros p. simpl. unfold cell_handles. destruct (c_data c); [|lia]. rewrite Hk. simpl. lia.
          -- intros a'. simpl. lia.
          -- apply lock_ok_same; [exact (inv_lock_ok st HI)|]. by rewrite pc_lock_get, Hpc.
          -- assert (pc_oc (p_addr q) (get_pc st t) = 1) as Ho1.
             { pose proof (inv_own _ _ HI (p_addr q)) as Ho. unfold oc in Ho.
               pose proof (tsum_ge (pc_oc (p_addr q)) st t eq_refl) as Hg.
               rewrite Hpc in Hg |- *. simpl in Hg |- *. rewrite at_addr_self in *.
               destruct (st_heap st !! p_addr q); lia. }
             rewrite Hpc in Ho1. simpl in Ho1. rewrite at_addr_self in Ho1.
             split.
             ++ apply (free_ok_mono E st); [intros q' Hq'; apply Hfree; by right|].
                intros q' c' Ho Hq'. rewrite <- Hq'. apply deref_ext. simpl.
                rewrite lookup_delete_ne; [done|]. intros Ha. rewrite <- Ha in Ho. lia.
             ++ eapply ret_ok_mono; [done|]. intros v p d Hr Hd. rewrite <- Hd.
                apply data_ext. simpl. rewrite lookup_delete_ne; [done|]. intros Ha.
                assert (p ∈ st_table st) as Hin.
                { apply (pins_table E st t p HI). rewrite Hpc. simpl. eauto. }
                pose proof (table_not_box _ _ HI p t Hin) as Hb. rewrite Hpc in Hb.
                simpl in Hb. rewrite <- Ha, at_addr_self in Hb. lia.
      + (* PLen *)
        destruct (j <? te_shards E).
        * destruct (st_locks st !! (ty, j)); [done|]. intros [= <-].
          eapply (inv_local E st _ t (PLen ty (S j) _)); try done; rewrite ?Hpc; try done.
          -- apply lock_ok_same; [exact (inv_lock_ok st HI)|]. by rewrite pc_lock_get, Hpc.
          -- intros. by left.
        * intros [= <-].
          eapply (inv_local E st _ t PFree); try done; rewrite ?Hpc; try done.
          -- apply lock_ok_same; [exact (inv_lock_ok st HI)|]. by rewrite pc_lock_get, Hpc.
          -- simpl. intros t' v' p' [?|?]%elem_of_cons; [done|by left].
      + (* PShrink *)
        destruct (j <? te_shards E).
        * destruct (st_locks st !! (ty, j)); [done|]. intros [= <-].
          eapply (inv_local E st _ t (PShrink ty (S j))); try done; rewrite ?Hpc; try done.
          -- apply lock_ok_same; [exact (inv_lock_ok st HI)|]. by rewrite pc_lock_get, Hpc.
          -- intros. by left.
        * intros [= <-].
          eapply (inv_local E st _ t PFree); try done; rewrite ?Hpc; try done.
          -- apply lock_ok_same; [exact (inv_lock_ok st HI)|]. by rewrite pc_lock_get, Hpc.
          -- intros. by left.
    - (* LPanic *)
      unfold step_panic. pose proof (inv_pc _ _ HI t) as Hok.
      destruct (get_pc st t) as [|k v b|k v b p|k v b p old|k v b p|k v b|k v q|k v q|k v q|k v q|l q w r|w r|ty j acc|ty j] eqn:Hpc;
        simpl in Hok; try done.
      + intros [= <-].
        eapply (inv_local E st _ t (PWork (drop_args E k v b) None)); try done; rewrite ?Hpc; try done.
        * intros q. simpl. rewrite drop_args_handles. lia.
        * intros q. simpl. rewrite drop_args_rc. lia.
        * intros a'. simpl. by eapply drop_args_oc.
        * apply lock_ok_same; [exact (inv_lock_ok st HI)|]. by rewrite pc_lock_get, Hpc.
        * split; [by apply drop_args_free|done].
        * intros. by left.
      + destruct Hok as [Hb Hk]. rewrite Hb. simpl. intros [= <-].
        set (c := Cell _ _ _ : cell V) in *.
        eapply (inv_unbox E st _ t q c (PWork (drop_box E v q) None)
                  (Some (Cell (p_ser q) 1%N None))); try exact Hb; try done; rewrite ?Hpc; try done.
        * simpl. rewrite at_addr_self. lia.
        * by intros ? [= <-].
        * intros p. simpl. unfold drop_box. rewrite work_handles_app, work_handles_drops.
          unfold cell_handles. simpl. lia.
        * intros p. simpl. unfold drop_box. rewrite work_rc_app, work_rc_drops. done.
        * intros a'. simpl. unfold drop_box. rewrite work_oc_app, work_oc_drops. simpl. lia.
        * apply lock_ok_same; [exact (inv_lock_ok st HI)|]. by rewrite pc_lock_get, Hpc.
        * split; [|done]. intros q' Hq'. unfold drop_box in Hq'. apply elem_of_app in Hq' as [Hq'|Hq'].
          -- apply elem_of_list_fmap in Hq' as (?&?&?). done.
          -- apply elem_of_list_singleton in Hq'. simplify_eq.
             eexists. split; [|by instantiate (1 := Cell (p_ser q) 1%N None)].
             apply deref_Some. simpl. by rewrite lookup_insert.
      + destruct w as [|[p|p|q] w]; try done. intros [= <-]. destruct Hok as [Hfree Hret].
        eapply (inv_local E st _ t _); try done; rewrite ?Hpc; try done.
        * intros q. simpl. rewrite work_handles_app. destruct r as [[v x]|]; simpl; lia.
        * intros q. simpl. rewrite work_rc_app. unfold is_p.
          destruct r as [[v x]|]; case_bool_decide; destruct (decide (p = q)); simpl; try done; lia.
        * intros a'. simpl. rewrite work_oc_app. destruct r as [[v x]|]; simpl; lia.
        * apply lock_ok_same; [exact (inv_lock_ok st HI)|]. by rewrite pc_lock_get, Hpc.
        * split; [|done]. intros q [Hq|Hq]%elem_of_app; [apply Hfree; by right|].
          destruct r as [[v x]|]; [|by apply elem_of_nil in Hq].
          by apply elem_of_list_singleton in Hq.
        * intros. by left.
  Qed.
End safe.

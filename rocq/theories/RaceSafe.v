(** The steps of ArcIntern with their memory operations: assembling RaceStep.v. *)
From stdpp Require Import gmap list numbers.
From Verif Require Import Base ArcModel ArcSpec ArcInv ArcStep ArcSafe ArcReach RaceModel RaceInv RaceStep.
Require Import ZifyBool ZifyNat ZifyN.

Section safe.
  Context {V : Type} (E : tyenv V) (O : orders).
  Implicit Types (st : state V) (s : rstate V) (p q : ptr) (tr : list access) (W : gset nat).
  Notation RInv := (RInv E).
  Notation Inv := (Inv E).
  Notation cov := (cov E).
  Notation resp := (resp E).
  Notation hc := (handles_to E).

  (** ** Commutation *)
  Lemma set_st_st s st st' : set_st (set_st s st) st' = set_st s st'.
  Proof. done. Qed.
  Lemma set_st_id s : set_st s (r_st s) = s.
  Proof. by destruct s. Qed.
  Lemma apply_set_st s st t m : apply (set_st s st) t m = set_st (apply s t m) st.
  Proof.
    destruct m as [l|l|l|k o|k o|m|m]; try done; cbn [apply].
    - destruct (acquires o), (releases o); done.
    - destruct (acquires o); done.
  Qed.
  Lemma applies_set_st s st t ms : applies (set_st s st) t ms = set_st (applies s t ms) st.
  Proof.
    revert s. induction ms as [|m ms IH]; intros s; [done|]. unfold applies in *. simpl.
    rewrite apply_set_st. apply IH.
  Qed.
  Lemma apply_st s t m : r_st (apply s t m) = r_st s.
  Proof. apply (apply_frame s t m). Qed.
  Lemma set_pc_set_pc st t x y : set_pc (set_pc st t x) t y = set_pc st t y.
  Proof. unfold set_pc. simpl. by rewrite insert_insert. Qed.
  Lemma unlock_lock st l t : st_locks st !! l = None -> unlock (lock st l t) l = st.
  Proof. intros Hn. destruct st. unfold unlock, lock. simpl in *. by rewrite delete_insert. Qed.

  (** ** Facts about the states of ArcModel *)
  Definition ser_inj st : Prop :=
    forall p q, live st p -> live st q -> p_ser p = p_ser q -> p = q.

  Lemma live_ser st p : Inv st -> live st p -> p_ser p < st_next st.
  Proof. intros HI [c Hc]. apply deref_Some in Hc as [Hc <-]. by eapply inv_ser. Qed.
  Lemma live_addr st p q : live st p -> live st q -> p_addr p = p_addr q -> p = q.
  Proof.
    intros [c Hc] [c' Hc'] Ha. apply deref_Some in Hc as [Hc Hs], Hc' as [Hc' Hs'].
    rewrite Ha in Hc. simplify_eq. destruct p, q; simpl in *. congruence.
  Qed.
  Lemma tab_live st p : Inv st -> p ∈ st_table st -> live st p.
  Proof. intros HI Hp. destruct (inv_live _ _ HI p Hp) as [d Hd]. by eapply data_live. Qed.
  Lemma hc_live st p : Inv st -> 0 < hc st p -> live st p.
  Proof. intros HI Hp. apply tab_live; [done|]. by apply (inv_hand _ _ HI). Qed.
  Lemma kid_hc st p d k : data st p = Some d -> k ∈ te_kids E d -> 0 < hc st k.
  Proof.
    intros (c&Hc&Hd)%data_Some Hk. apply deref_Some in Hc as [Hc _]. by eapply hc_ge_kids.
  Qed.
  Lemma pc_live st p t : Inv st -> 0 < pc_handles E p (get_pc st t) -> live st p.
  Proof. intros HI Hp. apply hc_live; [done|]. pose proof (hc_ge_pc E st t p). lia. Qed.
  Lemma rc_live st p t : Inv st -> 0 < pc_rc p (get_pc st t) -> live st p.
  Proof.
    intros HI Hp. destruct (rem_hand E st t p HI Hp) as (?&_&_). by apply tab_live.
  Qed.
  Lemma at_addr_pos a q : 0 < at_addr a q <-> p_addr q = a.
  Proof. unfold at_addr, b2n. destruct (Nat.eqb_spec (p_addr q) a); split; intros; try lia; done. Qed.
  Lemma is_p_pos p q : 0 < is_p p q <-> q = p.
  Proof. unfold is_p, b2n. case_bool_decide; split; intros; try lia; done. Qed.
  Lemma at_is_p st p q : live st p -> live st q -> at_addr (p_addr p) q = is_p p q.
  Proof.
    intros Hp Hq. unfold at_addr, is_p. destruct (Nat.eqb_spec (p_addr q) (p_addr p)) as [He|He].
    - rewrite (live_addr _ _ _ Hq Hp He). by rewrite bool_decide_eq_true_2.
    - rewrite bool_decide_eq_false_2; [done|]. by intros ->.
  Qed.

  (** Whoever is about to remove an object, or owns its memory, is alone. *)
  Lemma dying_alone st t q : Inv st -> 0 < pc_rc q (get_pc st t) ->
    hc st q = 0 /\ q ∈ st_table st /\ q ∉ st_zombies st /\
    (forall u, u <> t -> ~ resp st q u) /\ pc_handles E q (get_pc st t) = 0 /\
    (forall u, u <> t -> pc_rc q (get_pc st u) = 0) /\
    pc_rc q (get_pc st t) = 1.
  Proof.
    intros HI Hq. destruct (rem_hand E st t q HI Hq) as (Ht&Hh&_).
    pose proof (inv_rem _ _ HI q Ht) as Hr. rewrite Hh in Hr. simpl in Hr. unfold rc in Hr.
    pose proof (tsum_ge (pc_rc q) st t eq_refl) as Hge.
    assert (forall u, u <> t -> pc_rc q (get_pc st u) = 0) as Hu.
    { intros u Hu. pose proof (tsum_ge2 (pc_rc q) st t u eq_refl (not_eq_sym Hu)). lia. }
    assert (forall u, pc_handles E q (get_pc st u) = 0) as Hpc.
    { intros u. pose proof (hc_ge_pc E st u q). lia. }
    split; [done|]. split; [done|]. split; [apply occ_zero; lia|]. split; [|split; [done|split; [done|lia]]].
    intros u Hne [Hp|[Hp|Hp]].
    - rewrite Hpc in Hp. lia.
    - rewrite Hu in Hp by done. lia.
    - rewrite (table_not_box _ _ HI) in Hp by done. lia.
  Qed.

  Lemma box_only st t q : Inv st -> live st q -> 0 < pc_oc (p_addr q) (get_pc st t) ->
    hc st q = 0 /\ q ∉ st_table st /\ q ∉ st_zombies st /\ (forall u, u <> t -> ~ resp st q u).
  Proof.
    intros HI Hl Hq.
    assert (q ∉ st_table st) as Ht.
    { intros Ht. rewrite (table_not_box _ _ HI) in Hq by done. lia. }
    assert (hc st q = 0) as Hh.
    { destruct (decide (hc st q = 0)); [done|]. destruct Ht. apply (inv_hand _ _ HI). lia. }
    assert (rc st q = 0) as Hr.
    { destruct (decide (rc st q = 0)); [done|]. destruct Ht. apply (inv_rem_in _ _ HI). lia. }
    split; [done|]. split; [done|]. unfold rc in Hr. split; [apply occ_zero; lia|].
    intros u Hne [Hp|[Hp|Hp]].
    - pose proof (hc_ge_pc E st u q). lia.
    - pose proof (tsum_ge (pc_rc q) st u eq_refl). lia.
    - rewrite (box_alone _ _ HI _ t u) in Hp by done. lia.
  Qed.

  Lemma hc0 st q : hc st q = 0 -> q ∉ st_pool st /\ q ∉ st_gone st /\
    forall p d, data st p = Some d -> q ∉ te_kids E d.
  Proof.
    intros H0. unfold handles_to in H0. split; [apply occ_zero; lia|]. split; [apply occ_zero; lia|].
    intros p d Hd Hk. pose proof (kid_hc st p d q Hd Hk) as H. unfold handles_to in H. lia.
  Qed.

  (** ** The combined invariant *)
  Record Good s : Prop := MkGood {
    g_inv : Inv (r_st s);
    g_ri : RInv s;
    g_pool : forall p, occ p (st_pool (r_st s)) = msum (λ x, is_p p (h_ptr x)) (r_hands s);
    g_ser : ser_inj (r_st s);
  }.

  Lemma hand_pool s h x : Good s -> r_hands s !! h = Some x -> h_ptr x ∈ st_pool (r_st s).
  Proof.
    intros HG Hx. apply occ_pos. rewrite (g_pool _ HG).
    pose proof (msum_ge (λ y, is_p (h_ptr x) (h_ptr y)) _ _ _ Hx) as H. simpl in H.
    rewrite is_p_self in H. lia.
  Qed.
  Lemma hand_hc s h x : Good s -> r_hands s !! h = Some x -> 0 < hc (r_st s) (h_ptr x).
  Proof. intros HG Hx. apply hc_ge_pool. by eapply hand_pool. Qed.

  (** ** Searching a shard *)
  Lemma elem_shard st l k w : (k, w) ∈ shard E st l ->
    w = TRead /\ exists q d, p_ser q = k /\ q ∈ st_table st /\ data st q = Some d /\ lock_of E d = l.
  Proof.
    unfold shard. intros (q&[= -> ->]&Hq)%elem_of_list_fmap. split; [done|].
    apply elem_of_list_In, filter_In in Hq as [Hq Hs]. apply elem_of_list_In in Hq.
    unfold in_shard in Hs. destruct (data st q) as [d|] eqn:Hd; [|done]. exists q, d.
    split; [done|]. split; [done|]. split; [done|]. apply andb_prop in Hs as [H1 H2].
    destruct l as [l1 l2]. unfold lock_of. simpl in *. f_equal; by apply Nat.eqb_eq.
  Qed.

  Lemma ri_scan s t l : RInv s -> Inv (r_st s) -> ser_inj (r_st s) -> st_locks (r_st s) !! l = Some t ->
    RInv (apply s t (MTouch (shard E (r_st s) l))).
  Proof.
    intros HI HA HS Hlk. apply ri_touch'; [done| | |].
    - intros k [? _]%elem_shard. done.
    - intros k w [_ (q&d&<-&Hq&Hd&Hl)]%elem_shard. split.
      + apply (live_ser (r_st s)); [done|]. by apply tab_live.
      + intros i Hi. rewrite <- (lview_seen _ _ _ Hlk). rewrite <- Hl. by eapply (ri_ktab _ _ HI).
    - intros p w Hl [_ (q&d&He&Hq&Hd&Hld)]%elem_shard. right.
      assert (q = p) as -> by (apply HS; [by apply tab_live|done|done]).
      exists d. split; [done|]. split; [done|]. by rewrite Hld.
  Qed.
  Lemma ri_search s t l : RInv s -> Inv (r_st s) -> ser_inj (r_st s) -> st_locks (r_st s) !! l = None ->
    RInv (set_st (applies s t [MAcq l; MTouch (shard E (r_st s) l)]) (lock (r_st s) l t)).
  Proof.
    intros HI HA HS Hn. pose proof (ri_acq E s t l HI Hn) as H1.
    set (s1 := set_st (apply s t (MAcq l)) (lock (r_st s) l t)) in *.
    change (RInv (add_access s1 t (shard E (r_st s) l))).
    assert (st_locks (r_st s1) !! l = Some t) as Hlk by (simpl; apply lookup_insert).
    apply ri_touch'; [done| | |].
    - intros k [? _]%elem_shard. done.
    - intros k w [_ (q&d&<-&Hq&Hd&Hl)]%elem_shard. split.
      + apply (live_ser (r_st s)); [done|]. by apply tab_live.
      + intros i Hi. rewrite <- (lview_seen _ _ _ Hlk). rewrite <- Hl. by eapply (ri_ktab _ _ H1).
    - intros p w Hl [_ (q&d&He&Hq&Hd&Hld)]%elem_shard. right.
      assert (q = p) as -> by (apply HS; [by apply tab_live|done|done]).
      exists d. split; [done|]. split; [done|]. by rewrite Hld.
  Qed.

  Lemma ri_search_rel s t l : RInv s -> Inv (r_st s) -> ser_inj (r_st s) -> st_locks (r_st s) !! l = None ->
    RInv (applies s t [MAcq l; MTouch (shard E (r_st s) l); MRel l]).
  Proof.
    intros HI HA HS Hn. pose proof (ri_search s t l HI HA HS Hn) as H1.
    set (s1 := set_st _ _) in H1.
    assert (st_locks (r_st s1) !! l = Some t) as Hlk by (simpl; apply lookup_insert).
    pose proof (ri_rel E s1 t l H1 Hlk) as H2.
    unfold s1 in H2 at 2. change (r_st (set_st ?a ?b)) with b in H2. rewrite unlock_lock in H2 by done.
    unfold s1 in H2. rewrite apply_set_st in H2. exact H2.
  Qed.

  Lemma ri_searched s t l : RInv s -> Inv (r_st s) -> ser_inj (r_st s) ->
    RInv (applies s t (searched E (r_st s) l)).
  Proof.
    intros HI HA HS. unfold searched. destruct (st_locks (r_st s) !! l) eqn:Hl; [done|].
    by apply ri_search_rel.
  Qed.

  (** ** Counts *)
  Lemma ri_set_count s p c n : RInv s -> deref (r_st s) p = Some c ->
    RInv (set_st s (set_count (r_st s) p c n)).
  Proof.
    intros HI Hc. apply ri_same; try done.
    - intros q. by apply data_set_count.
    - intros q. unfold live. rewrite (deref_set_count _ _ _ _ _ Hc).
      destruct (decide (p_addr q = p_addr p)); [|done]. destruct (deref (r_st s) q); [|done].
      split; intros; by eexists.
  Qed.

  Definition Fit s := forall p, (N.of_nat (hc (r_st s) p) < te_mod E)%N.

  Lemma own_tab st p t : Inv st -> p ∈ st_table st -> own st p t -> 0 < pc_rc p (get_pc st t).
  Proof. intros HI Hp [?|Ho]; [done|]. rewrite (table_not_box _ _ HI) in Ho by done. lia. Qed.

  Context (HL : coherent E) (Hacq : acquires (o_sub O) = true) (Hrel : releases (o_sub O) = true).

  Ltac pcs Hpc := unfold RaceInv.resp, own, get_pc in *; simpl in *; rewrite ?lookup_insert, ?Hpc; simpl.

  (** RMW of a count by the holder of the lock. *)
  Lemma ri_rmw_lock s t p d o : RInv s -> Inv (r_st s) -> ser_inj (r_st s) ->
    p ∈ st_table (r_st s) -> data (r_st s) p = Some d -> st_locks (r_st s) !! lock_of E d = Some t ->
    RInv (apply s t (MRmw (p_ser p) o)).
  Proof.
    intros HI HA HS Hp Hd Hlk. pose proof (tab_live _ _ HA Hp) as Hl. apply ri_rmw; [done| | | |].
    - by apply live_ser.
    - intros i Hi. rewrite <- (lview_seen _ _ _ Hlk). by eapply ri_ktab.
    - intros p' Hl' He. right. exists d. rewrite (HS p' p Hl' Hl He). done.
    - intros p' u Hl' He Ho. right. exists d. rewrite (HS p' p Hl' Hl He). done.
  Qed.

  (** A thread goes on and gets hold of objects it knows. *)
  Lemma ri_gain s t x : RInv s ->
    let st' := set_pc (r_st s) t x in
    (forall p, live (r_st s) p -> resp (r_st s) p t -> resp st' p t) ->
    (forall p, live (r_st s) p -> resp st' p t -> resp (r_st s) p t \/
       forall i, writes (r_trace s) (p_ser p) i -> i ∈ seen s t) ->
    (forall p, live (r_st s) p -> own st' p t -> own (r_st s) p t) ->
    RInv (set_st s st').
  Proof.
    intros HI st' H1 H2 H3. apply ri_set_pc; [done|..].
    - intros p e Hl Hr He. apply (cov_thread _ _ _ _ t); [by apply H1|done].
    - intros p i Hl Hr Hi. destruct (H2 p Hl Hr) as [?|Hw]; [|by apply Hw]. by apply (ri_kthr _ _ HI p).
    - intros p e Hl Hr. apply (ri_own _ _ HI); [done|by apply H3].
  Qed.

  (** Destroying [q] from a state like [s] but for the thread itself and the table. *)
  Lemma ri_kill s s3 t q st' : Good s -> RInv s3 ->
    r_hands s3 = r_hands s -> st_heap (r_st s3) = st_heap (r_st s) ->
    st_gone (r_st s3) = st_gone (r_st s) -> st_zombies (r_st s3) = st_zombies (r_st s) ->
    (forall p, p ∈ st_table (r_st s3) -> p ∈ st_table (r_st s)) -> q ∉ st_table (r_st s3) ->
    (forall u, u <> t -> get_pc (r_st s3) u = get_pc (r_st s) u) ->
    live (r_st s) q -> hc (r_st s) q = 0 -> q ∉ st_zombies (r_st s) ->
    (forall u, u <> t -> ~ resp (r_st s) q u) -> own (r_st s3) q t ->
    (forall d k, data (r_st s) q = Some d -> k ∈ te_kids E d -> resp (r_st s3) k t) ->
    st_locks st' = st_locks (r_st s3) -> st_table st' = st_table (r_st s3) ->
    st_gone st' = st_gone (r_st s3) -> st_zombies st' = st_zombies (r_st s3) ->
    st_next st' = st_next (r_st s3) -> (forall t, get_pc st' t = get_pc (r_st s3) t) ->
    (st_heap st' = delete (p_addr q) (st_heap (r_st s)) \/
     exists c n, st_heap (r_st s) !! p_addr q = Some c /\
       st_heap st' = <[p_addr q := Cell (c_ser c) n None]> (st_heap (r_st s))) ->
    RInv (set_st (add_access s3 t [(p_ser q, TWrite)]) st').
  Proof.
    intros HG HI B1 B2 B3 B4 B5 B6 B7 Hl Hh Hz Hr Ho Hk F1 F2 F3 F4 F5 F6 F7.
    assert (forall p, deref (r_st s3) p = deref (r_st s) p) as Hder.
    { intros p. apply deref_ext. by rewrite B2. }
    assert (forall p, data (r_st s3) p = data (r_st s) p) as Hda.
    { intros p. apply data_ext. by rewrite B2. }
    assert (forall p, live (r_st s3) p <-> live (r_st s) p) as Hli.
    { intros p. unfold live. by rewrite Hder. }
    destruct (hc0 _ _ Hh) as (Hpl&Hgn&Hkd).
    assert (forall p, p <> q -> deref st' p = deref (r_st s) p \/ deref st' p = None /\ ~ live (r_st s) p) as Hne.
    { intros p Hp. unfold deref at 1 3. destruct (decide (p_addr q = p_addr p)) as [He|Ha].
      - assert (~ live (r_st s) p) as Hnl.
        { intros Hlp. destruct Hp. by apply (live_addr (r_st s)). }
        right. split; [|done]. destruct F7 as [->|(c&n&Hc&->)].
        + by rewrite <- He, lookup_delete.
        + rewrite <- He, lookup_insert. simpl. destruct (Nat.eqb_spec (c_ser c) (p_ser p)); [|done].
          destruct Hnl. exists c. apply deref_Some. by rewrite <- He.
      - left. destruct F7 as [->|(c&n&Hc&->)]; [by rewrite lookup_delete_ne|by rewrite lookup_insert_ne]. }
    apply (ri_destroy E); try done.
    - constructor; try done.
      + by apply Hli.
      + by rewrite B3.
      + by rewrite B4.
      + intros u Hru. destruct (decide (u = t)) as [|Hu]; [done|]. destruct (Hr u Hu).
        unfold RaceInv.resp, own in *. by rewrite B7 in Hru.
      + intros h x. rewrite B1. intros Hx <-. apply Hpl. by eapply hand_pool.
      + intros p d. rewrite Hda. apply Hkd.
    - intros p Hp%Hli He. by apply (g_ser _ HG).
    - intros h y. rewrite B1. intros Hy. apply Hli, hc_live; [apply HG|]. by eapply hand_hc.
    - intros p Hp%B5. apply Hli, tab_live; [apply HG|done].
    - intros p d. rewrite Hda. intros Hd k Hk'. apply Hli, hc_live; [apply HG|]. by eapply kid_hc.
    - intros d k. rewrite Hda. apply Hk.
    - intros p Hp. rewrite Hda. unfold data. destruct (Hne p Hp) as [->|[-> Hnl]]; [done|].
      destruct (deref (r_st s) p) eqn:Hd; [|done]. destruct Hnl. by eexists.
    - unfold data, deref. destruct F7 as [->|(c&n&Hc&->)].
      + by rewrite lookup_delete.
      + rewrite lookup_insert. simpl. by destruct (c_ser c =? p_ser q).
    - intros p Hp. apply Hli. destruct (decide (p = q)) as [->|Hpq]; [done|].
      destruct (Hne p Hpq) as [He|[He _]]; unfold live in *; rewrite He in Hp; [done|by destruct Hp].
  Qed.

  Lemma work_handles_box p d q w :
    work_handles p (drop_box E d q ++ w) = occ p (te_kids E d) + work_handles p w.
  Proof. unfold drop_box. rewrite !work_handles_app, work_handles_drops. simpl. lia. Qed.
  Lemma work_rc_box p d q w : work_rc p (drop_box E d q ++ w) = work_rc p w.
  Proof. unfold drop_box. rewrite !work_rc_app, work_rc_drops. simpl. lia. Qed.
  Lemma work_oc_box a d q w : work_oc a (drop_box E d q ++ w) = at_addr a q + work_oc a w.
  Proof. unfold drop_box. rewrite !work_oc_app, work_oc_drops. simpl. lia. Qed.
  Lemma kids_known s t q d k : RInv s -> data (r_st s) q = Some d -> k ∈ te_kids E d -> resp (r_st s) q t ->
    forall i, writes (r_trace s) (p_ser k) i -> i ∈ seen s t.
  Proof.
    intros HI Hd Hk Hr. eapply (owns_known E s t q); [done| |].
    - eapply owns_step; [done|done|apply owns_refl].
    - intros i. apply (ri_kthr _ _ HI q); [by eapply data_live|done].
  Qed.

  Lemma ri_step s t a i st' : Good s -> Fit s ->
    (forall v p, get_pc (r_st s) t <> PWork [] (Some (v, p))) ->
    step_thread E (r_st s) t a i = Next st' ->
    RInv (applies (set_st s st') t (mops E O (r_st s) t i)).
  Proof.
    intros HG Hfit Hnr Hs. pose proof HG as [HA HI _ HS].
    rewrite applies_set_st.
    assert (forall p, live (r_st s) p -> p_ser p < st_next (r_st s)) as Hser by (intros; by apply live_ser).
    unfold step_thread in Hs. unfold mops. pose proof (inv_pc _ _ HA t) as Hok.
    assert (forall l, pc_lock E (get_pc (r_st s) t) = Some l -> st_locks (r_st s) !! l = Some t) as Hlock.
    { intros l. by apply (inv_lock _ _ HA). }
    destruct (get_pc (r_st s) t) as [|k v b|k v b p|k v b p old|k v b p|k v b|k v q|k v q|k v q|k v q|l q w r|w r|ty j acc|ty j] eqn:Hpc; simpl in Hok, Hlock.
    - done.
    - (* PLookup *)
      destruct (st_locks (r_st s) !! lock_of E v) eqn:Hn; [done|].
      destruct (readable (r_st s)) eqn:Hrd; [|done].
      destruct (pick i (matches E (r_st s) v)) as [p|] eqn:Hp.
      + injection Hs as <-. pose proof (ri_search s t _ HI HA HS Hn) as H1.
        apply (ri_goto E _ t (PHit k v b p)) in H1; [exact H1| |]; intros p0 Hl0; pcs Hpc; lia.
      + injection Hs as <-. pose proof (ri_search_rel s t _ HI HA HS Hn) as H1.
        rewrite <- (set_st_id (applies s t _)) in H1.
        apply (ri_goto E _ t (PAlloc k v b)) in H1; [exact H1| |]; intros p0 Hl0; pcs Hpc; lia.
    - (* PHit *)
      destruct Hok as (Harg&Hp&d&Hd&He). specialize (Hlock _ eq_refl). rewrite (law_lock E HL _ _ He) in Hlock.
      destruct (deref (r_st s) p) as [c|] eqn:Hc; [|done]. injection Hs as <-.
      pose proof (ri_rmw_lock s t p d (o_add O) HI HA HS Hp Hd Hlock) as H1.
      cbn [applies fold_left]. change (fold_left _ [_] s) with (apply s t (MRmw (p_ser p) (o_add O))).
      set (s1 := apply s t _) in *.
      assert (r_st s1 = r_st s) as Hst by apply apply_st.
      pose proof (ri_set_count s1 p c (count_inc E (c_count c)) H1) as H2. rewrite Hst in H2.
      specialize (H2 Hc).
      apply (ri_gain _ t (PInc k v b p (c_count c))) in H2; [exact H2| | |]; intros p0 Hl0; simpl in Hl0.
      + pcs Hpc. lia.
      + intros Hr. destruct (decide (p0 = p)) as [->|Hne].
        * right. intros j Hj. change (j ∈ seen s1 t).
          assert (st_locks (r_st s1) !! lock_of E d = Some t) as Hlk1 by (by rewrite Hst).
          rewrite <- (lview_seen _ _ _ Hlk1). eapply (ri_ktab _ _ H1); rewrite ?Hst; done.
        * left. revert Hr. pcs Hpc. rewrite (is_p_ne p0 p) by done. destruct (c_count c =? 0)%N; lia.
      + pcs Hpc. lia.
    - (* PInc *)
      destruct Hok as (Harg&(Hp&d&Hd&He)&Hold). specialize (Hlock _ eq_refl).
      destruct (N.eqb_spec old 0) as [->|Hne].
      + rewrite (law_lock E HL _ _ He) in Hlock.
        destruct (deref (r_st s) p) as [c|] eqn:Hc; [|done]. injection Hs as <-.
        pose proof (ri_rmw_lock s t p d (o_undo O) HI HA HS Hp Hd Hlock) as H1.
        change (applies s t _) with (apply s t (MRmw (p_ser p) (o_undo O))).
        set (s1 := apply s t _) in *.
        assert (r_st s1 = r_st s) as Hst by apply apply_st.
        pose proof (ri_set_count s1 p c (count_dec E (c_count c)) H1) as H2. rewrite Hst in H2.
        specialize (H2 Hc).
        apply (ri_goto E _ t (PUndo k v b p)) in H2; [exact H2| |]; intros p0 Hl0; pcs Hpc; lia.
      + injection Hs as <-. pose proof (ri_rel E s t _ HI Hlock) as H1.
        apply (ri_goto E _ t (PWork (drop_args E k v b) (Some (v, p)))) in H1; [exact H1| |];
          intros p0 Hl0; pcs Hpc; rewrite ?drop_args_handles, ?drop_args_rc, ?(drop_args_oc E (r_st s)) by done;
          rewrite ?(proj2 (N.eqb_neq _ _) Hne); lia.
    - (* PUndo *)
      injection Hs as <-. specialize (Hlock _ eq_refl). pose proof (ri_rel E s t _ HI Hlock) as H1.
      apply (ri_goto E _ t (PLookup k v b)) in H1; [exact H1| |]; intros p0 Hl0; pcs Hpc; lia.
    - (* PAlloc *)
      assert (forall (q : ptr), k = KDst -> b = Some q -> st' = set_pc (r_st s) t (PEntry k v q) ->
              RInv (set_st s st')) as Hreuse.
      { intros q -> -> ->. destruct Hok as [Hk0 Hbx]. simpl in *.
        apply ri_goto; [done| |]; intros p0 Hl0; pcs Hpc; lia. }
      assert (b = None \/ k = KSized -> st_heap (r_st s) !! a = None ->
              st' = set_pc (alloc (r_st s) a v) t (PEntry k v (Ptr a (st_next (r_st s)))) ->
              RInv (set_st (applies s t [MTouch [(st_next (r_st s), TWrite)]]) st')) as Hnew.
      { intros Hb Ha ->. assert (b = None) as -> by (destruct Hb as [?| ->]; done).
        apply (ri_create E s t a v); try done.
        - intros p Hp. by apply tab_live.
        - intros h y Hy. apply hc_live; [done|]. by eapply hand_hc.
        - intros p u. by apply pc_live.
        - intros p u. by apply rc_live.
        - intros u. pose proof (inv_own _ _ HA a) as Ho. rewrite Ha in Ho. unfold oc in Ho.
          pose proof (tsum_ge (pc_oc a) (r_st s) u eq_refl). lia.
        - intros p d Hd k0 Hk0. apply hc_live; [done|]. by eapply kid_hc.
        - intros k0 Hk0. assert (0 < pc_handles E k0 (get_pc (r_st s) t)) as Hh.
          { rewrite Hpc. simpl. destruct k; simpl in *; [by apply occ_pos|].
            destruct Hok as [Hk1 _]. rewrite Hk1 in Hk0. by apply elem_of_nil in Hk0. }
          split; [by left|]. by eapply pc_live.
        - intros p Hl Hr. right. revert Hr. pcs Hpc. intros [Hh|[Hh|Hh]]; [|lia|lia].
          destruct k; simpl in *; [by apply occ_pos|lia].
        - intros p [c Hc]. pcs Hpc. intros [Hh|[Hh|Hh]]; [lia|lia|].
          apply at_addr_pos in Hh. simpl in Hh. subst a. apply deref_Some in Hc as [Hc _]. congruence.
        - intros p [c Hc]. pcs Hpc. intros [Hh|Hh]; [lia|].
          apply at_addr_pos in Hh. simpl in Hh. subst a. apply deref_Some in Hc as [Hc _]. congruence.
        - pcs Hpc. right. right. by apply at_addr_pos. }
      destruct k.
      + destruct (st_heap (r_st s) !! a) eqn:Ha; [done|]. injection Hs as <-. apply Hnew; [by right|done|done].
      + destruct b as [q|].
        * injection Hs as <-. by eapply Hreuse.
        * destruct (st_heap (r_st s) !! a) eqn:Ha; [done|]. injection Hs as <-. apply Hnew; [by left|done|done].
    - (* PEntry *)
      destruct Hok as [Hbox Hkd]. assert (data (r_st s) q = Some v) as Hd.
      { unfold data. by rewrite Hbox. }
      assert (live (r_st s) q) as Hlq by (by eapply data_live).
      assert (resp (r_st s) q t) as Hrq.
      { right. right. rewrite Hpc. simpl. by apply at_addr_pos. }
      rewrite Hd in Hs. destruct (st_locks (r_st s) !! lock_of E v) eqn:Hn; [done|].
      destruct (readable (r_st s)) eqn:Hrd; [|done].
      assert (RInv (apply s t (MTouch [(p_ser q, TRead)]))) as H1.
      { apply ri_touch'; [done| | |].
        - intros k0 [=]%elem_of_list_singleton.
        - intros k0 w [= -> ->]%elem_of_list_singleton. split; [by apply Hser|].
          intros j. by apply (ri_kthr _ _ HI q).
        - intros p w Hl [= He ->]%elem_of_list_singleton. left. by rewrite (HS p q Hl Hlq He). }
      set (s1 := apply s t _) in *.
      pose proof (ri_search s1 t _ H1 HA HS Hn) as H2.
      destruct (pick i (matches E (r_st s) v)) as [p|] eqn:Hp; injection Hs as <-.
      + apply (ri_goto E _ t (POcc k v q)) in H2; [exact H2| |]; intros p0 Hl0; pcs Hpc; lia.
      + apply (ri_goto E _ t (PVac k v q)) in H2; [exact H2| |]; intros p0 Hl0; pcs Hpc; lia.
    - (* PVac *)
      destruct Hok as (Hbox&Hkd&_). specialize (Hlock _ eq_refl).
      assert (data (r_st s) q = Some v) as Hd.
      { unfold data. by rewrite Hbox. }
      assert (live (r_st s) q) as Hlq by (by eapply data_live).
      injection Hs as <-.
      assert (resp (r_st s) q t) as Hrq.
      { right. right. rewrite Hpc. simpl. by apply at_addr_pos. }
      pose proof (ri_scan s t _ HI HA HS Hlock) as H0.
      change (applies s t _) with (apply s t (MTouch (shard E (r_st s) (lock_of E v)))).
      pose proof (ri_insert E _ t q v H0 Hd Hrq Hlock) as H1.
      apply (ri_goto E _ t (PIns k v q)) in H1; [exact H1| |]; intros p0 Hl0.
      + pose proof (at_is_p (r_st s) p0 q Hl0 Hlq) as Heq. pcs Hpc. lia.
      + pcs Hpc. lia.
    - (* POcc *)
      destruct Hok as [Hbox Hkd]. specialize (Hlock _ eq_refl).
      assert (data (r_st s) q = Some v) as Hd.
      { unfold data. by rewrite Hbox. }
      assert (live (r_st s) q) as Hlq by (by eapply data_live).
      pose proof (ri_rel E s t _ HI Hlock) as H1.
      destruct k.
      + unfold box_ok in Hbox. rewrite Hbox in Hs. simpl in Hs. injection Hs as <-.
        assert (0 < pc_oc (p_addr q) (get_pc (r_st s) t)) as Hoq.
        { rewrite Hpc. simpl. by apply at_addr_pos. }
        destruct (box_only _ t q HA Hlq Hoq) as (Hh&Htb&Hz&Hr).
        pose proof H1 as H2.
        apply (ri_gain _ t (PWork (drop_box E v q ++ []) None)) in H2.
        2:{ intros p0 Hl0. pcs Hpc. rewrite work_handles_box, work_rc_box, work_oc_box. simpl. lia. }
        2:{ intros p0 Hl0. pcs Hpc. rewrite work_handles_box, work_rc_box, work_oc_box. simpl.
            intros Hr0. destruct (decide (p0 ∈ te_kids E v)) as [Hin|Hin].
            - right. apply (kids_known s t q v p0 HI Hd Hin). right. by right.
            - left. apply occ_zero in Hin. lia. }
        2:{ intros p0 Hl0. pcs Hpc. rewrite work_rc_box, work_oc_box. simpl. lia. }
        pose proof H2 as H3.
        apply (ri_kill s _ t q (set_pc (free (unlock (r_st s) (lock_of E v)) q) t (PWork (drop_box E v q ++ []) None))) in H3;
          try done; [| | | |].
        * apply (ri_goto E _ t (PLookup KSized v None)) in H3.
          -- simpl in H3. rewrite set_pc_set_pc in H3. exact H3.
          -- intros p0 Hl0. pcs Hpc. rewrite work_handles_box, work_rc_box, work_oc_box. simpl.
             destruct (decide (p_addr q = p_addr p0)) as [Ha|Ha].
             ++ destruct Hl0 as [c Hc]. apply deref_Some in Hc as [Hc _]. simpl in Hc.
                rewrite <- Ha, lookup_delete in Hc. done.
             ++ rewrite at_addr_ne by done. lia.
          -- intros p0 Hl0. pcs Hpc. lia.
        * intros u Hu. simpl. rewrite get_pc_set, decide_False by done. done.
        * right. pcs Hpc. rewrite work_oc_box. pose proof (proj2 (at_addr_pos (p_addr q) q) eq_refl). lia.
        * intros d k0 Hd' Hk0. simplify_eq. left. pcs Hpc. rewrite work_handles_box.
          apply occ_pos in Hk0. lia.
        * by left.
      + injection Hs as <-.
        apply (ri_goto E _ t (PLookup KDst v (Some q))) in H1; [exact H1| |]; intros p0 Hl0; pcs Hpc; lia.
    - (* PIns *)
      injection Hs as <-. specialize (Hlock _ eq_refl). pose proof (ri_rel E s t _ HI Hlock) as H1.
      apply (ri_goto E _ t (PWork [] (Some (v, q)))) in H1; [exact H1| |]; intros p0 Hl0; pcs Hpc; lia.
    - (* PRem *)
      destruct Hok as (Hq&(d&Hd&<-)&Hfree&Hret). specialize (Hlock _ eq_refl).
      pose proof Hd as (c&Hc&Hcd)%data_Some. rewrite Hc, Hcd in Hs. injection Hs as <-.
      assert (0 < pc_rc q (get_pc (r_st s) t)) as Hrc.
      { rewrite Hpc. simpl. rewrite is_p_self. lia. }
      destruct (dying_alone _ t q HA Hrc) as (Hh&_&Hz&Hr&Hph&_).
      assert (live (r_st s) q) as Hlq by (by eapply data_live).
      assert (resp (r_st s) q t) as Hrq by (right; by left).
      pose proof (ri_delete E s t q d HI Hd Hrq) as H1. feed specialize H1.
      { intros u Hu. destruct (decide (u = t)) as [|Hne]; [done|]. destruct (Hr u Hne). by right. }
      { done. }
      apply (ri_rel E _ t (lock_of E d)) in H1; [|done].
      pose proof H1 as H2.
      apply (ri_gain _ t (PWork (drop_box E d q ++ w) r)) in H2.
      2:{ intros p0 Hl0. pose proof (at_is_p (r_st s) p0 q Hl0 Hlq) as Heq. pcs Hpc.
          rewrite work_handles_box, work_rc_box, work_oc_box. lia. }
      2:{ intros p0 Hl0. pose proof (at_is_p (r_st s) p0 q Hl0 Hlq) as Heq. pcs Hpc.
          rewrite work_handles_box, work_rc_box, work_oc_box.
          intros Hr0. destruct (decide (p0 ∈ te_kids E d)) as [Hin|Hin].
          - right. apply (kids_known s t q d p0 HI Hd Hin). right. by left.
          - left. apply occ_zero in Hin. lia. }
      2:{ intros p0 Hl0. pose proof (at_is_p (r_st s) p0 q Hl0 Hlq) as Heq. pcs Hpc.
          rewrite work_rc_box, work_oc_box. lia. }
      apply (ri_kill s _ t q (set_pc (take_data (unlock (set_table (r_st s) (remove_entry q (st_table (r_st s)))) (lock_of E d)) q c) t (PWork (drop_box E d q ++ w) r))) in H2;
        try done; [| | | | |].
      + intros p. simpl. unfold remove_entry. rewrite elem_of_list_filter. by intros [_ ?].
      + simpl. unfold remove_entry. rewrite elem_of_list_filter. intros [Hne _]. by apply Hne.
      + intros u Hu. simpl. rewrite get_pc_set, decide_False by done. done.
      + right. pcs Hpc. rewrite work_oc_box. pose proof (proj2 (at_addr_pos (p_addr q) q) eq_refl). lia.
      + intros d' k0 Hd' Hk0. simplify_eq. left. pcs Hpc. rewrite work_handles_box.
        apply occ_pos in Hk0. lia.
      + right. exists c, (c_count c). apply deref_Some in Hc as [Hc _]. done.
    - (* PWork *)
      destruct Hok as [Hfree Hret].
      destruct w as [|[p|p|q] w].
      + destruct r as [[v p]|]; [by destruct (Hnr v p)|]. injection Hs as <-.
        apply (ri_goto E _ t PFree); [done| |]; intros p0 Hl0; pcs Hpc; lia.
      + (* IDrop *)
        destruct (deref (r_st s) p) as [c|] eqn:Hc; [|done]. injection Hs as <-.
        assert (0 < pc_handles E p (get_pc (r_st s) t)) as Hph.
        { rewrite Hpc. simpl. rewrite is_p_self. lia. }
        assert (live (r_st s) p) as Hlp by (by eexists).
        assert (0 < hc (r_st s) p) as Hh.
        { pose proof (hc_ge_pc E (r_st s) t p). lia. }
        pose proof (inv_hand _ _ HA p Hh) as Htb.
        assert (RInv (apply s t (MRmw (p_ser p) (o_sub O)))) as H1.
        { apply ri_rmw; [done|by apply Hser| | |].
          - intros j. apply (ri_kthr _ _ HI p); [done|by left].
          - intros p' Hl' He. left. rewrite (HS p' p Hl' Hlp He). by left.
          - intros p' u Hl' He Ho. rewrite (HS p' p Hl' Hlp He) in Ho.
            pose proof (own_tab _ _ _ HA Htb Ho) as Hrc.
            destruct (dying_alone _ u p HA Hrc) as (Hh0&_). lia. }
        change (applies s t _) with (apply s t (MRmw (p_ser p) (o_sub O))).
        assert (countv (apply s t (MRmw (p_ser p) (o_sub O))) (p_ser p) ⊆ seen (apply s t (MRmw (p_ser p) (o_sub O))) t
             /\ seen (apply s t (MRmw (p_ser p) (o_sub O))) t ⊆ countv (apply s t (MRmw (p_ser p) (o_sub O))) (p_ser p)) as [Hcs Hsc].
        { cbn [apply]. rewrite Hacq, Hrel. rewrite countv_set_countv, decide_True by done.
          change (seen (set_countv ?a _ _) t) with (seen a t).
          rewrite seen_add, decide_True by done. rewrite seen_set_seen, decide_True by done.
          change (countv (add_access (set_seen ?a _ _) _ _) ?b) with (countv a b). set_solver. }
        set (s1 := apply s t _) in *.
        assert (r_st s1 = r_st s) as Hst by apply apply_st.
        pose proof (ri_set_count s1 p c (count_dec E (c_count c)) H1) as H2. rewrite Hst in H2.
        specialize (H2 Hc).
        set (x' := PWork (if (c_count c =? 1)%N then IRemove p :: w else w) r).
        assert (forall p0, p0 <> p -> pc_handles E p0 x' = pc_handles E p0 (PWork (IDrop p :: w) r)
                 /\ pc_rc p0 x' = pc_rc p0 (PWork (IDrop p :: w) r)) as Hne.
        { intros p0 Hp0. unfold x'. simpl. destruct (c_count c =? 1)%N; simpl; rewrite !is_p_ne by done; done. }
        assert (forall a0, pc_oc a0 x' = pc_oc a0 (PWork (IDrop p :: w) r)) as Hoc.
        { intros a0. unfold x'. simpl. by destruct (c_count c =? 1)%N. }
        apply (ri_set_pc E _ t x') in H2; [exact H2| | |]; clear H2; intros p0 e Hl0; simpl in Hl0.
        * intros Hr He. destruct (decide (p0 = p)) as [->|Hp0].
          -- apply cov_count. by apply Hsc.
          -- apply (cov_thread _ _ _ _ t); [|done]. revert Hr. pcs Hpc. destruct (Hne p0 Hp0) as [-> ->].
             rewrite Hoc. done.
        * intros Hr Hi. change (e ∈ seen s1 t). apply (ri_kthr _ _ H1 p0); rewrite ?Hst; [| |done].
          { destruct Hl0 as [c0 Hc0]. rewrite (deref_set_count _ _ _ _ _ Hc) in Hc0.
            destruct (decide (p_addr p0 = p_addr p)); [|by eexists]. destruct (deref (r_st s) p0) eqn:Hd0; [by eexists|discriminate Hc0]. }
          destruct (decide (p0 = p)) as [->|Hp0]; [by left|].
          revert Hr. unfold RaceInv.resp, own. simpl. rewrite get_pc_set, decide_True by done.
          destruct (Hne p0 Hp0) as [-> ->]. rewrite Hoc, Hpc. done.
        * intros Ho He. destruct (decide (p0 = p)) as [->|Hp0]; [left; by apply Hcs|].
          assert (live (r_st s) p0) as Hl0'.
          { destruct Hl0 as [c0 Hc0]. rewrite (deref_set_count _ _ _ _ _ Hc) in Hc0.
            destruct (decide (p_addr p0 = p_addr p)); [|by eexists]. destruct (deref (r_st s) p0) eqn:Hd0; [by eexists|discriminate Hc0]. }
          destruct (ri_own _ _ H1 p0 t e) as [?|(d&Hp&Hd&Hv)]; rewrite ?Hst; [done| |done|by left|].
          { revert Ho. unfold own. simpl. rewrite get_pc_set, decide_True by done.
            destruct (Hne p0 Hp0) as [_ ->]. rewrite Hoc, Hpc. done. }
          right. exists d. rewrite Hst in *. simpl. split; [done|].
          split; [by rewrite (data_set_count _ _ _ _ _ Hc)|].
          revert Hv. unfold lview. simpl. rewrite Hst. done.
      + (* IRemove *)
        assert (0 < pc_rc p (get_pc (r_st s) t)) as Hrc.
        { rewrite Hpc. simpl. rewrite is_p_self. lia. }
        destruct (rem_hand E _ t p HA Hrc) as (Htb&Hh&c&d&Hc&Hcd&Hd).
        rewrite Hd in Hs |- *. destruct (st_locks (r_st s) !! lock_of E d) eqn:Hn; [done|].
        destruct (readable (r_st s)) eqn:Hrd; [|done].
        assert (live (r_st s) p) as Hlp by (by eexists).
        assert (resp (r_st s) p t) as Hrp by (right; by left).
        assert (RInv (apply s t (MTouch [(p_ser p, TRead)]))) as H1.
        { apply ri_touch'; [done| | |].
          - intros k0 [=]%elem_of_list_singleton.
          - intros k0 w0 [= -> ->]%elem_of_list_singleton. split; [by apply Hser|].
            intros j. by apply (ri_kthr _ _ HI p).
          - intros p0 w0 Hl [= He ->]%elem_of_list_singleton. left. by rewrite (HS p0 p Hl Hlp He). }
        destruct (pick i (matches E (r_st s) d)) as [q|] eqn:Hp.
        * destruct (pick_match_hit E HL _ _ _ _ Hp) as (Hq&d'&Hd'&He').
          assert (p = q) as <- by (by eapply (inv_uniq _ _ HA)).
          injection Hs as <-.
          apply (ri_search _ t (lock_of E d)) in H1; [|done..].
          apply (ri_goto E _ t (PRem (lock_of E d) p w r)) in H1; [exact H1| |]; intros p0 Hl0; pcs Hpc; lia.
        * pose proof (pick_match_none E HL _ _ _ Hp p d Htb Hd) as Hf. by rewrite (coh_refl E HL) in Hf.
      + (* IFree *)
        destruct (deref (r_st s) q) as [c|] eqn:Hc; [|done]. injection Hs as <-.
        assert (live (r_st s) q) as Hlq by (by eexists).
        assert (0 < pc_oc (p_addr q) (get_pc (r_st s) t)) as Hoq.
        { rewrite Hpc. simpl. pose proof (proj2 (at_addr_pos (p_addr q) q) eq_refl). lia. }
        destruct (box_only _ t q HA Hlq Hoq) as (Hh&Htb&Hz&Hr).
        destruct (Hfree q) as (c'&Hc'&Hcd); [by left|]. simplify_eq.
        pose proof HI as H1.
        apply (ri_kill s s t q (free (r_st s) q)) in H1; try done; [| | |].
        * apply (ri_goto E _ t (PWork w r)) in H1; [exact H1| |]; intros p0 Hl0; simpl in Hl0.
          -- pcs Hpc. destruct (decide (p_addr q = p_addr p0)) as [Ha|Ha].
             ++ destruct Hl0 as [c0 Hc0]. apply deref_Some in Hc0 as [Hc0 _]. simpl in Hc0.
                rewrite <- Ha, lookup_delete in Hc0. done.
             ++ rewrite at_addr_ne by done. lia.
          -- pcs Hpc. lia.
        * by right.
        * intros d k0 Hd Hk0. unfold data in Hd. rewrite Hc in Hd. rewrite Hd in Hcd. rewrite Hcd in Hk0.
          by apply elem_of_nil in Hk0.
        * by left.
    - (* PLen *)
      destruct (j <? te_shards E).
      + destruct (st_locks (r_st s) !! (ty, j)); [done|]. injection Hs as <-.
        apply ri_goto; [done| |]; intros p0 Hl0; pcs Hpc; lia.
      + injection Hs as <-. pose proof (ri_goto E s t PFree HI) as H1. feed specialize H1.
        { intros p0 Hl0; pcs Hpc; lia. }
        { intros p0 Hl0; pcs Hpc; lia. }
        apply (ri_same E _ (add_log (set_pc (r_st s) t PFree) (EvLen t ty acc))) in H1; done.
    - (* PShrink *)
      destruct (j <? te_shards E).
      + destruct (st_locks (r_st s) !! (ty, j)) eqn:Hn; [done|]. injection Hs as <-.
        pose proof (ri_search_rel s t _ HI HA HS Hn) as H1.
        rewrite <- (set_st_id (applies s t _)) in H1.
        apply (ri_goto E _ t (PShrink ty (S j))) in H1; [exact H1| |]; intros p0 Hl0; pcs Hpc; lia.
      + injection Hs as <-. apply ri_goto; [done| |]; intros p0 Hl0; pcs Hpc; lia.
  Qed.

  (** ** Panics of the user's code *)
  Lemma ri_panic s t st' : Good s -> step_panic E (r_st s) t = Next st' ->
    RInv (applies (set_st s st') t (panic_mops E (r_st s) t)).
  Proof.
    intros HG Hs. pose proof HG as [HA HI _ HS].
    rewrite applies_set_st.
    assert (forall p, live (r_st s) p -> p_ser p < st_next (r_st s)) as Hser by (intros; by apply live_ser).
    unfold step_panic in Hs. unfold panic_mops. pose proof (inv_pc _ _ HA t) as Hok.
    assert (forall q, live (r_st s) q -> resp (r_st s) q t -> RInv (apply s t (MTouch [(p_ser q, TRead)]))) as Htouch.
    { intros q Hlq Hrq. apply ri_touch'; [done| | |].
      - intros k0 [=]%elem_of_list_singleton.
      - intros k0 w [= -> ->]%elem_of_list_singleton. split; [by apply Hser|].
        intros j. by apply (ri_kthr _ _ HI q).
      - intros p w Hl [= He ->]%elem_of_list_singleton. left. by rewrite (HS p q Hl Hlq He). }
    assert (forall s1 l, r_st s1 = r_st s -> r_hands s1 = r_hands s -> RInv s1 -> 
      RInv (applies s1 t (searched E (r_st s) l)) /\ r_st (applies s1 t (searched E (r_st s) l)) = r_st s
      /\ r_hands (applies s1 t (searched E (r_st s) l)) = r_hands s) as Hsearch.
    { intros s1 l Hst Hh H1. split; [|unfold searched; by destruct (st_locks (r_st s) !! l)].
      rewrite <- Hst. apply ri_searched; rewrite ?Hst; done. }
    destruct (get_pc (r_st s) t) as [|k v b|k v b p|k v b p old|k v b p|k v b|k v q|k v q|k v q|k v q|l q w r|w r|ty j acc|ty j] eqn:Hpc; simpl in Hok; try done.
    - (* PLookup *)
      injection Hs as <-. destruct (Hsearch s (lock_of E v) eq_refl eq_refl HI) as (H1&H2&_).
      set (s1 := applies s t _) in *. rewrite <- H2.
      apply ri_goto; [done| |]; rewrite H2; intros p0 Hl0; pcs Hpc;
        rewrite ?drop_args_handles, ?drop_args_rc, ?(drop_args_oc E (r_st s)) by done; lia.
    - (* PEntry *)
      destruct Hok as [Hbox Hkd].
      assert (data (r_st s) q = Some v) as Hd.
      { unfold data. by rewrite Hbox. }
      assert (live (r_st s) q) as Hlq by (by eapply data_live).
      unfold box_ok in Hbox. rewrite Hbox in Hs. simpl in Hs. injection Hs as <-.
      assert (0 < pc_oc (p_addr q) (get_pc (r_st s) t)) as Hoq.
      { rewrite Hpc. simpl. by apply at_addr_pos. }
      destruct (box_only _ t q HA Hlq Hoq) as (Hh&Htb&Hz&Hr).
      assert (resp (r_st s) q t) as Hrq by (right; by right).
      pose proof (Htouch q Hlq Hrq) as H1.
      destruct (Hsearch (apply s t (MTouch [(p_ser q, TRead)])) (lock_of E v) eq_refl eq_refl H1) as (H2&H3&H3').
      assert (applies s t (MTouch [(p_ser q, TRead)] :: searched E (r_st s) (lock_of E v) ++ [MTouch [(p_ser q, TWrite)]]) =
              add_access (applies (apply s t (MTouch [(p_ser q, TRead)])) t (searched E (r_st s) (lock_of E v))) t [(p_ser q, TWrite)]) as ->.
      { unfold applies. simpl. by rewrite fold_left_app. }
      set (s1 := applies _ t _) in *.
      assert (RInv (set_st s1 (set_pc (r_st s) t (PWork (drop_box E v q ++ []) None)))) as H4.
      { rewrite <- H3. apply ri_gain; [done| | |]; rewrite H3; intros p0 Hl0.
        - pcs Hpc. rewrite work_handles_box, work_rc_box, work_oc_box. simpl. lia.
        - intros Hr0. destruct (decide (p0 ∈ te_kids E v)) as [Hin|Hin].
          + right. apply (kids_known s1 t q v); rewrite ?H3; done.
          + left. revert Hr0. pcs Hpc. rewrite work_handles_box, work_rc_box, work_oc_box. simpl.
            apply occ_zero in Hin. lia.
        - pcs Hpc. rewrite work_rc_box, work_oc_box. simpl. lia. }
      rewrite app_nil_r in H4.
      apply (ri_kill s _ t q (set_pc (take_data (r_st s) q (Cell (p_ser q) 1 (Some v))) t (PWork (drop_box E v q) None))) in H4;
        try done; [| | |].
      + intros u Hu. simpl. by rewrite get_pc_set, decide_False.
      + right. pcs Hpc. pose proof (work_oc_box (p_addr q) v q []) as He. rewrite app_nil_r in He. rewrite He.
        pose proof (proj2 (at_addr_pos (p_addr q) q) eq_refl). lia.
      + intros d' k0 Hd' Hk0. simplify_eq. left. pcs Hpc.
        pose proof (work_handles_box k0 v q []) as He. rewrite app_nil_r in He. rewrite He.
        apply occ_pos in Hk0. lia.
      + right. eexists _, 1%N. apply deref_Some in Hbox as [Hb _]. split; [exact Hb|done].
    - (* IRemove *)
      destruct w as [|[p|p|q] w]; try done. injection Hs as <-.
      assert (0 < pc_rc p (get_pc (r_st s) t)) as Hrc.
      { rewrite Hpc. simpl. rewrite is_p_self. lia. }
      destruct (rem_hand E _ t p HA Hrc) as (Htb&Hh&c&d&Hc&Hcd&Hd). rewrite Hd.
      assert (live (r_st s) p) as Hlp by (by eexists).
      assert (resp (r_st s) p t) as Hrp by (right; by left).
      pose proof (Htouch p Hlp Hrp) as H1.
      destruct (Hsearch (apply s t (MTouch [(p_ser p, TRead)])) (lock_of E d) eq_refl eq_refl H1) as (H2&H3&_).
      change (applies s t (?m :: ?ms)) with (applies (apply s t m) t ms).
      set (s1 := applies _ t _) in *.
      set (x' := PWork (w ++ match r with Some (_, x) => [IDrop x] | None => [] end) None).
      assert (RInv (set_st s1 (add_zombie (r_st s) p))) as H4.
      { apply ri_leave; try done; rewrite ?H3; try done. intros p0 Hp0. by right. }
      assert (forall p0, pc_handles E p0 x' = pc_handles E p0 (PWork (IRemove p :: w) r)) as X1.
      { intros p0. unfold x'. simpl. rewrite work_handles_app. destruct r as [[? ?]|]; simpl; lia. }
      assert (forall p0, pc_rc p0 x' + is_p p0 p = pc_rc p0 (PWork (IRemove p :: w) r)) as X2.
      { intros p0. unfold x'. simpl. rewrite work_rc_app. destruct r as [[? ?]|]; simpl; lia. }
      assert (forall a0, pc_oc a0 x' = pc_oc a0 (PWork (IRemove p :: w) r)) as X3.
      { intros p0. unfold x'. simpl. rewrite work_oc_app. destruct r as [[? ?]|]; simpl; lia. }
      assert (get_pc (add_zombie (r_st s) p) t = PWork (IRemove p :: w) r) as Hpc' by done.
      apply (ri_set_pc E _ t x') in H4; [exact H4| | |]; intros p0 e Hl0; simpl in Hl0.
      + intros Hr He. destruct (decide (p0 = p)) as [->|Hp0].
        { apply cov_gone. right. simpl. by left. }
        apply (cov_thread _ _ _ _ t); [|done]. revert Hr. unfold RaceInv.resp, own. simpl.
        rewrite get_pc_set, decide_True by done. rewrite Hpc'. rewrite X1, X3, <- X2.
        rewrite is_p_ne by done. lia.
      + intros Hr Hi. eapply (ri_kthr _ _ H4); [exact Hl0| |done]. revert Hr. unfold RaceInv.resp, own. simpl.
        rewrite get_pc_set, decide_True by done. rewrite Hpc'. rewrite X1, X3, <- X2. lia.
      + intros Hr He. eapply (ri_own _ _ H4); [exact Hl0| |done]. revert Hr. unfold RaceInv.resp, own. simpl.
        rewrite get_pc_set, decide_True by done. rewrite Hpc'. rewrite X3, <- X2. lia.
  Qed.
End safe.

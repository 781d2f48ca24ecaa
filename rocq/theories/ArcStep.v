(** Every step of the ArcIntern model preserves the invariant and none is undefined. *)
From stdpp Require Import gmap list numbers.
From Verif Require Import Base ArcModel ArcSpec ArcInv.
Require Import ZifyBool ZifyNat ZifyN.

Section step.
  Context {V : Type} (E : tyenv V).
  Context (HL : coherent E) (HW : wide E).
  Implicit Types (st : state V) (v d : V) (p q : ptr).

  Notation hc := (handles_to E).
  Notation Inv := (Inv E).
  Notation pc_ok := (pc_ok E).
  Notation pc_lock := (pc_lock E).

  (** ** Arithmetic modulo 2^W *)
  Lemma inc_mod n : count_inc E (N.of_nat n mod te_mod E)%N = (N.of_nat (S n) mod te_mod E)%N.
  Proof.
    unfold count_inc, wide in *. rewrite N.add_mod_idemp_l by lia. f_equal. lia.
  Qed.
  Lemma dec_mod n : 0 < n ->
    count_dec E (N.of_nat n mod te_mod E)%N = (N.of_nat (n - 1) mod te_mod E)%N.
  Proof.
    intros Hn. unfold count_dec, wide in *.
    set (M := te_mod E) in *.
    replace ((N.of_nat n mod M + M - 1))%N with ((N.of_nat n mod M + (M - 1)))%N by lia.
    rewrite N.add_mod_idemp_l by lia.
    replace (N.of_nat n + (M - 1))%N with (N.of_nat (n - 1) + 1 * M)%N by lia.
    apply N.mod_add. lia.
  Qed.

  (** ** Locks *)
  Definition lock_ok (lk : gmap (nat * nat) nat) (th : gmap nat (pc V)) : Prop :=
    forall l t, lk !! l = Some t <-> pc_lock (default PFree (th !! t)) = Some l.

  Lemma lock_ok_same lk th t x :
    lock_ok lk th -> pc_lock x = pc_lock (default PFree (th !! t)) -> lock_ok lk (<[t:=x]> th).
  Proof.
    unfold lock_ok. intros H Hx l t'. rewrite H. destruct (decide (t' = t)) as [->|].
    - rewrite lookup_insert. simpl. by rewrite Hx.
    - by rewrite lookup_insert_ne.
  Qed.

  Lemma lock_ok_acq lk th t x l :
    lock_ok lk th -> pc_lock (default PFree (th !! t)) = None -> pc_lock x = Some l ->
    lk !! l = None -> lock_ok (<[l:=t]> lk) (<[t:=x]> th).
  Proof.
    unfold lock_ok. intros H H0 Hx Hl l' t'. destruct (decide (t' = t)) as [->|Ht].
    - rewrite lookup_insert. simpl. rewrite Hx. destruct (decide (l' = l)) as [->|].
      + by rewrite lookup_insert.
      + rewrite lookup_insert_ne, H, H0 by done. naive_solver.
    - rewrite (lookup_insert_ne th) by done. destruct (decide (l' = l)) as [->|].
      + rewrite lookup_insert, <- H, Hl. naive_solver.
      + by rewrite lookup_insert_ne.
  Qed.

  Lemma lock_ok_rel lk th t x l :
    lock_ok lk th -> pc_lock (default PFree (th !! t)) = Some l -> pc_lock x = None ->
    lock_ok (delete l lk) (<[t:=x]> th).
  Proof.
    unfold lock_ok. intros H H0 Hx l' t'. destruct (decide (t' = t)) as [->|Ht].
    - rewrite lookup_insert. simpl. rewrite Hx. destruct (decide (l' = l)) as [->|].
      + rewrite lookup_delete. naive_solver.
      + rewrite lookup_delete_ne, H, H0 by done. naive_solver.
    - rewrite (lookup_insert_ne th) by done. destruct (decide (l' = l)) as [->|].
      + rewrite lookup_delete, <- H. split; [done|]. intros H2.
        apply H in H0. congruence.
      + by rewrite lookup_delete_ne.
  Qed.

  (** ** What other threads rely on *)
  Definition pins (x : pc V) p : Prop :=
    match x with
    | PHit _ _ _ q | PInc _ _ _ q _ | PIns _ _ q => q = p
    | PRem _ q _ r => q = p \/ exists v, r = Some (v, p)
    | PWork _ r => exists v, r = Some (v, p)
    | _ => False
    end.

  Lemma free_oc w q : IFree q ∈ w -> 0 < work_oc (p_addr q) w.
  Proof.
    induction w as [|it w IH]; [by intros ?%elem_of_nil|].
    simpl. intros [<-|H]%elem_of_cons.
    - simpl. rewrite at_addr_self. lia.
    - specialize (IH H). lia.
  Qed.

  Lemma ret_ok_mono st st' r :
    ret_ok E st r ->
    (forall v p d, r = Some (v, p) -> data st p = Some d -> data st' p = Some d) ->
    ret_ok E st' r.
  Proof. intros H D v p Hr. destruct (H v p Hr) as (d&Hd&He). exists d. eauto. Qed.

  Lemma free_ok_mono st st' w :
    free_ok E st w ->
    (forall q c, 0 < work_oc (p_addr q) w -> deref st q = Some c -> deref st' q = Some c) ->
    free_ok E st' w.
  Proof.
    intros H B q Hq. destruct (H q Hq) as (c&Hc&He). exists c. split; [|done].
    apply B; [by apply free_oc|done].
  Qed.

  Lemma arg_ok_mono st st' k v b :
    arg_ok E st k v b ->
    (forall q c, 0 < box_oc (p_addr q) b -> deref st q = Some c -> deref st' q = Some c) ->
    arg_ok E st' k v b.
  Proof.
    destruct k; simpl; [done|]. intros [Hk H] B. split; [done|]. intros q ->.
    unfold box_ok in *. apply B; [|by apply H]. simpl. rewrite at_addr_self. lia.
  Qed.

  Lemma pc_ok_mono st st' x :
    pc_ok st x ->
    (forall q c, 0 < pc_oc (p_addr q) x -> deref st q = Some c -> deref st' q = Some c) ->
    (forall p, pins x p -> p ∈ st_table st -> p ∈ st_table st') ->
    (forall p d, pins x p -> data st p = Some d -> data st' p = Some d) ->
    (forall p, p ∈ st_table st -> hc st p = 0 -> hc st' p = 0) ->
    (forall k v q, x = PVac k v q -> nomatch E st v -> nomatch E st' v) ->
    pc_ok st' x.
  Proof.
    intros Hok B T D Z N.
    assert (forall v p, pins x p -> hit_ok E st v p -> hit_ok E st' v p) as HH.
    { intros v p Hp [Ht (d&Hd&He)]. split; [by apply T|]. exists d. eauto. }
    assert (forall q v, pc_oc (p_addr q) x = at_addr (p_addr q) q ->
              box_ok st q v -> box_ok st' q v) as HB.
    { intros q v Hq Hb. apply B; [|done]. rewrite Hq, at_addr_self. lia. }
    destruct x as [|k v b|k v b p|k v b p old|k v b p|k v b|k v q|k v q|k v q|k v q|l q w r|w r|ty i acc|ty i];
      simpl in *; try done.
    - by eapply arg_ok_mono.
    - destruct Hok. split; [by eapply arg_ok_mono|auto].
    - destruct Hok as (?&Hh&Hz). split; [by eapply arg_ok_mono|]. split; [auto|].
      intros Ho. apply Z; [apply Hh|auto].
    - by eapply arg_ok_mono.
    - by eapply arg_ok_mono.
    - destruct Hok as (?&?). split; eauto.
    - destruct Hok as (?&?&?). split_and!; eauto.
    - destruct Hok as (?&?). split; eauto.
    - destruct Hok as (?&?). split; eauto.
    - destruct Hok as (?&(d&?&?)&?&?). split_and!; eauto.
      + by eapply free_ok_mono.
      + eapply ret_ok_mono; [done|]. intros v p d' Hr. apply D. eauto.
    - destruct Hok as (?&?). split.
      + by eapply free_ok_mono.
      + eapply ret_ok_mono; [done|]. intros v p d' Hr. apply D. eauto.
  Qed.

  Lemma ret_hc st t v p :
    (exists w, get_pc st t = PWork w (Some (v, p))) \/
    (exists l q w, get_pc st t = PRem l q w (Some (v, p))) -> 0 < hc st p.
  Proof.
    intros H. pose proof (hc_ge_pc E st t p) as Hge.
    destruct H as [(w&H)|(l&q&w&H)]; rewrite H in Hge; simpl in Hge;
      rewrite is_p_self in Hge; lia.
  Qed.

  (** A pointer other threads pin is in the table. *)
  Lemma pins_table st t p : Inv st -> pins (get_pc st t) p -> p ∈ st_table st.
  Proof.
    intros HI Hp. pose proof (inv_pc _ _ HI t) as Hok.
    destruct (get_pc st t) as [|k v b|k v b p'|k v b p' old|k v b p'|k v b|k v q|k v q|k v q|k v q|l q w r|w r|ty i acc|ty i] eqn:Hpc;
      simpl in *; try done.
    - destruct Hok as [_ [? _]]. by subst.
    - destruct Hok as [_ [[? _] _]]. by subst.
    - destruct Hok as [? _]. by subst.
    - destruct Hp as [->|[v ->]]; [tauto|]. apply (inv_hand _ _ HI). eapply ret_hc. right. eauto.
    - destruct Hp as [v ->]. apply (inv_hand _ _ HI). eapply ret_hc. left. eauto.
  Qed.

  (** An entry with no handles is pinned only by holders of its shard lock. *)
  Lemma pins_lock st t p d :
    Inv st -> pins (get_pc st t) p -> data st p = Some d -> hc st p = 0 ->
    pc_lock (get_pc st t) = Some (lock_of E d).
  Proof.
    intros HI Hp Hd H0. pose proof (inv_pc _ _ HI t) as Hok.
    destruct (get_pc st t) as [|k v b|k v b p'|k v b p' old|k v b p'|k v b|k v q|k v q|k v q|k v q|l q w r|w r|ty i acc|ty i] eqn:Hpc;
      simpl in *; try done; subst.
    - destruct Hok as [_ [_ (d'&?&?)]]. simplify_eq. f_equal. by apply law_lock.
    - destruct Hok as [_ [[_ (d'&?&?)] _]]. simplify_eq. f_equal. by apply law_lock.
    - destruct Hok as [_ ?]. by simplify_eq.
    - destruct Hp as [->|[v ->]].
      + destruct Hok as (_&(d'&?&?)&_). by simplify_eq.
      + exfalso. assert (0 < hc st p); [|lia]. eapply ret_hc. right. eauto.
    - destruct Hp as [v ->]. exfalso. assert (0 < hc st p); [|lia]. eapply ret_hc. left. eauto.
  Qed.

  (** A step that changes neither heap nor table. *)
  Lemma inv_local st st' t x' :
    Inv st ->
    st_heap st' = st_heap st -> st_table st' = st_table st -> st_next st' = st_next st ->
    st_threads st' = <[t:=x']> (st_threads st) ->
    (forall p, occ p (st_pool st') + occ p (st_gone st') + pc_handles E p x'
               = occ p (st_pool st) + occ p (st_gone st) + pc_handles E p (get_pc st t)) ->
    (forall p, pc_tc p x' = pc_tc p (get_pc st t)) ->
    (forall p, occ p (st_zombies st') + pc_rc p x'
               = occ p (st_zombies st) + pc_rc p (get_pc st t)) ->
    (forall a, pc_oc a x' = pc_oc a (get_pc st t)) ->
    lock_ok (st_locks st') (<[t:=x']> (st_threads st)) ->
    pc_ok st x' ->
    (forall t v p, EvNew t v p ∈ st_log st' -> EvNew t v p ∈ st_log st \/
       0 < hc st p /\ exists d, data st p = Some d /\ te_eq E v d = true) ->
    Inv st'.
  Proof.
    intros HI Hh Ht Hn Hth Chc Ctc Crc Coc Hlk Hok Hlog.
    assert (forall p, deref st' p = deref st p) as Ed by (intros; apply deref_ext; by rewrite Hh).
    assert (forall p, data st' p = data st p) as Ea by (intros; apply data_ext; by rewrite Hh).
    assert (forall p, hc st' p = hc st p) as Ehc.
    { intros p. specialize (Chc p). unfold handles_to. rewrite Hh, Hth.
      pose proof (tsum_set (pc_handles E p) st t x' eq_refl). lia. }
    assert (forall p, tc st' p = tc st p) as Etc.
    { intros p. specialize (Ctc p). unfold tc. rewrite Hth.
      pose proof (tsum_set (pc_tc p) st t x' eq_refl). lia. }
    assert (forall p, rc st' p = rc st p) as Erc.
    { intros p. specialize (Crc p). unfold rc. rewrite Hth.
      pose proof (tsum_set (pc_rc p) st t x' eq_refl). lia. }
    assert (forall a, oc st' a = oc st a) as Eoc.
    { intros p. specialize (Coc p). unfold oc. rewrite Hth, Ht.
      pose proof (tsum_set (pc_oc p) st t x' eq_refl). lia. }
    constructor.
    - intros p. rewrite Ht, Ea. apply (inv_live _ _ HI).
    - intros a. rewrite Eoc, Hh. apply (inv_own _ _ HI).
    - intros p q u v. rewrite Ht, !Ea. apply (inv_uniq _ _ HI).
    - intros p c. rewrite Ht, Ed, Ehc, Etc. apply (inv_cnt _ _ HI).
    - intros p. rewrite Ht, Ehc. apply (inv_hand _ _ HI).
    - intros p. rewrite Ht, Erc. apply (inv_rem_in _ _ HI).
    - intros p. rewrite Ht, Erc, Ehc. apply (inv_rem _ _ HI).
    - intros l t'. unfold get_pc. rewrite Hth. apply Hlk.
    - intros t'. unfold get_pc. rewrite Hth.
      assert (forall x, pc_ok st x -> pc_ok st' x) as Hmono.
      { intros x Hx. eapply pc_ok_mono; [done|..].
        - intros. by rewrite Ed.
        - intros. by rewrite Ht.
        - intros. by rewrite Ea.
        - intros. by rewrite Ehc.
        - intros k v q _ H p d. rewrite Ht, Ea. apply H. }
      destruct (decide (t' = t)) as [->|].
      + rewrite lookup_insert. simpl. auto.
      + rewrite lookup_insert_ne by done. apply Hmono. apply (inv_pc _ _ HI t').
    - intros a c. rewrite Hh, Hn. apply (inv_ser _ _ HI).
    - intros a c v k. rewrite Hh. apply (inv_acyc _ _ HI).
    - intros t' v p Hin. rewrite Hn. destruct (Hlog _ _ _ Hin) as [?|(Hp&d&Hd&He)].
      + destruct (inv_log _ _ HI t' v p) as [? Hd]; [done|]. split; [done|].
        intros d. rewrite Ea. auto.
      + split; [by eapply hand_ser|]. intros d'. rewrite Ea. congruence.
  Qed.

  (** A step of thread [t] that only changes the count of table entry [p]. *)
  Lemma inv_count st st' t x' p c n :
    Inv st -> p ∈ st_table st -> deref st p = Some c ->
    st_heap st' = <[p_addr p := Cell (c_ser c) n (c_data c)]> (st_heap st) ->
    st_table st' = st_table st -> st_next st' = st_next st ->
    st_threads st' = <[t:=x']> (st_threads st) ->
    st_zombies st' = st_zombies st -> st_log st' = st_log st -> st_locks st' = st_locks st ->
    (forall q, q <> p ->
       occ q (st_pool st') + occ q (st_gone st') + pc_handles E q x'
       = occ q (st_pool st) + occ q (st_gone st) + pc_handles E q (get_pc st t)) ->
    (forall q, q <> p -> pc_tc q x' = pc_tc q (get_pc st t)) ->
    (forall q, q <> p -> pc_rc q x' = pc_rc q (get_pc st t)) ->
    (forall a, pc_oc a x' = pc_oc a (get_pc st t)) ->
    n = (N.of_nat (hc st' p + tc st' p) mod te_mod E)%N ->
    rc st' p = (if hc st' p =? 0 then 1 else 0) ->
    (hc st p = 0 -> hc st' p = 0) ->
    pc_lock x' = pc_lock (get_pc st t) ->
    pc_ok st' x' ->
    Inv st'.
  Proof.
    intros HI Hp Hc Hh Ht Hn Hth Hz Hlg Hlk Chc Ctc Crc Coc Hcnt Hrc Hz0 Hl Hok.
    pose proof Hc as [Hca Hcs]%deref_Some.
    assert (forall q, data st' q = data st q) as Ea.
    { intros q. rewrite <- (data_set_count st p c n q Hc). apply data_ext. by rewrite Hh. }
    assert (forall q, p_addr q <> p_addr p -> deref st' q = deref st q) as Ed.
    { intros q Hq. apply deref_ext. by rewrite Hh, lookup_insert_ne. }
    assert (forall q, q <> p -> hc st' q = hc st q) as Ehc.
    { intros q Hq. specialize (Chc q Hq). unfold handles_to. rewrite Hh, Hth.
      pose proof (tsum_set (pc_handles E q) st t x' eq_refl).
      pose proof (msum_insert_Some (cell_handles E q) (st_heap st) _
                    (Cell (c_ser c) n (c_data c)) c Hca) as Hm.
      change (cell_handles E q (Cell (c_ser c) n (c_data c))) with (cell_handles E q c) in Hm.
      lia. }
    assert (forall q, q <> p -> tc st' q = tc st q) as Etc.
    { intros q Hq. specialize (Ctc q Hq). unfold tc. rewrite Hth.
      pose proof (tsum_set (pc_tc q) st t x' eq_refl). lia. }
    assert (forall q, q <> p -> rc st' q = rc st q) as Erc.
    { intros q Hq. specialize (Crc q Hq). unfold rc. rewrite Hth, Hz.
      pose proof (tsum_set (pc_rc q) st t x' eq_refl). lia. }
    assert (forall a, oc st' a = oc st a) as Eoc.
    { intros a. specialize (Coc a). unfold oc. rewrite Hth, Ht.
      pose proof (tsum_set (pc_oc a) st t x' eq_refl). lia. }
    constructor.
    - intros q. rewrite Ht, Ea. apply (inv_live _ _ HI).
    - intros a. rewrite Eoc, Hh. rewrite (inv_own _ _ HI).
      destruct (decide (a = p_addr p)) as [->|].
      + by rewrite lookup_insert, Hca.
      + by rewrite lookup_insert_ne.
    - intros q1 q2 u v. rewrite Ht, !Ea. apply (inv_uniq _ _ HI).
    - intros q c' Hq Hc'. rewrite Ht in Hq. destruct (decide (q = p)) as [->|Hne].
      + apply deref_Some in Hc' as [Hc' _]. rewrite Hh, lookup_insert in Hc'.
        by injection Hc' as <-.
      + rewrite Ehc, Etc by done. apply (inv_cnt _ _ HI); [done|]. rewrite <- Ed; [done|].
        intros Ha. apply Hne. by apply (table_ptr_inj _ _ HI).
    - intros q. rewrite Ht. destruct (decide (q = p)) as [->|Hne]; [done|].
      rewrite Ehc by done. apply (inv_hand _ _ HI).
    - intros q. rewrite Ht. destruct (decide (q = p)) as [->|Hne]; [done|].
      rewrite Erc by done. apply (inv_rem_in _ _ HI).
    - intros q. rewrite Ht. destruct (decide (q = p)) as [->|Hne]; [done|].
      rewrite Erc, Ehc by done. apply (inv_rem _ _ HI).
    - intros l t'. unfold get_pc. rewrite Hth, Hlk. apply lock_ok_same; [|done].
      intros l' t''. apply (inv_lock _ _ HI).
    - intros t'. unfold get_pc. rewrite Hth. destruct (decide (t' = t)) as [->|].
      { by rewrite lookup_insert. }
      rewrite lookup_insert_ne by done. eapply pc_ok_mono; [apply (inv_pc _ _ HI t')|..].
      + intros q c' Hoc Hq. rewrite Ed; [done|]. intros Ha. rewrite Ha in Hoc.
        pose proof (table_not_box _ _ HI p t' Hp) as H0.
        change (default PFree (st_threads st !! t')) with (get_pc st t') in Hoc. lia.
      + intros. by rewrite Ht.
      + intros. by rewrite Ea.
      + intros q Hq H0. destruct (decide (q = p)) as [->|Hne]; [auto|]. by rewrite Ehc.
      + intros k v q _ H p' d. rewrite Ht, Ea. apply H.
    - intros a c' Hc'. rewrite Hn. rewrite Hh in Hc'.
      apply lookup_insert_Some in Hc' as [[<- <-]|[_ Hc']]; [|by eapply inv_ser].
      simpl. by eapply inv_ser.
    - intros a c' v k Hc'. rewrite Hh in Hc'.
      apply lookup_insert_Some in Hc' as [[<- <-]|[_ Hc']]; [|by eapply inv_acyc].
      simpl. by eapply inv_acyc.
    - intros t' v q. rewrite Hlg, Hn, Ea. apply (inv_log _ _ HI).
  Qed.

  (** Allocation of a private box. *)
  Lemma inv_alloc st t k v b a :
    Inv st -> get_pc st t = PAlloc k v b -> (k = KDst -> b = None) -> st_heap st !! a = None ->
    Inv (set_pc (alloc st a v) t (PEntry k v (Ptr a (st_next st)))).
  Proof.
    intros HI Hpc Hb Ha. pose proof (inv_pc _ _ HI t) as Hok. rewrite Hpc in Hok. simpl in Hok.
    assert (b = None) as -> by (destruct k; auto).
    set (q := Ptr a (st_next st)). set (st' := set_pc _ _ _).
    assert (forall p c, deref st p = Some c -> p_addr p <> a) as Hna.
    { intros p c [Hp _]%deref_Some Hx. congruence. }
    assert (forall p, p_addr p <> a -> deref st' p = deref st p) as Ed.
    { intros p Hp. apply deref_ext. simpl. by rewrite lookup_insert_ne. }
    assert (forall p d, data st p = Some d -> data st' p = data st p) as Ea.
    { intros p d (c&Hc&_)%data_Some. unfold data. rewrite Ed; [done|eauto]. }
    assert (forall p d, data st' p = Some d -> p_ser p < st_next st -> data st p = Some d) as Ea'.
    { intros p d Hd Hs. destruct (decide (p_addr p = a)) as [Heq|].
      - exfalso. apply data_Some in Hd as (c&[Hc Hser]%deref_Some&_). simpl in Hc.
        rewrite Heq, lookup_insert in Hc. simplify_eq. simpl in Hser. lia.
      - unfold data in *. by rewrite <- Ed. }
    assert (forall p, pc_handles E p (get_pc st t) = cell_handles E p (Cell (st_next st) 1%N (Some v))) as Hkid.
    { intros p. rewrite Hpc. simpl. unfold cell_handles. simpl. destruct k; [done|].
      simpl. by rewrite (proj1 Hok). }
    assert (forall p, hc st' p = hc st p) as Ehc.
    { intros p. unfold handles_to. simpl.
      pose proof (tsum_set (pc_handles E p) st t (PEntry k v q) eq_refl) as H1.
      rewrite (msum_insert_None _ _ _ _ Ha). rewrite Hkid in H1. simpl in H1. lia. }
    assert (forall p, tc st' p = tc st p) as Etc.
    { intros p. pose proof (tsum_set (pc_tc p) st t (PEntry k v q) eq_refl) as H1.
      rewrite Hpc in H1. unfold tc. simpl in *. lia. }
    assert (forall p, rc st' p = rc st p) as Erc.
    { intros p. pose proof (tsum_set (pc_rc p) st t (PEntry k v q) eq_refl) as H1.
      rewrite Hpc in H1. unfold rc. simpl in *. lia. }
    assert (forall a', oc st' a' = oc st a' + b2n (a =? a')) as Eoc.
    { intros a'. pose proof (tsum_set (pc_oc a') st t (PEntry k v q) eq_refl) as H1.
      rewrite Hpc in H1. unfold oc. simpl in *. unfold at_addr in *. simpl in *. lia. }
    assert (box_ok st' q v) as Hbox.
    { apply deref_Some. simpl. by rewrite lookup_insert. }
    constructor.
    - intros p Hp. destruct (inv_live _ _ HI p Hp) as [d Hd]. exists d. by rewrite (Ea p d).
    - intros a'. rewrite Eoc, (inv_own _ _ HI). simpl. destruct (Nat.eqb_spec a a') as [->|].
      + by rewrite lookup_insert, Ha.
      + rewrite lookup_insert_ne by done. simpl. lia.
    - intros p1 p2 u w Hp1 Hp2.
      destruct (inv_live _ _ HI p1 Hp1) as [d1 Hd1], (inv_live _ _ HI p2 Hp2) as [d2 Hd2].
      rewrite (Ea p1 d1), (Ea p2 d2) by done. by apply (inv_uniq _ _ HI).
    - intros p c Hp. destruct (table_deref _ _ HI p Hp) as (c'&d&Hc'&_).
      rewrite Ed, Ehc, Etc by eauto. by apply (inv_cnt _ _ HI).
    - intros p. rewrite Ehc. apply (inv_hand _ _ HI).
    - intros p. rewrite Erc. apply (inv_rem_in _ _ HI).
    - intros p. rewrite Erc, Ehc. apply (inv_rem _ _ HI).
    - apply lock_ok_same; [intros l t'; apply (inv_lock _ _ HI)|].
      transitivity (pc_lock (get_pc st t)); [by rewrite Hpc|done].
    - intros t'. unfold st' at 2. rewrite get_pc_set. destruct (decide (t' = t)) as [->|].
      + simpl. split; [done|]. intros ->. simpl in Hok. tauto.
      + eapply pc_ok_mono; [apply (inv_pc _ _ HI t')|..].
        * intros q' c' _ Hq'. rewrite Ed; eauto.
        * done.
        * intros p d _ Hd. by rewrite (Ea p d).
        * intros p _. by rewrite Ehc.
        * intros k' v' q' _ H p d Hp Hd. eapply H; [done|]. apply Ea'; [done|].
          destruct (table_deref _ _ HI p Hp) as (c&d'&[Hc <-]%deref_Some&_). by eapply inv_ser.
    - intros a' c Hc. simpl in *. apply lookup_insert_Some in Hc as [[<- <-]|[_ Hc]]; [simpl; lia|].
      apply (inv_ser _ _ HI) in Hc. lia.
    - intros a' c w kk Hc. simpl in *.
      apply lookup_insert_Some in Hc as [[<- <-]|[_ Hc]]; [|by eapply inv_acyc].
      simpl. intros [= <-] Hk. eapply hand_ser; [done|].
      assert (0 < pc_handles E kk (get_pc st t)) as H1.
      { rewrite Hkid. unfold cell_handles. simpl. by apply occ_pos. }
      pose proof (hc_ge_pc E st t kk). lia.
    - intros t' w p Hin. simpl in Hin. destruct (inv_log _ _ HI t' w p Hin) as [Hs Hd].
      simpl. split; [lia|]. intros d Hd'. apply Hd. by apply Ea'.
  Qed.

  (** Freeing, or emptying, a box owned by thread [t] alone; [new] is what is left at the
      address. *)
  Lemma inv_unbox st st' t q c x' (new : option (cell V)) :
    Inv st -> deref st q = Some c -> 0 < pc_oc (p_addr q) (get_pc st t) ->
    (forall c', new = Some c' -> c_data c' = None /\ c_ser c' = c_ser c) ->
    st_heap st' = partial_alter (λ _, new) (p_addr q) (st_heap st) ->
    st_table st' = st_table st -> st_next st' = st_next st ->
    st_threads st' = <[t:=x']> (st_threads st) ->
    st_zombies st' = st_zombies st -> st_log st' = st_log st ->
    st_pool st' = st_pool st -> st_gone st' = st_gone st ->
    (forall p, pc_handles E p x' = pc_handles E p (get_pc st t) + cell_handles E p c) ->
    (forall p, pc_tc p x' = pc_tc p (get_pc st t)) ->
    (forall p, pc_rc p x' = pc_rc p (get_pc st t)) ->
    (forall a, pc_oc a x' + (match new with None => at_addr a q | Some _ => 0 end)
               = pc_oc a (get_pc st t)) ->
    lock_ok (st_locks st') (<[t:=x']> (st_threads st)) ->
    pc_ok st' x' ->
    Inv st'.
  Proof.
    intros HI Hc Hown Hnew Hh Ht Hn Hth Hz Hlg Hpl Hgn Chc Ctc Crc Coc Hlk Hok.
    pose proof Hc as [Hca Hcs]%deref_Some.
    assert (forall p, p_addr p <> p_addr q -> deref st' p = deref st p) as Ed.
    { intros p Hp. apply deref_ext. by rewrite Hh, lookup_partial_alter_ne. }
    assert (forall p, p_addr p <> p_addr q -> data st' p = data st p) as Ea.
    { intros p Hp. unfold data. by rewrite Ed. }
    assert (forall p d, data st' p = Some d -> data st p = Some d) as Ea'.
    { intros p d Hd. destruct (decide (p_addr p = p_addr q)) as [He|]; [|by rewrite <- Ea].
      exfalso. apply data_Some in Hd as (c'&[Hc' _]%deref_Some&Hd).
      rewrite Hh, He, lookup_partial_alter in Hc'. destruct (Hnew c' Hc'). congruence. }
    assert (forall p, p ∈ st_table st -> p_addr p <> p_addr q) as Hta.
    { intros p Hp He. pose proof (table_not_box _ _ HI p t Hp). rewrite He in *. lia. }
    assert (forall p, msum (cell_handles E p) (st_heap st') + cell_handles E p c
                      = msum (cell_handles E p) (st_heap st)) as Hms.
    { intros p. rewrite Hh. destruct new as [c'|].
      - destruct (Hnew c' eq_refl) as [Hc' _].
        pose proof (msum_insert_Some (cell_handles E p) (st_heap st) _ c' c Hca) as Hm.
        unfold insert, map_insert in Hm.
        assert (cell_handles E p c' = 0) by (unfold cell_handles; by rewrite Hc'). lia.
      - rewrite (msum_delete (cell_handles E p) (st_heap st) _ c Hca).
        unfold delete, map_delete. lia. }
    assert (forall p, hc st' p = hc st p) as Ehc.
    { intros p. specialize (Chc p). specialize (Hms p). unfold handles_to. rewrite Hth, Hpl, Hgn.
      pose proof (tsum_set (pc_handles E p) st t x' eq_refl). lia. }
    assert (forall p, tc st' p = tc st p) as Etc.
    { intros p. specialize (Ctc p). unfold tc. rewrite Hth.
      pose proof (tsum_set (pc_tc p) st t x' eq_refl). lia. }
    assert (forall p, rc st' p = rc st p) as Erc.
    { intros p. specialize (Crc p). unfold rc. rewrite Hth, Hz.
      pose proof (tsum_set (pc_rc p) st t x' eq_refl). lia. }
    constructor.
    - intros p Hp. rewrite Ht in Hp. rewrite Ea by auto. by apply (inv_live _ _ HI).
    - intros a. specialize (Coc a). pose proof (inv_own _ _ HI a) as Ho. unfold oc in *.
      rewrite Hth, Ht, Hh. pose proof (tsum_set (pc_oc a) st t x' eq_refl).
      destruct (decide (a = p_addr q)) as [->|Hne].
      + rewrite lookup_partial_alter. rewrite Hca in Ho.
        destruct new; rewrite ?at_addr_self in Coc; lia.
      + rewrite lookup_partial_alter_ne by done. rewrite at_addr_ne in Coc by done.
        destruct new; lia.
    - intros p1 p2 u w. rewrite Ht. intros Hp1 Hp2. rewrite !Ea by auto.
      by apply (inv_uniq _ _ HI).
    - intros p c' Hp. rewrite Ht in Hp. rewrite Ed, Ehc, Etc by auto. by apply (inv_cnt _ _ HI).
    - intros p. rewrite Ehc, Ht. apply (inv_hand _ _ HI).
    - intros p. rewrite Erc, Ht. apply (inv_rem_in _ _ HI).
    - intros p. rewrite Erc, Ehc, Ht. apply (inv_rem _ _ HI).
    - intros l t'. unfold get_pc. rewrite Hth. apply Hlk.
    - intros t'. unfold get_pc. rewrite Hth. destruct (decide (t' = t)) as [->|Hne].
      { by rewrite lookup_insert. }
      rewrite lookup_insert_ne by done.
      change (default PFree (st_threads st !! t')) with (get_pc st t').
      eapply pc_ok_mono; [apply (inv_pc _ _ HI t')|..].
      + intros q' c' Hq' Hc'. rewrite Ed; [done|]. intros He. rewrite He in Hq'.
        pose proof (box_alone _ _ HI (p_addr q) t t' ltac:(done) Hown). lia.
      + intros. by rewrite Ht.
      + intros p d Hp Hd. rewrite Ea; [done|]. apply Hta. by eapply pins_table.
      + intros. by rewrite Ehc.
      + intros k v q' _ H p d Hp Hd. rewrite Ht in Hp. eapply H; [done|]. by apply Ea'.
    - intros a c' Hc'. rewrite Hn. rewrite Hh in Hc'.
      destruct (decide (a = p_addr q)) as [->|].
      + rewrite lookup_partial_alter in Hc'. destruct (Hnew c' Hc') as [_ ->]. by eapply inv_ser.
      + rewrite lookup_partial_alter_ne in Hc' by done. by eapply inv_ser.
    - intros a c' v k Hc' Hv. rewrite Hh in Hc'.
      destruct (decide (a = p_addr q)) as [->|].
      + rewrite lookup_partial_alter in Hc'. destruct (Hnew c' Hc'). congruence.
      + rewrite lookup_partial_alter_ne in Hc' by done. by eapply inv_acyc.
    - intros t' v p Hin. rewrite Hlg in Hin. rewrite Hn.
      destruct (inv_log _ _ HI t' v p Hin) as [? Hd]. split; [done|]. eauto.
  Qed.

  (** Insertion of a box into the table. *)
  Lemma inv_insert st t k v q :
    Inv st -> get_pc st t = PVac k v q ->
    Inv (set_pc (set_table st (q :: st_table st)) t (PIns k v q)).
  Proof.
    intros HI Hpc. pose proof (inv_pc _ _ HI t) as Hok. rewrite Hpc in Hok. simpl in Hok.
    destruct Hok as (Hbox&Hkd&Hnm).
    set (st' := set_pc _ _ _).
    assert (q ∉ st_table st) as Hq.
    { intros Hq. pose proof (table_not_box _ _ HI q t Hq) as H0. rewrite Hpc in H0.
      simpl in H0. rewrite at_addr_self in H0. done. }
    assert (hc st q = 0) as Hhc0.
    { destruct (decide (hc st q = 0)); [done|]. destruct Hq. apply (inv_hand _ _ HI). lia. }
    assert (rc st q = 0) as Hrc0.
    { destruct (decide (rc st q = 0)); [done|]. destruct Hq. apply (inv_rem_in _ _ HI). lia. }
    assert (tc st q = 0) as Htc0.
    { destruct (decide (tc st q = 0)) as [|Hn]; [done|]. destruct Hq.
      destruct (tsum_pos (pc_tc q) st) as [t' Ht']; [unfold tc in Hn; lia|].
      apply (pins_table st t' q HI). destruct (get_pc st t'); simpl in *; try lia.
      destruct (old =? 0)%N; [|lia]. unfold is_p in Ht'. case_bool_decide; [done|simpl in *; lia]. }
    assert (data st q = Some v) as Hdq by (apply data_Some; eauto).
    assert (forall p, deref st' p = deref st p) as Ed by (intros; by apply deref_ext).
    assert (forall p, data st' p = data st p) as Ea by (intros; by apply data_ext).
    assert (forall p, hc st' p = hc st p + is_p p q) as Ehc.
    { intros p. pose proof (hc_set_pc E (set_table st (q :: st_table st)) t (PIns k v q) p) as H.
      change (get_pc (set_table _ _) t) with (get_pc st t) in H. rewrite Hpc in H.
      change (hc (set_table _ _) p) with (hc st p) in H. simpl in H. fold st' in H. lia. }
    assert (forall p, tc st' p = tc st p) as Etc.
    { intros p. pose proof (tc_set_pc (set_table st (q :: st_table st)) t (PIns k v q) p) as H.
      change (get_pc (set_table _ _) t) with (get_pc st t) in H. rewrite Hpc in H.
      change (tc (set_table _ _) p) with (tc st p) in H. simpl in H. fold st' in H. lia. }
    assert (forall p, rc st' p = rc st p) as Erc.
    { intros p. pose proof (rc_set_pc (set_table st (q :: st_table st)) t (PIns k v q) p) as H.
      change (get_pc (set_table _ _) t) with (get_pc st t) in H. rewrite Hpc in H.
      change (rc (set_table _ _) p) with (rc st p) in H. simpl in H. fold st' in H. lia. }
    assert (forall a, oc st' a = oc st a) as Eoc.
    { intros a. unfold oc. pose proof (tsum_set (pc_oc a) st t (PIns k v q) eq_refl) as H.
      rewrite Hpc in H. simpl in H |- *. unfold tab_oc. csimpl. unfold at_addr in H.
      destruct (decide (p_addr q = a)); destruct (Nat.eqb_spec (p_addr q) a); simpl in H; lia. }
    constructor.
    - intros p. rewrite Ea. simpl. intros [->|Hp]%elem_of_cons; [eauto|]. by apply (inv_live _ _ HI).
    - intros a. rewrite Eoc. apply (inv_own _ _ HI).
    - intros p1 p2 u w. rewrite !Ea. simpl.
      intros [->|Hp1]%elem_of_cons [->|Hp2]%elem_of_cons Hu Hw He.
      + done.
      + exfalso. simplify_eq. rewrite (Hnm p2 w) in He; done.
      + exfalso. simplify_eq. apply (coh_sym _ HL) in He. rewrite (Hnm p1 u) in He; done.
      + by eapply inv_uniq.
    - intros p c. rewrite Ed, Ehc, Etc. simpl. intros [->|Hp]%elem_of_cons Hc.
      + unfold box_ok in Hbox. rewrite Hbox in Hc. simplify_eq. simpl.
        rewrite is_p_self, Hhc0, Htc0. simpl. unfold wide in HW. rewrite N.mod_small; lia.
      + rewrite (inv_cnt _ _ HI p c Hp Hc). f_equal. rewrite is_p_ne; [lia|]. intros ->. done.
    - intros p. rewrite Ehc. simpl. destruct (decide (p = q)) as [->|Hne]; [by left|].
      rewrite is_p_ne by done. intros H. right. apply (inv_hand _ _ HI). lia.
    - intros p. rewrite Erc. simpl. intros ?. right. by apply (inv_rem_in _ _ HI).
    - intros p. rewrite Erc, Ehc. simpl. intros [->|Hp]%elem_of_cons.
      + rewrite is_p_self, Hrc0, Hhc0. done.
      + rewrite is_p_ne by (intros ->; done). rewrite Nat.add_0_r. by apply (inv_rem _ _ HI).
    - apply lock_ok_same; [intros l t'; apply (inv_lock _ _ HI)|].
      transitivity (pc_lock (get_pc st t)); [by rewrite Hpc|done].
    - intros t'. unfold st' at 2. rewrite get_pc_set. destruct (decide (t' = t)) as [->|Hne].
      { simpl. split; [by left|by rewrite Ea]. }
      change (get_pc (set_table _ _) t') with (get_pc st t').
      eapply pc_ok_mono; [apply (inv_pc _ _ HI t')|..].
      + intros. by rewrite Ed.
      + intros. simpl. by right.
      + intros. by rewrite Ea.
      + intros p Hp H0. rewrite Ehc, H0, is_p_ne; [done|]. intros ->. done.
      + intros k' v' q' Hx Hnm' p d Hp Hd. rewrite Ea in Hd. simpl in Hp.
        apply elem_of_cons in Hp as [->|Hp]; [|by eapply Hnm'].
        assert (d = v) as -> by congruence.
        destruct (te_eq E v' v) eqn:He; [|done]. exfalso. apply Hne.
        apply (lock_unique _ _ HI (lock_of E v)); [|by rewrite Hpc].
        rewrite Hx. simpl. f_equal. by apply law_lock.
    - apply (inv_ser _ _ HI).
    - apply (inv_acyc _ _ HI).
    - intros t' w p. rewrite Ea. apply (inv_log _ _ HI).
  Qed.

  (** Removal of a dead entry. *)
  Lemma inv_remove st t l q w r c d :
    Inv st -> get_pc st t = PRem l q w r -> deref st q = Some c -> c_data c = Some d ->
    Inv (set_pc (take_data (unlock (set_table st (remove_entry q (st_table st))) l) q c) t
                (PWork (drop_box E d q ++ w) r)).
  Proof.
    intros HI Hpc Hc Hcd. pose proof (inv_pc _ _ HI t) as Hok. rewrite Hpc in Hok. simpl in Hok.
    destruct Hok as (Hq&(d'&Hd'&Hl)&Hfree&Hret).
    assert (data st q = Some d) as Hdq by (apply data_Some; eauto). rewrite Hdq in Hd'. injection Hd' as <-. subst l.
    pose proof Hc as [Hca Hcs]%deref_Some.
    set (x' := PWork _ _). set (st' := set_pc _ _ _).
    assert (hc st q = 0 /\ rc st q = 1) as [Hhc0 Hrc1].
    { pose proof (inv_rem _ _ HI q Hq) as H1.
      pose proof (tsum_ge (pc_rc q) st t eq_refl) as H2. rewrite Hpc in H2. simpl in H2.
      rewrite is_p_self in H2. unfold rc in *. destruct (hc st q =? 0) eqn:H3; lia. }
    assert (forall t', pins (get_pc st t') q -> t' = t) as Hpin.
    { intros t' Hp. apply (lock_unique _ _ HI (lock_of E d)); [|by rewrite Hpc].
      by eapply pins_lock. }
    assert (tc st q = 0) as Htc0.
    { destruct (decide (tc st q = 0)) as [|Hn]; [done|]. exfalso.
      destruct (tsum_pos (pc_tc q) st) as [t' Ht']; [unfold tc in Hn; lia|].
      assert (t' = t) as ->; [|rewrite Hpc in Ht'; simpl in Ht'; lia].
      apply Hpin. destruct (get_pc st t'); simpl in *; try lia.
      destruct (old =? 0)%N; [|lia]. unfold is_p in Ht'. case_bool_decide; [done|simpl in *; lia]. }
    assert (forall p, p ∈ st_table st' <-> p ∈ st_table st /\ p <> q) as Hin.
    { intros p. simpl. unfold remove_entry. rewrite elem_of_list_filter. tauto. }
    assert (forall p, p_addr p <> p_addr q -> deref st' p = deref st p) as Ed.
    { intros p Hp. apply deref_ext. simpl. by rewrite lookup_insert_ne. }
    assert (forall p, p_addr p <> p_addr q -> data st' p = data st p) as Ea.
    { intros p Hp. unfold data. by rewrite Ed. }
    assert (forall p d', data st' p = Some d' -> data st p = Some d') as Ea'.
    { intros p d1 Hd. destruct (decide (p_addr p = p_addr q)) as [He|]; [|by rewrite <- Ea].
      exfalso. apply data_Some in Hd as (c'&[Hc' _]%deref_Some&Hd). simpl in Hc'.
      rewrite He, lookup_insert in Hc'. simplify_eq. }
    assert (forall p, p ∈ st_table st -> p <> q -> p_addr p <> p_addr q) as Hta.
    { intros p Hp Hne He. apply Hne. by apply (table_ptr_inj _ _ HI). }
    assert (forall p, hc st' p = hc st p) as Ehc.
    { intros p. unfold handles_to. simpl.
      pose proof (tsum_set (pc_handles E p) st t x' eq_refl) as H1.
      pose proof (msum_insert_Some (cell_handles E p) (st_heap st) _
                    (Cell (c_ser c) (c_count c) None) c Hca) as H2.
      rewrite Hpc in H1. simpl in H1. unfold drop_box in H1.
      rewrite !work_handles_app, work_handles_drops in H1. simpl in H1.
      unfold cell_handles in H2 at 2 3. rewrite Hcd in H2. simpl in H2. lia. }
    assert (forall p, tc st' p = tc st p) as Etc.
    { intros p. unfold tc. simpl.
      pose proof (tsum_set (pc_tc p) st t x' eq_refl) as H1. rewrite Hpc in H1. simpl in H1. lia. }
    assert (forall p, rc st' p + is_p p q = rc st p) as Erc.
    { intros p. unfold rc. simpl.
      pose proof (tsum_set (pc_rc p) st t x' eq_refl) as H1. rewrite Hpc in H1. simpl in H1.
      unfold drop_box in H1. rewrite !work_rc_app, work_rc_drops in H1. simpl in H1. lia. }
    assert (forall a, oc st' a = oc st a) as Eoc.
    { intros a. unfold oc. simpl.
      pose proof (tsum_set (pc_oc a) st t x' eq_refl) as H1. rewrite Hpc in H1. simpl in H1.
      unfold drop_box in H1. rewrite !work_oc_app, work_oc_drops in H1. simpl in H1.
      assert (tab_oc a (st_table st) = tab_oc a (remove_entry q (st_table st)) + at_addr a q); [|lia].
      clear -HI Hq. pose proof (fun p q => table_ptr_inj _ _ HI p q) as Hinj.
      assert (tab_oc (p_addr q) (st_table st) = 1) as H1.
      { pose proof (inv_own _ _ HI (p_addr q)) as Ho. unfold oc in Ho.
        pose proof (tab_oc_in q _ Hq). destruct (st_heap st !! p_addr q); lia. }
      unfold tab_oc, remove_entry in *.
      revert Hq H1 Hinj. generalize (st_table st) as tb. clear.
      assert (forall tb : list ptr, q ∉ tb -> filter (λ z : ptr, z ≠ q) tb = tb) as Hid.
      { induction tb as [|z tb IH]; intros Hq; [done|]. apply not_elem_of_cons in Hq as [??].
        rewrite filter_cons_True by done. f_equal. auto. }
      induction tb as [|z tb IH]; intros Hq H1 Hinj; [by apply elem_of_nil in Hq|].
      destruct (decide (z = q)) as [->|Hne].
      - rewrite filter_cons_False by (intros Hx; by apply Hx).
        csimpl. csimpl in H1. rewrite decide_True in H1 by done.
        rewrite Hid.
        + unfold at_addr. destruct (decide (p_addr q = a)), (Nat.eqb_spec (p_addr q) a); simpl; lia.
        + intros Hq2. apply (tab_oc_in q tb) in Hq2. unfold tab_oc in Hq2. lia.
      - rewrite filter_cons_True by done. csimpl. csimpl in H1.
        apply elem_of_cons in Hq as [?|Hq]; [done|].
        rewrite IH; [lia|done| |].
        + rewrite decide_False in H1; [done|]. intros He. apply Hne. apply Hinj; [by left|by right|done].
        + intros p q' Hp Hq'. apply Hinj; by right. }
    constructor.
    - intros p [Hp Hne]%Hin. rewrite Ea by auto. by apply (inv_live _ _ HI).
    - intros a. rewrite Eoc, (inv_own _ _ HI). simpl. destruct (decide (a = p_addr q)) as [->|].
      + by rewrite lookup_insert, Hca.
      + by rewrite lookup_insert_ne.
    - intros p1 p2 u v [Hp1 ?]%Hin [Hp2 ?]%Hin. rewrite !Ea by auto. by apply (inv_uniq _ _ HI).
    - intros p c' [Hp Hne]%Hin. rewrite Ed, Ehc, Etc by auto. by apply (inv_cnt _ _ HI).
    - intros p Hp. rewrite Ehc in Hp. apply Hin. split; [by apply (inv_hand _ _ HI)|].
      intros ->. lia.
    - intros p Hp. apply Hin. specialize (Erc p). split; [apply (inv_rem_in _ _ HI); lia|].
      intros ->. rewrite is_p_self in Erc. lia.
    - intros p [Hp Hne]%Hin. rewrite Ehc, <- (inv_rem _ _ HI p Hp), <- Erc.
      rewrite is_p_ne by done. lia.
    - apply lock_ok_rel; [intros l' t'; apply (inv_lock _ _ HI)| |done].
      transitivity (pc_lock (get_pc st t)); [done|by rewrite Hpc].
    - intros t'. unfold st' at 2. rewrite get_pc_set. destruct (decide (t' = t)) as [->|Hne].
      { simpl. split.
        - intros q1 Hq1. unfold drop_box in Hq1. rewrite !elem_of_app in Hq1.
          destruct Hq1 as [[Hq1|Hq1]|Hq1].
          + apply elem_of_list_fmap in Hq1 as (?&?&?). done.
          + apply elem_of_list_singleton in Hq1. simplify_eq.
            exists (Cell (c_ser c) (c_count c) None). split; [|done].
            apply deref_Some. simpl. by rewrite lookup_insert.
          + destruct (Hfree q1 Hq1) as (c1&Hc1&Hk1). exists c1. split; [|done].
            rewrite Ed; [done|]. intros He. pose proof (free_oc w q1 Hq1) as Ho.
            pose proof (table_not_box _ _ HI q t Hq) as H0. rewrite Hpc in H0. simpl in H0.
            rewrite He in Ho. lia.
        - intros v p Hr. destruct (Hret v p Hr) as (d1&Hd1&He). exists d1. split; [|done].
          rewrite Ea; [done|]. apply Hta; [apply (pins_table st t p HI); rewrite Hpc; simpl; eauto|].
          intros ->. subst r.
          assert (0 < hc st q); [|lia]. eapply ret_hc. right. eauto. }
      change (get_pc (take_data _ _ _) t') with (get_pc st t').
      assert (forall p, pins (get_pc st t') p -> p <> q) as Hpn.
      { intros p Hp ->. apply Hne. by apply Hpin. }
      eapply pc_ok_mono; [apply (inv_pc _ _ HI t')|..].
      + intros q' c' Ho Hq'. rewrite Ed; [done|]. intros He. rewrite He in Ho.
        pose proof (table_not_box _ _ HI q t' Hq). lia.
      + intros p Hp Hpt. apply Hin. split; [done|]. auto.
      + intros p d1 Hp Hd1. rewrite Ea; [done|]. apply Hta; [by eapply pins_table|auto].
      + intros. by rewrite Ehc.
      + intros k v q' _ H p d1 [Hp Hpq]%Hin Hd1. eapply H; [done|]. by apply Ea'.
    - intros a c' Hc'. simpl in *. apply lookup_insert_Some in Hc' as [[<- <-]|[_ Hc']].
      + simpl. by eapply inv_ser.
      + by eapply inv_ser.
    - intros a c' v k Hc'. simpl in *. apply lookup_insert_Some in Hc' as [[<- <-]|[_ Hc']].
      + done.
      + by eapply inv_acyc.
    - intros t' v p Hlog. simpl in Hlog. destruct (inv_log _ _ HI t' v p Hlog) as [? Hd].
      simpl. split; [done|]. eauto.
  Qed.
End step.

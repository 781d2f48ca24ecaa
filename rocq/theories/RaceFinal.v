(** Race freedom of all executions. *)
From stdpp Require Import gmap list numbers.
From Verif Require Import Base ArcModel ArcSpec ArcInv ArcStep ArcSafe ArcReach RaceModel RaceSpec RaceInv RaceStep RaceSafe.
Require Import ZifyBool ZifyNat ZifyN.

Section final.
  Context {V : Type} (E : tyenv V) (O : orders).
  Implicit Types (st : state V) (s : rstate V) (p q : ptr) (tr : list access) (W : gset nat).
  Notation RInv := (RInv E).
  Notation Inv := (Inv E).
  Notation resp := (resp E).
  Notation hc := (handles_to E).
  Notation Good := (Good E).

  Lemma is_p_dec p q : is_p p q = if decide (q = p) then 1 else 0.
  Proof. unfold is_p. case_bool_decide; by destruct (decide (q = p)). Qed.

  (** ** Following references *)
  Lemma last_default (ks : list ptr) k p p' : List.last (k :: ks) p = List.last (k :: ks) p'.
  Proof. revert k. induction ks as [|k' ks IH]; intros k; [done|]. simpl in *. by rewrite (IH k'). Qed.

  Lemma follow_owns st p ks k : follow E st p ks = Next k ->
    k = target p ks /\ owns E st p k /\
    forall n, n ∈ path p ks -> exists r, owns E st p r /\ live st r /\ p_ser r = n.
  Proof.
    revert p. induction ks as [|k0 ks IH]; intros p Hf; simpl in Hf.
    - injection Hf as <-. split; [done|]. split; [apply owns_refl|]. by intros n ?%elem_of_nil.
    - destruct (data st p) as [d|] eqn:Hd; [|done]. destruct (decide (k0 ∈ te_kids E d)) as [Hk|]; [|done].
      destruct (IH k0 Hf) as (Ht&Ho&Hn). split; [|split].
      + unfold target in *. destruct ks as [|k1 ks]; [done|]. rewrite Ht.
        change (List.last (k0 :: k1 :: ks) p) with (List.last (k1 :: ks) p). apply last_default.
      + by eapply owns_step.
      + intros n [->|Hin]%elem_of_cons.
        * exists p. split; [apply owns_refl|]. split; [by eapply data_live|done].
        * destruct (Hn n Hin) as (r&Hr&?&?). exists r. split; [by eapply owns_step|done].
  Qed.

  Lemma borrow_owns st p ks k : borrow E st p ks = Next k ->
    k = target p ks /\ owns E st p k /\
    forall n, n ∈ path p ks -> exists r, owns E st p r /\ live st r /\ p_ser r = n.
  Proof. unfold borrow. destruct (decide (p ∈ st_pool st)); [apply follow_owns|done]. Qed.

  (** ** Handles *)
  Lemma may_use_inv s t h x : may_use s t h = Some x ->
    get_pc (r_st s) t = PFree /\ r_hands s !! h = Some x /\ h_made x ⊆ seen s t.
  Proof.
    unfold may_use. destruct (get_pc (r_st s) t); try done. destruct (r_hands s !! h); [|done].
    destruct (decide _); [|done]. by intros [= <-].
  Qed.
  Lemma may_consume_inv s t h x : may_consume s t h = Some x ->
    get_pc (r_st s) t = PFree /\ r_hands s !! h = Some x /\ h_made x ∪ h_used x ⊆ seen s t.
  Proof.
    unfold may_consume. destruct (may_use s t h) as [y|] eqn:Hu; [|done].
    destruct (may_use_inv _ _ _ _ Hu) as (?&?&?).
    destruct (decide _); [|done]. intros [= <-]. split; [done|]. split; [done|set_solver].
  Qed.

  Lemma consume_all_inv s t hs ps s' : consume_all s t hs = Some (ps, s') ->
    exists hm, s' = set_hands s hm /\
      (forall h x, hm !! h = Some x -> r_hands s !! h = Some x) /\
      (forall h x, r_hands s !! h = Some x -> hm !! h = Some x \/ h_ptr x ∈ ps /\ h_made x ∪ h_used x ⊆ seen s t) /\
      (forall p, msum (λ x, is_p p (h_ptr x)) (r_hands s) = occ p ps + msum (λ x, is_p p (h_ptr x)) hm) /\
      (forall p, p ∈ ps -> exists h x, r_hands s !! h = Some x /\ h_ptr x = p /\ h_made x ⊆ seen s t).
  Proof.
    revert s ps s'. induction hs as [|h hs IH]; intros s ps s' Hc; simpl in Hc.
    - injection Hc as <- <-. exists (r_hands s). split; [by destruct s|]. split; [done|].
      split; [by left|]. split; [done|]. by intros p ?%elem_of_nil.
    - destruct (may_consume s t h) as [x|] eqn:Hm; [|done].
      destruct (may_consume_inv _ _ _ _ Hm) as (_&Hx&Hsub).
      destruct (consume_all _ t hs) as [[ps1 s1]|] eqn:Hc1; [|done]. injection Hc as <- <-.
      destruct (IH _ _ _ Hc1) as (hm&->&H1&H2&H3&H4). exists hm. split; [done|].
      simpl in *. split; [|split; [|split]].
      + intros h' x' Hx'%H1. by apply lookup_delete_Some in Hx' as [_ ?].
      + intros h' x' Hx'. destruct (decide (h = h')) as [<-|Hne].
        * right. simplify_eq. split; [by left|done].
        * destruct (H2 h' x') as [?|[? ?]]; [by rewrite lookup_delete_ne|by left|].
          right. split; [by right|done].
      + intros p. rewrite (msum_delete _ _ _ _ Hx), H3, is_p_dec. lia.
      + intros p [->|Hp]%elem_of_cons.
        * exists h, x. split; [done|]. split; [done|set_solver].
        * destruct (H4 p Hp) as (h'&x'&Hx'&?&?). exists h', x'.
          apply lookup_delete_Some in Hx' as [_ ?]. done.
  Qed.

  (** ** Serial numbers stay unique *)
  Definition heap_inj (m : gmap nat (cell V)) : Prop :=
    forall a b c c', m !! a = Some c -> m !! b = Some c' -> c_ser c = c_ser c' -> a = b.
  Lemma ser_inj_heap st : ser_inj st <-> heap_inj (st_heap st).
  Proof.
    split.
    - intros HS a b c c' Ha Hb He.
      assert (Ptr a (c_ser c) = Ptr b (c_ser c')) as [= ? ?]; [|done].
      apply HS; [exists c|exists c'|done]; by apply deref_Some.
    - intros HS p q [c Hc] [c' Hc'] He. apply deref_Some in Hc as [Hc E1], Hc' as [Hc' E2].
      assert (p_addr p = p_addr q) by (eapply HS; [done|done|congruence]).
      destruct p, q; simpl in *; congruence.
  Qed.
  Lemma heap_inj_update m a c c' : heap_inj m -> m !! a = Some c -> c_ser c' = c_ser c -> heap_inj (<[a:=c']> m).
  Proof.
    intros HS Ha He x y cx cy [[<- <-]|[? Hx]]%lookup_insert_Some [[<- <-]|[? Hy]]%lookup_insert_Some E1; [done| | |].
    - apply (HS a y c cy); [done|done|congruence].
    - apply (HS x a cx c); [done|done|congruence].
    - by apply (HS x y cx cy).
  Qed.
  Lemma heap_inj_delete m a : heap_inj m -> heap_inj (delete a m).
  Proof.
    intros HS x y cx cy [_ Hx]%lookup_delete_Some [_ Hy]%lookup_delete_Some E1. by apply (HS x y cx cy).
  Qed.
  Lemma heap_inj_new m a c : heap_inj m -> (forall b c', m !! b = Some c' -> c_ser c' < c_ser c) ->
    heap_inj (<[a:=c]> m).
  Proof.
    intros HS Hn x y cx cy [[<- <-]|[? Hx]]%lookup_insert_Some [[<- <-]|[? Hy]]%lookup_insert_Some E1; [done| | |].
    - pose proof (Hn y cy Hy). lia.
    - pose proof (Hn x cx Hx). lia.
    - by apply (HS x y cx cy).
  Qed.

  Lemma step_ser_inj st l st' : Inv st -> ser_inj st -> step E st l = Next st' -> ser_inj st'.
  Proof.
    intros HI HS%ser_inj_heap Hs. apply ser_inj_heap.
    assert (forall p c n d, deref st p = Some c -> heap_inj (<[p_addr p := Cell (c_ser c) n d]> (st_heap st))) as Hup.
    { intros p c n d [Hc _]%deref_Some. by eapply heap_inj_update. }
    assert (forall a v, heap_inj (<[a := Cell (st_next st) 1%N (Some v)]> (st_heap st))) as Hnew.
    { intros a v. apply heap_inj_new; [done|]. intros b c' Hc'. simpl. by eapply inv_ser. }
    destruct l as [t k v|t p|p ks|p|p ks|p ks|t ty|t ty|t a i|t]; simpl in Hs; unfold step_thread, step_panic in Hs;
      repeat (case_match; try done); simplify_eq; simpl; auto using heap_inj_delete.
  Qed.

  (** Only returning touches the clients' handles. *)
  Lemma step_thread_pool st t a i st' : step_thread E st t a i = Next st' ->
    (forall v p, get_pc st t <> PWork [] (Some (v, p))) -> st_pool st' = st_pool st.
  Proof.
    intros Hs Hn. unfold step_thread in Hs. repeat (case_match; try done); simplify_eq; try done; by edestruct Hn.
  Qed.
  Lemma step_panic_pool st t st' : step_panic E st t = Next st' -> st_pool st' = st_pool st.
  Proof. intros Hs. unfold step_panic in Hs. repeat (case_match; try done); by simplify_eq. Qed.

  Lemma applies_frame s t ms : r_st (applies s t ms) = r_st s /\ r_hands (applies s t ms) = r_hands s.
  Proof.
    revert s. induction ms as [|m ms IH]; intros s; [done|]. unfold applies in *. simpl.
    destruct (IH (apply s t m)) as [-> ->]. split; apply (apply_frame s t m).
  Qed.

  Context (HL : coherent E) (Hacq : acquires (o_sub O) = true) (Hrel : releases (o_sub O) = true).

  (** The label of ArcModel behind a label. *)
  Definition erase s (l : rlabel V) : option (label V) :=
    match l with
    | RNew t k v _ => Some (LNew t k v)
    | RDrop t h => match r_hands s !! h with Some x => Some (LDrop t (h_ptr x)) | None => None end
    | RClone t h ks _ => match r_hands s !! h with Some x => Some (LClone (h_ptr x) ks) | None => None end
    | RForget t h => match r_hands s !! h with Some x => Some (LForget (h_ptr x)) | None => None end
    | RRef t h ks => match r_hands s !! h with Some x => Some (LRef (h_ptr x) ks) | None => None end
    | RDeref t h ks => match r_hands s !! h with Some x => Some (LDeref (h_ptr x) ks) | None => None end
    | RLen t ty => Some (LLen t ty)
    | RShrink t ty => Some (LShrink t ty)
    | RStep t a i _ => Some (LStep t a i)
    | RPanic t => Some (LPanic t)
    | RSend _ _ | RRecv _ _ => None
    end.

  Lemma lift_Next s l f s' : lift E s l f = Next s' ->
    exists st, step E (r_st s) l = Next st /\ s' = f (set_st s st).
  Proof. unfold lift. destruct (step E (r_st s) l); try done. intros [= <-]. by eexists. Qed.

  Lemma rstep_erase s l s' : rstep E O s l = Next s' ->
    match erase s l with
    | Some l' => step E (r_st s) l' = Next (r_st s')
    | None => r_st s' = r_st s
    end.
  Proof.
    destruct l as [t k v hs|t h|t h ks h'|t h|t h ks|t h ks|t ty|t ty|t a i h|t|t m|t m]; cbn [rstep erase]; intros Hs.
    - destruct (consume_all s t hs) as [[ps s1]|] eqn:Hc; [|done]. destruct (decide _); [|done].
      apply consume_all_inv in Hc as (hm&->&_). apply lift_Next in Hs as (st&Hst&->). done.
    - destruct (may_consume s t h) as [x|] eqn:Hm; [|done].
      apply may_consume_inv in Hm as (_&->&_). apply lift_Next in Hs as (st&Hst&->). done.
    - destruct (may_use s t h) as [x|] eqn:Hm; [|done].
      apply may_use_inv in Hm as (_&->&_). destruct (r_hands s !! h'); [done|].
      apply lift_Next in Hs as (st&Hst&->).
      cbv zeta. unfold new_hand, used. cbn [r_st set_hands]. by rewrite (proj1 (applies_frame _ _ _)).
    - destruct (may_consume s t h) as [x|] eqn:Hm; [|done].
      apply may_consume_inv in Hm as (_&->&_). apply lift_Next in Hs as (st&Hst&->). done.
    - destruct (may_use s t h) as [x|] eqn:Hm; [|done].
      apply may_use_inv in Hm as (_&->&_). apply lift_Next in Hs as (st&Hst&->).
      unfold used. cbn [r_st set_hands]. by rewrite (proj1 (applies_frame _ _ _)).
    - destruct (may_use s t h) as [x|] eqn:Hm; [|done].
      apply may_use_inv in Hm as (_&->&_). apply lift_Next in Hs as (st&Hst&->). done.
    - apply lift_Next in Hs as (st&Hst&->). done.
    - apply lift_Next in Hs as (st&Hst&->). done.
    - assert (exists f, lift E s (LStep t a i) f = Next s' /\ forall x, r_st (f x) = r_st x) as (f&Hf&Hfr).
      { repeat (case_match; try done); eexists; (split; [exact Hs|]); intros; try done;
          apply (applies_frame x). }
      apply lift_Next in Hf as (st&Hst&->). by rewrite Hfr.
    - apply lift_Next in Hs as (st&Hst&->). by rewrite (proj1 (applies_frame _ _ _)).
    - case_match; try done. by simplify_eq.
    - case_match; try done. by simplify_eq.
  Qed.

  (** ** Client actions *)
  Lemma ri_use_rmw s t h x y p o : RInv s -> Inv (r_st s) -> ser_inj (r_st s) ->
    r_hands s !! h = Some y ->
    h_ptr y = h_ptr x -> h_made y = h_made x -> closed (r_trace s) (h_used x) ->
    h_used y ⊆ seen s t ∪ h_used x -> h_made x ⊆ seen s t ->
    0 < hc (r_st s) p -> owns E (r_st s) (h_ptr x) p ->
    RInv (used (apply s t (MRmw (p_ser p) o)) t h x) /\ RInv (used (apply s t (MLoad (p_ser p) o)) t h x).
  Proof.
    intros HI HA HS Hy Hp Hm Hcl Hu Hk Hh Ho.
    pose proof (ri_acquire E s t (p_ser p) o HI) as H1. cbn [apply].
    set (s1 := if acquires o then _ else _) in *.
    assert (r_st s1 = r_st s /\ r_hands s1 = r_hands s /\ r_trace s1 = r_trace s /\ seen s t ⊆ seen s1 t) as (E1&E2&E3&E4).
    { unfold s1. destruct (acquires o); [|done]. split; [done|]. split; [done|]. split; [done|].
      rewrite seen_set_seen, decide_True by done. set_solver. }
    pose proof (hc_live E _ _ HA Hh) as Hl.
    assert (RInv (used (add_access s1 t [(p_ser p, TAtomic)]) t h x)) as H2.
    { apply (ri_use E s1 t h x y); rewrite ?E1, ?E2, ?E3; try done.
      - set_solver.
      - set_solver.
      - intros k [=]%elem_of_list_singleton.
      - intros k w [= -> ->]%elem_of_list_singleton. by exists p. }
    split; [|exact H2]. destruct (releases o); [|exact H2].
    apply (ri_publish E _ t (p_ser p)) in H2; [exact H2| |]; cbn [r_st used set_hands add_access]; rewrite E1.
    - by apply (live_ser E).
    - intros p' u Hl' He Hown. assert (p' = p) as -> by (by apply HS).
      pose proof (own_tab E _ _ _ HA (inv_hand _ _ HA p Hh) Hown) as Hrc.
      destruct (dying_alone E _ u p HA Hrc) as (Hh0&_). lia.
  Qed.

  Lemma apply_set_hands s hs t m : apply (set_hands s hs) t m = set_hands (apply s t m) hs.
  Proof.
    destruct m as [l|l|l|k o|k o|m|m]; try done; cbn [apply].
    - destruct (acquires o), (releases o); done.
    - destruct (acquires o); done.
  Qed.
  Lemma used_apply s t m h x : used (apply (used s t h x) t m) t h x = used (apply s t m) t h x.
  Proof.
    unfold used at 2. rewrite apply_set_hands. unfold used.
    change (seen (set_hands ?a _) t) with (seen a t).
    change (r_hands (set_hands ?a ?b)) with b. rewrite (insert_insert (r_hands s)).
    by rewrite (proj1 (proj2 (apply_frame s t m))).
  Qed.

  Lemma ri_path s t h x ks : Good s -> r_hands s !! h = Some x -> h_made x ⊆ seen s t ->
    (forall n, n ∈ ks -> exists r, owns E (r_st s) (h_ptr x) r /\ live (r_st s) r /\ p_ser r = n) ->
    RInv (used (apply s t (MTouch ((λ n, (n, TRead)) <$> ks))) t h x).
  Proof.
    intros HG Hx Hm Hks. apply (ri_use E s t h x x); try done; try apply HG.
    - by eapply wf_used; [apply HG|].
    - set_solver.
    - intros k (n&[=]&_)%elem_of_list_fmap.
    - intros k w (n&[= -> ->]&Hn)%elem_of_list_fmap. destruct (Hks n Hn) as (r&?&?&?). by exists r.
  Qed.

  Lemma ri_log s e : RInv s -> RInv (set_st s (add_log (r_st s) e)).
  Proof. intros HI. by apply ri_same. Qed.

  Lemma rstep_ri s l s' : Good s -> Fit E s -> rstep E O s l = Next s' -> RInv s'.
  Proof.
    intros HG Hf Hs. pose proof HG as [HA HI HP HS].
    destruct l as [t k v hs|t h|t h ks h'|t h|t h ks|t h ks|t ty|t ty|t a i h|t|t m|t m]; cbn [rstep] in Hs.
    - (* RNew *)
      destruct (consume_all s t hs) as [[ps s1]|] eqn:Hc; [|done]. destruct (decide _) as [->|]; [|done].
      apply consume_all_inv in Hc as (hm&->&C1&C2&C3&C4). apply lift_Next in Hs as (st&Hst&->).
      simpl in Hst. destruct (get_pc (r_st s) t) eqn:Hpc; try done.
      assert (exists pl, st = set_pc (set_pool (r_st s) pl) t (PLookup k v None)
              /\ forall p, arg_handles E p k v = occ p (te_kids E v)) as (pl&->&Harg).
      { destruct k.
        - destruct (rem_all _ _) as [pl|]; [|done]. injection Hst as <-. by exists pl.
        - destruct (te_kids E v) eqn:Hk; [|done]. injection Hst as <-. exists (st_pool (r_st s)).
          split; [by destruct (r_st s)|]. intros p. simpl. done. }
      pose proof HI as H1.
      apply (ri_gain E _ t (PLookup k v None)) in H1.
      2:{ intros p Hl. unfold RaceInv.resp, own. rewrite Hpc. simpl. lia. }
      2:{ intros p Hl Hr. right. revert Hr. unfold RaceInv.resp, own. rewrite get_pc_set, decide_True by done. simpl.
          rewrite Harg. intros [Hin%occ_pos|[?|?]]; [|lia|lia].
          intros i Hi. destruct (C4 p Hin) as (h&x&Hx&<-&Hsub). apply Hsub. by eapply (ri_khand _ _ HI). }
      2:{ intros p Hl. unfold own. rewrite get_pc_set, decide_True by done. simpl. lia. }
      apply (ri_del_hands E _ t hm) in H1; [|done|].
      2:{ intros h x Hx. destruct (C2 h x Hx) as [?|[Hin Hsub]]; [by left|]. right. right.
          split; [|done]. left. simpl. rewrite get_pc_set, decide_True by done. simpl. rewrite Harg. by apply occ_pos. }
      apply (ri_same E _ (set_pc (set_pool (r_st s) pl) t (PLookup k v None))) in H1; done.
    - (* RDrop *)
      destruct (may_consume s t h) as [x|] eqn:Hm; [|done].
      apply may_consume_inv in Hm as (Hpc&Hx&Hsub). apply lift_Next in Hs as (st&Hst&->).
      simpl in Hst. rewrite Hpc in Hst. destruct (rem1 _ _) as [pl|]; [|done]. injection Hst as <-.
      pose proof HI as H1.
      apply (ri_gain E _ t (PWork [IDrop (h_ptr x)] None)) in H1.
      2:{ intros p Hl. unfold RaceInv.resp, own. rewrite Hpc. simpl. lia. }
      2:{ intros p Hl Hr. right. revert Hr. unfold RaceInv.resp, own. rewrite get_pc_set, decide_True by done. simpl.
          intros [Hin|[?|?]]; [|lia|lia].
          assert (h_ptr x = p) as <- by (apply is_p_pos; lia).
          intros i Hi. pose proof (ri_khand _ _ HI h x i Hx Hi). set_solver. }
      2:{ intros p Hl. unfold own. rewrite get_pc_set, decide_True by done. simpl. lia. }
      apply (ri_del_hands E _ t (delete h (r_hands s))) in H1.
      2:{ intros h' x' [_ ?]%lookup_delete_Some. done. }
      2:{ intros h' x' Hx'. destruct (decide (h = h')) as [<-|Hne]; [|left; by rewrite lookup_delete_ne].
          simpl in Hx'. simplify_eq. right. right. split; [|done]. left. simpl.
          rewrite get_pc_set, decide_True by done. simpl. rewrite is_p_self. lia. }
      apply (ri_same E _ (set_pc (set_pool (r_st s) pl) t (PWork [IDrop (h_ptr x)] None))) in H1; done.
    - (* RClone *)
      destruct (may_use s t h) as [x|] eqn:Hm; [|done].
      apply may_use_inv in Hm as (Hpc&Hx&Hsub). destruct (r_hands s !! h') eqn:Hh'; [done|].
      apply lift_Next in Hs as (st&Hst&->). simpl in Hst.
      destruct (borrow E (r_st s) (h_ptr x) ks) as [k| | |] eqn:Hb; try done.
      destruct (borrow_live E (r_st s) (h_ptr x) ks HA) as [_ Hbl]. specialize (Hbl k Hb).
      destruct (borrow_owns _ _ _ _ Hb) as (<-&Ho&Hpath).
      destruct (deref (r_st s) k) as [c|] eqn:Hc; [|done]. injection Hst as <-.
      set (st' := set_pool _ _). cbv zeta.
      (* the accesses happen in the old state as well as in the new one *)
      rewrite applies_set_st.
      assert (forall y, used (set_st y st') t h x = set_st (used y t h x) st') as Hcomm by done.
      rewrite Hcomm. clear Hcomm.
      set (ms := (λ n, (n, TRead)) <$> path (h_ptr x) ks).
      change (applies s t [MTouch ms; MRmw (p_ser k) (o_clone O)])
        with (apply (apply s t (MTouch ms)) t (MRmw (p_ser k) (o_clone O))).
      rewrite <- used_apply.
      pose proof (ri_path s t h x (path (h_ptr x) ks) HG Hx Hsub Hpath) as H1. fold ms in H1.
      set (s1 := used (apply s t (MTouch ms)) t h x) in *.
      assert (seen s t ⊆ seen s1 t) as Hs1.
      { unfold s1. change (seen (used ?a _ _ _) t) with (seen a t). cbn [apply].
        rewrite seen_add, decide_True by done. set_solver. }
      destruct (ri_use_rmw s1 t h x (Hand (h_ptr x) (h_made x) (seen s1 t ∪ h_used x)) k (o_clone O)) as [H2 _]; try done.
      { simpl. apply lookup_insert. }
      { simpl. eapply closed_app, wf_used; [apply HI|done]. }
      { set_solver. }
      set (s2 := used (apply s1 t _) t h x) in *.
      assert (r_st s2 = r_st s) as E2.
      { unfold s2, used. cbn [r_st set_hands]. by rewrite apply_st. }
      assert (seen s1 t ⊆ seen s2 t) as Hs2.
      { unfold s2. change (seen (used ?a _ _ _) t) with (seen a t).
        apply (apply_frame s1 t (MRmw (p_ser k) (o_clone O))). }
      assert (forall u, r_hands s2 !! u = None <-> r_hands s !! u = None) as Hh2.
      { intros u. unfold s2, used. cbn [r_hands set_hands].
        rewrite (proj1 (proj2 (apply_frame s1 t (MRmw (p_ser k) (o_clone O))))).
        unfold s1, used. cbn [r_hands set_hands apply add_access]. rewrite insert_insert.
        destruct (decide (h = u)) as [<-|]; [rewrite lookup_insert, Hx; done|by rewrite lookup_insert_ne]. }
      apply (ri_new_hand E s2 t h' k) in H2.
      2:{ by apply Hh2. }
      2:{ intros j Hj. eapply (owns_known E s2 t (h_ptr x) k); [done|by rewrite E2| |done].
          intros j' Hj'. apply Hs2, Hs1, Hsub.
          assert (r_hands s2 !! h = Some (Hand (h_ptr x) (h_made x) (seen (apply s1 t (MRmw (p_ser k) (o_clone O))) t ∪ h_used x))) as Hx2.
          { unfold s2, used. cbn [r_hands set_hands]. apply lookup_insert. }
          exact (ri_khand _ _ H2 _ _ _ Hx2 Hj'). }
      apply (ri_set_count E _ k c (count_inc E (c_count c))) in H2; cbn [r_st new_hand set_hands] in *; rewrite ?E2 in *; [|done].
      apply (ri_same E _ st') in H2; done.
    - (* RForget *)
      destruct (may_consume s t h) as [x|] eqn:Hm; [|done].
      apply may_consume_inv in Hm as (Hpc&Hx&Hsub). apply lift_Next in Hs as (st&Hst&->).
      simpl in Hst. destruct (rem1 _ _) as [pl|]; [|done]. injection Hst as <-.
      pose proof (ri_leave E s (set_gone (set_pool (r_st s) pl) (h_ptr x :: st_gone (r_st s))) HI) as H1.
      feed specialize H1; try done.
      { intros p Hp. by right. }
      apply (ri_del_hands E _ t (delete h (r_hands s))) in H1; [exact H1| |].
      + intros h' x' [_ ?]%lookup_delete_Some. done.
      + intros h' x' Hx'. destruct (decide (h = h')) as [<-|Hne]; [|left; by rewrite lookup_delete_ne].
        simpl in Hx'. simplify_eq. right. left. simpl. by left.
    - (* RRef *)
      destruct (may_use s t h) as [x|] eqn:Hm; [|done].
      apply may_use_inv in Hm as (Hpc&Hx&Hsub).
      apply lift_Next in Hs as (st&Hst&->). simpl in Hst.
      destruct (borrow E (r_st s) (h_ptr x) ks) as [k| | |] eqn:Hb; try done.
      destruct (borrow_live E (r_st s) (h_ptr x) ks HA) as [_ Hbl]. specialize (Hbl k Hb).
      destruct (borrow_owns _ _ _ _ Hb) as (<-&Ho&Hpath).
      destruct (deref (r_st s) k) as [c|] eqn:Hc; [|done]. injection Hst as <-.
      set (st' := add_log _ _). cbv zeta. rewrite applies_set_st.
      assert (forall y, used (set_st y st') t h x = set_st (used y t h x) st') as Hcomm by done.
      rewrite Hcomm. clear Hcomm.
      set (ms := (λ n, (n, TRead)) <$> path (h_ptr x) ks).
      change (applies s t [MTouch ms; MLoad (p_ser k) (o_load O)])
        with (apply (apply s t (MTouch ms)) t (MLoad (p_ser k) (o_load O))).
      rewrite <- used_apply.
      pose proof (ri_path s t h x (path (h_ptr x) ks) HG Hx Hsub Hpath) as H1. fold ms in H1.
      set (s1 := used (apply s t (MTouch ms)) t h x) in *.
      assert (seen s t ⊆ seen s1 t) as Hs1.
      { unfold s1. change (seen (used ?a _ _ _) t) with (seen a t). cbn [apply].
        rewrite seen_add, decide_True by done. set_solver. }
      destruct (ri_use_rmw s1 t h x (Hand (h_ptr x) (h_made x) (seen s1 t ∪ h_used x)) k (o_load O)) as [_ H2]; try done.
      { simpl. apply lookup_insert. }
      { simpl. eapply closed_app, wf_used; [apply HI|done]. }
      { set_solver. }
      set (s2 := used (apply s1 t _) t h x) in *.
      assert (r_st s2 = r_st s) as E2.
      { unfold s2, used. cbn [r_st set_hands]. by rewrite apply_st. }
      apply (ri_log _ (EvRef k (c_count c))) in H2. rewrite E2 in H2. exact H2.
    - (* RDeref *)
      destruct (may_use s t h) as [x|] eqn:Hm; [|done].
      apply may_use_inv in Hm as (Hpc&Hx&Hsub).
      apply lift_Next in Hs as (st&Hst&->). simpl in Hst.
      destruct (borrow E (r_st s) (h_ptr x) ks) as [k| | |] eqn:Hb; try done.
      destruct (borrow_live E (r_st s) (h_ptr x) ks HA) as [_ Hbl]. specialize (Hbl k Hb).
      destruct (borrow_owns _ _ _ _ Hb) as (<-&Ho&Hpath).
      destruct (data (r_st s) k) as [v|] eqn:Hc; [|done]. injection Hst as <-.
      cbv zeta.
      pose proof (ri_path s t h x (path (h_ptr x) ks ++ [p_ser k]) HG Hx Hsub) as H1. feed specialize H1.
      { intros n [?|Hn]%elem_of_app; [by apply Hpath|]. apply elem_of_list_singleton in Hn as ->.
        exists k. split; [done|]. split; [by eapply data_live|done]. }
      apply (ri_log _ (EvDeref k v)) in H1. exact H1.
    - apply lift_Next in Hs as (st&Hst&->). simpl in Hst. destruct (get_pc (r_st s) t) eqn:Hpc; try done.
      injection Hst as <-. apply ri_goto; [done| |]; intros p Hl; unfold RaceInv.resp, own;
        rewrite get_pc_set, decide_True, Hpc by done; simpl; lia.
    - apply lift_Next in Hs as (st&Hst&->). simpl in Hst. destruct (get_pc (r_st s) t) eqn:Hpc; try done.
      injection Hst as <-. apply ri_goto; [done| |]; intros p Hl; unfold RaceInv.resp, own;
        rewrite get_pc_set, decide_True, Hpc by done; simpl; lia.
    - (* RStep *)
      assert ((exists v p, get_pc (r_st s) t = PWork [] (Some (v, p)) /\ r_hands s !! h = None /\
                 lift E s (LStep t a i) (λ s, new_hand s t h p) = Next s') \/
              (forall v p, get_pc (r_st s) t <> PWork [] (Some (v, p))) /\
                 lift E s (LStep t a i) (λ s', applies s' t (mops E O (r_st s) t i)) = Next s') as [(v&p&Hpc&Hh&Hl)|[Hn Hl]].
      { destruct (get_pc (r_st s) t) as [| | | | | | | | | | |[|? ?] [[v p]|]| |] eqn:Hpc; try (right; by split).
        left. exists v, p. split; [done|]. by destruct (r_hands s !! h). }
      + apply lift_Next in Hl as (st&Hst&->). simpl in Hst. unfold step_thread in Hst. rewrite Hpc in Hst.
        injection Hst as <-.
        assert (resp (r_st s) p t) as Hr.
        { left. rewrite Hpc. simpl. rewrite is_p_self. lia. }
        assert (live (r_st s) p) as Hlp.
        { eapply (pc_live E _ _ t); [done|]. rewrite Hpc. simpl. rewrite is_p_self. lia. }
        pose proof (ri_new_hand E s t h p HI Hh) as H1. feed specialize H1.
        { intros j. by apply (ri_kthr _ _ HI p). }
        apply (ri_set_pc E _ t PFree) in H1.
        2:{ intros p0 e _ Hr0 He. assert (p = p0) as <-.
            { revert Hr0. unfold RaceInv.resp, own. cbn [r_st new_hand set_hands]. rewrite Hpc. simpl.
              intros [?|[?|?]]; [|lia|lia]. apply is_p_pos. lia. }
            eapply (cov_hand _ _ _ h (Hand p (seen s t) ∅)).
            - simpl. apply lookup_insert.
            - simpl. set_solver. }
        2:{ intros p0 e _. unfold RaceInv.resp, own. simpl. rewrite get_pc_set, decide_True by done. simpl. lia. }
        2:{ intros p0 e _. unfold RaceInv.resp, own. simpl. rewrite get_pc_set, decide_True by done. simpl. lia. }
        apply (ri_same E _ (add_log (set_pool (set_pc (r_st s) t PFree) (p :: st_pool (r_st s))) (EvNew t v p))) in H1; done.
      + apply lift_Next in Hl as (st&Hst&->). by apply (ri_step E O HL Hacq Hrel s t a i st).
    - apply lift_Next in Hs as (st&Hst&->). by eapply (ri_panic E O).
    - destruct (get_pc (r_st s) t); try done. injection Hs as <-.
      constructor; try apply HI.
      + apply (wf_apply s t (MSend m)), HI.
      + intros p i Hl Ht. eapply (cov_mono _ s); try done; [|by exists []; rewrite app_nil_r|by apply (ri_cov _ _ HI)].
        intros h x Hx. by exists x.
    - destruct (get_pc (r_st s) t); try done.
      injection Hs as <-. apply ri_learn; [done|]. apply (ri_wf _ _ HI).
  Qed.

  Definition pool_ok s : Prop :=
    forall p, occ p (st_pool (r_st s)) = msum (λ x, is_p p (h_ptr x)) (r_hands s).
  Lemma rstep_pool s l s' : pool_ok s -> rstep E O s l = Next s' -> pool_ok s'.
  Proof.
    clear HL Hacq Hrel. intros HG Hs p. pose proof (HG p) as HP.
    destruct l as [t k v hs|t h|t h ks h'|t h|t h ks|t h ks|t ty|t ty|t a i h|t|t m|t m]; cbn [rstep] in Hs.
    - destruct (consume_all s t hs) as [[ps s1]|] eqn:Hc; [|done]. destruct (decide _) as [->|]; [|done].
      apply consume_all_inv in Hc as (hm&->&_&_&C3&_). apply lift_Next in Hs as (st&Hst&->).
      simpl in Hst |- *. specialize (C3 p). destruct (get_pc (r_st s) t) eqn:Hpc; try done. destruct k.
      + destruct (rem_all _ _) as [pl|] eqn:Hr; [|done]. injection Hst as <-. simpl.
        pose proof (rem_all_occ _ _ _ p Hr). lia.
      + destruct (te_kids E v) eqn:Hk; [|done]. injection Hst as <-. simpl in *. lia.
    - destruct (may_consume s t h) as [x|] eqn:Hm; [|done].
      apply may_consume_inv in Hm as (Hpc&Hx&_). apply lift_Next in Hs as (st&Hst&->). simpl in Hst |- *.
      rewrite Hpc in Hst. destruct (rem1 _ _) as [pl|] eqn:Hr; [|done]. injection Hst as <-. simpl.
      pose proof (rem1_occ _ _ _ p Hr). pose proof (msum_delete (λ x, is_p p (h_ptr x)) _ _ _ Hx) as Hd. simpl in Hd.
      rewrite is_p_dec in Hd. lia.
    - destruct (may_use s t h) as [x|] eqn:Hm; [|done].
      apply may_use_inv in Hm as (Hpc&Hx&_). destruct (r_hands s !! h') eqn:Hh'; [done|].
      apply lift_Next in Hs as (st&Hst&->). cbv zeta. unfold new_hand, used. cbn [r_st set_hands r_hands].
      rewrite (proj1 (applies_frame _ _ _)), (proj2 (applies_frame _ _ _)). cbn [r_st set_st r_hands].
      simpl in Hst. destruct (borrow E (r_st s) (h_ptr x) ks) as [k| | |] eqn:Hb; try done.
      destruct (borrow_owns _ _ _ _ Hb) as (<-&_).
      destruct (deref (r_st s) k) as [c|] eqn:Hc; [|done]. injection Hst as <-. simpl.
      assert (h <> h') by (intros ->; congruence).
      rewrite msum_insert_None by (by rewrite lookup_insert_ne).
      pose proof (msum_insert_Some (λ x, is_p p (h_ptr x)) (r_hands s) h
        (Hand (h_ptr x) (h_made x) (seen (applies (set_st s (set_pool (set_count (r_st s) k c (count_inc E (c_count c)))
        (k :: st_pool (r_st s)))) t [MTouch ((λ n, (n, TRead)) <$> path (h_ptr x) ks); MRmw (p_ser k) (o_clone O)]) t ∪ h_used x)) x Hx) as Hi.
      simpl in Hi. simpl. rewrite (is_p_dec p k). lia.
    - destruct (may_consume s t h) as [x|] eqn:Hm; [|done].
      apply may_consume_inv in Hm as (Hpc&Hx&_). apply lift_Next in Hs as (st&Hst&->). simpl in Hst |- *.
      destruct (rem1 _ _) as [pl|] eqn:Hr; [|done]. injection Hst as <-. simpl.
      pose proof (rem1_occ _ _ _ p Hr). pose proof (msum_delete (λ x, is_p p (h_ptr x)) _ _ _ Hx) as Hd. simpl in Hd.
      rewrite is_p_dec in Hd. lia.
    - destruct (may_use s t h) as [x|] eqn:Hm; [|done].
      apply may_use_inv in Hm as (Hpc&Hx&_). apply lift_Next in Hs as (st&Hst&->). cbv zeta. unfold used.
      cbn [r_st set_hands r_hands].
      rewrite (proj1 (applies_frame _ _ _)), (proj2 (applies_frame _ _ _)). cbn [r_st set_st r_hands].
      simpl in Hst. destruct (borrow E (r_st s) (h_ptr x) ks) as [k| | |] eqn:Hb; try done.
      destruct (deref (r_st s) k) as [c|] eqn:Hc; [|done]. injection Hst as <-. simpl.
      match goal with |- _ = msum _ (<[_:=?y]> _) =>
        pose proof (msum_insert_Some (λ x, is_p p (h_ptr x)) (r_hands s) h y x Hx) as Hi end.
      simpl in Hi. simpl. lia.
    - destruct (may_use s t h) as [x|] eqn:Hm; [|done].
      apply may_use_inv in Hm as (Hpc&Hx&_). apply lift_Next in Hs as (st&Hst&->). cbv zeta. unfold used.
      cbn [r_st set_hands r_hands].
      rewrite (proj1 (applies_frame _ _ _)), (proj2 (applies_frame _ _ _)). cbn [r_st set_st r_hands].
      simpl in Hst. destruct (borrow E (r_st s) (h_ptr x) ks) as [k| | |] eqn:Hb; try done.
      destruct (data (r_st s) k) as [c|] eqn:Hc; [|done]. injection Hst as <-. simpl.
      match goal with |- _ = msum _ (<[_:=?y]> _) =>
        pose proof (msum_insert_Some (λ x, is_p p (h_ptr x)) (r_hands s) h y x Hx) as Hi end.
      simpl in Hi. simpl. lia.
    - apply lift_Next in Hs as (st&Hst&->). simpl in Hst. case_match; try done. by injection Hst as <-.
    - apply lift_Next in Hs as (st&Hst&->). simpl in Hst. case_match; try done. by injection Hst as <-.
    - assert ((exists v p, get_pc (r_st s) t = PWork [] (Some (v, p)) /\ r_hands s !! h = None /\
                 lift E s (LStep t a i) (λ s, new_hand s t h p) = Next s') \/
              (forall v p, get_pc (r_st s) t <> PWork [] (Some (v, p))) /\
                 lift E s (LStep t a i) (λ s', applies s' t (mops E O (r_st s) t i)) = Next s') as [(v&q&Hpc&Hh&Hl)|[Hn Hl]].
      { destruct (get_pc (r_st s) t) as [| | | | | | | | | | |[|? ?] [[v q]|]| |] eqn:Hpc; try (right; by split).
        left. exists v, q. split; [done|]. by destruct (r_hands s !! h). }
      + apply lift_Next in Hl as (st&Hst&->). simpl in Hst. unfold step_thread in Hst. rewrite Hpc in Hst.
        injection Hst as <-. simpl. rewrite msum_insert_None by done. simpl. rewrite (is_p_dec p q). lia.
      + apply lift_Next in Hl as (st&Hst&->). rewrite (proj1 (applies_frame _ _ _)), (proj2 (applies_frame _ _ _)).
        simpl in *. by rewrite (step_thread_pool _ _ _ _ _ Hst Hn).
    - apply lift_Next in Hs as (st&Hst&->). rewrite (proj1 (applies_frame _ _ _)), (proj2 (applies_frame _ _ _)).
      simpl in *. by rewrite (step_panic_pool _ _ _ Hst).
    - case_match; try done. by injection Hs as <-.
    - case_match; try done. by injection Hs as <-.
  Qed.

  Context (HW : wide E).

  Lemma rstep_good s l s' : Good s -> Fit E s -> rstep E O s l = Next s' -> Good s'.
  Proof.
    intros HG Hf Hs. pose proof (rstep_erase s l s' Hs) as He.
    pose proof (rstep_ri s l s' HG Hf Hs) as HR. pose proof (rstep_pool s l s' (g_pool _ _ HG) Hs) as HP.
    destruct (erase s l) as [l'|].
    - constructor; [|done|done|].
      + eapply step_inv; [done..|apply HG|apply Hf|exact He].
      + eapply step_ser_inj; [apply HG|apply HG|exact He].
    - constructor; [|done|done|]; rewrite He; apply HG.
  Qed.

  Lemma lift_UB s l f : lift E s l f = UB -> step E (r_st s) l = UB.
  Proof. unfold lift. by destruct (step E (r_st s) l). Qed.

  Lemma rstep_UB s l : rstep E O s l = UB -> exists l', step E (r_st s) l' = UB.
  Proof.
    clear HL Hacq Hrel HW. intros Hs.
    { destruct l as [t k v hs|t h|t h ks h'|t h|t h ks|t h ks|t ty|t ty|t a i h|t|t m|t m]; cbn [rstep] in Hs.
      - destruct (consume_all s t hs) as [[ps s1]|] eqn:Hc; [|done]. destruct (decide _); [|done].
        apply consume_all_inv in Hc as (hm&->&_). apply lift_UB in Hs. by eexists.
      - destruct (may_consume s t h); [|done]. apply lift_UB in Hs. by eexists.
      - destruct (may_use s t h); [|done]. destruct (r_hands s !! h'); [done|]. apply lift_UB in Hs. by eexists.
      - destruct (may_consume s t h); [|done]. apply lift_UB in Hs. by eexists.
      - destruct (may_use s t h); [|done]. apply lift_UB in Hs. by eexists.
      - destruct (may_use s t h); [|done]. apply lift_UB in Hs. by eexists.
      - apply lift_UB in Hs. by eexists.
      - apply lift_UB in Hs. by eexists.
      - exists (LStep t a i). repeat (case_match; try done); by apply lift_UB in Hs.
      - apply lift_UB in Hs. by eexists.
      - by repeat (case_match; try done).
      - by repeat (case_match; try done). }
  Qed.
  Lemma rstep_no_ub s l : Good s -> rstep E O s l <> UB.
  Proof.
    intros HG Hs. destruct (rstep_UB s l Hs) as [l' Hl].
    eapply step_no_ub; [done..|apply HG|exact Hl].
  Qed.

  Lemma good_init : Good rinit.
  Proof.
    constructor; simpl.
    - by apply inv_init.
    - assert (forall t, get_pc (@init V) t = PFree) as Hpc.
      { intros t. unfold get_pc. simpl. by rewrite lookup_empty. }
      assert (forall i k, ~ touches [] k i) as Ht.
      { intros i k (x&w&Hx&_). done. }
      assert (forall p, ~ live (@init V) p) as Hl.
      { intros p [c Hc]. apply deref_Some in Hc as [Hc _]. simpl in Hc. by rewrite lookup_empty in Hc. }
      assert (forall (W : gset nat), W = ∅ -> closed [] W) as Hcl.
      { intros W ->. apply closed_empty. }
      constructor; simpl.
      + constructor; simpl; try (intros; apply Hcl; unfold seen, lockv, countv; simpl; by rewrite lookup_empty);
          intros; try done; by rewrite lookup_empty in *.
      + intros l t. by rewrite lookup_empty.
      + intros k i Hi. by apply Ht in Hi.
      + intros p Hp. by apply Hl in Hp.
      + intros h x i Hx. by rewrite lookup_empty in Hx.
      + intros p t i Hp. by apply Hl in Hp.
      + intros p d i Hp. by apply elem_of_nil in Hp.
      + intros q d k i x j Hd. apply data_live in Hd. by apply Hl in Hd.
      + intros p t e Hp. by apply Hl in Hp.
      + intros p i Hp. by apply Hl in Hp.
      + intros i j y k w _ Hy. done.
      + intros k e. unfold countv. simpl. rewrite lookup_empty. simpl. set_solver.
    - intros p. by rewrite msum_empty.
    - apply ser_inj_heap. intros a b c c' Ha. simpl in Ha. by rewrite lookup_empty in Ha.
  Qed.

  Lemma rbounded_app ls1 ls2 : rbounded E O (ls1 ++ ls2) -> rbounded E O ls1.
  Proof. intros Hb l1 l2 s1 -> Hr. eapply (Hb l1 (l2 ++ ls2)); [by rewrite app_assoc|done]. Qed.

  Theorem rrun_good ls : rbounded E O ls -> exists s, run (rstep E O) rinit ls = Some s /\ Good s.
  Proof.
    induction ls as [|l ls IH] using rev_ind; intros Hb.
    - exists rinit. split; [done|]. apply good_init.
    - destruct (IH (rbounded_app _ _ Hb)) as (s&Hr&HG). rewrite run_snoc, Hr. unfold exec.
      destruct (rstep E O s l) as [s'| | |] eqn:Hs; [|by eauto..|].
      + exists s'. split; [done|]. eapply rstep_good; [done| |exact Hs].
        intros p. eapply (Hb ls [l]); [done|done].
      + by destruct (rstep_no_ub s l HG).
  Qed.
End final.

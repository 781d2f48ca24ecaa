(** Proofs for C67. *)
From stdpp Require Import gmap list numbers.
From Verif Require Import Base ArcModel ArcSpec ArcInv ArcStep ArcSafe ArcReach ArcProps ArcLive SpinSpec FreeSpec.
Require Import ZifyBool ZifyNat ZifyN.

Section mem.
  Context {V : Type} (E : tyenv V).
  Context (HC : coherent E) (HW : wide E).
  Implicit Types (st : state V) (p q : ptr).

  Lemma occ_boxes a st : msum (pc_oc a) (st_threads st) = occ a (p_addr <$> boxes st).
  Proof.
    unfold boxes. induction (st_threads st) as [|k x m Hk IH] using map_ind.
    - by rewrite msum_empty, map_to_list_empty.
    - rewrite msum_insert_None by done. rewrite IH.
      assert (forall l l' : list (nat * pc V), l ≡ₚ l' ->
        occ a (p_addr <$> concat (pc_boxes <$> l.*2)) = occ a (p_addr <$> concat (pc_boxes <$> l'.*2))) as Hp.
      { induction 1 as [|[? ?] l l' _ IH'|[? ?] [? ?] l|l l' l'' _ IH1 _ IH2]; csimpl; rewrite ?fmap_app, ?occ_app; [done|by rewrite IH'|lia|by rewrite IH1]. }
      rewrite (Hp _ _ (map_to_list_insert m k x Hk)). simpl. rewrite fmap_app, occ_app. f_equal.
      assert (forall w, work_oc a w = occ a (p_addr <$> freeing w)) as Hw.
      { induction w as [|[] w IHw]; simpl; [done|done|done|]. rewrite IHw. f_equal. unfold at_addr, b2n.
        destruct (Nat.eqb_spec (p_addr q) a), (decide (p_addr q = a)); lia. }
      assert (forall q, at_addr a q = occ a [p_addr q]) as Hq.
      { intros q. unfold at_addr, b2n. simpl. destruct (Nat.eqb_spec (p_addr q) a), (decide (p_addr q = a)); lia. }
      destruct x as [|? ? []|? ? [] ?|? ? [] ? ?|? ? [] ?|? ? []|? ? ?|? ? ?|? ? ?|? ? ?|? ? ? ?|? ?|? ? ?|? ?]; simpl; rewrite ?Hw, ?Hq; done.
  Qed.

  Theorem memory ls st : bounded E ls -> run (step E) init ls = Some st ->
    NoDup (p_addr <$> st_table st ++ boxes st) /\
    (forall a, is_Some (st_heap st !! a) <-> a ∈ p_addr <$> st_table st ++ boxes st) /\
    size (st_heap st) = length (st_table st) + length (boxes st).
  Proof.
    intros Hb Hr. pose proof (run_Inv E HC HW ls st Hb Hr) as HI.
    assert (forall a, occ a (p_addr <$> st_table st ++ boxes st) = match st_heap st !! a with Some _ => 1 | None => 0 end) as Ho.
    { intros a. rewrite <- (inv_own _ _ HI a). unfold oc, tab_oc. rewrite occ_boxes, fmap_app, occ_app. done. }
    assert (NoDup (p_addr <$> st_table st ++ boxes st)) as Hnd.
    { apply occ_NoDup. intros a. rewrite Ho. destruct (st_heap st !! a); lia. }
    assert (forall a, is_Some (st_heap st !! a) <-> a ∈ p_addr <$> st_table st ++ boxes st) as Hin.
    { intros a. rewrite <- occ_pos, Ho. destruct (st_heap st !! a); split; intros H; [lia|by eexists|by destruct H|lia]. }
    split_and!; [done|done|].
    rewrite <- app_length, <- (fmap_length p_addr (st_table st ++ boxes st)).
    rewrite <- (size_list_to_set (C:=gset nat) _ Hnd), <- (size_dom (D:=gset nat) (st_heap st)). f_equal.
    apply leibniz_equiv. intros a. rewrite elem_of_dom, Hin, elem_of_list_to_set. done.
  Qed.

  Lemma removing_rc st t p : removing st t p <-> 0 < pc_rc p (get_pc st t).
  Proof.
    assert (forall w, IRemove p ∈ w <-> 0 < work_rc p w) as Hw.
    { induction w as [|it w IH]; [split; [by intros ?%elem_of_nil|simpl; lia]|].
      rewrite elem_of_cons, IH. simpl. destruct it as [q|q|q]; simpl; try (split; [intros [?|?]; [done|lia]|right; lia]).
      unfold is_p, b2n. destruct (bool_decide_reflect (q = p)) as [->|]; split; [lia|by left|intros [[=]|?]; [by subst|lia]|right; lia]. }
    unfold removing. destruct (get_pc st t) as [| | | | | | | | | |l q w r|w r| |]; simpl; try (split; [done|lia]); rewrite Hw; [|done].
    unfold is_p, b2n. destruct (bool_decide_reflect (q = p)); split; [lia|by left|intros [?|?]; [done|lia]|right; lia].
  Qed.

  Theorem entries ls st p : bounded E ls -> no_panic ls -> run (step E) init ls = Some st -> p ∈ st_table st ->
    ~ alive E st p -> exists t, removing st t p /\ forall t', removing st t' p -> t' = t.
  Proof.
    intros Hb Hn Hr Hp Ha. pose proof (run_Inv E HC HW ls st Hb Hr) as HI.
    pose proof (inv_rem _ _ HI p Hp) as Hrc. unfold alive in Ha. unfold rc in Hrc.
    rewrite (run_zombies E ls st Hn Hr) in Hrc. simpl in Hrc.
    destruct (Nat.eqb_spec (handles_to E st p) 0); [|lia].
    assert (0 < msum (pc_rc p) (st_threads st)) as (t&x&Ht&Hx)%msum_pos by lia.
    assert (get_pc st t = x) as Hg by (unfold get_pc; by rewrite Ht).
    exists t. split; [apply removing_rc; by rewrite Hg|].
    intros t' Ht'%removing_rc. destruct (decide (t' = t)) as [|Hne]; [done|]. exfalso.
    destruct (st_threads st !! t') as [x'|] eqn:Hx'.
    - assert (get_pc st t' = x') as Hg' by (unfold get_pc; by rewrite Hx'). rewrite Hg' in Ht'.
      pose proof (msum_ge2 (pc_rc p) _ _ _ _ _ Hx' Ht Hne). lia.
    - unfold get_pc in Ht'. rewrite Hx' in Ht'. simpl in Ht'. lia.
  Qed.
End mem.

(** ** Nesting *)
Section nest.
  Context {V : Type} (E : tyenv V).
  Context (HC : coherent E) (HW : wide E).
  Implicit Types (st : state V) (p q : ptr) (w : list item) (R : ptr -> ptr -> Prop).

  Definition item_ptr (it : item) : ptr := match it with IDrop p | IRemove p | IFree p => p end.
  (** [R q p] for whatever is directly above [IFree q]. *)
  Definition inside R w p : Prop := forall q, head (freeing w) = Some q -> R q p.
  Fixpoint stack_ok R w : Prop :=
    match w with
    | [] => True
    | it :: w' => inside R w' (item_ptr it) /\ stack_ok R w'
    end.
  Definition pc_stack R (x : pc V) : Prop :=
    match x with
    | PRem _ q w _ => inside R w q /\ stack_ok R w
    | PWork w _ => stack_ok R w
    | _ => True
    end.

  Lemma freeing_app w w' : freeing (w ++ w') = freeing w ++ freeing w'.
  Proof. induction w as [|[] w IH]; simpl; [done|done|done|by rewrite IH]. Qed.
  Lemma freeing_drops (l : list ptr) : freeing (IDrop <$> l) = [].
  Proof. by induction l. Qed.
  Lemma stack_mono R R' w : (forall q p, R q p -> R' q p) -> stack_ok R w -> stack_ok R' w.
  Proof. intros H. induction w as [|it w IH]; [done|]. intros [H1 H2]. split; [|by apply IH]. intros q Hq. by apply H, H1. Qed.
  Lemma pc_stack_mono R R' x : (forall q p, R q p -> R' q p) -> pc_stack R x -> pc_stack R' x.
  Proof.
    intros H. destruct x; simpl; try done.
    - intros [H1 H2]. split; [intros q' Hq; by apply H, H1|by eapply stack_mono].
    - by apply stack_mono.
  Qed.
  Lemma stack_drops_box R d q w : (forall k, k ∈ te_kids E d -> R q k) -> inside R w q -> stack_ok R w -> stack_ok R (drop_box E d q ++ w).
  Proof.
    intros Hk Hq Hw. unfold drop_box. rewrite <- app_assoc. induction (te_kids E d) as [|k l IH]; [done|].
    simpl. split; [|apply IH; intros; apply Hk; by right].
    intros q'. rewrite freeing_app, freeing_drops. simpl. intros [= <-]. apply Hk. by left.
  Qed.
  Lemma stack_drops R (l : list ptr) : stack_ok R (IDrop <$> l).
  Proof.
    induction l as [|k l IH]; [done|]. simpl. split; [|done]. intros q. by rewrite freeing_drops.
  Qed.
  Lemma stack_args R k v b : stack_ok R (drop_args E k v b).
  Proof. destruct k; simpl; [apply stack_drops|]. by destruct b. Qed.
  Lemma stack_snoc R w p : stack_ok R w -> stack_ok R (w ++ [IDrop p]).
  Proof.
    induction w as [|it w IH]; [done|]. intros [H1 H2]. simpl. split; [|by apply IH].
    intros q. rewrite freeing_app. simpl. rewrite app_nil_r. apply H1.
  Qed.

  Lemma stack_step R st l st' t : Inv E st -> step E st l = Next st' ->
    (forall q k d, data st q = Some d -> k ∈ te_kids E d -> R q k) ->
    (forall u, pc_stack R (get_pc st u)) -> pc_stack R (get_pc st' t).
  Proof.
    intros HI Hs HR Hall. pose proof (Hall t) as Ht.
    assert (forall (s : state V) u x, st_threads s = <[u := x]> (st_threads st) -> pc_stack R x -> pc_stack R (get_pc s t)) as Hput.
    { intros s u x He Hx. unfold get_pc. rewrite He. destruct (decide (u = t)) as [->|Hne].
      - by rewrite lookup_insert.
      - rewrite lookup_insert_ne by done. apply Ht. }
    assert (forall (s : state V), st_threads s = st_threads st -> pc_stack R (get_pc s t)) as Hsame.
    { intros s He. unfold get_pc. rewrite He. apply Ht. }
    destruct l as [u k v|u p|p ks|p|p ks|p ks|u ty|u ty|u a i|u]; simpl in Hs;
      try (unfold step_thread in Hs); try (unfold step_panic in Hs);
      try (pose proof (Hall u) as Hu; pose proof (inv_pc _ _ HI u) as Hok; destruct (get_pc st u) eqn:Hpc; simpl in Hu, Hok);
      repeat case_match; simplify_eq;
      try (by apply Hsame); try (by eapply Hput); try (by eapply Hput; [done|apply stack_args]).
    - eapply Hput; [done|]. destruct Hu. simpl. apply stack_drops_box; [|done..]. intros k Hk. eapply HR; [|done].
      unfold data. by case_match; simplify_eq.
    - eapply Hput; [done|]. apply Hu.
    - eapply Hput; [done|]. simpl. destruct Hu as [Hp Hw]. split; [|done].
      match goal with H : pick _ _ = Some ?q |- _ => apply (pick_match_hit E HC) in H; destruct H as (Hin&d&Hd&He); rename q into q0 end.
      assert (p ∈ st_table st) as Hpt.
      { apply (inv_rem_in _ _ HI). unfold rc.
        assert (st_threads st !! u = Some (PWork (IRemove p :: l) r)) as Hth.
        { unfold get_pc in Hpc. destruct (st_threads st !! u); simpl in Hpc; congruence. }
        pose proof (msum_ge (pc_rc p) _ _ _ Hth) as Hge. simpl in Hge. rewrite is_p_self in Hge. lia. }
      assert (q0 = p) as ->; [|done]. symmetry. by eapply (inv_uniq _ _ HI).
    - eapply Hput; [done|]. apply Hu.
    - eapply Hput; [done|]. apply Hu.
    - eapply Hput; [done|]. simpl. rewrite <- (app_nil_r (drop_box E _ q)). apply stack_drops_box; [|done..].
      intros k' Hk. eapply HR; [|done]. unfold data. by case_match; simplify_eq.
    - eapply Hput; [done|]. simpl. apply stack_snoc, Hu.
    - eapply Hput; [done|]. simpl. rewrite app_nil_r. apply Hu.
  Qed.

  Lemma contained_app ls ls' q k : contained E ls q k -> contained E (ls ++ ls') q k.
  Proof. intros (l1&l2&s&d&->&H). exists l1, (l2 ++ ls'), s, d. by rewrite app_assoc. Qed.

  Lemma stack_run ls st t : bounded E ls -> run (step E) init ls = Some st -> pc_stack (contained E ls) (get_pc st t).
  Proof.
    revert st t. induction ls as [|l ls IH] using rev_ind; intros st t Hb Hr.
    - injection Hr as <-. done.
    - rewrite run_snoc in Hr. destruct (run (step E) init ls) as [st0|] eqn:Hr0; [|done].
      assert (forall u, pc_stack (contained E (ls ++ [l])) (get_pc st0 u)) as Hall.
      { intros u. eapply pc_stack_mono; [|apply IH; [by eapply bounded_app|done]]. intros. by apply contained_app. }
      unfold exec in Hr. destruct (step E st0 l) as [st1| | |] eqn:Hs; [|by injection Hr as <-..|done]. injection Hr as <-.
      eapply stack_step; [exact (run_Inv E HC HW ls st0 (bounded_app E _ _ Hb) Hr0)|exact Hs| |exact Hall].
      intros q k d Hd Hk. exists ls, [l], st0, d. done.
  Qed.

  Lemma contained_ser ls q k : bounded E ls -> contained E ls q k -> p_ser k < p_ser q.
  Proof.
    intros Hb (l1&l2&s&d&->&Hr&Hd&Hk). pose proof (run_Inv E HC HW l1 s (bounded_app E _ _ Hb) Hr) as HI.
    unfold data, deref in Hd. destruct (st_heap s !! p_addr q) as [c|] eqn:Hh; [|done].
    destruct (Nat.eqb_spec (c_ser c) (p_ser q)) as [He|]; [|done]. rewrite <- He. by eapply (inv_acyc _ _ HI).
  Qed.

  Theorem nesting ls st t i q q' : bounded E ls -> run (step E) init ls = Some st ->
    nested st t !! i = Some q -> nested st t !! S i = Some q' ->
    contained E ls q' q /\ p_ser q < p_ser q'.
  Proof.
    intros Hb Hr Hq Hq'. assert (contained E ls q' q) as Hc; [|split; [done|by eapply contained_ser]].
    pose proof (stack_run ls st t Hb Hr) as Hst. unfold nested in *.
    assert (exists w, stack_ok (contained E ls) w /\ freeing w !! i = Some q /\ freeing w !! S i = Some q') as (w&Hw&H1&H2).
    { destruct (get_pc st t); simpl in *; try (by rewrite lookup_nil in Hq); [destruct Hst|]; by eauto. }
    clear -Hw H1 H2. revert i H1 H2. induction w as [|it w IH]; intros i H1 H2; [done|].
    destruct Hw as [Hin Hw]. destruct it as [p|p|p]; simpl in *; [by eapply IH..|].
    destruct i as [|i]; simpl in *; [|by eapply IH]. injection H1 as <-. apply Hin. by rewrite head_lookup.
  Qed.
End nest.

(** ** A chain of objects with one handle each *)
Section depth.
  Context {V : Type} (E : tyenv V).
  Context (HC : coherent E) (HW : wide E).
  Implicit Types (st : state V) (p q : ptr) (w : list item).
  Notation hc := (handles_to E).

  Lemma keep st l st1 : Inv E st -> fits E st -> step E st l = Next st1 -> creates st l = 0 ->
    Inv E st1 /\ fits E st1 /\
    forall x d, hc st x = 1 -> destroys st l x = 0 -> data st x = Some d -> hc st1 x = 1 /\ data st1 x = Some d.
  Proof.
    intros HI Hf Hs Hc. pose proof (step_inv E HC HW st l st1 HI Hf Hs) as HI1. split; [done|].
    assert (forall x, hc st1 x <= hc st x) as Hle by (intros x; pose proof (step_hc E st l st1 x HI Hs); lia).
    split; [intros x; specialize (Hf x); specialize (Hle x); lia|].
    intros x d Hx Hd Hdx. pose proof (step_hc_low E st l st1 x HI Hs). specialize (Hle x).
    split; [lia|]. eapply (table_data_step E); [exact HI|exact Hs|exact HI1|apply (inv_hand _ _ HI); lia|apply (inv_hand _ _ HI1); lia|done].
  Qed.

  Lemma run3 (s s1 s2 s3 : state V) (l : label V) ls : step E s l = Next s1 -> step E s1 l = Next s2 -> step E s2 l = Next s3 ->
    run (step E) s (l :: l :: l :: ls) = run (step E) s3 ls.
  Proof. intros H1 H2 H3. cbn [run]. unfold exec. by rewrite H1, H2, H3. Qed.

  Lemma single_ser st ps p : Inv E st -> single E st (p :: ps) -> forall x, x ∈ ps -> p_ser x < p_ser p.
  Proof.
    intros HI. revert p. induction ps as [|k ps IH]; intros p Hs x Hx; [by apply elem_of_nil in Hx|].
    inversion Hs as [|p' d k' ks ps' _ Hd Hk Hs']; subst.
    assert (p_ser k < p_ser p) as Hlt.
    { pose proof Hd as (c&Hc&Hcd)%data_Some. pose proof Hc as [Hh <-]%deref_Some.
      eapply (inv_acyc _ _ HI); [done..|]. rewrite Hk. by left. }
    apply elem_of_cons in Hx as [->|Hx]; [done|]. specialize (IH k Hs' x Hx). lia.
  Qed.
  Lemma single_keep st st1 ps : single E st ps ->
    (forall x d, x ∈ ps -> hc st x = 1 -> data st x = Some d -> hc st1 x = 1 /\ data st1 x = Some d) ->
    single E st1 ps.
  Proof.
    induction 1 as [p d H1 Hd|p d k ks ps H1 Hd Hk _ IH]; intros H.
    - destruct (H p d) as [? ?]; [by left|done..|]. by econstructor.
    - destruct (H p d) as [? ?]; [by left|done..|]. econstructor; [done..|]. apply IH. intros x d' Hx. apply H. by right.
  Qed.

  Lemma depth_run ps : forall st t p w r, single E st (p :: ps) -> Inv E st -> fits E st -> unlocked st ->
    get_pc st t = PWork (IDrop p :: w) r ->
    exists st', run (step E) st (replicate (3 * S (length ps)) (LStep t 0 0)) = Some st' /\
      nested st' t = rev (p :: ps) ++ freeing w.
  Proof.
    induction ps as [|k ps IH]; intros st t p w r Hsg HI Hf Hun Hpc.
    all: assert (exists d, hc st p = 1 /\ data st p = Some d) as (d&H1&Hd) by (inversion Hsg; eauto).
    all: pose proof (single_ser st _ p HI Hsg) as Hser.
    all: pose proof Hd as (c&Hc&Hcd)%data_Some.
    all: assert (p ∈ st_table st) as Hpt by (apply (inv_hand _ _ HI); lia).
    all: assert ((c_count c =? 1)%N = true) as Hc1 by
      (rewrite (inv_cnt _ _ HI p c Hpt Hc), H1; pose proof (tc_dead E st p HI);
       assert (tc st p = 0) as -> by lia; simpl; unfold wide in HW; rewrite N.mod_small; lia).
    all: set (st1 := set_pc (set_count st p c (count_dec E (c_count c))) t (PWork (IRemove p :: w) r)).
    all: assert (step E st (LStep t 0 0) = Next st1) as Hs1 by (simpl; unfold step_thread; by rewrite Hpc, Hc, Hc1).
    all: assert (get_pc st1 t = PWork (IRemove p :: w) r) as Hpc1 by apply (get_set _ t).
    all: destruct (keep st _ st1 HI Hf Hs1) as (HI1&Hf1&Hk1); [simpl; by rewrite Hpc|].
    all: assert (data st1 p = Some d) as Hd1 by
      (eapply (table_data_step E); [exact HI|exact Hs1|exact HI1|exact Hpt|exact Hpt|done]).
    all: destruct (pick 0 (matches E st1 d)) as [q|] eqn:Hp;
      [|exfalso; pose proof (pick_match_none E HC _ _ _ Hp p d Hpt Hd1) as Hx; by rewrite (coh_refl _ HC) in Hx].
    all: assert (q = p) as -> by
      (apply (pick_match_hit E HC) in Hp as (Hq&d'&Hd'&He); symmetry; by eapply (inv_uniq _ _ HI1)).
    all: set (st2 := set_pc (lock st1 (lock_of E d) t) t (PRem (lock_of E d) p w r)).
    all: assert (step E st1 (LStep t 0 0) = Next st2) as Hs2 by
      (simpl; unfold step_thread; rewrite Hpc1, Hd1;
       assert (st_locks st1 !! lock_of E d = None) as -> by apply Hun;
       rewrite (inv_readable _ _ HI1), Hp; done).
    all: assert (get_pc st2 t = PRem (lock_of E d) p w r) as Hpc2 by apply (get_set _ t).
    all: destruct (keep st1 _ st2 HI1 Hf1 Hs2) as (HI2&Hf2&Hk2); [simpl; by rewrite Hpc1|].
    all: assert (data st2 p = Some d) as Hd2 by exact Hd1.
    all: pose proof Hd2 as (c2&Hc2&Hcd2)%data_Some.
    all: set (st3 := set_pc (take_data (unlock (set_table st2 (remove_entry p (st_table st2))) (lock_of E d)) p c2) t
                 (PWork (drop_box E d p ++ w) r)).
    all: assert (step E st2 (LStep t 0 0) = Next st3) as Hs3 by (simpl; unfold step_thread; by rewrite Hpc2, Hc2, Hcd2).
    all: assert (get_pc st3 t = PWork (drop_box E d p ++ w) r) as Hpc3 by apply (get_set _ t).
    all: destruct (keep st2 _ st3 HI2 Hf2 Hs3) as (HI3&Hf3&Hk3); [simpl; by rewrite Hpc2|].
    - exists st3. split; [by apply (run3 st st1 st2 st3 (LStep t 0 0) [])|].
      unfold nested. rewrite Hpc3. unfold drop_box. rewrite <- app_assoc, freeing_app, freeing_drops. done.
    - assert (exists ks, te_kids E d = k :: ks /\ single E st (k :: ps)) as (ks&Hks&Hsg').
      { inversion Hsg as [|? ? ? ? ? ? ? ?]; subst. assert (d0 = d) by congruence. subst. eauto. }
      assert (unlocked st3) as Hun3 by exact (unlocked_relock st1 _ t Hun).
      destruct (IH st3 t k ((IDrop <$> ks) ++ [IFree p] ++ w) r) as (st'&Hr&Hn); [|done|done|done| |].
      + eapply single_keep; [exact Hsg'|]. intros x d' Hx Hh Hdx.
        assert (x <> p) as Hne by (intros ->; specialize (Hser p Hx); lia).
        destruct (Hk1 x d') as [? ?]; [done| |done|]. { simpl. rewrite Hpc. by apply is_p_ne. }
        destruct (Hk2 x d') as [? ?]; [done| |done|]. { simpl. by rewrite Hpc1. }
        apply Hk3; [done| |done]. simpl. by rewrite Hpc2.
      + rewrite Hpc3. unfold drop_box. rewrite Hks. simpl. by rewrite <- app_assoc.
      + exists st'. split.
        * replace (3 * S (length (k :: ps))) with (3 + 3 * S (length ps)) by (simpl; lia).
          etransitivity; [exact (run3 st st1 st2 st3 (LStep t 0 0) _ Hs1 Hs2 Hs3)|exact Hr].
        * rewrite Hn, freeing_app, freeing_drops. simpl. by rewrite <- !app_assoc.
  Qed.

  Theorem deep ls st t p ps : bounded E ls -> run (step E) init ls = Some st ->
    get_pc st t = PFree -> (forall l, st_locks st !! l = None) -> p ∈ st_pool st -> single E st (p :: ps) ->
    exists st', run (step E) st (LDrop t p :: replicate (3 * length (p :: ps)) (LStep t 0 0)) = Some st' /\
      nested st' t = rev (p :: ps).
  Proof.
    intros Hb Hr Hpc Hun Hp Hsg. pose proof (run_Inv E HC HW ls st Hb Hr) as HI. pose proof (bounded_fits E ls st Hb Hr) as Hf.
    assert (exists pl, rem1 p (st_pool st) = Some pl) as [pl Hpl] by (by apply rem1_Some).
    set (st1 := set_pc (set_pool st pl) t (PWork [IDrop p] None)).
    assert (step E st (LDrop t p) = Next st1) as Hs by (simpl; by rewrite Hpc, Hpl).
    destruct (keep st _ st1 HI Hf Hs eq_refl) as (HI1&Hf1&Hk).
    destruct (depth_run ps st1 t p [] None) as (st'&Hr'&Hn); [|done|done|done|apply (get_set _ t)|].
    - eapply single_keep; [exact Hsg|]. intros x d _ Hx Hd. by apply Hk.
    - exists st'. rewrite app_nil_r in Hn. split; [|done]. cbn [run]. unfold exec. by rewrite Hs.
  Qed.
End depth.

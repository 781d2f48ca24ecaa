(** Call-backs that wait for the call they run in. *)
From stdpp Require Import gmap list numbers relations.
From Verif Require Import Base ArcModel ArcSpec ArcInv ArcStep ArcSafe ArcReach ArcLive ArcFinal NestModel NestSpec NestFinal SpinSpec SpinFinal.

Section spin.
  Context {V : Type} (E : tyenv V).
  Implicit Types (ns : nstate V) (t u : nat) (p : ptr).

  (** Any activity not in use can be started. *)
  Lemma fresh_call ns t :
    (exists k v b, get_pc (n_arc ns) t = PLookup k v b) \/ (exists k v q, get_pc (n_arc ns) t = PEntry k v q) \/
    (exists w r, get_pc (n_arc ns) t = PWork w r) ->
    n_kid ns !! t = None ->
    exists m, forall u, m <= u ->
      nstep E ns (NCall t u) = Next (NState (n_arc ns) (<[t:=u]> (n_kid ns)) (n_in ns)).
  Proof.
    intros Hc Hk.
    set (L := t :: (elements (dom (st_threads (n_arc ns)) : gset nat) ++ (map_to_list (n_kid ns)).*1 ++ (map_to_list (n_kid ns)).*2)).
    exists (S (max_list L)). intros u Hu.
    assert (forall x, x ∈ L -> x < u) as Hlt.
    { intros x Hx. pose proof (max_list_elem_of_le x L Hx). lia. }
    assert (st_threads (n_arc ns) !! u = None) as H1.
    { destruct (st_threads (n_arc ns) !! u) as [x|] eqn:Hx; [|done]. exfalso.
      assert (u < u); [|lia]. apply Hlt. apply elem_of_cons. right. apply elem_of_app. left.
      apply elem_of_elements, elem_of_dom. eauto. }
    assert (n_kid ns !! u = None) as H2.
    { destruct (n_kid ns !! u) as [x|] eqn:Hx; [|done]. exfalso.
      assert (u < u); [|lia]. apply Hlt. apply elem_of_cons. right. apply elem_of_app. right.
      apply elem_of_app. left. apply elem_of_list_fmap. exists (u, x). split; [done|].
      by apply elem_of_map_to_list. }
    assert (forall x, n_kid ns !! x <> Some u) as H3.
    { intros x Hx. assert (u < u); [|lia]. apply Hlt. apply elem_of_cons. right. apply elem_of_app. right.
      apply elem_of_app. right. apply elem_of_list_fmap. exists (x, u). split; [done|].
      by apply elem_of_map_to_list. }
    simpl. replace (_ && _) with true; [done|]. symmetry. rewrite !andb_true_iff. split_and!.
    - apply Nat.ltb_lt. apply Hlt. by left.
    - unfold user_code. destruct Hc as [(?&?&?&->)|[(?&?&?&->)|(?&?&->)]]; done.
    - unfold is_free, get_pc. by rewrite H1.
    - by apply idle_kid_true.
    - by apply idle_kid_true.
    - apply forallb_forall. intros [x y] Hx. apply elem_of_list_In, elem_of_map_to_list in Hx. simpl.
      apply negb_true_iff, Nat.eqb_neq. intros ->. by apply (H3 x).
  Qed.

  Lemma matched_snoc nls ls l : matched E nls ls -> matched E (nls ++ [l]) ls.
  Proof.
    intros Hm ls1 ls2 He. destruct (Hm ls1 ls2 He) as (nls1&nls2&ns1&->&H1&H2).
    exists nls1, (nls2 ++ [l]), ns1. by rewrite (assoc_L (++)).
  Qed.
  Lemma matched_do nls ns ls l ns1 : run (nstep E) ninit nls = Some ns -> run (step E) init ls = Some (n_arc ns) ->
    nstep E ns (NDo l) = Next ns1 -> matched E nls ls -> matched E (nls ++ [NDo l]) (ls ++ [l]).
  Proof.
    intros Hr0 Hls Hs Hm. pose proof Hs as Hs'. apply nstep_do in Hs' as (Hstep&_&_).
    intros ls1 ls2 He. destruct ls2 as [|x ls2 _] using rev_ind.
    - rewrite app_nil_r in He. subst ls1. exists (nls ++ [NDo l]), [], ns1. rewrite app_nil_r.
      split_and!; [done| |].
      + rewrite run_snoc, Hr0. unfold exec. by rewrite Hs.
      + rewrite run_snoc, Hls. unfold exec. by rewrite Hstep.
    - rewrite (assoc_L (++)) in He. apply app_inj_tail in He as [He ->].
      destruct (Hm ls1 ls2 He) as (nls1&nls2&ns2&->&H1&H2).
      exists nls1, (nls2 ++ [NDo x]), ns2. by rewrite (assoc_L (++)).
  Qed.

  Lemma interning_busy (st : state V) u v : interning st u v -> get_pc st u <> PFree.
  Proof. unfold interning. intros H Hf. by rewrite Hf in H. Qed.

  Context (HC : coherent E) (HW : wide E).
  Context (Htrans : forall a b c, te_eq E a b = true -> te_eq E b c = true -> te_eq E a c = true).

  Lemma waits_inside nls0 ns0 nls ns t p d u v :
    nbounded E (nls0 ++ nls) -> run (nstep E) ninit nls0 = Some ns0 -> run (nstep E) ns0 nls = Some ns ->
    removing (n_arc ns0) t p -> data (n_arc ns0) p = Some d -> te_eq E v d = true ->
    within ns0 t u -> u <> t -> interning (n_arc ns0) u v -> NDo (LPanic u) ∉ nls ->
    get_pc (n_arc ns) t = get_pc (n_arc ns0) t /\ interning (n_arc ns) u v.
  Proof.
    intros Hb Hr0 Hr Hrem Hd He Hw Hut Hin Hnp.
    destruct (is_concurrent E nls0 ns0 Hr0) as (ls1&_&Hls1&Hm1).
    cut (exists ls2, matched E (nls0 ++ nls) (ls1 ++ ls2) /\ run (step E) (n_arc ns0) ls2 = Some (n_arc ns) /\
      (forall l, l ∈ ls2 -> actor l <> Some t) /\ LPanic u ∉ ls2 /\ within ns t u /\
      get_pc (n_arc ns) t = get_pc (n_arc ns0) t /\ interning (n_arc ns) u v).
    { intros (ls2&_&_&_&_&_&H1&H2). done. }
    revert ns Hr. induction nls as [|l nls IH] using rev_ind; intros ns Hr.
    { simpl in Hr. injection Hr as <-. exists []. rewrite !app_nil_r. split_and!; try done.
      - intros l Hl. by apply elem_of_nil in Hl.
      - apply not_elem_of_nil. }
    rewrite run_snoc in Hr. destruct (run (nstep E) ns0 nls) as [ns1|] eqn:Hr1; [|done].
    rewrite elem_of_app, elem_of_list_singleton in Hnp. pose proof Hb as Hb'.
    rewrite (assoc_L (++)) in Hb.
    destruct (IH (nbounded_app _ _ _ Hb)) with (ns := ns1) as (ls2&Hm&Hls&Hact&Hpan&Hw1&Hpc&Hin1); [naive_solver|done|].
    assert (run (nstep E) ninit (nls0 ++ nls) = Some ns1) as Hrun by (by rewrite run_app, Hr0).
    pose proof (tidy_run _ _ _ Hrun) as HT.
    assert (exists ls2, matched E (nls0 ++ nls ++ [l]) (ls1 ++ ls2) /\ run (step E) (n_arc ns0) ls2 = Some (n_arc ns1) /\
      (forall l, l ∈ ls2 -> actor l <> Some t) /\ LPanic u ∉ ls2) as Hsame.
    { exists ls2. split_and!; try done. rewrite (assoc_L (++)). by apply matched_snoc. }
    assert (exists kt, n_kid ns1 !! t = Some kt) as [kt Hkt].
    { destruct (within_kid ns1 t u HT Hw1) as (kt&Hkt&_); [done|]. eauto. }
    unfold exec in Hr. destruct (nstep E ns1 l) as [ns2| | |] eqn:Hs; try done; injection Hr as <-;
      try (destruct Hsame as (ls&?&?&?&?); exists ls; by split_and!).
    destruct l as [l|t0|t0 u0|t0].
    - pose proof Hs as Hs'. apply nstep_do in Hs' as (Hstep&Hk&Ha).
      assert (actor l <> Some t) as Hat.
      { intros Hat. rewrite Hat in Ha. destruct Ha as [Ha _]. congruence. }
      assert (run (step E) (n_arc ns0) (ls2 ++ [l]) = Some (n_arc ns2)) as Hls'.
      { rewrite run_snoc, Hls. unfold exec. by rewrite Hstep. }
      assert (matched E (nls0 ++ nls ++ [NDo l]) (ls1 ++ ls2 ++ [l])) as Hm'.
      { rewrite !(assoc_L (++)). eapply matched_do; [done| |done|done]. by rewrite run_app, Hls1. }
      assert (forall l0, l0 ∈ ls2 ++ [l] -> actor l0 <> Some t) as Hact'.
      { intros l0 [Hl0| ->%elem_of_list_singleton]%elem_of_app; [by apply Hact|done]. }
      assert (LPanic u ∉ ls2 ++ [l]) as Hpan'.
      { rewrite elem_of_app, elem_of_list_singleton. intros [?|<-]; [done|]. naive_solver. }
      exists (ls2 ++ [l]). split_and!; try done.
      + eapply within_mono; [|exact Hw1]. intros y z Hy _. by rewrite Hk.
      + rewrite <- Hpc. by eapply step_pc_other.
      + eapply (waits_for_dropper E HC HW Htrans ls1 (ls2 ++ [l]) (n_arc ns0) (n_arc ns2) t p d u v); try done.
        by eapply matched_bounded.
    - apply nstep_enter in Hs as (lk&->&_). destruct Hsame as (ls&?&?&?&?). exists ls. by split_and!.
    - apply nstep_call in Hs as (->&H1&H2&H3&H4&H5&H6). destruct Hsame as (ls&?&?&?&?). exists ls.
      split_and!; try done. eapply within_mono; [|exact Hw1]. intros y z Hy _. simpl.
      rewrite lookup_insert_ne; [done|]. intros ->. congruence.
    - apply nstep_end in Hs as (u0&->&H1&H2&H3). destruct Hsame as (ls&?&?&?&?). exists ls.
      split_and!; try done. eapply within_mono; [|exact Hw1]. intros y z Hy Hz. simpl.
      rewrite lookup_delete_ne; [done|]. intros ->. assert (z = u0) as -> by congruence.
      destruct (decide (u0 = u)) as [->|Hne].
      + by apply (interning_busy _ _ _ Hin1).
      + destruct (within_kid ns1 u0 u HT Hz) as (y1&Hy1&_); [done|]. congruence.
  Qed.
End spin.

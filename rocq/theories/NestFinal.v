(** Proofs about ArcIntern with user code that calls back. *)
From stdpp Require Import gmap list numbers relations.
From Verif Require Import Base ArcModel ArcSpec ArcInv ArcStep ArcSafe ArcReach ArcLive ArcProps ArcTame ArcFinal NestModel NestSpec.
Require Import ZifyBool ZifyNat ZifyN.

Section nest.
  Context {V : Type} (E : tyenv V).
  Implicit Types (st : state V) (ns : nstate V) (t u : nat) (ls : list (label V)) (nls : list (nlabel V)).

  (** ** One step: nothing, or a step of ArcModel. *)
  Lemma nstep_do ns l ns' : nstep E ns (NDo l) = Next ns' ->
    step E (n_arc ns) l = Next (n_arc ns') /\ n_kid ns' = n_kid ns /\
    match actor l with
    | None => n_in ns' = n_in ns
    | Some t => n_kid ns !! t = None /\ n_in ns' = leave t (n_in ns) /\
                match l with LStep _ _ _ => shut_out E ns t = false | _ => True end
    end.
  Proof.
    simpl. destruct (actor l) as [t|] eqn:Ha.
    - destruct (idle_kid ns t) eqn:Hk; simpl; [|done].
      destruct (match l with LStep _ _ _ => _ | _ => _ end) eqn:Hs; [done|].
      destruct (step E (n_arc ns) l) as [st'| | |]; intros [= <-]. simpl. split_and!; try done.
      + unfold idle_kid in Hk. by destruct (n_kid ns !! t).
      + by destruct l.
    - destruct (step E (n_arc ns) l) as [st'| | |]; intros [= <-]. done.
  Qed.
  Lemma nstep_ub ns l : nstep E ns l = UB -> exists l0, l = NDo l0 /\ step E (n_arc ns) l0 = UB.
  Proof.
    destruct l as [l|t|t u|t]; simpl.
    - intros H. exists l. split; [done|]. destruct (actor l) as [t|].
      + destruct (negb (idle_kid ns t)); [done|]. destruct (match l with LStep _ _ _ => _ | _ => _ end); [done|].
        by destruct (step E (n_arc ns) l).
      + by destruct (step E (n_arc ns) l).
    - destruct (negb _); [done|]. destruct (want E (n_arc ns) t) as [lk|]; [|done].
      destruct (st_locks (n_arc ns) !! lk), (n_in ns !! lk); done.
    - destruct (_ && _); done.
    - destruct (n_kid ns !! t); [|done]. by destruct (_ && _).
  Qed.
  Lemma nstep_same ns l ns' : nstep E ns l = Next ns' -> (forall l0, l <> NDo l0) -> n_arc ns' = n_arc ns.
  Proof.
    intros Hs Hl. destruct l as [l|t|t u|t]; simpl in Hs.
    - by destruct (Hl l).
    - destruct (negb _); [done|]. destruct (want E (n_arc ns) t) as [lk|]; [|done].
      destruct (st_locks (n_arc ns) !! lk), (n_in ns !! lk); try done. by injection Hs as <-.
    - destruct (_ && _); [|done]. by injection Hs as <-.
    - destruct (n_kid ns !! t); [|done]. destruct (_ && _); [|done]. by injection Hs as <-.
  Qed.

  (** ** Executions with call-backs are executions of ArcModel. *)
  Definition matched nls ls : Prop :=
    forall ls1 ls2, ls = ls1 ++ ls2 -> exists nls1 nls2 ns1, nls = nls1 ++ nls2 /\
      run (nstep E) ninit nls1 = Some ns1 /\ run (step E) init ls1 = Some (n_arc ns1).
  Lemma is_concurrent nls : forall ns, run (nstep E) ninit nls = Some ns ->
    exists ls, sublist (NDo <$> ls) nls /\ run (step E) init ls = Some (n_arc ns) /\ matched nls ls.
  Proof.
    induction nls as [|l nls IH] using rev_ind; intros ns Hr.
    - simpl in Hr. injection Hr as <-. exists []. split_and!; [done|done|].
      intros ls1 ls2 He. symmetry in He. apply app_eq_nil in He as [-> ->]. by exists [], [], ninit.
    - rewrite run_snoc in Hr. destruct (run (nstep E) ninit nls) as [ns0|] eqn:Hr0; [|done].
      destruct (IH ns0 eq_refl) as (ls&Hsub&Hls&Hm).
      assert (n_arc ns = n_arc ns0 -> exists ls, sublist (NDo <$> ls) (nls ++ [l]) /\
                run (step E) init ls = Some (n_arc ns) /\ matched (nls ++ [l]) ls) as Hquiet.
      { intros Hsame. exists ls. split_and!.
        - by apply sublist_inserts_r.
        - by rewrite Hsame.
        - intros ls1 ls2 He. destruct (Hm ls1 ls2 He) as (nls1&nls2&ns1&->&H1&H2).
          exists nls1, (nls2 ++ [l]), ns1. by rewrite (assoc_L (++)). }
      unfold exec in Hr. destruct (nstep E ns0 l) as [ns1| | |] eqn:Hs; try done;
        injection Hr as <-; try by apply Hquiet.
      destruct l as [l|t|t u|t]; try (apply Hquiet; by eapply nstep_same).
      pose proof Hs as Hs'. apply nstep_do in Hs' as (Hstep&_&_). exists (ls ++ [l]). split_and!.
      + rewrite fmap_app. by apply sublist_app.
      + rewrite run_snoc, Hls. unfold exec. by rewrite Hstep.
      + intros ls1 ls2 He. destruct ls2 as [|x ls2 _] using rev_ind.
        * rewrite app_nil_r in He. subst ls1. exists (nls ++ [NDo l]), [], ns1. rewrite app_nil_r.
          split_and!; [done| |].
          -- rewrite run_snoc, Hr0. unfold exec. by rewrite Hs.
          -- rewrite run_snoc, Hls. unfold exec. by rewrite Hstep.
        * rewrite (assoc_L (++)) in He. apply app_inj_tail in He as [He ->].
          destruct (Hm ls1 ls2 He) as (nls1&nls2&ns2&->&H1&H2).
          exists nls1, (nls2 ++ [NDo x]), ns2. by rewrite (assoc_L (++)).
  Qed.
  Lemma matched_bounded nls ls : matched nls ls -> nbounded E nls -> bounded E ls.
  Proof.
    intros Hm Hb ls1 ls2 st1 He Hr p. destruct (Hm ls1 ls2 He) as (nls1&nls2&ns1&He'&H1&H2).
    rewrite H2 in Hr. injection Hr as <-. by apply (Hb nls1 nls2 ns1).
  Qed.
  Lemma nested_concurrent nls ns : run (nstep E) ninit nls = Some ns ->
    exists ls, sublist (NDo <$> ls) nls /\ run (step E) init ls = Some (n_arc ns) /\ (nbounded E nls -> bounded E ls).
  Proof.
    intros Hr. destruct (is_concurrent nls ns Hr) as (ls&H1&H2&H3). exists ls.
    split_and!; [done|done|]. by apply matched_bounded.
  Qed.

  Lemma nbounded_app nls1 nls2 : nbounded E (nls1 ++ nls2) -> nbounded E nls1.
  Proof. intros Hb a b ns -> Hr. apply (Hb a (b ++ nls2)); [by rewrite (assoc_L (++))|done]. Qed.
  Lemma nested_safe nls : tame E -> wide E -> nbounded E nls -> run (nstep E) ninit nls <> None.
  Proof.
    intros HT HW. induction nls as [|l nls IH] using rev_ind; intros Hb Hr; [done|].
    rewrite run_snoc in Hr. pose proof (nbounded_app _ _ Hb) as Hb0. specialize (IH Hb0).
    destruct (run (nstep E) ninit nls) as [ns|] eqn:Hr0; [|done].
    unfold exec in Hr. destruct (nstep E ns l) as [ns1| | |] eqn:Hs; try done.
    apply nstep_ub in Hs as (l0&->&Hub).
    destruct (is_concurrent nls ns Hr0) as (ls&_&Hls&Hm).
    apply (tame_safe E (ls ++ [l0]) HT HW).
    - intros ls1 ls2 st1 He Hr1. destruct ls2 as [|x ls2 _] using rev_ind.
      + rewrite app_nil_r in He. subst ls1. rewrite run_snoc, Hls in Hr1. unfold exec in Hr1. by rewrite Hub in Hr1.
      + rewrite (assoc_L (++)) in He. apply app_inj_tail in He as [He ->].
        by apply (matched_bounded nls ls Hm Hb0 ls1 ls2 st1).
    - rewrite run_snoc, Hls. unfold exec. by rewrite Hub.
  Qed.

  Lemma nshort_bounded nls : coherent E -> wide E -> (N.of_nat (length nls) < te_mod E)%N -> nbounded E nls.
  Proof.
    intros HC HW Hlen nls1 nls2 ns -> Hr p.
    destruct (is_concurrent nls1 ns Hr) as (ls&Hsub&Hls&_).
    apply sublist_length in Hsub. rewrite fmap_length in Hsub. rewrite app_length in Hlen.
    apply (short_bounded E HC HW ls) with (ls1 := ls) (ls2 := []); [lia|by rewrite app_nil_r|done].
  Qed.

  (** ** What one step leaves alone. *)
  Lemma step_pc_other st l st' t : step E st l = Next st' -> actor l <> Some t -> get_pc st' t = get_pc st t.
  Proof.
    intros Hs Ha. destruct l as [t0 k v|t0 p|p ks|p|p ks|p ks|t0 ty|t0 ty|t0 a i|t0]; simpl in Ha;
      [| | | | | | | |by eapply step_other; [done|congruence]|].
    all: simpl in Hs; unfold step_panic in Hs.
    all: repeat (match goal with
      | H : Next _ = Next _ |- _ => injection H as <-
      | H : (match ?x with _ => _ end) = Next _ |- _ => destruct x; try done
      end).
    all: first [done|unfold get_pc; simpl; by rewrite lookup_insert_ne by congruence].
  Qed.

  (** ** The nesting. *)
  Record tidy ns : Prop := Tidy {
    tidy_lt : forall t u, n_kid ns !! t = Some u -> t < u;
    tidy_code : forall t u, n_kid ns !! t = Some u -> user_code (n_arc ns) t = true;
    tidy_inj : forall t1 t2 u, n_kid ns !! t1 = Some u -> n_kid ns !! t2 = Some u -> t1 = t2;
  }.
  Lemma idle_kid_true ns t : idle_kid ns t = true <-> n_kid ns !! t = None.
  Proof. unfold idle_kid. by destruct (n_kid ns !! t). Qed.
  Lemma user_code_pc st st' t : get_pc st' t = get_pc st t -> user_code st' t = user_code st t.
  Proof. unfold user_code. by intros ->. Qed.

  Lemma nstep_call ns t u ns' : nstep E ns (NCall t u) = Next ns' ->
    ns' = NState (n_arc ns) (<[t:=u]> (n_kid ns)) (n_in ns) /\ t < u /\ user_code (n_arc ns) t = true /\
    get_pc (n_arc ns) u = PFree /\ n_kid ns !! t = None /\ n_kid ns !! u = None /\
    (forall x, n_kid ns !! x <> Some u).
  Proof.
    simpl. destruct (_ && _) eqn:Hc; [|done]. intros [= <-].
    rewrite !andb_true_iff in Hc. destruct Hc as [[[[[H1 H2] H3] H4] H5] H6].
    split_and!; [done|lia|done| |by apply idle_kid_true|by apply idle_kid_true|].
    - unfold is_free in H3. by destruct (get_pc (n_arc ns) u).
    - intros x Hx. apply elem_of_map_to_list, elem_of_list_In in Hx.
      rewrite forallb_forall in H6. specialize (H6 _ Hx). simpl in H6. lia.
  Qed.
  Lemma nstep_end ns t ns' : nstep E ns (NEnd t) = Next ns' ->
    exists u, ns' = NState (n_arc ns) (delete t (n_kid ns)) (n_in ns) /\ n_kid ns !! t = Some u /\
      get_pc (n_arc ns) u = PFree /\ n_kid ns !! u = None.
  Proof.
    simpl. destruct (n_kid ns !! t) as [u|]; [|done]. destruct (_ && _) eqn:Hc; [|done]. intros [= <-].
    apply andb_true_iff in Hc as [H1 H2]. exists u. split_and!; [done..| |by apply idle_kid_true].
    unfold is_free in H1. by destruct (get_pc (n_arc ns) u).
  Qed.
  Lemma nstep_enter ns t ns' : nstep E ns (NEnter t) = Next ns' ->
    exists lk, ns' = NState (n_arc ns) (n_kid ns) (<[lk:=t]> (n_in ns)) /\ n_kid ns !! t = None /\
      searching (n_arc ns) t = true /\ want E (n_arc ns) t = Some lk /\
      st_locks (n_arc ns) !! lk = None /\ n_in ns !! lk = None.
  Proof.
    simpl. destruct (_ && _) eqn:Hc; simpl; [|done]. apply andb_true_iff in Hc as [H1 H2].
    destruct (want E (n_arc ns) t) as [lk|]; [|done].
    destruct (st_locks (n_arc ns) !! lk) eqn:H3, (n_in ns !! lk) eqn:H4; try done. intros [= <-].
    exists lk. split_and!; try done. by apply idle_kid_true.
  Qed.

  Lemma tidy_step ns l ns' : tidy ns -> nstep E ns l = Next ns' -> tidy ns'.
  Proof.
    intros [Hlt Hcode Hinj] Hs. destruct l as [l|t|t u|t].
    - apply nstep_do in Hs as (Hs&Hk&Ha). split; rewrite Hk; [done| |done].
      intros t u Htu. rewrite (user_code_pc (n_arc ns)); [by eapply Hcode|].
      eapply step_pc_other; [done|]. intros Hal. rewrite Hal in Ha. destruct Ha as [Ha _]. congruence.
    - apply nstep_enter in Hs as (lk&->&_). by split.
    - apply nstep_call in Hs as (->&H1&H2&H3&H4&H5&H6). split; simpl.
      + intros x y Hx. apply lookup_insert_Some in Hx as [[<- <-]|[_ Hx]]; eauto.
      + intros x y Hx. apply lookup_insert_Some in Hx as [[<- <-]|[_ Hx]]; eauto.
      + intros x1 x2 y Hx1 Hx2.
        apply lookup_insert_Some in Hx1 as [[<- <-]|[? Hx1]].
        * apply lookup_insert_Some in Hx2 as [[<- _]|[_ Hx2]]; [done|]. by destruct (H6 x2).
        * apply lookup_insert_Some in Hx2 as [[<- <-]|[_ Hx2]]; [by destruct (H6 x1)|eauto].
    - apply nstep_end in Hs as (u&->&_). split; simpl; intros *; rewrite !lookup_delete_Some; naive_solver.
  Qed.
  Lemma tidy_run nls ns : run (nstep E) ninit nls = Some ns -> tidy ns.
  Proof.
    apply (run_inv_weak (nstep E) tidy tidy_step). by split; intros *; simpl; rewrite lookup_empty.
  Qed.
  Lemma tidy_busy ns t u : tidy ns -> n_kid ns !! t = Some u -> get_pc (n_arc ns) t <> PFree.
  Proof. intros HT Hk Hf. pose proof (tidy_code _ HT t u Hk) as H. unfold user_code in H. by rewrite Hf in H. Qed.

  (** ** Calling back into a locked shard. *)
  Definition stuck (ns0 : nstate V) lk t u k v b ns : Prop :=
    n_in ns !! lk = Some t /\ get_pc (n_arc ns) u = PLookup k v b /\ within ns t u /\
    forall x, within ns0 t x -> within ns0 x u ->
      within ns x u /\ get_pc (n_arc ns) x = get_pc (n_arc ns0) x.

  Lemma within_kid ns x u : tidy ns -> within ns x u -> x <> u -> exists y, n_kid ns !! x = Some y /\ within ns y u.
  Proof. intros HT Hw Hne. destruct Hw as [x|x y u Hxy Hw]; [done|eauto]. Qed.
  Lemma within_mono ns ns' x u :
    (forall y z, n_kid ns !! y = Some z -> within ns z u -> n_kid ns' !! y = Some z) ->
    within ns x u -> within ns' x u.
  Proof.
    intros Hk Hw. induction Hw as [x|x y u Hxy Hw IH]; [constructor|].
    eapply rtc_l; [|by apply IH]. simpl. by apply Hk.
  Qed.

  Lemma stuck_step ns0 lk t u k v b ns l ns' :
    lock_of E v = lk -> u <> t -> tidy ns -> stuck ns0 lk t u k v b ns -> l <> NDo (LPanic u) ->
    nstep E ns l = Next ns' -> stuck ns0 lk t u k v b ns'.
  Proof.
    intros Hlk Hut HT (Hin&Hpc&Hw&Hx) Hl Hs.
    destruct (within_kid ns t u HT Hw) as (kt&Hkt&_); [done|].
    assert (forall x, within ns x u -> get_pc (n_arc ns) x <> PFree) as Hbusy.
    { intros x Hwx. destruct (decide (x = u)) as [->|Hne]; [by rewrite Hpc|].
      destruct (within_kid ns x u HT Hwx Hne) as (y&Hy&_). by eapply tidy_busy. }
    destruct l as [l|t0|t0 u0|t0].
    - pose proof Hs as Hs0. apply nstep_do in Hs as (Hs&Hk&Ha).
      assert (forall x, within ns' x u <-> within ns x u) as Hsame.
      { intros x. unfold within. by rewrite Hk. }
      assert (actor l <> Some u) as Hau.
      { intros Hal. rewrite Hal in Ha. destruct Ha as (Hku&_&Hsh).
        destruct l as [t0 kk vv|t0 p|p ks|p|p ks|p ks|t0 ty|t0 ty|t0 a i|t0]; simpl in Hal; try done;
          injection Hal as ->; simpl in Hs; rewrite ?Hpc in Hs; try done.
        unfold shut_out, want in Hsh. rewrite Hpc, Hlk, Hin in Hsh. lia. }
      assert (forall x, within ns x u -> get_pc (n_arc ns') x = get_pc (n_arc ns) x) as Hpcs.
      { intros x Hwx. eapply step_pc_other; [done|]. intros Hal.
        destruct (decide (x = u)) as [->|Hne]; [done|].
        destruct (within_kid ns x u HT Hwx Hne) as (y&Hy&_). rewrite Hal in Ha. destruct Ha as [Ha _]. congruence. }
      split_and!.
      + destruct (actor l) as [t1|]; [|by rewrite Ha]. destruct Ha as (Hkn&->&_).
        apply map_filter_lookup_Some. split; [done|]. simpl. intros <-. congruence.
      + rewrite Hpcs; [done|constructor].
      + by apply Hsame.
      + intros x H1 H2. destruct (Hx x H1 H2) as [H3 H4]. rewrite Hsame, Hpcs by done. done.
    - apply nstep_enter in Hs as (lk0&->&_&_&_&_&Hn). split_and!; try done. simpl.
      rewrite lookup_insert_ne; [done|]. intros ->. congruence.
    - apply nstep_call in Hs as (->&H1&H2&H3&H4&H5&H6).
      assert (forall x, within ns x u -> within (NState (n_arc ns) (<[t0:=u0]> (n_kid ns)) (n_in ns)) x u) as Hm.
      { intros x. apply within_mono. intros y z Hy _. simpl. rewrite lookup_insert_ne; [done|]. intros ->. congruence. }
      split_and!; [done|done|by apply Hm|]. intros x Ha Hb. destruct (Hx x Ha Hb). eauto.
    - apply nstep_end in Hs as (u0&->&H1&H2&H3).
      assert (forall x, within ns x u -> within (NState (n_arc ns) (delete t0 (n_kid ns)) (n_in ns)) x u) as Hm.
      { intros x. apply within_mono. intros y z Hy Hz. simpl. rewrite lookup_delete_ne; [done|]. intros <-.
        assert (z = u0) as -> by congruence. by apply (Hbusy u0). }
      split_and!; [done|done|by apply Hm|]. intros x Ha Hb. destruct (Hx x Ha Hb). eauto.
  Qed.

  Lemma stuck_run nls0 ns0 lk t u k v b nls ns :
    run (nstep E) ninit nls0 = Some ns0 -> n_in ns0 !! lk = Some t -> within ns0 t u -> u <> t ->
    get_pc (n_arc ns0) u = PLookup k v b -> lock_of E v = lk ->
    run (nstep E) ns0 nls = Some ns -> NDo (LPanic u) ∉ nls ->
    forall x, within ns0 t x -> within ns0 x u ->
      get_pc (n_arc ns) x = get_pc (n_arc ns0) x /\ get_pc (n_arc ns) x <> PFree.
  Proof.
    intros Hr0 Hin Hw Hut Hpc Hlk Hr Hnp.
    assert (tidy ns /\ stuck ns0 lk t u k v b ns) as [HT (H1&H2&H3&H4)].
    { assert (tidy ns0 /\ stuck ns0 lk t u k v b ns0) as HI.
      { split; [by eapply tidy_run|]. done. }
      clear Hr0 Hin Hw Hpc. revert HI Hr Hnp. generalize ns0 at 1 3 4. intros ns1 HI.
      revert ns1 HI. induction nls as [|l nls IH]; intros ns1 HI Hr Hnp.
      - simpl in Hr. by injection Hr as <-.
      - apply not_elem_of_cons in Hnp as [Hn Hnp]. simpl in Hr. unfold exec in Hr.
        destruct (nstep E ns1 l) as [ns2| | |] eqn:Hs; try done; [|by eapply IH..].
        eapply IH; [|done|done]. destruct HI as [HT HI]. split; [by eapply tidy_step|].
        by eapply stuck_step. }
    intros x Ha Hb. destruct (H4 x Ha Hb) as [Hwx Hp]. split; [done|].
    destruct (decide (x = u)) as [->|Hne]; [by rewrite H2|].
    destruct (within_kid ns x u HT Hwx Hne) as (y&Hy&_). by eapply tidy_busy.
  Qed.

  (** ** Locks of searches. *)
  Context (HC : coherent E) (HW : wide E).

  Lemma searching_pc st st' t : get_pc st' t = get_pc st t -> searching st' t = searching st t.
  Proof. unfold searching. by intros ->. Qed.
  Lemma want_stable st l st' t : Inv E st -> Inv E st' -> step E st l = Next st' -> actor l <> Some t ->
    searching st t = true -> want E st' t = want E st t.
  Proof.
    intros HI HI' Hs Ha Hse. pose proof (step_pc_other st l st' t Hs Ha) as Hpc.
    unfold want. rewrite Hpc. unfold searching in Hse.
    pose proof (inv_pc _ _ HI t) as Hok. pose proof (inv_pc _ _ HI' t) as Hok'. rewrite Hpc in Hok'.
    destruct (get_pc st t) as [|k v b|k v b p|k v b p old|k v b p|k v b|k v q|k v q|k v q|k v q|l' q w r|w r|ty j acc|ty j] eqn:Hp;
      try done; simpl in Hok, Hok'.
    - destruct Hok as [Hb _], Hok' as [Hb' _]. unfold box_ok in Hb, Hb'.
      rewrite (proj2 (data_Some st q v)) by eauto. by rewrite (proj2 (data_Some st' q v)) by eauto.
    - destruct w as [|[p|p|q] w]; try done.
      destruct (rem_hand E st t p HI) as (Hin&_&c&d&_&_&Hd).
      { rewrite Hp. simpl. rewrite is_p_self. lia. }
      destruct (rem_hand E st' t p HI') as (Hin'&_&_).
      { rewrite Hpc. simpl. rewrite is_p_self. lia. }
      rewrite Hd. by rewrite (table_data_step E st l st' p d HI Hs HI' Hin Hin' Hd).
  Qed.

  Lemma step_locks st l st' lk : step E st l = Next st' -> st_locks st !! lk = None -> st_locks st' !! lk <> None ->
    exists t a i, l = LStep t a i /\ want E st t = Some lk.
  Proof.
    intros Hs Hn Hsm. destruct l as [t k v|t p|p ks|p|p ks|p ks|t ty|t ty|t a i|t].
    1-8,10: exfalso; apply Hsm; simpl in Hs; unfold step_panic in Hs;
      repeat (match goal with
        | H : Next _ = Next _ |- _ => injection H as <-
        | H : (match ?x with _ => _ end) = Next _ |- _ => destruct x; try done
        end); done.
    exists t, a, i. split; [done|]. simpl in Hs. unfold step_thread in Hs. unfold want.
    repeat (match goal with
      | H : Next _ = Next _ |- _ => injection H as <-
      | H : (match ?x with _ => _ end) = Next _ |- _ => destruct x eqn:?; try done
      end); simpl in Hsm; try done;
      try (destruct (lookup_delete_Some) ; done);
      repeat match goal with
      | H : (delete ?k _) !! lk <> None |- _ => destruct (decide (k = lk)) as [<-|];
          [by rewrite lookup_delete in H|by rewrite lookup_delete_ne in H by done]
      | H : (<[?k := _]> _) !! lk <> None |- _ => destruct (decide (k = lk)) as [<-|];
          [|by rewrite lookup_insert_ne in H by done]
      end; try done.
  Qed.

  Record locked ns : Prop := Locked {
    lk_inv : Inv E (n_arc ns);
    lk_tidy : tidy ns;
    lk_want : forall lk t, n_in ns !! lk = Some t -> want E (n_arc ns) t = Some lk;
    lk_search : forall lk t, n_in ns !! lk = Some t -> searching (n_arc ns) t = true;
    lk_free : forall lk t, n_in ns !! lk = Some t -> st_locks (n_arc ns) !! lk = None;
  }.
  Lemma leave_Some t (m : gmap (nat * nat) nat) lk u : leave t m !! lk = Some u <-> m !! lk = Some u /\ u <> t.
  Proof. unfold leave. rewrite map_filter_lookup_Some. done. Qed.

  Lemma locked_step ns l ns' : locked ns -> Inv E (n_arc ns') -> nstep E ns l = Next ns' -> locked ns'.
  Proof.
    intros [HI HT Hw Hse Hf] HI' Hs. pose proof (tidy_step _ _ _ HT Hs) as HT'.
    destruct l as [l|t|t u|t].
    - apply nstep_do in Hs as (Hs&Hk&Ha).
      assert (forall lk t, n_in ns' !! lk = Some t -> n_in ns !! lk = Some t /\ actor l <> Some t) as Hin.
      { intros lk t Hlk. destruct (actor l) as [t1|].
        - destruct Ha as (_&Hl&_). rewrite Hl in Hlk. apply leave_Some in Hlk as [? ?]. split; [done|congruence].
        - rewrite Ha in Hlk. done. }
      split; [done|done|..]; intros lk t Hlk; destruct (Hin lk t Hlk) as [H0 Hne].
      + rewrite (want_stable (n_arc ns) l); eauto.
      + rewrite (searching_pc (n_arc ns)); [eauto|]. by eapply step_pc_other.
      + destruct (st_locks (n_arc ns') !! lk) as [h|] eqn:Hh; [|done]. exfalso.
        destruct (step_locks _ _ _ lk Hs (Hf _ _ H0)) as (t1&a&i&->&Hwt); [congruence|].
        simpl in Ha. destruct Ha as (_&_&Hsh). unfold shut_out in Hsh. rewrite Hwt, H0 in Hsh.
        simpl in Hne. assert (t = t1) as -> by lia. done.
    - apply nstep_enter in Hs as (lk0&->&H1&H2&H3&H4&H5).
      split; [done|done|..]; simpl; intros lk u Hlk; apply lookup_insert_Some in Hlk as [[<- <-]|[_ Hlk]]; eauto.
    - apply nstep_call in Hs as (->&_). by split.
    - apply nstep_end in Hs as (u&->&_). by split.
  Qed.
  Lemma locked_run nls : forall ns, nbounded E nls -> run (nstep E) ninit nls = Some ns -> locked ns.
  Proof.
    induction nls as [|l nls IH] using rev_ind; intros ns Hb Hr.
    - simpl in Hr. injection Hr as <-. split; simpl; try (intros *; by rewrite lookup_empty).
      + apply (run_Inv E HC HW [] init); [|done]. intros ls1 ls2 st1 He Hr p. symmetry in He.
        apply app_eq_nil in He as [-> ->]. simpl in Hr. injection Hr as <-.
        apply (Hb [] [] ninit); [done|done].
      + by apply (tidy_run []).
    - pose proof Hr as Hr'. rewrite run_snoc in Hr.
      destruct (run (nstep E) ninit nls) as [ns0|] eqn:Hr0; [|done].
      pose proof (IH ns0 (nbounded_app _ _ Hb) eq_refl) as HL.
      unfold exec in Hr. destruct (nstep E ns0 l) as [ns1| | |] eqn:Hs; try done; injection Hr as <-; try done.
      eapply locked_step; [done| |done].
      destruct (nested_concurrent _ _ Hr') as (ls&_&Hls&Hbl). by eapply run_Inv; [..|apply Hbl|].
  Qed.

  (** A thread that does not have to wait can step. *)
  Lemma open_steps st t : Inv E st -> get_pc st t <> PFree ->
    (forall lk, want E st t = Some lk -> st_locks st !! lk = None) ->
    exists a st', step E st (LStep t a 0) = Next st'.
  Proof.
    intros HI Hne Hlk. pose proof (inv_pc _ _ HI t) as Hok.
    destruct (free_addr st) as [a Ha]. exists a. simpl. unfold step_thread. unfold want in Hlk.
    destruct (get_pc st t) as [|k v b|k v b p|k v b p old|k v b p|k v b|k v q|k v q|k v q|k v q|l' q w r|w r|ty j acc|ty j] eqn:Hpc;
      simpl in Hok; try done; eauto.
    - rewrite (Hlk _ eq_refl), (inv_readable _ _ HI). destruct pick; eauto.
    - destruct Hok as [_ [Hp _]]. destruct (table_deref _ _ HI p Hp) as (c&d&->&_). eauto.
    - destruct Hok as (_&[Hp _]&_). destruct (table_deref _ _ HI p Hp) as (c&d&->&_).
      destruct (old =? 0)%N; eauto.
    - rewrite Ha. destruct k, b; eauto.
    - destruct Hok as [Hb _]. unfold box_ok in Hb.
      rewrite (proj2 (data_Some st q v)) in * by eauto.
      rewrite (Hlk _ eq_refl), (inv_readable _ _ HI). destruct pick; eauto.
    - destruct Hok as [Hb _]. unfold box_ok in Hb. rewrite Hb. destruct k; eauto.
    - destruct Hok as (Hp&_). destruct (table_deref _ _ HI q Hp) as (c&d&->&->&_). eauto.
    - destruct w as [|[p|p|q] w].
      + destruct r as [[v p]|]; eauto.
      + destruct (pc_hand E st t p HI) as (c&d&->&_); [|eauto].
        rewrite Hpc. simpl. rewrite is_p_self. lia.
      + destruct (rem_hand E st t p HI) as (_&_&c&d&_&_&Hd).
        { rewrite Hpc. simpl. rewrite is_p_self. lia. }
        rewrite Hd in *.
        rewrite (Hlk _ eq_refl), (inv_readable _ _ HI). destruct pick; eauto.
      + destruct Hok as [Hf _]. destruct (Hf q) as (c&->&_); [by left|eauto].
    - destruct (j <? te_shards E); [|eauto]. rewrite (Hlk _ eq_refl). eauto.
    - destruct (j <? te_shards E); [|eauto]. rewrite (Hlk _ eq_refl). eauto.
  Qed.

  Definition goes_on ns : Prop := exists l ns', nstep E ns l = Next ns' /\
    ((exists u a, l = NDo (LStep u a 0)) \/ exists u, l = NEnd u).

  (** The innermost activity. *)
  Lemma innermost ns t : tidy ns -> exists u, within ns t u /\ n_kid ns !! u = None.
  Proof.
    intros HT. pose (D := dom (n_kid ns) : gset nat).
    assert (forall n t, (forall x, x ∈ D -> x < t + n) -> exists u, within ns t u /\ n_kid ns !! u = None) as H.
    { intros n. induction n as [|n IH]; intros t0 Hn.
      - exists t0. split; [constructor|]. destruct (n_kid ns !! t0) eqn:Ht; [|done].
        assert (t0 ∈ D) as Hd by (by apply elem_of_dom_2 in Ht). specialize (Hn t0 Hd). lia.
      - destruct (n_kid ns !! t0) as [y|] eqn:Hy; [|exists t0; split; [constructor|done]].
        pose proof (tidy_lt _ HT _ _ Hy). destruct (IH y) as (u&Hu&Hk).
        { intros x Hx. specialize (Hn x Hx). lia. }
        exists u. split; [|done]. by eapply rtc_l. }
    assert (exists n, forall x, x ∈ D -> x < n) as [n Hn].
    { exists (S (set_fold max 0 D)). intros x Hx.
      assert (x <= set_fold max 0 D); [|lia].
      clear -Hx. revert Hx. apply (set_fold_ind_L (λ r X, x ∈ X -> x <= r)); [set_solver|].
      intros y X r Hy IH. rewrite elem_of_union, elem_of_singleton. intros [->|Hx]; [lia|]. specialize (IH Hx). lia. }
    apply (H n). intros x Hx. specialize (Hn x Hx). lia.
  Qed.
  Lemma within_parent ns t u : within ns t u -> u <> t -> exists x, within ns t x /\ n_kid ns !! x = Some u.
  Proof. intros Hw Hne. apply rtc_inv_r in Hw as [->|(x&Hx&Hk)]; [done|eauto]. Qed.

  Lemma do_step ns u a st' : n_kid ns !! u = None -> shut_out E ns u = false ->
    step E (n_arc ns) (LStep u a 0) = Next st' -> goes_on ns.
  Proof.
    intros Hk Hsh Hs. exists (NDo (LStep u a 0)), (NState st' (n_kid ns) (leave u (n_in ns))). split; [|eauto].
    simpl in *. rewrite (proj2 (idle_kid_true ns u) Hk). simpl. rewrite Hsh, Hs. done.
  Qed.
  Lemma holder_no_kid ns h lk : locked ns -> st_locks (n_arc ns) !! lk = Some h ->
    n_kid ns !! h = None /\ want E (n_arc ns) h = None.
  Proof.
    intros HL Hh. apply (inv_lock _ _ (lk_inv _ HL)) in Hh. split.
    - destruct (n_kid ns !! h) eqn:Hk; [|done]. pose proof (tidy_code _ (lk_tidy _ HL) _ _ Hk) as Hc.
      unfold user_code in Hc. by destruct (get_pc (n_arc ns) h).
    - unfold want. by destruct (get_pc (n_arc ns) h).
  Qed.

  Lemma goes_on_from rank ns n : locked ns -> in_order E rank ns ->
    forall u, n_kid ns !! u = None -> get_pc (n_arc ns) u <> PFree ->
    (forall lk, want E (n_arc ns) u = Some lk -> rank lk < n) -> goes_on ns.
  Proof.
    intros HL Ho. induction n as [|n IH]; intros u Hk Hne Hrank.
    - destruct (want E (n_arc ns) u) as [lk|] eqn:Hw; [specialize (Hrank lk eq_refl); lia|].
      destruct (open_steps (n_arc ns) u (lk_inv _ HL) Hne) as (a&st'&Hs); [by rewrite Hw|].
      eapply do_step; [done| |done]. unfold shut_out. by rewrite Hw.
    - destruct (want E (n_arc ns) u) as [lk|] eqn:Hw.
      2: { destruct (open_steps (n_arc ns) u (lk_inv _ HL) Hne) as (a&st'&Hs); [by rewrite Hw|].
           eapply do_step; [done| |done]. unfold shut_out. by rewrite Hw. }
      destruct (st_locks (n_arc ns) !! lk) as [h|] eqn:Hh.
      { destruct (holder_no_kid ns h lk HL Hh) as [Hkh Hwh].
        pose proof Hh as Hl. apply (inv_lock _ _ (lk_inv _ HL)) in Hl.
        destruct (holder_steps E (n_arc ns) h lk (lk_inv _ HL) Hl) as [st' Hs].
        eapply do_step; [done| |done]. unfold shut_out. by rewrite Hwh. }
      destruct (n_in ns !! lk) as [h|] eqn:Hin; [destruct (decide (h = u)) as [->|Hhu]|].
      1,3: destruct (open_steps (n_arc ns) u (lk_inv _ HL) Hne) as (a&st'&Hs);
        [intros lk' Hlk'; congruence|]; eapply do_step; [done| |done]; unfold shut_out; rewrite Hw, Hin; first [done|lia].
      destruct (innermost ns h (lk_tidy _ HL)) as (u2&Hw2&Hk2).
      destruct (decide (u2 = h)) as [->|Hne2].
      { pose proof (lk_want _ HL _ _ Hin) as Hwh.
        assert (get_pc (n_arc ns) h <> PFree) as Hneh.
        { intros Hx. pose proof (lk_search _ HL _ _ Hin) as Hse. unfold searching in Hse. by rewrite Hx in Hse. }
        destruct (open_steps (n_arc ns) h (lk_inv _ HL) Hneh) as (a&st'&Hs); [intros lk' Hlk'; congruence|].
        eapply do_step; [done| |done]. unfold shut_out. rewrite Hwh, Hin. lia. }
      destruct (get_pc (n_arc ns) u2) eqn:Hpc2.
      { destruct (within_parent ns h u2 Hw2 Hne2) as (x&_&Hx).
        exists (NEnd x). eexists. split; [|eauto]. simpl. rewrite Hx. unfold is_free. rewrite Hpc2.
        rewrite (proj2 (idle_kid_true ns u2) Hk2). done. }
      all: apply (IH u2 Hk2); [by rewrite Hpc2|]; intros lk2 Hlk2;
        pose proof (Ho lk h u2 lk2 Hin Hw2 Hne2 Hlk2); specialize (Hrank lk eq_refl); lia.
  Qed.

  Lemma ordered_goes_on rank nls ns t : nbounded E nls -> run (nstep E) ninit nls = Some ns ->
    in_order E rank ns -> get_pc (n_arc ns) t <> PFree -> goes_on ns.
  Proof.
    intros Hb Hr Ho Hne. pose proof (locked_run nls ns Hb Hr) as HL.
    destruct (innermost ns t (lk_tidy _ HL)) as (u&Hw&Hk).
    destruct (get_pc (n_arc ns) u) eqn:Hpc.
    { assert (u <> t) as Hut by congruence. destruct (within_parent ns t u Hw Hut) as (x&_&Hx).
      exists (NEnd x). eexists. split; [|eauto]. simpl. rewrite Hx. unfold is_free. rewrite Hpc.
      rewrite (proj2 (idle_kid_true ns u) Hk). done. }
    all: destruct (want E (n_arc ns) u) as [lk|] eqn:Hwt;
      [eapply (goes_on_from rank ns (S (rank lk)) HL Ho u Hk); [by rewrite Hpc|]; intros lk' Hlk';
       assert (lk' = lk) as -> by congruence; lia
      |eapply (goes_on_from rank ns 0 HL Ho u Hk); [by rewrite Hpc|]; intros lk' Hlk'; congruence].
  Qed.
End nest.

(** For the examples: the state after an execution. *)
Definition nafter {V : Type} (E : tyenv V) (nls : list (nlabel V)) : nstate V :=
  default ninit (run (nstep E) ninit nls).
Lemma nafter_run {V : Type} (E : tyenv V) nls :
  match run (nstep E) ninit nls with Some _ => true | None => false end = true ->
  run (nstep E) ninit nls = Some (nafter E nls).
Proof. unfold nafter. by destruct (run (nstep E) ninit nls). Qed.

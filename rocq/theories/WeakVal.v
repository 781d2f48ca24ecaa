(** WeakModel: every value a count has had is the number of handles there were at some moment. *)
From stdpp Require Import gmap list numbers.
From Verif Require Import Base ArcModel ArcSpec ArcInv ArcStep ArcSafe ArcReach.
From Verif Require Import RaceModel RaceSpec RaceInv RaceStep RaceSafe RaceFinal RaceHb RaceThm.
From Verif Require Import WeakModel WeakSpec WeakHb WeakInv WeakSafe WeakCoh.
Require Import ZifyBool ZifyNat ZifyN.

(** ** Which handles a step creates, and what becomes alive *)
Section arc.
  Context {V : Type} (E : tyenv V).
  Implicit Types (st : state V) (p q : ptr).
  Notation hc := (handles_to E).
  Context (HL : coherent E).

  Definition creates_of st (l : label V) p : nat :=
    match l with
    | LClone q ks => is_p p (target q ks)
    | LStep t _ _ =>
        match get_pc st t with
        | PHit _ _ _ q => match deref st q with
                          | Some c => if (c_count c =? 0)%N then 0 else is_p p q
                          | None => 0 end
        | PVac _ _ q => is_p p q
        | _ => 0
        end
    | _ => 0
    end.
  Lemma step_hc_of st l st' p :
    Inv E st -> step E st l = Next st' -> hc st' p <= hc st p + creates_of st l p.
  Proof.
    intros HI. destruct l as [t k v|t q|q ks|q|q ks|q ks|t ty|t ty|t a i|t]; simpl.
    - destruct (get_pc st t) eqn:Hpc; try done. destruct k.
      + destruct rem_all as [pl|] eqn:Hr; [|done]. intros [= <-]. unfold handles_to. simpl.
        pose proof (tsum_set (pc_handles E p) st t (PLookup KSized v None) eq_refl) as H1.
        rewrite Hpc in H1. simpl in H1. pose proof (rem_all_occ _ _ _ p Hr). lia.
      + destruct te_kids; [|done]. intros [= <-]. unfold handles_to. simpl.
        pose proof (tsum_set (pc_handles E p) st t (PLookup KDst v None) eq_refl) as H1.
        rewrite Hpc in H1. simpl in H1. lia.
    - destruct (get_pc st t) eqn:Hpc; try done. destruct rem1 as [pl|] eqn:Hr; [|done].
      intros [= <-]. unfold handles_to. simpl.
      pose proof (tsum_set (pc_handles E p) st t (PWork [IDrop q] None) eq_refl) as H1.
      rewrite Hpc in H1. simpl in H1. pose proof (rem1_occ _ _ _ p Hr).
      unfold is_p in *. case_bool_decide; destruct (decide (q = p)); simpl in *; try done; lia.
    - destruct (borrow E st q ks) as [k| | |] eqn:Hb; try done.
      destruct (borrow_owns E _ _ _ _ Hb) as [<- _].
      destruct (deref st k) as [c|] eqn:Hc; [|done]. intros [= <-].
      pose proof (hc_set_count E st k c (count_inc E (c_count c)) p Hc) as H1.
      unfold handles_to in H1 |- *. simpl in H1 |- *. unfold is_p.
      destruct (decide (k = p)); [rewrite bool_decide_true by done|rewrite bool_decide_false by done]; simpl; lia.
    - destruct rem1 as [pl|] eqn:Hr; [|done]. intros [= <-]. unfold handles_to. simpl.
      pose proof (rem1_occ _ _ _ p Hr). lia.
    - destruct (borrow E st q ks) as [k| | |]; try done. destruct (deref st k); [|done].
      intros [= <-]. unfold handles_to. simpl. lia.
    - destruct (borrow E st q ks) as [k| | |]; try done. destruct (data st k); [|done].
      intros [= <-]. unfold handles_to. simpl. lia.
    - destruct (get_pc st t) eqn:Hpc; try done. intros [= <-]. unfold handles_to. simpl.
      pose proof (tsum_set (pc_handles E p) st t (PLen ty 0 0) eq_refl) as H1.
      rewrite Hpc in H1. simpl in H1. lia.
    - destruct (get_pc st t) eqn:Hpc; try done. intros [= <-]. unfold handles_to. simpl.
      pose proof (tsum_set (pc_handles E p) st t (PShrink ty 0) eq_refl) as H1.
      rewrite Hpc in H1. simpl in H1. lia.
    - unfold step_thread. pose proof (inv_pc _ _ HI t) as Hok.
      assert (forall x, hc (set_pc st t x) p + pc_handles E p (get_pc st t) = hc st p + pc_handles E p x) as HS.
      { intros x. apply hc_set_pc. }
      assert (forall q c n x, deref st q = Some c ->
        hc (set_pc (set_count st q c n) t x) p + pc_handles E p (get_pc st t)
        = hc st p + pc_handles E p x) as HC.
      { intros q c n x Hc. rewrite <- (hc_set_count E st q c n p Hc).
        apply (hc_set_pc E (set_count st q c n)). }
      destruct (get_pc st t) as [|k v b|k v b q|k v b q old|k v b q|k v b|k v q|k v q|k v q|k v q|l q w r|w r|ty j acc|ty j] eqn:Hpc;
        simpl in Hok; try done; simpl in HC, HS.
      + destruct (st_locks st !! lock_of E v); [done|]. destruct readable; [|done].
        destruct pick as [q|]; intros [= <-].
        * specialize (HS (PHit k v b q)). simpl in HS. unfold handles_to in *. simpl in *. lia.
        * specialize (HS (PAlloc k v b)). simpl in HS. lia.
      + destruct (deref st q) as [c|] eqn:Hc; [|done]. intros [= <-].
        specialize (HC _ _ (count_inc E (c_count c)) (PInc k v b q (c_count c)) Hc). simpl in HC.
        destruct (c_count c =? 0)%N; lia.
      + destruct (old =? 0)%N.
        * destruct (deref st q) as [c|] eqn:Hc; [|done]. intros [= <-].
          specialize (HC _ _ (count_dec E (c_count c)) (PUndo k v b q) Hc). simpl in HC. lia.
        * intros [= <-]. specialize (HS (PWork (drop_args E k v b) (Some (v, q)))). simpl in HS.
          rewrite drop_args_handles in HS. unfold handles_to in *. simpl in *. lia.
      + intros [= <-]. specialize (HS (PLookup k v b)). unfold handles_to in *. simpl in *. lia.
      + assert (forall x, match st_heap st !! a with Some _ => Illegal | None =>
           Next (set_pc (alloc st a v) t (PEntry k v (Ptr a (st_next st)))) end = Next x ->
           hc x p <= hc st p + 0) as Hal.
        { intros x. destruct (st_heap st !! a) eqn:Ha; [done|]. intros [= <-].
          pose proof (tsum_set (pc_handles E p) st t (PEntry k v (Ptr a (st_next st))) eq_refl) as H1.
          rewrite Hpc in H1. simpl in H1. unfold handles_to. simpl.
          rewrite (msum_insert_None _ _ _ _ Ha). unfold cell_handles at 1. simpl.
          destruct k; simpl in *; [lia|]. rewrite (proj1 Hok). simpl. lia. }
        destruct k, b as [q|]; try apply Hal.
        intros [= <-]. specialize (HS (PEntry KDst v q)). simpl in HS. lia.
      + destruct (data st q) as [d0|]; [|done]. destruct (st_locks st !! lock_of E d0); [done|].
        destruct readable; [|done]. destruct pick as [q'|]; intros [= <-].
        * specialize (HS (POcc k v q)). unfold handles_to in *. simpl in *. lia.
        * specialize (HS (PVac k v q)). unfold handles_to in *. simpl in *. lia.
      + intros [= <-]. specialize (HS (PIns k v q)).
        unfold handles_to in *. simpl in *. lia.
      + destruct k; intros Hs.
        * destruct Hok as [Hb _]. unfold box_ok in Hb. rewrite Hb in Hs. simpl in Hs. injection Hs as <-.
          apply deref_Some in Hb as [Hb _].
          specialize (HS (PLookup KSized v None)). unfold handles_to in *. simpl in *.
          pose proof (msum_delete (cell_handles E p) _ _ _ Hb) as Hm.
          change (cell_handles E p (Cell (p_ser q) 1%N (Some v))) with (occ p (te_kids E v)) in Hm. lia.
        * injection Hs as <-. specialize (HS (PLookup KDst v (Some q))).
          unfold handles_to in *. simpl in *. lia.
      + intros [= <-]. specialize (HS (PWork [] (Some (v, q)))). unfold handles_to in *. simpl in *. lia.
      + destruct (deref st q) as [c|] eqn:Hc; [|done]. destruct (c_data c) as [d|] eqn:Hd; [|done].
        intros [= <-]. apply deref_Some in Hc as [Hc _].
        specialize (HS (PWork (drop_box E d q ++ w) r)).
        pose proof (msum_insert_Some (cell_handles E p) (st_heap st) _
                    (Cell (c_ser c) (c_count c) None) c Hc) as H2.
        unfold cell_handles in H2 at 2 3. rewrite Hd in H2. simpl in H2.
        unfold handles_to in *. simpl in *. unfold drop_box in *.
        rewrite !work_handles_app, work_handles_drops in HS. simpl in HS.
        unfold drop_box. lia.
      + destruct w as [|[q|q|q] w].
        * destruct r as [[v q]|]; intros [= <-]; specialize (HS PFree); unfold handles_to in *; simpl in *.
          -- unfold is_p in HS. case_bool_decide; destruct (decide (q = p)); simpl in *; try done; lia.
          -- lia.
        * destruct (deref st q) as [c|] eqn:Hc; [|done]. intros [= <-].
          specialize (HC _ _ (count_dec E (c_count c)) (PWork (if (c_count c =? 1)%N then IRemove q :: w else w) r) Hc).
          destruct (c_count c =? 1)%N; simpl in *; lia.
        * destruct (data st q) as [d0|]; [|done]. destruct (st_locks st !! lock_of E d0); [done|].
          destruct readable; [|done]. destruct pick as [q'|]; intros [= <-].
          -- specialize (HS (PRem (lock_of E d0) q' w r)). unfold handles_to in *. simpl in *. lia.
          -- specialize (HS (PWork w r)). unfold handles_to in *. simpl in *. lia.
        * destruct (deref st q) as [c|] eqn:Hc; [|done]. intros [= <-].
          apply deref_Some in Hc as [Hc _].
          specialize (HS (PWork w r)). unfold handles_to in *. simpl in *.
          pose proof (msum_delete (cell_handles E p) _ _ _ Hc). lia.
      + destruct (j <? te_shards E).
        * destruct (st_locks st !! (ty, j)); [done|]. intros [= <-].
          match goal with |- context [set_pc st t ?x] => specialize (HS x) end. simpl in *. lia.
        * intros [= <-]. specialize (HS PFree). unfold handles_to in *. simpl in *. lia.
      + destruct (j <? te_shards E).
        * destruct (st_locks st !! (ty, j)); [done|]. intros [= <-].
          specialize (HS (PShrink ty (S j))). simpl in *. lia.
        * intros [= <-]. specialize (HS PFree). simpl in *. lia.
    - unfold step_panic. pose proof (inv_pc _ _ HI t) as Hok.
      assert (forall x, hc (set_pc st t x) p + pc_handles E p (get_pc st t) = hc st p + pc_handles E p x) as HS.
      { intros x. apply hc_set_pc. }
      destruct (get_pc st t) as [|k v b|k v b q|k v b q old|k v b q|k v b|k v q|k v q|k v q|k v q|l q w r|w r|ty j acc|ty j] eqn:Hpc;
        simpl in Hok; try done; simpl in HS.
      + intros [= <-]. specialize (HS (PWork (drop_args E k v b) None)). simpl in HS.
        rewrite drop_args_handles in HS. lia.
      + destruct (deref st q) as [c|] eqn:Hc; [|done]. destruct (c_data c) as [d|] eqn:Hd; [|done].
        intros [= <-]. apply deref_Some in Hc as [Hc _].
        specialize (HS (PWork (drop_box E d q) None)).
        pose proof (msum_insert_Some (cell_handles E p) (st_heap st) _
                    (Cell (c_ser c) (c_count c) None) c Hc) as H2.
        unfold cell_handles in H2 at 2 3. rewrite Hd in H2. simpl in H2.
        unfold handles_to in *. simpl in *. unfold drop_box in *.
        rewrite !work_handles_app, work_handles_drops in HS. simpl in HS. lia.
      + destruct w as [|[q|q|q] w]; try done. intros [= <-].
        specialize (HS (PWork (w ++ match r with Some (_, x) => [IDrop x] | None => [] end) None)).
        unfold handles_to in *. simpl in *. rewrite work_handles_app in HS.
        destruct r as [[v x]|]; simpl in *; lia.
  Qed.


  (** The box a thread has allocated and not yet put into the table. *)
  Definition pc_box (x : pc V) : option ptr :=
    match x with
    | PLookup _ _ b | PHit _ _ b _ | PInc _ _ b _ _ | PUndo _ _ b _ | PAlloc _ _ b => b
    | PEntry _ _ q | PVac _ _ q | POcc _ _ q => Some q
    | _ => None
    end.
  Lemma step_box st l st' t q : step E st l = Next st' -> pc_box (get_pc st' t) = Some q ->
    pc_box (get_pc st t) = Some q \/ p_ser q = st_next st.
  Proof.
    intros Hs.
    destruct l as [t' k v|t' q'|q' ks|q'|q' ks|q' ks|t' ty|t' ty|t' a i|t']; simpl in Hs;
      unfold step_thread, step_panic in Hs;
      repeat (match goal with
              | H : Next _ = Next _ |- _ => injection H as <-
              | H : (match ?x with _ => _ end) = Next _ |- _ => destruct x eqn:?; try done
              end); auto;
      unfold get_pc in *; simpl; (destruct (decide (t = t')) as [->|];
        [rewrite lookup_insert|rewrite lookup_insert_ne by done; by auto]); simpl;
      repeat match goal with H : default PFree _ = _ |- _ => rewrite H; clear H end; simpl; try (by auto); try done;
      intros [= <-]; by right.
  Qed.

  Lemma box_oc st t q : Inv E st -> pc_box (get_pc st t) = Some q -> 0 < pc_oc (p_addr q) (get_pc st t).
  Proof.
    intros _ Hb. destruct (get_pc st t) as [|k v b|k v b r|k v b r old|k v b r|k v b|k v r|k v r|k v r|k v r|l' r w r'|w r|ty j acc|ty j];
      simpl in *; try done; try (injection Hb as ->); subst; simpl; rewrite ?at_addr_self; lia.
  Qed.
  Lemma box_cell st t q : Inv E st -> pc_box (get_pc st t) = Some q -> exists c, deref st q = Some c.
  Proof.
    intros HI Hb. pose proof (inv_pc _ _ HI t) as Hok.
    destruct (get_pc st t) as [|k v b|k v b r|k v b r old|k v b r|k v b|k v r|k v r|k v r|k v r|l' r w r'|w r|ty j acc|ty j];
      simpl in *; try done; try (injection Hb as ->); subst;
      try (destruct k; [naive_solver|]; unfold arg_ok, box_ok in *; naive_solver); unfold box_ok in *; naive_solver.
  Qed.
  Lemma box_not_table st t q p : Inv E st -> ser_inj st -> pc_box (get_pc st t) = Some q -> p ∈ st_table st ->
    p_ser p <> p_ser q.
  Proof.
    intros HI HS Hb Hp He. destruct (box_cell _ _ _ HI Hb) as (c&Hc).
    destruct (table_deref _ _ HI p Hp) as (c'&d&Hc'&_).
    assert (p_addr q = p_addr p) as Ha.
    { apply ser_inj_heap in HS. apply deref_Some in Hc as [Hc Hs], Hc' as [Hc' Hs'].
      eapply HS; [done|done|]. congruence. }
    pose proof (box_oc _ _ _ HI Hb) as Ho. rewrite Ha, (table_not_box _ _ HI) in Ho by done. lia.
  Qed.

  (** Objects enter the table by insertion, and what is dead in it stays dead. *)
  Lemma step_table_new st l st' p : step E st l = Next st' -> p ∉ st_table st -> p ∈ st_table st' ->
    exists t a i k v, l = LStep t a i /\ get_pc st t = PVac k v p.
  Proof.
    intros Hs.
    destruct l as [t' k v|t' q'|q' ks|q'|q' ks|q' ks|t' ty|t' ty|t' a i|t']; simpl in Hs;
      unfold step_thread, step_panic in Hs;
      repeat (match goal with
              | H : Next _ = Next _ |- _ => injection H as <-
              | H : (match ?x with _ => _ end) = Next _ |- _ => destruct x eqn:?; try done
              end); simpl; intros Hn Hp; try done.
    - apply elem_of_cons in Hp as [->|]; [|done]. by eauto 10.
    - unfold remove_entry in Hp. by apply elem_of_list_filter in Hp as [_ Hp].
  Qed.
  Lemma dead_stays st l st' p : Inv E st -> fits E st -> step E st l = Next st' -> p ∈ st_table st ->
    hc st p = 0 -> hc st' p = 0.
  Proof.
    intros HI Hf Hs Hp H0. pose proof (step_hc_of st l st' p HI Hs) as Hle.
    assert (creates_of st l p = 0); [|lia].
    destruct l as [t' k v|t' q'|q' ks|q'|q' ks|q' ks|t' ty|t' ty|t' a i|t']; simpl in *; try done.
    - destruct (borrow E st q' ks) as [r| | |] eqn:Hb; try done.
      destruct (borrow_live E st q' ks HI) as [_ Hbl]. specialize (Hbl _ Hb).
      destruct (borrow_owns E _ _ _ _ Hb) as [<- _]. apply is_p_ne. intros ->. lia.
    - pose proof (inv_pc _ _ HI t') as Hok. destruct (get_pc st t') as [|k v b|k v b r|k v b r old|k v b r|k v b|k v r|k v r|k v r|k v r|l' r w r'|w r|ty j acc|ty j] eqn:Hpc; try done.
      + destruct (deref st r) as [c|] eqn:Hc; [|done]. destruct (c_count c =? 0)%N eqn:H1; [done|].
        apply is_p_ne. intros ->. rewrite (inv_cnt _ _ HI p c) in H1 by done.
        assert (tc st p = 0) as Htc; [|rewrite H0, Htc in H1; done].
        destruct (decide (tc st p = 0)) as [|Hn]; [done|]. assert (0 < tc st p) as Hpos by lia.
        apply tsum_pos in Hpos as (u&Hu). pose proof (inv_pc _ _ HI u) as Hoku.
        destruct (get_pc st u) as [| | |ku vu bu ru oldu| | | | | | | | | |] eqn:Hpu; simpl in Hu; try lia.
        assert (ru = p) as ->. { destruct (oldu =? 0)%N; [|lia]. unfold is_p in Hu. case_bool_decide; [done|simpl in Hu; lia]. }
        assert (t' = u) as ->; [|congruence].
        destruct Hok as (_&_&d&Hd&He). destruct Hoku as (_&(_&d'&Hd'&He')&_).
        assert (d' = d) as -> by congruence.
        apply (lock_unique _ _ HI (lock_of E d)); [rewrite Hpc|rewrite Hpu]; simpl; by rewrite (law_lock E HL _ d).
      + apply is_p_ne. intros ->.
        pose proof (table_not_box _ _ HI p t' Hp) as Hb. rewrite Hpc in Hb. simpl in Hb. rewrite at_addr_self in Hb. lia.
  Qed.

  (** The object whose count a step changes. *)
  Definition arc_rmw st (l : label V) : option ptr :=
    match l with
    | LClone q ks => Some (target q ks)
    | LStep t _ _ =>
        match get_pc st t with
        | PHit _ _ _ q => Some q
        | PInc _ _ _ q old => if (old =? 0)%N then Some q else None
        | PWork (IDrop q :: _) _ => Some q
        | _ => None
        end
    | _ => None
    end.
  Lemma count_same st l st' p c c' : Inv E st -> step E st l = Next st' -> p ∈ st_table st ->
    deref st p = Some c -> deref st' p = Some c' -> arc_rmw st l <> Some p -> c_count c' = c_count c.
  Proof.
    intros HI Hs Hp Hc Hc' Hne.
    assert (forall q d n st1, deref st q = Some d -> st_heap st1 = st_heap (set_count st q d n) -> deref st1 p = Some c' ->
      Some q <> Some p -> c_count c' = c_count c) as Hset.
    { intros q d n st1 Hd H1 H2 Hqp. rewrite (deref_ext (set_count st q d n) st1 p) in H2 by (by rewrite H1).
      rewrite (deref_set_count st q d n p Hd) in H2. destruct (decide (p_addr p = p_addr q)) as [He|]; [|congruence].
      apply deref_Some in Hd as [Hd Hd']. pose proof Hc as [Hc1 Hc2]%deref_Some.
      destruct Hqp. f_equal. destruct p, q; simpl in *; congruence. }
    assert (forall st1, st_heap st1 = st_heap st -> deref st1 p = Some c' -> c_count c' = c_count c) as Hid.
    { intros st1 H1 H2. rewrite (deref_ext st st1 p) in H2 by (by rewrite H1). congruence. }
    assert (forall q d st1, deref st q = Some d -> st_heap st1 = <[p_addr q := Cell (c_ser d) (c_count d) None]> (st_heap st) ->
      deref st1 p = Some c' -> c_count c' = c_count c) as Htake.
    { intros q d st1 Hd H1 H2. apply deref_Some in H2 as [H2 _], Hd as [Hd _]. rewrite H1 in H2.
      pose proof Hc as [Hc1 Hc2]%deref_Some.
      destruct (decide (p_addr p = p_addr q)) as [He|Hn].
      - rewrite <- He, lookup_insert in H2. injection H2 as <-. simpl. congruence.
      - rewrite lookup_insert_ne in H2 by done. congruence. }
    assert (forall q st1, st_heap st1 = delete (p_addr q) (st_heap st) -> deref st1 p = Some c' -> c_count c' = c_count c) as Hfree.
    { intros q st1 H1 H2. apply deref_Some in H2 as [H2 _]. rewrite H1 in H2.
      apply lookup_delete_Some in H2 as [_ H2]. apply deref_Some in Hc as [Hc _]. congruence. }
    destruct l as [t' k v|t' q'|q' ks|q'|q' ks|q' ks|t' ty|t' ty|t' a i|t']; simpl in Hs;
      unfold step_thread, step_panic in Hs; cbn [arc_rmw] in Hne.
    - repeat (case_match; try done); injection Hs as <-; by eapply Hid; [|exact Hc'].
    - repeat (case_match; try done); injection Hs as <-; by eapply Hid; [|exact Hc'].
    - destruct (borrow E st q' ks) as [k| | |] eqn:Hb; try done.
      destruct (borrow_owns E _ _ _ _ Hb) as [-> _].
      destruct (deref st (target q' ks)) as [d|] eqn:Hd; [|done]. injection Hs as <-. by eapply (Hset _ _ _ _ Hd); [|exact Hc'|].
    - repeat (case_match; try done); injection Hs as <-; by eapply Hid; [|exact Hc'].
    - repeat (case_match; try done); injection Hs as <-; by eapply Hid; [|exact Hc'].
    - repeat (case_match; try done); injection Hs as <-; by eapply Hid; [|exact Hc'].
    - repeat (case_match; try done); injection Hs as <-; by eapply Hid; [|exact Hc'].
    - repeat (case_match; try done); injection Hs as <-; by eapply Hid; [|exact Hc'].
    - destruct (get_pc st t') as [|k v b|k v b q|k v b q old|k v b q|k v b|k v q|k v q|k v q|k v q|l q w r|w r|ty j acc|ty j] eqn:Hpc; try done.
      + repeat (case_match; try done); injection Hs as <-; by eapply Hid; [|exact Hc'].
      + destruct (deref st q) as [d|] eqn:Hd; [|done]. injection Hs as <-. by eapply (Hset _ _ _ _ Hd); [|exact Hc'|].
      + destruct (old =? 0)%N; [|injection Hs as <-; by eapply Hid; [|exact Hc']].
        destruct (deref st q) as [d|] eqn:Hd; [|done]. injection Hs as <-. by eapply (Hset _ _ _ _ Hd); [|exact Hc'|].
      + injection Hs as <-; by eapply Hid; [|exact Hc'].
      + assert (forall x, match st_heap st !! a with Some _ => Illegal | None =>
           Next (set_pc (alloc st a v) t' (PEntry k v (Ptr a (st_next st)))) end = Next x ->
           deref x p = Some c' -> c_count c' = c_count c) as Hal.
        { intros x Hx Hx'. destruct (st_heap st !! a) as [|] eqn:Ha; [done|]. injection Hx as <-.
          apply deref_Some in Hx' as [Hx' _], Hc as [Hc _]. simpl in Hx'.
          rewrite lookup_insert_ne in Hx' by congruence. congruence. }
        destruct k, b; try (by eapply Hal). injection Hs as <-; by eapply Hid; [|exact Hc'].
      + repeat (case_match; try done); injection Hs as <-; by eapply Hid; [|exact Hc'].
      + injection Hs as <-; by eapply Hid; [|exact Hc'].
      + destruct k.
        * destruct (deref st q) as [d|] eqn:Hd; [|done]. destruct (c_data d); [|done].
          injection Hs as <-. by eapply (Hfree q); [|exact Hc'].
        * injection Hs as <-; by eapply Hid; [|exact Hc'].
      + injection Hs as <-; by eapply Hid; [|exact Hc'].
      + destruct (deref st q) as [d|] eqn:Hd; [|done]. destruct (c_data d); [|done].
        injection Hs as <-. by eapply (Htake q d _ Hd); [|exact Hc'].
      + destruct w as [|[q|q|q] w].
        * destruct r as [[v q]|]; injection Hs as <-; by eapply Hid; [|exact Hc'].
        * destruct (deref st q) as [d|] eqn:Hd; [|done]. injection Hs as <-. by eapply (Hset _ _ _ _ Hd); [|exact Hc'|].
        * repeat (case_match; try done); injection Hs as <-; by eapply Hid; [|exact Hc'].
        * destruct (deref st q) as [d|] eqn:Hd; [|done]. injection Hs as <-. by eapply (Hfree q); [|exact Hc'].
      + repeat (case_match; try done); injection Hs as <-; by eapply Hid; [|exact Hc'].
      + repeat (case_match; try done); injection Hs as <-; by eapply Hid; [|exact Hc'].
    - destruct (get_pc st t') as [|k v b|k v b q|k v b q old|k v b q|k v b|k v q|k v q|k v q|k v q|l q w r|w r|ty j acc|ty j] eqn:Hpc; try done.
      + injection Hs as <-; by eapply Hid; [|exact Hc'].
      + destruct (deref st q) as [d|] eqn:Hd; [|done]. destruct (c_data d); [|done].
        injection Hs as <-. by eapply (Htake q d _ Hd); [|exact Hc'].
      + destruct w as [|[q|q|q] w]; try done. injection Hs as <-; by eapply Hid; [|exact Hc'].
  Qed.
End arc.

(** ** The values recorded *)
Section val.
  Context {V : Type} (E : tyenv V) (O : orders).
  Context (HL : coherent E) (HW : wide E).
  Context (Hacq : acquires (o_sub O) = true) (Hrel : releases (o_sub O) = true).
  Implicit Types (s : rstate V) (x : wstate V) (p q : ptr).
  Notation hc := (handles_to E).

  Lemma wstep_arc x l x' : wstep E O x l = Next x' ->
    (exists l', step E (r_st (w_race x)) l' = Next (r_st (w_race x'))) \/ r_st (w_race x') = r_st (w_race x).
  Proof.
    intros Hs. destruct l as [l|t h ks w].
    - simpl in Hs. destruct (is_ref l); [done|]. destruct (rstep E O (w_race x) l) as [s'| | |] eqn:Hst; try done.
      injection Hs as <-. simpl. apply rstep_erase in Hst. destruct (erase (w_race x) l); eauto.
    - apply wref_inv in Hs as (y&n&W&st&_&Hst&_&_&->&_). left. exists (LRef (h_ptr y) ks). rewrite Hst.
      by destruct (acquires (o_load O)).
  Qed.

  (** Counts are only changed of objects in the table. *)
  Lemma rmw_table s l s' p : Good E s -> rstep E O s l = Next s' -> rmw_obj s l = Some p ->
    p ∈ st_table (r_st s) /\ is_Some (deref (r_st s') p).
  Proof.
    intros HG Hs Hp. pose proof (g_inv _ _ HG) as HI. pose proof (rstep_erase E O s l s' Hs) as He.
    assert (forall (st : state V) q c n g t, deref st q = Some c -> is_Some (deref (set_pc (set_count st q c n) t g) q)) as Hset.
    { intros st q c n g t Hc. change (deref (set_pc ?a _ _) q) with (deref a q).
      rewrite (deref_set_count st q c n q Hc), decide_True, Hc by done. by eexists. }
    destruct l as [t k v hs|t h|t h ks h'|t h|t h ks|t h ks|t ty|t ty|t a i h|t|t m|t m]; try done; cbn [rmw_obj] in Hp.
    - cbn [erase] in He. destruct (r_hands s !! h) as [y|] eqn:Hy; [|done]. injection Hp as <-. simpl in He.
      destruct (borrow E (r_st s) (h_ptr y) ks) as [k| | |] eqn:Hb; try done.
      destruct (borrow_live E (r_st s) (h_ptr y) ks HI) as [_ Hbl]. specialize (Hbl _ Hb).
      destruct (borrow_owns E _ _ _ _ Hb) as [<- _]. split; [by apply (inv_hand _ _ HI)|].
      destruct (deref (r_st s) k) as [c|] eqn:Hc; [|done]. injection He as <-.
      change (deref (set_pool ?a _) k) with (deref a k).
      rewrite (deref_set_count (r_st s) k c _ k Hc), decide_True, Hc by done. by eexists.
    - cbn [erase] in He. simpl in He. unfold step_thread in He. pose proof (inv_pc _ _ HI t) as Hok.
      pose proof (hc_ge_pc E (r_st s) t p) as Hge.
      destruct (get_pc (r_st s) t) as [|k v b|k v b q|k v b q old|k v b q|k v b|k v q|k v q|k v q|k v q|l' q w r|w r|ty j acc|ty j] eqn:Hpc; try done.
      + injection Hp as ->. split; [apply Hok|]. destruct (deref (r_st s) p) as [c|] eqn:Hc; [|done].
        injection He as <-. by apply Hset.
      + destruct (old =? 0)%N; [|done]. injection Hp as ->. split; [apply Hok|].
        destruct (deref (r_st s) p) as [c|] eqn:Hc; [|done]. injection He as <-. by apply Hset.
      + destruct w as [|[q|q|q] w]; try done. injection Hp as ->. simpl in Hge. rewrite is_p_self in Hge.
        split; [apply (inv_hand _ _ HI); lia|].
        destruct (deref (r_st s) p) as [c|] eqn:Hc; [|done]. injection He as <-. by apply Hset.
  Qed.
  Lemma same_ser st p q : Inv E st -> ser_inj st -> p ∈ st_table st -> is_Some (deref st q) ->
    p_ser p = p_ser q -> p = q.
  Proof.
    intros HI HS Hp (c'&Hc') He. destruct (table_deref _ _ HI p Hp) as (c&d&Hc&_).
    apply ser_inj_heap in HS. apply deref_Some in Hc as [Hc Hs], Hc' as [Hc' Hs'].
    assert (p_addr p = p_addr q) as Ha by (eapply HS; [done|done|congruence]).
    destruct p, q; simpl in *; congruence.
  Qed.

  Definition NB x : Prop := forall z, z ∈ w_writes x -> w_obj z < st_next (r_st (w_race x)) /\
    forall t q, pc_box (get_pc (r_st (w_race x)) t) = Some q -> w_obj z <> p_ser q.

  Lemma wstep_writes x l x' : Good E (w_race x) -> wstep E O x l = Next x' ->
    w_writes x' = w_writes x \/
    exists q W a, w_writes x' = w_writes x ++ [Write (p_ser q) (new_count (w_race x') q) W a] /\
      q ∈ st_table (r_st (w_race x)) /\ is_Some (deref (r_st (w_race x')) q).
  Proof.
    intros HG Hs. destruct l as [l|t h ks w].
    - simpl in Hs. destruct (is_ref l); [done|]. destruct (rstep E O (w_race x) l) as [s'| | |] eqn:Hst; try done.
      injection Hs as <-. simpl. unfold record. destruct (rmw_obj (w_race x) l) as [q|] eqn:Hq; [|left; by rewrite app_nil_r].
      right. destruct (rmw_table _ _ _ _ HG Hst Hq). by eauto 10.
    - left. by apply wref_inv in Hs as (y&n&W&st&_&_&_&_&_&->&_).
  Qed.
  Lemma nb_step x l x' : Good E (w_race x) -> NB x -> wstep E O x l = Next x' -> NB x'.
  Proof.
    intros HG HN Hs z Hz. pose proof (g_inv _ _ HG) as HI. pose proof (g_ser _ _ HG) as HS.
    assert (w_obj z < st_next (r_st (w_race x)) /\
      forall t q, pc_box (get_pc (r_st (w_race x)) t) = Some q -> w_obj z <> p_ser q) as [H1 H2].
    { destruct (wstep_writes x l x' HG Hs) as [Hw|(q&W&a&Hw&Hq&_)]; rewrite Hw in Hz; [by apply HN|].
      apply elem_of_app in Hz as [Hz| ->%elem_of_list_singleton]; [by apply HN|]. simpl. split.
      - destruct (table_deref _ _ HI q Hq) as (c&d&Hc&_). apply deref_Some in Hc as [Hc <-]. by eapply inv_ser.
      - intros t q' Hb. by eapply box_not_table. }
    destruct (wstep_arc x l x' Hs) as [(l'&Hst)| ->]; [|done].
    pose proof (proj1 (step_mono E _ _ _ Hst)). split; [lia|]. intros t q Hb.
    destruct (step_box E _ _ _ t q Hst Hb) as [Hb'|He]; [by eapply H2|lia].
  Qed.

  (** Every value of the count of an object that is alive is the number of handles in the state
      reached when it had been written. *)
  Definition Val (ls : list (wlabel V)) x : Prop := forall p w n W, 0 < whandles E x p ->
    value x (p_ser p) w = Some (n, W) ->
    exists ls1 ls2 x1, ls = ls1 ++ ls2 /\ run (wstep E O) winit ls1 = Some x1 /\
      length (writes_of x1 (p_ser p)) = w /\ n = N.of_nat (whandles E x1 p) /\ 0 < whandles E x1 p.

  Lemma writes_of_app x k ws : w_writes x = ws -> writes_of x k = obj_writes ws k.
  Proof. by intros <-. Qed.
  Lemma value_app x x' ws k w v : w_writes x' = w_writes x ++ ws -> value x' k w = Some v ->
    value x k w = Some v \/ exists i z, w = S (length (writes_of x k) + i) /\ obj_writes ws k !! i = Some z /\ v = (w_val z, w_pub z).
  Proof.
    intros Hw Hv. destruct w as [|w]; [by left|]. simpl in *.
    rewrite (writes_of_app _ _ _ Hw), obj_writes_app in Hv.
    destruct ((obj_writes (w_writes x) k ++ obj_writes ws k) !! w) as [z|] eqn:Hz; [|done].
    injection Hv as <-. apply lookup_app_Some in Hz as [Hz|[Hl Hz]].
    - left. change (writes_of x k) with (obj_writes (w_writes x) k). by rewrite Hz.
    - right. exists (w - length (writes_of x k)), z. split; [unfold writes_of, obj_writes in *; lia|done].
  Qed.

  Lemma val_step ls x l x' : run (wstep E O) winit ls = Some x -> Good E (w_race x) -> Fit E (w_race x) ->
    Good E (w_race x') -> Fit E (w_race x') ->
    wstep E O x l = Next x' -> NB x -> Val ls x -> Val (ls ++ [l]) x'.
  Proof.
    intros Hr HG Hf HG' Hf' Hs HN HV p w n W Hp Hv.
    assert (run (wstep E O) winit (ls ++ [l]) = Some x') as Hr'.
    { rewrite run_snoc, Hr. unfold exec. by rewrite Hs. }
    pose proof (g_inv _ _ HG) as HI. pose proof (g_inv _ _ HG') as HI'.
    assert (exists ws, w_writes x' = w_writes x ++ ws /\ forall z, z ∈ ws ->
      exists q W a, ws = [Write (p_ser q) (new_count (w_race x') q) W a] /\
      q ∈ st_table (r_st (w_race x)) /\ is_Some (deref (r_st (w_race x')) q)) as (ws&Hws&Hwz).
    { destruct (wstep_writes x l x' HG Hs) as [Hw|(q&W'&a&Hw&Hq&Hc)].
      - exists []. split; [by rewrite app_nil_r|]. intros z Hz. by apply elem_of_nil in Hz.
      - exists [Write (p_ser q) (new_count (w_race x') q) W' a]. split; [done|]. intros z _. by exists q, W', a. }
    pose proof (inv_hand _ _ HI' p Hp) as Hin'.
    (* what was just written *)
    assert (forall i z, obj_writes ws (p_ser p) !! i = Some z ->
      i = 0 /\ w_val z = N.of_nat (whandles E x' p) /\ obj_writes ws (p_ser p) = [z] /\ p ∈ st_table (r_st (w_race x))) as Hnew.
    { intros i z Hz. assert (z ∈ obj_writes ws (p_ser p)) as Hz' by (apply elem_of_list_lookup; eauto).
      apply elem_of_list_In, List.filter_In in Hz' as [Hz' He]. apply elem_of_list_In in Hz'.
      destruct (Hwz z Hz') as (q&W'&a&Hw&Hq&Hc). subst ws. apply elem_of_list_singleton in Hz'. subst z.
      simpl in He. rewrite obj_writes_one in Hz |- *. simpl in Hz |- *.
      assert (p_ser q = p_ser p) as Heq by lia. rewrite Heq, Nat.eqb_refl in *.
      apply list_lookup_singleton_Some in Hz as [-> _]. split; [done|].
      assert (p = q) as <- by (by eapply (same_ser (r_st (w_race x')) p q HI'); [apply HG'|..]).
      split; [|done]. simpl. unfold new_count. destruct Hc as (c&Hc). rewrite Hc.
      by destruct (cnt_live E _ p c HI' Hf' Hp Hc). }
    destruct (decide (p ∈ st_table (r_st (w_race x)))) as [Hin|Hnin].
    - (* it was alive before *)
      assert (0 < whandles E x p) as Hp0.
      { destruct (decide (whandles E x p = 0)) as [H0|]; [|lia].
        destruct (wstep_arc x l x' Hs) as [(l'&Hst)|He].
        - pose proof (dead_stays E HL _ _ _ p HI Hf Hst Hin H0). unfold whandles in Hp. lia.
        - unfold whandles in *. rewrite He in Hp. lia. }
      destruct (value_app x x' ws (p_ser p) w _ Hws Hv) as [Hv0|(i&z&->&Hz&[= -> ->])].
      + destruct (HV p w n W Hp0 Hv0) as (ls1&ls2&x1&->&H1&H2). exists ls1, (ls2 ++ [l]), x1.
        split; [by rewrite app_assoc|done].
      + destruct (Hnew i z Hz) as (->&Hval&Hone&_). exists (ls ++ [l]), [], x'.
        split; [by rewrite app_nil_r|]. split; [done|].
        rewrite (writes_of_app _ _ _ Hws), obj_writes_app, app_length, Hone. simpl.
        split; [unfold writes_of, obj_writes; lia|done].
    - (* it has just been inserted *)
      destruct (wstep_arc x l x' Hs) as [(l'&Hst)|He]; [|rewrite He in Hin'; done].
      destruct (step_table_new E _ _ _ p Hst Hnin Hin') as (t&a&i&k&v&->&Hpc).
      assert (obj_writes ws (p_ser p) = []) as Hno.
      { destruct (obj_writes ws (p_ser p)) as [|z l0] eqn:Hz; [done|]. by destruct (Hnew 0 z eq_refl) as (_&_&_&?). }
      assert (writes_of x (p_ser p) = []) as Hno0.
      { destruct (writes_of x (p_ser p)) as [|z l0] eqn:Hz; [done|].
        assert (In z (writes_of x (p_ser p))) as Hzin by (rewrite Hz; by left).
        apply List.filter_In in Hzin as [Hzin He]. apply elem_of_list_In in Hzin.
        destruct (HN z Hzin) as [_ HN']. specialize (HN' t p). rewrite Hpc in HN'. simpl in HN'.
        specialize (HN' eq_refl). lia. }
      destruct (value_app x x' ws (p_ser p) w _ Hws Hv) as [Hv0|(i'&z&_&Hz&_)]; [|by rewrite Hno in Hz].
      destruct w as [|w]; [|simpl in Hv0; by rewrite Hno0 in Hv0].
      injection Hv0 as <- <-. exists (ls ++ [l]), [], x'. split; [by rewrite app_nil_r|]. split; [done|].
      rewrite (writes_of_app _ _ _ Hws), obj_writes_app, Hno, app_nil_r.
      split; [change (length (writes_of x (p_ser p)) = 0); by rewrite Hno0|].
      pose proof (step_hc_of E _ _ _ p HI Hst) as Hle. simpl in Hle. rewrite Hpc, is_p_self in Hle.
      assert (hc (r_st (w_race x)) p = 0) as H0.
      { destruct (decide (hc (r_st (w_race x)) p = 0)); [done|]. destruct Hnin. apply (inv_hand _ _ HI). lia. }
      unfold whandles in *. split; [|done]. lia.
  Qed.

  (** The last value recorded is the number of handles there are. *)
  Definition Last x : Prop := forall p, 0 < whandles E x p ->
    exists W, value x (p_ser p) (length (writes_of x (p_ser p))) = Some (N.of_nat (whandles E x p), W).

  Lemma wstep_rmw x l x' : wstep E O x l = Next x' ->
    (exists l', step E (r_st (w_race x)) l' = Next (r_st (w_race x')) /\
      forall p, arc_rmw (r_st (w_race x)) l' = Some p -> exists z, w_writes x' = w_writes x ++ [z] /\ w_obj z = p_ser p) \/
    r_st (w_race x') = r_st (w_race x).
  Proof.
    intros Hs. destruct l as [l|t h ks w].
    - simpl in Hs. destruct (is_ref l) eqn:Hl; [done|]. destruct (rstep E O (w_race x) l) as [s'| | |] eqn:Hst; try done.
      injection Hs as <-. cbn [w_race w_writes]. pose proof (rstep_erase E O _ _ _ Hst) as He.
      assert (forall l', erase (w_race x) l = Some l' -> arc_rmw (r_st (w_race x)) l' = rmw_obj (w_race x) l) as Ha.
      { intros l' Hl'. destruct l as [t k v hs|t h|t h ks h'|t h|t h ks|t h ks|t ty|t ty|t a i h|t|t m|t m]; try done;
          cbn [erase] in Hl'; cbn [rmw_obj]; try (destruct (r_hands (w_race x) !! h)); by simplify_eq. }
      destruct (erase (w_race x) l) as [l'|]; [|by right]. left. exists l'. split; [done|].
      intros p Hp. rewrite (Ha l' eq_refl) in Hp. unfold record. rewrite Hp. by eauto.
    - apply wref_inv in Hs as (y&n&W&st&_&Hst&_&_&->&_). left. exists (LRef (h_ptr y) ks). rewrite Hst.
      split; [by destruct (acquires (o_load O))|done].
  Qed.

  Lemma last_step x l x' : Good E (w_race x) -> Fit E (w_race x) -> Good E (w_race x') -> Fit E (w_race x') ->
    wstep E O x l = Next x' -> NB x -> Last x -> Last x'.
  Proof.
    intros HG Hf HG' Hf' Hs HN HV p Hp.
    pose proof (g_inv _ _ HG) as HI. pose proof (g_inv _ _ HG') as HI'.
    pose proof (inv_hand _ _ HI' p Hp) as Hin'.
    destruct (table_deref _ _ HI' p Hin') as (c'&_&Hc'&_&_).
    destruct (cnt_live E _ p c' HI' Hf' Hp Hc') as [_ Hcnt']. fold (whandles E x' p) in Hcnt'.
    assert (w_writes x' = w_writes x \/ (exists z, w_writes x' = w_writes x ++ [z] /\ w_obj z <> p_ser p) \/
      exists W a, w_writes x' = w_writes x ++ [Write (p_ser p) (N.of_nat (whandles E x' p)) W a] /\
        p ∈ st_table (r_st (w_race x))) as Hw.
    { destruct (wstep_writes x l x' HG Hs) as [Hw|(q&W&a&Hw&Hq&Hc)]; [by left|right].
      destruct (decide (p_ser q = p_ser p)) as [He|He]; [|left; by eexists]. right.
      assert (p = q) as <- by (by eapply (same_ser (r_st (w_race x')) p q HI'); [apply HG'|..]).
      exists W, a. split; [|done]. rewrite Hw. unfold new_count. by rewrite Hc', Hcnt'. }
    assert (forall x1, writes_of x1 (p_ser p) = writes_of x (p_ser p) ->
      forall w, value x1 (p_ser p) w = value x (p_ser p) w) as Hval.
    { intros x1 H1 [|w]; [done|]. simpl. by rewrite H1. }
    destruct Hw as [Hw|[(z&Hw&Hz)|(W&a&Hw&Hin)]].
    3:{ (* just written *)
      exists W. rewrite (writes_of_app _ _ _ Hw), obj_writes_app, app_length, obj_writes_one. cbn [w_obj].
      rewrite Nat.eqb_refl. cbn [length]. rewrite Nat.add_1_r. cbn [value].
      rewrite (writes_of_app _ _ _ Hw), obj_writes_app, obj_writes_one. cbn [w_obj].
      rewrite Nat.eqb_refl. by rewrite list_lookup_middle. }
    all: assert (writes_of x' (p_ser p) = writes_of x (p_ser p)) as Hsame;
      [rewrite (writes_of_app _ _ _ Hw)|].
    1: done.
    2:{ rewrite obj_writes_app, obj_writes_one. destruct (w_obj z =? p_ser p) eqn:He; [lia|]. apply app_nil_r. }
    all: rewrite (Hval x' Hsame), Hsame.
    all: destruct (wstep_rmw x l x' Hs) as [(l'&Hst&Hr)|He];
      [|unfold whandles in *; rewrite He in *; by apply HV].
    all: destruct (decide (p ∈ st_table (r_st (w_race x)))) as [Hin|Hnin].
    all: try (assert (0 < whandles E x p) as Hp0;
      [destruct (decide (whandles E x p = 0)) as [H0|]; [|lia];
       pose proof (dead_stays E HL _ _ _ p HI Hf Hst Hin H0); unfold whandles in Hp; lia|]).
    all: try (destruct (table_deref _ _ HI p Hin) as (c&_&Hc&_&_);
      destruct (cnt_live E _ p c HI Hf Hp0 Hc) as [_ Hcnt]; fold (whandles E x p) in Hcnt;
      assert (c_count c' = c_count c) as Heq).
    1,4: apply (count_same E _ _ _ p c c' HI Hst Hin Hc Hc'); intros Hp'; apply Hr in Hp' as (z'&Hz'&He); rewrite Hw in Hz'.
    1: { apply (f_equal length) in Hz'. rewrite app_length in Hz'. simpl in Hz'. lia. }
    1: { apply app_inj_tail in Hz' as [_ <-]. done. }
    1,3: assert (whandles E x' p = whandles E x p) as -> by lia; by apply HV.
    all: destruct (step_table_new E _ _ _ p Hst Hnin Hin') as (t&a&i&k&v&->&Hpc).
    all: assert (writes_of x (p_ser p) = []) as Hno0 by
      (destruct (writes_of x (p_ser p)) as [|z0 l0] eqn:Hz0; [done|];
        assert (In z0 (writes_of x (p_ser p))) as Hzin by (rewrite Hz0; by left);
        apply List.filter_In in Hzin as [Hzin He]; apply elem_of_list_In in Hzin;
        destruct (HN z0 Hzin) as [_ HN']; specialize (HN' t p); rewrite Hpc in HN'; simpl in HN';
        specialize (HN' eq_refl); lia).
    all: rewrite Hno0; exists ∅; simpl.
    all: pose proof (step_hc_of E _ _ _ p HI Hst) as Hle; simpl in Hle; rewrite Hpc, is_p_self in Hle.
    all: assert (hc (r_st (w_race x)) p = 0) as H0 by
      (destruct (decide (hc (r_st (w_race x)) p = 0)); [done|]; destruct Hnin; apply (inv_hand _ _ HI); lia).
    all: unfold whandles in *; do 2 f_equal; lia.
  Qed.

  Lemma val_run ls x : wbounded E O ls -> run (wstep E O) winit ls = Some x -> NB x /\ Val ls x /\ Last x.
  Proof.
    revert x. induction ls as [|l ls IH] using rev_ind; intros x Hb Hr.
    - injection Hr as <-. split; [|split].
      + intros z Hz. by apply elem_of_nil in Hz.
      + intros p w n W Hp. unfold whandles, handles_to in Hp. simpl in Hp. rewrite !msum_empty in Hp. lia.
      + intros p Hp. unfold whandles, handles_to in Hp. simpl in Hp. rewrite !msum_empty in Hp. lia.
    - pose proof (wbounded_app E O _ _ Hb) as Hb0. rewrite run_snoc in Hr.
      destruct (wrun_good E O HL HW Hacq Hrel ls Hb0) as (x0&Hr0&HG0). rewrite Hr0 in Hr.
      destruct (IH x0 Hb0 Hr0) as (HN&HV&HT). unfold exec in Hr.
      assert (Val (ls ++ [l]) x0) as HV'.
      { intros p w n W Hp Hv. destruct (HV p w n W Hp Hv) as (ls1&ls2&x1&->&H1). exists ls1, (ls2 ++ [l]), x1.
        split; [by rewrite app_assoc|done]. }
      destruct (wstep E O x0 l) as [x'| | |] eqn:Hs; [|by injection Hr as <-..|done]. injection Hr as <-.
      pose proof (wbounded_fit E O _ _ Hb0 Hr0) as Hf0.
      assert (run (wstep E O) winit (ls ++ [l]) = Some x') as Hr' by (rewrite run_snoc, Hr0; unfold exec; by rewrite Hs).
      pose proof (wbounded_fit E O _ _ Hb Hr') as Hf1.
      destruct (wrun_good E O HL HW Hacq Hrel _ Hb) as (x1&Hr1&HG1). assert (x1 = x') as -> by congruence.
      split; [exact (nb_step x0 l x' HG0 HN Hs)|].
      split; [exact (val_step ls x0 l x' Hr0 HG0 Hf0 HG1 Hf1 Hs HN HV)|].
      exact (last_step x0 l x' HG0 Hf0 HG1 Hf1 Hs HN HT).
  Qed.

  (** What [refcount()] returns was the number of handles when the value was written. *)
  Theorem weak_value ls x t h ks w x' y : wbounded E O ls -> run (wstep E O) winit ls = Some x ->
    r_hands (w_race x) !! h = Some y -> wstep E O x (WRef t h ks w) = Next x' ->
    let p := target (h_ptr y) ks in
    exists ls1 ls2 x1, ls = ls1 ++ ls2 /\ run (wstep E O) winit ls1 = Some x1 /\
      w_got x' = w_got x ++ [(t, p, N.of_nat (whandles E x1 p))] /\
      0 < whandles E x1 p /\ rmws (p_ser p) (wevents E O ls1) = w.
  Proof.
    intros Hb Hr Hy Hs p. pose proof Hs as (y'&n&W&st&Hm&Hst&Hv&Hc&_&_&Hg)%wref_inv.
    apply may_use_inv in Hm as (_&Hy'&_). assert (y' = y) as -> by congruence. fold p in Hv, Hg, Hc.
    destruct (wrun_good E O HL HW Hacq Hrel ls Hb) as (x0&Hr0&HG). assert (x0 = x) as -> by congruence.
    apply lref_inv in Hst as (c&Hbo&_&_). fold p in Hbo.
    destruct (borrow_live E (r_st (w_race x)) (h_ptr y) ks (g_inv _ _ HG)) as [_ Hbl]. specialize (Hbl _ Hbo).
    destruct (val_run ls x Hb Hr) as (_&HV&_). destruct (HV p w n W Hbl Hv) as (ls1&ls2&x1&->&Hr1&Hw&->&Hpos).
    exists ls1, ls2, x1. split; [done|]. split; [done|]. split; [done|]. split; [done|].
    rewrite <- Hw. symmetry. apply (hi_len _ _ _ _ (whist E O ls1 x1 Hr1)).
  Qed.
End val.

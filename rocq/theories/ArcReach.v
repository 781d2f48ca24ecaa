(** Consequences of the invariant for reachable states of the ArcIntern model. *)
From stdpp Require Import gmap list numbers.
From Verif Require Import Base ArcModel ArcSpec ArcInv ArcStep ArcSafe.
Require Import ZifyBool ZifyNat ZifyN.

Section reach.
  Context {V : Type} (E : tyenv V).
  Implicit Types (st : state V) (v d : V) (p q : ptr) (ls : list (label V)).
  Notation hc := (handles_to E).

  Lemma bounded_app ls1 ls2 : bounded E (ls1 ++ ls2) -> bounded E ls1.
  Proof.
    intros Hb l1 l2 st1 -> Hr p. eapply (Hb l1 (l2 ++ ls2)); [by rewrite app_assoc|done].
  Qed.
  Lemma bounded_fits ls st : bounded E ls -> run (step E) init ls = Some st -> fits E st.
  Proof. intros Hb Hr p. eapply (Hb ls []); [by rewrite app_nil_r|done]. Qed.

  (** ** Facts about single steps that do not need the invariant *)

  (** What is stored in an allocation never changes while it is alive. *)
  Lemma step_data_stable st l st' p d :
    step E st l = Next st' -> p_ser p < st_next st -> data st' p = Some d -> data st p = Some d.
  Proof.
    intros Hs Hp Hd.
    assert (forall st1 q c, deref st q = Some c ->
              st_heap st1 = <[p_addr q := Cell (c_ser c) (c_count c) None]> (st_heap st) ->
              data st1 p = Some d -> data st p = Some d) as Htake.
    { intros st1 q c [Hq _]%deref_Some Hh Hd1. unfold data, deref in *. rewrite Hh in Hd1.
      destruct (decide (p_addr q = p_addr p)) as [He|].
      - rewrite He, lookup_insert in Hd1. simpl in Hd1. by destruct (c_ser c =? p_ser p).
      - by rewrite lookup_insert_ne in Hd1. }
    assert (forall st1 q, st_heap st1 = delete (p_addr q) (st_heap st) ->
              data st1 p = Some d -> data st p = Some d) as Hfree.
    { intros st1 q Hh Hd1. unfold data, deref in *. rewrite Hh in Hd1.
      destruct (decide (p_addr q = p_addr p)) as [He|].
      - by rewrite He, lookup_delete in Hd1.
      - by rewrite lookup_delete_ne in Hd1. }
    assert (forall st1 q c n, deref st q = Some c ->
              st_heap st1 = <[p_addr q := Cell (c_ser c) n (c_data c)]> (st_heap st) ->
              data st1 p = Some d -> data st p = Some d) as Hcount.
    { intros st1 q c n Hq Hh Hd1. rewrite <- (data_set_count st q c n p Hq). rewrite <- Hd1.
      symmetry. apply data_ext. by rewrite Hh. }
    assert (forall st1 a v, st_heap st1 = <[a := Cell (st_next st) 1%N (Some v)]> (st_heap st) ->
              data st1 p = Some d -> data st p = Some d) as Halloc.
    { intros st1 a v Hh Hd1. unfold data, deref in *. rewrite Hh in Hd1.
      destruct (decide (a = p_addr p)) as [He|].
      - rewrite He, lookup_insert in Hd1. simpl in Hd1.
        rewrite (proj2 (Nat.eqb_neq _ _)) in Hd1 by lia. done.
      - by rewrite lookup_insert_ne in Hd1. }
    destruct l as [t k v|t q|q ks|q|q ks|q ks|t ty|t ty|t a i|t]; simpl in Hs.
    - destruct (get_pc st t); try done. destruct k.
      + destruct rem_all; [|done]. (injection Hs as <-; exact Hd).
      + destruct te_kids; [|done]. (injection Hs as <-; exact Hd).
    - destruct (get_pc st t); try done. destruct rem1; [|done]. (injection Hs as <-; exact Hd).
    - destruct (borrow E st q ks) as [k| | |]; try done.
      destruct (deref st k) as [c|] eqn:Hc; [|done]. injection Hs as <-. (refine (Hcount _ _ _ _ Hc _ Hd); reflexivity).
    - destruct rem1; [|done]. (injection Hs as <-; exact Hd).
    - destruct (borrow E st q ks) as [k| | |]; try done. destruct (deref st k); [|done].
      (injection Hs as <-; exact Hd).
    - destruct (borrow E st q ks) as [k| | |]; try done. destruct (data st k); [|done].
      (injection Hs as <-; exact Hd).
    - destruct (get_pc st t); try done. (injection Hs as <-; exact Hd).
    - destruct (get_pc st t); try done. (injection Hs as <-; exact Hd).
    - unfold step_thread in Hs.
      destruct (get_pc st t) as [|k v b|k v b q|k v b q old|k v b q|k v b|k v q|k v q|k v q|k v q|l q w r|w r|ty j acc|ty j]; try done.
      + destruct (st_locks st !! lock_of E v); [done|]. destruct readable; [|done].
        destruct pick; (injection Hs as <-; exact Hd).
      + destruct (deref st q) as [c|] eqn:Hc; [|done]. injection Hs as <-. (refine (Hcount _ _ _ _ Hc _ Hd); reflexivity).
      + destruct (old =? 0)%N; [|(injection Hs as <-; exact Hd)].
        destruct (deref st q) as [c|] eqn:Hc; [|done]. injection Hs as <-. (refine (Hcount _ _ _ _ Hc _ Hd); reflexivity).
      + (injection Hs as <-; exact Hd).
      + destruct k, b; try ((injection Hs as <-; exact Hd)); destruct (st_heap st !! a) eqn:Ha; try done;
          injection Hs as <-; (refine (Halloc _ _ _ _ Hd); reflexivity).
      + destruct (data st q) as [d0|]; [|done]. destruct (st_locks st !! lock_of E d0); [done|].
        destruct readable; [|done]. destruct pick; (injection Hs as <-; exact Hd).
      + (injection Hs as <-; exact Hd).
      + destruct k; [|(injection Hs as <-; exact Hd)].
        destruct (deref st q) as [c|]; [|done]. destruct (c_data c); [|done].
        injection Hs as <-. (refine (Hfree _ q _ Hd); reflexivity).
      + (injection Hs as <-; exact Hd).
      + destruct (deref st q) as [c|] eqn:Hc; [|done]. destruct (c_data c); [|done].
        injection Hs as <-. (refine (Htake _ _ _ Hc _ Hd); reflexivity).
      + destruct w as [|[q|q|q] w].
        * destruct r as [[v q]|]; (injection Hs as <-; exact Hd).
        * destruct (deref st q) as [c|] eqn:Hc; [|done]. injection Hs as <-. (refine (Hcount _ _ _ _ Hc _ Hd); reflexivity).
        * destruct (data st q) as [d0|]; [|done]. destruct (st_locks st !! lock_of E d0); [done|].
          destruct readable; [|done]. destruct pick; (injection Hs as <-; exact Hd).
        * destruct (deref st q) as [c|]; [|done]. injection Hs as <-. (refine (Hfree _ q _ Hd); reflexivity).
      + destruct (j <? te_shards E); [|(injection Hs as <-; exact Hd)].
        destruct (st_locks st !! (ty, j)); [done|]. (injection Hs as <-; exact Hd).
      + destruct (j <? te_shards E); [|(injection Hs as <-; exact Hd)].
        destruct (st_locks st !! (ty, j)); [done|]. (injection Hs as <-; exact Hd).
    - unfold step_panic in Hs.
      destruct (get_pc st t) as [|k v b|k v b q|k v b q old|k v b q|k v b|k v q|k v q|k v q|k v q|l q w r|w r|ty j acc|ty j]; try done.
      + (injection Hs as <-; exact Hd).
      + destruct (deref st q) as [c|] eqn:Hc; [|done]. destruct (c_data c); [|done].
        injection Hs as <-. (refine (Htake _ _ _ Hc _ Hd); reflexivity).
      + destruct w as [|[q|q|q] w]; try done. (injection Hs as <-; exact Hd).
  Qed.

  (** Serials only grow; the log only grows; removals are only abandoned by panics. *)
  Lemma step_mono st l st' :
    step E st l = Next st' ->
    st_next st <= st_next st' /\
    (st_log st' = st_log st \/ exists e, st_log st' = e :: st_log st) /\
    (st_zombies st' = st_zombies st \/ is_panic l /\ exists p, st_zombies st' = p :: st_zombies st).
  Proof.
    intros Hs.
    destruct l as [t k v|t q|q ks|q|q ks|q ks|t ty|t ty|t a i|t]; simpl in Hs;
      unfold step_thread, step_panic in Hs;
      repeat (match goal with
              | H : Next _ = Next _ |- _ => injection H as <-
              | H : (match ?x with _ => _ end) = Next _ |- _ => destruct x eqn:?; try done
              end); simpl; eauto 10.
  Qed.

  (** ** Reachable states satisfy the invariant *)
  Section lawful.
  Context (HL : coherent E) (HW : wide E).

  (** Every step creates at most one handle, and only these create one. *)
  Definition creates st (l : label V) : nat :=
    match l with
    | LClone _ _ => 1
    | LStep t _ _ =>
        match get_pc st t with
        | PHit _ _ _ q => match deref st q with
                          | Some c => if (c_count c =? 0)%N then 0 else 1
                          | None => 0 end
        | PVac _ _ _ => 1
        | _ => 0
        end
    | _ => 0
    end.
  Lemma step_hc st l st' p :
    Inv E st -> step E st l = Next st' -> hc st' p <= hc st p + creates st l.
  Proof.
    intros HI. destruct l as [t k v|t q|q ks|q|q ks|q ks|t ty|t ty|t a i|t]; simpl.
    - destruct (get_pc st t) eqn:Hpc; try done. destruct k.
      + destruct rem_all as [pl|] eqn:Hr; [|done]. intros [= <-]. unfold handles_to. simpl.
        pose proof (tsum_set (pc_handles E p) st t (PLookup KSized v None) eq_refl) as H1.
        rewrite Hpc in H1. simpl in H1. pose proof (rem_all_occ _ _ _ p Hr). lia.
      + destruct te_kids; [|done]. intros [= <-]. unfold handles_to. simpl.
        pose proof (tsum_set (pc_handles E p) st t (PLookup KDst v None) eq_refl) as H1.
        rewrite Hpc in H1. simpl in H1. lia.
    - destruct (get_pc st t) eqn:Hpc; try done. destruct rem1 as [pl|] eqn:Hr; [|done].
      intros [= <-]. unfold handles_to. simpl.
      pose proof (tsum_set (pc_handles E p) st t (PWork [IDrop q] None) eq_refl) as H1.
      rewrite Hpc in H1. simpl in H1. pose proof (rem1_occ _ _ _ p Hr).
      unfold is_p in *. case_bool_decide; destruct (decide (q = p)); simpl in *; try done; lia.
    - destruct (borrow E st q ks) as [k| | |]; try done.
      destruct (deref st k) as [c|] eqn:Hc; [|done]. intros [= <-].
      pose proof (hc_set_count E st k c (count_inc E (c_count c)) p Hc) as H1.
      unfold handles_to in H1 |- *. simpl in H1 |- *. destruct (decide (k = p)); lia.
    - destruct rem1 as [pl|] eqn:Hr; [|done]. intros [= <-]. unfold handles_to. simpl.
      pose proof (rem1_occ _ _ _ p Hr). lia.
    - destruct (borrow E st q ks) as [k| | |]; try done. destruct (deref st k); [|done].
      intros [= <-]. unfold handles_to. simpl. lia.
    - destruct (borrow E st q ks) as [k| | |]; try done. destruct (data st k); [|done].
      intros [= <-]. unfold handles_to. simpl. lia.
    - destruct (get_pc st t) eqn:Hpc; try done. intros [= <-]. unfold handles_to. simpl.
      pose proof (tsum_set (pc_handles E p) st t (PLen ty 0 0) eq_refl) as H1.
      rewrite Hpc in H1. simpl in H1. lia.
    - destruct (get_pc st t) eqn:Hpc; try done. intros [= <-]. unfold handles_to. simpl.
      pose proof (tsum_set (pc_handles E p) st t (PShrink ty 0) eq_refl) as H1.
      rewrite Hpc in H1. simpl in H1. lia.
    - unfold step_thread. pose proof (inv_pc _ _ HI t) as Hok.
      assert (forall x, hc (set_pc st t x) p + pc_handles E p (get_pc st t) = hc st p + pc_handles E p x) as HS.
      { intros x. apply hc_set_pc. }
      assert (forall q c n x, deref st q = Some c ->
        hc (set_pc (set_count st q c n) t x) p + pc_handles E p (get_pc st t)
        = hc st p + pc_handles E p x) as HC.
      { intros q c n x Hc. rewrite <- (hc_set_count E st q c n p Hc).
        apply (hc_set_pc E (set_count st q c n)). }
      assert (forall s, is_p p s <= 1) as Hle by (intros; unfold is_p, b2n; case_match; lia).
      destruct (get_pc st t) as [|k v b|k v b q|k v b q old|k v b q|k v b|k v q|k v q|k v q|k v q|l q w r|w r|ty j acc|ty j] eqn:Hpc;
        simpl in Hok; try done; simpl in HC, HS.
      + destruct (st_locks st !! lock_of E v); [done|]. destruct readable; [|done].
        destruct pick as [q|]; intros [= <-].
        * specialize (HS (PHit k v b q)). simpl in HS. unfold handles_to in *. simpl in *. lia.
        * specialize (HS (PAlloc k v b)). simpl in HS. lia.
      + destruct (deref st q) as [c|] eqn:Hc; [|done]. intros [= <-].
        specialize (HC _ _ (count_inc E (c_count c)) (PInc k v b q (c_count c)) Hc). simpl in HC. specialize (Hle q).
        destruct (c_count c =? 0)%N; lia.
      + destruct (old =? 0)%N.
        * destruct (deref st q) as [c|] eqn:Hc; [|done]. intros [= <-].
          specialize (HC _ _ (count_dec E (c_count c)) (PUndo k v b q) Hc). simpl in HC. lia.
        * intros [= <-]. specialize (HS (PWork (drop_args E k v b) (Some (v, q)))). simpl in HS.
          rewrite drop_args_handles in HS. unfold handles_to in *. simpl in *. lia.
      + intros [= <-]. specialize (HS (PLookup k v b)). unfold handles_to in *. simpl in *. lia.
      + assert (forall x, match st_heap st !! a with Some _ => Illegal | None =>
           Next (set_pc (alloc st a v) t (PEntry k v (Ptr a (st_next st)))) end = Next x ->
           hc x p <= hc st p + 0) as Hal.
        { intros x. destruct (st_heap st !! a) eqn:Ha; [done|]. intros [= <-].
          pose proof (tsum_set (pc_handles E p) st t (PEntry k v (Ptr a (st_next st))) eq_refl) as H1.
          rewrite Hpc in H1. simpl in H1. unfold handles_to. simpl.
          rewrite (msum_insert_None _ _ _ _ Ha). unfold cell_handles at 1. simpl.
          destruct k; simpl in *; [lia|]. rewrite (proj1 Hok). simpl. lia. }
        destruct k, b as [q|]; try apply Hal.
        intros [= <-]. specialize (HS (PEntry KDst v q)). simpl in HS. lia.
      + destruct (data st q) as [d0|]; [|done]. destruct (st_locks st !! lock_of E d0); [done|].
        destruct readable; [|done]. destruct pick as [q'|]; intros [= <-].
        * specialize (HS (POcc k v q)). unfold handles_to in *. simpl in *. lia.
        * specialize (HS (PVac k v q)). unfold handles_to in *. simpl in *. lia.
      + intros [= <-]. specialize (HS (PIns k v q)). specialize (Hle q).
        unfold handles_to in *. simpl in *. lia.
      + destruct k; intros Hs.
        * destruct Hok as [Hb _]. unfold box_ok in Hb. rewrite Hb in Hs. simpl in Hs. injection Hs as <-.
          apply deref_Some in Hb as [Hb _].
          specialize (HS (PLookup KSized v None)). unfold handles_to in *. simpl in *.
          pose proof (msum_delete (cell_handles E p) _ _ _ Hb) as Hm.
          change (cell_handles E p (Cell (p_ser q) 1%N (Some v))) with (occ p (te_kids E v)) in Hm. lia.
        * injection Hs as <-. specialize (HS (PLookup KDst v (Some q))).
          unfold handles_to in *. simpl in *. lia.
      + intros [= <-]. specialize (HS (PWork [] (Some (v, q)))). unfold handles_to in *. simpl in *. lia.
      + destruct (deref st q) as [c|] eqn:Hc; [|done]. destruct (c_data c) as [d|] eqn:Hd; [|done].
        intros [= <-]. apply deref_Some in Hc as [Hc _].
        specialize (HS (PWork (drop_box E d q ++ w) r)).
        pose proof (msum_insert_Some (cell_handles E p) (st_heap st) _
                    (Cell (c_ser c) (c_count c) None) c Hc) as H2.
        unfold cell_handles in H2 at 2 3. rewrite Hd in H2. simpl in H2.
        unfold handles_to in *. simpl in *. unfold drop_box in *.
        rewrite !work_handles_app, work_handles_drops in HS. simpl in HS.
        unfold drop_box. lia.
      + destruct w as [|[q|q|q] w].
        * destruct r as [[v q]|]; intros [= <-]; specialize (HS PFree); unfold handles_to in *; simpl in *.
          -- unfold is_p in HS. case_bool_decide; destruct (decide (q = p)); simpl in *; try done; lia.
          -- lia.
        * destruct (deref st q) as [c|] eqn:Hc; [|done]. intros [= <-].
          specialize (HC _ _ (count_dec E (c_count c)) (PWork (if (c_count c =? 1)%N then IRemove q :: w else w) r) Hc).
          destruct (c_count c =? 1)%N; simpl in *; lia.
        * destruct (data st q) as [d0|]; [|done]. destruct (st_locks st !! lock_of E d0); [done|].
          destruct readable; [|done]. destruct pick as [q'|]; intros [= <-].
          -- specialize (HS (PRem (lock_of E d0) q' w r)). unfold handles_to in *. simpl in *. lia.
          -- specialize (HS (PWork w r)). unfold handles_to in *. simpl in *. lia.
        * destruct (deref st q) as [c|] eqn:Hc; [|done]. intros [= <-].
          apply deref_Some in Hc as [Hc _].
          specialize (HS (PWork w r)). unfold handles_to in *. simpl in *.
          pose proof (msum_delete (cell_handles E p) _ _ _ Hc). lia.
      + destruct (j <? te_shards E).
        * destruct (st_locks st !! (ty, j)); [done|]. intros [= <-].
          match goal with |- context [set_pc st t ?x] => specialize (HS x) end. simpl in *. lia.
        * intros [= <-]. specialize (HS PFree). unfold handles_to in *. simpl in *. lia.
      + destruct (j <? te_shards E).
        * destruct (st_locks st !! (ty, j)); [done|]. intros [= <-].
          specialize (HS (PShrink ty (S j))). simpl in *. lia.
        * intros [= <-]. specialize (HS PFree). simpl in *. lia.
    - unfold step_panic. pose proof (inv_pc _ _ HI t) as Hok.
      assert (forall x, hc (set_pc st t x) p + pc_handles E p (get_pc st t) = hc st p + pc_handles E p x) as HS.
      { intros x. apply hc_set_pc. }
      destruct (get_pc st t) as [|k v b|k v b q|k v b q old|k v b q|k v b|k v q|k v q|k v q|k v q|l q w r|w r|ty j acc|ty j] eqn:Hpc;
        simpl in Hok; try done; simpl in HS.
      + intros [= <-]. specialize (HS (PWork (drop_args E k v b) None)). simpl in HS.
        rewrite drop_args_handles in HS. lia.
      + destruct (deref st q) as [c|] eqn:Hc; [|done]. destruct (c_data c) as [d|] eqn:Hd; [|done].
        intros [= <-]. apply deref_Some in Hc as [Hc _].
        specialize (HS (PWork (drop_box E d q) None)).
        pose proof (msum_insert_Some (cell_handles E p) (st_heap st) _
                    (Cell (c_ser c) (c_count c) None) c Hc) as H2.
        unfold cell_handles in H2 at 2 3. rewrite Hd in H2. simpl in H2.
        unfold handles_to in *. simpl in *. unfold drop_box in *.
        rewrite !work_handles_app, work_handles_drops in HS. simpl in HS. lia.
      + destruct w as [|[q|q|q] w]; try done. intros [= <-].
        specialize (HS (PWork (w ++ match r with Some (_, x) => [IDrop x] | None => [] end) None)).
        unfold handles_to in *. simpl in *. rewrite work_handles_app in HS.
        destruct r as [[v x]|]; simpl in *; lia.
  Qed.

  Theorem run_safe ls : bounded E ls -> exists st, run (step E) init ls = Some st /\ Inv E st.
  Proof.
    induction ls as [|l ls IH] using rev_ind; intros Hb.
    - exists init. split; [done|]. by apply inv_init.
    - destruct (IH (bounded_app _ _ Hb)) as (st&Hr&HI). rewrite run_snoc, Hr. unfold exec.
      destruct (step E st l) as [st'| | |] eqn:Hs; [|by eauto..|].
      + exists st'. split; [done|]. eapply step_inv; [done..| |exact Hs].
        eapply (bounded_fits ls); [by eapply bounded_app|done].
      + exfalso. by apply (step_no_ub E st l).
  Qed.

  Lemma run_Inv ls st : bounded E ls -> run (step E) init ls = Some st -> Inv E st.
  Proof. intros Hb Hr. destruct (run_safe ls Hb) as (?&?&?). congruence. Qed.

  (** Executions with fewer than 2^W steps are bounded. *)
  Theorem short_bounded ls : (N.of_nat (length ls) < te_mod E)%N -> bounded E ls.
  Proof.
    assert (forall n ls, length ls = n -> (N.of_nat n < te_mod E)%N ->
      bounded E ls /\ forall st p, run (step E) init ls = Some st -> hc st p <= n) as H.
    { clear ls. induction n as [|n IH]; intros ls Hlen Hn.
      - apply nil_length_inv in Hlen as ->.
        assert (forall st p, run (step E) init [] = Some st -> hc st p <= 0) as H0.
        { simpl. intros st p [= <-]. unfold handles_to. simpl. by rewrite !msum_empty. }
        split; [|done]. intros l1 l2 st1 He Hr p. symmetry in He. apply app_eq_nil in He as [-> _].
        specialize (H0 st1 p Hr). lia.
      - destruct ls as [|l ls] using rev_ind; [done|]. rewrite app_length in Hlen. simpl in Hlen.
        destruct (IH ls) as [Hb Hle]; [lia..|].
        assert (forall st p, run (step E) init (ls ++ [l]) = Some st -> hc st p <= S n) as H1.
        { intros st p. rewrite run_snoc. destruct (run (step E) init ls) as [st1|] eqn:Hr1; [|done].
          pose proof (run_Inv ls st1 Hb Hr1) as HI. specialize (Hle st1 p eq_refl).
          unfold exec. destruct (step E st1 l) as [st2| | |] eqn:Hs; try done; intros [= <-]; try lia.
          pose proof (step_hc st1 l st2 p HI Hs).
          assert (creates st1 l <= 1) by (unfold creates; repeat case_match; lia). lia. }
        split; [|done]. intros l1 l2 st1 He Hr p.
        destruct l2 as [|l' l2 _] using rev_ind.
        + rewrite app_nil_r in He. subst. specialize (H1 st1 p Hr). lia.
        + rewrite app_assoc in He. apply app_inj_tail in He as [-> ->]. by eapply Hb. }
    intros Hl. eapply H; [reflexivity|done].
  Qed.

  (** ** Reading through handles *)
  Definition log_ok st : Prop :=
    (forall p d, EvDeref p d ∈ st_log st -> p_ser p < st_next st /\
       (forall d', data st p = Some d' -> d' = d)) /\
    (forall p d d', EvDeref p d ∈ st_log st -> EvDeref p d' ∈ st_log st -> d = d') /\
    (forall t v p d, EvNew t v p ∈ st_log st -> EvDeref p d ∈ st_log st -> te_eq E v d = true).

  Lemma step_event st l st' : Inv E st -> step E st l = Next st' ->
    st_log st' = st_log st \/
    exists e, st_log st' = e :: st_log st /\ st_next st' = st_next st /\
      (forall p, data st' p = data st p) /\
      match e with
      | EvNew t v p => p ∈ st_pool st' /\ 0 < hc st p /\
          exists d, data st p = Some d /\ te_eq E v d = true
      | EvDeref p d => 0 < hc st p /\ data st p = Some d
      | EvRef p n => 0 < hc st p /\ exists c, deref st p = Some c /\ c_count c = n
      | EvLen t ty n => True
      end.
  Proof.
    intros HI. destruct l as [t k v|t q|q ks|q|q ks|q ks|t ty|t ty|t a i|t]; simpl.
    - destruct (get_pc st t); try done. destruct k.
      + destruct rem_all; [|done]. intros [= <-]. by left.
      + destruct te_kids; [|done]. intros [= <-]. by left.
    - destruct (get_pc st t); try done. destruct rem1; [|done]. intros [= <-]. by left.
    - destruct (borrow E st q ks); try done. destruct (deref st s); [|done]. intros [= <-]. by left.
    - destruct rem1; [|done]. intros [= <-]. by left.
    - destruct (borrow_live E st q ks HI) as [_ Hb].
      destruct (borrow E st q ks) as [k| | |]; try done. destruct (deref st k) as [c|] eqn:Hc; [|done].
      intros [= <-]. right. eexists. split; [done|]. simpl. split_and!; try done; [by apply Hb|].
      by exists c.
    - destruct (borrow_live E st q ks HI) as [_ Hb].
      destruct (borrow E st q ks) as [k| | |]; try done. destruct (data st k) as [d|] eqn:Hc; [|done].
      intros [= <-]. right. eexists. split; [done|]. simpl. split_and!; try done. by apply Hb.
    - destruct (get_pc st t); try done. intros [= <-]. by left.
    - destruct (get_pc st t); try done. intros [= <-]. by left.
    - unfold step_thread. pose proof (inv_pc _ _ HI t) as Hok.
      destruct (get_pc st t) as [|k v b|k v b q|k v b q old|k v b q|k v b|k v q|k v q|k v q|k v q|l q w r|w r|ty j acc|ty j] eqn:Hpc;
        simpl in Hok; try done; intros Hs;
        try (left;
          repeat (match goal with
              | H : Next _ = Next _ |- _ => injection H as <-
              | H : (match ?x with _ => _ end) = Next _ |- _ => destruct x; try done
              end); reflexivity).
      + destruct w as [|[p|p|q] w];
        try (left;
          repeat (match goal with
              | H : Next _ = Next _ |- _ => injection H as <-
              | H : (match ?x with _ => _ end) = Next _ |- _ => destruct x; try done
              end); reflexivity).
        destruct r as [[v p]|]; injection Hs as <-; [|by left].
        right. eexists. split; [done|]. simpl. destruct Hok as [_ Hret].
        split_and!; try done; [by left| |by apply Hret].
        eapply ret_hc. left. eauto.
      + destruct (j <? te_shards E).
        * destruct (st_locks st !! (ty, j)); [done|]. injection Hs as <-. by left.
        * injection Hs as <-. right. eexists. split; [done|]. done.
    - intros Hs. left. unfold step_panic in Hs.
      repeat (match goal with
              | H : Next _ = Next _ |- _ => injection H as <-
              | H : (match ?x with _ => _ end) = Next _ |- _ => destruct x; try done
              end); reflexivity.
  Qed.

  Lemma step_log st l st' : Inv E st -> step E st l = Next st' -> log_ok st -> log_ok st'.
  Proof.
    intros HI Hs (H1&H2&H3). pose proof (step_mono st l st' Hs) as (Hn&_&_).
    destruct (step_event st l st' HI Hs) as [Hl|(e&Hl&Hn'&Hd&He)]; unfold log_ok; rewrite Hl.
    - split_and!; [|done|done]. intros p d Hin. destruct (H1 p d Hin) as [Hp Hdd].
      split; [lia|]. intros d' Hd'. apply Hdd. by eapply step_data_stable.
    - assert (forall p, 0 < hc st p -> p_ser p < st_next st) as Hser by (intros; by eapply hand_ser).
      assert (forall p d, EvDeref p d ∈ e :: st_log st ->
                p_ser p < st_next st /\ forall d', data st p = Some d' -> d' = d) as H1'.
      { intros p d [<-|Hin]%elem_of_cons; [|by apply H1]. destruct He as [Hp Hdp].
        split; [by apply Hser|]. congruence. }
      split_and!.
      + intros p d Hin. destruct (H1' p d Hin) as [Hp Hdd]. split; [lia|].
        intros d'. rewrite Hd. auto.
      + intros p d d' Hin Hin'.
        apply elem_of_cons in Hin as [<-|Hin], Hin' as [Heq|Hin'].
        * congruence.
        * destruct He as [_ He]. by apply (H1 p d' Hin').
        * subst e. destruct He as [_ He]. symmetry. by apply (H1 p d Hin).
        * by eapply H2.
      + intros t v p d Hin Hin'.
        apply elem_of_cons in Hin as [<-|Hin], Hin' as [Heq|Hin'].
        * done.
        * destruct He as (_&_&d0&Hd0&He). destruct (H1 p d Hin') as [_ Hx]. by rewrite <- (Hx d0).
        * subst e. destruct He as [_ He]. by apply (inv_log _ _ HI t v p Hin).
        * by eapply H3.
  Qed.

  Lemma run_log ls st : bounded E ls -> run (step E) init ls = Some st -> log_ok st.
  Proof.
    revert st. induction ls as [|l ls IH] using rev_ind; intros st Hb.
    - simpl. intros [= <-]. unfold log_ok. simpl. split_and!; by intros * ?%elem_of_nil.
    - rewrite run_snoc. pose proof (bounded_app _ _ Hb) as Hb1.
      destruct (run (step E) init ls) as [st1|] eqn:Hr1; [|done].
      specialize (IH st1 Hb1 eq_refl). unfold exec.
      destruct (step E st1 l) as [st2| | |] eqn:Hs; intros [= <-]; try done.
      eapply step_log; [|done|done]. by eapply run_Inv.
  Qed.

  (** ** Quiescent states *)
  Lemma quiescent_sum (f : pc V -> nat) st : quiescent st -> f PFree = 0 -> msum f (st_threads st) = 0.
  Proof.
    intros Hq H0. apply msum_zero. intros t x Ht. specialize (Hq t). unfold get_pc in Hq.
    rewrite Ht in Hq. simpl in Hq. by subst.
  Qed.

  Lemma quiescent_heap st a c : Inv E st -> quiescent st -> st_heap st !! a = Some c ->
    exists p, p ∈ st_table st /\ p_addr p = a /\ deref st p = Some c.
  Proof.
    intros HI Hq Ha. pose proof (inv_own _ _ HI a) as Ho. unfold oc in Ho.
    rewrite (quiescent_sum (pc_oc a)), Ha in Ho by done.
    assert (a ∈ p_addr <$> st_table st) as Hin.
    { apply occ_pos. unfold tab_oc in Ho. lia. }
    apply elem_of_list_fmap in Hin as (p&->&Hp). exists p. split; [done|]. split; [done|].
    destruct (table_deref _ _ HI p Hp) as (c'&d&Hc&_). rewrite Hc.
    apply deref_Some in Hc as [Hc _]. congruence.
  Qed.

  Lemma quiescent_hc st p : quiescent st ->
    hc st p = occ p (st_pool st) + occ p (st_gone st) + msum (cell_handles E p) (st_heap st).
  Proof. intros Hq. unfold handles_to. rewrite (quiescent_sum (pc_handles E p)); [lia|done|done]. Qed.

  (** Everything interned is owned, directly or not, by a client, a forgotten handle or an
      aborted drop. *)
  Lemma quiescent_rooted st p : Inv E st -> quiescent st -> p ∈ st_table st ->
    exists r, r ∈ st_pool st ++ st_gone st ++ st_zombies st /\ owns E st r p.
  Proof.
    intros HI Hq.
    (* induction on how far the serial is from the next one *)
    remember (st_next st - p_ser p) as n eqn:Hn.
    revert p Hn. induction (lt_wf n) as [n _ IH]. intros p -> Hp.
    pose proof (inv_rem _ _ HI p Hp) as Hr. unfold rc in Hr.
    rewrite (quiescent_sum (pc_rc p)) in Hr by done.
    destruct (Nat.eqb_spec (hc st p) 0) as [H0|H0].
    - exists p. split; [|constructor]. rewrite !elem_of_app. right. right. apply occ_pos. lia.
    - rewrite quiescent_hc in H0 by done.
      destruct (decide (msum (cell_handles E p) (st_heap st) = 0)) as [Hm|Hm].
      + exists p. split; [|constructor]. rewrite !elem_of_app, <- !occ_pos.
        destruct (decide (occ p (st_pool st) = 0)); [right; left|left]; lia.
      + destruct (msum_pos (cell_handles E p) (st_heap st)) as (a&c&Ha&Hc); [lia|].
        unfold cell_handles in Hc. destruct (c_data c) as [v|] eqn:Hv; [|lia].
        apply occ_pos in Hc. pose proof (inv_acyc _ _ HI a c v p Ha Hv Hc) as Hlt.
        pose proof (inv_ser _ _ HI a c Ha) as Hs.
        destruct (quiescent_heap st a c HI Hq Ha) as (q&Hqt&Hqa&Hqd).
        assert (p_ser q = c_ser c) as Hqs by (by apply deref_Some in Hqd as [_ <-]).
        destruct (IH (st_next st - p_ser q)) with (p := q) as (r&Hr1&Hr2); [lia|done|done|].
        exists r. split; [done|].
        assert (data st q = Some v) as Hdq by (apply data_Some; eauto).
        clear -Hr2 Hdq Hc. induction Hr2; [|eapply owns_step; eauto].
        econstructor; [done..|constructor].
  Qed.

  Lemma run_zombies ls st : no_panic ls -> run (step E) init ls = Some st -> st_zombies st = [].
  Proof.
    revert st. induction ls as [|l ls IH] using rev_ind; intros st Hnp.
    - simpl. by intros [= <-].
    - rewrite run_snoc. apply Forall_app in Hnp as [Hnp Hl]. rewrite Forall_singleton in Hl.
      destruct (run (step E) init ls) as [st1|] eqn:Hr1; [|done].
      specialize (IH st1 Hnp eq_refl). unfold exec.
      destruct (step E st1 l) as [st2| | |] eqn:Hs; intros [= <-]; try done.
      destruct (step_mono _ _ _ Hs) as (_&_&[->|[? _]]); [done|by destruct Hl].
  Qed.
  End lawful.
End reach.

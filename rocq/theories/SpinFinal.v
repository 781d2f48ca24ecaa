(** Proofs about progress of intern calls. *)
From stdpp Require Import gmap list numbers.
From Verif Require Import Base ArcModel ArcSpec ArcInv ArcStep ArcSafe ArcReach ArcLive ArcProps ArcFinal ArcEx NestModel NestFinal SpinSpec.
Require Import ZifyBool ZifyNat ZifyN.

Section spin.
  Context {V : Type} (E : tyenv V).
  Implicit Types (st : state V) (v d : V) (p q : ptr) (ls : list (label V)) (t : nat).
  Context (HC : coherent E) (HW : wide E).
  Local Notation hc := (handles_to E).

  Lemma work_rc_elem p (w : list item) : 0 < work_rc p w <-> IRemove p ∈ w.
  Proof.
    induction w as [|it w IH]; simpl; [rewrite elem_of_nil; lia|]. rewrite elem_of_cons, <- IH.
    destruct it as [q|q|q]; simpl; unfold is_p; [| case_bool_decide; subst; simpl |];
      split; intros; first [lia|naive_solver lia].
  Qed.
  Lemma removing_rc st t p : removing st t p <-> 0 < pc_rc p (get_pc st t).
  Proof.
    unfold removing. destruct (get_pc st t) as [| | | | | | | | | |l q w r|w r| |]; simpl; try lia.
    - rewrite <- work_rc_elem. unfold is_p. case_bool_decide; simpl; split; intros; try lia; naive_solver lia.
    - by rewrite <- work_rc_elem.
  Qed.

  (** ** Nothing in the way: at most five steps *)
  Lemma run_one st t a i st' ls : step E st (LStep t a i) = Next st' -> run (step E) st (LStep t a i :: ls) = run (step E) st' ls.
  Proof. intros Hs. change (run (step E) st (LStep t a i :: ls)) with (match exec (step E) st (LStep t a i) with Some s => run (step E) s ls | None => None end). unfold exec. by rewrite Hs. Qed.

  Lemma undisturbed ls st t k v b a i :
    bounded E ls -> run (step E) init ls = Some st ->
    get_pc st t = PLookup k v b -> st_locks st !! lock_of E v = None ->
    (forall p d, p ∈ st_table st -> data st p = Some d -> te_eq E v d = true -> alive E st p) ->
    st_heap st !! a = None ->
    exists n st' p w, n <= 5 /\ run (step E) st (replicate n (LStep t a i)) = Some st' /\
      get_pc st' t = PWork w (Some (v, p)).
  Proof.
    intros Hb Hr Hpc Hlk Hal Ha. pose proof (run_Inv E HC HW ls st Hb Hr) as HI.
    pose proof (bounded_fits E ls st Hb Hr) as HF.
    pose proof (inv_pc _ _ HI t) as Hok. rewrite Hpc in Hok. simpl in Hok.
    destruct (pick i (matches E st v)) as [p|] eqn:Hpick.
    - destruct (pick_match_hit E HC i st v p Hpick) as [Hp (d&Hd&He)].
      pose proof (Hal p d Hp Hd He) as Hlive. unfold alive in Hlive.
      destruct (table_deref _ _ HI p Hp) as (c&d'&Hc&Hcd&_).
      destruct (cnt_live E st p c HI HF Hlive Hc) as [_ Hcnt].
      set (st1 := set_pc (lock st (lock_of E v) t) t (PHit k v b p)).
      assert (step E st (LStep t a i) = Next st1) as H1.
      { simpl. unfold step_thread. by rewrite Hpc, Hlk, (inv_readable _ _ HI), Hpick. }
      assert (get_pc st1 t = PHit k v b p) as Hpc1 by (unfold st1; by rewrite get_pc_set, decide_True).
      assert (deref st1 p = Some c) as Hc1 by done.
      set (st2 := set_pc (set_count st1 p c (count_inc E (c_count c))) t (PInc k v b p (c_count c))).
      assert (step E st1 (LStep t a i) = Next st2) as H2.
      { simpl. unfold step_thread. by rewrite Hpc1, Hc1. }
      assert (get_pc st2 t = PInc k v b p (c_count c)) as Hpc2 by (unfold st2; by rewrite get_pc_set, decide_True).
      set (st3 := set_pc (unlock st2 (lock_of E v)) t (PWork (drop_args E k v b) (Some (v, p)))).
      assert (step E st2 (LStep t a i) = Next st3) as H3.
      { simpl. unfold step_thread. rewrite Hpc2. by rewrite (proj2 (N.eqb_neq (c_count c) 0)) by lia. }
      exists 3, st3, p, (drop_args E k v b). split; [lia|]. split.
      + simpl replicate. by rewrite (run_one _ _ _ _ _ _ H1), (run_one _ _ _ _ _ _ H2), (run_one _ _ _ _ _ _ H3).
      + unfold st3. by rewrite get_pc_set, decide_True.
    - pose proof (pick_match_none E HC i st v Hpick) as Hno.
      set (st1 := set_pc st t (PAlloc k v b)).
      assert (step E st (LStep t a i) = Next st1) as H1.
      { simpl. unfold step_thread. by rewrite Hpc, Hlk, (inv_readable _ _ HI), Hpick. }
      assert (get_pc st1 t = PAlloc k v b) as Hpc1 by (unfold st1; by rewrite get_pc_set, decide_True).
      assert (exists q st2, step E st1 (LStep t a i) = Next st2 /\ get_pc st2 t = PEntry k v q /\
                data st2 q = Some v /\ st_locks st2 = st_locks st /\ readable st2 = true /\
                pick i (matches E st2 v) = None) as (q&st2&H2&Hpc2&Hd2&Hl2&Hrd2&Hpk2).
      { simpl. unfold step_thread. rewrite Hpc1.
        assert (forall q, step_thread E st1 t a i = Next (set_pc st1 t (PEntry k v q)) -> data st1 q = Some v ->
          exists q st2, step_thread E st1 t a i = Next st2 /\ get_pc st2 t = PEntry k v q /\
                data st2 q = Some v /\ st_locks st2 = st_locks st /\ readable st2 = true /\
                pick i (matches E st2 v) = None) as Hre.
        { intros q Hs Hq. exists q, (set_pc st1 t (PEntry k v q)). split_and!; try done.
          - by rewrite get_pc_set, decide_True.
          - exact (inv_readable _ _ HI). }
        assert (step_thread E st1 t a i = Next (set_pc (alloc st1 a v) t (PEntry k v (Ptr a (st_next st1)))) ->
          exists q st2, step_thread E st1 t a i = Next st2 /\ get_pc st2 t = PEntry k v q /\
                data st2 q = Some v /\ st_locks st2 = st_locks st /\ readable st2 = true /\
                pick i (matches E st2 v) = None) as Hnew.
        { intros Hs. eexists _, _. split; [exact Hs|].
          assert (forall z, z ∈ st_table st -> data (alloc st1 a v) z = data st z) as Hsame.
          { intros z Hz. unfold data, deref. simpl. destruct (table_deref _ _ HI z Hz) as (cz&dz&[Hcz _]%deref_Some&_).
            rewrite lookup_insert_ne by congruence. done. }
          split_and!; try done.
          - by rewrite get_pc_set, decide_True.
          - unfold data, deref. simpl. rewrite lookup_insert. simpl. by rewrite Nat.eqb_refl.
          - unfold readable. apply forallb_forall. intros z Hz%elem_of_list_In.
            change (data _ z) with (data (alloc st1 a v) z). rewrite Hsame by done.
            by destruct (inv_live _ _ HI z Hz) as [? ->].
          - destruct (pick i (matches E (set_pc (alloc st1 a v) t (PEntry k v (Ptr a (st_next st1)))) v)) as [z|] eqn:Hz; [|done].
            apply (pick_match_hit E HC) in Hz as [Hz (d&Hd&He)]. exfalso.
            change (data (alloc st1 a v) z = Some d) in Hd. change (z ∈ st_table st) in Hz.
            rewrite Hsame in Hd by done. by rewrite (Hno z d Hz Hd) in He. }
        unfold step_thread in Hre, Hnew. rewrite Hpc1 in Hre, Hnew.
        destruct k.
        - change (st_heap st1) with (st_heap st) in *. rewrite Ha in *. by apply Hnew.
        - destruct b as [q|].
          + destruct Hok as [_ Hq]. apply (Hre q); [done|]. specialize (Hq q eq_refl).
            change (data st1 q) with (data st q). unfold box_ok in Hq. unfold data. by rewrite Hq.
          + change (st_heap st1) with (st_heap st) in *. rewrite Ha in *. by apply Hnew. }
      set (st3 := set_pc (lock st2 (lock_of E v) t) t (PVac k v q)).
      assert (step E st2 (LStep t a i) = Next st3) as H3.
      { simpl. unfold step_thread. by rewrite Hpc2, Hd2, Hl2, Hlk, Hrd2, Hpk2. }
      assert (get_pc st3 t = PVac k v q) as Hpc3 by (unfold st3; by rewrite get_pc_set, decide_True).
      set (st4 := set_pc (set_table st3 (q :: st_table st3)) t (PIns k v q)).
      assert (step E st3 (LStep t a i) = Next st4) as H4.
      { simpl. unfold step_thread. by rewrite Hpc3. }
      assert (get_pc st4 t = PIns k v q) as Hpc4 by (unfold st4; by rewrite get_pc_set, decide_True).
      set (st5 := set_pc (unlock st4 (lock_of E v)) t (PWork [] (Some (v, q)))).
      assert (step E st4 (LStep t a i) = Next st5) as H5.
      { simpl. unfold step_thread. by rewrite Hpc4. }
      exists 5, st5, q, []. split; [lia|]. split.
      + simpl replicate. by rewrite (run_one _ _ _ _ _ _ H1), (run_one _ _ _ _ _ _ H2), (run_one _ _ _ _ _ _ H3), (run_one _ _ _ _ _ _ H4), (run_one _ _ _ _ _ _ H5).
      + unfold st5. by rewrite get_pc_set, decide_True.
  Qed.

  (** ** Why a call goes round *)
  Lemma retry_cause ls st t k v b p :
    bounded E ls -> run (step E) init ls = Some st -> get_pc st t = PInc k v b p 0 ->
    exists d, data st p = Some d /\ te_eq E v d = true /\ p ∈ st_table st /\ ~ alive E st p /\
      (p ∈ st_zombies st \/ exists u, u <> t /\ removing st u p).
  Proof.
    intros Hb Hr Hpc. pose proof (run_Inv E HC HW ls st Hb Hr) as HI.
    pose proof (inv_pc _ _ HI t) as Hok. rewrite Hpc in Hok. destruct Hok as (_&[Hp (d&Hd&He)]&H0).
    specialize (H0 eq_refl). exists d. split_and!; try done.
    - unfold alive. lia.
    - pose proof (inv_rem _ _ HI p Hp) as Hrc. rewrite H0 in Hrc. simpl in Hrc. unfold rc in Hrc.
      destruct (decide (0 < occ p (st_zombies st))) as [Hz|Hz].
      + left. by apply occ_pos.
      + right. destruct (tsum_pos (pc_rc p) st) as [u Hu]; [lia|]. exists u. split; [|by apply removing_rc].
        intros ->. rewrite Hpc in Hu. simpl in Hu. lia.
  Qed.

  (** ** Waiting for the thread that removes the object *)
  Lemma removing_stays ls2 st1 st2 t0 p :
    run (step E) st1 ls2 = Some st2 -> (forall l, l ∈ ls2 -> actor l <> Some t0) ->
    removing st1 t0 p -> removing st2 t0 p.
  Proof.
    intros Hr Hn Hrem. assert (get_pc st2 t0 = get_pc st1 t0) as Heq.
    { revert st2 Hr. induction ls2 as [|l ls2 IH] using rev_ind; intros st2 Hr.
      - simpl in Hr. by injection Hr as <-.
      - rewrite run_snoc in Hr. destruct (run (step E) st1 ls2) as [st|] eqn:Hr1; [|done].
        rewrite <- (IH (λ l Hl, Hn l (proj2 (elem_of_app _ _ _) (or_introl Hl))) st eq_refl).
        unfold exec in Hr. destruct (step E st l) as [st'| | |] eqn:Hs; simplify_eq; [|done..].
        eapply step_pc_other; [exact Hs|]. apply Hn. apply elem_of_app. right. by left. }
    unfold removing in *. by rewrite Heq.
  Qed.

  Context (Htr : forall a b c, te_eq E a b = true -> te_eq E b c = true -> te_eq E a c = true).

  Lemma dropper_asleep ls1 ls2 st1 st2 t0 p d :
    bounded E (ls1 ++ ls2) -> run (step E) init ls1 = Some st1 -> run (step E) st1 ls2 = Some st2 ->
    (forall l, l ∈ ls2 -> actor l <> Some t0) -> removing st1 t0 p -> data st1 p = Some d ->
    p ∈ st_table st2 /\ data st2 p = Some d /\ hc st2 p = 0 /\
    exists new, st_log st2 = new ++ st_log st1 /\
      forall t v q, EvNew t v q ∈ new -> te_eq E v d = false.
  Proof.
    revert st2. induction ls2 as [|l ls2 IH] using rev_ind; intros st2 Hb Hr1 Hr2 Hn Hrem Hd.
    - simpl in Hr2. injection Hr2 as <-. rewrite app_nil_r in Hb.
      pose proof (run_Inv E HC HW ls1 st1 Hb Hr1) as HI.
      apply removing_rc in Hrem. destruct (rem_hand E st1 t0 p HI Hrem) as (?&?&_). split_and!; try done.
      exists []. split; [done|]. by intros * ?%elem_of_nil.
    - assert (removing st2 t0 p) as Hrem2 by (by eapply removing_stays).
      rewrite run_snoc in Hr2. destruct (run (step E) st1 ls2) as [st|] eqn:Hr; [|done].
      pose proof Hb as Hb'. rewrite app_assoc in Hb'.
      pose proof (bounded_app E _ _ Hb') as Hb1.
      destruct (IH st Hb1 Hr1 eq_refl) as (Hin&Hd'&H0&new&Hlog&Hnew); [|done..|].
      { intros l' Hl'. apply Hn. apply elem_of_app. by left. }
      assert (run (step E) init (ls1 ++ ls2) = Some st) as Hrst by (by rewrite run_app, Hr1).
      pose proof (run_Inv E HC HW _ st Hb1 Hrst) as HI.
      unfold exec in Hr2.
      destruct (step E st l) as [st'| | |] eqn:Hs; simplify_eq; [|split_and!; eauto..].
      assert (run (step E) init ((ls1 ++ ls2) ++ [l]) = Some st2) as Hrst'.
      { rewrite run_snoc, Hrst. unfold exec. by rewrite Hs. }
      pose proof (run_Inv E HC HW _ st2 Hb' Hrst') as HI'.
      apply removing_rc in Hrem2. destruct (rem_hand E st2 t0 p HI' Hrem2) as (Hin2&H02&_).
      split_and!; try done.
      + by eapply (table_data_step E st l).
      + destruct (step_event E st l st2 HI Hs) as [Hl|(e&Hl&_&_&He)].
        * exists new. rewrite Hl. done.
        * exists (e :: new). rewrite Hl, Hlog. split; [done|].
          intros t v q [<-|Hx]%elem_of_cons; [|by eapply Hnew].
          destruct (te_eq E v d) eqn:Hvd; [|done]. exfalso.
          destruct He as (_&Hq&d'&Hdq&Hvd').
          assert (q = p) as ->.
          { apply (inv_uniq _ _ HI q p d' d); [by apply (inv_hand _ _ HI)|done|done|done|].
            eapply Htr; [|exact Hvd]. by apply (coh_sym _ HC). }
          lia.
  Qed.

  Lemma waits_for_dropper ls1 ls2 st1 st2 t0 p d t v :
    bounded E (ls1 ++ ls2) -> run (step E) init ls1 = Some st1 -> run (step E) st1 ls2 = Some st2 ->
    (forall l, l ∈ ls2 -> actor l <> Some t0) -> removing st1 t0 p -> data st1 p = Some d ->
    te_eq E v d = true -> interning st1 t v -> LPanic t ∉ ls2 -> interning st2 t v.
  Proof.
    revert st2. induction ls2 as [|l ls2 IH] using rev_ind; intros st2 Hb Hr1 Hr2 Hn Hrem Hd He Hin Hnp.
    - simpl in Hr2. by injection Hr2 as <-.
    - pose proof Hnp as Hnp'. rewrite elem_of_app, elem_of_list_singleton in Hnp.
      pose proof Hr2 as Hr2'.
      rewrite run_snoc in Hr2. destruct (run (step E) st1 ls2) as [st|] eqn:Hr; [|done].
      pose proof Hb as Hb'. rewrite app_assoc in Hb'.
      pose proof (bounded_app E _ _ Hb') as Hb1.
      assert (forall l, l ∈ ls2 -> actor l <> Some t0) as Hn1.
      { intros l' Hl'. apply Hn. apply elem_of_app. by left. }
      assert (interning st t v) as Hin' by (apply IH; try done; tauto).
      assert (run (step E) init (ls1 ++ ls2) = Some st) as Hrst by (by rewrite run_app, Hr1).
      pose proof (run_Inv E HC HW _ st Hb1 Hrst) as HI.
      unfold exec in Hr2.
      destruct (step E st l) as [st'| | |] eqn:Hs; simplify_eq; try done.
      destruct (step_interning_any E st l st2 t v HI Hs) as [|[q Hq]]; [|done|done|].
      { intros ->. tauto. }
      exfalso.
      destruct (dropper_asleep ls1 (ls2 ++ [l]) st1 st2 t0 p d Hb Hr1 Hr2' Hn Hrem Hd) as (_&_&_&new&Hlog&Hnew).
      destruct (dropper_asleep ls1 ls2 st1 st t0 p d Hb1 Hr1 Hr Hn1 Hrem Hd) as (_&_&_&new'&Hlog'&_).
      rewrite Hq, Hlog' in Hlog. change (EvNew t v q :: new' ++ st_log st1) with ((EvNew t v q :: new') ++ st_log st1) in Hlog.
      apply app_inv_tail in Hlog. subst new.
      rewrite (Hnew t v q) in He; [done|]. by left.
  Qed.
End spin.

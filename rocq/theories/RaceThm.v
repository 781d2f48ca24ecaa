(** Executions of RaceModel: race freedom, and correspondence with executions of ArcModel. *)
From stdpp Require Import gmap list numbers.
From Verif Require Import Base ArcModel ArcSpec ArcInv ArcStep ArcSafe ArcReach.
From Verif Require Import RaceModel RaceSpec RaceInv RaceStep RaceSafe RaceFinal RaceHb.
Require Import ZifyBool ZifyNat ZifyN.

Section thm.
  Context {V : Type} (E : tyenv V) (O : orders).
  Implicit Types (s : rstate V) (l : rlabel V) (ls : list (rlabel V)).

  (** ** Events *)
  Lemma rstep_clk s l s' : rstep E O s l = Next s' -> same_clk (applies s (actor l) (ops E O s l)) s'.
  Proof.
    destruct l as [t k v hs|t h|t h ks h'|t h|t h ks|t h ks|t ty|t ty|t a i h|t|t m|t m]; cbn [rstep ops actor]; intros Hs.
    - destruct (consume_all s t hs) as [[ps s1]|] eqn:Hc; [|done]. destruct (decide _); [|done].
      apply consume_all_inv in Hc as (hm&->&_). by apply lift_Next in Hs as (st&Hst&->).
    - destruct (may_consume s t h) as [x|] eqn:Hm; [|done]. by apply lift_Next in Hs as (st&Hst&->).
    - destruct (may_use s t h) as [x|] eqn:Hm; [|done].
      apply may_use_inv in Hm as (_&->&_). destruct (r_hands s !! h'); [done|].
      apply lift_Next in Hs as (st&Hst&->). rewrite applies_set_st. done.
    - destruct (may_consume s t h) as [x|] eqn:Hm; [|done]. by apply lift_Next in Hs as (st&Hst&->).
    - destruct (may_use s t h) as [x|] eqn:Hm; [|done].
      apply may_use_inv in Hm as (_&->&_). apply lift_Next in Hs as (st&Hst&->). by rewrite applies_set_st.
    - destruct (may_use s t h) as [x|] eqn:Hm; [|done].
      apply may_use_inv in Hm as (_&->&_). apply lift_Next in Hs as (st&Hst&->). by rewrite applies_set_st.
    - by apply lift_Next in Hs as (st&Hst&->).
    - by apply lift_Next in Hs as (st&Hst&->).
    - assert ((exists v p, get_pc (r_st s) t = PWork [] (Some (v, p)) /\
                 lift E s (LStep t a i) (λ s, new_hand s t h p) = Next s') \/
                 lift E s (LStep t a i) (λ s', applies s' t (mops E O (r_st s) t i)) = Next s') as [(v&q&Hpc&Hl)|Hl].
      { destruct (get_pc (r_st s) t) as [| | | | | | | | | | |[|? ?] [[v q]|]| |] eqn:Hpc; try (by right).
        left. exists v, q. split; [done|]. by destruct (r_hands s !! h). }
      + apply lift_Next in Hl as (st&Hst&->). unfold mops. rewrite Hpc. done.
      + apply lift_Next in Hl as (st&Hst&->). by rewrite applies_set_st.
    - apply lift_Next in Hs as (st&Hst&->). by rewrite applies_set_st.
    - case_match; try done. by injection Hs as <-.
    - case_match; try done. by injection Hs as <-.
  Qed.

  Lemma events_clk ls s s' evs : Clk evs s -> run (rstep E O) s ls = Some s' ->
    Clk (evs ++ events_from E O s ls) s'.
  Proof.
    revert s evs. induction ls as [|l ls IH]; intros s evs HC Hr; simpl in Hr |- *.
    - injection Hr as <-. by rewrite app_nil_r.
    - unfold exec in Hr. destruct (rstep E O s l) as [s1| | |] eqn:Hs; [|by apply IH..|done].
      rewrite app_assoc. apply IH; [|done]. eapply clk_same; [by apply rstep_clk|]. by apply clk_applies.
  Qed.

  Lemma pos_surj evs a : a < pos evs (length evs) -> exists i, accs evs i /\ pos evs i = a.
  Proof.
    revert a. induction evs as [|e evs IH]; intros a Ha; [simpl in Ha; lia|]. cbn [pos length] in Ha.
    assert (forall b, b < pos evs (length evs) -> (if acc e.2 then 1 else 0) + b = a ->
      exists i, accs (e :: evs) i /\ pos (e :: evs) i = a) as H.
    { intros b Hb <-. destruct (IH b Hb) as (i&(f&Hf&Hfa)&Hp). exists (S i). split; [by exists f|].
      simpl. by rewrite Hp. }
    revert H Ha. destruct (acc e.2) eqn:He; intros H Ha.
    - destruct a as [|a]; [exists 0; split; [by exists e|done]|]. apply (H a); lia.
    - apply (H a); lia.
  Qed.
  Lemma touched_acc m k w : (k, w) ∈ touched m -> acc m = true.
  Proof. destruct m; simpl; try done; by intros ?%elem_of_nil. Qed.

  Lemma trace_race_free evs s : Clk evs s -> trace_ok (r_trace s) -> race_free evs.
  Proof.
    intros HC HT i j e f Hij Hi Hj (k&w&w'&Hk&Hk'&Hw).
    pose proof (touched_acc _ _ _ Hk) as Hai. pose proof (touched_acc _ _ _ Hk') as Haj.
    destruct (ck_trace _ _ HC i e Hi Hai) as (x&Hx&_&Hxt&_).
    destruct (ck_trace _ _ HC j f Hj Haj) as (y&Hy&_&Hyt&Hp).
    assert (accs evs i) as Hacc by (by exists e).
    pose proof (pos_lt evs i j Hacc Hij) as Hlt.
    rewrite <- Hxt in Hk. rewrite <- Hyt in Hk'.
    destruct (HT _ _ _ _ _ Hlt Hy Hk') as [H1 H2].
    assert (pos evs i ∈ a_past y) as Hin.
    { destruct Hw as [->| ->].
      - apply H2. by exists x.
      - apply H1; [done|]. by exists x, w. }
    apply Hp in Hin as (i'&Hi'&He&Hh). by rewrite (pos_inj _ _ _ Hi' Hacc He) in Hh.
  Qed.

  Lemma trace_race evs s a b x y k w w' : Clk evs s -> a < b ->
    r_trace s !! a = Some x -> r_trace s !! b = Some y -> (k, w) ∈ a_touch x -> (k, w') ∈ a_touch y ->
    w = TWrite \/ w' = TWrite -> a ∉ a_past y -> data_race evs.
  Proof.
    intros HC Hab Hx Hy Hk Hk' Hw Hn.
    destruct (pos_surj evs a) as (i&(e&Hi&Hai)&Hpi).
    { rewrite <- (ck_len _ _ HC). by eapply lookup_lt_Some. }
    destruct (pos_surj evs b) as (j&(f&Hj&Haj)&Hpj).
    { rewrite <- (ck_len _ _ HC). by eapply lookup_lt_Some. }
    destruct (ck_trace _ _ HC i e Hi Hai) as (x'&Hx'&_&Hxt&_).
    destruct (ck_trace _ _ HC j f Hj Haj) as (y'&Hy'&_&Hyt&Hp).
    rewrite Hpi in Hx'. rewrite Hpj in Hy'. simplify_eq.
    exists i, j, e, f.
    assert (i < j) as Hij.
    { destruct (lt_eq_lt_dec i j) as [[?| ->]|Hlt]; [done|lia|].
      assert (accs evs j) as Haccj by (by exists f). pose proof (pos_lt _ _ _ Haccj Hlt). lia. }
    split; [done|]. split; [done|]. split; [done|]. split.
    - exists k, w, w'. by rewrite <- Hxt, <- Hyt.
    - intros Hh. apply Hn. apply Hp. exists i. split; [by exists e|]. done.
  Qed.

  (** ** From RaceModel to ArcModel *)
  Theorem rrun_erase ls s : run (rstep E O) rinit ls = Some s ->
    exists (ls' : list (label V)), run (step E) init ls' = Some (r_st s) /\ length ls' <= length ls.
  Proof.
    revert s. induction ls as [|l ls IH] using rev_ind; intros s.
    - intros [= <-]. by exists [].
    - rewrite run_snoc. destruct (run (rstep E O) rinit ls) as [s1|]; [|done].
      destruct (IH s1 eq_refl) as (ls'&Hr&Hl). unfold exec. rewrite app_length. simpl.
      destruct (rstep E O s1 l) as [s2| | |] eqn:Hs; [|intros [= <-]; exists ls'; (split; [done|lia])..|done].
      intros [= <-]. apply rstep_erase in Hs. destruct (erase s1 l) as [l'|].
      + exists (ls' ++ [l']). rewrite run_snoc, Hr, app_length. simpl. unfold exec. rewrite Hs. split; [done|lia].
      + exists ls'. rewrite Hs. split; [done|lia].
  Qed.

  Theorem rshort_bounded ls : coherent E -> wide E -> (N.of_nat (length ls) < te_mod E)%N -> rbounded E O ls.
  Proof.
    intros HL HW Hlen l1 l2 s1 -> Hr p. rewrite app_length in Hlen.
    destruct (rrun_erase l1 s1 Hr) as (ls'&Hr'&Hl).
    assert (bounded E ls') as Hb by (apply short_bounded; [done..|lia]).
    eapply (Hb ls' []); [by rewrite app_nil_r|done].
  Qed.

  Theorem rrun_race_free ls : coherent E -> wide E ->
    acquires (o_sub O) = true -> releases (o_sub O) = true -> rbounded E O ls ->
    is_Some (run (rstep E O) rinit ls) /\ race_free (events E O ls).
  Proof.
    intros HL HW Hacq Hrel Hb. destruct (rrun_good E O HL Hacq Hrel HW ls Hb) as (s&Hr&HG).
    split; [by eexists|]. pose proof (events_clk ls _ _ [] clk_init Hr) as HC. simpl in HC.
    eapply trace_race_free; [exact HC|]. apply HG.
  Qed.

  (** ** From ArcModel to RaceModel: when the clients synchronise all they do *)
  Definition Synced s : Prop :=
    pool_ok s /\ forall h x, r_hands s !! h = Some x -> h_made x ∪ h_used x ⊆ msgv s 0.

  Lemma run_next s l s1 ls : rstep E O s l = Next s1 -> run (rstep E O) s (l :: ls) = run (rstep E O) s1 ls.
  Proof. intros Hs. simpl. unfold exec. by rewrite Hs. Qed.
  Lemma run_ub s l ls : rstep E O s l = UB -> run (rstep E O) s (l :: ls) = None.
  Proof. intros Hs. simpl. unfold exec. by rewrite Hs. Qed.

  Lemma pool_hand s p : pool_ok s -> p ∈ st_pool (r_st s) -> exists h x, r_hands s !! h = Some x /\ h_ptr x = p.
  Proof.
    intros HP Hp. apply occ_pos in Hp. rewrite HP in Hp. apply msum_pos in Hp as (h&x&Hx&Hpos).
    exists h, x. split; [done|]. by apply is_p_pos.
  Qed.

  (** All that was made known, is known to [t]. *)
  Definition told s t : Prop := forall h x, r_hands s !! h = Some x -> h_made x ∪ h_used x ⊆ seen s t.
  Lemma told_use s t h x : told s t -> get_pc (r_st s) t = PFree -> r_hands s !! h = Some x -> may_use s t h = Some x.
  Proof.
    intros HT Hpc Hx. unfold may_use. rewrite Hpc, Hx. rewrite decide_True; [done|].
    specialize (HT h x Hx). set_solver.
  Qed.
  Lemma told_consume s t h x : told s t -> get_pc (r_st s) t = PFree -> r_hands s !! h = Some x ->
    may_consume s t h = Some x.
  Proof.
    intros HT Hpc Hx. unfold may_consume. rewrite (told_use s t h x) by done. rewrite decide_True; [done|].
    specialize (HT h x Hx). set_solver.
  Qed.
  Lemma told_all s t ps pl : told s t -> get_pc (r_st s) t = PFree ->
    (forall p, occ p pl = msum (λ x, is_p p (h_ptr x)) (r_hands s)) ->
    is_Some (rem_all ps pl) -> exists hs s', consume_all s t hs = Some (ps, s').
  Proof.
    revert s pl. induction ps as [|p ps IH]; intros s pl HT Hpc HP [pl' Hr]; [by exists [], s|].
    simpl in Hr. destruct (rem1 p pl) as [pl1|] eqn:Hr1; [|done].
    assert (exists h x, r_hands s !! h = Some x /\ h_ptr x = p) as (h&x&Hx&Hp).
    { pose proof (rem1_occ _ _ _ p Hr1) as Ho. rewrite decide_True in Ho by done. rewrite HP in Ho.
      destruct (msum_pos (λ x, is_p p (h_ptr x)) (r_hands s)) as (h&x&Hx&Hpos); [lia|].
      exists h, x. split; [done|]. by apply is_p_pos. }
    destruct (IH (set_hands s (delete h (r_hands s))) pl1) as (hs&s'&Hc).
    - intros h' x' Hx'. simpl in Hx'. apply lookup_delete_Some in Hx' as [_ Hx']. by apply (HT h' x').
    - done.
    - intros q. simpl. pose proof (rem1_occ _ _ _ q Hr1) as Ho. rewrite HP in Ho.
      pose proof (msum_delete (λ x, is_p q (h_ptr x)) _ _ _ Hx) as Hd. simpl in Hd.
      rewrite Hp in Hd. rewrite is_p_dec in Hd. lia.
    - by eexists.
    - exists (h :: hs), s'. simpl. rewrite (told_consume s t h x) by done. rewrite Hc. by rewrite Hp.
  Qed.

  (** First [t] learns all that is known. *)
  Lemma recv s t : Synced s -> get_pc (r_st s) t = PFree ->
    exists s1, rstep E O s (RRecv t 0) = Next s1 /\ r_st s1 = r_st s /\ r_hands s1 = r_hands s /\
      told s1 t /\ Synced s1.
  Proof.
    intros [HP HM] Hpc. exists (apply s t (MRecv 0)). simpl. rewrite Hpc. split; [done|].
    split; [done|]. split; [done|]. split; [|by split].
    intros h x Hx. simpl in Hx. rewrite seen_set_seen, decide_True by done.
    specialize (HM h x Hx). set_solver.
  Qed.
  (** In the end [t] makes everything known. *)
  Lemma send s t : pool_ok s -> get_pc (r_st s) t = PFree ->
    (forall h x, r_hands s !! h = Some x -> h_made x ∪ h_used x ⊆ msgv s 0 ∪ seen s t) ->
    exists s1, rstep E O s (RSend t 0) = Next s1 /\ r_st s1 = r_st s /\ Synced s1.
  Proof.
    intros HP Hpc HM. exists (apply s t (MSend 0)). simpl. rewrite Hpc. split; [done|].
    split; [done|]. split; [done|]. intros h x Hx. simpl in Hx. rewrite msgv_set_msgv, decide_True by done.
    specialize (HM h x Hx). set_solver.
  Qed.

  Definition reaches s (o : outcome (state V)) : Prop :=
    match o with
    | Next st' => exists rls s', run (rstep E O) s rls = Some s' /\ r_st s' = st' /\ Synced s'
    | UB => exists rls, run (rstep E O) s rls = None
    | _ => True
    end.
  Lemma reach_cons s l s1 o : rstep E O s l = Next s1 -> reaches s1 o -> reaches s o.
  Proof.
    intros Hs. unfold reaches. destruct o; try done.
    - intros (rls&s'&Hr&He). exists (l :: rls), s'. by rewrite (run_next s l s1).
    - intros (rls&Hr). exists (l :: rls). by rewrite (run_next s l s1).
  Qed.
  Lemma reach_here s st : Synced s -> r_st s = st -> reaches s (Next st).
  Proof. intros HS He. by exists [], s. Qed.
  Lemma reach_ub s l : rstep E O s l = UB -> reaches s UB.
  Proof. intros Hs. exists [l]. by apply run_ub. Qed.

  Lemma fresh_hand s : exists h, r_hands s !! h = None.
  Proof. exists (fresh (dom (r_hands s))). apply not_elem_of_dom. apply is_fresh. Qed.
  Lemma fresh_thread (st : state V) : exists t, get_pc st t = PFree.
  Proof.
    exists (fresh (dom (st_threads st))). unfold get_pc.
    assert (st_threads st !! fresh (dom (st_threads st)) = None) as ->; [|done].
    apply not_elem_of_dom. apply is_fresh.
  Qed.
  Lemma applies_msgv s t ms m : msgv s m ⊆ msgv (applies s t ms) m.
  Proof.
    revert s. induction ms as [|x ms IH]; intros s; [done|].
    change (applies s t (x :: ms)) with (applies (apply s t x) t ms).
    etrans; [|apply IH]. apply (apply_frame s t x).
  Qed.
  Lemma applies_hands s t ms : r_hands (applies s t ms) = r_hands s.
  Proof. apply (applies_frame s t ms). Qed.
  Lemma applies_st s t ms : r_st (applies s t ms) = r_st s.
  Proof. apply (applies_frame s t ms). Qed.

  (** Uses of a handle by reference. *)
  Lemma use_synced s t h x st ms (f : option nat) : told s t -> pool_ok s -> Synced s ->
    r_hands s !! h = Some x ->
    forall h' y, r_hands (used (applies (set_st s st) t ms) t h x) !! h' = Some y ->
      h_made y ∪ h_used y ⊆ msgv (used (applies (set_st s st) t ms) t h x) 0 ∪
        seen (used (applies (set_st s st) t ms) t h x) t.
  Proof.
    intros HT HP HS Hx h' y Hy. unfold used in *. simpl in Hy.
    change (msgv (set_hands ?a _) 0) with (msgv a 0). change (seen (set_hands ?a _) t) with (seen a t).
    pose proof (applies_msgv (set_st s st) t ms 0) as Hm. change (msgv (set_st s st) 0) with (msgv s 0) in Hm.
    apply lookup_insert_Some in Hy as [[<- <-]|[_ Hy]].
    - simpl. pose proof (proj2 HS h x Hx). set_solver.
    - rewrite applies_hands in Hy. simpl in Hy. pose proof (proj2 HS h' y Hy). set_solver.
  Qed.

  Lemma reach_step s (l : label V) : Synced s -> reaches s (step E (r_st s) l).
  Proof.
    intros HS. destruct l as [t k v|t q|q ks|q|q ks|q ks|t ty|t ty|t a i|t].
    - (* LNew *)
      destruct (get_pc (r_st s) t) eqn:Hpc; try (simpl; by rewrite Hpc).
      destruct (recv s t HS Hpc) as (s1&Hr&Hst&Hh&HT&HS1).
      eapply reach_cons; [exact Hr|]. rewrite <- Hst in Hpc |- *. clear Hr Hst Hh HS s.
      destruct (step E (r_st s1) (LNew t k v)) as [st'| | |] eqn:Hs; try done.
      + assert (is_Some (rem_all (te_kids E v) (st_pool (r_st s1)))) as Hk.
        { simpl in Hs. rewrite Hpc in Hs. destruct k.
          - destruct (rem_all _ _); [by eexists|done].
          - destruct (te_kids E v); [by eexists|done]. }
        destruct (told_all s1 t _ _ HT Hpc (proj1 HS1) Hk) as (hs&s2&Hc).
        pose proof (consume_all_inv _ _ _ _ _ Hc) as (hm&->&Hm&_).
        assert (rstep E O s1 (RNew t k v hs) = Next (set_st (set_hands s1 hm) st')) as Hs1.
        { cbn [rstep]. rewrite Hc, decide_True by done. unfold lift.
          change (r_st (set_hands s1 hm)) with (r_st s1). by rewrite Hs. }
        eapply reach_cons; [exact Hs1|]. apply reach_here; [|done]. split.
        * eapply rstep_pool; [apply HS1|exact Hs1].
        * simpl. intros h x Hx. apply (proj2 HS1 h x). by apply Hm.
      + simpl in Hs. rewrite Hpc in Hs. repeat case_match; done.
    - (* LDrop *)
      destruct (get_pc (r_st s) t) eqn:Hpc; try (simpl; by rewrite Hpc).
      destruct (recv s t HS Hpc) as (s1&Hr&Hst&Hh&HT&HS1).
      eapply reach_cons; [exact Hr|]. rewrite <- Hst in Hpc |- *. clear Hr Hst Hh HS s.
      destruct (step E (r_st s1) (LDrop t q)) as [st'| | |] eqn:Hs; try done.
      + assert (q ∈ st_pool (r_st s1)) as Hq.
        { simpl in Hs. rewrite Hpc in Hs. destruct (rem1 _ _) eqn:Hr; [|done]. apply occ_pos.
          pose proof (rem1_occ _ _ _ q Hr) as Ho. rewrite decide_True in Ho by done. lia. }
        destruct (pool_hand s1 q (proj1 HS1) Hq) as (h&x&Hx&<-).
        assert (rstep E O s1 (RDrop t h) = Next (set_st (set_hands s1 (delete h (r_hands s1))) st')) as Hs1.
        { cbn [rstep]. rewrite (told_consume s1 t h x) by done. unfold lift.
          change (r_st (set_hands s1 ?hm)) with (r_st s1). by rewrite Hs. }
        eapply reach_cons; [exact Hs1|]. apply reach_here; [|done]. split.
        * eapply rstep_pool; [apply HS1|exact Hs1].
        * simpl. intros h' y [_ Hy]%lookup_delete_Some. by apply (proj2 HS1 h' y).
      + simpl in Hs. rewrite Hpc in Hs. repeat case_match; done.
    - (* LClone *)
      destruct (fresh_thread (r_st s)) as [t Hpc].
      destruct (recv s t HS Hpc) as (s1&Hr&Hst&Hh&HT&HS1).
      eapply reach_cons; [exact Hr|]. rewrite <- Hst in Hpc |- *. clear Hr Hst Hh HS s.
      destruct (decide (q ∈ st_pool (r_st s1))) as [Hq|Hq].
      2:{ simpl. unfold borrow. by rewrite decide_False. }
      destruct (pool_hand s1 q (proj1 HS1) Hq) as (h&x&Hx&<-). destruct (fresh_hand s1) as [h' Hh'].
      assert (rstep E O s1 (RClone t h ks h') = lift E s1 (LClone (h_ptr x) ks) (λ s,
              let s1 := applies s t [MTouch ((λ n, (n, TRead)) <$> path (h_ptr x) ks); MRmw (p_ser (target (h_ptr x) ks)) (o_clone O)] in
              new_hand (used s1 t h x) t h' (target (h_ptr x) ks))) as He.
      { cbn [rstep]. by rewrite (told_use s1 t h x), Hh' by done. }
      destruct (step E (r_st s1) (LClone (h_ptr x) ks)) as [st'| | |] eqn:Hs; try done.
      + unfold lift in He. rewrite Hs in He. cbv zeta in He.
        pose proof (rstep_pool _ _ _ _ _ (proj1 HS1) He) as HP.
        eapply reach_cons; [exact He|].
        match type of He with _ = Next ?sx => set (s2 := sx) in *; assert (r_st s2 = st') as Hst2 end.
        { unfold s2, new_hand, used. cbn [r_st set_hands]. by rewrite applies_st. }
        destruct (send s2 t HP) as (s3&Hr3&Hst3&HS3).
        * rewrite Hst2. simpl in Hs. repeat (case_match; try done). injection Hs as <-. done.
        * intros h2 y Hy. unfold s2, new_hand in Hy. cbn [r_hands set_hands] in Hy.
          apply lookup_insert_Some in Hy as [[<- <-]|[_ Hy]].
          -- simpl. unfold s2, new_hand.
             change (seen (set_hands ?a _) t) with (seen a t). set_solver.
          -- pose proof (use_synced s1 t h x st' _ None HT (proj1 HS1) HS1 Hx h2 y Hy) as Hu.
             exact Hu.
        * eapply reach_cons; [exact Hr3|]. apply reach_here; [done|]. congruence.
      + unfold lift in He. rewrite Hs in He. by eapply reach_ub.
    - (* LForget *)
      destruct (fresh_thread (r_st s)) as [t Hpc].
      destruct (recv s t HS Hpc) as (s1&Hr&Hst&Hh&HT&HS1).
      eapply reach_cons; [exact Hr|]. rewrite <- Hst in Hpc |- *. clear Hr Hst Hh HS s.
      destruct (step E (r_st s1) (LForget q)) as [st'| | |] eqn:Hs; try done.
      + assert (q ∈ st_pool (r_st s1)) as Hq.
        { simpl in Hs. destruct (rem1 _ _) eqn:Hr; [|done]. apply occ_pos.
          pose proof (rem1_occ _ _ _ q Hr) as Ho. rewrite decide_True in Ho by done. lia. }
        destruct (pool_hand s1 q (proj1 HS1) Hq) as (h&x&Hx&<-).
        assert (rstep E O s1 (RForget t h) = Next (set_st (set_hands s1 (delete h (r_hands s1))) st')) as Hs1.
        { cbn [rstep]. rewrite (told_consume s1 t h x) by done. unfold lift.
          change (r_st (set_hands s1 ?hm)) with (r_st s1). by rewrite Hs. }
        eapply reach_cons; [exact Hs1|]. apply reach_here; [|done]. split.
        * eapply rstep_pool; [apply HS1|exact Hs1].
        * simpl. intros h' y [_ Hy]%lookup_delete_Some. by apply (proj2 HS1 h' y).
      + simpl in Hs. repeat case_match; done.
    - (* LRef *)
      destruct (fresh_thread (r_st s)) as [t Hpc].
      destruct (recv s t HS Hpc) as (s1&Hr&Hst&Hh&HT&HS1).
      eapply reach_cons; [exact Hr|]. rewrite <- Hst in Hpc |- *. clear Hr Hst Hh HS s.
      destruct (decide (q ∈ st_pool (r_st s1))) as [Hq|Hq].
      2:{ simpl. unfold borrow. by rewrite decide_False. }
      destruct (pool_hand s1 q (proj1 HS1) Hq) as (h&x&Hx&<-).
      assert (rstep E O s1 (RRef t h ks) = lift E s1 (LRef (h_ptr x) ks) (λ s,
              used (applies s t [MTouch ((λ n, (n, TRead)) <$> path (h_ptr x) ks); MLoad (p_ser (target (h_ptr x) ks)) (o_load O)]) t h x)) as He.
      { cbn [rstep]. by rewrite (told_use s1 t h x) by done. }
      destruct (step E (r_st s1) (LRef (h_ptr x) ks)) as [st'| | |] eqn:Hs; try done.
      + unfold lift in He. rewrite Hs in He.
        pose proof (rstep_pool _ _ _ _ _ (proj1 HS1) He) as HP.
        eapply reach_cons; [exact He|].
        match type of He with _ = Next ?sx => set (s2 := sx) in *; assert (r_st s2 = st') as Hst2 end.
        { unfold s2, used. cbn [r_st set_hands]. by rewrite applies_st. }
        destruct (send s2 t HP) as (s3&Hr3&Hst3&HS3).
        * rewrite Hst2. simpl in Hs. repeat (case_match; try done). injection Hs as <-. done.
        * intros h2 y Hy. exact (use_synced s1 t h x st' _ None HT (proj1 HS1) HS1 Hx h2 y Hy).
        * eapply reach_cons; [exact Hr3|]. apply reach_here; [done|]. congruence.
      + unfold lift in He. rewrite Hs in He. by eapply reach_ub.
    - (* LDeref *)
      destruct (fresh_thread (r_st s)) as [t Hpc].
      destruct (recv s t HS Hpc) as (s1&Hr&Hst&Hh&HT&HS1).
      eapply reach_cons; [exact Hr|]. rewrite <- Hst in Hpc |- *. clear Hr Hst Hh HS s.
      destruct (decide (q ∈ st_pool (r_st s1))) as [Hq|Hq].
      2:{ simpl. unfold borrow. by rewrite decide_False. }
      destruct (pool_hand s1 q (proj1 HS1) Hq) as (h&x&Hx&<-).
      assert (rstep E O s1 (RDeref t h ks) = lift E s1 (LDeref (h_ptr x) ks) (λ s,
              used (applies s t [MTouch ((λ n, (n, TRead)) <$> path (h_ptr x) ks ++ [p_ser (target (h_ptr x) ks)])]) t h x)) as He.
      { cbn [rstep]. by rewrite (told_use s1 t h x) by done. }
      destruct (step E (r_st s1) (LDeref (h_ptr x) ks)) as [st'| | |] eqn:Hs; try done.
      + unfold lift in He. rewrite Hs in He.
        pose proof (rstep_pool _ _ _ _ _ (proj1 HS1) He) as HP.
        eapply reach_cons; [exact He|].
        match type of He with _ = Next ?sx => set (s2 := sx) in *; assert (r_st s2 = st') as Hst2 end.
        { unfold s2, used. cbn [r_st set_hands]. by rewrite applies_st. }
        destruct (send s2 t HP) as (s3&Hr3&Hst3&HS3).
        * rewrite Hst2. simpl in Hs. repeat (case_match; try done). injection Hs as <-. done.
        * intros h2 y Hy. exact (use_synced s1 t h x st' _ None HT (proj1 HS1) HS1 Hx h2 y Hy).
        * eapply reach_cons; [exact Hr3|]. apply reach_here; [done|]. congruence.
      + unfold lift in He. rewrite Hs in He. by eapply reach_ub.
    - destruct (step E (r_st s) (LLen t ty)) as [st'| | |] eqn:Hs; try done.
      + assert (rstep E O s (RLen t ty) = Next (set_st s st')) as Hs1 by (cbn [rstep]; unfold lift; by rewrite Hs).
        eapply reach_cons; [exact Hs1|]. apply reach_here; [|done].
        split; [eapply rstep_pool; [apply HS|exact Hs1]|apply HS].
      + eapply (reach_ub s (RLen t ty)). cbn [rstep]. unfold lift. by rewrite Hs.
    - destruct (step E (r_st s) (LShrink t ty)) as [st'| | |] eqn:Hs; try done.
      + assert (rstep E O s (RShrink t ty) = Next (set_st s st')) as Hs1 by (cbn [rstep]; unfold lift; by rewrite Hs).
        eapply reach_cons; [exact Hs1|]. apply reach_here; [|done].
        split; [eapply rstep_pool; [apply HS|exact Hs1]|apply HS].
      + eapply (reach_ub s (RShrink t ty)). cbn [rstep]. unfold lift. by rewrite Hs.
    - (* LStep *)
      destruct (fresh_hand s) as [h Hh].
      assert ((exists v p, get_pc (r_st s) t = PWork [] (Some (v, p)) /\
                 rstep E O s (RStep t a i h) = lift E s (LStep t a i) (λ s, new_hand s t h p)) \/
              rstep E O s (RStep t a i h) = lift E s (LStep t a i) (λ s', applies s' t (mops E O (r_st s) t i)))
        as [(v&q&Hpc&He)|He].
      { cbn [rstep]. destruct (get_pc (r_st s) t) as [| | | | | | | | | | |[|? ?] [[v q]|]| |] eqn:Hpc; try (by right).
        left. exists v, q. split; [done|]. by rewrite Hh. }
      + unfold lift in He. destruct (step E (r_st s) (LStep t a i)) as [st'| | |] eqn:Hs; try done.
        * pose proof (rstep_pool _ _ _ _ _ (proj1 HS) He) as HP.
          eapply reach_cons; [exact He|].
          destruct (send (new_hand (set_st s st') t h q) t HP) as (s3&Hr3&Hst3&HS3).
          -- simpl in Hs |- *. unfold step_thread in Hs. rewrite Hpc in Hs. injection Hs as <-.
             change (get_pc (set_pc (r_st s) t PFree) t = PFree). by rewrite get_pc_set, decide_True.
          -- intros h2 y Hy. cbn [new_hand r_hands set_hands] in Hy.
             apply lookup_insert_Some in Hy as [[<- <-]|[_ Hy]].
             ++ simpl. change (seen (new_hand ?a _ _ _) t) with (seen a t). set_solver.
             ++ pose proof (proj2 HS h2 y Hy). change (msgv (new_hand _ _ _ _) 0) with (msgv s 0). set_solver.
          -- eapply reach_cons; [exact Hr3|]. apply reach_here; [done|]. by rewrite Hst3.
        * by eapply reach_ub.
      + unfold lift in He. destruct (step E (r_st s) (LStep t a i)) as [st'| | |] eqn:Hs; try done.
        * pose proof (rstep_pool _ _ _ _ _ (proj1 HS) He) as HP.
          eapply reach_cons; [exact He|]. apply reach_here.
          -- split; [done|]. intros h2 y Hy. rewrite applies_hands in Hy. simpl in Hy.
             pose proof (proj2 HS h2 y Hy). etrans; [done|]. apply (applies_msgv (set_st s st')).
          -- by rewrite applies_st.
        * by eapply reach_ub.
    - (* LPanic *)
      assert (rstep E O s (RPanic t) = lift E s (LPanic t) (λ s', applies s' t (panic_mops E (r_st s) t))) as He by done.
      unfold lift in He. destruct (step E (r_st s) (LPanic t)) as [st'| | |] eqn:Hs; try done.
      + pose proof (rstep_pool _ _ _ _ _ (proj1 HS) He) as HP.
        eapply reach_cons; [exact He|]. apply reach_here.
        * split; [done|]. intros h2 y Hy. rewrite applies_hands in Hy. simpl in Hy.
          pose proof (proj2 HS h2 y Hy). etrans; [done|]. apply (applies_msgv (set_st s st')).
        * by rewrite applies_st.
      + by eapply reach_ub.
  Qed.

  Lemma reach_run (ls : list (label V)) : forall s, Synced s ->
    exists rls, match run (step E) (r_st s) ls with
                | Some st => exists s', run (rstep E O) s rls = Some s' /\ r_st s' = st
                | None => run (rstep E O) s rls = None
                end.
  Proof.
    induction ls as [|l ls IH]; intros s HS; [by exists [], s|]. simpl. unfold exec.
    pose proof (reach_step s l HS) as Hr. destruct (step E (r_st s) l) as [st'| | |] eqn:Hs; simpl in Hr.
    - destruct Hr as (rls&s'&Hr&<-&HS'). destruct (IH s' HS') as (rls'&Hr').
      exists (rls ++ rls'). rewrite run_app, Hr. done.
    - by apply IH.
    - by apply IH.
    - destruct Hr as (rls&Hr). by exists rls.
  Qed.
  Theorem rrun_complete (ls : list (label V)) :
    exists rls, match run (step E) init ls with
                | Some st => exists s, run (rstep E O) rinit rls = Some s /\ r_st s = st
                | None => run (rstep E O) rinit rls = None
                end.
  Proof.
    apply (reach_run ls rinit). split.
    - intros p. simpl. by rewrite msum_empty.
    - intros h x Hx. simpl in Hx. by rewrite lookup_empty in Hx.
  Qed.

  Theorem rrun_exact (st : state V) :
    (exists ls : list (label V), run (step E) init ls = Some st) <->
    (exists rls s, run (rstep E O) rinit rls = Some s /\ r_st s = st).
  Proof.
    split.
    - intros (ls&Hr). destruct (rrun_complete ls) as (rls&H). rewrite Hr in H. by exists rls.
    - intros (rls&s&Hr&<-). destruct (rrun_erase rls s Hr) as (ls&H&_). by exists ls.
  Qed.
  Theorem rrun_ub_exact :
    (exists ls : list (label V), run (step E) init ls = None) <-> (exists rls, run (rstep E O) rinit rls = None).
  Proof.
    split.
    - intros (ls&Hr). destruct (rrun_complete ls) as (rls&H). rewrite Hr in H. by exists rls.
    - intros (rls&Hr). revert Hr. induction rls as [|l rls IH] using rev_ind; [done|].
      rewrite run_snoc. destruct (run (rstep E O) rinit rls) as [s|] eqn:Hr1; [|by auto].
      destruct (rrun_erase rls s Hr1) as (ls&Hls&_). unfold exec.
      destruct (rstep E O s l) eqn:Hs; try done. intros _.
      apply rstep_UB in Hs as [l' Hl']. exists (ls ++ [l']). rewrite run_snoc, Hls. unfold exec. by rewrite Hl'.
  Qed.
End thm.

(** WeakModel: the invariant of RaceModel is kept, so there is no undefined behaviour and no data
    race. *)
From stdpp Require Import gmap list numbers.
From Verif Require Import Base ArcModel ArcSpec ArcInv ArcStep ArcSafe ArcReach.
From Verif Require Import RaceModel RaceSpec RaceInv RaceStep RaceSafe RaceFinal RaceHb RaceThm.
From Verif Require Import WeakModel WeakSpec WeakHb WeakInv.
Require Import ZifyBool ZifyNat ZifyN.

Lemma wrep_closed {V} evs (s : rstate V) W P : WClk evs s -> wrep evs W P -> closed (r_trace s) W.
Proof.
  intros HC HR a Ha. apply HR in Ha as (i&(e&He&Hacc)&Hp&(j&f&Hh&Hf&HP)).
  destruct (wk_trace _ _ HC i e He Hacc) as (y&Hy&_&_&Hpast). rewrite Hp in Hy. exists y. split; [done|].
  intros b Hb. apply Hpast in Hb as (i'&Hi'&Hp'&Hh'). apply HR. exists i'. split; [done|]. split; [done|].
  exists j, f. split; [|done]. right. destruct Hh as [->|Hh]; [done|]. by eapply whb_trans.
Qed.

Section safe.
  Context {V : Type} (E : tyenv V) (O : orders).
  Context (HL : coherent E) (HW : wide E).
  Context (Hacq : acquires (o_sub O) = true) (Hrel : releases (o_sub O) = true).
  Implicit Types (s : rstate V) (x : wstate V).

  (** What [refcount()] does to the state of RaceModel. *)
  Lemma wref_inv x t h ks w x' : wstep E O x (WRef t h ks w) = Next x' ->
    exists y n W st, may_use (w_race x) t h = Some y /\
      step E (r_st (w_race x)) (LRef (h_ptr y) ks) = Next st /\
      value x (p_ser (target (h_ptr y) ks)) w = Some (n, W) /\
      coherent_read x (p_ser (target (h_ptr y) ks)) w (seen (w_race x) t) = true /\
      w_race x' =
        (let s1 := apply (set_st (w_race x) st) t (MTouch ((λ n, (n, TRead)) <$> path (h_ptr y) ks)) in
         let s2 := if acquires (o_load O) then set_seen s1 t (W ∪ seen s1 t) else s1 in
         used (add_access s2 t [(p_ser (target (h_ptr y) ks), TAtomic)]) t h y) /\
      w_writes x' = w_writes x /\ w_got x' = w_got x ++ [(t, target (h_ptr y) ks, n)].
  Proof.
    intros Hs. cbn [wstep] in Hs. destruct (may_use (w_race x) t h) as [y|] eqn:Hm; [|done].
    destruct (step E (r_st (w_race x)) (LRef (h_ptr y) ks)) as [st| | |] eqn:Hst; try done.
    destruct (value x (p_ser (target (h_ptr y) ks)) w) as [[n W]|] eqn:Hv; [|done].
    destruct (coherent_read _ _ _ _) eqn:Hc; [|done]. injection Hs as <-. by exists y, n, W, st.
  Qed.

  Lemma lref_inv st p ks st' : step E st (LRef p ks) = Next st' ->
    exists c, borrow E st p ks = Next (target p ks) /\ deref st (target p ks) = Some c /\
      st' = add_log st (EvRef (target p ks) (c_count c)).
  Proof.
    simpl. destruct (borrow E st p ks) as [k| | |] eqn:Hb; try done.
    destruct (borrow_owns E _ _ _ _ Hb) as (<-&_).
    destruct (deref st k) as [c|] eqn:Hc; [|done]. intros [= <-]. by exists c.
  Qed.

  Lemma wref_good evs x t h ks w x' : WHist evs x -> Good E (w_race x) -> Fit E (w_race x) ->
    wstep E O x (WRef t h ks w) = Next x' -> Good E (w_race x').
  Proof.
    intros HH HG Hf Hs. apply wref_inv in Hs as (y&n&W&st&Hm&Hst&Hv&_&->&_). cbv zeta.
    pose proof HG as [HA HI HP HS]. apply may_use_inv in Hm as (Hpc&Hy&Hsub).
    assert (Inv E st /\ ser_inj st) as [HA' HS'].
    { split; [eapply step_inv; [done..|apply Hf|exact Hst]|eapply step_ser_inj; [done|done|exact Hst]]. }
    apply lref_inv in Hst as (c&Hb&Hc&->).
    destruct (borrow_live E (r_st (w_race x)) (h_ptr y) ks HA) as [_ Hbl]. specialize (Hbl _ Hb).
    destruct (borrow_owns E _ _ _ _ Hb) as (_&Ho&Hpath).
    set (p := target (h_ptr y) ks) in *. set (s := w_race x) in *. set (st' := add_log _ _) in *.
    set (ms := (λ n0, (n0, TRead)) <$> path (h_ptr y) ks).
    set (s1 := used (apply s t (MTouch ms)) t h y).
    assert (RInv E s1) as H1 by (by apply (ri_path E O HL Hacq Hrel)).
    pose proof (hist_op evs _ _ _ t (MTouch ms) HH I I) as HH1.
    assert (closed (r_trace s) W) as HcW.
    { eapply wrep_closed; [apply (hi_clk _ _ _ _ HH)|by eapply value_pub]. }
    set (s2 := if acquires (o_load O) then set_seen s1 t (W ∪ seen s1 t) else s1).
    assert (RInv E s2) as H2.
    { unfold s2. destruct (acquires (o_load O)); [|done]. apply ri_learn; [done|]. simpl. by apply closed_app. }
    assert (r_st s2 = r_st s /\ r_hands s2 = r_hands s1 /\ r_trace s2 = r_trace s1 /\ seen s1 t ⊆ seen s2 t) as (E1&E2&E3&E4).
    { unfold s2. destruct (acquires (o_load O)); [|done]. split; [done|]. split; [done|]. split; [done|].
      rewrite seen_set_seen, decide_True by done. set_solver. }
    assert (seen s t ⊆ seen s1 t) as Hs1.
    { unfold s1. change (seen (used ?a _ _ _) t) with (seen a t). cbn [apply].
      rewrite seen_add, decide_True by done. set_solver. }
    destruct (ri_use_rmw E O HL Hacq Hrel s2 t h y (Hand (h_ptr y) (h_made y) (seen s1 t ∪ h_used y)) p Relaxed) as [_ H3]; rewrite ?E1; try done.
    { rewrite E2. simpl. apply lookup_insert. }
    { rewrite E3. simpl. eapply closed_app, wf_used; [apply HI|done]. }
    { simpl. set_solver. }
    { set_solver. }
    cbn [apply acquires] in H3.
    assert (used (add_access (if acquires (o_load O)
        then set_seen (apply (set_st s st') t (MTouch ms)) t (W ∪ seen (apply (set_st s st') t (MTouch ms)) t)
        else apply (set_st s st') t (MTouch ms)) t [(p_ser p, TAtomic)]) t h y
      = set_st (used (add_access s2 t [(p_ser p, TAtomic)]) t h y) st') as Heq.
    { unfold s2, s1, used. destruct (acquires (o_load O)); simpl; unfold set_st, set_hands, set_seen, add_access, seen; simpl;
        f_equal; rewrite ?insert_insert.
      all: try done. }
    change (Good E (used (add_access (if acquires (o_load O)
        then set_seen (apply (set_st s st') t (MTouch ms)) t (W ∪ seen (apply (set_st s st') t (MTouch ms)) t)
        else apply (set_st s st') t (MTouch ms)) t [(p_ser p, TAtomic)]) t h y)).
    rewrite Heq. constructor.
    - exact HA'.
    - apply (ri_same E _ st') in H3; cbn [r_st used set_hands add_access]; rewrite ?E1; done.
    - intros q. simpl. rewrite (HP q), E2. unfold s1, used. simpl. rewrite insert_insert.
      match goal with |- _ = msum _ (<[_:=?y']> _) =>
        pose proof (msum_insert_Some (λ a, is_p q (h_ptr a)) (r_hands s) h y' y Hy) as Hi end.
      simpl in Hi. lia.
    - exact HS'.
  Qed.

  Lemma wstep_no_ub x l : Good E (w_race x) -> wstep E O x l <> UB.
  Proof.
    intros HG. destruct l as [l|t h ks w]; cbn [wstep].
    - destruct (is_ref l); [done|]. pose proof (rstep_no_ub E O (w_race x) l HG).
      by destruct (rstep E O (w_race x) l).
    - destruct (may_use (w_race x) t h) as [y|]; [|done].
      pose proof (step_no_ub E (r_st (w_race x)) (LRef (h_ptr y) ks) (g_inv _ _ HG)).
      destruct (step E (r_st (w_race x)) (LRef (h_ptr y) ks)); try done.
      destruct (value _ _ _) as [[]|]; [|done]. by destruct (coherent_read _ _ _ _).
  Qed.
  Lemma wstep_good evs x l x' : WHist evs x -> Good E (w_race x) -> Fit E (w_race x) ->
    wstep E O x l = Next x' -> Good E (w_race x').
  Proof.
    intros HH HG Hf Hs. destruct l as [l|t h ks w]; [|by eapply wref_good].
    simpl in Hs. destruct (is_ref l); [done|].
    destruct (rstep E O (w_race x) l) as [s'| | |] eqn:Hst; try done. injection Hs as <-.
    simpl. by eapply (rstep_good E O HL Hacq Hrel HW).
  Qed.

  Lemma wbounded_app ls1 ls2 : wbounded E O (ls1 ++ ls2) -> wbounded E O ls1.
  Proof. clear. intros Hb l1 l2 s1 -> Hr. eapply (Hb l1 (l2 ++ ls2)); [by rewrite app_assoc|done]. Qed.
  Lemma wbounded_fit ls x : wbounded E O ls -> run (wstep E O) winit ls = Some x -> Fit E (w_race x).
  Proof. clear. intros Hb Hr p. apply (Hb ls [] x); [by rewrite app_nil_r|done]. Qed.

  Theorem wrun_good ls : wbounded E O ls -> exists x, run (wstep E O) winit ls = Some x /\ Good E (w_race x).
  Proof.
    induction ls as [|l ls IH] using rev_ind; intros Hb.
    - exists winit. split; [done|]. by apply (good_init E O).
    - destruct (IH (wbounded_app _ _ Hb)) as (x&Hr&HG). rewrite run_snoc, Hr. unfold exec.
      destruct (wstep E O x l) as [x'| | |] eqn:Hs; [|by eauto..|].
      + exists x'. split; [done|]. eapply wstep_good; [by apply (whist E O ls)|done| |exact Hs].
        eapply wbounded_fit; [by eapply wbounded_app|done].
      + by destruct (wstep_no_ub x l HG).
  Qed.

  Theorem wrun_race_free ls : wbounded E O ls ->
    is_Some (run (wstep E O) winit ls) /\ wrace_free (wevents E O ls).
  Proof.
    intros Hb. destruct (wrun_good ls Hb) as (x&Hr&HG). split; [by eexists|].
    eapply wtrace_race_free; [apply (hi_clk _ _ _ _ (whist E O ls x Hr))|]. apply HG.
  Qed.
End safe.

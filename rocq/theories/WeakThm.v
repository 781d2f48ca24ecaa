(** WeakModel has the executions of ArcModel; only the results of [refcount()] are weaker. *)
From stdpp Require Import gmap list numbers.
From Verif Require Import Base ArcModel ArcSpec ArcInv ArcStep ArcSafe ArcReach.
From Verif Require Import RaceModel RaceSpec RaceInv RaceStep RaceSafe RaceFinal RaceHb RaceThm.
From Verif Require Import WeakModel WeakSpec WeakHb WeakInv WeakSafe WeakCoh WeakVal.
Require Import ZifyBool ZifyNat ZifyN.

Section exact.
  Context {V : Type} (E : tyenv V) (O : orders).
  Implicit Types (s : rstate V) (x : wstate V).

  Lemma wrep_unique evs W W' P Q : (forall j e, evs !! j = Some e -> P j e <-> Q j e) ->
    wrep evs W P -> wrep evs W' Q -> W = W'.
  Proof.
    intros H H1 H2. apply (wrep_ext _ _ _ _ H) in H1. apply set_eq. intros a. by rewrite (H1 a), (H2 a).
  Qed.
  (** The newest value. *)
  Lemma newest evs x k : WHist evs x ->
    exists n, value x k (length (writes_of x k)) = Some (n, countv (w_race x) k).
  Proof.
    intros HH. pose proof (hi_len _ _ _ _ HH k) as Hlen.
    change (obj_writes (w_writes x) k) with (writes_of x k) in Hlen.
    destruct (proj2 (value_some evs x k (length (writes_of x k)) HH) ltac:(lia)) as ([n W]&Hv).
    exists n. rewrite Hv. do 2 f_equal.
    eapply wrep_unique; [|by eapply value_pub|apply (wk_count _ _ (hi_clk _ _ _ _ HH))].
    intros j [u f] Hj. unfold upto. simpl. split; [intros (o&->&Ho&_); by eauto|]. intros (o&->&Ho).
    exists o. split; [done|]. split; [done|]. rewrite Hlen. eapply rmws_take_lt; [done|].
    unfold is_rmw. simpl. apply Nat.eqb_refl.
  Qed.

  Lemma newest_step ls x t h ks s' : run (wstep E O) winit ls = Some x ->
    rstep E O (w_race x) (RRef t h ks) = Next s' -> exists w x', wstep E O x (WRef t h ks w) = Next x' /\ w_race x' = s'.
  Proof.
    intros Hr Hs. pose proof (whist E O ls x Hr) as HH. cbn [rstep] in Hs. cbn [wstep].
    destruct (may_use (w_race x) t h) as [y|]; [|done]. unfold lift in Hs.
    destruct (step E (r_st (w_race x)) (LRef (h_ptr y) ks)) as [st| | |]; try done. injection Hs as <-.
    set (k := p_ser (target (h_ptr y) ks)). destruct (newest _ x k HH) as (n&Hv).
    exists (length (writes_of x k)). rewrite Hv.
    assert (coherent_read x k (length (writes_of x k)) (seen (w_race x) t) = true) as ->.
    { unfold coherent_read. rewrite drop_ge by lia. simpl. apply forallb_forall. intros z [Hz He]%List.filter_In.
      destruct (hi_read _ _ _ _ HH z) as (j&u&o&Hj&_); [by apply elem_of_list_In|].
      assert (e_obj z = k) as Hk by lia. rewrite Hk in Hj.
      destruct (weak_coherent E O ls j u k o _ Hj) as (Hle&_).
      pose proof (rmws_take k (wevents E O ls) j). pose proof (hi_len _ _ _ _ HH k) as Hlen.
      change (obj_writes (w_writes x) k) with (writes_of x k) in Hlen.
      assert (e_no z <=? length (writes_of x k) = true) as ->; [|done]. lia. }
    eexists. split; [reflexivity|]. cbn [w_race]. cbv zeta. unfold applies. cbn [fold_left].
    cbn [apply]. done.
  Qed.

  Theorem wrun_complete rls s : run (rstep E O) rinit rls = Some s ->
    exists ls x, run (wstep E O) winit ls = Some x /\ w_race x = s.
  Proof.
    revert s. induction rls as [|l rls IH] using rev_ind; intros s Hr.
    - injection Hr as <-. by exists [], winit.
    - rewrite run_snoc in Hr. destruct (run (rstep E O) rinit rls) as [s0|]; [|done].
      destruct (IH s0 eq_refl) as (ls&x&Hx&<-). unfold exec in Hr.
      destruct (rstep E O (w_race x) l) as [s1| | |] eqn:Hs; [|by injection Hr as <-; exists ls, x..|done].
      injection Hr as <-. destruct (is_ref l) eqn:Hl.
      + destruct l as [| | | |t h ks| | | | | | |]; try done.
        destruct (newest_step ls x t h ks s1 Hx Hs) as (w&x'&Hx'&He). exists (ls ++ [WRef t h ks w]), x'.
        rewrite run_snoc, Hx. unfold exec. by rewrite Hx'.
      + eexists (ls ++ [WL l]), _. rewrite run_snoc, Hx. unfold exec. cbn [wstep]. rewrite Hl, Hs. done.
  Qed.
  Theorem wrun_erase ls x : run (wstep E O) winit ls = Some x ->
    exists ls', run (step E) init ls' = Some (r_st (w_race x)).
  Proof.
    revert x. induction ls as [|l ls IH] using rev_ind; intros x Hr.
    - injection Hr as <-. by exists [].
    - rewrite run_snoc in Hr. destruct (run (wstep E O) winit ls) as [x0|]; [|done].
      destruct (IH x0 eq_refl) as (ls'&Hls). unfold exec in Hr.
      destruct (wstep E O x0 l) as [x1| | |] eqn:Hs; [|by injection Hr as <-; exists ls'..|done]. injection Hr as <-.
      destruct (wstep_arc E O x0 l x1 Hs) as [(l'&Hst)| ->]; [|by exists ls'].
      exists (ls' ++ [l']). rewrite run_snoc, Hls. unfold exec. by rewrite Hst.
  Qed.
  Theorem wrun_exact (st : state V) :
    (exists ls, run (step E) init ls = Some st) <->
    (exists ls x, run (wstep E O) winit ls = Some x /\ r_st (w_race x) = st).
  Proof.
    rewrite (rrun_exact E O st). split.
    - intros (rls&s&Hr&<-). destruct (wrun_complete rls s Hr) as (ls&x&Hx&<-). by exists ls, x.
    - intros (ls&x&Hx&<-). apply (rrun_exact E O). by eapply wrun_erase.
  Qed.

  Theorem wrun_ub_exact : (exists ls, run (step E) init ls = None) <-> (exists ls, run (wstep E O) winit ls = None).
  Proof.
    split.
    - intros (rls&Hr)%(rrun_ub_exact E O). induction rls as [|l rls IH] using rev_ind; [done|].
      rewrite run_snoc in Hr. destruct (run (rstep E O) rinit rls) as [s|] eqn:Hr0; [|by apply IH].
      destruct (wrun_complete rls s Hr0) as (ls&x&Hx&<-). unfold exec in Hr.
      destruct (rstep E O (w_race x) l) eqn:Hs; try done. destruct (is_ref l) eqn:Hl.
      + destruct l as [| | | |t h ks| | | | | | |]; try done. exists (ls ++ [WRef t h ks 0]). rewrite run_snoc, Hx.
        unfold exec. cbn [rstep] in Hs. cbn [wstep]. destruct (may_use (w_race x) t h); [|done]. unfold lift in Hs.
        by destruct (step E (r_st (w_race x)) (LRef (h_ptr h0) ks)).
      + exists (ls ++ [WL l]). rewrite run_snoc, Hx. unfold exec. cbn [wstep]. by rewrite Hl, Hs.
    - intros (ls&Hr). induction ls as [|l ls IH] using rev_ind; [done|].
      rewrite run_snoc in Hr. destruct (run (wstep E O) winit ls) as [x|] eqn:Hx; [|by apply IH].
      destruct (wrun_erase ls x Hx) as (ls'&Hls). unfold exec in Hr.
      assert (exists l', step E (r_st (w_race x)) l' = UB) as (l'&Hub).
      { destruct (wstep E O x l) as [| | |] eqn:Hs; try done. destruct l as [l|t h ks w].
        - simpl in Hs. destruct (is_ref l); [done|]. destruct (rstep E O (w_race x) l) eqn:Hst; try done.
          by eapply rstep_UB.
        - cbn [wstep] in Hs. destruct (may_use (w_race x) t h) as [y|]; [|done].
          destruct (step E (r_st (w_race x)) (LRef (h_ptr y) ks)) eqn:Hst; try done; [|by eauto].
          destruct (value _ _ _) as [[]|]; [|done]. by destruct (coherent_read _ _ _ _). }
      exists (ls' ++ [l']). rewrite run_snoc, Hls. unfold exec. by rewrite Hub.
  Qed.

  Theorem wshort_bounded ls : coherent E -> wide E -> (N.of_nat (length ls) < te_mod E)%N -> wbounded E O ls.
  Proof.
    intros HL HW Hlen l1 l2 x1 -> Hr p. rewrite app_length in Hlen.
    assert (exists ls', run (step E) init ls' = Some (r_st (w_race x1)) /\ length ls' <= length l1) as (ls'&Hr'&Hl).
    { clear Hlen. revert x1 Hr. induction l1 as [|l l1 IH] using rev_ind; intros x1 Hr.
      - injection Hr as <-. by exists [].
      - rewrite run_snoc in Hr. destruct (run (wstep E O) winit l1) as [x0|]; [|done].
        destruct (IH x0 eq_refl) as (ls'&Hls&Hl). unfold exec in Hr. rewrite app_length. simpl.
        destruct (wstep E O x0 l) as [x2| | |] eqn:Hs; [|injection Hr as <-; exists ls'; split; [done|lia]..|done]. injection Hr as <-.
        destruct (wstep_arc E O x0 l x2 Hs) as [(l'&Hst)| ->]; [|exists ls'; split; [done|lia]].
        exists (ls' ++ [l']). rewrite run_snoc, Hls, app_length. unfold exec. rewrite Hst. split; [done|simpl; lia]. }
    assert (bounded E ls') as Hb by (apply short_bounded; [done..|lia]).
    eapply (Hb ls' []); [by rewrite app_nil_r|done].
  Qed.
End exact.

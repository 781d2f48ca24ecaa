(** WeakModel: what a load of a count may return, in terms of happens-before. *)
From stdpp Require Import gmap list numbers.
From Verif Require Import Base ArcModel ArcSpec ArcInv ArcStep ArcSafe ArcReach.
From Verif Require Import RaceModel RaceSpec RaceInv RaceStep RaceSafe RaceFinal RaceHb RaceThm.
From Verif Require Import WeakModel WeakSpec WeakHb WeakInv WeakSafe.
Require Import ZifyBool ZifyNat ZifyN.

Lemma rmws_take_mono k evs i j : i <= j -> rmws k (take i evs) <= rmws k (take j evs).
Proof.
  intros Hij. replace (take i evs) with (take i (take j evs)); [apply rmws_take|].
  rewrite take_take. by rewrite Nat.min_l.
Qed.

Section coh.
  Context {V : Type} (E : tyenv V) (O : orders).
  Implicit Types (evs : list wevent) (s : rstate V) (x : wstate V).

  (** The trace of events grows with the execution. *)
  Lemma wevents_from_app x ls1 ls2 : wevents_from E O x (ls1 ++ ls2) =
    wevents_from E O x ls1 ++ match run (wstep E O) x ls1 with Some x1 => wevents_from E O x1 ls2 | None => [] end.
  Proof.
    revert x. induction ls1 as [|l ls1 IH]; intros x; simpl; [done|].
    unfold exec. destruct (wstep E O x l); [|apply IH..|done]. rewrite IH. by rewrite app_assoc.
  Qed.
  Lemma wevents_app ls1 ls2 x1 : run (wstep E O) winit ls1 = Some x1 ->
    wevents E O (ls1 ++ ls2) = wevents E O ls1 ++ wevents_from E O x1 ls2.
  Proof. intros Hr. unfold wevents. by rewrite wevents_from_app, Hr. Qed.
  Lemma wevents_snoc ls x l : run (wstep E O) winit ls = Some x ->
    wevents E O (ls ++ [l]) = wevents E O ls ++
      match wstep E O x l with Next _ => (λ o, (wactor l, o)) <$> wops E O x l | _ => [] end.
  Proof.
    intros Hr. rewrite (wevents_app _ _ _ Hr). f_equal. simpl. destruct (wstep E O x l); try done.
    by rewrite app_nil_r.
  Qed.

  Lemma known_seen evs x t i : WHist evs x -> waccs evs i ->
    wknown evs t i <-> wpos evs i ∈ seen (w_race x) t.
  Proof.
    intros HH Hi. rewrite (wk_seen _ _ (hi_clk _ _ _ _ HH) t (wpos evs i)). split.
    - intros (j&e&Hj&He&Hh). exists i. split; [done|]. split; [done|]. by exists j, e.
    - intros (i'&Hi'&Hp&(j&e&Hh&Hj&He)). assert (i' = i) as -> by (by eapply wpos_inj). by exists j, e.
  Qed.
  Lemma rmw_acc evs i t k o : evs !! i = Some (t, Op (MRmw k o)) -> waccs evs i.
  Proof. intros Hi. by exists (t, Op (MRmw k o)). Qed.
  Lemma read_acc evs i t k o w : evs !! i = Some (t, ReadCount k o w) -> waccs evs i.
  Proof. intros Hi. by exists (t, ReadCount k o w). Qed.

  (** Coherence as the model checks it is coherence of happens-before. *)
  Lemma coherent_read_spec evs x t k w : WHist evs x ->
    coherent_read x k w (seen (w_race x) t) = true <->
    (forall i u o, evs !! i = Some (u, Op (MRmw k o)) -> wknown evs t i -> rmws k (take i evs) < w) /\
    (forall i u o w', evs !! i = Some (u, ReadCount k o w') -> wknown evs t i -> w' <= w).
  Proof.
    intros HH. unfold coherent_read. rewrite andb_true_iff, !forallb_forall. split.
    - intros [H1 H2]. split.
      + intros i u o Hi Hk. apply (known_seen _ x) in Hk; [|done|by eapply rmw_acc].
        destruct (hi_of _ _ _ _ HH i u k o Hi) as (z&Hz&Ha).
        destruct (decide (rmws k (take i evs) < w)) as [|Hn]; [done|].
        assert (z ∈ drop w (writes_of x k)) as Hin.
        { apply elem_of_list_lookup. exists (rmws k (take i evs) - w). rewrite lookup_drop.
          rewrite <- Hz. f_equal. lia. }
        apply elem_of_list_In in Hin. specialize (H1 z Hin). rewrite Ha, bool_decide_true in H1 by done. done.
      + intros i u o w' Hi Hk. apply (known_seen _ x) in Hk; [|done|by eapply read_acc].
        pose proof (hi_reads _ _ _ _ HH i u k o w' Hi) as Hin.
        assert (In (Read k w' (wpos evs i)) (reads_of x k)) as Hin'.
        { apply List.filter_In. split; [by apply elem_of_list_In|]. simpl. apply Nat.eqb_refl. }
        specialize (H2 _ Hin'). simpl in H2. rewrite bool_decide_true in H2 by done. simpl in H2. lia.
    - intros [H1 H2]. split.
      + intros z Hz. apply elem_of_list_In, elem_of_list_lookup in Hz as (a&Hz). rewrite lookup_drop in Hz.
        destruct (hi_ev _ _ _ _ HH k _ z Hz) as (j&u&o&Hj&Ha&Hn).
        rewrite bool_decide_false; [done|]. rewrite Ha. intros Hin.
        assert (wknown evs t j) as Hk. { apply (known_seen _ x); [done|by eapply rmw_acc|done]. }
        specialize (H1 j u o Hj Hk). lia.
      + intros z Hz. apply List.filter_In in Hz as [Hz Hk].
        destruct (hi_read _ _ _ _ HH z) as (j&u&o&Hj&Ha); [by apply elem_of_list_In|].
        assert (e_obj z = k) as He by lia. rewrite He in Hj.
        destruct (bool_decide (e_at z ∈ seen (w_race x) t)) eqn:Hb; [|by rewrite orb_true_r].
        apply bool_decide_eq_true in Hb. rewrite Ha in Hb.
        assert (wknown evs t j) as Hkn. { apply (known_seen _ x); [done|by eapply read_acc|done]. }
        specialize (H2 j u o _ Hj Hkn). lia.
  Qed.
  Lemma value_some evs x k w : WHist evs x -> is_Some (value x k w) <-> w <= rmws k evs.
  Proof.
    intros HH. pose proof (hi_len _ _ _ _ HH k) as Hl. destruct w as [|w]; simpl.
    - split; [lia|]. by eexists.
    - change (obj_writes (w_writes x) k) with (writes_of x k) in Hl.
      destruct (writes_of x k !! w) as [z|] eqn:Hz.
      + apply lookup_lt_Some in Hz. split; [lia|]. by eexists.
      + apply lookup_ge_None in Hz. split; [by intros []|lia].
  Qed.

  (** A load may read the values that coherence allows it to read. *)
  Theorem weak_possible ls x t h ks w y : run (wstep E O) winit ls = Some x ->
    r_hands (w_race x) !! h = Some y ->
    let k := p_ser (target (h_ptr y) ks) in
    let evs := wevents E O ls in
    (exists x', wstep E O x (WRef t h ks w) = Next x') <->
    (exists s, rstep E O (w_race x) (RRef t h ks) = Next s) /\
    w <= rmws k evs /\
    (forall i u o, evs !! i = Some (u, Op (MRmw k o)) -> wknown evs t i -> rmws k (take i evs) < w) /\
    (forall i u o w', evs !! i = Some (u, ReadCount k o w') -> wknown evs t i -> w' <= w).
  Proof.
    intros Hr Hy k evs. pose proof (whist E O ls x Hr) as HH. fold evs in HH.
    rewrite <- (value_some evs x k w HH), <- (coherent_read_spec evs x t k w HH).
    cbn [wstep rstep]. unfold lift. unfold may_use. rewrite Hy.
    destruct (get_pc (r_st (w_race x)) t); try (split; [by intros []|by intros [[] _]]).
    destruct (decide (h_made y ⊆ seen (w_race x) t)); [|by split; [intros []|intros [[] _]]]. fold k.
    destruct (step E (r_st (w_race x)) (LRef (h_ptr y) ks)) as [st| | |]; try (split; [by intros []|by intros [[] _]]).
    destruct (value x k w) as [[n W]|]; [|split; [by intros []|by intros (_&[]&_)]].
    destruct (coherent_read _ _ _ _); [|split; [by intros []|by intros (_&_&?)]].
    split; [|by eauto]. intros _. split; [by eauto|]. by split; [eexists|].
  Qed.

  (** The loads of an execution are coherent. *)
  Definition Coh evs : Prop := forall j u k o w, evs !! j = Some (u, ReadCount k o w) ->
    w <= rmws k (take j evs) /\
    (forall i u o, evs !! i = Some (u, Op (MRmw k o)) -> whb evs i j -> rmws k (take i evs) < w) /\
    (forall i u o w', evs !! i = Some (u, ReadCount k o w') -> whb evs i j -> w' <= w).

  Definition no_read (o : wop) : Prop := match o with ReadCount _ _ _ => False | _ => True end.
  Lemma coh_old evs e j u k o w : Coh evs -> j < length evs -> (evs ++ [e]) !! j = Some (u, ReadCount k o w) ->
    w <= rmws k (take j (evs ++ [e])) /\
    (forall i u o, (evs ++ [e]) !! i = Some (u, Op (MRmw k o)) -> whb (evs ++ [e]) i j -> rmws k (take i (evs ++ [e])) < w) /\
    (forall i u o w', (evs ++ [e]) !! i = Some (u, ReadCount k o w') -> whb (evs ++ [e]) i j -> w' <= w).
  Proof.
    intros HC Hl Hj. rewrite lookup_app_l in Hj by done. destruct (HC j u k o w Hj) as (H1&H2&H3).
    rewrite take_snoc_le by lia. split; [done|]. split.
    - intros i v o' Hi Hh. pose proof (whb_lt _ _ _ Hh). rewrite lookup_app_l in Hi by lia.
      rewrite take_snoc_le by lia. eapply H2; [done|]. by eapply whb_strengthen.
    - intros i v o' w' Hi Hh. pose proof (whb_lt _ _ _ Hh). rewrite lookup_app_l in Hi by lia.
      eapply H3; [done|]. by eapply whb_strengthen.
  Qed.
  Lemma coh_snoc evs t o : Coh evs -> no_read o -> Coh (evs ++ [(t, o)]).
  Proof.
    intros HC Hn j u k o' w Hj. pose proof (lookup_lt_Some _ _ _ Hj) as Hl. rewrite app_length in Hl. simpl in Hl.
    destruct (decide (j < length evs)) as [Hlt|]; [by eapply coh_old|].
    assert (j = length evs) as -> by lia. rewrite list_lookup_middle in Hj by done. by injection Hj as -> ->.
  Qed.
  Lemma coh_plain evs t (os : list wop) : Coh evs -> Forall no_read os -> Coh (evs ++ ((λ o, (t, o)) <$> os)).
  Proof.
    revert evs. induction os as [|o os IH]; intros evs HC Hn; csimpl; [by rewrite app_nil_r|].
    inversion Hn; subst. rewrite (cons_middle _ evs), app_assoc. apply IH; [|done]. by apply coh_snoc.
  Qed.
  Lemma coh_read evs t k o w : Coh evs -> w <= rmws k evs ->
    (forall i u o, evs !! i = Some (u, Op (MRmw k o)) -> wknown evs t i -> rmws k (take i evs) < w) ->
    (forall i u o w', evs !! i = Some (u, ReadCount k o w') -> wknown evs t i -> w' <= w) ->
    Coh (evs ++ [(t, ReadCount k o w)]).
  Proof.
    intros HC H1 H2 H3 j u k' o' w' Hj. pose proof (lookup_lt_Some _ _ _ Hj) as Hl. rewrite app_length in Hl. simpl in Hl.
    destruct (decide (j < length evs)) as [Hlt|]; [by eapply coh_old|].
    assert (j = length evs) as -> by lia. rewrite list_lookup_middle in Hj by done. injection Hj as <- <- <- <-.
    rewrite take_app. split; [done|].
    assert (forall i, whb (evs ++ [(t, ReadCount k o w)]) i (length evs) -> wknown evs t i \/
      exists j, i <= j /\ j < length evs /\ rmws k (take j evs) < w) as Hcase.
    { intros i (j&f&Hh&Hf&[Hb|Hb])%whb_last; [left; by exists j, f|right]. exists j.
      split; [destruct Hh as [->|Hh%whb_lt]; lia|]. split; [by eapply lookup_lt_Some|].
      destruct f as [v [m|]]; [|done]. destruct m; try done. by destruct Hb as (->&_&_&?). }
    split.
    - intros i v o' Hi Hh. destruct (Hcase i Hh) as [Hk|(j&Hij&Hj&Hlt)].
      + pose proof (whb_lt _ _ _ Hh). rewrite lookup_app_l in Hi by lia. rewrite take_snoc_le by lia. by eapply H2.
      + rewrite take_snoc_le by lia. pose proof (rmws_take_mono k evs i j Hij). lia.
    - intros i v o' w' Hi Hh. pose proof (whb_lt _ _ _ Hh). rewrite lookup_app_l in Hi by lia.
      destruct (Hcase i Hh) as [Hk|(j&Hij&Hj&Hlt)]; [by eapply H3|].
      destruct (HC i v k o' w' Hi) as (Hw&_). pose proof (rmws_take_mono k evs i j Hij). lia.
  Qed.

  Theorem weak_coherent ls : Coh (wevents E O ls).
  Proof.
    induction ls as [|l ls IH] using rev_ind; [by intros j u k o w Hj|].
    destruct (run (wstep E O) winit ls) as [x|] eqn:Hr.
    - rewrite (wevents_snoc _ _ _ Hr). destruct (wstep E O x l) as [x'| | |] eqn:Hs; try by rewrite app_nil_r.
      destruct l as [l|t h ks w].
      + apply coh_plain; [done|]. cbn [wops]. apply Forall_fmap. by apply Forall_forall.
      + pose proof Hs as Hs'. apply wref_inv in Hs' as (y&_&_&_&Hm&_). apply may_use_inv in Hm as (_&Hy&_).
        cbn [wops wactor]. rewrite Hy. csimpl. rewrite (cons_middle _ (wevents E O ls)), app_assoc.
        destruct (weak_possible ls x t h ks w y Hr Hy) as [(_&H1&H2&H3) _]; [by eauto|].
        set (evs := wevents E O ls) in *. set (m := (t, Op (MTouch _))).
        assert (forall i, i < length evs -> wknown (evs ++ [m]) t i -> wknown evs t i) as Hk.
        { intros i Hi (j&e&Hj&He&Hh). apply lookup_app_Some in Hj as [Hj|[Hl Hj]].
          - exists j, e. split; [done|]. split; [done|]. destruct Hh as [->|Hh]; [by left|right].
            eapply whb_strengthen; [done|by eapply lookup_lt_Some].
          - apply list_lookup_singleton_Some in Hj as [Hj <-]. assert (j = length evs) as -> by lia.
            destruct Hh as [->|Hh]; [lia|]. apply whb_last in Hh as (j'&f&Hh&Hf&Hb).
            exists j', f. split; [done|]. destruct Hb as [Hb|Hb]; [done|].
            destruct f as [v [mm|]]; [|done]. by destruct mm. }
        apply coh_read.
        * by apply coh_snoc.
        * rewrite rmws_app. lia.
        * intros i u o Hi Hkn. apply lookup_app_Some in Hi as [Hi|[Hl Hi]].
          -- pose proof (lookup_lt_Some _ _ _ Hi). rewrite take_snoc_le by lia. eapply H2; [done|]. by apply Hk.
          -- by apply list_lookup_singleton_Some in Hi as [_ [=]].
        * intros i u o w' Hi Hkn. apply lookup_app_Some in Hi as [Hi|[Hl Hi]].
          -- pose proof (lookup_lt_Some _ _ _ Hi). eapply H3; [done|]. by apply Hk.
          -- by apply list_lookup_singleton_Some in Hi as [_ [=]].
    - assert (wevents E O (ls ++ [l]) = wevents E O ls) as ->; [|done].
      unfold wevents. rewrite wevents_from_app, Hr. apply app_nil_r.
  Qed.
End coh.

(** Every step of ArcIntern, with its memory operations, preserves the invariant of
    RaceInv.v. *)
From stdpp Require Import gmap list numbers.
From Verif Require Import Base ArcModel ArcSpec ArcInv ArcStep ArcSafe ArcReach RaceModel RaceInv.
Require Import ZifyBool ZifyNat ZifyN.

Section micro.
  Context {V : Type} (E : tyenv V).
  Implicit Types (st : state V) (s : rstate V) (p q : ptr) (tr : list access) (W : gset nat).
  Notation RInv := (RInv E).
  Notation cov := (cov E).
  Notation resp := (resp E).
  Notation lview := (lview).

  (** ** Destroying an object *)
  Record alone s t q : Prop := Alone {
    al_live : live (r_st s) q;
    al_tab : q ∉ st_table (r_st s);
    al_gone : q ∉ st_gone (r_st s);
    al_zomb : q ∉ st_zombies (r_st s);
    al_resp : forall u, resp (r_st s) q u -> u = t;
    al_own : own (r_st s) q t;
    al_hand : forall h x, r_hands s !! h = Some x -> h_ptr x <> q;
    al_kid : forall p d, data (r_st s) p = Some d -> q ∉ te_kids E d;
  }.

  Lemma alone_cov s t q e : RInv s -> alone s t q -> cov s e q -> e ∈ seen s t.
  Proof.
    intros HI HA Hc. destruct Hc as [p He|h x Hx He|p u Hr He|p d Hp Hd He|p Hg|p i x Hx Hw He|p r d Hd Hk Hc].
    - destruct (ri_own _ _ HI p t e (al_live _ _ _ HA) (al_own _ _ _ HA) He) as [?|(d&Hp&_)]; [done|].
      by destruct (al_tab _ _ _ HA).
    - by destruct (al_hand _ _ _ HA h x Hx).
    - by rewrite <- (al_resp _ _ _ HA u Hr).
    - by destruct (al_tab _ _ _ HA).
    - destruct Hg; [by destruct (al_gone _ _ _ HA)|by destruct (al_zomb _ _ _ HA)].
    - assert (i ∈ seen s t) as Hi.
      { eapply (ri_kthr _ _ HI); [apply HA|right; apply HA|by exists x]. }
      destruct (wf_seen _ (ri_wf _ _ HI) t i Hi) as (x'&Hx'&Hsub). simplify_eq. by apply Hsub.
    - by destruct (al_kid _ _ _ HA r d Hd).
  Qed.

  Lemma ri_destroy s t q st' : RInv s -> alone s t q ->
    (forall p, live (r_st s) p -> p_ser p = p_ser q -> p = q) ->
    (forall h y, r_hands s !! h = Some y -> live (r_st s) (h_ptr y)) ->
    (forall p, p ∈ st_table (r_st s) -> live (r_st s) p) ->
    (forall p d, data (r_st s) p = Some d -> forall k, k ∈ te_kids E d -> live (r_st s) k) ->
    (forall d k, data (r_st s) q = Some d -> k ∈ te_kids E d -> resp (r_st s) k t) ->
    st_locks st' = st_locks (r_st s) -> st_table st' = st_table (r_st s) ->
    st_gone st' = st_gone (r_st s) -> st_zombies st' = st_zombies (r_st s) ->
    st_next st' = st_next (r_st s) -> (forall t, get_pc st' t = get_pc (r_st s) t) ->
    (forall p, p <> q -> data st' p = data (r_st s) p) -> data st' q = None ->
    (forall p, live st' p -> live (r_st s) p) ->
    RInv (set_st (add_access s t [(p_ser q, TWrite)]) st').
  Proof.
    intros HI HA Hser Hhand Htab Hkid Hkq F1 F2 F3 F4 F5 F6 F7 F8 F9.
    set (s' := set_st _ _).
    assert (r_trace s' = r_trace s ++ [Access t [(p_ser q, TWrite)] (seen s t)]) as Htr by done.
    assert (forall u, seen s' u = if decide (u = t) then {[length (r_trace s)]} ∪ seen s t else seen s u) as Hseen.
    { intros u. apply (seen_add s t). }
    assert (forall u, seen s u ⊆ seen s' u) as Hs.
    { intros u. rewrite Hseen. destruct (decide (u = t)) as [->|]; set_solver. }
    assert (forall l, lview s l ⊆ lview s' l) as Hlv.
    { intros l. unfold RaceInv.lview. simpl. rewrite F1. destruct (st_locks (r_st s) !! l); [apply Hs|done]. }
    assert (forall p u, own st' p u <-> own (r_st s) p u) as Hown.
    { intros p u. unfold own. by rewrite F6. }
    assert (forall p u, resp st' p u <-> resp (r_st s) p u) as Hresp.
    { intros p u. unfold RaceInv.resp. by rewrite F6, Hown. }
    assert (forall p d, data st' p = Some d -> p <> q /\ data (r_st s) p = Some d) as Hdata.
    { intros p d Hd. destruct (decide (p = q)) as [->|Hne]; [by rewrite F8 in Hd|].
      split; [done|]. by rewrite <- F7. }
    assert (forall k i, writes (r_trace s') k i -> writes (r_trace s) k i \/ i = length (r_trace s) /\ k = p_ser q) as Hw.
    { intros k i [?|[? Hi]]%writes_snoc; [by left|]. apply elem_of_list_singleton in Hi as [= ->]. by right. }
    assert (forall p i, live (r_st s) p -> p <> q -> writes (r_trace s') (p_ser p) i -> writes (r_trace s) (p_ser p) i) as Hwl.
    { intros p i Hl Hne [?|[_ He]]%Hw; [done|]. by apply Hser in He. }
    assert (forall i, touches (r_trace s) (p_ser q) i -> i ∈ seen s t) as Hall.
    { intros i Hi. eapply alone_cov; [done..|]. apply (ri_cov _ _ HI); [apply HA|done]. }
    constructor.
    - apply wf_set_st, wf_add, HI.
    - intros l u. simpl. rewrite F1. intros Hl. etrans; [by apply (ri_lock _ _ HI)|apply Hs].
    - intros k i [Hi|[_ [w Hk]]]%touches_snoc; simpl; rewrite F5.
      + by eapply (ri_fresh _ _ HI).
      + apply elem_of_list_singleton in Hk as [= -> _].
        destruct (ri_written _ _ HI q (al_live _ _ _ HA)) as [j Hj].
        eapply (ri_fresh _ _ HI). by apply writes_touches.
    - intros p Hl%F9. destruct (ri_written _ _ HI p Hl) as [i Hi]. exists i. by apply writes_app.
    - intros h y i Hy Hi. apply Hwl in Hi; [|by eapply Hhand|by eapply al_hand]. by eapply (ri_khand _ _ HI).
    - intros p u i Hl%F9 Hr%Hresp Hi. destruct (decide (p = q)) as [->|Hne].
      + assert (u = t) as -> by (by apply (al_resp _ _ _ HA)).
        apply Hw in Hi as [Hi|[-> _]].
        * apply Hs, Hall. by apply writes_touches.
        * rewrite Hseen, decide_True by done. set_solver.
      + apply Hwl in Hi; [|done|done]. apply Hs. by apply (ri_kthr _ _ HI p).
    - intros p d i. simpl. rewrite F2. intros Hp [Hne Hd]%Hdata Hi.
      apply Hwl in Hi; [|by apply Htab|done]. apply Hlv. by apply (ri_ktab _ _ HI p).
    - intros r d k i y j [Hne Hd]%Hdata Hk Hy Hin Hj.
      assert (k <> q) as Hkne.
      { intros ->. by destruct (al_kid _ _ _ HA r d Hd). }
      apply Hwl in Hj; [|by eapply Hkid|done].
      apply lookup_app_Some in Hy as [Hy|[_ Hy]]; [by eapply (ri_kkid _ _ HI)|].
      apply list_lookup_singleton_Some in Hy as [_ <-]. simpl in Hin.
      apply elem_of_list_singleton in Hin as [= He]. destruct Hne.
      apply Hser; [by eapply data_live|done].
    - intros p u e Hl%F9 Ho%Hown He.
      destruct (ri_own _ _ HI p u e Hl Ho He) as [?|(d&Hp&Hd&Hv)]; [left; by apply Hs|].
      right. exists d. simpl. rewrite F2. split; [done|]. split; [|by apply Hlv].
      rewrite F7; [done|]. intros ->. by destruct (al_tab _ _ _ HA).
    - intros p i Hl Hi. apply touches_snoc in Hi as [Hi|[-> [w Hin]]].
      2:{ apply elem_of_list_singleton in Hin as [= He _]. apply Hser in He as ->; [|by apply F9].
          apply (cov_thread _ _ _ _ t); [apply Hresp; right; apply HA|].
          rewrite Hseen, decide_True by done. set_solver. }
      eapply (cov_pres _ s); try done; [| | | | | | |apply (ri_cov _ _ HI); [by apply F9|done]].
      + intros h y Hy _ He. by eapply cov_hand.
      + intros p0 u _ Hr He. apply (cov_thread _ _ _ _ u); [by apply Hresp|by apply Hs].
      + intros p0 d _ Hp Hd He. eapply cov_table; [simpl; by rewrite F2| |by apply Hlv].
        simpl. rewrite F7; [done|]. intros ->. by destruct (al_tab _ _ _ HA).
      + simpl. by rewrite F3.
      + simpl. by rewrite F4.
      + by eexists.
      + intros r d k Hl0 Hd Hk Hc. destruct (decide (r = q)) as [->|Hne].
        * right. apply (cov_thread _ _ _ _ t); [apply Hresp; by eapply Hkq|].
          apply Hs. by eapply alone_cov.
        * left. simpl. by rewrite F7.
    - apply trace_ok_snoc; [apply HI|]. intros k w [= -> ->]%elem_of_list_singleton. split.
      + intros _ i. by apply Hall.
      + intros i Hi%writes_touches. by apply Hall.
    - intros k e He. simpl. rewrite F5. by apply (ri_cfresh _ _ HI k e).
  Qed.

  (** ** More is left behind for good *)
  Lemma ri_leave s st' : RInv s ->
    st_locks st' = st_locks (r_st s) -> st_table st' = st_table (r_st s) ->
    (forall p, p ∈ st_gone (r_st s) -> p ∈ st_gone st') ->
    (forall p, p ∈ st_zombies (r_st s) -> p ∈ st_zombies st') ->
    st_next st' = st_next (r_st s) -> (forall t, get_pc st' t = get_pc (r_st s) t) ->
    st_heap st' = st_heap (r_st s) ->
    RInv (set_st s st').
  Proof.
    intros HI H1 H2 H3 H4 H5 H6 H7. set (s' := set_st s st').
    assert (forall l, lview s' l = lview s l) as Hlv.
    { intros l. unfold RaceInv.lview. simpl. by rewrite H1. }
    assert (forall p t, own st' p t <-> own (r_st s) p t) as Hown.
    { intros p t. unfold own. by rewrite H6. }
    assert (forall p t, resp st' p t <-> resp (r_st s) p t) as Hresp.
    { intros p t. unfold RaceInv.resp. by rewrite H6, Hown. }
    assert (forall p, deref st' p = deref (r_st s) p) as Hder.
    { intros p. apply deref_ext. by rewrite H7. }
    assert (forall p, data st' p = data (r_st s) p) as Hda.
    { intros p. apply data_ext. by rewrite H7. }
    assert (forall p, live st' p <-> live (r_st s) p) as Hli.
    { intros p. unfold live. by rewrite Hder. }
    constructor; simpl; rewrite ?H1, ?H2, ?H5; try apply HI.
    - apply wf_set_st, HI.
    - intros p Hl%Hli. by apply (ri_written _ _ HI).
    - intros p t i Hl%Hli Hr%Hresp. by apply (ri_kthr _ _ HI).
    - intros p d i. rewrite Hda, Hlv. apply (ri_ktab _ _ HI).
    - intros q d k i x j. rewrite Hda. apply (ri_kkid _ _ HI).
    - intros p t e Hl%Hli Ho%Hown He. destruct (ri_own _ _ HI p t e Hl Ho He) as [?|(d&?&?&?)]; [by left|].
      right. exists d. by rewrite Hda, Hlv.
    - intros p i Hl Ht. eapply (cov_pres _ s); try done; [| | | | |apply (ri_cov _ _ HI); [by apply Hli|done]].
      + intros h y Hy _ Hi. by eapply cov_hand.
      + intros p0 u _ Hr Hi. apply (cov_thread _ _ _ _ u); [by apply Hresp|done].
      + intros p0 d _ Hp Hd Hi. eapply cov_table; [simpl; by rewrite H2|simpl; by rewrite Hda|by rewrite Hlv].
      + exists []. by rewrite app_nil_r.
      + intros. left. simpl. by rewrite Hda.
  Qed.

  (** ** Handles of the clients *)

  (** Handles are given up to thread [t], or forgotten. *)
  Lemma ri_del_hands s t hs' : RInv s ->
    (forall h x, hs' !! h = Some x -> r_hands s !! h = Some x) ->
    (forall h x, r_hands s !! h = Some x -> hs' !! h = Some x
       \/ h_ptr x ∈ st_gone (r_st s)
       \/ resp (r_st s) (h_ptr x) t /\ h_made x ∪ h_used x ⊆ seen s t) ->
    RInv (set_hands s hs').
  Proof.
    intros HI H1 H2. set (s' := set_hands s hs').
    constructor; try apply HI.
    - constructor; try apply HI; intros h x Hx%H1; [by apply (wf_made _ (ri_wf _ _ HI) h)|by apply (wf_used _ (ri_wf _ _ HI) h)].
    - intros h x i Hx%H1. by apply (ri_khand _ _ HI h).
    - intros p i Hl Ht. eapply (cov_pres _ s); try done; [| | | | |by apply (ri_cov _ _ HI)].
      + intros h y Hy _ Hi. destruct (H2 h y Hy) as [?|[?|[Hr Hsub]]].
        * by eapply cov_hand.
        * apply cov_gone. by left.
        * apply (cov_thread _ _ _ _ t); [done|]. by apply Hsub.
      + intros p0 u _ Hr Hi. by apply (cov_thread _ _ _ _ u).
      + intros p0 d _ Hp Hd Hi. by eapply cov_table.
      + exists []. by rewrite app_nil_r.
      + intros. by left.
  Qed.

  Lemma ri_new_hand s t h p : RInv s -> r_hands s !! h = None ->
    (forall i, writes (r_trace s) (p_ser p) i -> i ∈ seen s t) ->
    RInv (new_hand s t h p).
  Proof.
    intros HI Hn Hw. unfold new_hand. set (s' := set_hands s _).
    constructor; try apply HI.
    - apply wf_insert; [apply HI| |apply closed_empty]. apply HI.
    - intros h' x i Hx. simpl in Hx. apply lookup_insert_Some in Hx as [[_ <-]|[_ Hx]]; [by apply Hw|]. by apply (ri_khand _ _ HI h').
    - intros p0 i Hl Ht. eapply (cov_mono _ s); try done; [|by exists []; rewrite app_nil_r|by apply (ri_cov _ _ HI)].
      intros h' x Hx. exists x. split; [|done]. simpl. rewrite lookup_insert_ne; [done|]. intros ->. congruence.
  Qed.

  (** ** Using a handle by reference *)
  Lemma cov_owns s e r p : owns E (r_st s) r p -> cov s e r -> cov s e p.
  Proof. induction 1; [done|]. intros Hc. apply IHowns. by eapply cov_kid. Qed.

  Lemma owns_known s t r p : RInv s -> owns E (r_st s) r p ->
    (forall i, writes (r_trace s) (p_ser r) i -> i ∈ seen s t) ->
    forall i, writes (r_trace s) (p_ser p) i -> i ∈ seen s t.
  Proof.
    intros HI. induction 1 as [|r d k p Hd Hk Ho IH]; intros Hw; [done|]. apply IH. intros j Hj.
    destruct (ri_written _ _ HI r (data_live _ _ _ Hd)) as [i Hi].
    pose proof (Hw i Hi) as Hin. destruct Hi as (x&Hx&Hx').
    destruct (wf_seen _ (ri_wf _ _ HI) t i Hin) as (x'&Hx''&Hsub). simplify_eq.
    apply Hsub. by eapply (ri_kkid _ _ HI).
  Qed.

  Lemma ri_use s t h x y touch : RInv s -> r_hands s !! h = Some y ->
    h_ptr y = h_ptr x -> h_made y = h_made x -> closed (r_trace s) (h_used x) ->
    h_used y ⊆ seen s t ∪ h_used x -> h_made x ⊆ seen s t ->
    (forall k, (k, TWrite) ∉ touch) ->
    (forall k w, (k, w) ∈ touch -> exists p, live (r_st s) p /\ owns E (r_st s) (h_ptr x) p /\ p_ser p = k) ->
    (forall p q, live (r_st s) p -> live (r_st s) q -> p_ser p = p_ser q -> p = q) ->
    RInv (used (add_access s t touch) t h x).
  Proof.
    intros HI Hy Hp Hm Hcl Hu Hk Hnw Ht Hser.
    unfold used. set (s1 := add_access s t touch).
    assert (seen s1 t = {[length (r_trace s)]} ∪ seen s t) as Hs1.
    { unfold s1. by rewrite seen_add, decide_True. }
    apply ri_touch; [done|done| | | |].
    - intros k w Hin. destruct (Ht k w Hin) as (p&Hl&Ho&<-). split.
      + destruct (ri_written _ _ HI p Hl) as [i Hi]. eapply (ri_fresh _ _ HI). by apply writes_touches.
      + eapply owns_known; [done|done|]. intros i Hi. apply Hk. rewrite <- Hm, <- Hp in *.
        by eapply (ri_khand _ _ HI).
    - intros h' x' [[<- <-]|[Hne Hx']]%lookup_insert_Some.
      + exists y. simpl. split; [done|]. split; [done|]. split; [done|].
        apply closed_union; [|by apply closed_app]. rewrite Hs1. apply closed_new. apply HI.
      + exists x'. split; [done|]. split; [done|]. split; [done|].
        eapply closed_app, wf_used; [apply HI|done].
    - intros h' x' Hx'. destruct (decide (h' = h)) as [->|Hne].
      + eexists. split; [apply lookup_insert|]. simplify_eq. simpl. split; [done|]. split; [done|].
        rewrite Hs1. set_solver.
      + exists x'. split; [by rewrite lookup_insert_ne|done].
    - intros p w Hl Hin. destruct (Ht _ _ Hin) as (p'&Hl'&Ho&He).
      assert (p' = p) as -> by (by apply Hser).
      apply (cov_owns _ _ (h_ptr x)); [done|].
      eapply (cov_hand _ _ _ h (Hand (h_ptr x) (h_made x) (seen s1 t ∪ h_used x))).
      + simpl. apply lookup_insert.
      + simpl. rewrite Hs1. set_solver.
  Qed.

  (** ** Loads *)
  Lemma ri_acquire s t k o : RInv s ->
    RInv (if acquires o then set_seen s t (countv s k ∪ seen s t) else s).
  Proof. intros HI. destruct (acquires o); [|done]. apply ri_learn; [done|]. apply HI. Qed.
End micro.

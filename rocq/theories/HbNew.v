(** No execution of the NewIntern model has a data race: invariant and its preservation. *)
From stdpp Require Import gmap list numbers.
From Verif Require Import Base InternModel InternSpec InternInv InternStep NewModel NewSpec NewSim NewStep NewFinal
  HbSpec HbLib HbModel HbNewModel HbIntern.
Require Import ZifyBool ZifyNat ZifyN.

Section race.
  Context {V Q : Type} (E : ienv V Q).
  Implicit Types (s : nstate V Q) (st : istate V Q) (v : V) (p : iptr) (o : iop V Q) (f : nframe V Q) (g : frame V Q)
    (t ty k : nat) (evs : acts) (a : act) (x : loc).
  Notation slot := (slot E).
  Notation op_ty := (op_ty E).
  Notation E1 := (E1 E).
  Notation first := (first E).
  Notation R := (R E).
  Notation IInv := (IInv E1).

  Definition nkeeper s x : nat * act -> Prop :=
    match n_locks s !! x with Some t => byt t | None => rel (SLock x) end.
  (** The element of the vector that a call is creating or uses. *)
  Definition idx f : option loc :=
    match f with
    | NPub o _ i | NLock o _ i => Some (slot (op_ty o), i)
    | NIn i g => Some (slot (frame_ty E g), i)
    | _ => None
    end.

  Record RN s evs : Prop := {
    n_free : race_free evs;
    n_new : forall k, n_next s <= k -> untouched evs (LVal k);
    n_held : forall t i g, NIn i g ∈ nstack s t -> n_locks s !! (slot (frame_ty E g), i) = Some t;
    (* an access of a set: its creation, or known to whoever has the mutex *)
    n_set : forall x j e w, evs !! j = Some e -> (LSet x, w) ∈ touched e.2 ->
      (LElt x, true) ∈ touched e.2 \/ view evs (nkeeper s x) j;
    n_elt : forall ty i p, first s ty = Some i -> p ∈ nset s (slot ty, i) -> writes evs (val p) (nkeeper s (slot ty, i));
    n_ptr : forall t f p, f ∈ nstack s t -> p ∈ f_ptrs (erase f) -> writes evs (val p) (byt t);
    n_box : forall t f p, f ∈ nstack s t -> p ∈ f_boxes (erase f) -> accesses evs (val p) (byt t);
    n_got : forall j t p, evs !! j = Some (t, AGot p) ->
      (exists u o, EvRet u o (RPtr p) ∈ n_log s) /\
      forall i e, evs !! i = Some e -> (val p, true) ∈ touched e.2 -> hb evs i j;
    n_resv0 : forall c i, nresv s c <= i -> untouched evs (LElt (c, i)) /\ untouched evs (LSet (c, i));
    n_pub : forall c i, i < length (nvec s c) -> writes evs (LElt (c, i)) (rel (SElt (c, i)));
    n_idx : forall t f x, f ∈ nstack s t -> idx f = Some x -> writes evs (LElt x) (byt t);
  }.

  Lemma rn_init : RN ninit [].
  Proof.
    assert (forall t, nstack (ninit : nstate V Q) t = []) as H0 by done.
    constructor.
    - apply race_free_nil.
    - intros k _ i e w H. by rewrite lookup_nil in H.
    - intros t i g H. rewrite H0 in H. by apply elem_of_nil in H.
    - intros x j e w H. by rewrite lookup_nil in H.
    - intros ty i p _ _ j e H. by rewrite lookup_nil in H.
    - intros t f p _ _ j e H. by rewrite lookup_nil in H.
    - intros t f p _ _ j e w H. by rewrite lookup_nil in H.
    - intros j t p H. by rewrite lookup_nil in H.
    - intros c i _. split; intros j e w H; by rewrite lookup_nil in H.
    - intros c i _ j e H. by rewrite lookup_nil in H.
    - intros t f x _ _ j e H. by rewrite lookup_nil in H.
  Qed.

  (** ** Actions *)
  Definition nprivate s t k : Prop :=
    (forall ty i p, first s ty = Some i -> p ∈ nset s (slot ty, i) -> ip_ser p <> k) /\
    (forall u o p, EvRet u o (RPtr p) ∈ n_log s -> ip_ser p <> k) /\
    (forall u f p, f ∈ nstack s u -> p ∈ f_ptrs (erase f) ++ f_boxes (erase f) -> ip_ser p = k -> u = t).
  Definition nallowed s evs t (y : mloc * bool) : Prop :=
    match y with
    | (LSet x, _) => n_locks s !! x = Some t /\ writes evs (LElt x) (byt t) /\ x.2 < nresv s x.1
    | (LVal k, true) => k < n_next s /\ accesses evs (LVal k) (byt t) /\ nprivate s t k
    | (LVal k, false) => k < n_next s /\ writes evs (LVal k) (byt t) /\
        (forall u f p, f ∈ nstack s u -> p ∈ f_boxes (erase f) -> ip_ser p = k -> u = t)
    | (LElt x, false) => writes evs (LElt x) (byt t) /\ x.2 < nresv s x.1
    | (LElt _, true) => False
    end.

  Lemma rn_add s evs t a :
    RN s evs -> (forall p, a <> AGot p) -> (forall y, y ∈ touched a -> nallowed s evs t y) ->
    RN s (evs ++ [(t, a)]).
  Proof.
    intros [] Hng Ha. constructor.
    - apply race_free_snoc; [done|]. intros [k|x|x] w Hx; pose proof (Ha _ Hx) as H; simpl in H.
      + destruct w; [left; by destruct H as (_&?&_)|right; by destruct H as (_&?&_)].
      + destruct H as (H&Hw&_). left. intros j e w' Hj Hw'.
        destruct (n_set0 _ _ _ _ Hj Hw') as [Hc|Hk]; [by eapply Hw|]. unfold nkeeper in Hk. by rewrite H in Hk.
      + destruct w; [done|]. right. by destruct H.
    - intros k Hk. apply untouched_snoc; [by apply n_new0|]. intros w Hx. apply Ha in Hx. simpl in Hx.
      destruct w; destruct Hx as [? _]; lia.
    - done.
    - intros x j e w Hj Hw. apply lookup_snoc in Hj as [Hj|[-> ->]].
      + destruct (n_set0 _ _ _ _ Hj Hw) as [?|Hk]; [by left|right]. by apply view_app.
      + right. apply Ha in Hw as (Hl&_). apply view_last; [|by left]. unfold nkeeper. by rewrite Hl.
    - intros ty i p Hf Hp. apply writes_snoc; [by eapply n_elt0|]. intros Hx. apply Ha in Hx as (_&_&Hx&_).
      by destruct (Hx _ _ _ Hf Hp).
    - intros u f p Hf Hp. apply writes_snoc; [by eapply n_ptr0|]. intros Hx. apply Ha in Hx as (_&_&_&_&Hx).
      symmetry. eapply Hx; [done|by apply elem_of_app; left|done].
    - intros u f p Hf Hp. apply accesses_snoc; [by eapply n_box0|]. intros w Hx. apply Ha in Hx. simpl in Hx.
      symmetry. destruct w.
      + destruct Hx as (_&_&_&_&Hx). eapply Hx; [done|by apply elem_of_app; right|done].
      + destruct Hx as (_&_&Hx). by eapply Hx.
    - intros j u p Hj. apply lookup_snoc in Hj as [Hj|[_ [= <- <-]]]; [|by destruct (Hng p)].
      destruct (n_got0 _ _ _ Hj) as [He Hw]. split; [done|].
      intros i e Hi Hx. apply lookup_snoc in Hi as [Hi|[-> ->]].
      + by eapply hb_weaken, Hw.
      + apply Ha in Hx as (_&_&_&Hx&_). destruct He as (u'&o&He). by destruct (Hx _ _ _ He).
    - intros c i Hi. destruct (n_resv1 _ _ Hi) as [H1 H2]. split; apply untouched_snoc; try done; intros w Hw; apply Ha in Hw; simpl in Hw.
      + destruct w; [done|]. destruct Hw as [_ Hw]. lia.
      + destruct Hw as (_&_&Hw). lia.
    - intros c i Hi. apply writes_snoc; [by apply n_pub0|]. intros Hx. by apply Ha in Hx.
    - intros u f x Hf Hx. apply writes_snoc; [by eapply n_idx0|]. intros Hw. by apply Ha in Hw.
  Qed.
  Lemma rn_quiet s evs t a : RN s evs -> (forall p, a <> AGot p) -> touched a = [] -> RN s (evs ++ [(t, a)]).
  Proof. intros HR Hn Ht. apply rn_add; [done|done|]. rewrite Ht. intros y Hy. by apply elem_of_nil in Hy. Qed.
  Lemma rn_got s evs t p u o :
    RN s evs -> EvRet u o (RPtr p) ∈ n_log s -> writes evs (val p) (byt t) -> RN s (evs ++ [(t, AGot p)]).
  Proof.
    intros HR He Hw.
    assert (forall m P, writes evs m P -> writes (evs ++ [(t, AGot p)]) m P) as Hws.
    { intros m P H. apply writes_snoc; [done|]. intros H'. by apply elem_of_nil in H'. }
    assert (forall m P, accesses evs m P -> accesses (evs ++ [(t, AGot p)]) m P) as Has.
    { intros m P H. apply accesses_snoc; [done|]. intros w H'. by apply elem_of_nil in H'. }
    assert (forall m, untouched evs m -> untouched (evs ++ [(t, AGot p)]) m) as Hus.
    { intros m H. apply untouched_snoc; [done|]. intros w H'. by apply elem_of_nil in H'. }
    destruct HR. constructor; eauto.
    - by apply race_free_quiet.
    - intros x j e w Hj Hx. apply lookup_snoc in Hj as [Hj|[-> ->]]; [|by apply elem_of_nil in Hx].
      destruct (n_set0 _ _ _ _ Hj Hx) as [?|Hk]; [by left|right]. by apply view_app.
    - intros j u' q Hj. apply lookup_snoc in Hj as [Hj|[-> [= -> ->]]].
      + destruct (n_got0 _ _ _ Hj) as [He' Hw']. split; [done|]. intros i e Hi Hx.
        apply lookup_snoc in Hi as [Hi|[-> ->]]; [by eapply hb_weaken, Hw'|by apply elem_of_nil in Hx].
      + split; [by eexists _, _|]. intros i e Hi Hx.
        apply lookup_snoc in Hi as [Hi|[-> ->]]; [|by apply elem_of_nil in Hx].
        apply hb_last. eapply view_imp; [|by eapply Hw]. intros e' He'. by left.
    - intros c i Hi. destruct (n_resv1 _ _ Hi). auto.
  Qed.

  (** ** Facts from the simulated state *)
  Lemma nstack_set s t kk u : nstack (nset_stack s t kk) u = if decide (t = u) then kk else nstack s u.
  Proof. by apply stack_ins. Qed.
  Lemma sim_frame s st t f : R s st -> f ∈ nstack s t -> erase f ∈ get_stack st t.
  Proof. intros HR Hf. rewrite (R_stack E s st t HR). apply elem_of_list_fmap. by exists f. Qed.
  Lemma sim_set s st ty i p : R s st -> first s ty = Some i -> p ∈ nset s (slot ty, i) -> p ∈ set_of E1 st ty.
  Proof. intros HR Hf Hp. rewrite (NewSim.r_sets _ _ _ (r_base _ _ _ HR)), Hf. done. Qed.
  Lemma sim_next s st : R s st -> i_next st = n_next s.
  Proof. intros HR. apply (NewSim.r_next _ _ _ (r_base _ _ _ HR)). Qed.
  Lemma sim_log s st : R s st -> i_log st = n_log s.
  Proof. intros HR. apply (NewSim.r_log _ _ _ (r_base _ _ _ HR)). Qed.
  Lemma sim_private s st t k : R s st -> private E1 st t k -> nprivate s t k.
  Proof.
    intros HR (H1&H2&H3). split_and!.
    - intros ty i p Hf Hp. eapply (H1 ty). by eapply sim_set.
    - intros u o p Hp. eapply H2. by rewrite (sim_log _ _ HR).
    - intros u f p Hf. apply H3. by eapply sim_frame.
  Qed.
  Lemma frame_first s st t f i : R s st -> f ∈ nstack s t -> uses f i -> first s (type_of E f) = Some i.
  Proof.
    intros HR Hf Hu. pose proof (r_frames _ _ _ HR _ _ Hf) as Hok. destruct f as [| | |o b i'| |i' g]; simpl in Hu; try done; subst i'.
    - done.
    - destruct Hok as [Hok _]. by rewrite call_frame_ty.
  Qed.
  Lemma idx_lt s st t f x : R s st -> PInv E s -> f ∈ nstack s t -> idx f = Some x -> x.2 < nresv s x.1.
  Proof.
    intros HR HP Hf Hx.
    assert (forall i, uses f i -> x = (slot (type_of E f), i) -> x.2 < nresv s x.1) as Hu.
    { intros i Hu ->. simpl. pose proof (frame_first _ _ _ _ _ HR Hf Hu) as H%first_len. pose proof (p_len E s HP (slot (type_of E f))). lia. }
    destruct f as [| |o b i|o b i| |i g]; simpl in Hx; try done; injection Hx as <-.
    - simpl. destruct (nstack s t) as [|f0 k0] eqn:Hst; [by apply elem_of_nil in Hf|].
      apply elem_of_cons in Hf as [<-|Hf].
      + by apply (p_range E s HP _ _ _ _ _ Hst).
      + by apply (p_below E s HP _ _ _ Hst) in Hf.
    - by apply (Hu i).
    - apply (Hu i); [done|]. by rewrite call_frame_ty.
  Qed.

  Lemma rn_read s st evs t p :
    RN s evs -> handles_travel (evs ++ [(t, ARead p)]) -> IInv st -> R s st -> RN s (evs ++ [(t, ARead p)]).
  Proof.
    intros HR HT HI HS. destruct (HT (length evs) t p) as (i&u&Hi&Hh); [by apply list_lookup_middle|].
    pose proof (hb_lt _ _ _ Hh). rewrite lookup_app_l in Hi by done.
    destruct (n_got _ _ HR _ _ _ Hi) as [(u'&o&He) Hw]. rewrite <- (sim_log _ _ HS) in He.
    apply (v_log _ _ HI) in He as Hg.
    apply rn_add; [done|done|]. simpl. intros y ->%elem_of_list_singleton. simpl. split_and!.
    - rewrite <- (sim_next _ _ HS). by eapply good_lt.
    - intros k e Hk Hx. assert (hb (evs ++ [(t, ARead p)]) k (length evs)) as Hk'.
      { eapply hb_trans; [|done]. apply hb_weaken. by eapply Hw. }
      apply hb_last in Hk'. eapply view_imp; [|done]. intros f [Hf|Hf]; [done|].
      by destruct f as [? []].
    - intros w f q Hf Hq Hs. exfalso. by eapply (good_not_box E1 st _ p w (erase f) q HI Hg (sim_frame _ _ _ _ HS Hf) Hq).
  Qed.

  (** ** States *)
  Definition nframe_knows s evs t f : Prop :=
    frame_knows evs t (erase f) /\ (forall x, idx f = Some x -> writes evs (LElt x) (byt t)) /\
    match f with NIn i g => n_locks s !! (slot (frame_ty E g), i) = Some t | _ => True end.
  Lemma knows_old s evs t f : RN s evs -> f ∈ nstack s t -> nframe_knows s evs t f.
  Proof.
    intros [] Hf. split_and!; [split; eauto|eauto|]. destruct f as [| | | | |i g]; try done. by apply n_held0.
  Qed.
  Lemma rn_upd s s' evs t fs fs' kk :
    RN s evs -> nstack s t = fs ++ kk ->
    n_threads s' = <[t:=fs' ++ kk]> (n_threads s) -> n_next s <= n_next s' -> n_locks s' = n_locks s ->
    (forall c, nresv s c <= nresv s' c) ->
    (forall c i, i < length (nvec s' c) -> i < length (nvec s c) \/ writes evs (LElt (c, i)) (rel (SElt (c, i)))) ->
    (forall ty i p, first s' ty = Some i -> p ∈ nset s' (slot ty, i) ->
      (first s ty = Some i /\ p ∈ nset s (slot ty, i)) \/ n_locks s !! (slot ty, i) = Some t /\ writes evs (val p) (byt t)) ->
    (forall f, f ∈ fs' -> nframe_knows s evs t f) ->
    (forall e, e ∈ n_log s -> e ∈ n_log s') -> RN s' evs.
  Proof.
    intros HR Hst Hth Hn Hl Hrs Hvc Hs Hf Hlog.
    assert (forall u f, f ∈ nstack s' u -> nframe_knows s evs u f) as Hfr.
    { intros u f. rewrite (stack_ins s s' t _ u Hth). destruct (decide (t = u)) as [<-|]; [|by apply knows_old].
      intros [H|H]%elem_of_app; [by apply Hf|]. apply knows_old; [done|]. rewrite Hst. apply elem_of_app. by right. }
    destruct HR. constructor.
    - done.
    - intros k Hk. apply n_new0. lia.
    - intros u i g Hu. rewrite Hl. apply Hfr in Hu as (_&_&?). done.
    - intros x j e w Hj Hx. unfold nkeeper. rewrite Hl. by eapply n_set0.
    - intros ty i p Hfi Hp. unfold nkeeper. rewrite Hl. apply Hs in Hp as [[Hf0 Hp]|[Hl' Hp]]; [by eapply n_elt0| |done]. by rewrite Hl'.
    - intros u f p Hu Hp. by apply Hfr in Hu as ([? _]&_); eauto.
    - intros u f p Hu Hp. by apply Hfr in Hu as ([_ ?]&_); eauto.
    - intros j u p Hj. destruct (n_got0 _ _ _ Hj) as [(u'&o&He) Hw]. split; [|done]. exists u', o. by apply Hlog.
    - intros c i Hi. apply n_resv1. specialize (Hrs c). lia.
    - intros c i Hi. apply Hvc in Hi as [Hi|Hi]; [by apply n_pub0|done].
    - intros u f x Hu Hx. apply Hfr in Hu as (_&?&_); eauto.
  Qed.

  (** Taking and releasing a mutex. *)
  Lemma rn_acq s evs x t :
    RN s evs -> n_locks s !! x = None -> RN (nlock s x t) (evs ++ [(t, AAcq (SLock x))]).
  Proof.
    intros HR Hx. pose proof (rn_quiet _ _ t (AAcq (SLock x)) HR (λ p, ltac:(done)) eq_refl) as []. destruct HR.
    constructor; try done; simpl.
    - intros u i g Hf. pose proof (n_held1 _ _ _ Hf) as H. rewrite lookup_insert_ne; [done|]. intros ->. congruence.
    - intros y j e w Hj Hy. destruct (decide (x = y)) as [<-|].
      + unfold nkeeper. simpl. rewrite lookup_insert. apply lookup_snoc in Hj as [Hj|[-> ->]]; [|by apply elem_of_nil in Hy].
        destruct (n_set1 _ _ _ _ Hj Hy) as [?|Hk]; [by left|right]. unfold nkeeper in Hk. rewrite Hx in Hk. by apply view_acq.
      + destruct (n_set0 _ _ _ _ Hj Hy) as [?|Hk]; [by left|right]. unfold nkeeper in *. simpl. by rewrite lookup_insert_ne.
    - intros ty i p Hf Hp. destruct (decide (x = (slot ty, i))) as [->|].
      + unfold nkeeper. simpl. rewrite lookup_insert. apply writes_acq. pose proof (n_elt1 _ _ _ Hf Hp) as H. unfold nkeeper in H. by rewrite Hx in H.
      + pose proof (n_elt0 _ _ _ Hf Hp) as H. unfold nkeeper in *. simpl. by rewrite lookup_insert_ne.
  Qed.
  Lemma rn_rel s st evs t i g kk w :
    RN s evs -> IInv st -> R s st -> nstack s t = NIn i g :: kk ->
    RN (nset_stack (nunlock s (slot (frame_ty E g), i) w) t kk) (evs ++ [(t, ARel (SLock (slot (frame_ty E g), i)))]).
  Proof.
    intros HR HI HS Hst. set (x := (slot (frame_ty E g), i)).
    pose proof (rn_quiet _ _ t (ARel (SLock x)) HR (λ p, ltac:(done)) eq_refl) as []. destruct HR.
    assert (n_locks s !! x = Some t) as Hx.
    { apply n_held1. rewrite Hst. by left. }
    assert (first s (frame_ty E g) = Some i) as Hfi.
    { rewrite <- (call_frame_ty E i g). apply (frame_first s st t _ i HS); [rewrite Hst; by left|done]. }
    set (z := InternModel.slot E1 (frame_ty E g)).
    assert (held E1 z g = 1) as Hg1.
    { destruct (inside_sim E s st t (NIn i g) HS) as [_ H]; [rewrite Hst; by left|done|].
      rewrite call_frame_ty in H. done. }
    assert (forall u f, f ∈ nstack (nset_stack (nunlock s x w) t kk) u ->
      f ∈ nstack s u /\ forall j h, f = NIn j h -> (slot (frame_ty E h), j) <> x) as Hfr.
    { intros u f. pose proof (v_locks _ _ HI z) as Hs. unfold lk, z in Hs.
      rewrite (r_locks _ _ _ (r_base _ _ _ HS)) in Hs. rewrite Hfi in Hs. fold x in Hs. rewrite Hx in Hs. fold z in Hs.
      rewrite nstack_set. change (nstack (nunlock s x w) u) with (nstack s u).
      assert (forall f, f ∈ nstack s u -> held E1 z (erase f) = 0 -> forall j h, f = NIn j h -> (slot (frame_ty E h), j) <> x) as Hz.
      { intros f' Hf' H0 j h -> Heq. simpl in H0.
        assert (frame_ty E h = frame_ty E g) as Hty.
        { eapply (first_inj E s _ _ j i); [|done|done]. rewrite <- (call_frame_ty E j h). by eapply frame_first. }
        destruct (inside_sim E s st u (NIn j h) HS Hf' I) as [_ H]. rewrite call_frame_ty, Hty in H. simpl in H. unfold z in H0. lia. }
      destruct (decide (t = u)) as [<-|Hne].
      - intros Hf. assert (f ∈ nstack s t) as Hf' by (rewrite Hst; by right). split; [done|]. apply Hz; [done|].
        pose proof (msum_stack_ge (held E1 z) st t) as Hge. rewrite (R_stack E s st t HS), Hst in Hge. csimpl in Hge.
        assert (erase f ∈ erase <$> kk) as Hk' by (apply elem_of_list_fmap; by exists f).
        pose proof (lsum_ge (held E1 z) _ _ Hk'). lia.
      - intros Hf. split; [done|]. apply Hz; [done|].
        pose proof (msum_stack_ge2 (held E1 z) st t u Hne) as Hge. rewrite (R_stack E s st t HS), Hst in Hge. csimpl in Hge.
        pose proof (lsum_ge (held E1 z) _ _ (sim_frame _ _ _ _ HS Hf)). lia. }
    constructor; try done; simpl.
    - intros u j h Hg. apply Hfr in Hg as [Hg Hz]. rewrite lookup_delete_ne by (intros Heq; by apply (Hz j h eq_refl)). by apply n_held1.
    - intros y j e w' Hj Hy. destruct (decide (x = y)) as [<-|].
      + unfold nkeeper. simpl. rewrite lookup_delete. apply lookup_snoc in Hj as [Hj|[-> ->]]; [|by apply elem_of_nil in Hy].
        destruct (n_set1 _ _ _ _ Hj Hy) as [?|Hk]; [by left|right]. unfold nkeeper in Hk. rewrite Hx in Hk. by apply view_rel.
      + destruct (n_set0 _ _ _ _ Hj Hy) as [?|Hk]; [by left|right]. unfold nkeeper in *. simpl. by rewrite lookup_delete_ne.
    - intros ty j p Hf Hp. destruct (decide (x = (slot ty, j))) as [Heq|].
      + rewrite <- Heq. unfold nkeeper. simpl. rewrite lookup_delete. apply writes_rel. pose proof (n_elt1 _ _ _ Hf Hp) as H.
        rewrite <- Heq in H. unfold nkeeper in H. by rewrite Hx in H.
      + pose proof (n_elt0 _ _ _ Hf Hp) as H. unfold nkeeper in *. simpl. by rewrite lookup_delete_ne.
    - intros u f p [Hf _]%Hfr. by eapply n_ptr0.
    - intros u f p [Hf _]%Hfr. by eapply n_box0.
    - intros u f y [Hf _]%Hfr. by eapply n_idx0.
  Qed.

  (** Writing a new element of a vector. *)
  Lemma rn_push s st evs t o b kk :
    let c := slot (op_ty o) in let x := (c, nresv s c) in
    RN s evs -> R s st -> PInv E s -> nstack s t = NPush o b :: kk ->
    RN (nset_stack (nreserve s c) t (NPub o b (nresv s c) :: kk)) (evs ++ [(t, ATouch [(LElt x, true); (LSet x, true)])]).
  Proof.
    intros c x HR HS HP Hst.
    assert (forall y w, y ∈ [(LElt x, true); (LSet x, true)] -> y = (LElt w, true) \/ y = (LSet w, true) -> w = x) as Hy.
    { intros y w [->|[->|[]%elem_of_nil]%elem_of_cons]%elem_of_cons [[=]|[=]]; done. }
    assert (forall k w, (LVal k, w) ∉ [(LElt x, true); (LSet x, true)]) as Hnv.
    { intros k w [[=]|[[=]|[]%elem_of_nil]%elem_of_cons]%elem_of_cons. }
    assert (forall y w, (LElt y, w) ∈ [(LElt x, true); (LSet x, true)] -> y = x) as Hne.
    { intros y w [[= -> _]|[[=]|[]%elem_of_nil]%elem_of_cons]%elem_of_cons. done. }
    assert (forall y w, (LSet y, w) ∈ [(LElt x, true); (LSet x, true)] -> y = x) as Hns.
    { intros y w [[=]|[[= -> _]|[]%elem_of_nil]%elem_of_cons]%elem_of_cons. done. }
    assert (forall c', nresv s c' <= nresv (nreserve s c) c') as Hrs.
    { intros c'. unfold nresv at 2, nreserve. simpl. destruct (decide (c = c')) as [<-|].
      - rewrite lookup_insert. simpl. lia.
      - by rewrite lookup_insert_ne. }
    destruct (n_resv0 _ _ HR c (nresv s c)) as [Hu1 Hu2]; [done|].
    assert (RN (nset_stack (nreserve s c) t (NPub o b (nresv s c) :: kk)) evs) as [].
    { eapply (rn_upd s _ _ t [NPush o b] [NPub o b (nresv s c)] kk); try done; simpl.
      - intros c' i Hi. by left.
      - intros ty i p Hf Hp. left. done.
      - intros f ->%elem_of_list_singleton. split_and!; [|simpl|done].
        + apply (knows_old s evs t (NPush o b)); [done|]. rewrite Hst. by left.
        + intros y [= <-]. by apply accesses_writes, untouched_accesses. }
    assert (forall u f y, f ∈ nstack (nset_stack (nreserve s c) t (NPub o b (nresv s c) :: kk)) u -> idx f = Some y -> y = x -> u = t) as Hix.
    { intros u f y. rewrite nstack_set. change (nstack (nreserve s c) u) with (nstack s u). destruct (decide (t = u)); [done|].
      intros Hf Hi ->. pose proof (idx_lt _ _ _ _ _ HS HP Hf Hi) as H. simpl in H. lia. }
    constructor; simpl.
    - apply race_free_snoc; [done|]. intros m w Hm. left. apply untouched_accesses. destruct m as [k|y|y].
      + by apply Hnv in Hm.
      + by apply Hns in Hm as ->.
      + by apply Hne in Hm as ->.
    - intros k Hk. apply untouched_snoc; [by apply n_new0|]. intros w. apply Hnv.
    - apply n_held0.
    - intros y j e w Hj Hw. apply lookup_snoc in Hj as [Hj|[-> ->]].
      + destruct (n_set0 _ _ _ _ Hj Hw) as [?|Hk]; [by left|right]. by apply view_app.
      + left. apply Hns in Hw as ->. by left.
    - intros ty i p Hf Hp. apply writes_snoc; [by eapply n_elt0|]. intros Hx. by apply Hnv in Hx.
    - intros u f p Hf Hp. apply writes_snoc; [by eapply n_ptr0|]. intros Hx. by apply Hnv in Hx.
    - intros u f p Hf Hp. apply accesses_snoc; [by eapply n_box0|]. intros w Hx. by apply Hnv in Hx.
    - intros j u p Hj. apply lookup_snoc in Hj as [Hj|[_ [=]]]. destruct (n_got0 _ _ _ Hj) as [He Hw]. split; [done|].
      intros i e Hi Hx. apply lookup_snoc in Hi as [Hi|[-> ->]]; [by eapply hb_weaken, Hw|]. by apply Hnv in Hx.
    - intros c' i Hi. assert ((c', i) <> x) as Hcx.
      { intros [= -> ->]. unfold nresv at 1, nreserve in Hi. simpl in Hi. rewrite lookup_insert in Hi. simpl in Hi. lia. }
      destruct (n_resv1 _ _ Hi) as [H1 H2]. split; apply untouched_snoc; try done; intros w Hw.
      + by apply Hne in Hw.
      + by apply Hns in Hw.
    - intros c' i Hi. apply writes_snoc; [by apply n_pub0|]. intros Hw%Hne. injection Hw as -> ->.
      pose proof (p_len E s HP c). change (nvec _ c) with (nvec s c) in Hi. lia.
    - intros u f y Hf Hi. apply writes_snoc; [by eapply n_idx0|]. intros Hw%Hne. symmetry. by eapply Hix.
  Qed.

  (** ** What a thread looks at *)
  Lemma box_lt s st t f p : IInv st -> R s st -> f ∈ nstack s t -> p ∈ f_boxes (erase f) -> ip_ser p < n_next s.
  Proof.
    intros HI HS Hf Hp. destruct (f_box_points E1 _ _ _ _ HI (sim_frame _ _ _ _ HS Hf) Hp) as (_&v&Hv&_).
    rewrite <- (sim_next _ _ HS). by eapply (v_fresh _ _ HI).
  Qed.
  Lemma box_drop_ok s st evs t f p : IInv st -> R s st -> RN s evs -> f ∈ nstack s t -> p ∈ f_boxes (erase f) ->
    nallowed s evs t (val p, true).
  Proof.
    intros HI HS HR Hf Hp. simpl. split_and!.
    - by eapply box_lt.
    - by eapply (n_box _ _ HR).
    - eapply sim_private; [done|]. by eapply f_box_private, Hp; [|eapply sim_frame].
  Qed.
  Lemma nin_ok s st evs t i g : IInv st -> R s st -> PInv E s -> RN s evs -> NIn i g ∈ nstack s t ->
    n_locks s !! (slot (frame_ty E g), i) = Some t /\ forall w, nallowed s evs t (LSet (slot (frame_ty E g), i), w).
  Proof.
    intros HI HS HP HR Hf. pose proof (n_held _ _ HR _ _ _ Hf) as Hl. split; [done|]. intros w. simpl. split_and!; [done| |].
    - by eapply (n_idx _ _ HR).
    - by apply (idx_lt _ _ _ _ (slot (frame_ty E g), i) HS HP Hf).
  Qed.
  Lemma nsearch_ok s st evs t o i g : IInv st -> R s st -> PInv E s -> RN s evs -> NIn i g ∈ nstack s t -> frame_ty E g = op_ty o ->
    forall y, y ∈ n_search E s o i -> nallowed s evs t y.
  Proof.
    intros HI HS HP HR Hf Hty y Hy. destruct (nin_ok _ _ _ _ _ _ HI HS HP HR Hf) as [Hl Ha]. rewrite Hty in *.
    assert (first s (op_ty o) = Some i) as Hfi.
    { rewrite <- Hty, <- (call_frame_ty E i g). by eapply frame_first. }
    apply elem_of_cons in Hy as [->|Hy]; [apply Ha|].
    apply elem_of_list_fmap in Hy as (p&->&Hp). pose proof (n_elt _ _ HR _ _ _ Hfi Hp) as Hw.
    apply (sim_set _ _ _ _ _ HS Hfi) in Hp. apply set_good in Hp; [|done]. simpl. split_and!.
    - rewrite <- (sim_next _ _ HS). by eapply good_lt.
    - unfold nkeeper in Hw. by rewrite Hl in Hw.
    - intros u f q Hf' Hq Hs. by destruct (good_not_box E1 _ _ _ _ _ _ HI Hp (sim_frame _ _ _ _ HS Hf') Hq).
  Qed.
  Lemma nlooks_ok s st evs t : IInv st -> R s st -> PInv E s -> RN s evs -> forall y, y ∈ n_looks E s t -> nallowed s evs t y.
  Proof.
    intros HI HS HP HR y Hy. unfold n_looks in Hy. destruct (nstack s t) as [|f kk] eqn:Hst; [by apply elem_of_nil in Hy|].
    assert (f ∈ nstack s t) as Hf by (rewrite Hst; by left).
    destruct f as [| | | |o b|i g]; try (by apply elem_of_nil in Hy).
    { destruct b as [p|]; [|by apply elem_of_nil in Hy]. apply elem_of_list_singleton in Hy as ->.
      eapply box_drop_ok; [done..|exact Hf|by left]. }
    destruct g as [|o b| | |o p|o b r|]; try (by apply elem_of_nil in Hy).
    - apply elem_of_app in Hy as [Hy|Hy]; [by eapply nsearch_ok|].
      destruct b as [p|]; [|by apply elem_of_nil in Hy]. apply elem_of_list_singleton in Hy as ->.
      assert (p ∈ f_boxes (erase (NIn i (FGet o (Some p))))) as Hp by (by left). simpl. split_and!.
      + by eapply box_lt.
      + apply accesses_writes. by eapply (n_box _ _ HR).
      + intros u f q Hf' Hq Hs. eapply (f_box_unique E1 st t _ p u _ q HI (sim_frame _ _ _ _ HS Hf) Hp (sim_frame _ _ _ _ HS Hf') Hq Hs).
    - apply elem_of_app in Hy as [Hy|Hy]; [by eapply nsearch_ok|]. apply elem_of_list_singleton in Hy as ->.
      assert (p ∈ f_ptrs (erase (NIn i (FIns o p)))) as Hp by (by left).
      destruct (f_ptr_good E1 _ _ _ _ HI (sim_frame _ _ _ _ HS Hf) Hp) as [ty Hg]. simpl. split_and!.
      + rewrite <- (sim_next _ _ HS). by eapply good_lt.
      + by eapply (n_ptr _ _ HR).
      + intros u f q Hf' Hq Hs. by destruct (good_not_box E1 _ _ _ _ _ _ HI Hg (sim_frame _ _ _ _ HS Hf') Hq).
    - destruct b as [p|]; [|by apply elem_of_nil in Hy]. apply elem_of_list_singleton in Hy as ->.
      eapply box_drop_ok; [done..|exact Hf|by left].
  Qed.

  (** ** A step *)
  Lemma rn_alloc s st evs t v lk m p ad fs fs' kk :
    IInv st -> R s st -> RN s evs -> ialloc E (nmem s) ad v lk = Some (m, p) -> nstack s t = fs ++ kk ->
    (forall f, f ∈ fs' -> (forall q, q ∈ f_ptrs (erase f) ++ f_boxes (erase f) -> q = p) /\
      (forall x, idx f = Some x -> writes evs (LElt x) (byt t)) /\
      match f with NIn i g => n_locks s !! (slot (frame_ty E g), i) = Some t | _ => True end) ->
    RN (nset_stack (with_mem s m) t (fs' ++ kk)) (evs ++ [(t, ATouch [(LVal (n_next s), true)])]).
  Proof.
    intros HI HS HR Ha Hst Hf.
    assert (ip_ser p = n_next s /\ i_next m = S (n_next s)) as [Hps Hm].
    { unfold ialloc in Ha. destruct (_ || _); [|done]. injection Ha as <- <-. done. }
    assert (untouched evs (LVal (n_next s))) as Hu by (by apply (n_new _ _ HR)).
    apply rn_add; [|done|].
    - eapply (rn_upd s _ _ t fs fs' kk); try done; simpl.
      + lia.
      + intros c i Hi. by left.
      + intros ty i q Hfi Hq. by left.
      + intros f Hin. destruct (Hf _ Hin) as (Hq&Hi&Hl). split; [|done]. split.
        * intros q Hq'. rewrite (Hq q) by (apply elem_of_app; by left). unfold val. rewrite Hps.
          by apply accesses_writes, untouched_accesses.
        * intros q Hq'. rewrite (Hq q) by (apply elem_of_app; by right). unfold val. rewrite Hps. by apply untouched_accesses.
    - simpl. intros y ->%elem_of_list_singleton. simpl. split_and!; [lia|by apply untouched_accesses|]. split_and!.
      + intros ty i q Hfi Hq. change (first s ty = Some i) in Hfi. change (q ∈ nset s (slot ty, i)) in Hq.
        apply (sim_set _ _ _ _ _ HS Hfi) in Hq. apply set_good in Hq; [|done]. apply good_lt in Hq; [|done].
        rewrite (sim_next _ _ HS) in Hq. lia.
      + intros u o q Hq. simpl in Hq. rewrite <- (sim_log _ _ HS) in Hq. apply (v_log _ _ HI) in Hq. apply good_lt in Hq; [|done].
        rewrite (sim_next _ _ HS) in Hq. lia.
      + intros u f q. rewrite nstack_set. change (nstack (with_mem s m) u) with (nstack s u). destruct (decide (t = u)) as [<-|]; [done|].
        intros Hin Hq Hs. apply elem_of_app in Hq as [Hq|Hq].
        * destruct (f_ptr_good E1 _ _ _ _ HI (sim_frame _ _ _ _ HS Hin) Hq) as [ty Hg]. apply good_lt in Hg; [|done].
          rewrite (sim_next _ _ HS) in Hg. lia.
        * pose proof (box_lt _ _ _ _ _ HI HS Hin Hq). lia.
  Qed.
  Lemma rn_event s evs e : RN s evs -> RN (nevent s e) evs.
  Proof.
    intros []. constructor; try done. intros j t p Hj. destruct (n_got0 _ _ _ Hj) as [(u&o&He) Hw].
    split; [|done]. exists u, o. by right.
  Qed.
  (** The top frame changes, and perhaps the memory. *)
  Lemma rn_top s s1 evs t f fs' kk :
    RN s evs -> nstack s t = f :: kk ->
    n_threads s1 = n_threads s -> n_next s1 = n_next s -> n_locks s1 = n_locks s -> n_sets s1 = n_sets s ->
    n_vecs s1 = n_vecs s -> n_resv s1 = n_resv s -> n_log s1 = n_log s ->
    (forall f', f' ∈ fs' -> nframe_knows s evs t f') -> RN (nset_stack s1 t (fs' ++ kk)) evs.
  Proof.
    intros HR Hst H1 H2 H3 H4 H5 H6 H7 Hk. eapply (rn_upd s _ _ t [f] fs' kk); try done; simpl.
    - by rewrite H1.
    - lia.
    - intros c. unfold nresv. simpl. by rewrite H6.
    - intros c i Hi. unfold nvec in *. simpl in Hi. rewrite H5 in Hi. by left.
    - intros ty i p Hf Hp. left. unfold NewSim.first, nvec in *. unfold nset in *. simpl in *. by rewrite H5 in Hf; rewrite H4 in Hp.
    - by rewrite H7.
  Qed.
  Lemma knows_one s evs t f : nframe_knows s evs t f -> forall f', f' ∈ [f] -> nframe_knows s evs t f'.
  Proof. by intros H f' ->%elem_of_list_singleton. Qed.
  (** A frame inside the same set. *)
  Lemma knows_in s evs t i g g' : RN s evs -> NIn i g ∈ nstack s t -> frame_ty E g' = frame_ty E g -> frame_knows evs t g' ->
    nframe_knows s evs t (NIn i g').
  Proof.
    intros HR Hf Hty Hk. split_and!; [done| |].
    - simpl. rewrite Hty. intros x [= <-]. by eapply (n_idx _ _ HR).
    - rewrite Hty. by apply (n_held _ _ HR).
  Qed.

  Lemma rn_scan s evs t c n :
    RN s evs -> n <= length (nvec s c) -> (forall c, length (nvec s c) <= nresv s c) ->
    RN s (evs ++ (pair t <$> ((λ i, AAcq (SElt (c, i))) <$> seq 0 n))) /\
    forall i, i < n -> writes (evs ++ (pair t <$> ((λ i, AAcq (SElt (c, i))) <$> seq 0 n))) (LElt (c, i)) (byt t).
  Proof.
    intros HR Hn Hl. induction n as [|n IH].
    - simpl. rewrite app_nil_r. split; [done|lia].
    - rewrite seq_S, !fmap_app, app_assoc. simpl. destruct IH as [HR' Hw]; [lia|]. split.
      + by apply rn_quiet.
      + intros i Hi. destruct (decide (i = n)) as [->|].
        * apply writes_acq. apply (n_pub _ _ HR'). lia.
        * apply writes_snoc; [apply Hw; lia|]. intros Hx. by apply elem_of_nil in Hx.
  Qed.

  Lemma seen_le s o again j : n_seen E s o again j <= length (nvec s (slot (op_ty o))).
  Proof.
    unfold n_seen. destruct (find_ty _ _) as [i|] eqn:Hf; [|lia]. apply find_ty_lookup, lookup_lt_Some in Hf.
    destruct (_ || _); lia.
  Qed.
  Theorem rn_step s st evs t l s' :
    IInv st -> R s st -> PInv E s -> RN s evs -> i_by l t = true -> nstep E s l = Next s' ->
    handles_travel (evs ++ (pair t <$> n_does E s t l)) -> RN s' (evs ++ (pair t <$> n_does E s t l)).
  Proof.
    intros HI HS HP HR Hby Hs HT.
    assert (RN s (evs ++ [(t, ATouch (n_looks E s t))])) as HL.
    { apply rn_add; [done|done|]. by eapply nlooks_ok. }
    destruct l as [u o a|u a j|u v|u|p]; simpl in Hby; try (apply Nat.eqb_eq in Hby as ->).
    - (* ICall *)
      simpl in Hs. destruct (match nstack s t with [] => true | _ => _ end); [|done].
      destruct o as [v|v|v|ty w q|ty w q|ty|ty]; try done.
      3:{ destruct (ialloc E (nmem s) a v false) as [[m p]|] eqn:Ha; [|done]. injection Hs as <-.
          apply (rn_alloc s st evs t v false m p a [] [NScan (OBox v) (Some p) false] (nstack s t)); try done.
          intros f ->%elem_of_list_singleton. simpl. split_and!; [by intros q ->%elem_of_list_singleton|done|done]. }
      all: injection Hs as <-; simpl; rewrite app_nil_r;
        (match goal with |- RN (nset_stack _ _ (?f :: _)) _ => eapply (rn_upd s _ _ t [] [f] _) end); try done; simpl;
        try lia; try (by left); try (intros; by left); intros f ->%elem_of_list_singleton; (split_and!; [by apply no_ptrs|done|done]).
    - (* IStep *)
      simpl in Hs. unfold nstep_thread in Hs. unfold n_does in HT |- *.
      destruct (nstack s t) as [|f kk] eqn:Hst; [done|].
      assert (f ∈ nstack s t) as Hf by (rewrite Hst; by left).
      assert (forall ev f', RN s ev -> erase f' = erase f -> idx f' = None -> match f' with NIn _ _ => False | _ => True end ->
        forall f'', f'' ∈ [f'] -> nframe_knows s ev t f'') as Hwait.
      { intros ev f' HRe He Hi Hm f'' ->%elem_of_list_singleton. split_and!.
        - rewrite He. by apply (knows_old s ev t f).
        - by rewrite Hi.
        - by destruct f'. }
      destruct f as [o b again|o b|o b i|o b i|o b|i g].
      + (* NScan *)
        set (c := slot (op_ty o)) in *. set (n := n_seen E s o again j) in *.
        destruct (rn_scan s evs t c n HR (seen_le s o again j) (p_len E s HP)) as [HA Hw].
        rewrite fmap_app, app_assoc. set (evs1 := evs ++ (pair t <$> ((λ i, AAcq (SElt (c, i))) <$> seq 0 n))) in *.
        assert (RN s (evs1 ++ (pair t <$> [ATouch ((λ i, (LElt (c, i), false)) <$> seq 0 n)]))) as HB.
        { apply rn_add; [done|done|]. simpl. intros y Hy. apply elem_of_list_fmap in Hy as (i&->&Hi%elem_of_seq). simpl.
          split; [apply Hw; lia|]. pose proof (seen_le s o again j). pose proof (p_len E s HP c). fold c n in H. lia. }
        destruct (find_ty (op_ty o) (nvec s c)) as [i|] eqn:Hfi.
        * destruct ((j =? 0) || again) eqn:Hj; injection Hs as <-.
          -- apply (rn_top s s _ t (NScan o b again) [NLock o b i] kk); try done. apply knows_one. split_and!; [|simpl|done].
             ++ by apply (knows_old s _ t (NScan o b again)).
             ++ intros x [= <-]. apply writes_snoc; [|simpl; intros Hx; apply elem_of_list_fmap in Hx as (?&[=]&_)].
                apply Hw. unfold n, n_seen. fold c. rewrite Hfi, Hj. lia.
          -- apply (rn_top s s _ t (NScan o b again) [NPush o b] kk); try done. by apply Hwait.
        * destruct again; [done|]. injection Hs as <-.
          apply (rn_top s s _ t (NScan o b false) [NPush o b] kk); try done. by apply Hwait.
      + (* NPush *) injection Hs as <-. by eapply rn_push.
      + (* NPub *)
        set (c := slot (op_ty o)) in *.
        destruct (Nat.eqb_spec (length (nvec s c)) i) as [Hi|]; [|done]. injection Hs as <-.
        pose proof (n_idx _ _ HR _ _ _ Hf eq_refl) as Hw. fold c in Hw. apply (writes_rel _ _ (SElt (c, i))) in Hw.
        assert (RN s (evs ++ [(t, ARel (SElt (c, i)))])) as HA by (by apply rn_quiet).
        assert (forall c', nvec (npublish s c (op_ty o)) c' = if decide (c = c') then nvec s c ++ [op_ty o] else nvec s c') as Hv.
        { intros c'. unfold nvec at 1. simpl. destruct (decide (c = c')) as [<-|]; [by rewrite lookup_insert|by rewrite lookup_insert_ne]. }
        eapply (rn_upd s _ _ t [NPub o b i] [NScan o b true] kk); try done; simpl.
        * intros c' i'. change (nvec (nset_stack _ _ _) c') with (nvec (npublish s c (op_ty o)) c'). rewrite Hv.
          destruct (decide (c = c')) as [<-|]; [|by left]. rewrite app_length. simpl. intros Hi'.
          destruct (decide (i' = i)) as [->|]; [by right|left; lia].
        * intros ty i' p Hf' Hp. change (nset (nset_stack _ _ _) (slot ty, i')) with (nset s (slot ty, i')) in Hp. left. split; [|done].
          unfold NewSim.first in *. change (nvec (nset_stack _ _ _) (slot ty)) with (nvec (npublish s c (op_ty o)) (slot ty)) in Hf'. rewrite Hv in Hf'.
          destruct (decide (c = slot ty)) as [Hc|]; [|done].
          destruct (find_ty ty (nvec s (slot ty))) as [i0|] eqn:Hf0.
          -- rewrite <- Hc in Hf0. apply (find_ty_app _ _ [op_ty o]) in Hf0. congruence.
          -- rewrite <- Hc in Hf0. rewrite find_ty_snoc in Hf' by done. destruct (_ =? ty); [|done]. injection Hf' as <-.
             destruct (r_fresh _ _ _ (r_base _ _ _ HS) c (length (nvec s c))) as [Hn _]; [done|]. rewrite <- Hc in Hp.
             unfold nset in Hp. rewrite Hn in Hp. by apply elem_of_nil in Hp.
        * by apply Hwait.
      + (* NLock *)
        set (x := (slot (op_ty o), i)) in *.
        destruct (n_locks s !! x) eqn:Hl; [done|].
        assert (nallowed s evs t (LElt x, false)) as Ha.
        { split; [by eapply (n_idx _ _ HR)|by apply (idx_lt _ _ _ _ x HS HP Hf)]. }
        assert (RN s (evs ++ [(t, ATouch [(LElt x, false)])])) as H1.
        { apply rn_add; [done|done|]. by intros y ->%elem_of_list_singleton. }
        cbn [fmap list_fmap]. rewrite cons_middle, app_assoc. rewrite (cons_middle (t, AAcq (SLock x))), app_assoc.
        set (evs1 := evs ++ [(t, ATouch [(LElt x, false)])]) in *.
        destruct (bool_decide (x ∈ n_poison s)) eqn:Hp.
        * destruct (existsb unwinds kk); [done|]. injection Hs as <-.
          apply (rn_top s s _ t (NLock o b i) [NPanic o b] kk); try done.
          -- apply rn_quiet; [|done|done]. by apply rn_quiet.
          -- apply Hwait; try done. apply rn_quiet; [|done|done]. by apply rn_quiet.
        * pose proof (rn_acq s evs1 x t H1 Hl) as H2.
          assert (RN (nlock s x t) ((evs1 ++ [(t, AAcq (SLock x))]) ++ [(t, ATouch [(LSet x, true)])])) as H3.
          { apply rn_add; [done|done|]. intros y ->%elem_of_list_singleton. simpl. split_and!.
            - by rewrite lookup_insert.
            - by eapply (n_idx _ _ H2 t _ x).
            - by apply Ha. }
          assert (forall g' s2, n_threads s2 = n_threads s -> n_next s2 = n_next s ->
            n_locks s2 = <[x:=t]> (n_locks s) -> (forall e, e ∈ n_log s -> e ∈ n_log s2) ->
            (forall y p, p ∈ nset s2 y -> p ∈ nset s y) -> n_vecs s2 = n_vecs s -> n_resv s2 = n_resv s ->
            f_ptrs g' = [] -> (forall p, p ∈ f_boxes g' -> b = Some p) -> frame_ty E g' = op_ty o ->
            RN (nset_stack s2 t (NIn i g' :: kk)) ((evs1 ++ [(t, AAcq (SLock x))]) ++ [(t, ATouch [(LSet x, true)])])) as Hgo.
          { intros g' s2 E1' E2 E3 E4 E5 E6 E7 E8 E9 E10.
            eapply (rn_upd (nlock s x t) _ _ t [NLock o b i] [NIn i g'] kk); try done; simpl.
            - by rewrite E1'.
            - lia.
            - intros c. unfold nresv. simpl. by rewrite E7.
            - intros c i'. unfold nvec. simpl. rewrite E6. by left.
            - intros ty i' p Hf' Hp'. left. split; [|by apply E5]. unfold NewSim.first, nvec in *. simpl in *. by rewrite E6 in Hf'.
            - intros f' ->%elem_of_list_singleton. split_and!.
              + simpl. split; [rewrite E8; intros p Hp'; by apply elem_of_nil in Hp'|].
                intros p Hp'%E9. eapply (n_box _ _ H3); [exact Hf|]. rewrite Hp'. by left.
              + simpl. rewrite E10. intros y [= <-]. by eapply (n_idx _ _ H3 t _ x).
              + simpl. rewrite E10. by rewrite lookup_insert. }
          destruct o; injection Hs as <-; apply Hgo; try done; simpl;
            try (by intros p Hp'%elem_of_nil);
            try (intros p Hp'; destruct b; [by apply elem_of_list_singleton in Hp' as ->|by apply elem_of_nil in Hp']).
          -- intros e He. by right.
          -- intros y p. unfold nset. simpl. destruct (decide (x = y)) as [<-|].
             ++ rewrite lookup_insert. simpl. by intros H%elem_of_nil.
             ++ by rewrite lookup_insert_ne.
      + (* NPanic *)
        destruct b as [p|].
        * unfold ifree in Hs. simpl in Hs. destruct (n_objs s !! ip_ser p) as [y|]; [|done]. destruct (io_leaked y); [done|].
          injection Hs as <-. apply rn_event. apply (rn_top s _ _ t (NPanic o (Some p)) [] kk); try done. intros f' Hf'. by apply elem_of_nil in Hf'.
        * injection Hs as <-. apply rn_event. apply (rn_top s _ _ t (NPanic o None) [] kk); try done. intros f' Hf'. by apply elem_of_nil in Hf'.
      + (* NIn *)
        assert (forall ev g' s1, RN s ev -> frame_ty E g' = frame_ty E g -> frame_knows ev t g' ->
          n_threads s1 = n_threads s -> n_next s1 = n_next s -> n_locks s1 = n_locks s -> n_sets s1 = n_sets s ->
          n_vecs s1 = n_vecs s -> n_resv s1 = n_resv s -> n_log s1 = n_log s ->
          RN (nset_stack s1 t (NIn i g' :: kk)) ev) as Hgo.
        { intros ev g' s1 HRe Hty Hk E1' E2 E3 E4 E5 E6 E7. apply (rn_top s s1 ev t (NIn i g) [NIn i g'] kk); try done.
          apply knows_one. by eapply knows_in. }
        assert (first s (frame_ty E g) = Some i) as Hfi.
        { rewrite <- (call_frame_ty E i g). by apply (frame_first s st t _ i HS Hf). }
        destruct (nin_ok _ _ _ _ _ _ HI HS HP HR Hf) as [Hl Hsa].
        destruct g as [o b|o b|ty w q|o v|o p|o b r|o r]; simpl in Hfi, Hl, Hsa.
        * done.
        * (* FGet *)
          assert (forall p h, ipick j (candidates (nmem s) h (nset s (slot (op_ty o), i))) = Some p ->
            writes (evs ++ [(t, ATouch (n_looks E s t))]) (val p) (byt t)) as Hpk.
          { intros p h [Hp _]%ipick_in%cand_in. apply (n_elt _ _ HL _ _ _ Hfi) in Hp. unfold nkeeper in Hp. by rewrite Hl in Hp. }
          assert (forall p, p ∈ f_boxes (FGet o b) -> accesses (evs ++ [(t, ATouch (n_looks E s t))]) (val p) (byt t)) as Hbx.
          { intros p Hp. by eapply (n_box _ _ HL). }
          destruct (ireadable _ _); [|done].
          destruct (ipick j _) as [p|] eqn:Hp.
          -- apply Hpk in Hp. destruct o; try done; injection Hs as <-; (apply Hgo; [done..| |done|done|done|done|done|done|done]).
             all: split; [first [by intros q' ->%elem_of_list_singleton|by intros q' Hq'%elem_of_nil]|first [exact Hbx|by intros q' Hq'%elem_of_nil]].
          -- destruct o; try done.
             3:{ destruct b as [p|]; [|done]. unfold ileak in Hs. simpl in Hs. destruct (n_objs s !! ip_ser p) as [y|]; [|done].
                 destruct (io_leaked y); [done|]. injection Hs as <-. (apply Hgo; [done..| |done|done|done|done|done|done|done]).
                 split; simpl; [|by intros q Hq%elem_of_nil]. intros q ->%elem_of_list_singleton.
                 apply accesses_writes, Hbx. by left. }
             all: injection Hs as <-; (apply Hgo; [done..|by apply no_ptrs|done|done|done|done|done|done|done]).
        * done.
        * (* FStore *)
          destruct (ialloc E (nmem s) a v true) as [[m p]|] eqn:Ha; [|done]. injection Hs as <-.
          apply (rn_alloc s st evs t v true m p a [NIn i (FStore o v)] [NIn i (FIns o p)] kk); try done.
          intros f' ->%elem_of_list_singleton. simpl. split_and!; [by intros q ->%elem_of_list_singleton| |done].
          intros x [= <-]. by eapply (n_idx _ _ HR _ _ _ Hf).
        * (* FIns *)
          set (x := (slot (op_ty o), i)) in *.
          assert (RN s (evs ++ [(t, ATouch ((LSet x, true) :: n_looks E s t))])) as HL'.
          { apply rn_add; [done|done|]. simpl. intros y [->|Hy]%elem_of_cons; [exact (Hsa true)|]. by eapply nlooks_ok. }
          assert (forall q, q ∈ [p] -> writes (evs ++ [(t, ATouch ((LSet x, true) :: n_looks E s t))]) (val q) (byt t)) as Hw.
          { intros q Hq. by eapply (n_ptr _ _ HL'). }
          destruct (iread (nmem s) p) as [v|] eqn:Hr; [|done]. destruct (ireadable _ _); [|done].
          destruct (candidates (nmem s) (ins_match E v) (nset s x)) as [|p' l] eqn:Hc; injection Hs as <-.
          -- eapply (rn_upd s _ _ t [NIn i (FIns o p)] [NIn i (FDone o (RPtr p))] kk); try done; simpl.
             ++ intros c i' Hi'. by left.
             ++ intros ty i' q Hf' Hq. change (first s ty = Some i') in Hf'. unfold nset in Hq. simpl in Hq.
                destruct (decide (x = (slot ty, i'))) as [Heq|].
                ** rewrite Heq, lookup_insert in Hq. simpl in Hq. apply elem_of_cons in Hq as [->|Hq].
                   --- right. rewrite <- Heq. split; [done|]. apply Hw. by left.
                   --- left. split; [done|]. exact Hq.
                ** left. split; [done|]. by rewrite lookup_insert_ne in Hq.
             ++ apply knows_one. eapply knows_in; [done|exact Hf|done|]. split; [done|by intros q Hq%elem_of_nil].
             ++ intros e He. by right.
          -- apply Hgo; [done..| |done|done|done|done|done|done|done]. split; [done|by intros q Hq%elem_of_nil].
        * (* FDup *)
          assert (frame_knows (evs ++ [(t, ATouch (n_looks E s t))]) t (FDone o r)) as Hk.
          { split; [|by intros q Hq%elem_of_nil]. intros q Hq. by eapply (n_ptr _ _ HL). }
          destruct b as [p|].
          -- unfold ifree in Hs. simpl in Hs. destruct (n_objs s !! ip_ser p) as [y|]; [|done].
             destruct (io_leaked y); [done|]. injection Hs as <-. by apply Hgo.
          -- injection Hs as <-. by apply Hgo.
        * (* FDone *)
          injection Hs as <-.
          pose proof (rn_rel s st evs t i _ kk (match r with RPanic => true | _ => false end) HR HI HS Hst) as HA. simpl in HA.
          cbn [fmap list_fmap]. rewrite cons_middle, app_assoc.
          apply (rn_event _ _ (EvRet t o r)) in HA as HB.
          destruct r as [p| | | |]; simpl; try (by rewrite app_nil_r).
          eapply rn_got; [exact HB|by left|]. apply writes_snoc; [|by intros Hx%elem_of_nil].
          eapply (n_ptr _ _ HR); [exact Hf|by left].
    - (* IConv *)
      simpl in Hs |- *. rewrite app_nil_r. destruct (nstack s t) as [|[| | | | |i []] kk] eqn:Hst; try done.
      destruct (_ && _); [|done]. injection Hs as <-.
      eapply (rn_top s s evs t _ [NIn i (FStore (ORef ty w q) v)] kk); try done. apply knows_one.
      eapply (knows_in s evs t i (FConv ty w q)); [done|rewrite Hst; by left|done|by apply no_ptrs].
    - (* IPanic *)
      simpl in Hs |- *. unfold nstep_panic in Hs. destruct (nstack s t) as [|f kk] eqn:Hst; [done|].
      assert (f ∈ nstack s t) as Hf by (rewrite Hst; by left).
      destruct (existsb unwinds (f :: kk)); [done|]. destruct f as [| | | | |i g]; try done.
      assert (forall g', frame_ty E g' = frame_ty E g -> frame_knows (evs ++ [(t, ATouch (n_looks E s t))]) t g' ->
          RN (nset_stack s t (NIn i g' :: kk)) (evs ++ [(t, ATouch (n_looks E s t))])) as Hgo.
      { intros g' Hty Hk. apply (rn_top s s _ t (NIn i g) [NIn i g'] kk); try done. apply knows_one. by eapply knows_in. }
      destruct g as [o b|o b|ty w q|o v|o p|o b r|o r]; try done; injection Hs as <-; apply Hgo; try done; try (by apply no_ptrs).
      + split; [by intros q Hq%elem_of_nil|]. intros q Hq. eapply (n_box _ _ HL); [exact Hf|done].
      + split; [by intros q Hq%elem_of_nil|]. intros q Hq. eapply (n_box _ _ HL); [exact Hf|done].
    - (* IDeref *)
      simpl in *. destruct (returned p (n_log s)); [|done]. destruct (iread (nmem s) p); [|done]. injection Hs as <-.
      apply rn_event. by eapply rn_read.
  Qed.
End race.

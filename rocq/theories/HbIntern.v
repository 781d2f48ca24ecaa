(** No execution of the Intern model has a data race: invariant and its preservation. *)
From stdpp Require Import gmap list numbers.
From Verif Require Import Base InternModel InternSpec InternInv InternStep HbSpec HbLib HbModel.
Require Import ZifyBool ZifyNat ZifyN.

Section race.
  Context {V Q : Type} (E : ienv V Q).
  Implicit Types (st : istate V Q) (v : V) (p : iptr) (o : iop V Q) (f g : frame V Q) (t ty s : nat) (evs : acts) (a : act).
  Notation slot := (slot E).
  Notation op_ty := (op_ty E).
  Notation IInv := (IInv E).
  Notation held := (held E).

  (** Pointers a frame has got from the set, or is about to put there; boxes it owns. *)
  Definition f_ptrs f : list iptr :=
    match f with FIns _ p | FDup _ _ (RPtr p) | FDone _ (RPtr p) => [p] | _ => [] end.
  Definition f_boxes f : list iptr :=
    match f with FWait _ (Some p) | FGet _ (Some p) | FDup _ (Some p) _ => [p] | _ => [] end.
  Definition keeper st (c : nat) : nat * act -> Prop :=
    match i_locks st !! c with Some t => byt t | None => rel (SLock (c, 0)) end.

  Record RI st evs : Prop := {
    r_free : race_free evs;
    r_next : forall s, i_next st <= s -> untouched evs (LVal s);
    r_lock : forall t f c, f ∈ get_stack st t -> 0 < held c f -> i_locks st !! c = Some t;
    r_set : forall c, accesses evs (LSet (c, 0)) (keeper st c);
    r_elt : forall ty p, p ∈ set_of E st ty -> writes evs (val p) (keeper st (slot ty));
    r_ptr : forall t f p, f ∈ get_stack st t -> p ∈ f_ptrs f -> writes evs (val p) (byt t);
    r_box : forall t f p, f ∈ get_stack st t -> p ∈ f_boxes f -> accesses evs (val p) (byt t);
    r_got : forall j t p, evs !! j = Some (t, AGot p) ->
      (exists u o, EvRet u o (RPtr p) ∈ i_log st) /\
      forall i e, evs !! i = Some e -> (val p, true) ∈ touched e.2 -> hb evs i j;
  }.

  Lemma ri_init : RI iinit [].
  Proof.
    constructor.
    - apply race_free_nil.
    - intros s _ i e w H. by rewrite lookup_nil in H.
    - intros t f c H. unfold get_stack in H. simpl in H. rewrite lookup_empty in H. by apply elem_of_nil in H.
    - intros c i e w H. by rewrite lookup_nil in H.
    - intros ty p _ i e H. by rewrite lookup_nil in H.
    - intros t f p _ _ i e H. by rewrite lookup_nil in H.
    - intros t f p _ _ i e w H. by rewrite lookup_nil in H.
    - intros j t p H. by rewrite lookup_nil in H.
  Qed.

  (** ** Actions *)
  (** Nothing but thread [t] knows of allocation [s], except that it may be one that [t] owns. *)
  Definition private st t s : Prop :=
    (forall ty p, p ∈ set_of E st ty -> ip_ser p <> s) /\
    (forall u o p, EvRet u o (RPtr p) ∈ i_log st -> ip_ser p <> s) /\
    (forall u f p, f ∈ get_stack st u -> p ∈ f_ptrs f ++ f_boxes f -> ip_ser p = s -> u = t).
  Definition allowed st evs t (x : mloc * bool) : Prop :=
    match x with
    | (LSet (c, n), _) => n = 0 /\ i_locks st !! c = Some t
    | (LVal s, true) => s < i_next st /\ accesses evs (LVal s) (byt t) /\ private st t s
    | (LVal s, false) => s < i_next st /\ writes evs (LVal s) (byt t) /\
        (forall u f p, f ∈ get_stack st u -> p ∈ f_boxes f -> ip_ser p = s -> u = t)
    | (LElt _, _) => False
    end.

  Lemma ri_add st evs t a :
    RI st evs -> (forall p, a <> AGot p) -> (forall x, x ∈ touched a -> allowed st evs t x) ->
    RI st (evs ++ [(t, a)]).
  Proof.
    intros [] Hng Ha. constructor.
    - apply race_free_snoc; [done|]. intros [s|[c n]|] w Hx; pose proof (Ha _ Hx) as H; simpl in H.
      + destruct w; [left; by destruct H as (_&?&_)|right; by destruct H as (_&?&_)].
      + destruct H as [-> H]. left. pose proof (r_set0 c) as Hc. unfold keeper in Hc. by rewrite H in Hc.
      + done.
    - intros s Hs. apply untouched_snoc; [by apply r_next0|]. intros w Hx. apply Ha in Hx. simpl in Hx.
      destruct w; destruct Hx as [? _]; lia.
    - done.
    - intros c. apply accesses_snoc; [done|]. intros w Hx. apply Ha in Hx as [_ Hx]. unfold keeper. by rewrite Hx.
    - intros ty p Hp. apply writes_snoc; [by eapply r_elt0|]. intros Hx. apply Ha in Hx as (_&_&Hx&_).
      by destruct (Hx _ _ Hp).
    - intros u f p Hf Hp. apply writes_snoc; [by eapply r_ptr0|]. intros Hx. apply Ha in Hx as (_&_&_&_&Hx).
      symmetry. eapply Hx; [done|by apply elem_of_app; left|done].
    - intros u f p Hf Hp. apply accesses_snoc; [by eapply r_box0|]. intros w Hx. apply Ha in Hx. simpl in Hx.
      symmetry. destruct w.
      + destruct Hx as (_&_&_&_&Hx). eapply Hx; [done|by apply elem_of_app; right|done].
      + destruct Hx as (_&_&Hx). by eapply Hx.
    - intros j u p Hj. apply lookup_snoc in Hj as [Hj|[_ [= <- <-]]]; [|by destruct (Hng p)].
      destruct (r_got0 _ _ _ Hj) as [He Hw]. split; [done|].
      intros i e Hi Hx. apply lookup_snoc in Hi as [Hi|[-> ->]].
      + by eapply hb_weaken, Hw.
      + apply Ha in Hx as (_&_&_&Hx&_). destruct He as (u'&o&He). by destruct (Hx _ _ _ He).
  Qed.
  Lemma ri_quiet st evs t a : RI st evs -> (forall p, a <> AGot p) -> touched a = [] -> RI st (evs ++ [(t, a)]).
  Proof. intros HR Hn Ht. apply ri_add; [done|done|]. rewrite Ht. intros x Hx. by apply elem_of_nil in Hx. Qed.
  Lemma ri_got st evs t p u o :
    RI st evs -> EvRet u o (RPtr p) ∈ i_log st -> writes evs (val p) (byt t) -> RI st (evs ++ [(t, AGot p)]).
  Proof.
    intros [] He Hw. constructor; try done.
    - by apply race_free_quiet.
    - intros s Hs. apply untouched_snoc; [by apply r_next0|]. intros w H. by apply elem_of_nil in H.
    - intros c. apply accesses_snoc; [done|]. intros w H. by apply elem_of_nil in H.
    - intros ty q Hq. apply writes_snoc; [by apply r_elt0|]. intros H. by apply elem_of_nil in H.
    - intros u' f q Hf Hq. apply writes_snoc; [by eapply r_ptr0|]. intros H. by apply elem_of_nil in H.
    - intros u' f q Hf Hq. apply accesses_snoc; [by eapply r_box0|]. intros w H. by apply elem_of_nil in H.
    - intros j u' q Hj. apply lookup_snoc in Hj as [Hj|[-> [= -> ->]]].
      + destruct (r_got0 _ _ _ Hj) as [He' Hw']. split; [done|]. intros i e Hi Hx.
        apply lookup_snoc in Hi as [Hi|[-> ->]]; [by eapply hb_weaken, Hw'|by apply elem_of_nil in Hx].
      + split; [by eexists _, _|]. intros i e Hi Hx.
        apply lookup_snoc in Hi as [Hi|[-> ->]]; [|by apply elem_of_nil in Hx].
        apply hb_last. eapply view_imp; [|by eapply Hw]. intros e' He'. by left.
  Qed.
  Lemma ri_read st evs t p :
    RI st evs -> handles_travel (evs ++ [(t, ARead p)]) -> IInv st -> RI st (evs ++ [(t, ARead p)]).
  Proof.
    intros HR HT HI. destruct (HT (length evs) t p) as (i&u&Hi&Hh); [by apply list_lookup_middle|].
    pose proof (hb_lt _ _ _ Hh). rewrite lookup_app_l in Hi by done.
    destruct (r_got _ _ HR _ _ _ Hi) as [(u'&o&He) Hw].
    apply (v_log _ _ HI) in He as (v&Hp&_).
    apply ri_add; [done|done|]. simpl. intros x ->%elem_of_list_singleton. simpl. split_and!.
    - by apply (v_fresh _ _ HI) in Hp.
    - intros k e Hk Hx. assert (hb (evs ++ [(t, ARead p)]) k (length evs)) as Hk'.
      { eapply hb_trans; [|done]. apply hb_weaken. by eapply Hw. }
      apply hb_last in Hk'. eapply view_imp; [|done]. intros f [Hf|Hf]; [done|].
      by destruct f as [? []].
    - intros w f q Hf Hq Hs. exfalso. pose proof (v_frames _ _ HI _ _ Hf) as Hok.
      assert (exists v', points E st (ie_ty E v') q v' false) as (v'&Hq'&_).
      { destruct f as [o' b|o' b| | | |o' b r|]; simpl in Hq; try (by apply elem_of_nil in Hq);
          (destruct b as [b|]; [|by apply elem_of_nil in Hq]); apply elem_of_list_singleton in Hq as ->;
          simpl in Hok; first [destruct Hok as [Hok _]|idtac]; destruct o'; simpl in Hok; try done;
          destruct Hok as (q'&[= ->]&?); by eexists. }
      rewrite Hs in Hq'. congruence.
  Qed.

  (** ** States *)
  Definition frame_knows evs t f : Prop :=
    (forall p, p ∈ f_ptrs f -> writes evs (val p) (byt t)) /\ (forall p, p ∈ f_boxes f -> accesses evs (val p) (byt t)).
  Lemma ri_upd st st' evs t fs fs' k :
    RI st evs -> get_stack st t = fs ++ k ->
    i_threads st' = <[t:=fs' ++ k]> (i_threads st) -> i_next st <= i_next st' -> i_locks st' = i_locks st ->
    (forall ty p, p ∈ set_of E st' ty -> p ∈ set_of E st ty \/ i_locks st !! slot ty = Some t /\ writes evs (val p) (byt t)) ->
    (forall f, f ∈ fs' -> frame_knows evs t f /\ forall c, 0 < held c f -> i_locks st !! c = Some t) ->
    (forall e, e ∈ i_log st -> e ∈ i_log st') -> RI st' evs.
  Proof.
    intros [] Hst Hth Hn Hl Hs Hf Hlog.
    assert (forall u f, f ∈ get_stack st' u -> f ∈ get_stack st u \/ u = t /\ f ∈ fs') as Hfr.
    { intros u f. rewrite (stack_upd _ _ _ _ _ Hth). destruct (decide (t = u)) as [<-|]; [|by left].
      intros [H|H]%elem_of_app; [by right|left]. rewrite Hst. apply elem_of_app. by right. }
    constructor.
    - done.
    - intros s Hs'. apply r_next0. lia.
    - intros u f c Hu Hc. rewrite Hl. apply Hfr in Hu as [Hu|[-> Hu]]; [by eapply r_lock0|by eapply Hf].
    - intros c. unfold keeper. rewrite Hl. apply r_set0.
    - intros ty p Hp. unfold keeper. rewrite Hl. apply Hs in Hp as [Hp|[Hl' Hp]]; [by eapply r_elt0|]. by rewrite Hl'.
    - intros u f p Hu Hp. apply Hfr in Hu as [Hu|[-> Hu]]; [by eapply r_ptr0|]. by apply Hf in Hu as [[? ?] _]; eauto.
    - intros u f p Hu Hp. apply Hfr in Hu as [Hu|[-> Hu]]; [by eapply r_box0|]. by apply Hf in Hu as [[? ?] _]; eauto.
    - intros j u p Hj. destruct (r_got0 _ _ _ Hj) as [(u'&o&He) Hw]. split; [|done]. exists u', o. by apply Hlog.
  Qed.

  (** Taking and releasing a mutex. *)
  Lemma ri_acq st evs c t :
    RI st evs -> i_locks st !! c = None -> RI (ilock st c t) (evs ++ [(t, AAcq (SLock (c, 0)))]).
  Proof.
    intros HR Hc. pose proof (ri_quiet _ _ t (AAcq (SLock (c, 0))) HR (λ p, ltac:(done)) eq_refl) as []. destruct HR.
    constructor; try done; simpl.
    - intros u f c' Hf Hh. destruct (decide (c = c')) as [<-|].
      + pose proof (r_lock1 _ _ _ Hf Hh). congruence.
      + rewrite lookup_insert_ne by done. by eapply r_lock1.
    - intros c'. destruct (decide (c = c')) as [<-|].
      + unfold keeper. simpl. rewrite lookup_insert. apply accesses_acq. pose proof (r_set1 c) as H. unfold keeper in H. by rewrite Hc in H.
      + pose proof (r_set0 c') as H. unfold keeper in *. simpl. by rewrite lookup_insert_ne.
    - intros ty p Hp. destruct (decide (c = slot ty)) as [->|].
      + unfold keeper. simpl. rewrite lookup_insert. apply writes_acq. pose proof (r_elt1 _ _ Hp) as H. unfold keeper in H. by rewrite Hc in H.
      + pose proof (r_elt0 _ _ Hp) as H. unfold keeper in *. simpl. by rewrite lookup_insert_ne.
  Qed.
  Lemma ri_rel st evs c t f k w :
    RI st evs -> IInv st -> get_stack st t = f :: k -> 0 < held c f ->
    RI (set_stack (iunlock st c w) t k) (evs ++ [(t, ARel (SLock (c, 0)))]).
  Proof.
    intros HR HI Hst Hh. pose proof (ri_quiet _ _ t (ARel (SLock (c, 0))) HR (λ p, ltac:(done)) eq_refl) as []. destruct HR.
    assert (i_locks st !! c = Some t) as Hc.
    { eapply r_lock1; [rewrite Hst; by left|done]. }
    assert (forall u g, g ∈ get_stack (set_stack (iunlock st c w) t k) u -> g ∈ get_stack st u /\ held c g = 0) as Hfr.
    { intros u g. pose proof (v_locks _ _ HI c) as Hs. unfold lk in Hs. rewrite Hc in Hs.
      rewrite get_stack_set. change (get_stack (iunlock st c w) u) with (get_stack st u).
      destruct (decide (t = u)) as [<-|Hne].
      - intros Hg. split; [rewrite Hst; by right|].
        pose proof (msum_stack_ge (held c) st t) as Hge. rewrite Hst in Hge. simpl in Hge.
        apply (lsum_ge (held c)) in Hg. lia.
      - intros Hg. split; [done|]. pose proof (msum_stack_ge2 (held c) st t u Hne) as Hge. rewrite Hst in Hge. simpl in Hge.
        apply (lsum_ge (held c)) in Hg. lia. }
    constructor; try done; simpl.
    - intros u g c' Hg Hg'. apply Hfr in Hg as [Hg Hz]. rewrite lookup_delete_ne by (intros <-; lia). by eapply r_lock1.
    - intros c'. destruct (decide (c = c')) as [<-|].
      + unfold keeper. simpl. rewrite lookup_delete. apply accesses_rel. pose proof (r_set1 c) as H. unfold keeper in H. by rewrite Hc in H.
      + pose proof (r_set0 c') as H. unfold keeper in *. simpl. by rewrite lookup_delete_ne.
    - intros ty p Hp. destruct (decide (c = slot ty)) as [->|].
      + unfold keeper. simpl. rewrite lookup_delete. apply writes_rel. pose proof (r_elt1 _ _ Hp) as H. unfold keeper in H. by rewrite Hc in H.
      + pose proof (r_elt0 _ _ Hp) as H. unfold keeper in *. simpl. by rewrite lookup_delete_ne.
    - intros u g p [Hg _]%Hfr. by eapply r_ptr0.
    - intros u g p [Hg _]%Hfr. by eapply r_box0.
  Qed.

  (** ** What a thread looks at *)
  Lemma f_box_points st u f p : IInv st -> f ∈ get_stack st u -> p ∈ f_boxes f ->
    0 < owned (ip_ser p) f /\ exists v, points E st (ie_ty E v) p v false.
  Proof.
    intros HI Hf Hq. pose proof (v_frames _ _ HI _ _ Hf) as Hok.
    destruct f as [o' b|o' b| | | |o' b r|]; simpl in Hq; try (by apply elem_of_nil in Hq);
      (destruct b as [b|]; [|by apply elem_of_nil in Hq]); apply elem_of_list_singleton in Hq as ->;
      simpl in Hok |- *; rewrite Nat.eqb_refl; (split; [lia|]); first [destruct Hok as [Hok _]|idtac];
      destruct o'; simpl in Hok; try done; destruct Hok as (q'&[= ->]&?); by eexists.
  Qed.
  Lemma f_ptr_good st u f p : IInv st -> f ∈ get_stack st u -> p ∈ f_ptrs f -> exists ty, good E st ty p.
  Proof.
    intros HI Hf Hq. pose proof (v_frames _ _ HI _ _ Hf) as Hok.
    destruct f as [| | | |o' q|o' b r|o' r]; simpl in Hq; try (by apply elem_of_nil in Hq).
    - apply elem_of_list_singleton in Hq as ->. destruct Hok as (v&Hv&_). by eexists _, _.
    - destruct r; try (by apply elem_of_nil in Hq). apply elem_of_list_singleton in Hq as ->.
      destruct Hok as [_ Hok]. by eexists.
    - destruct r; try (by apply elem_of_nil in Hq). apply elem_of_list_singleton in Hq as ->. by eexists.
  Qed.
  Lemma set_good st ty p : IInv st -> p ∈ set_of E st ty -> good E st ty p.
  Proof. intros HI Hp. destruct (set_points E st ty p HI Hp) as (v&?&_). by exists v. Qed.
  Lemma good_lt st ty p : IInv st -> good E st ty p -> ip_ser p < i_next st.
  Proof. intros HI (v&Hv&_). by eapply (v_fresh _ _ HI). Qed.
  Lemma good_not_box st ty p u f q : IInv st -> good E st ty p -> f ∈ get_stack st u -> q ∈ f_boxes f -> ip_ser q <> ip_ser p.
  Proof.
    intros HI (v&Hv&_) Hf Hq Hs. destruct (f_box_points _ _ _ _ HI Hf Hq) as (_&v'&Hv'&_). rewrite Hs in Hv'. congruence.
  Qed.
  Lemma f_box_unique st u f p w g q : IInv st -> f ∈ get_stack st u -> p ∈ f_boxes f ->
    g ∈ get_stack st w -> q ∈ f_boxes g -> ip_ser q = ip_ser p -> w = u.
  Proof.
    intros HI Hf Hp Hg Hq Hs. destruct (decide (w = u)) as [|Hne]; [done|]. exfalso.
    destruct (f_box_points _ _ _ _ HI Hf Hp) as (Ho&_). destruct (f_box_points _ _ _ _ HI Hg Hq) as (Ho'&_). rewrite Hs in Ho'.
    pose proof (msum_stack_ge2 (owned (ip_ser p)) st w u Hne) as H. rewrite (v_owned _ _ HI) in H.
    apply (lsum_ge (owned (ip_ser p))) in Hf. apply (lsum_ge (owned (ip_ser p))) in Hg.
    unfold own_obj in H. destruct (i_objs st !! ip_ser p) as [[? ? []]|]; simpl in H; lia.
  Qed.
  Lemma f_box_private st u f p : IInv st -> f ∈ get_stack st u -> p ∈ f_boxes f -> private st u (ip_ser p).
  Proof.
    intros HI Hf Hp. split_and!.
    - intros ty q Hq Hs. apply set_good in Hq; [|done]. by apply (good_not_box _ _ _ _ _ _ HI Hq Hf Hp).
    - intros w o q Hq Hs. apply (v_log _ _ HI) in Hq. by apply (good_not_box _ _ _ _ _ _ HI Hq Hf Hp).
    - intros w g q Hg [Hq|Hq]%elem_of_app Hs.
      + destruct (f_ptr_good _ _ _ _ HI Hg Hq) as [ty Hgd]. by destruct (good_not_box _ _ _ _ _ _ HI Hgd Hf Hp).
      + by eapply f_box_unique.
  Qed.

  Lemma r_locked st evs t f k : RI st evs -> get_stack st t = f :: k -> (forall o b, f <> FWait o b) ->
    i_locks st !! slot (frame_ty E f) = Some t.
  Proof.
    intros HR Hst Hf. eapply (r_lock _ _ HR); [rewrite Hst; by left|].
    destruct f; simpl; try rewrite Nat.eqb_refl; try lia. by destruct (Hf o b).
  Qed.
  Lemma search_ok st evs t o : IInv st -> RI st evs -> i_locks st !! slot (op_ty o) = Some t ->
    forall x, x ∈ i_search E st o -> allowed st evs t x.
  Proof.
    intros HI HR Hl x [->|Hx]%elem_of_cons; [done|].
    apply elem_of_list_fmap in Hx as (p&->&Hp). pose proof (r_elt _ _ HR _ _ Hp) as Hw.
    apply set_good in Hp; [|done]. simpl. split_and!.
    - by eapply good_lt.
    - unfold keeper in Hw. by rewrite Hl in Hw.
    - intros u f q Hf Hq Hs. by destruct (good_not_box _ _ _ _ _ _ HI Hp Hf Hq).
  Qed.
  Lemma looks_ok st evs t : IInv st -> RI st evs -> forall x, x ∈ i_looks E st t -> allowed st evs t x.
  Proof.
    intros HI HR x Hx. unfold i_looks in Hx. destruct (get_stack st t) as [|f k] eqn:Hst; [by apply elem_of_nil in Hx|].
    assert (f ∈ get_stack st t) as Hf by (rewrite Hst; by left).
    destruct f as [|o b| | |o p|o b r|]; try (by apply elem_of_nil in Hx).
    - assert (i_locks st !! slot (op_ty o) = Some t) as Hl by (by apply (r_locked _ _ _ _ _ HR Hst)).
      apply elem_of_app in Hx as [Hx|Hx]; [by eapply search_ok|].
      destruct b as [p|]; [|by apply elem_of_nil in Hx]. apply elem_of_list_singleton in Hx as ->.
      assert (p ∈ f_boxes (FGet o (Some p))) as Hp by (by left). simpl. split_and!.
      + destruct (f_box_points _ _ _ _ HI Hf Hp) as (_&v&Hv&_). by eapply (v_fresh _ _ HI).
      + apply accesses_writes. by eapply (r_box _ _ HR).
      + intros u g q Hg Hq Hs. by eapply f_box_unique.
    - assert (i_locks st !! slot (op_ty o) = Some t) as Hl by (by apply (r_locked _ _ _ _ _ HR Hst)).
      apply elem_of_app in Hx as [Hx|Hx]; [by eapply search_ok|]. apply elem_of_list_singleton in Hx as ->.
      assert (p ∈ f_ptrs (FIns o p)) as Hp by (by left). destruct (f_ptr_good _ _ _ _ HI Hf Hp) as [ty Hg]. simpl. split_and!.
      + by eapply good_lt.
      + by eapply (r_ptr _ _ HR).
      + intros u g q Hg' Hq Hs. by destruct (good_not_box _ _ _ _ _ _ HI Hg Hg' Hq).
    - destruct b as [p|]; [|by apply elem_of_nil in Hx]. apply elem_of_list_singleton in Hx as ->.
      assert (p ∈ f_boxes (FDup o (Some p) r)) as Hp by (by left). simpl. split_and!.
      + destruct (f_box_points _ _ _ _ HI Hf Hp) as (_&v&Hv&_). by eapply (v_fresh _ _ HI).
      + by eapply (r_box _ _ HR).
      + by eapply f_box_private.
  Qed.

  (** ** A step *)
  Lemma ri_alloc st evs t v lk st1 p ad fs fs' k :
    IInv st -> RI st evs -> ialloc E st ad v lk = Some (st1, p) -> get_stack st t = fs ++ k ->
    (forall f, f ∈ fs' -> (forall q, q ∈ f_ptrs f ++ f_boxes f -> q = p) /\ forall c, 0 < held c f -> i_locks st !! c = Some t) ->
    RI (set_stack st1 t (fs' ++ k)) (evs ++ [(t, ATouch [(LVal (i_next st), true)])]).
  Proof.
    intros HI HR Ha Hst Hf. destruct (ialloc_spec E _ _ _ _ _ _ HI Ha) as (->&Hp&_).
    assert (untouched evs (LVal (i_next st))) as Hu by (by apply (r_next _ _ HR)).
    assert (ip_ser p = i_next st) as Hps by (by rewrite Hp).
    apply ri_add; [|done|].
    - eapply (ri_upd st _ _ t fs fs' k); try done; simpl; [lia|by left|].
      intros f Hin. destruct (Hf _ Hin) as [Hq Hl]. split; [|done]. split.
      + intros q Hq'. rewrite (Hq q) by (apply elem_of_app; by left). unfold val. rewrite Hps.
        by apply accesses_writes, untouched_accesses.
      + intros q Hq'. rewrite (Hq q) by (apply elem_of_app; by right). unfold val. rewrite Hps. by apply untouched_accesses.
    - simpl. intros x ->%elem_of_list_singleton. simpl. split_and!; [lia|by apply untouched_accesses|]. split_and!.
      + intros ty q Hq. change (q ∈ set_of E st ty) in Hq. apply set_good in Hq; [|done]. apply good_lt in Hq; [lia|done].
      + intros u o q Hq. apply (v_log _ _ HI) in Hq. apply good_lt in Hq; [lia|done].
      + intros u f q. rewrite get_stack_set. destruct (decide (t = u)) as [<-|]; [done|].
        intros Hin Hq Hs. change (f ∈ get_stack st u) in Hin. apply elem_of_app in Hq as [Hq|Hq].
        * destruct (f_ptr_good _ _ _ _ HI Hin Hq) as [ty Hg]. apply good_lt in Hg; [lia|done].
        * destruct (f_box_points _ _ _ _ HI Hin Hq) as (_&v'&Hv&_). apply (v_fresh _ _ HI) in Hv. lia.
  Qed.

  Lemma ri_event st evs e : RI st evs -> RI (add_event st e) evs.
  Proof.
    intros []. constructor; try done. intros j t p Hj. destruct (r_got0 _ _ _ Hj) as [(u&o&He) Hw].
    split; [|done]. exists u, o. by right.
  Qed.
  Lemma held_slot c f : 0 < held c f -> c = slot (frame_ty E f).
  Proof. destruct f; simpl; try lia; (match goal with |- context [?x =? c] => destruct (Nat.eqb_spec x c) end); (done || lia). Qed.
  Lemma ri_top st st1 evs t f f' k :
    RI st evs -> get_stack st t = f :: k -> (forall o b, f <> FWait o b) -> frame_ty E f' = frame_ty E f ->
    i_threads st1 = i_threads st -> i_next st1 = i_next st -> i_locks st1 = i_locks st -> i_slots st1 = i_slots st ->
    i_log st1 = i_log st -> frame_knows evs t f' -> RI (set_stack st1 t (f' :: k)) evs.
  Proof.
    intros HR Hst Hw Hty H1 H2 H3 H4 H5 Hk. eapply (ri_upd st _ _ t [f] [f'] k); try done; simpl.
    - by rewrite H1.
    - lia.
    - intros ty p Hp. left. unfold set_of, container in *. simpl in Hp. by rewrite H4 in Hp.
    - intros g ->%elem_of_list_singleton. split; [done|]. intros c Hc.
      pose proof (r_locked _ _ _ _ _ HR Hst Hw) as Hl. rewrite <- Hl. f_equal. rewrite <- Hty.
      by apply held_slot.
    - by rewrite H5.
  Qed.

  Lemma no_ptrs evs t f : f_ptrs f = [] -> f_boxes f = [] -> frame_knows evs t f.
  Proof. intros H1 H2. split; [rewrite H1|rewrite H2]; intros p Hp; by apply elem_of_nil in Hp. Qed.

  Theorem ri_step st evs t l st' :
    IInv st -> RI st evs -> i_by l t = true -> istep E st l = Next st' ->
    handles_travel (evs ++ (pair t <$> i_does E st t l)) -> RI st' (evs ++ (pair t <$> i_does E st t l)).
  Proof.
    intros HI HR Hby Hs HT.
    assert (RI st (evs ++ [(t, ATouch (i_looks E st t))])) as HL.
    { apply ri_add; [done|done|]. by apply looks_ok. }
    destruct l as [u o a|u a i|u v|u|p]; simpl in Hby; try (apply Nat.eqb_eq in Hby as ->).
    - (* ICall *)
      simpl in Hs. destruct (match get_stack st t with [] => true | _ => _ end); [|done].
      destruct o as [v|v|v|ty w q|ty w q|ty|ty].
      3:{ destruct (ialloc E st a v false) as [[st1 p]|] eqn:Ha; [|done]. injection Hs as <-.
          apply (ri_alloc st evs t v false st1 p a [] [FWait (OBox v) (Some p)] (get_stack st t)); try done.
          intros f ->%elem_of_list_singleton. simpl. split; [by intros q ->%elem_of_list_singleton|lia]. }
      all: injection Hs as <-; simpl; rewrite app_nil_r;
        (match goal with |- RI (set_stack _ _ (?f :: _)) _ => eapply (ri_upd st _ _ t [] [f] _) end); try done; simpl;
        try lia; try (by left); intros f ->%elem_of_list_singleton; (split; [by apply no_ptrs|simpl; lia]).
    - (* IStep *)
      simpl in Hs. unfold istep_thread in Hs. unfold i_does in HT |- *.
      destruct (get_stack st t) as [|f k] eqn:Hst; [done|].
      assert (f ∈ get_stack st t) as Hf by (rewrite Hst; by left).
      destruct f as [o b|o b|ty w q|o v|o p|o b r|o r].
      + (* FWait *)
        destruct (i_locks st !! slot (op_ty o)) eqn:Hl; [done|].
        pose proof (ri_acq _ _ _ t HR Hl) as HA. cbn [fmap list_fmap i_mutex]. rewrite cons_middle, app_assoc.
        assert (forall f' st2, i_threads st2 = i_threads st -> i_next st2 = i_next st ->
          i_locks st2 = <[slot (op_ty o):=t]> (i_locks st) -> (forall e, e ∈ i_log st -> e ∈ i_log st2) ->
          (forall ty p, p ∈ set_of E st2 ty -> p ∈ set_of E st ty) ->
          f_ptrs f' = [] -> (forall p, p ∈ f_boxes f' -> b = Some p) -> frame_ty E f' = op_ty o ->
          RI (set_stack st2 t (f' :: k)) ((evs ++ [(t, AAcq (SLock (slot (op_ty o), 0)))]) ++ [(t, ATouch [(i_data E o, true)])])) as Hgo.
        { intros f' st2 H1 H2 H3 H4 H5 H6 H7 H8. apply ri_add; [|done|].
          - eapply (ri_upd (ilock st (slot (op_ty o)) t) _ _ t [FWait o b] [f'] k); try done; simpl.
            + by rewrite H1.
            + lia.
            + intros ty p Hp. left. apply (H5 ty p Hp).
            + intros g ->%elem_of_list_singleton. split.
              * split; [rewrite H6; intros p Hp; by apply elem_of_nil in Hp|].
                intros p Hp%H7. apply accesses_snoc; [|intros w Hw; by apply elem_of_nil in Hw].
                eapply (r_box _ _ HR); [exact Hf|]. rewrite Hp. by left.
              * intros c Hc. assert (c = slot (op_ty o)) as ->; [|by rewrite lookup_insert].
                rewrite <- H8. by apply held_slot.
          - intros x ->%elem_of_list_singleton. simpl. rewrite H3, lookup_insert. done. }
        destruct o; injection Hs as <-.
        all: apply Hgo; try done; simpl.
        all: try (by intros p Hp%elem_of_nil).
        all: try (intros p Hp; destruct b; [by apply elem_of_list_singleton in Hp as ->|by apply elem_of_nil in Hp]).
        7:{ intros e He. by right. }
        7:{ intros ty' p Hp. change (p ∈ set_of E (put_set E (locked E st t ty) ty []) ty') in Hp.
            rewrite put_set_of in Hp by apply locked_has. rewrite locked_set_of in Hp.
            destruct (ty' =? ty); [by apply elem_of_nil in Hp|done]. }
        all: intros ty' p Hp; match type of Hp with p ∈ set_of E (set_slots (ilock _ (slot ?y) _) _) _ =>
          change (p ∈ set_of E (locked E st t y) ty') in Hp end; by rewrite locked_set_of in Hp.
      + (* FGet *)
        assert (forall p h, ipick i (candidates st h (set_of E st (op_ty o))) = Some p ->
          writes (evs ++ [(t, ATouch (i_looks E st t))]) (val p) (byt t)) as Hpk.
        { intros p h [Hp _]%ipick_in%cand_in. apply (r_elt _ _ HL) in Hp. unfold keeper in Hp.
          pose proof (r_locked _ _ _ _ _ HR Hst (λ _ _, ltac:(done))) as Hl. simpl in Hl. by rewrite Hl in Hp. }
        assert (forall p, p ∈ f_boxes (FGet o b) -> accesses (evs ++ [(t, ATouch (i_looks E st t))]) (val p) (byt t)) as Hbx.
        { intros p Hp. by eapply (r_box _ _ HL). }
        destruct (ireadable st (set_of E st (op_ty o))); [|done].
        destruct (ipick i _) as [p|] eqn:Hp.
        * apply Hpk in Hp. destruct o; try done; injection Hs as <-; (eapply ri_top; [exact HL|exact Hst|done..|]).
          all: split; [first [by intros q' ->%elem_of_list_singleton|by intros q' Hq'%elem_of_nil]|first [exact Hbx|by intros q' Hq'%elem_of_nil]].
        * destruct o; try done.
          3:{ destruct b as [p|]; [|done]. unfold ileak in Hs. destruct (i_objs st !! ip_ser p) as [x|]; [|done].
              destruct (io_leaked x); [done|]. injection Hs as <-. (eapply ri_top; [exact HL|exact Hst|done..|]).
              split; simpl; [|by intros q Hq%elem_of_nil]. intros q ->%elem_of_list_singleton.
              apply accesses_writes, Hbx. by left. }
          all: injection Hs as <-; (eapply ri_top; [exact HL|exact Hst|done..|by apply no_ptrs]).
      + done.
      + (* FStore *)
        destruct (ialloc E st a v true) as [[st1 p]|] eqn:Ha; [|done]. injection Hs as <-.
        apply (ri_alloc st evs t v true st1 p a [FStore o v] [FIns o p] k); try done.
        intros f ->%elem_of_list_singleton. simpl. split; [by intros q ->%elem_of_list_singleton|].
        intros c Hc. apply (held_slot c (FStore o v)) in Hc as ->. by apply (r_locked _ _ _ _ _ HR Hst).
      + (* FIns *)
        assert (i_locks st !! slot (op_ty o) = Some t) as Hl by (by apply (r_locked _ _ _ _ _ HR Hst)).
        assert (RI st (evs ++ [(t, ATouch ((i_data E o, true) :: i_looks E st t))])) as HL'.
        { apply ri_add; [done|done|]. simpl. intros x [->|Hx]%elem_of_cons; [done|]. by eapply looks_ok. }
        assert (forall q, q ∈ [p] -> writes (evs ++ [(t, ATouch ((i_data E o, true) :: i_looks E st t))]) (val q) (byt t)) as Hw.
        { intros q Hq. by eapply (r_ptr _ _ HL'). }
        destruct (iread st p) as [v|] eqn:Hr; [|done]. destruct (ireadable st (set_of E st (op_ty o))); [|done].
        destruct (candidates st (ins_match E v) (set_of E st (op_ty o))) as [|p' l] eqn:Hc; injection Hs as <-.
        * eapply (ri_upd st _ _ t [FIns o p] [FDone o (RPtr p)] k); try done.
          -- intros ty q Hq. change (q ∈ set_of E (put_set E st (op_ty o) (p :: set_of E st (op_ty o))) ty) in Hq.
             rewrite put_set_of in Hq by (by apply (v_has _ _ HI _ _ Hf)).
             destruct (Nat.eqb_spec ty (op_ty o)) as [->|]; [|by left].
             apply elem_of_cons in Hq as [->|Hq]; [right|by left]. split; [done|]. apply Hw. by left.
          -- intros f ->%elem_of_list_singleton. split; [split; [done|by intros q Hq%elem_of_nil]|].
             intros c Hc'. apply held_slot in Hc' as ->. done.
          -- intros e He. by right.
        * eapply ri_top; [exact HL'|exact Hst|done..|]. split; [done|by intros q Hq%elem_of_nil].
      + (* FDup *)
        assert (frame_knows (evs ++ [(t, ATouch (i_looks E st t))]) t (FDone o r)) as Hk.
        { split; [|by intros q Hq%elem_of_nil]. intros q Hq. by eapply (r_ptr _ _ HL). }
        destruct b as [p|].
        * unfold ifree in Hs. destruct (i_objs st !! ip_ser p) as [x|]; [|done].
          destruct (io_leaked x); [done|]. injection Hs as <-. by eapply ri_top.
        * injection Hs as <-. by eapply ri_top.
      + (* FDone *)
        injection Hs as <-.
        assert (0 < held (slot (op_ty o)) (FDone o r)) as Hh by (simpl; rewrite Nat.eqb_refl; lia).
        pose proof (ri_rel _ _ _ _ _ _ (match r with RPanic => true | _ => false end) HR HI Hst Hh) as HA.
        cbn [fmap list_fmap i_mutex]. rewrite cons_middle, app_assoc.
        match type of HA with RI (set_stack ?x _ _) ?ev => set (st2 := x) in *; set (evs2 := ev) in * end.
        apply (ri_event _ _ (EvRet t o r)) in HA as HB.
        destruct r as [p| | | |]; simpl; try (by rewrite app_nil_r).
        eapply ri_got; [exact HB|by left|]. apply writes_snoc; [|by intros Hx%elem_of_nil].
        eapply (r_ptr _ _ HR); [exact Hf|by left].
    - (* IConv *)
      simpl in Hs |- *. rewrite app_nil_r. destruct (get_stack st t) as [|[] k] eqn:Hst; try done.
      destruct (_ && _); [|done]. injection Hs as <-. eapply ri_top; [done|exact Hst|done..|by apply no_ptrs].
    - (* IPanic *)
      simpl in Hs |- *. unfold istep_panic in Hs. destruct (get_stack st t) as [|f k] eqn:Hst; [done|].
      assert (f ∈ get_stack st t) as Hf by (rewrite Hst; by left).
      destruct f as [o b|o b|ty w q|o v|o p|o b r|o r]; try done.
      + injection Hs as <-. eapply ri_top; [exact HL|exact Hst|done..|]. split; [by intros q Hq%elem_of_nil|].
        intros q Hq. eapply (r_box _ _ HL); [exact Hf|done].
      + injection Hs as <-. eapply ri_top; [exact HL|exact Hst|done..|by apply no_ptrs].
      + injection Hs as <-. eapply ri_top; [exact HL|exact Hst|done..|by apply no_ptrs].
      + assert (frame_knows (evs ++ [(t, ATouch (i_looks E st t))]) t (FDup o b RPanic)) as Hk.
        { split; [by intros q Hq%elem_of_nil|]. intros q Hq. eapply (r_box _ _ HL); [exact Hf|done]. }
        destruct r; try done; injection Hs as <-; by eapply ri_top.
    - (* IDeref *)
      simpl in *. destruct (returned p (i_log st)); [|done]. destruct (iread st p); [|done]. injection Hs as <-.
      apply ri_event. by apply ri_read.
  Qed.
End race.

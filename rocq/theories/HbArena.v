(** No execution of the Arena model has a data race: invariant and its preservation. *)
From stdpp Require Import gmap list numbers.
From Verif Require Import Base InternModel InternSpec InternInv InternStep ArenaModel ArenaSpec ArenaInv ArenaStep ArenaFinal
  HbSpec HbLib HbModel HbArenaModel.
Require Import ZifyBool ZifyNat ZifyN.

Section race.
  Context {V Q : Type} (E : ienv V Q).
  Implicit Types (st : astate V Q) (v : V) (p : iptr) (o : aop V Q) (f g : aframe V Q)
    (t r k : nat) (evs : acts) (a : act) (m : mloc) (U : list (nat * nat)).
  Notation AInv := (AInv E).

  Definition akeeper st r : nat * act -> Prop :=
    match a_locks st !! r with Some t => byt t | None => rel (a_mutex r) end.
  Definition endr r (e : nat * act) : Prop := e.2 = AEnd r.
  (** The boxes a frame owns; other pointers it has. *)
  Definition a_boxes f : list iptr :=
    match f with
    | AWait _ _ b | AGet _ _ b | AStore _ _ _ b => option_list b
    | AIns _ _ _ p | AKill _ _ _ p _ => [p]
    | ArenaModel.ARel _ _ b mine _ | AArg _ _ b mine _ => if mine then option_list b else []
    | ADead _ ps => ps
    | _ => []
    end.
  Definition a_ptrs f : list iptr :=
    match f with
    | AMake _ _ _ p | ArenaModel.ARel _ _ _ _ (AP p) | AArg _ _ _ _ (AP p) => [p]
    | _ => []
    end.
  (** Thread [t] is uses arena [r]; [U]: uses that are not visible in the state. *)
  Definition busy st t r : Prop := exists f, f ∈ a_stack st t /\ a_arena f = Some r.
  Definition uses st U t r : Prop := (t, r) ∈ U \/ busy st t r.
  Definition known st U evs r m : Prop :=
    forall i e w, evs !! i = Some e -> (m, w) ∈ touched e.2 ->
    view evs (endr r) i \/ exists t, uses st U t r /\ view evs (byt t) i.
  Definition live st r : Prop := is_Some (a_arenas st !! r).

  Record RA st U evs : Prop := {
    ra_free : race_free evs;
    ra_new : forall k, a_next st <= k -> untouched evs (LVal k);
    ra_newr : forall r, a_nextr st <= r ->
      untouched evs (a_mem r) /\ untouched evs (a_data r) /\ forall j t, evs !! j <> Some (t, AMade r);
    ra_held : forall t f r, f ∈ a_stack st t -> has_lock r f = 1 -> a_locks st !! r = Some t;
    ra_set : forall r j e w, live st r -> evs !! j = Some e -> (a_data r, w) ∈ touched e.2 ->
      (a_mem r, true) ∈ touched e.2 \/ view evs (akeeper st r) j;
    ra_elt : forall r p, p ∈ a_set st r -> writes evs (val p) (akeeper st r);
    ra_mem : forall r, live st r -> known st U evs r (a_mem r);
    ra_data : forall r, live st r -> known st U evs r (a_data r);
    ra_val : forall r p, p ∈ a_set st r -> known st U evs r (val p);
    ra_made : forall r j t i e, live st r -> evs !! j = Some (t, AMade r) ->
      evs !! i = Some e -> (a_mem r, true) ∈ touched e.2 -> hb evs i j;
    ra_uses : forall t r, busy st t r -> live st r -> writes evs (a_mem r) (byt t);
    ra_ptr : forall t f p, f ∈ a_stack st t -> p ∈ a_ptrs f -> writes evs (val p) (byt t);
    ra_box : forall t f p, f ∈ a_stack st t -> p ∈ a_boxes f -> accesses evs (val p) (byt t);
    ra_dead : forall t r ps, ADead r ps ∈ a_stack st t ->
      a_arenas st !! r = None /\ accesses evs (a_mem r) (byt t) /\ accesses evs (a_data r) (byt t);
    ra_got : forall j t p, evs !! j = Some (t, AGot p) ->
      (exists u r o v, AvIns u r o p v ∈ a_log st) /\
      forall r i e, p ∈ a_set st r -> evs !! i = Some e -> (val p, true) ∈ touched e.2 -> hb evs i j;
  }.

  Lemma ra_init : RA ainit [] [].
  Proof.
    assert (forall t, a_stack (ainit : astate V Q) t = []) as H0 by done.
    constructor; try (by intros; rewrite lookup_nil in *).
    - apply race_free_nil.
    - intros k _ i e w H. by rewrite lookup_nil in H.
    - intros r _. split_and!; intros i e; intros; by rewrite lookup_nil in *.
    - intros t f r H. rewrite H0 in H. by apply elem_of_nil in H.
    - intros r p _ j e H. by rewrite lookup_nil in H.
    - intros r _ j e w H. by rewrite lookup_nil in H.
    - intros r _ j e w H. by rewrite lookup_nil in H.
    - intros r p _ j e w H. by rewrite lookup_nil in H.
    - intros t r _ _ j e H. by rewrite lookup_nil in H.
    - intros t f p _ _ j e H. by rewrite lookup_nil in H.
    - intros t f p _ _ j e w H. by rewrite lookup_nil in H.
    - intros t r ps H. rewrite H0 in H. by apply elem_of_nil in H.
  Qed.

  (** ** Actions *)
  Definition aprivate st t k : Prop :=
    (forall r p, p ∈ a_set st r -> ip_ser p <> k) /\
    (forall u f p, f ∈ a_stack st u -> p ∈ a_ptrs f ++ a_boxes f -> ip_ser p = k -> u = t).
  Definition dying st t r : Prop := a_arenas st !! r = None /\ forall u ps, ADead r ps ∈ a_stack st u -> u = t.
  Definition aallowed st U evs t (y : mloc * bool) : Prop :=
    match y with
    | (LElt (r, 0), false) => live st r /\ r < a_nextr st /\ busy st t r
    | (LElt (r, 0), true) => r < a_nextr st /\ dying st t r /\ accesses evs (a_mem r) (byt t)
    | (LSet (r, 0), _) => r < a_nextr st /\
        (live st r /\ a_locks st !! r = Some t /\ busy st t r \/ dying st t r /\ accesses evs (a_data r) (byt t))
    | (LVal k, true) => k < a_next st /\ accesses evs (LVal k) (byt t) /\ aprivate st t k
    | (LVal k, false) => k < a_next st /\ writes evs (LVal k) (byt t) /\
        (forall u f p, f ∈ a_stack st u -> p ∈ a_boxes f -> ip_ser p = k -> u = t) /\
        (forall r p, p ∈ a_set st r -> ip_ser p = k -> uses st U t r)
    | _ => False
    end.

  Lemma known_snoc st U evs r m t a :
    known st U evs r m -> (forall w, (m, w) ∈ touched a -> uses st U t r) -> known st U (evs ++ [(t, a)]) r m.
  Proof.
    intros H Ha i e w Hi Hw. apply lookup_snoc in Hi as [Hi|[-> ->]].
    - destruct (H _ _ _ Hi Hw) as [?|(u&?&?)]; [left; by apply view_app|]. right. exists u. split; [done|]. by apply view_app.
    - right. exists t. split; [by eapply Ha|]. apply view_last; [done|by left].
  Qed.
  Lemma live_dying st t r : live st r -> ~ dying st t r.
  Proof. intros [x Hx] [Hn _]. congruence. Qed.
  Lemma set_live st r p : p ∈ a_set st r -> live st r.
  Proof. unfold a_set, live. destruct (a_arenas st !! r); [by eexists|]. by intros ?%elem_of_nil. Qed.

  Lemma ra_add st U evs t a :
    RA st U evs -> (forall p, a <> AGot p) -> (forall r, a <> AMade r) -> (forall y, y ∈ touched a -> aallowed st U evs t y) ->
    RA st U (evs ++ [(t, a)]).
  Proof.
    intros [] Hng Hnm Ha. constructor.
    - apply race_free_snoc; [done|]. intros [k|[r n]|[r n]] w Hx; pose proof (Ha _ Hx) as H; simpl in H.
      + destruct w; [left; by destruct H as (_&?&_)|right; by destruct H as (_&?&_)].
      + destruct n; [|done]. left. destruct H as (_&[(Hlv&Hl&Hu)|[_ ?]]); [|done]. intros j e w' Hj Hw'.
        destruct (ra_set0 _ _ _ _ Hlv Hj Hw') as [Hc|Hk].
        * eapply ra_uses0; [exact Hu|done..].
        * unfold akeeper in Hk. by rewrite Hl in Hk.
      + destruct n; [|by destruct w]. destruct w; [left; by destruct H as (_&_&?)|right]. destruct H as (?&_&?).
        split; [done|]. by apply ra_uses0.
    - intros k Hk. apply untouched_snoc; [by apply ra_new0|]. intros w Hx. apply Ha in Hx. simpl in Hx.
      destruct w; destruct Hx as [? _]; lia.
    - intros r Hr. destruct (ra_newr0 _ Hr) as (H1&H2&H3). split_and!.
      + apply untouched_snoc; [done|]. intros w Hw. apply Ha in Hw. destruct w; simpl in Hw; destruct_and!; lia.
      + apply untouched_snoc; [done|]. intros w Hw. apply Ha in Hw. simpl in Hw. destruct_and!; lia.
      + intros j u Hj. apply lookup_snoc in Hj as [Hj|[_ [= _ Hj]]]; [by eapply H3|]. by eapply Hnm.
    - done.
    - intros r j e w Hlv Hj Hw. apply lookup_snoc in Hj as [Hj|[-> ->]].
      + destruct (ra_set0 _ _ _ _ Hlv Hj Hw) as [?|Hk]; [by left|right]. by apply view_app.
      + right. apply Ha in Hw as (_&[(_&Hl&_)|[Hd _]]); [|by apply live_dying in Hd].
        apply view_last; [|by left]. unfold akeeper. by rewrite Hl.
    - intros r p Hp. apply writes_snoc; [by eapply ra_elt0|]. intros Hx. apply Ha in Hx as (_&_&Hx&_).
      by destruct (Hx _ _ Hp).
    - intros r Hr. apply known_snoc; [by apply ra_mem0|]. intros w Hw. apply Ha in Hw. destruct w; simpl in Hw.
      + destruct Hw as (_&Hd&_). by apply live_dying in Hd.
      + right. by destruct Hw as (_&_&?).
    - intros r Hr. apply known_snoc; [by apply ra_data0|]. intros w Hw. apply Ha in Hw as (_&[(_&_&?)|[Hd _]]); [by right|].
      by apply live_dying in Hd.
    - intros r p Hp. apply known_snoc; [by apply ra_val0|]. intros w Hw. apply Ha in Hw. destruct w.
      + destruct Hw as (_&_&Hx&_). by destruct (Hx _ _ Hp).
      + destruct Hw as (_&_&_&Hx). by eapply Hx.
    - intros r j u i e Hr Hj Hi Hw. apply lookup_snoc in Hj as [Hj|[-> [= -> Hj]]]; [|by destruct (Hnm r)].
      apply lookup_snoc in Hi as [Hi|[-> ->]]; [by eapply hb_weaken, ra_made0|].
      apply Ha in Hw as (_&Hd&_). by apply live_dying in Hd.
    - intros u r Hu Hr. apply writes_snoc; [by apply ra_uses0|]. intros (_&Hd&_)%Ha. by apply live_dying in Hd.
    - intros u f p Hf Hp. apply writes_snoc; [by eapply ra_ptr0|]. intros Hx. apply Ha in Hx as (_&_&_&Hx).
      symmetry. eapply Hx; [done|by apply elem_of_app; left|done].
    - intros u f p Hf Hp. apply accesses_snoc; [by eapply ra_box0|]. intros w Hx. apply Ha in Hx. simpl in Hx.
      symmetry. destruct w.
      + destruct Hx as (_&_&_&Hx). eapply Hx; [done|by apply elem_of_app; right|done].
      + destruct Hx as (_&_&Hx&_). by eapply Hx.
    - intros u r ps Hd. destruct (ra_dead0 _ _ _ Hd) as (Hn&H1&H2).
      assert (forall t', dying st t' r -> t' = u) as Hdy by (intros t' [_ H]; symmetry; by eapply H).
      split_and!; [done| |]; (apply accesses_snoc; [done|]); intros w Hw; apply Ha in Hw.
      + destruct w; simpl in Hw; [destruct Hw as (_&?&_); by apply Hdy|]. destruct Hw as [[? ?] _]. congruence.
      + simpl in Hw. destruct Hw as (_&[([? ?]&_)|[? _]]); [congruence|by apply Hdy].
    - intros j u p Hj. apply lookup_snoc in Hj as [Hj|[_ [= <- <-]]]; [|by destruct (Hng p)].
      destruct (ra_got0 _ _ _ Hj) as [He Hw]. split; [done|].
      intros r i e Hp Hi Hx. apply lookup_snoc in Hi as [Hi|[-> ->]].
      + by eapply hb_weaken, Hw.
      + apply Ha in Hx as (_&_&Hx&_). by destruct (Hx _ _ Hp).
  Qed.
  Lemma ra_quiet st U evs t a : RA st U evs -> (forall p, a <> AGot p) -> (forall r, a <> AMade r) -> touched a = [] ->
    RA st U (evs ++ [(t, a)]).
  Proof. intros HR Hn Hm Ht. apply ra_add; [done..|]. rewrite Ht. intros y Hy. by apply elem_of_nil in Hy. Qed.

  Section silent.
    Context (evs : acts) (t : nat) (a : act) (Ht : touched a = []).
    Lemma writes_quiet m P : writes evs m P -> writes (evs ++ [(t, a)]) m P.
    Proof. intros H. apply writes_snoc; [done|]. simpl. rewrite Ht. intros H'. by apply elem_of_nil in H'. Qed.
    Lemma accesses_quiet m P : accesses evs m P -> accesses (evs ++ [(t, a)]) m P.
    Proof. intros H. apply accesses_snoc; [done|]. simpl. rewrite Ht. intros w H'. by apply elem_of_nil in H'. Qed.
    Lemma untouched_quiet m : untouched evs m -> untouched (evs ++ [(t, a)]) m.
    Proof. intros H. apply untouched_snoc; [done|]. simpl. rewrite Ht. intros w H'. by apply elem_of_nil in H'. Qed.
    Lemma known_quiet st U r m : known st U evs r m -> known st U (evs ++ [(t, a)]) r m.
    Proof. intros H. apply known_snoc; [done|]. rewrite Ht. intros w H'. by apply elem_of_nil in H'. Qed.
    Lemma lookup_quiet i e m w : (evs ++ [(t, a)]) !! i = Some e -> (m, w) ∈ touched e.2 -> evs !! i = Some e.
    Proof. intros [?|[-> ->]]%lookup_snoc Hx; [done|]. simpl in Hx. rewrite Ht in Hx. by apply elem_of_nil in Hx. Qed.
  End silent.

  (** A call returns. *)
  Lemma ra_get st U evs t p u r o v :
    RA st U evs -> AvIns u r o p v ∈ a_log st -> writes evs (val p) (byt t) -> RA st U (evs ++ [(t, AGot p)]).
  Proof.
    intros HR He Hw.
    pose proof (lookup_quiet evs t (AGot p) eq_refl) as Hq.
    pose proof (writes_quiet evs t (AGot p) eq_refl) as Hws. pose proof (accesses_quiet evs t (AGot p) eq_refl) as Has.
    pose proof (untouched_quiet evs t (AGot p) eq_refl) as Hus. pose proof (known_quiet evs t (AGot p) eq_refl st U) as Hks.
    destruct HR. constructor; eauto.
    - by apply race_free_quiet.
    - intros r' Hr'. destruct (ra_newr0 _ Hr') as (H1&H2&H3). split_and!; [auto..|].
      intros j u' [Hj|[_ [=]]]%lookup_snoc. by eapply H3.
    - intros r' j e w Hlv Hj Hx. pose proof (Hq _ _ _ _ Hj Hx) as Hj'.
      destruct (ra_set0 _ _ _ _ Hlv Hj' Hx) as [?|Hk]; [by left|right]. by apply view_app.
    - intros r' j u' i e Hr' Hj Hi Hx. apply lookup_snoc in Hj as [Hj|[_ [=]]].
      pose proof (Hq _ _ _ _ Hi Hx) as Hi'. by eapply hb_weaken, ra_made0.
    - intros u' r' ps Hd. destruct (ra_dead0 _ _ _ Hd) as (?&?&?). auto.
    - intros j u' q Hj. apply lookup_snoc in Hj as [Hj|[-> [= -> ->]]].
      + destruct (ra_got0 _ _ _ Hj) as [He' Hw']. split; [done|]. intros r' i e Hp Hi Hx.
        pose proof (Hq _ _ _ _ Hi Hx) as Hi'. by eapply hb_weaken, Hw'.
      + split; [by eexists _, _, _, _|]. intros r' i e Hp Hi Hx.
        pose proof (Hq _ _ _ _ Hi Hx) as Hi'.
        apply hb_last. eapply view_imp; [|by eapply Hw]. intros e' He'. by left.
  Qed.
  (** An arena is given to its creator. *)
  Lemma ra_make st U evs t r :
    RA st U evs -> r < a_nextr st -> writes evs (a_mem r) (byt t) -> RA st U (evs ++ [(t, AMade r)]).
  Proof.
    intros HR Hr Hw.
    pose proof (lookup_quiet evs t (AMade r) eq_refl) as Hq.
    pose proof (writes_quiet evs t (AMade r) eq_refl) as Hws. pose proof (accesses_quiet evs t (AMade r) eq_refl) as Has.
    pose proof (untouched_quiet evs t (AMade r) eq_refl) as Hus. pose proof (known_quiet evs t (AMade r) eq_refl st U) as Hks.
    destruct HR. constructor; eauto.
    - by apply race_free_quiet.
    - intros r' Hr'. destruct (ra_newr0 _ Hr') as (H1&H2&H3). split_and!; [auto..|].
      intros j u' [Hj|[_ [= _ Hj]]]%lookup_snoc; [by eapply H3|]. lia.
    - intros r' j e w Hlv Hj Hx. pose proof (Hq _ _ _ _ Hj Hx) as Hj'.
      destruct (ra_set0 _ _ _ _ Hlv Hj' Hx) as [?|Hk]; [by left|right]. by apply view_app.
    - intros r' j u' i e Hr' Hj Hi Hx. pose proof (Hq _ _ _ _ Hi Hx) as Hi'.
      apply lookup_snoc in Hj as [Hj|[-> [= -> ->]]]; [by eapply hb_weaken, ra_made0|].
      apply hb_last. eapply view_imp; [|by eapply Hw]. intros e' He'. by left.
    - intros u' r' ps Hd. destruct (ra_dead0 _ _ _ Hd) as (?&?&?). auto.
    - intros j u' q Hj. apply lookup_snoc in Hj as [Hj|[-> [=]]].
      destruct (ra_got0 _ _ _ Hj) as [He' Hw']. split; [done|]. intros r' i e Hp Hi Hx.
      pose proof (Hq _ _ _ _ Hi Hx) as Hi'. by eapply hb_weaken, Hw'.
  Qed.
  (** A use ends. *)
  Lemma ra_end st U U' evs t r :
    RA st U evs -> (forall u r', (u, r') ∈ U' -> (u, r') ∈ U) -> (forall u r', (u, r') ∈ U -> (u, r') = (t, r) \/ (u, r') ∈ U') ->
    RA st U' (evs ++ [(t, AEnd r)]).
  Proof.
    intros HR HU HU'. pose proof (ra_quiet _ _ _ t (AEnd r) HR (λ p, ltac:(done)) (λ r', ltac:(done)) eq_refl) as HR2.
    pose proof (lookup_quiet evs t (AEnd r) eq_refl) as Hq.
    assert (forall u r', uses st U' u r' -> uses st U u r') as Hu.
    { intros u r' [?|?]; [left; by apply HU|by right]. }
    assert (forall r' m, known st U evs r' m -> known st U' (evs ++ [(t, AEnd r)]) r' m) as Hk.
    { intros r' m H i e w Hi Hw. pose proof (Hq _ _ _ _ Hi Hw) as Hi'.
      destruct (H _ _ _ Hi' Hw) as [?|(u&Hu'&Hv)]; [left; by apply view_app|].
      destruct Hu' as [Hu'|Hu'].
      - apply HU' in Hu' as [[= -> ->]|Hu'].
        + left. apply view_last; [done|]. right. eapply view_imp; [|done]. intros e' He'. by left.
        + right. exists u. split; [by left|by apply view_app].
      - right. exists u. split; [by right|by apply view_app]. }
    destruct HR, HR2. constructor; eauto.
  Qed.

  (** ** Facts from the invariant of the model *)
  Lemma box_own f p : p ∈ a_boxes f -> 1 <= own (ip_ser p) f.
  Proof.
    assert (forall b, p ∈ option_list b -> 1 <= box_is (ip_ser p) b) as Hb.
    { intros [q|] H; [|by apply elem_of_nil in H]. apply elem_of_list_singleton in H as ->. simpl. by rewrite Nat.eqb_refl. }
    assert (forall q, p ∈ [q] -> 1 <= box_is (ip_ser p) (Some q)) as Hq.
    { intros q ->%elem_of_list_singleton. simpl. by rewrite Nat.eqb_refl. }
    destruct f as [| | | | | | |r o b [] x|r o b [] x|]; cbn [a_boxes own]; auto; try (by intros ?%elem_of_nil).
    apply cnt_in.
  Qed.
  Lemma box_facts st t f p : AInv st -> f ∈ a_stack st t -> p ∈ a_boxes f ->
    ip_ser p < a_next st /\ is_Some (a_objs st !! ip_ser p) /\ asum st (ip_ser p) = 0 /\
    forall u g q, g ∈ a_stack st u -> q ∈ a_boxes g -> ip_ser q = ip_ser p -> u = t.
  Proof.
    intros HI Hf Hp%box_own. pose proof (x_own _ _ HI (ip_ser p)) as Ho. pose proof (msum_astack_ge (own (ip_ser p)) st t) as H1.
    pose proof (lsum_ge (own (ip_ser p)) _ _ Hf) as H2. pose proof (alive_le st (ip_ser p)) as H3.
    assert (alive st (ip_ser p) = 1) as Ha by lia. unfold alive in Ha. destruct (a_objs st !! ip_ser p) as [x|] eqn:Hx; [|done].
    split_and!; [by eapply (x_fresh _ _ HI)|by eexists|lia|].
    intros u g q Hg Hq%box_own Hs. destruct (decide (t = u)) as [|Hne]; [done|]. rewrite Hs in Hq.
    pose proof (lsum_ge (own (ip_ser p)) _ _ Hg). pose proof (msum_astack_ge2 (own (ip_ser p)) st t u Hne). lia.
  Qed.
  Lemma set_facts st r p : AInv st -> p ∈ a_set st r ->
    ip_ser p < a_next st /\ is_Some (a_objs st !! ip_ser p) /\ 1 <= asum st (ip_ser p) /\
    (exists u o v, AvIns u r o p v ∈ a_log st) /\ r < a_nextr st /\
    forall r' q, q ∈ a_set st r' -> ip_ser q = ip_ser p -> r' = r.
  Proof.
    intros HI Hp. pose proof (set_live _ _ _ Hp) as [x Hx]. rewrite (a_set_some _ _ _ Hx) in Hp.
    destruct (set_pts _ _ _ _ _ HI Hx Hp) as (v&(Hv&_)&Hst). apply stored_in in Hst as (u&o&Hl).
    pose proof (asum_ge st r x (ip_ser p) Hx) as H1. pose proof (cnt_in _ _ Hp) as H2.
    split_and!; [by eapply (x_fresh _ _ HI)|by eexists|lia|by eexists _, _, _|by eapply there_lt|].
    intros r' q Hq Hs. pose proof (set_live _ _ _ Hq) as [x' Hx']. rewrite (a_set_some _ _ _ Hx') in Hq.
    apply cnt_in in Hq. rewrite Hs in Hq. destruct (decide (r' = r)) as [|Hne]; [done|].
    pose proof (msum_ge2 (λ x, cnt (ip_ser p) (ar_set x)) (a_arenas st) r' r x' x Hx' Hx Hne) as H3. simpl in H3.
    fold (asum st (ip_ser p)) in H3. pose proof (x_own _ _ HI (ip_ser p)). pose proof (alive_le st (ip_ser p)). lia.
  Qed.
  Lemma ptr_facts st t f p : AInv st -> f ∈ a_stack st t -> p ∈ a_ptrs f ->
    ip_ser p < a_next st /\ ((exists r, a_arena f = Some r /\ p ∈ a_set st r) \/ a_objs st !! ip_ser p = None).
  Proof.
    intros HI Hf Hp. apply (x_frames _ _ HI) in Hf.
    assert (forall r, p ∈ a_set st r -> a_arena f = Some r -> ip_ser p < a_next st /\
      ((exists r, a_arena f = Some r /\ p ∈ a_set st r) \/ a_objs st !! ip_ser p = None)) as Hs.
    { intros r Hr Ha. split; [by apply (set_facts _ _ _ HI Hr)|]. left. by exists r. }
    destruct f as [| | | | | |r o b q|r o b mine [q|]|r o b mine [q|]|]; simpl in Hp; try (by apply elem_of_nil in Hp);
      apply elem_of_list_singleton in Hp as ->; simpl in Hf.
    - destruct Hf as (ty&_&_&Hlt&[[? _]|?]); [by apply (Hs r)|by split; [|right]].
    - destruct Hf as (ty&_&_&?&_). by apply (Hs r).
    - destruct Hf as (ty&_&_&?&_). by apply (Hs r).
  Qed.
  Lemma box_private st t f p : AInv st -> f ∈ a_stack st t -> p ∈ a_boxes f -> aprivate st t (ip_ser p).
  Proof.
    intros HI Hf Hp. destruct (box_facts _ _ _ _ HI Hf Hp) as (_&[y Hy]&Hs&Hu). split.
    - intros r q Hq Heq. apply (set_facts _ _ _ HI) in Hq as (_&_&Hq&_). rewrite Heq in Hq. lia.
    - intros u g q Hg [Hq|Hq]%elem_of_app Heq; [|by eapply Hu].
      destruct (ptr_facts _ _ _ _ HI Hg Hq) as [_ [(r&_&Hr)|Hn]].
      + apply (set_facts _ _ _ HI) in Hr as (_&_&Hr&_). rewrite Heq in Hr. lia.
      + rewrite Heq in Hn. congruence.
  Qed.
  Lemma on_live st t f r : AInv st -> f ∈ a_stack st t -> a_arena f = Some r -> live st r /\ r < a_nextr st.
  Proof.
    intros HI Hf Hr. apply (x_frames _ _ HI) in Hf.
    assert (forall ty, on st r ty -> live st r /\ r < a_nextr st) as H.
    { intros ty (x&Hx&_). split; [by eexists|by eapply there_lt]. }
    destruct f; simpl in *; try done; injection Hr as ->; destruct_and?; destruct Hf as (ty&Hf).
    all: first [by apply (H ty)|destruct Hf as [? _]; by apply (H ty)|destruct Hf as (?&?&_); by apply (H ty)].
  Qed.
  Lemma dead_facts st t r ps : AInv st -> ADead r ps ∈ a_stack st t -> r < a_nextr st /\ dying st t r.
  Proof.
    intros HI Hf. pose proof (x_ends _ _ HI r) as He. pose proof (msum_astack_ge (dead r) st t) as H1.
    pose proof (lsum_ge (dead r) _ _ Hf) as H2. simpl in H2. rewrite Nat.eqb_refl in H2. unfold lt1, there in *.
    destruct (Nat.ltb_spec r (a_nextr st)); [|lia]. destruct (a_arenas st !! r) eqn:Hr; [lia|]. split; [done|]. split; [done|].
    intros u ps' Hu. destruct (decide (t = u)) as [|Hne]; [done|].
    pose proof (lsum_ge (dead r) _ _ Hu) as H3. simpl in H3. rewrite Nat.eqb_refl in H3.
    pose proof (msum_astack_ge2 (dead r) st t u Hne). lia.
  Qed.

  (** ** States *)
  Definition aknows st evs t f : Prop :=
    (forall r, has_lock r f = 1 -> a_locks st !! r = Some t) /\
    (forall r, a_arena f = Some r -> live st r -> writes evs (a_mem r) (byt t)) /\
    (forall p, p ∈ a_ptrs f -> writes evs (val p) (byt t)) /\
    (forall p, p ∈ a_boxes f -> accesses evs (val p) (byt t)) /\
    (forall r ps, f = ADead r ps -> accesses evs (a_mem r) (byt t) /\ accesses evs (a_data r) (byt t)).
  Lemma aknows_old st U evs t f : RA st U evs -> f ∈ a_stack st t -> aknows st evs t f.
  Proof.
    intros [] Hf. split_and!; eauto.
    - intros r Hr. apply ra_uses0. by exists f.
    - intros r ps ->. by apply ra_dead0 in Hf as (_&?&?).
  Qed.

  Lemma ra_upd st st' U U' evs t fs fs' kk :
    RA st U evs -> a_stack st t = fs ++ kk ->
    a_threads st' = <[t:=fs' ++ kk]> (a_threads st) -> a_next st <= a_next st' -> a_nextr st' = a_nextr st ->
    a_locks st' = a_locks st ->
    (forall r x, a_arenas st' !! r = Some x -> exists x0, a_arenas st !! r = Some x0 /\
      forall p, p ∈ ar_set x -> p ∈ ar_set x0 \/ (a_locks st !! r = Some t /\ accesses evs (val p) (byt t) /\
        uses st' U' t r /\ forall u r' o v, AvIns u r' o p v ∉ a_log st)) ->
    (forall r f, f ∈ fs -> a_arena f = Some r -> live st' r -> uses st' U' t r) ->
    (forall u r, (u, r) ∈ U -> live st' r -> uses st' U' u r) ->
    (forall f, f ∈ fs' -> aknows st evs t f) ->
    (forall r ps, ADead r ps ∈ fs' -> a_arenas st' !! r = None) ->
    (forall e, e ∈ a_log st -> e ∈ a_log st') -> RA st' U' evs.
  Proof.
    intros HR Hst Hth Hn Hnr Hl Har Hfs HU Hk Hd Hlog.
    assert (forall u, a_stack st' u = if decide (t = u) then fs' ++ kk else a_stack st u) as Hsk.
    { intros u. unfold a_stack. rewrite Hth. destruct (decide (t = u)) as [<-|]; [by rewrite lookup_insert|by rewrite lookup_insert_ne]. }
    assert (forall u f, f ∈ a_stack st' u -> aknows st evs u f) as Hfr.
    { intros u f. rewrite Hsk. destruct (decide (t = u)) as [<-|]; [|by eapply aknows_old].
      intros [H|H]%elem_of_app; [by apply Hk|]. eapply aknows_old; [done|]. rewrite Hst. apply elem_of_app. by right. }
    assert (forall r, live st' r -> live st r) as Hlv.
    { intros r [x Hx]. apply Har in Hx as (x0&?&_). by eexists. }
    assert (forall u r, live st' r -> uses st U u r -> uses st' U' u r) as Hus.
    { intros u r Hr [Hu|(f&Hf&Hfa)]; [by apply HU|]. destruct (decide (t = u)) as [<-|].
      - rewrite Hst in Hf. apply elem_of_app in Hf as [Hf|Hf]; [by eapply Hfs|]. right. exists f. rewrite Hsk.
        rewrite decide_True by done. split; [|done]. apply elem_of_app. by right.
      - right. exists f. rewrite Hsk. by rewrite decide_False. }
    assert (forall r m, live st' r -> known st U evs r m -> known st' U' evs r m) as Hkn.
    { intros r m Hr H i e w Hi Hw. destruct (H _ _ _ Hi Hw) as [?|(u&?&?)]; [by left|right]. exists u. auto. }
    assert (forall r p, p ∈ a_set st' r -> p ∈ a_set st r \/ (a_locks st !! r = Some t /\ accesses evs (val p) (byt t) /\
        uses st' U' t r /\ forall u r' o v, AvIns u r' o p v ∉ a_log st)) as Hset.
    { intros r p Hp. pose proof (set_live _ _ _ Hp) as [x Hx]. rewrite (a_set_some _ _ _ Hx) in Hp.
      apply Har in Hx as (x0&Hx0&Hx). rewrite (a_set_some _ _ _ Hx0). by apply Hx. }
    destruct HR. constructor.
    - done.
    - intros k Hk'. apply ra_new0. lia.
    - intros r Hr. apply ra_newr0. lia.
    - intros u f r Hf Hr. rewrite Hl. apply Hfr in Hf as (?&_). auto.
    - intros r j e w Hr Hj Hw. unfold akeeper. rewrite Hl. eapply ra_set0; [by apply Hlv|done..].
    - intros r p Hp. unfold akeeper. rewrite Hl. apply Hset in Hp as [Hp|(Hlk&Hp&_)]; [by eapply ra_elt0|].
      rewrite Hlk. by apply accesses_writes.
    - intros r Hr. apply Hkn; auto.
    - intros r Hr. apply Hkn; auto.
    - intros r p Hp. pose proof (set_live _ _ _ Hp) as Hr. apply Hset in Hp as [Hp|(_&Hp&Hu&_)]; [apply Hkn; by auto|].
      intros i e w Hi Hw. right. exists t. split; [done|]. by eapply Hp.
    - intros r j u i e Hr. apply ra_made0. by apply Hlv.
    - intros u r (f&Hf&Hfa) Hr. apply Hfr in Hf as (_&Hf&_). apply Hf; by auto.
    - intros u f p Hf. apply Hfr in Hf as (_&_&?&_). auto.
    - intros u f p Hf. apply Hfr in Hf as (_&_&_&?&_). auto.
    - intros u r ps Hf. split; [|apply Hfr in Hf as (_&_&_&_&Hf); by eapply Hf]. revert Hf. rewrite Hsk.
      assert (forall u', ADead r ps ∈ a_stack st u' -> a_arenas st' !! r = None) as Hold.
      { intros u' (Hn'&_)%ra_dead0. destruct (a_arenas st' !! r) as [x|] eqn:Hx; [|done]. apply Har in Hx as (x0&?&_). congruence. }
      destruct (decide (t = u)) as [<-|]; [|by apply Hold]. intros [H|H]%elem_of_app; [by eapply Hd|]. apply (Hold t).
      rewrite Hst. apply elem_of_app. by right.
    - intros j u p Hj. destruct (ra_got0 _ _ _ Hj) as [(u'&r'&o&v&He) Hw]. split; [exists u', r', o, v; by apply Hlog|].
      intros r i e Hp. apply Hset in Hp as [Hp|(_&_&_&Hno)]; [by apply (Hw r)|]. by apply Hno in He.
  Qed.

  (** Taking and releasing a mutex. *)
  Lemma ra_acq st U evs r t :
    RA st U evs -> a_locks st !! r = None -> RA (a_lock st r t) U (evs ++ [(t, AAcq (a_mutex r))]).
  Proof.
    intros HR Hx. pose proof (ra_quiet _ _ _ t (AAcq (a_mutex r)) HR (λ p, ltac:(done)) (λ r', ltac:(done)) eq_refl) as [].
    pose proof (lookup_quiet evs t (AAcq (a_mutex r)) eq_refl) as Hq. destruct HR.
    constructor; try done; simpl.
    - intros u f r' Hf Hr. pose proof (ra_held1 _ _ _ Hf Hr) as H. rewrite lookup_insert_ne; [done|]. intros ->. congruence.
    - intros y j e w Hlv Hj Hy. destruct (decide (r = y)) as [<-|].
      + unfold akeeper. simpl. rewrite lookup_insert. pose proof (Hq _ _ _ _ Hj Hy) as Hj'.
        destruct (ra_set1 _ _ _ _ Hlv Hj' Hy) as [?|Hk]; [by left|right]. unfold akeeper in Hk. rewrite Hx in Hk. by apply view_acq.
      + destruct (ra_set0 _ _ _ _ Hlv Hj Hy) as [?|Hk]; [by left|right]. unfold akeeper in *. simpl. by rewrite lookup_insert_ne.
    - intros y p Hp. change (p ∈ a_set st y) in Hp. destruct (decide (r = y)) as [<-|].
      + unfold akeeper. simpl. rewrite lookup_insert. apply writes_acq. pose proof (ra_elt1 _ _ Hp) as H. unfold akeeper in H. by rewrite Hx in H.
      + pose proof (ra_elt0 _ _ Hp) as H. unfold akeeper in *. simpl. by rewrite lookup_insert_ne.
  Qed.
  Lemma ra_rel st U evs r t w :
    RA st U evs -> a_locks st !! r = Some t -> (forall u f, f ∈ a_stack st u -> has_lock r f = 0) ->
    RA (a_unlock st r w) U (evs ++ [(t, HbSpec.ARel (a_mutex r))]).
  Proof.
    intros HR Hx Hf0. pose proof (ra_quiet _ _ _ t (HbSpec.ARel (a_mutex r)) HR (λ p, ltac:(done)) (λ r', ltac:(done)) eq_refl) as [].
    pose proof (lookup_quiet evs t (HbSpec.ARel (a_mutex r)) eq_refl) as Hq. destruct HR.
    constructor; try done; simpl.
    - intros u f r' Hf Hr. pose proof (ra_held1 _ _ _ Hf Hr) as H. rewrite lookup_delete_ne; [done|]. intros ->.
      change (f ∈ a_stack st u) in Hf. apply Hf0 in Hf. lia.
    - intros y j e w' Hlv Hj Hy. destruct (decide (r = y)) as [<-|].
      + unfold akeeper. simpl. rewrite lookup_delete. pose proof (Hq _ _ _ _ Hj Hy) as Hj'.
        destruct (ra_set1 _ _ _ _ Hlv Hj' Hy) as [?|Hk]; [by left|right]. unfold akeeper in Hk. rewrite Hx in Hk. by apply view_rel.
      + destruct (ra_set0 _ _ _ _ Hlv Hj Hy) as [?|Hk]; [by left|right]. unfold akeeper in *. simpl. by rewrite lookup_delete_ne.
    - intros y p Hp. change (p ∈ a_set st y) in Hp. destruct (decide (r = y)) as [<-|].
      + unfold akeeper. simpl. rewrite lookup_delete. apply writes_rel. pose proof (ra_elt1 _ _ Hp) as H. unfold akeeper in H. by rewrite Hx in H.
      + pose proof (ra_elt0 _ _ Hp) as H. unfold akeeper in *. simpl. by rewrite lookup_delete_ne.
  Qed.

  Lemma known_mono st st' U U' evs r m :
    known st U evs r m -> (forall u, uses st U u r -> uses st' U' u r) -> known st' U' evs r m.
  Proof. intros H Hu i e w Hi Hw. destruct (H _ _ _ Hi Hw) as [?|(u&?&?)]; [by left|right]. exists u. auto. Qed.
  Lemma ra_U st U U' evs : RA st U evs -> (forall x, x ∈ U -> x ∈ U') -> RA st U' evs.
  Proof.
    intros [] HU. assert (forall r m, known st U evs r m -> known st U' evs r m) as Hk.
    { intros r m H. eapply known_mono; [done|]. intros u [?|?]; [left; by apply HU|by right]. }
    constructor; eauto.
  Qed.

  Definition a_created st ty : astate V Q :=
    AState (a_objs st) (<[a_nextr st := Ar ty []]> (a_arenas st)) (a_locks st) (a_poison st)
      (a_threads st) (a_next st) (S (a_nextr st)) (AvNew (a_nextr st) ty :: a_log st).
  Lemma ra_create st evs t ty :
    let r := a_nextr st in
    AInv st -> RA st [] evs -> RA (a_created st ty) [] (evs ++ [(t, ATouch [(a_mem r, true); (a_data r, true)]); (t, AMade r); (t, AEnd r)]).
  Proof.
    intros n HI HR. set (st' := a_created st ty). set (e0 := (t, ATouch [(a_mem n, true); (a_data n, true)])).
    assert (forall k w, (LVal k, w) ∉ touched e0.2) as Hnv.
    { intros k w [[=]|[[=]|[]%elem_of_nil]%elem_of_cons]%elem_of_cons. }
    assert (forall r w, (a_mem r, w) ∈ touched e0.2 -> r = n) as Hne.
    { intros y w [[= -> _]|[[=]|[]%elem_of_nil]%elem_of_cons]%elem_of_cons. done. }
    assert (forall r w, (a_data r, w) ∈ touched e0.2 -> r = n) as Hns.
    { intros y w [[=]|[[= -> _]|[]%elem_of_nil]%elem_of_cons]%elem_of_cons. done. }
    assert (a_arenas st !! n = None) as Hn.
    { destruct (a_arenas st !! n) as [x|] eqn:Hx; [|done]. apply (there_lt E) in Hx; [|done]. lia. }
    assert (forall r, live st' r -> r <> n -> live st r) as Hlv.
    { intros r Hr Hne'. unfold live in *. simpl in Hr. by rewrite lookup_insert_ne in Hr. }
    assert (forall r p, p ∈ a_set st' r -> p ∈ a_set st r /\ r <> n) as Hset.
    { intros r p. unfold a_set. simpl. fold n. destruct (decide (r = n)) as [->|].
      - rewrite lookup_insert. simpl. by intros ?%elem_of_nil.
      - by rewrite lookup_insert_ne. }
    destruct (ra_newr _ _ _ HR n) as (Hu1&Hu2&Hu3); [done|].
    assert (forall u r, uses st [] u r -> uses st' [(t, n)] u r) as Hus.
    { intros u r [Hu|Hu]; [by apply elem_of_nil in Hu|by right]. }
    assert (forall u f r, f ∈ a_stack st u -> a_arena f = Some r -> r <> n) as Hfn.
    { intros u f r Hf Hr ->. apply (on_live _ _ _ _ HI Hf) in Hr as [? ?]. lia. }
    assert (forall r m, untouched evs m -> r = n -> known st' [(t, n)] (evs ++ [e0]) r m) as Hkn.
    { intros r m Hm -> i e w Hi Hw. apply lookup_snoc in Hi as [Hi|[-> ->]]; [by edestruct Hm|]. right. exists t.
      split; [left; by left|]. apply view_last; [done|by left]. }
    assert (RA st' [(t, n)] (evs ++ [e0])) as H1.
    { destruct HR. constructor.
      - apply race_free_snoc; [done|]. intros m w Hm. left. apply untouched_accesses. destruct m as [k|[r z]|[r z]].
        + by apply Hnv in Hm.
        + destruct z; [by apply Hns in Hm as ->|].
          apply elem_of_cons in Hm as [[=]|[[=]|[]%elem_of_nil]%elem_of_cons].
        + destruct z; [by apply Hne in Hm as ->|].
          apply elem_of_cons in Hm as [[=]|[[=]|[]%elem_of_nil]%elem_of_cons].
      - intros k Hk. apply untouched_snoc; [by apply ra_new0|]. intros w. apply Hnv.
      - simpl. intros r Hr. destruct (ra_newr0 r) as (H1&H2&H3); [lia|]. split_and!.
        + apply untouched_snoc; [done|]. intros w Hw%Hne. unfold n in *. lia.
        + apply untouched_snoc; [done|]. intros w Hw%Hns. unfold n in *. lia.
        + intros j u [Hj|[_ [=]]]%lookup_snoc. by eapply H3.
      - done.
      - intros r j e w Hr Hj Hw. apply lookup_snoc in Hj as [Hj|[-> ->]].
        + destruct (decide (r = n)) as [->|Hrn]; [by edestruct Hu2|].
          destruct (ra_set0 _ _ _ _ (Hlv _ Hr Hrn) Hj Hw) as [?|Hk]; [by left|right]. by apply view_app.
        + left. apply Hns in Hw as ->. by left.
      - intros r p [Hp _]%Hset. apply writes_snoc; [by apply (ra_elt0 r)|]. by intros ?%Hnv.
      - intros r Hr. destruct (decide (r = n)) as [->|Hrn]; [by apply Hkn|]. apply known_snoc; [|by intros w ?%Hne].
        eapply known_mono; [by apply ra_mem0; auto|auto].
      - intros r Hr. destruct (decide (r = n)) as [->|Hrn]; [by apply Hkn|]. apply known_snoc; [|by intros w ?%Hns].
        eapply known_mono; [by apply ra_data0; auto|auto].
      - intros r p [Hp Hrn]%Hset. apply known_snoc; [|by intros w ?%Hnv].
        eapply known_mono; [by apply ra_val0; auto|auto].
      - intros r j u i e Hr Hj Hi Hw. apply lookup_snoc in Hj as [Hj|[_ [=]]].
        destruct (decide (r = n)) as [->|Hrn]; [by apply Hu3 in Hj|].
        apply lookup_snoc in Hi as [Hi|[-> ->]]; [|by apply Hne in Hw]. eapply hb_weaken, ra_made0; eauto.
      - intros u r (f&Hf&Hr) Hlr. change (f ∈ a_stack st u) in Hf. assert (r <> n) as Hrn by (by eapply Hfn).
        apply writes_snoc; [|by intros ?%Hne]. apply ra_uses0; [by exists f|auto].
      - intros u f p Hf Hp. apply writes_snoc; [by eapply ra_ptr0|]. by intros ?%Hnv.
      - intros u f p Hf Hp. apply accesses_snoc; [by eapply ra_box0|]. by intros w ?%Hnv.
      - intros u r ps Hd. change (ADead r ps ∈ a_stack st u) in Hd.
        assert (r <> n) as Hrn.
        { apply (dead_facts _ _ _ _ HI) in Hd as [? _]. unfold n. lia. }
        destruct (ra_dead0 _ _ _ Hd) as (?&?&?). split_and!.
        + simpl. by rewrite lookup_insert_ne.
        + apply accesses_snoc; [done|]. by intros w ?%Hne.
        + apply accesses_snoc; [done|]. by intros w ?%Hns.
      - intros j u p Hj. apply lookup_snoc in Hj as [Hj|[_ [=]]]. destruct (ra_got0 _ _ _ Hj) as [(u'&r'&o&v&He) Hw]. split.
        + exists u', r', o, v. by right.
        + intros r i e [Hp _]%Hset Hi Hx. apply lookup_snoc in Hi as [Hi|[-> ->]]; [by eapply hb_weaken, (Hw r)|]. by apply Hnv in Hx. }
    assert (RA st' [(t, n)] ((evs ++ [e0]) ++ [(t, AMade n)])) as H2.
    { apply ra_make; [done|simpl; unfold n; lia|]. apply writes_snoc; [by apply accesses_writes, untouched_accesses|done]. }
    change [e0; (t, AMade n); (t, AEnd n)] with ([e0] ++ [(t, AMade n)] ++ [(t, AEnd n)]). rewrite !app_assoc.
    eapply ra_end; [exact H2|by intros u r' ?%elem_of_nil|]. intros u r' ?%elem_of_list_singleton. by left.
  Qed.

  (** A call begins: the caller knows the arena. *)
  Lemma ra_call st U evs t r :
    RA st U evs -> live st r -> arenas_travel (evs ++ [(t, AUse r)]) ->
    RA st U (evs ++ [(t, AUse r)]) /\ writes (evs ++ [(t, AUse r)]) (a_mem r) (byt t).
  Proof.
    intros HR Hlv HT. split; [by apply ra_quiet|].
    destruct (HT (length evs) t r) as (i&u&Hi&Hh); [by apply list_lookup_middle|].
    pose proof (hb_lt _ _ _ Hh). rewrite lookup_app_l in Hi by done. intros j e Hj Hx.
    apply (lookup_quiet _ _ (AUse r) eq_refl) with (m := a_mem r) (w := true) in Hj; [|done].
    exists (length evs), (t, AUse r). split_and!; [right|by apply list_lookup_middle|done].
    eapply hb_trans; [|done]. apply hb_weaken. by eapply (ra_made _ _ _ HR).
  Qed.
  (** A drop begins: all accesses happen before. *)
  Lemma drop_knows st evs t r m :
    a_idle st r = true -> drops_are_last (evs ++ [(t, ADrop r)]) -> known st [] evs r m ->
    accesses (evs ++ [(t, ADrop r)]) m (byt t).
  Proof.
    intros Hid HD Hk i e w Hi Hw.
    apply (lookup_quiet _ _ (ADrop r) eq_refl) with (m := m) (w := w) in Hi; [|done].
    destruct (Hk _ _ _ Hi Hw) as [(j&f&Hj&Hf&He)|(u&[Hu|(f&Hf&Ha)]&_)].
    - exists (length evs), (t, ADrop r). split_and!; [right|by apply list_lookup_middle|done].
      assert (hb (evs ++ [(t, ADrop r)]) j (length evs)) as Hjl.
      { destruct f as [u a]. unfold endr in He. simpl in He. subst a. eapply (HD j (length evs) u t r).
        - by apply lookup_app_l_Some.
        - by apply list_lookup_middle. }
      destruct Hj as [->|Hj]; [done|]. eapply hb_trans; [by apply hb_weaken|done].
    - by apply elem_of_nil in Hu.
    - exfalso. rewrite a_idle_spec in Hid. by eapply Hid.
  Qed.
  (** A value is read through a handle. *)
  Lemma ra_read st evs t r p :
    AInv st -> RA st [] evs -> handles_travel (evs ++ [(t, ARead p)]) -> p ∈ a_set st r ->
    RA st [] (evs ++ [(t, ARead p); (t, AEnd r)]).
  Proof.
    intros HI HR HT Hp. destruct (HT (length evs) t p) as (i&u&Hi&Hh); [by apply list_lookup_middle|].
    pose proof (hb_lt _ _ _ Hh). rewrite lookup_app_l in Hi by done.
    destruct (ra_got _ _ _ HR _ _ _ Hi) as [_ Hw]. destruct (set_facts _ _ _ HI Hp) as (Hlt&_&Hs&_&_&Hun).
    change [(t, ARead p); (t, AEnd r)] with ([(t, ARead p)] ++ [(t, AEnd r)]). rewrite app_assoc.
    eapply (ra_end _ [(t, r)]); [|by intros u' r' ?%elem_of_nil|intros u' r' ?%elem_of_list_singleton; by left].
    apply ra_add; [eapply ra_U; [done|by intros x ?%elem_of_nil]|done..|]. intros y ->%elem_of_list_singleton. simpl. split_and!.
    - done.
    - intros k e Hk Hx. assert (hb (evs ++ [(t, ARead p)]) k (length evs)) as Hk'.
      { eapply hb_trans; [|done]. apply hb_weaken. by eapply (Hw r). }
      apply hb_last in Hk'. eapply view_imp; [|done]. intros f [Hf|Hf]; [done|].
      by destruct f as [? []].
    - intros w f q Hf Hq Heq. exfalso. destruct (box_facts _ _ _ _ HI Hf Hq) as (_&_&Hq0&_). rewrite Heq in Hq0. lia.
    - intros r' q Hq Heq. left. rewrite (Hun _ _ Hq Heq). by left.
  Qed.

  (** ** What a thread looks at *)
  Lemma locked_ok st evs t f r w : AInv st -> RA st [] evs -> f ∈ a_stack st t -> has_lock r f = 1 -> aallowed st [] evs t (a_data r, w).
  Proof.
    intros HI HR Hf Hr. assert (a_arena f = Some r) as Ha.
    { destruct f; simpl in Hr |- *; try done; destruct (Nat.eqb_spec r0 r) as [->|]; done. }
    destruct (on_live _ _ _ _ HI Hf Ha) as [Hlv Hlt]. simpl. split; [done|]. left. split_and!; [done|by eapply (ra_held _ _ _ HR)|].
    by exists f.
  Qed.
  Lemma set_read_ok st evs t f r p : AInv st -> f ∈ a_stack st t -> a_arena f = Some r -> p ∈ a_set st r ->
    writes evs (val p) (byt t) -> aallowed st [] evs t (val p, false).
  Proof.
    intros HI Hf Ha Hp Hw. destruct (set_facts _ _ _ HI Hp) as (Hlt&_&Hs&_&_&Hun). simpl. split_and!; [done|done| |].
    - intros u g q Hg Hq Heq. exfalso. destruct (box_facts _ _ _ _ HI Hg Hq) as (_&_&Hq0&_). rewrite Heq in Hq0. lia.
    - intros r' q Hq Heq. rewrite (Hun _ _ Hq Heq). right. by exists f.
  Qed.
  Lemma box_read_ok st evs t f p : AInv st -> RA st [] evs -> f ∈ a_stack st t -> p ∈ a_boxes f -> aallowed st [] evs t (val p, false).
  Proof.
    intros HI HR Hf Hp. destruct (box_facts _ _ _ _ HI Hf Hp) as (Hlt&_&Hs&Hu). simpl. split_and!; [done| |done|].
    - apply accesses_writes. by eapply (ra_box _ _ _ HR).
    - intros r' q Hq Heq. destruct (set_facts _ _ _ HI Hq) as (_&_&Hs'&_). rewrite Heq in Hs'. lia.
  Qed.
  Lemma box_write_ok st evs t f p : AInv st -> RA st [] evs -> f ∈ a_stack st t -> p ∈ a_boxes f -> aallowed st [] evs t (val p, true).
  Proof.
    intros HI HR Hf Hp. destruct (box_facts _ _ _ _ HI Hf Hp) as (Hlt&_). simpl. split_and!; [done| |by eapply box_private].
    by eapply (ra_box _ _ _ HR).
  Qed.
  Lemma dead_ok st evs t r ps w : AInv st -> RA st [] evs -> ADead r ps ∈ a_stack st t ->
    aallowed st [] evs t (a_data r, w) /\ aallowed st [] evs t (a_mem r, true).
  Proof.
    intros HI HR Hf. destruct (dead_facts _ _ _ _ HI Hf) as [Hlt Hd]. destruct (ra_dead _ _ _ HR _ _ _ Hf) as (_&H1&H2).
    simpl. split; [|done]. split; [done|by right].
  Qed.
  Lemma search_ok st evs t f r : AInv st -> RA st [] evs -> f ∈ a_stack st t -> has_lock r f = 1 -> a_arena f = Some r ->
    forall y, y ∈ a_search st r -> aallowed st [] evs t y.
  Proof.
    intros HI HR Hf Hr Ha y [->|Hy]%elem_of_cons; [by eapply locked_ok|].
    apply elem_of_list_fmap in Hy as (p&->&Hp). eapply set_read_ok; [done..|].
    pose proof (ra_elt _ _ _ HR _ _ Hp) as Hw. unfold akeeper in Hw. by rewrite (ra_held _ _ _ HR _ _ _ Hf Hr) in Hw.
  Qed.
  Lemma alooks_ok st evs t : AInv st -> RA st [] evs -> forall y, y ∈ a_looks st t -> aallowed st [] evs t y.
  Proof.
    intros HI HR y Hy. unfold a_looks in Hy. destruct (a_stack st t) as [|f kk] eqn:Hst; [by apply elem_of_nil in Hy|].
    assert (f ∈ a_stack st t) as Hf by (rewrite Hst; by left).
    destruct f as [|r o b| | |r o b p|r o b p pan| | |r o b mine x|r [|p ps]]; try (by apply elem_of_nil in Hy).
    - apply elem_of_app in Hy as [Hy|Hy]; [eapply search_ok; try done; simpl; by rewrite Nat.eqb_refl|].
      destruct b as [p|]; [|by apply elem_of_nil in Hy]. apply elem_of_list_singleton in Hy as ->.
      eapply box_read_ok; [done..|by left].
    - apply elem_of_app in Hy as [Hy|Hy]; [eapply search_ok; try done; simpl; by rewrite Nat.eqb_refl|].
      apply elem_of_list_singleton in Hy as ->. eapply box_read_ok; [done..|by left].
    - apply elem_of_list_singleton in Hy as ->. eapply box_write_ok; [done..|by left].
    - destruct mine; [|by apply elem_of_nil in Hy]. destruct b as [p|]; [|by apply elem_of_nil in Hy].
      apply elem_of_list_singleton in Hy as ->. eapply box_write_ok; [done..|by left].
    - apply elem_of_cons in Hy as [->|Hy%elem_of_list_singleton]; [by eapply dead_ok|]. subst y. eapply box_write_ok; [done..|by left].
  Qed.

  (** ** A step *)
  Lemma aknows_next st evs t f f' :
    RA st [] evs -> f ∈ a_stack st t -> a_arena f' = a_arena f -> (forall r, has_lock r f' = 1 -> has_lock r f = 1) ->
    (forall p, p ∈ a_ptrs f' -> writes evs (val p) (byt t)) -> (forall p, p ∈ a_boxes f' -> accesses evs (val p) (byt t)) ->
    (forall r ps, f' = ADead r ps -> exists ps', f = ADead r ps') -> aknows st evs t f'.
  Proof.
    intros HR Hf Ha Hl Hp Hb Hd. destruct (aknows_old _ _ _ _ _ HR Hf) as (H1&H2&_&_&H5). split_and!; auto.
    - rewrite Ha. auto.
    - intros r ps (ps'&->)%Hd. by eapply H5.
  Qed.
  (** The top frame changes, and perhaps the memory. *)
  Lemma ra_top st st1 evs t f f' kk :
    RA st [] evs -> a_stack st t = f :: kk ->
    a_threads st1 = a_threads st -> a_next st1 = a_next st -> a_nextr st1 = a_nextr st -> a_locks st1 = a_locks st ->
    a_arenas st1 = a_arenas st -> (forall e, e ∈ a_log st -> e ∈ a_log st1) ->
    a_arena f' = a_arena f -> (forall r, has_lock r f' = 1 -> has_lock r f = 1) ->
    (forall p, p ∈ a_ptrs f' -> writes evs (val p) (byt t)) -> (forall p, p ∈ a_boxes f' -> accesses evs (val p) (byt t)) ->
    (forall r ps, f' = ADead r ps -> exists ps', f = ADead r ps') -> RA (a_set_stack st1 t (f' :: kk)) [] evs.
  Proof.
    intros HR Hst E1 E2 E3 E4 E5 E6 Ha Hl Hp Hb Hd. assert (f ∈ a_stack st t) as Hf by (rewrite Hst; by left).
    eapply (ra_upd st _ [] [] _ t [f] [f'] kk); try done; simpl.
    - by rewrite E1.
    - lia.
    - intros r x. rewrite E5. intros Hx. exists x. split; [done|]. by left.
    - intros r g ->%elem_of_list_singleton Hr _. right. exists f'. rewrite set_stack_get, decide_True by done. split; [by left|congruence].
    - by intros u r ?%elem_of_nil.
    - intros g ->%elem_of_list_singleton. by eapply aknows_next.
    - intros r ps Hf'%elem_of_list_singleton. symmetry in Hf'. apply Hd in Hf' as (ps'&->). rewrite E5.
      by apply (ra_dead _ _ _ HR) in Hf as (?&_).
  Qed.
  Lemma ra_alloc st evs t v st1 p ad fs f' kk :
    AInv st -> RA st [] evs -> a_alloc E st ad v = Some (st1, p) -> a_stack st t = fs ++ kk ->
    (forall r g, g ∈ fs -> a_arena g = Some r -> a_arena f' = Some r) ->
    (forall r, has_lock r f' = 1 -> a_locks st !! r = Some t) ->
    (forall r, a_arena f' = Some r -> writes evs (a_mem r) (byt t)) ->
    a_ptrs f' = [] -> a_boxes f' = [p] -> (forall r ps, f' <> ADead r ps) ->
    RA (a_set_stack st1 t (f' :: kk)) [] (evs ++ [(t, ATouch [(LVal (a_next st), true)])]).
  Proof.
    intros HI HR Ha Hst Hfs Hl Hm Hp Hb Hd.
    unfold a_alloc in Ha. destruct (_ || _); [|done]. injection Ha as <- <-.
    assert (untouched evs (LVal (a_next st))) as Hu by (by apply (ra_new _ _ _ HR)).
    apply ra_add; [|done..|].
    - eapply (ra_upd st _ [] [] _ t fs [f'] kk); try done; simpl.
      + lia.
      + intros r x Hx. exists x. split; [done|]. by left.
      + intros r g Hg Hr _. right. exists f'. rewrite set_stack_get, decide_True by done. split; [by left|]. by eapply Hfs.
      + by intros u r ?%elem_of_nil.
      + intros g ->%elem_of_list_singleton. split_and!; [done|auto| | |].
        * rewrite Hp. by intros q ?%elem_of_nil.
        * rewrite Hb. intros q ->%elem_of_list_singleton. by apply untouched_accesses.
        * intros r ps Hf. by apply Hd in Hf.
      + intros r ps Hf%elem_of_list_singleton. symmetry in Hf. by apply Hd in Hf.
    - intros y ->%elem_of_list_singleton. simpl. split_and!; [lia|by apply untouched_accesses|]. split.
      + intros r q Hq. change (q ∈ a_set st r) in Hq. apply (set_facts _ _ _ HI) in Hq as [? _]. lia.
      + intros u g q. rewrite set_stack_get. destruct (decide (t = u)) as [<-|]; [done|]. intros Hg Hq Heq.
        change (g ∈ a_stack st u) in Hg. apply elem_of_app in Hq as [Hq|Hq].
        * apply (ptr_facts _ _ _ _ HI Hg) in Hq as [? _]. lia.
        * apply (box_facts _ _ _ _ HI Hg) in Hq as [? _]. lia.
  Qed.
  Lemma free_fields st w p st1 : a_free st w p = Some st1 ->
    a_threads st1 = a_threads st /\ a_next st1 = a_next st /\ a_nextr st1 = a_nextr st /\ a_locks st1 = a_locks st /\
    a_arenas st1 = a_arenas st /\ (forall e, e ∈ a_log st -> e ∈ a_log st1).
  Proof. unfold a_free. destruct (a_objs st !! ip_ser p); [|done]. intros [= <-]. split_and!; try done. simpl. intros e. by right. Qed.

  Lemma ra_event st U evs e : RA st U evs -> RA (a_event st e) U evs.
  Proof.
    intros []. constructor; try done. intros j t p Hj. destruct (ra_got0 _ _ _ Hj) as [(u&r&o&v&He) Hw].
    split; [|done]. exists u, r, o, v. by right.
  Qed.
  Theorem ra_step st evs t l st' :
    AInv st -> AInv st' -> RA st [] evs -> a_by l t = true -> astep E st l = Next st' ->
    handles_travel (evs ++ (pair t <$> a_does st t l)) -> arenas_travel (evs ++ (pair t <$> a_does st t l)) ->
    drops_are_last (evs ++ (pair t <$> a_does st t l)) -> RA st' [] (evs ++ (pair t <$> a_does st t l)).
  Proof.
    intros HI HI' HR Hby Hs HT HA HD.
    assert (RA st [] (evs ++ [(t, ATouch (a_looks st t))])) as HL.
    { apply ra_add; [done..|]. by apply alooks_ok. }
    destruct l as [u ty|u r o a|u a j|u v|u|r p|u r]; simpl in Hby; try (apply Nat.eqb_eq in Hby as ->).
    - (* LArena *)
      simpl in Hs. destruct (a_ready st t); [|done]. injection Hs as <-. by apply ra_create.
    - (* LCall *)
      simpl in Hs. destruct (a_arenas st !! r) as [x|] eqn:Hx; [|done]. destruct (a_ready st t); [|done].
      assert (live st r) as Hlv by (by eexists).
      assert (arenas_travel (evs ++ [(t, AUse r)])) as HA'.
      { simpl in HA. rewrite cons_middle, app_assoc in HA. by eapply arenas_prefix. }
      destruct (ra_call _ _ _ _ _ HR Hlv HA') as [HR' Hw].
      assert (RA (a_set_stack st t (AWait r o None :: a_stack st t)) [] (evs ++ [(t, AUse r)])) as Hplain.
      { eapply (ra_upd st _ [] [] _ t [] [AWait r o None] (a_stack st t)); try done; simpl.
        - intros r' x' Hx'. exists x'. split; [done|]. by left.
        - by intros r' f ?%elem_of_nil.
        - by intros u r' ?%elem_of_nil.
        - intros f ->%elem_of_list_singleton. split_and!; try done; simpl.
          + by intros r' [= <-].
          + by intros p ?%elem_of_nil.
          + by intros p ?%elem_of_nil.
        - by intros r' ps [=]%elem_of_list_singleton. }
      assert (forall v st1 p, a_alloc E st a v = Some (st1, p) ->
        RA (a_set_stack st1 t (AWait r o (Some p) :: a_stack st t)) [] ((evs ++ [(t, AUse r)]) ++ [(t, ATouch [(LVal (a_next st), true)])])) as Hal.
      { intros v st1 p Ha. eapply (ra_alloc st _ t v st1 p a [] _ (a_stack st t)); try done.
        - by intros r' f ?%elem_of_nil.
        - by intros r' [= <-]. }
      simpl. destruct o as [v|w q|v|v].
      + destruct (_ =? _); [|done]. injection Hs as <-. done.
      + injection Hs as <-. done.
      + destruct (_ =? _); [|done]. destruct (a_alloc E st a v) as [[st1 p]|] eqn:Ha; [|done]. injection Hs as <-.
        rewrite cons_middle, app_assoc. by eapply Hal.
      + destruct (_ =? _); [|done]. destruct (a_alloc E st a v) as [[st1 p]|] eqn:Ha; [|done]. injection Hs as <-.
        rewrite cons_middle, app_assoc. by eapply Hal.
    - (* LStep *)
      simpl in Hs. unfold a_step_thread in Hs. unfold a_does in HT, HA, HD |- *.
      destruct (a_stack st t) as [|f kk] eqn:Hst; [done|].
      assert (f ∈ a_stack st t) as Hf by (rewrite Hst; by left).
      assert (forall p, p ∈ a_boxes f -> accesses (evs ++ [(t, ATouch (a_looks st t))]) (val p) (byt t)) as Hbx.
      { intros p. by apply (ra_box _ _ _ HL). }
      assert (forall p r, p ∈ a_set st r -> has_lock r f = 1 -> writes (evs ++ [(t, ATouch (a_looks st t))]) (val p) (byt t)) as Hst'.
      { intros p r Hp Hl. pose proof (ra_elt _ _ _ HL _ _ Hp) as Hw. unfold akeeper in Hw.
        by rewrite (ra_held _ _ _ HL _ _ _ Hf Hl) in Hw. }
      destruct f as [r o b|r o b| |r o v [q|]|r o b p|r o b p pan|r o b p|r o b mine x|r o b mine x|r [|p ps]].
      + (* AWait *)
        destruct (a_locks st !! r) eqn:Hl; [done|]. injection Hs as <-.
        destruct (on_live _ _ _ _ HI Hf eq_refl) as [Hlv Hlt].
        assert (RA st [] (evs ++ [(t, ATouch [(a_mem r, false)])])) as H1.
        { apply ra_add; [done..|]. intros y ->%elem_of_list_singleton. simpl. split_and!; [done..|]. by exists (AWait r o b). }
        pose proof (ra_acq _ _ _ r t H1 Hl) as H2. rewrite <- app_assoc in H2.
        eapply (ra_upd (a_lock st r t) _ [] [] _ t [AWait r o b] [AGet r o b] kk); try done; simpl.
        * intros r' x Hx. exists x. split; [done|]. by left.
        * intros r' g ->%elem_of_list_singleton [= <-] _. right. exists (AGet r o b). rewrite set_stack_get, decide_True by done.
          split; [by left|done].
        * by intros u r' ?%elem_of_nil.
        * intros g ->%elem_of_list_singleton. destruct (aknows_old _ _ _ _ _ H2 Hf) as (_&Ha&_&Hb&_). split_and!; try done; simpl.
          -- intros r'. destruct (Nat.eqb_spec r r') as [->|]; [|done]. by rewrite lookup_insert.
          -- by intros p ?%elem_of_nil.
        * by intros r' ps [=]%elem_of_list_singleton.
      + (* AGet *)
        destruct (a_readable _ _); [|done].
        assert (has_lock r (AGet r o b) = 1) as Hl by (simpl; by rewrite Nat.eqb_refl).
        destruct (ipick j _) as [p|] eqn:Hp.
        * injection Hs as <-. apply ipick_in in Hp. apply a_cands_in in Hp as [Hp _].
          eapply (ra_top st st); try done; simpl.
          intros q ->%elem_of_list_singleton. by eapply Hst'.
        * destruct o as [v|w q|v|v].
          -- injection Hs as <-. eapply (ra_top st st); try done; by intros q ?%elem_of_nil.
          -- injection Hs as <-. eapply (ra_top st st); try done; by intros q' ?%elem_of_nil.
          -- injection Hs as <-. eapply (ra_top st st); try done; by intros q ?%elem_of_nil.
          -- destruct b as [p|]; [|done]. injection Hs as <-. eapply (ra_top st st); try done; by intros q ?%elem_of_nil.
      + done.
      + (* AStore frees the buffer *)
        destruct (a_free st None q) as [st1|] eqn:Hfr; [|done]. injection Hs as <-.
        apply free_fields in Hfr as (E1&E2&E3&E4&E5&E6).
        assert (RA st [] (evs ++ [(t, ATouch [(val q, true)])])) as H1.
        { apply ra_add; [done..|]. intros y ->%elem_of_list_singleton. eapply box_write_ok; [done..|by left]. }
        eapply (ra_top st st1); try done; by intros q' ?%elem_of_nil.
      + (* AStore allocates *)
        destruct (a_alloc E st a v) as [[st1 p]|] eqn:Ha; [|done]. injection Hs as <-.
        destruct (aknows_old _ _ _ _ _ HR Hf) as (Hk1&Hk2&_).
        eapply (ra_alloc st _ t v st1 p a [AStore r o v None] _ kk); try done.
        * by intros r' g ->%elem_of_list_singleton.
        * intros r' Hr'. apply Hk2; [done|]. by apply (on_live _ _ _ _ HI Hf) in Hr' as [? _].
      + (* AIns *)
        destruct (a_read st p) as [v|]; [|done]. destruct (a_arenas st !! r) as [x|] eqn:Hx; [|done].
        destruct (a_readable _ _); [|done].
        assert (has_lock r (AIns r o b p) = 1) as Hl by (simpl; by rewrite Nat.eqb_refl).
        assert (RA st [] (evs ++ [(t, ATouch ((a_data r, true) :: a_looks st t))])) as H1.
        { apply ra_add; [done..|]. intros y [->|Hy]%elem_of_cons; [by eapply locked_ok|by apply alooks_ok]. }
        destruct (a_cands _ _ _) as [|c cs].
        * injection Hs as <-.
          assert (accesses (evs ++ [(t, ATouch ((a_data r, true) :: a_looks st t))]) (val p) (byt t)) as Hacc.
          { eapply (ra_box _ _ _ H1); [exact Hf|by left]. }
          eapply (ra_upd st _ [] [] _ t [AIns r o b p] [AMake r o b p] kk); try done; simpl.
          -- intros r' x' Hx'. destruct (decide (r = r')) as [<-|].
             ++ rewrite lookup_insert in Hx'. injection Hx' as <-. exists x. split; [done|]. simpl. intros q [->|Hq]%elem_of_cons; [right|by left].
                split_and!; [by eapply (ra_held _ _ _ HR)|done| |].
                ** right. exists (AMake r o b p). rewrite set_stack_get, decide_True by done. split; [by left|done].
                ** intros u r' o' v' Hin.
                   assert (AvIns u r' o' p v' ∈ AvIns t r o p v :: a_log st) as Hin' by (by right).
                   pose proof (ins_ge _ _ _ _ _ _ Hin) as Hge. destruct (decide (r = r')) as [<-|Hne].
                   --- pose proof (ins_once E _ r (ip_ser p) HI') as Ho. csimpl in Ho. rewrite Nat.eqb_refl in Ho. simpl in Ho.
                       rewrite Nat.eqb_refl in Ho. lia.
                   --- pose proof (ins_one_arena E _ r r' (ip_ser p) HI' Hne) as Ho. csimpl in Ho. rewrite !Nat.eqb_refl in Ho. 
                       destruct (r =? r'); lia.
             ++ rewrite lookup_insert_ne in Hx' by done. exists x'. split; [done|]. by left.
          -- intros r' g ->%elem_of_list_singleton [= <-] _. right. exists (AMake r o b p). rewrite set_stack_get, decide_True by done.
             split; [by left|done].
          -- by intros u r' ?%elem_of_nil.
          -- intros g ->%elem_of_list_singleton. eapply (aknows_next st _ t (AIns r o b p)); try done; simpl.
             ++ intros q ->%elem_of_list_singleton. by apply accesses_writes.
             ++ by intros q ?%elem_of_nil.
          -- by intros r' ps [=]%elem_of_list_singleton.
          -- intros e He. by right.
        * injection Hs as <-. eapply (ra_top st st); try done; simpl.
          -- by intros q ?%elem_of_nil.
          -- intros q ->%elem_of_list_singleton. eapply (ra_box _ _ _ H1); [exact Hf|by left].
      + (* AKill *)
        destruct (a_free st None p) as [st1|] eqn:Hfr; [|done]. injection Hs as <-.
        apply free_fields in Hfr as (E1&E2&E3&E4&E5&E6).
        destruct pan; eapply (ra_top st st1); try done; simpl; try (by intros q ?%elem_of_nil).
        intros q ->%elem_of_list_singleton. apply accesses_writes, Hbx. by left.
      + (* AMake *)
        destruct (a_read st p) as [v|] eqn:Hrd; [|done]. injection Hs as <-.
        assert (p ∈ a_set st r) as Hp.
        { pose proof (x_frames _ _ HI _ _ Hf) as (ty&_&_&_&[[? _]|Hn]); [done|]. unfold a_read in Hrd. by rewrite Hn in Hrd. }
        assert (writes evs (val p) (byt t)) as Hw by (by eapply (ra_ptr _ _ _ HR _ _ _ Hf); left).
        assert (RA st [] (evs ++ [(t, ATouch [(val p, false)])])) as H1.
        { apply ra_add; [done..|]. intros y ->%elem_of_list_singleton. by eapply set_read_ok. }
        eapply (ra_top st st); try done; simpl; try (by intros q ?%elem_of_nil).
        intros q ->%elem_of_list_singleton. apply (ra_ptr _ _ _ H1 _ _ _ Hf). by left.
      + (* ARel *)
        injection Hs as <-.
        destruct (on_live _ _ _ _ HI Hf eq_refl) as [Hlv Hlt].
        assert (RA st [] (evs ++ [(t, ATouch [(a_mem r, false)])])) as H1.
        { apply ra_add; [done..|]. intros y ->%elem_of_list_singleton. simpl. split_and!; [done..|]. by eexists. }
        assert (RA (a_set_stack st t (AArg r o b mine x :: kk)) [] (evs ++ [(t, ATouch [(a_mem r, false)])])) as H2.
        { destruct (aknows_old _ _ _ _ _ H1 Hf) as (_&_&Hp&Hb&_). eapply (ra_top st st); try done. }
        assert (has_lock r (ArenaModel.ARel r o b mine x) = 1) as Hl1 by (simpl; by rewrite Nat.eqb_refl).
        pose proof (ra_held _ _ _ HR _ _ _ Hf Hl1) as Hl.
        eapply ra_rel in H2; [|exact Hl|].
        * rewrite <- app_assoc in H2. exact H2.
        * intros u g. rewrite set_stack_get. pose proof (x_locks _ _ HI r) as Hsum. unfold alk in Hsum. rewrite Hl in Hsum.
          destruct (decide (t = u)) as [<-|Hne].
          -- intros [->|Hg]%elem_of_cons; [done|]. pose proof (msum_astack_ge (has_lock r) st t) as Hge. rewrite Hst in Hge.
             csimpl in Hge. rewrite Nat.eqb_refl in Hge. pose proof (lsum_ge (has_lock r) _ _ Hg). lia.
          -- intros Hg. pose proof (msum_astack_ge2 (has_lock r) st t u Hne) as Hge. rewrite Hst in Hge.
             csimpl in Hge. rewrite Nat.eqb_refl in Hge. pose proof (lsum_ge (has_lock r) _ _ Hg). lia.
      + (* AArg *)
        destruct (a_free_opt st (if mine then b else None)) as [st1|] eqn:Hfr; [|done]. injection Hs as <-.
        assert (a_threads st1 = a_threads st /\ a_next st1 = a_next st /\ a_nextr st1 = a_nextr st /\ a_locks st1 = a_locks st /\
          a_arenas st1 = a_arenas st /\ (forall e, e ∈ a_log st -> e ∈ a_log st1)) as (E1&E2&E3&E4&E5&E6).
        { unfold a_free_opt in Hfr. destruct (if mine then b else None); [by eapply free_fields|]. injection Hfr as <-. done. }
        set (st' := a_event (a_set_stack st1 t kk) (AvRet t r o b x)).
        assert (RA st' [(t, r)] (evs ++ [(t, ATouch (a_looks st t))])) as H1.
        { eapply (ra_upd st _ [] [(t, r)] _ t [AArg r o b mine x] [] kk); try done; simpl.
          - by rewrite E1.
          - lia.
          - intros r' x'. rewrite E5. intros Hx'. exists x'. split; [done|]. by left.
          - intros r' g ->%elem_of_list_singleton [= <-] _. left. by left.
          - by intros u r' ?%elem_of_nil.
          - by intros g ?%elem_of_nil.
          - by intros r' ps ?%elem_of_nil.
          - intros e He. right. by apply E6. }
        assert (forall ev, RA st' [(t, r)] ev -> RA st' [] (ev ++ [(t, AEnd r)])) as Hend.
        { intros ev Hev. eapply ra_end; [done|by intros u r' ?%elem_of_nil|]. intros u r' ->%elem_of_list_singleton. by left. }
        destruct x as [p|]; simpl.
        * rewrite cons_middle, app_assoc. rewrite (cons_middle (t, AGot p)), app_assoc. apply Hend.
          pose proof (x_frames _ _ HI _ _ Hf) as (ty&_&_&Hp&_). simpl in Hp.
          destruct (set_facts _ _ _ HI Hp) as (_&_&_&(u&o'&v&Hin)&_).
          eapply ra_get; [done| |].
          -- right. apply E6. exact Hin.
          -- apply (ra_ptr _ _ _ HL _ _ _ Hf). by left.
        * rewrite cons_middle, app_assoc. by apply Hend.
      + (* ADead [] *)
        injection Hs as <-. apply ra_event.
        assert (RA st [] (evs ++ [(t, ATouch [(a_data r, true); (a_mem r, true)])])) as H1.
        { apply ra_add; [done..|]. intros y Hy. apply elem_of_cons in Hy as [->|Hy%elem_of_list_singleton]; [|subst y]; by eapply (dead_ok st _ t r [] true). }
        eapply (ra_upd st _ [] [] _ t [ADead r []] [] kk); try done; simpl.
        * intros r' x' Hx'. exists x'. split; [done|]. by left.
        * by intros r' g ->%elem_of_list_singleton.
        * by intros u r' ?%elem_of_nil.
        * by intros g ?%elem_of_nil.
        * by intros r' ps ?%elem_of_nil.
      + (* ADead *)
        destruct (a_free st (Some r) p) as [st1|] eqn:Hfr; [|done]. injection Hs as <-.
        apply free_fields in Hfr as (E1&E2&E3&E4&E5&E6).
        eapply (ra_top st st1); try done; simpl.
        * by intros q ?%elem_of_nil.
        * intros q Hq. apply Hbx. by right.
        * intros r' ps' [= <- <-]. by eexists.
    - (* LConv *)
      simpl in Hs |- *. rewrite app_nil_r. destruct (a_stack st t) as [|[] kk] eqn:Hst; try done. destruct (_ && _); [|done].
      injection Hs as <-. eapply (ra_top st st); try done; by intros q' ?%elem_of_nil.
    - (* LPanic *)
      simpl in Hs. unfold a_step_panic in Hs. unfold a_does in HT, HA, HD |- *.
      destruct (a_stack st t) as [|f kk] eqn:Hst; [done|].
      assert (f ∈ a_stack st t) as Hf by (rewrite Hst; by left).
      assert (forall p, p ∈ a_boxes f -> accesses (evs ++ [(t, ATouch (a_looks st t))]) (val p) (byt t)) as Hbx.
      { intros p. by apply (ra_box _ _ _ HL). }
      destruct f as [| r o b|r w q| |r o b p|r o b p []| | |r o b mine [p|]|r [|p ps]]; try done.
      + injection Hs as <-. eapply (ra_top st st); try done; by intros q ?%elem_of_nil.
      + injection Hs as <-. eapply (ra_top st st); try done; by intros q' ?%elem_of_nil.
      + injection Hs as <-. eapply (ra_top st st); try done; by intros q ?%elem_of_nil.
      + injection Hs as <-. eapply (ra_top st st); try done; by intros q ?%elem_of_nil.
      + destruct (a_drops o mine); [|done]. injection Hs as <-. eapply (ra_top st st); try done; by intros q ?%elem_of_nil.
      + destruct (a_free st (Some r) p) as [st1|] eqn:Hfr; [|done]. injection Hs as <-.
        apply free_fields in Hfr as (E1&E2&E3&E4&E5&E6). apply ra_event.
        assert (RA st [] (evs ++ [(t, ATouch [(a_data r, true); (val p, true); (a_mem r, true)])])) as H1.
        { apply ra_add; [done..|]. intros y Hy. apply elem_of_cons in Hy as [->|Hy]; [|apply elem_of_cons in Hy as [->|Hy%elem_of_list_singleton]; [|subst y]].
          - by eapply (dead_ok st _ t r (p :: ps) true).
          - eapply box_write_ok; [done..|by left].
          - by eapply (dead_ok st _ t r (p :: ps) true). }
        eapply (ra_upd st _ [] [] _ t [ADead r (p :: ps)] [] kk); try done; simpl.
        * by rewrite E1.
        * lia.
        * intros r' x'. rewrite E5. intros Hx'. exists x'. split; [done|]. by left.
        * by intros r' g ->%elem_of_list_singleton.
        * by intros u r' ?%elem_of_nil.
        * by intros g ?%elem_of_nil.
        * by intros r' ps' ?%elem_of_nil.
    - (* LRead *)
      simpl in Hs. destruct (a_returned r p (a_log st)) eqn:Hret; [|done]. destruct (a_arenas st !! r) as [x|] eqn:Hx; [|done].
      destruct (a_read st p); [|done]. injection Hs as <-. apply returned_a in Hret as (u&o&b&Hret).
      simpl in HT |- *. assert (RA st [] (evs ++ [(t, ARead p); (t, AEnd r)])) as H1.
      { apply ra_read; [done..| |].
        - change [(t, ARead p); (t, AEnd r)] with ([(t, ARead p)] ++ [(t, AEnd r)]) in HT. rewrite app_assoc in HT. by eapply travel_prefix.
        - rewrite (a_set_some _ _ _ Hx). destruct (ret_in E _ _ _ _ _ _ _ HI Hret Hx) as (?&?&_). done. }
      by apply ra_event.
    - (* LDrop *)
      simpl in Hs, HD |- *. destruct (a_arenas st !! r) as [x|] eqn:Hx; [|done].
      destruct (a_ready st t && a_idle st r) eqn:Hid; [|done]. apply andb_true_iff in Hid as [_ Hid]. injection Hs as <-.
      rewrite cons_middle, app_assoc. rewrite cons_middle, app_assoc in HD. apply drops_prefix in HD.
      assert (live st r) as Hlv by (by eexists).
      assert (RA st [] (evs ++ [(t, ADrop r)])) as H1 by (by apply ra_quiet).
      pose proof (drop_knows _ _ _ _ _ Hid HD (ra_mem _ _ _ HR _ Hlv)) as K1.
      pose proof (drop_knows _ _ _ _ _ Hid HD (ra_data _ _ _ HR _ Hlv)) as K2.
      assert (forall p, p ∈ ar_set x -> accesses (evs ++ [(t, ADrop r)]) (val p) (byt t)) as K3.
      { intros p Hp. eapply drop_knows; [done..|]. apply (ra_val _ _ _ HR). by rewrite (a_set_some _ _ _ Hx). }
      set (st' := a_event _ _) in *.
      assert (RA st' [] (evs ++ [(t, ADrop r)])) as H2.
      { eapply (ra_upd st _ [] [] _ t [] [ADead r (ar_set x)] (a_stack st t)); try done; simpl.
        - intros r' x' Hx'. apply lookup_delete_Some in Hx' as [_ Hx']. exists x'. split; [done|]. by left.
        - by intros r' g ?%elem_of_nil.
        - by intros u r' ?%elem_of_nil.
        - intros g ->%elem_of_list_singleton. split_and!; try done; simpl.
          + by intros p ?%elem_of_nil.
          + by intros r' ps [= <- <-].
        - intros r' ps [= -> ->]%elem_of_list_singleton. by rewrite lookup_delete.
        - intros e He. by right. }
      apply ra_add; [done..|]. intros y Hy.
      assert (ADead r (ar_set x) ∈ a_stack st' t) as Hf.
      { change (a_stack st' t) with (a_stack (a_set_stack st t (ADead r (ar_set x) :: a_stack st t)) t). rewrite set_stack_get.
        rewrite decide_True by done. by left. }
      destruct (dead_ok st' _ t r _ false HI' H2 Hf) as [K4 K5].
      by apply elem_of_cons in Hy as [->|Hy%elem_of_list_singleton]; [|subst y].
  Qed.
End race.

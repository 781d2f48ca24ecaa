(** The Arena model when the user's types keep their contracts. *)
From stdpp Require Import gmap list numbers.
From Verif Require Import Base InternModel InternSpec InternInv InternStep ArenaModel ArenaSpec ArenaInv ArenaStep ArenaLaw.
Require Import ZifyBool ZifyNat ZifyN.

Section lawful.
  Context {V Q : Type} (E : ienv V Q).
  Context (HL : ilawful E) (HC : icoherent E).
  Implicit Types (st : astate V Q) (v d : V) (p : iptr) (o : aop V Q) (f g : aframe V Q) (t ty s r : nat)
    (e : aevent V Q) (l : list (aevent V Q)).
  Notation AInv := (AInv E).

  Lemma lawful_sound o : a_sound E o.
  Proof.
    intros v d Hs Ht Hm. unfold ins_match in Hm. apply andb_true_iff in Hm as [_ He].
    pose proof (il_sym _ HL _ _ He) as He'. destruct o as [u|w q|u|u]; simpl in *; subst.
    1,3,4: rewrite He', andb_true_r; unfold seen; rewrite (il_hash _ HL _ _ He), Nat.eqb_refl; done.
    assert (ie_qeq E (ie_borrow E w d) q = true) as Hq.
    { apply (il_qtrans _ HL _ (ie_borrow E w v)); [|by apply HC]. by rewrite (il_borrow_eq _ HL). }
    rewrite Hq, andb_true_r. unfold seen. rewrite <- (il_borrow_hash _ HL w d), (il_qhash _ HL _ _ Hq), Nat.eqb_refl. done.
  Qed.

  Definition absent_a v r l : Prop := forall p d, (p, d) ∈ a_stored r l -> ie_eq E d v = false.
  Definition found r o l p : Prop := exists d, (p, d) ∈ a_stored r l /\ a_asks E o d.
  Definition lframe st f : Prop :=
    match f with
    | AConv r w q => forall p d, (p, d) ∈ a_stored r (a_log st) -> ie_qeq E (ie_borrow E w d) q = false
    | AStore r o v _ => absent_a v r (a_log st) /\ a_asks E o v
    | AIns r o _ p => exists v, a_read st p = Some v /\ absent_a v r (a_log st) /\ a_asks E o v
    | AKill _ _ _ _ pn => pn = true
    | AMake r o _ p | ARel r o _ _ (AP p) | AArg r o _ _ (AP p) => found r o (a_log st) p
    | _ => True
    end.
  Definition lev l e : Prop :=
    match e with
    | AvRet _ r o _ (AP p) => found r o l p
    | _ => True
    end.
  Record LawInv st : Prop := {
    z_uniq : forall r, ForallOrdPairs (λ a b, ie_eq E b.2 a.2 = false) (a_stored r (a_log st));
    z_frames : forall t f, f ∈ a_stack st t -> lframe st f;
    z_log : forall e, e ∈ a_log st -> lev (a_log st) e;
  }.

  Lemma found_app r o es l p : found r o l p -> found r o (es ++ l) p.
  Proof. intros (d&Hd&?). exists d. split; [|done]. rewrite stored_app. apply elem_of_app. by right. Qed.

  Lemma lframe_stays st st' t fs fs' k es g :
    AInv st -> AInv st' -> atrans st st' t fs fs' k es -> aother st t k g -> aframe_ok E st g -> lframe st g -> lframe st' g.
  Proof.
    intros HI HI' Htr Hg Hok. pose proof (aother_same E st st' t fs fs' k es g) as Hsame.
    destruct g as [r o b|r o b|r w q|r o v b|r o b p|r o b p pn|r o b p|r o b m x|r o b m x|r ps]; simpl in *; try done.
    1,2,3: (destruct (Hsame r HI Htr Hg) as [Ha Hs]; [by rewrite Nat.eqb_refl|]); unfold absent_a; rewrite ?Hs; try done.
    - destruct Hok as (ty&v&_&_&(Hp&_)&_). intros (v'&Hr&?). exists v'. split; [|done].
      unfold a_read in *. rewrite Hp in Hr. simpl in Hr. rewrite (y_objs _ _ _ _ _ _ _ Htr (ip_ser p) _ Hp); [done|].
      pose proof (x_own _ _ HI (ip_ser p)) as Hx.
      pose proof (aother_sum st t fs k (own (ip_ser p)) _ (y_old _ _ _ _ _ _ _ Htr) Hg) as Hy. simpl in Hy.
      rewrite Nat.eqb_refl in Hy. pose proof (alive_le st (ip_ser p)). lia.
    - rewrite (y_log _ _ _ _ _ _ _ Htr). by apply found_app.
    - destruct x; [|done]. rewrite (y_log _ _ _ _ _ _ _ Htr). by apply found_app.
    - destruct x; [|done]. rewrite (y_log _ _ _ _ _ _ _ Htr). by apply found_app.
  Qed.

  Lemma amatch_asks o d : a_match E o d = true -> a_asks E o d.
  Proof. destruct o; simpl; by intros [_ ?]%andb_true_iff. Qed.
  Lemma asks_amatch o d : a_asks E o d -> a_match E o d = true.
  Proof.
    destruct o; simpl; intros H; rewrite H, andb_true_r; unfold seen; apply orb_true_iff; left; apply Nat.eqb_eq.
    1,3,4: symmetry; by apply (il_hash _ HL).
    rewrite <- (il_borrow_hash _ HL w d). symmetry. by apply (il_qhash _ HL).
  Qed.

  Lemma amove_law st t k fs fs' st' :
    AInv st -> LawInv st -> a_stack st t = fs ++ k -> amove E st t k fs fs' st' -> LawInv st'.
  Proof.
    intros HI HW Hst Hm. destruct (amove_ok _ _ _ _ _ _ _ HI Hst Hm) as (es&Htr&HI').
    assert (forall f, f ∈ fs -> aframe_ok E st f) as Hfr.
    { intros f Hf. apply (x_frames _ _ HI t). rewrite Hst. apply elem_of_app. by left. }
    assert (forall f, f ∈ fs -> lframe st f) as Hlf.
    { intros f Hf. apply (z_frames _ HW t). rewrite Hst. apply elem_of_app. by left. }
    assert (forall r o b h, AGet r o b ∈ fs -> a_cands st h (a_set st r) = [] ->
      forall p d, (p, d) ∈ a_stored r (a_log st) -> h d = false) as Hmiss.
    { intros r o b h Hin Hc p d. destruct (Hfr _ Hin) as (ty&(x&Hx&_)&_). apply (cands_nil_miss E st r h p d HI); [by exists x|done]. }
    constructor.
    - intros r. pose proof (z_uniq _ HW r) as Hu.
      rewrite (y_log _ _ _ _ _ _ _ Htr), stored_app.
      assert (a_stored r es = [] \/ exists o b p v, fs = [AIns r o b p] /\ a_stored r es = [(p, v)] /\ a_read st p = Some v /\
        forall p' d, (p', d) ∈ a_stored r (a_log st) -> ins_match E v d = false) as [->|(o&b&p&v&->&->&Hr&Hn)]; [|done|].
      + pose proof (y_log _ _ _ _ _ _ _ Htr) as Hlog. clear Htr.
        destruct Hm; simpl in Hlog;
          try (match goal with H : a_free _ _ _ = Some _ |- _ => rewrite (free_log _ _ _ _ H) in Hlog end);
          try (match goal with H : a_alloc _ _ _ _ = Some _ |- _ => destruct (alloc_log E _ _ _ _ _ H) as [Hlog' _]; rewrite Hlog' in Hlog; clear Hlog' end).
        all: try (apply (app_inv_tail (a_log st) []) in Hlog; subst es; by left).
        all: try (match type of Hlog with ?e :: _ = _ => apply (app_inv_tail (a_log st) [e]) in Hlog; subst es end; try (by left)).
        all: try (match type of Hlog with ?e :: ?e' :: _ = _ => apply (app_inv_tail (a_log st) [e; e']) in Hlog; subst es end; try (by left)).
        simpl. destruct (Nat.eqb_spec r0 r) as [->|]; [|by left]. right. exists o, b, p, v. split_and!; [done..|].
        intros p' d. apply (cands_nil_miss E st r (ins_match E v) p' d HI); [by exists x|]. unfold a_set. by rewrite H0.
      + simpl. constructor; [|done]. apply List.Forall_forall. intros [p' d] Hin%elem_of_list_In. simpl.
        specialize (Hn p' d Hin). unfold ins_match in Hn.
        destruct (ie_eq E d v) eqn:He; [|done]. pose proof (il_sym _ HL _ _ He) as He'.
        rewrite He', andb_true_r in Hn. unfold seen in Hn. by rewrite (il_hash _ HL _ _ He), Nat.eqb_refl in Hn.
    - intros u f Hf. destruct (aother_in st st' t fs' k (y_new _ _ _ _ _ _ _ Htr) u f Hf) as [[-> Hin]|Ho].
      2: { destruct (aother_was st t fs k Hst f Ho) as [u' Hu]. eapply (lframe_stays st); try done.
           - by apply (x_frames _ _ HI u').
           - by apply (z_frames _ HW u'). }
      clear Hf. destruct Hm; try (apply elem_of_list_singleton in Hin; subst f); try (by apply elem_of_nil in Hin); simpl; try done.
      + (* hit *) destruct (Hfr (AGet r o b)) as (ty&(x&Hx&_)&_); [by left|].
        unfold a_set in H. rewrite Hx in H. destruct (cands_stored E _ _ _ _ _ HI Hx H) as (d&Hd&Hmt&_).
        exists d. split; [done|by apply amatch_asks].
      + (* miss *) split.
        * intros p d Hin. assert (a_match E o d = false) as Hn by (eapply (Hmiss r o b); [by left|done|done]).
          destruct (ie_eq E d v) eqn:He; [|done]. rewrite asks_amatch in Hn; [done|]. by destruct H0; subst o.
        * pose proof (il_refl _ HL v). by destruct H0; subst o.
      + intros p d Hin. assert (a_match E (ARef w q) d = false) as Hn by (eapply (Hmiss r (ARef w q) b); [by left|done|done]).
        destruct (ie_qeq E _ q) eqn:He; [|done]. by rewrite asks_amatch in Hn.
      + destruct (Hfr (AGet r (ABox v) (Some p))) as (ty&_&_&p'&[= <-]&(Hp&_)); [by left|].
        exists v. split_and!.
        * unfold a_read. simpl. by rewrite Hp.
        * intros p' d Hin. assert (a_match E (ABox v) d = false) as Hn by (eapply (Hmiss r (ABox v) (Some p)); [by left|done|done]).
          destruct (ie_eq E d v) eqn:He; [|done]. by rewrite asks_amatch in Hn.
        * apply (il_refl _ HL).
      + (* conversion *) pose proof (Hlf (AConv r w q) ltac:(by left)) as Hc. simpl in Hc. split; [|by apply HC].
        intros p d Hin. destruct (ie_eq E d v) eqn:He; [|done]. specialize (Hc p d Hin).
        apply stored_in in Hin as (t'&o'&Hin). apply (x_log _ _ HI) in Hin as (_&_&_&Hin).
        destruct (Hin x H0) as (_&_&_&Hdt). rewrite <- (il_borrow_eq _ HL w) in He by congruence.
        rewrite (il_qtrans _ HL _ _ _ He (HC _ _ _ H)) in Hc. done.
      + unfold absent_a. rewrite (free_log _ _ _ _ H). apply (Hlf (AStore r o v (Some q))). by left.
      + destruct (Hlf (AStore r o v None)) as [Ha Hk]; [by left|]. exists v.
        destruct (alloc_log E _ _ _ _ _ H) as [Hlog _]. unfold absent_a. rewrite Hlog. split_and!; [|done|done].
        destruct (a_alloc_spec E _ _ _ _ _ HI H) as (->&->&_). unfold a_read. simpl. by rewrite lookup_insert.
      + (* insert *) destruct (Hlf (AIns r o b p)) as (v'&Hr&_&Hk); [by left|]. assert (v' = v) as -> by congruence.
        exists v. split; [|done]. simpl. rewrite Nat.eqb_refl. by left.
      + (* present *) exfalso. destruct (Hlf (AIns r o b p)) as (v'&Hr&Ha&Hk); [by left|]. assert (v' = v) as -> by congruence.
        destruct (cands_stored E _ _ _ _ _ HI H0 H1) as (d&Hd&Hmt&_). apply Ha in Hd. unfold ins_match in Hmt.
        apply andb_true_iff in Hmt as [_ Hmt]. apply (il_sym _ HL) in Hmt. congruence.
      + specialize (Hlf (AKill r o b p false) ltac:(by left)). done.
      + apply (Hlf (AMake r o b p)). by left.
      + apply (Hlf (ARel r o b m x)). by left.
    - intros e. pose proof (y_log _ _ _ _ _ _ _ Htr) as Hlog. rewrite Hlog.
      assert (forall e, e ∈ a_log st -> lev (es ++ a_log st) e) as Hold.
      { intros e' He. pose proof (z_log _ HW e' He) as H. destruct e' as [|? ? ? ? [p|]| | | | | |]; try done. by apply found_app. }
      intros [He|He]%elem_of_app; [|by apply Hold]. destruct e as [|u r o b [p|]| | | | | |]; try done. simpl.
      apply found_app. clear Htr.
      destruct Hm; simpl in Hlog;
        try (match goal with H : a_free _ _ _ = Some _ |- _ => rewrite (free_log _ _ _ _ H) in Hlog end);
        try (match goal with H : a_alloc _ _ _ _ = Some _ |- _ => destruct (alloc_log E _ _ _ _ _ H) as [Hlog' _]; rewrite Hlog' in Hlog; clear Hlog' end).
      all: try (apply (app_inv_tail (a_log st) []) in Hlog; subst es; by apply elem_of_nil in He).
      all: try (match type of Hlog with ?e1 :: _ = _ => apply (app_inv_tail (a_log st) [e1]) in Hlog; subst es end;
        apply elem_of_list_singleton in He; try done).
      all: try (match type of Hlog with ?e1 :: ?e2 :: _ = _ => apply (app_inv_tail (a_log st) [e1; e2]) in Hlog; subst es end;
        apply elem_of_cons in He as [He|He%elem_of_list_singleton]; try done).
      + injection He as -> -> -> -> <-. apply (Hlf (AArg r0 o0 (Some p0) true (AP p))). by left.
      + injection He as -> -> -> -> <-. apply (Hlf (AArg r0 o0 b0 m (AP p))). by left.
  Qed.

  Lemma lawinv_init : LawInv ainit.
  Proof.
    constructor; simpl; [intros; constructor| |].
    - intros t f H. unfold a_stack in H. simpl in H. rewrite lookup_empty in H. by apply elem_of_nil in H.
    - intros e H. by apply elem_of_nil in H.
  Qed.
  Theorem arun_law ls : exists st, run (astep E) ainit ls = Some st /\ AInv st /\ LawInv st.
  Proof.
    destruct (sound_run E ls) as [st Hr]; [intros; apply lawful_sound|]. exists st. split; [done|].
    assert (forall ls st st', AInv st -> LawInv st -> run (astep E) st ls = Some st' -> AInv st' /\ LawInv st') as H.
    { clear ls st Hr. intros ls. induction ls as [|l ls IH]; intros st st' HI HW; simpl; [by intros [= <-]|].
      unfold exec. destruct (astep E st l) as [st1| | |] eqn:Hs; try done; [|by apply IH..].
      apply IH; [by eapply astep_inv|]. apply astep_move in Hs as (t&fs&fs'&k&Hst&Hm&_). by eapply amove_law. }
    apply (H ls ainit); [apply ainv_init|apply lawinv_init|done].
  Qed.
End lawful.

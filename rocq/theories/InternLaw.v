(** What holds of the Intern model when the user's types keep their contracts. *)
From stdpp Require Import gmap list numbers.
From Verif Require Import Base InternModel InternSpec InternInv InternStep.
Require Import ZifyBool ZifyNat ZifyN.

Section law.
  Context {V Q : Type} (E : ienv V Q).
  Context (HL : ilawful E).
  Implicit Types (st : istate V Q) (v d : V) (p : iptr) (o : iop V Q) (f g : frame V Q) (t ty s : nat).
  Implicit Types (ins : list (iptr * V)) (l : list (ievent V Q)).
  Notation slot := (slot E).
  Notation op_ty := (op_ty E).
  Notation IInv := (IInv E).

  (** Nothing in [ins] is Eq to [v]. *)
  Definition absent v ins : Prop := forall p d, (p, d) ∈ ins -> ie_eq E d v = false.
  (** What a call's result says about the values present when it took effect. *)
  Definition res_law o (r : ires) ins : Prop :=
    match r with
    | RPtr p => icoherent E -> exists d, (p, d) ∈ ins /\ asks E o d
    | RBool b => b = true <-> exists p d, (p, d) ∈ ins /\ asks E o d
    | RNum n => (exists ty, o = OLen ty) /\ n = length ins
    | RUnit => exists ty, o = OClear ty
    | RPanic => True
    end.
  Definition frame_law st f : Prop :=
    match f with
    | FWait _ _ | FGet _ _ => True
    | FConv ty w q => forall p d, (p, d) ∈ inserted E ty (i_log st) -> ie_qeq E (ie_borrow E w d) q = false
    | FStore o v => icoherent E -> absent v (inserted E (op_ty o) (i_log st)) /\ asks E o v
    | FIns o p => exists v, points E st (op_ty o) p v true /\ (icoherent E ->
        absent v (inserted E (op_ty o) (i_log st)) /\ asks E o v)
    | FDup o _ r | FDone o r => res_law o r (inserted E (op_ty o) (i_log st))
    end.
  Definition ev_law (e : ievent V Q) l : Prop :=
    match e with
    | EvIns _ o p v => absent v (inserted E (op_ty o) l) /\ (icoherent E -> asks E o v)
    | EvRet _ o r => res_law o r (inserted E (op_ty o) l)
    | EvRead p v => exists t o, EvRet t o (RPtr p) ∈ l
    | EvClr _ => True
    end.
  Record LInv st : Prop := {
    w_uniq : forall ty, ForallOrdPairs (λ a b, ie_eq E b.2 a.2 = false) (inserted E ty (i_log st));
    w_frames : forall t f, f ∈ get_stack st t -> frame_law st f;
    w_log : each_suffix ev_law (i_log st);
  }.

  Lemma linv_init : LInv iinit.
  Proof.
    constructor; simpl; [intros; constructor| |done].
    intros t f H. unfold get_stack in H. simpl in H. rewrite lookup_empty in H. by apply elem_of_nil in H.
  Qed.

  Lemma lk_le st s : lk st s <= 1.
  Proof. unfold lk. destruct (i_locks st !! s); lia. Qed.

  Section move.
    Context (st st' : istate V Q) (t : nat) (fs fs' k : list (frame V Q)).
    Context (HI : IInv st) (HI' : IInv st') (HW : LInv st) (Htr : trans E st st' t fs fs' k).

    Lemma other_same g : other st t k g -> (forall o b, g <> FWait o b) ->
      inserted E (frame_ty E g) (i_log st') = inserted E (frame_ty E g) (i_log st).
    Proof.
      intros Hg Hw. destruct Htr.
      assert (held E (slot (frame_ty E g)) g = 1) as H1.
      { unfold held. destruct g; try (rewrite Nat.eqb_refl; done). by edestruct Hw. }
      pose proof (other_sum E st st' t fs fs' k tr_old tr_own tr_held tr_objs (held E (slot (frame_ty E g))) g Hg) as H2.
      pose proof (other_sum' E st st' t fs fs' k tr_old tr_new tr_own tr_held tr_objs (held E (slot (frame_ty E g))) g Hg) as H3.
      rewrite (v_locks _ _ HI) in H2. rewrite (v_locks _ _ HI') in H3.
      pose proof (lk_le st (slot (frame_ty E g))). pose proof (lk_le st' (slot (frame_ty E g))).
      destruct (tr_sets (frame_ty E g)) as [?|[?|?]]; [done|lia|lia].
    Qed.

    Lemma other_law g : other st t k g -> frame_law st g -> frame_law st' g.
    Proof.
      intros Hg. pose proof (other_same g Hg) as Hs.
      destruct g as [o b|o b|ty w q|o v|o p|o b r|o r]; simpl in *; try done; rewrite Hs by done; try done.
      intros (v&Hp&?). exists v. split; [|done]. destruct Htr. by apply (upd_points E st st' t fs fs' k).
    Qed.

    Lemma move_law :
      (forall f, f ∈ fs' -> frame_law st' f) ->
      (i_log st' = i_log st \/ exists e, i_log st' = e :: i_log st /\ ev_law e (i_log st) /\
        (forall t o p v, e <> EvIns t o p v) \/
        exists t o p v, e = EvIns t o p v /\ i_log st' = e :: i_log st /\ ev_law e (i_log st)) ->
      LInv st'.
    Proof.
      intros Hfs Hlog. constructor.
      - intros ty. pose proof (w_uniq _ HW ty) as Hu. destruct Hlog as [->|(e&[(->&_&Hne)|(u&o&p&v&->&->&Ha&_)])]; [done| |].
        + simpl. destruct e as [? o p v|u|? o r|p v]; try done; [by edestruct Hne|]. destruct (u =? ty); [constructor|done].
        + simpl. destruct (Nat.eqb_spec (op_ty o) ty) as [<-|]; [|done]. constructor; [|done].
          apply List.Forall_forall. intros [p' d] Hin%elem_of_list_In. simpl. by apply (Ha p').
      - intros u g Hg. destruct Htr. destruct (other_in st st' t fs' k tr_new u g Hg) as [[-> Hin]|Ho]; [by apply Hfs|].
        apply other_law; [done|]. destruct (other_was st t fs k tr_old g Ho) as [u' Hu]. by eapply (w_frames _ HW).
      - pose proof (w_log _ HW). destruct Hlog as [->|(e&[(->&?&_)|(u&o&p&v&_&->&?)])]; [done|by split|by split].
    Qed.
  End move.

  Lemma key_ty st ty p d : IInv st -> (p, d) ∈ inserted E ty (i_log st) -> points E st ty p d true.
  Proof. intros HI (t&o&Hin&<-)%inserted_in. by apply (v_log _ _ HI) in Hin as [? _]. Qed.
  Lemma cand_ins st (h : V -> bool) ty p :
    IInv st -> p ∈ candidates st h (set_of E st ty) -> exists d, (p, d) ∈ inserted E ty (i_log st) /\ h d = true /\ ie_ty E d = ty.
  Proof.
    intros HI (Hp&d&Hr&Hh)%cand_in. destruct (set_points E st ty p HI Hp) as (d'&Hpt&Hin).
    pose proof (points_read E _ _ _ _ _ Hpt). assert (d' = d) as -> by congruence.
    exists d. split_and!; [done|done|]. apply Hpt.
  Qed.
  Lemma cand_nil st (h : V -> bool) ty p d :
    IInv st -> candidates st h (set_of E st ty) = [] -> (p, d) ∈ inserted E ty (i_log st) -> h d = false.
  Proof.
    intros HI Hc Hin. destruct (h d) eqn:Hh; [|done].
    assert (p ∈ candidates st h (set_of E st ty)) as Hp.
    { apply cand_in. split.
      - rewrite (v_current _ _ HI). apply elem_of_list_fmap. by exists (p, d).
      - exists d. split; [|done]. eapply points_read. by eapply key_ty. }
    rewrite Hc in Hp. by apply elem_of_nil in Hp.
  Qed.
  Lemma match_asks o d : key_match E o d = true -> ie_ty E d = op_ty o -> asks E o d.
  Proof.
    intros H Hty. destruct o; simpl in *; try done; apply andb_true_iff in H as [_ ?]; done.
  Qed.
  Lemma asks_match o d : asks E o d -> key_match E o d = true.
  Proof.
    destruct o; simpl; try done; intros [_ H]; rewrite H; rewrite andb_true_r; unfold seen; apply orb_true_iff; left; apply Nat.eqb_eq.
    1-3: symmetry; by apply (il_hash _ HL).
    all: rewrite <- (il_borrow_hash _ HL w d); symmetry; by apply (il_qhash _ HL).
  Qed.

  Lemma move_linv st t fs fs' k st1 :
    IInv st -> LInv st -> get_stack st t = fs ++ k -> move E st t fs fs' st1 -> LInv (set_stack st1 t (fs' ++ k)).
  Proof.
    intros HI HW Hst Hm. destruct (move_ok E st t fs fs' k st1 HI Hst Hm) as [Htr HI'].
    assert (forall f, f ∈ fs -> frame_ok E st f) as Hfr.
    { intros f Hf. apply (v_frames _ _ HI t). rewrite Hst. apply elem_of_app. by left. }
    assert (forall f, f ∈ fs -> frame_law st f) as Hlaw.
    { intros f Hf. apply (w_frames _ HW t). rewrite Hst. apply elem_of_app. by left. }
    apply (move_law st _ t fs fs' k HI HI' HW Htr).
    - (* frames *)
      intros f Hf. destruct Hm; try (apply elem_of_list_singleton in Hf; subst f); simpl; try done.
      + (* MLen *) split; [by exists ty|]. rewrite locked_set_of, (v_current _ _ HI). by rewrite fmap_length.
      + by exists ty.
      + destruct (cand_ins _ _ _ _ HI H) as (d&?&?&?). exists d. split; [done|by apply match_asks].
      + destruct (cand_ins _ _ _ _ HI H) as (d&?&?&?). exists d. split; [done|by apply match_asks].
      + destruct (cand_ins _ _ _ _ HI H) as (d&?&?&?). split; [|done]. intros _. exists p, d.
        split; [done|]. by apply (match_asks (OIs ty w q)).
      + (* MMiss *) intros _. split.
        * intros p d Hin. pose proof (cand_nil _ _ _ _ _ HI H Hin) as Hn.
          destruct (ie_eq E d v) eqn:He; [|done]. rewrite asks_match in Hn; [done|].
          pose proof (key_ty _ _ _ _ HI Hin) as (_&_&Ht). by destruct H0; subst o.
        * pose proof (il_refl _ HL v). destruct H0; subst o; simpl; done.
      + (* MMissBox *)
        destruct (Hfr (FGet (OBox v) (Some p))) as [(p'&[= <-]&Hp) _]; [by left|].
        destruct Hp as (Hx&Hmt&Ht). exists v. unfold ileak in H0. rewrite Hx in H0. simpl in H0. injection H0 as <-.
        split; simpl; [|intros _; split_and!].
        * unfold points. simpl. by rewrite lookup_insert.
        * intros p' d Hin. pose proof (cand_nil _ _ _ _ _ HI H Hin) as Hn.
          destruct (ie_eq E d v) eqn:He; [|done]. rewrite asks_match in Hn; [done|].
          pose proof (key_ty _ _ _ _ HI Hin) as (_&_&Ht'). done.
        * done.
        * apply (il_refl _ HL).
      + (* MMissRef *) intros p d Hin. pose proof (cand_nil _ _ _ _ _ HI H Hin) as Hn.
        destruct (ie_qeq E _ q) eqn:He; [|done]. rewrite asks_match in Hn; [done|].
        by pose proof (key_ty _ _ _ _ HI Hin) as (_&_&Ht').
      + (* MIsMiss *) split; [done|]. intros (p&d&Hin&Ha). pose proof (cand_nil _ _ _ _ _ HI H Hin) as Hn.
        rewrite asks_match in Hn; done.
      + (* MConv *) intros HC. split; [|split; [done|by apply HC]]. intros p d Hin.
        specialize (Hlaw (FConv ty w q)). simpl in Hlaw. rewrite elem_of_list_singleton in Hlaw.
        specialize (Hlaw eq_refl p d Hin). destruct (ie_eq E d v) eqn:He; [|done].
        pose proof (key_ty _ _ _ _ HI Hin) as (_&_&Ht').
        rewrite <- (il_borrow_eq _ HL w) in He by congruence.
        rewrite (il_qtrans _ HL _ _ _ He (HC _ _ _ H)) in Hlaw. done.
      + (* MStore *)
        destruct (Hfr (FStore o v)) as [Hty Hs]; [by left|].
        assert (frame_law st (FStore o v)) as Ha by (apply Hlaw; by left).
        destruct (trans_alloc E st t a v true st1 p [FStore o v] [FIns o p] k HI H Hst) as (_&Hp&_); [done|done|].
        exists v. split; [rewrite <- Hty; exact Hp|].
        destruct (ialloc_spec E _ _ _ _ _ _ HI H) as (->&_). simpl. done.
      + (* MInsert *)
        destruct (Hlaw (FIns o p)) as (v'&Hp&Ha); [by left|]. apply points_read in Hp.
        assert (v' = v) as -> by congruence. intros HC. exists v. rewrite Nat.eqb_refl. split; [by left|]. by apply Ha.
      + (* MPresent *)
        destruct (Hlaw (FIns o p)) as (v'&Hp&Ha); [by left|]. apply points_read in Hp.
        assert (v' = v) as -> by congruence. intros HC. destruct (cand_ins _ _ _ _ HI H0) as (d&Hin&Hd&Ht).
        destruct (Ha HC) as [Ha' _]. apply Ha' in Hin. unfold ins_match in Hd. apply andb_true_iff in Hd as [_ Hd].
        apply (il_sym _ HL) in Hd. congruence.
      + (* MFree *) destruct (Hfr (FDup o (Some p) r)) as (_&_); [by left|]. 
        unfold ifree in H. destruct (i_objs st !! ip_ser p) as [x|]; [|done]. destruct (io_leaked x); [done|].
        injection H as <-. simpl. apply (Hlaw (FDup o (Some p) r)). by left.
      + apply (Hlaw (FDup o None r)). by left.
      + by apply elem_of_nil in Hf.
    - destruct Hm; simpl; try (left; done).
      + left. by destruct (ialloc_spec E _ _ _ _ _ _ HI H) as (->&_).
      + right. exists (EvClr ty). left. by split_and!.
      + left. unfold ileak in H0. destruct (i_objs st !! ip_ser p) as [x|]; [|done]. destruct (io_leaked x); [done|].
        by injection H0 as <-.
      + left. by destruct (ialloc_spec E _ _ _ _ _ _ HI H) as (->&_).
      + destruct (Hlaw (FIns o p)) as (v'&Hp&Ha); [by left|]. apply points_read in Hp.
        assert (v' = v) as -> by congruence. right. exists (EvIns t o p v). right. exists t, o, p, v.
        split_and!; [done|done|]. simpl. split; [|intros HC; by apply Ha]. intros p' d Hin.
        pose proof (cand_nil _ _ _ _ _ HI H0 Hin) as Hn. destruct (ie_eq E d v) eqn:He; [|done].
        unfold ins_match, seen in Hn. rewrite (il_hash _ HL _ _ He), Nat.eqb_refl in Hn. simpl in Hn.
        apply (il_sym _ HL) in He. congruence.
      + left. unfold ifree in H. destruct (i_objs st !! ip_ser p) as [x|]; [|done]. destruct (io_leaked x); [done|].
        by injection H as <-.
      + right. exists (EvRet t o r). left. split_and!; [done| |done]. apply (Hlaw (FDone o r)). by left.
  Qed.

  Lemma istep_linv st (l : ilabel V Q) st' : IInv st -> LInv st -> istep E st l = Next st' -> LInv st'.
  Proof.
    intros HI HW [(p&v&Hr&?&_&->)|(t&fs&fs'&k&st1&Hst&Hm&->&_&_)]%istep_move.
    - destruct HW. constructor; try done. simpl. split; [|done]. by apply returned_in in Hr.
    - by eapply move_linv.
  Qed.
  Theorem irun_linv st ls st' : IInv st -> LInv st -> run (istep E) st ls = Some st' -> LInv st'.
  Proof.
    revert st. induction ls as [|l ls IH]; intros st HI HW; simpl; [by intros [= ->]|].
    unfold exec. destruct (istep E st l) as [st1| | |] eqn:Hs; try done; [|by apply IH..].
    apply IH; [by eapply istep_inv|by eapply istep_linv].
  Qed.
End law.

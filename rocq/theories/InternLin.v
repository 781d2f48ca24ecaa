(** The model of [Intern] does what the atomic interner of SetSpec.v does. *)
From stdpp Require Import gmap list numbers.
From Verif Require Import Base InternModel InternSpec InternInv InternStep InternLaw SetSpec.
Require Import ZifyBool ZifyNat ZifyN.

Section lin.
  Context {V Q : Type} (E : ienv V Q).
  Context (HL : ilawful E) (HC : icoherent E) (HZ : zst_eq E).
  Implicit Types (st : istate V Q) (a : sset V Q) (v d : V) (p : iptr) (o : iop V Q) (f : frame V Q) (t ty s : nat).
  Notation op_ty := (op_ty E).
  Notation IInv := (IInv E).
  Notation LInv := (LInv E).

  (** A call and, if it has taken effect, its result. *)
  Definition absf f : iop V Q * option ires :=
    match f with
    | FWait o _ | FGet o _ | FStore o _ | FIns o _ | FDup o _ _ => (o, None)
    | FConv ty w q => (ORef ty w q, None)
    | FDone o r => (o, match r with RPanic => None | _ => Some r end)
    end.
  Definition insg s f : nat := match f with FIns _ p => box_is s (Some p) | _ => 0 end.
  Definition lko st s : nat :=
    match i_objs st !! s with Some x => if io_leaked x then 1 else 0 | None => 0 end.
  Definition cntm s (l : list (iptr * V)) : nat := lsum (λ x, box_is s (Some x.1)) l.

  Definition dup_ok o (r : ires) : Prop :=
    match r with RPtr _ => (forall ty w q, o <> OIs ty w q) | RPanic => True | _ => False end.

  Record Sim st a : Prop := {
    m_vals : forall ty, of_type E ty (ss_vals a) = inserted E ty (i_log st);
    m_sub : forall x, x ∈ ss_vals a -> x ∈ ss_made a;
    m_made : forall p v, (p, v) ∈ ss_made a -> points E st (ie_ty E v) p v true;
    m_calls : forall t, calls a t = absf <$> get_stack st t;
    m_ret : forall t o p, EvRet t o (RPtr p) ∈ i_log st -> exists v, (p, v) ∈ ss_made a;
    m_done : forall t o p, FDone o (RPtr p) ∈ get_stack st t -> exists v, (p, v) ∈ ss_made a;
    m_dup : forall t o b r, FDup o b r ∈ get_stack st t -> dup_ok o r;
    m_cnt : forall s, msum (lsum (insg s)) (i_threads st) + cntm s (ss_made a) <= lko st s;
  }.

  Lemma sim_init : Sim iinit sinit.
  Proof.
    constructor; simpl; try done.
    - intros p v H. by apply elem_of_nil in H.
    - intros t o p H. by apply elem_of_nil in H.
    - intros t o p H. unfold get_stack in H. simpl in H. rewrite lookup_empty in H. by apply elem_of_nil in H.
    - intros t o b r H. unfold get_stack in H. simpl in H. rewrite lookup_empty in H. by apply elem_of_nil in H.
  Qed.

  Lemma calls_put a t k u : calls (put_calls a t k) u = if decide (t = u) then k else calls a u.
  Proof.
    unfold calls. simpl. destruct (decide (t = u)) as [->|]; [by rewrite lookup_insert|by rewrite lookup_insert_ne].
  Qed.
  Lemma of_type_in ty l p v : (p, v) ∈ of_type E ty l <-> (p, v) ∈ l /\ ie_ty E v = ty.
  Proof.
    unfold of_type. rewrite !elem_of_list_In, List.filter_In. simpl. split.
    - intros [? ?%Nat.eqb_eq]. done.
    - intros [? ?]. split; [done|]. by apply Nat.eqb_eq.
  Qed.
  Lemma of_not_same ty l : of_type E ty (not_of_type E ty l) = [].
  Proof.
    induction l as [|x l IH]; simpl; [done|]. destruct (ie_ty E x.2 =? ty) eqn:Hx; simpl; [done|]. by rewrite Hx.
  Qed.
  Lemma of_not_other ty u l : ty <> u -> of_type E u (not_of_type E ty l) = of_type E u l.
  Proof.
    intros Hne. induction l as [|x l IH]; simpl; [done|]. destruct (Nat.eqb_spec (ie_ty E x.2) ty) as [Hx|Hx]; simpl.
    - rewrite Hx. apply Nat.eqb_neq in Hne. by rewrite Hne.
    - by rewrite IH.
  Qed.
  Lemma vals_in st a p v : Sim st a -> (p, v) ∈ ss_vals a <-> (p, v) ∈ inserted E (ie_ty E v) (i_log st).
  Proof. intros HS. rewrite <- (m_vals _ _ HS), of_type_in. naive_solver. Qed.
  Lemma ins_vals st a ty p v : IInv st -> Sim st a -> (p, v) ∈ inserted E ty (i_log st) -> (p, v) ∈ ss_vals a /\ ie_ty E v = ty.
  Proof. intros HI HS H. rewrite <- (m_vals _ _ HS), of_type_in in H. done. Qed.

  Lemma sim_upd st a st' a' t fs fs' k :
    IInv st -> Sim st a -> trans E st st' t fs fs' k ->
    (forall u, calls a' u = if decide (t = u) then absf <$> (fs' ++ k) else calls a u) ->
    (forall ty, of_type E ty (ss_vals a') = inserted E ty (i_log st')) ->
    (forall x, x ∈ ss_vals a' -> x ∈ ss_made a') ->
    (forall x, x ∈ ss_made a -> x ∈ ss_made a') ->
    (forall p v, (p, v) ∈ ss_made a' -> (p, v) ∈ ss_made a \/ points E st' (ie_ty E v) p v true) ->
    (forall e, e ∈ i_log st' -> e ∈ i_log st \/ forall u o p, e = EvRet u o (RPtr p) -> exists v, (p, v) ∈ ss_made a') ->
    (forall o p, FDone o (RPtr p) ∈ fs' -> exists v, (p, v) ∈ ss_made a') ->
    (forall o b r, FDup o b r ∈ fs' -> dup_ok o r) ->
    (forall s, lsum (insg s) fs' + cntm s (ss_made a') + lko st s <= lsum (insg s) fs + cntm s (ss_made a) + lko st' s) ->
    Sim st' a'.
  Proof.
    intros HI HS Htr Hcalls Hvals Hsub Hmono Hmade Hlog Hdone Hdup Hcnt. pose proof Htr as []. constructor; try done.
    - intros p v [Hin|]%Hmade; [|done]. apply (upd_points E st st' t fs fs' k); try done. by apply (m_made _ _ HS).
    - intros u. rewrite Hcalls, (stack_upd st st' t _ u tr_new). destruct (decide (t = u)); [done|]. apply (m_calls _ _ HS).
    - intros u o p [Hin|H]%Hlog; [|by eapply H]. destruct (m_ret _ _ HS u o p Hin) as [v ?]. exists v. by apply Hmono.
    - intros u o p Hin. destruct (other_in st st' t fs' k tr_new u _ Hin) as [[_ H]|H]; [by eapply Hdone|].
      destruct (other_was st t fs k tr_old _ H) as [u' Hu]. destruct (m_done _ _ HS u' o p Hu) as [v ?]. exists v. by apply Hmono.
    - intros u o b r Hin. destruct (other_in st st' t fs' k tr_new u _ Hin) as [[_ H]|H]; [by eapply Hdup|].
      destruct (other_was st t fs k tr_old _ H) as [u' Hu]. by apply (m_dup _ _ HS u' o b r Hu).
    - intros s. pose proof (msum_stack (insg s) st st' t _ tr_new) as H. rewrite tr_old, !lsum_app in H.
      pose proof (m_cnt _ _ HS s). specialize (Hcnt s). lia.
  Qed.

  (** The abstract state does not change but for the calls. *)
  Lemma sim_calls st a st' t fs fs' k :
    IInv st -> Sim st a -> trans E st st' t fs fs' k ->
    (forall ty, inserted E ty (i_log st') = inserted E ty (i_log st)) ->
    (forall e, e ∈ i_log st' -> e ∈ i_log st \/ forall u o p, e = EvRet u o (RPtr p) -> exists v, (p, v) ∈ ss_made a) ->
    (forall o p, FDone o (RPtr p) ∈ fs' -> exists v, (p, v) ∈ ss_made a) ->
    (forall o b r, FDup o b r ∈ fs' -> dup_ok o r) ->
    (forall s, lsum (insg s) fs' + lko st s <= lsum (insg s) fs + lko st' s) ->
    Sim st' (put_calls a t (absf <$> (fs' ++ k))) /\ (absf <$> fs' = absf <$> fs -> Sim st' a).
  Proof.
    intros HI HS Htr Hins Hlog Hdone Hdup Hcnt. split.
    - apply (sim_upd st a st' _ t fs fs' k); try done; simpl.
      + intros u. by rewrite calls_put.
      + intros ty. rewrite Hins. apply (m_vals _ _ HS).
      + apply (m_sub _ _ HS).
      + by left.
      + intros s. specialize (Hcnt s). lia.
    - intros Heq. apply (sim_upd st a st' a t fs fs' k); try done.
      + intros u. destruct (decide (t = u)) as [<-|]; [|done].
        rewrite (m_calls _ _ HS), (tr_old _ _ _ _ _ _ _ Htr), !fmap_app. by rewrite Heq.
      + intros ty. rewrite Hins. apply (m_vals _ _ HS).
      + apply (m_sub _ _ HS).
      + by left.
      + intros s. specialize (Hcnt s). lia.
  Qed.

  (** What the atomic interner shows of a move. *)
  Definition msight t (fs fs' : list (frame V Q)) : list (sact V Q) :=
    match fs, fs' with
    | [], [FWait o _] => [SCall t o]
    | [FDone o r], [] => [SRet t o r]
    | _, _ => []
    end.
  Definition does a (xs : list (sact V Q)) st' : Prop :=
    exists ys a', satoms E a ys a' /\ shown ys = xs /\ Sim st' a'.
  Lemma does_nil a st' : Sim st' a -> does a [] st'.
  Proof. intros H. exists [], a. split_and!; [constructor|done|done]. Qed.
  Lemma does_one a x a' xs st' : satom E a x a' -> Sim st' a' -> shown [x] = xs -> does a xs st'.
  Proof. intros H HS Hx. exists [x], a'. split_and!; [|done|done]. eapply sas_cons; [done|constructor]. Qed.

  (** Leaked objects are not touched by allocating or freeing. *)
  Lemma lko_alloc st x v b st1 p s : IInv st -> ialloc E st x v b = Some (st1, p) ->
    lko st1 s = lko st s + (if b then box_is s (Some p) else 0).
  Proof.
    intros HI (->&Hp&Hn&_)%(ialloc_spec E); [|done]. unfold lko. simpl. rewrite Hp. simpl.
    destruct (Nat.eqb_spec (i_next st) s) as [<-|].
    - rewrite lookup_insert, Hn. simpl. by destruct b.
    - rewrite lookup_insert_ne by done. destruct b; lia.
  Qed.
  Lemma lko_free st p st1 s : ifree st p = Some st1 -> lko st1 s = lko st s.
  Proof.
    unfold ifree, lko. destruct (i_objs st !! ip_ser p) as [x|] eqn:Hx; [|done].
    destruct (io_leaked x) eqn:Hl; [done|]. intros [= <-]. simpl. destruct (decide (ip_ser p = s)) as [<-|].
    - by rewrite lookup_delete, Hx, Hl.
    - by rewrite lookup_delete_ne.
  Qed.
  Lemma lko_leak st p st1 s : ileak st p = Some st1 -> lko st1 s = lko st s + box_is s (Some p).
  Proof.
    unfold ileak, lko. destruct (i_objs st !! ip_ser p) as [x|] eqn:Hx; [|done].
    destruct (io_leaked x) eqn:Hl; [done|]. intros [= <-]. simpl. destruct (Nat.eqb_spec (ip_ser p) s) as [<-|].
    - by rewrite lookup_insert, Hx, Hl.
    - rewrite lookup_insert_ne by done. lia.
  Qed.
  Lemma log_free st p st1 : ifree st p = Some st1 -> i_log st1 = i_log st.
  Proof.
    unfold ifree. destruct (i_objs st !! ip_ser p) as [x|]; [|done]. destruct (io_leaked x); [done|]. by intros [= <-].
  Qed.
  Lemma log_leak st p st1 : ileak st p = Some st1 -> i_log st1 = i_log st.
  Proof.
    unfold ileak. destruct (i_objs st !! ip_ser p) as [x|]; [|done]. destruct (io_leaked x); [done|]. by intros [= <-].
  Qed.
  Lemma log_alloc st x v b st1 p : IInv st -> ialloc E st x v b = Some (st1, p) -> i_log st1 = i_log st.
  Proof. intros HI H. by destruct (ialloc_spec E _ _ _ _ _ _ HI H) as (->&_). Qed.

  Lemma cntm_ge s p v l : (p, v) ∈ l -> ip_ser p = s -> 1 <= cntm s l.
  Proof.
    intros H <-. pose proof (lsum_ge (λ x : iptr * V, box_is (ip_ser p) (Some x.1)) l (p, v) H) as H'. simpl in H'.
    rewrite Nat.eqb_refl in H'. exact H'.
  Qed.

  (** A pointer about to be inserted is new. *)
  Lemma fresh_ins st a t o p v : IInv st -> Sim st a -> FIns o p ∈ get_stack st t -> points E st (op_ty o) p v true ->
    forall q d, (q, d) ∈ ss_made a -> q <> p /\
      (ie_ty E d = ie_ty E v -> iptr_eqb q p = true -> ie_eq E d v = true).
  Proof.
    intros HI HS Hin (Hp&Hpm&Hpt) q d Hq. assert (ip_ser q <> ip_ser p) as Hne.
    { intros Heq. pose proof (m_cnt _ _ HS (ip_ser p)) as Hc.
      pose proof (cntm_ge (ip_ser p) _ _ _ Hq Heq). pose proof (msum_stack_ge (insg (ip_ser p)) st t) as H1.
      pose proof (lsum_ge (insg (ip_ser p)) _ _ Hin) as H2. simpl in H2. rewrite Nat.eqb_refl in H2.
      assert (lko st (ip_ser p) <= 1) as H3. { unfold lko. destruct (i_objs st !! _) as [[? ? []]|]; simpl; lia. }
      lia. }
    split; [by intros ->|]. intros Hty Heq. unfold iptr_eqb in Heq. apply andb_true_iff in Heq as [H1 H2].
    apply Nat.eqb_eq in H1, H2. destruct (m_made _ _ HS _ _ Hq) as (Hqx&Hqm&_).
    assert (is_zst E d = is_zst E v) as Hz. { unfold is_zst. rewrite Hty. congruence. }
    destruct (is_zst E d) eqn:Hd; [by apply HZ; [|done|congruence]|]. exfalso. apply Hne.
    by apply (v_addr _ _ HI _ _ _ _ Hqx Hp).
  Qed.

  Lemma move_lin st a t fs fs' k st1 :
    IInv st -> LInv st -> Sim st a -> get_stack st t = fs ++ k -> move E st t fs fs' st1 ->
    match fs, get_stack st t with [], f :: _ => (absf f).2 = None | _, _ => True end ->
    does a (msight t fs fs') (set_stack st1 t (fs' ++ k)).
  Proof.
    intros HI HW HS Hst Hm Hu. destruct (move_ok E st t fs fs' k st1 HI Hst Hm) as [Htr HI'].
    assert (forall f, f ∈ fs -> frame_ok E st f) as Hfr.
    { intros f Hf. apply (v_frames _ _ HI t). rewrite Hst. apply elem_of_app. by left. }
    assert (forall f, f ∈ fs -> frame_law E st f) as Hlaw.
    { intros f Hf. apply (w_frames _ _ HW t). rewrite Hst. apply elem_of_app. by left. }
    assert (calls a t = absf <$> (fs ++ k)) as Hcalls by (by rewrite (m_calls _ _ HS), Hst).
    assert (forall q d, (q, d) ∈ ss_vals a -> exists v, (q, v) ∈ ss_made a) as Hmade.
    { intros q d Hq%(m_sub _ _ HS). by exists d. }
    assert (forall o b r, FDup o b r ∈ fs' -> dup_ok o r) as Hdup.
    { intros o b r Hin. destruct Hm; try (apply elem_of_list_singleton in Hin; injection Hin as -> -> ->);
        try (by apply elem_of_list_singleton in Hin); try (by apply elem_of_nil in Hin); simpl; try done.
      intros ty w q ->. done. }
    pose proof (sim_calls st a (set_stack st1 t (fs' ++ k)) t fs fs' k HI HS Htr) as Hsc.
    (* a step that only this thread knows of *)
    assert (absf <$> fs' = absf <$> fs -> i_log st1 = i_log st -> (forall o p, FDone o (RPtr p) ∉ fs') ->
      (forall s, lsum (insg s) fs' + lko st s <= lsum (insg s) fs + lko st1 s) -> msight t fs fs' = [] ->
      does a (msight t fs fs') (set_stack st1 t (fs' ++ k))) as Hquiet.
    { intros Habs Hlog Hd Hc ->. apply does_nil. destruct Hsc as [_ H]; simpl.
      - by rewrite Hlog.
      - rewrite Hlog. by left.
      - intros o p Hin. by apply Hd in Hin.
      - done.
      - done.
      - by apply H. }
    (* a step with an abstract counterpart that changes only the calls *)
    assert (forall x a', satom E a x a' -> a' = put_calls a t (absf <$> (fs' ++ k)) -> shown [x] = msight t fs fs' ->
      (forall ty, inserted E ty (i_log st1) = inserted E ty (i_log st)) ->
      (forall e, e ∈ i_log st1 -> e ∈ i_log st \/ forall u o p, e = EvRet u o (RPtr p) -> exists v, (p, v) ∈ ss_made a) ->
      (forall o p, FDone o (RPtr p) ∈ fs' -> exists v, (p, v) ∈ ss_made a) ->
      (forall s, lsum (insg s) fs' + lko st s <= lsum (insg s) fs + lko st1 s) ->
      does a (msight t fs fs') (set_stack st1 t (fs' ++ k))) as Hact.
    { intros x a' Hx -> Hsh Hins Hlog Hd Hc. eapply does_one; [exact Hx| |done]. by apply Hsc. }
    (* a hit *)
    assert (forall o p d, absf <$> fs = [(o, None)] -> fs' = [FDone o (RPtr p)] -> (p, d) ∈ inserted E (op_ty o) (i_log st) ->
      asks E o d -> (forall ty w q, o <> OIs ty w q) -> i_log st1 = i_log st -> (forall s, lsum (insg s) fs = 0) ->
      (forall s, lko st1 s = lko st s) -> msight t fs fs' = [] ->
      does a (msight t fs fs') (set_stack st1 t (fs' ++ k))) as Hhit.
    { intros o p d Habs -> Hin Ha Hno Hlog Hz Hlk Hms. destruct (ins_vals _ _ _ _ _ HI HS Hin) as [Hin' _].
      eapply (Hact (SHit t p)); [eapply (sa_hit E a t o (absf <$> k) p d)|..]; try done.
      - rewrite Hcalls, fmap_app, Habs. done.
      - by rewrite Hlog.
      - rewrite Hlog. by left.
      - intros o' p' [= -> ->]%elem_of_list_singleton. by eapply Hmade.
      - intros s. rewrite Hlk, Hz. done. }
    destruct Hm; simpl in Hcalls.
    - (* MCall *) eapply (Hact (SCall t o)); [apply (sa_call E a t o)|..]; try done.
      + rewrite Hcalls. simpl in Hst. rewrite Hst in Hu. destruct k as [|f k]; [done|]. simpl. destruct (absf f) as [? []]; [done|done].
      + by rewrite Hcalls.
      + by left.
      + intros o' p' H'. apply elem_of_list_singleton in H'. done.
    - (* MCallBox *) eapply (Hact (SCall t (OBox v))); [apply (sa_call E a t (OBox v))|..]; try done.
      + rewrite Hcalls. simpl in Hst. rewrite Hst in Hu. destruct k as [|f k]; [done|]. simpl. destruct (absf f) as [? []]; [done|done].
      + by rewrite Hcalls.
      + by rewrite (log_alloc _ _ _ _ _ _ HI H).
      + rewrite (log_alloc _ _ _ _ _ _ HI H). by left.
      + intros o' p' H'. apply elem_of_list_singleton in H'. done.
      + intros s. rewrite (lko_alloc _ _ _ _ _ _ s HI H). simpl. lia.
    - (* MLock *) apply Hquiet; try done. intros o' p' H'. by apply elem_of_list_singleton in H'.
    - (* MLen *) eapply (Hact (SSay t (RNum _))); [apply (sa_len E a t ty (absf <$> k))|..]; try done.
      + rewrite (m_vals _ _ HS), locked_set_of, (v_current _ _ HI). by rewrite fmap_length.
      + by left.
      + intros o' p' H'. by apply elem_of_list_singleton in H'.
    - (* MClear *) eapply does_one; [apply (sa_clear E a t ty (absf <$> k)); done| |done].
      apply (sim_upd st a _ _ t [FWait (OClear ty) b] [FDone (OClear ty) RUnit] k HI HS Htr); simpl.
      + intros u. rewrite calls_put. done.
      + intros u. destruct (Nat.eqb_spec ty u) as [->|Hne].
        * apply of_not_same.
        * rewrite <- (m_vals _ _ HS). by apply of_not_other.
      + intros x Hx. apply (m_sub _ _ HS). unfold not_of_type in Hx. rewrite elem_of_list_In, List.filter_In in Hx.
        apply elem_of_list_In. tauto.
      + done.
      + by left.
      + intros e [->|He]%elem_of_cons; [by right|by left].
      + intros o' p' H'. by apply elem_of_list_singleton in H'.
      + done.
      + intros s. unfold lko. simpl. lia.
    - (* MHitDup *) apply Hquiet; try done. intros o' p' H'. by apply elem_of_list_singleton in H'.
    - (* MHit *) destruct (cand_ins E _ _ _ _ HI H) as (d&?&?&?). eapply (Hhit o p d); try done; [by apply match_asks|].
      intros ty w q ->. done.
    - (* MIsHit *) destruct (cand_ins E _ _ _ _ HI H) as (d&Hin&?&?).
      destruct (ins_vals _ _ _ _ _ HI HS Hin) as [Hin' _].
      eapply (Hact (SSay t (RBool true))); [apply (sa_is E a t ty w q (absf <$> k) true)|..]; try done.
      + split; [|done]. intros _. exists p, d. split; [done|]. by apply (match_asks E (OIs ty w q)).
      + by left.
      + intros o' p' H'. by apply elem_of_list_singleton in H'.
    - (* MMiss *) apply Hquiet; try done. intros o' p' H'. by apply elem_of_list_singleton in H'.
    - (* MMissBox *) apply Hquiet; try done; [by eapply log_leak|intros o' p' H'; by apply elem_of_list_singleton in H'|].
      intros s. rewrite (lko_leak _ _ _ _ H0). simpl. lia.
    - apply Hquiet; try done. intros o' p' H'. by apply elem_of_list_singleton in H'.
    - (* MIsMiss *)
      eapply (Hact (SSay t (RBool false))); [apply (sa_is E a t ty w q (absf <$> k) false)|..]; try done.
      + split; [done|]. intros (p&d&Hin&Ha). apply (vals_in _ _ _ _ HS) in Hin. destruct Ha as [<- Ha].
        pose proof (cand_nil E _ _ _ _ _ HI H Hin) as Hn. by rewrite (asks_match E HL) in Hn.
      + by left.
      + intros o' p' H'. by apply elem_of_list_singleton in H'.
    - apply Hquiet; try done. intros o' p' H'. by apply elem_of_list_singleton in H'.
    - (* MStore *) apply Hquiet; try done; [by eapply log_alloc|intros o' p' H'; by apply elem_of_list_singleton in H'|].
      intros s. rewrite (lko_alloc _ _ _ _ _ _ s HI H). simpl. lia.
    - (* MInsert *)
      destruct (Hlaw (FIns o p)) as (v'&Hp&Ha); [by left|]. pose proof (points_read E _ _ _ _ _ Hp) as Hpr.
      assert (v' = v) as -> by congruence. clear Hpr. destruct (Ha HC) as [Habs Hasks].
      destruct (Hfr (FIns o p)) as (v'&Hp'&Hsup); [by left|]. pose proof (points_read E _ _ _ _ _ Hp') as Hpr.
      assert (v' = v) as -> by congruence. clear Hpr Hp'. pose proof Hp as (_&_&Hty).
      eapply does_one; [eapply (sa_miss E a t o (absf <$> k) p v)| |done]; try done.
      + intros q d Hq Had. apply (vals_in _ _ _ _ HS) in Hq.
        assert (ie_ty E d = op_ty o) as Hdt. { destruct o; simpl in *; try done; by destruct Had. }
        rewrite Hdt in Hq. specialize (Habs q d Hq). assert (ie_eq E d v = true) as He; [|congruence].
        destruct o as [u|u|u|ty w q0|ty w q0|ty|ty]; simpl in *; try done; try (destruct Had; subst; done).
        destruct Had as [Hd1 Hd2], Hasks as [Ha1 Ha2]. rewrite <- (il_borrow_eq _ HL w) by congruence.
        eapply (il_qtrans _ HL); [done|]. by apply (il_qsym _ HL).
      + eapply (fresh_ins st a t o p v); try done. rewrite Hst. by left.
      + apply (sim_upd st a _ _ t [FIns o p] [FDone o (RPtr p)] k HI HS Htr); simpl.
        * intros u. rewrite calls_put. done.
        * intros u. change (of_type E u ((p, v) :: ss_vals a) = if op_ty o =? u then (p, v) :: inserted E u (i_log st) else inserted E u (i_log st)).
          rewrite <- Hty, <- (m_vals _ _ HS). done.
        * intros x [->|Hx]%elem_of_cons; [by left|]. right. by apply (m_sub _ _ HS).
        * intros x Hx. by right.
        * intros q d [[= -> ->]|Hx]%elem_of_cons; [right|by left]. rewrite Hty. exact Hp.
        * intros e [->|He]%elem_of_cons; [by right|by left].
        * intros o' p' [= -> ->]%elem_of_list_singleton. exists v. by left.
        * done.
        * intros s. unfold lko. simpl. unfold cntm. simpl. lia.
    - (* MPresent *)
      exfalso. destruct (Hlaw (FIns o p)) as (v'&Hp&Ha); [by left|]. apply points_read in Hp.
      assert (v' = v) as -> by congruence. destruct (cand_ins E _ _ _ _ HI H0) as (d&Hin&Hd&Ht).
      destruct (Ha HC) as [Ha' _]. apply Ha' in Hin. unfold ins_match in Hd. apply andb_true_iff in Hd as [_ Hd].
      apply (il_sym _ HL) in Hd. congruence.
    - (* MFree *)
      assert (r = RPanic \/ r <> RPanic) as [->|Hr] by (destruct r; by auto).
      + apply Hquiet; try done; [by eapply log_free|intros o' p' H'; by apply elem_of_list_singleton in H'|].
        intros s. by rewrite (lko_free _ _ _ _ H).
      + assert (dup_ok o r) as Hd. { apply (m_dup _ _ HS t o (Some p) r). rewrite Hst. by left. }
        assert (res_law E o r (inserted E (op_ty o) (i_log st))) as Hl. { apply (Hlaw (FDup o (Some p) r)). by left. }
        destruct r as [p'| | | |]; try done. destruct (Hl HC) as (d&Hin&Had).
        eapply (Hhit o p' d); try done; [by eapply log_free|]. intros s. by apply (lko_free _ _ _ _ H).
    - (* MDrop *)
      assert (r = RPanic \/ r <> RPanic) as [->|Hr] by (destruct r; by auto).
      + apply Hquiet; try done; intros o' p' H'; by apply elem_of_list_singleton in H'.
      + assert (dup_ok o r) as Hd. { apply (m_dup _ _ HS t o None r). rewrite Hst. by left. }
        assert (res_law E o r (inserted E (op_ty o) (i_log st))) as Hl. { apply (Hlaw (FDup o None r)). by left. }
        destruct r as [p'| | | |]; try done. destruct (Hl HC) as (d&Hin&Had).
        by eapply (Hhit o p' d).
    - (* MRet *)
      assert (forall p, r = RPtr p -> exists v, (p, v) ∈ ss_made a) as Hp.
      { intros p ->. apply (m_done _ _ HS t o p). rewrite Hst. by left. }
      eapply (Hact (SRet t o r)).
      + destruct r; [eapply sa_ret..|eapply sa_panic]; exact Hcalls.
      + done.
      + done.
      + done.
      + intros e [->|He]%elem_of_cons; [right|by left]. intros u o' p [= -> -> ->]. by apply Hp.
      + intros o' p' H'. by apply elem_of_nil in H'.
      + done.
    - apply Hquiet; try done. intros o' p' H'. by apply elem_of_list_singleton in H'.
    - apply Hquiet; try done. intros o' p' H'. by apply elem_of_list_singleton in H'.
    - apply Hquiet; try done; [intros o' p' H'; by apply elem_of_list_singleton in H'|]. intros s. simpl. lia.
    - apply Hquiet; try done. intros o' p' H'. by apply elem_of_list_singleton in H'.
  Qed.

  Lemma new_event_same (l : list (ievent V Q)) : new_event l l = [].
  Proof. destruct l as [|e l]; simpl; [done|]. destruct (Nat.eqb_spec (length l) (S (length l))); [lia|done]. Qed.
  Lemma new_event_one (l : list (ievent V Q)) e : new_event l (e :: l) = event_act e.
  Proof. simpl. by rewrite Nat.eqb_refl. Qed.
  Lemma move_sight st t fs fs' st1 : IInv st -> move E st t fs fs' st1 ->
    (fs = [] /\ exists o b, fs' = [FWait o b]) \/
    (fs <> [] /\ length fs' <= length fs /\ msight t fs fs' = new_event (i_log st) (i_log st1)).
  Proof.
    intros HI Hm. destruct Hm; try (left; split; [done|by repeat eexists]); right; (split_and!; [done|simpl; lia|]).
    all: try (simpl; by rewrite Nat.eqb_refl).
    all: repeat match goal with
      | H : ileak _ _ = Some _ |- _ => apply log_leak in H; rewrite H
      | H : ifree _ _ = Some _ |- _ => apply log_free in H; rewrite H
      | H : ialloc _ _ _ _ _ = Some _ |- _ => apply (log_alloc _ _ _ _ _ _ HI) in H; rewrite H
      end.
    all: try (change (i_log (locked E st t ?x)) with (i_log st)); rewrite ?new_event_same; done.
  Qed.

  Lemma read_lin st a p v : IInv st -> Sim st a -> returned p (i_log st) = true -> iread st p = Some v ->
    does a [SRead p v] (add_event st (EvRead p v)).
  Proof.
    intros HI HS (t&o&Hin)%returned_in Hr. destruct (m_ret _ _ HS t o p Hin) as [v' Hv].
    pose proof (points_read E _ _ _ _ _ (m_made _ _ HS _ _ Hv)) as Hr'. assert (v' = v) as -> by congruence.
    eapply does_one; [by apply sa_read| |done]. destruct HS. constructor; try done. simpl.
    intros u o' p' [|]%elem_of_cons; [done|]. by eapply m_ret0.
  Qed.

  Lemma move_new st a t fs fs' k st1 : IInv st -> LInv st -> Sim st a -> get_stack st t = fs ++ k ->
    move E st t fs fs' st1 -> fs <> [] ->
    does a (new_event (i_log st) (i_log (set_stack st1 t (fs' ++ k)))) (set_stack st1 t (fs' ++ k)).
  Proof.
    intros HI HW HS Hst Hm Hne. destruct (move_sight _ _ _ _ _ HI Hm) as [[-> _]|(_&_&Hs)]; [done|].
    simpl. rewrite <- Hs. apply (move_lin st); try done. by destruct fs.
  Qed.

  Lemma istep_lin st a l st' : IInv st -> LInv st -> Sim st a -> istep E st l = Next st' ->
    does a (sight l (i_log st) (i_log st')) st'.
  Proof.
    intros HI HW HS H. destruct l as [t o b| | | |].
    1:{ simpl in H. destruct (match get_stack st t with [] => true | _ => _ end) eqn:Hu; [|done].
        assert (match get_stack st t with [] => True | f :: _ => (absf f).2 = None end) as Hu'.
        { destruct (get_stack st t) as [|[] ?]; try done. }
        destruct o as [v|v|v|ty w q|ty w q|ty|ty].
        3:{ destruct (ialloc E st b v false) as [[st1 p]|] eqn:Ha; [|done]. injection H as <-.
            apply (move_lin st a t [] [FWait (OBox v) (Some p)] (get_stack st t) st1); try done. by eapply MCallBox. }
        all: injection H as <-; match goal with |- context [FWait ?o None] =>
          apply (move_lin st a t [] [FWait o None] (get_stack st t) st); try done; by apply MCall end. }
    all: pose proof H as [(p'&v'&Hr&Hv&Heq&->)|(u&fs&fs'&k&st1&Hst&Hm&->&_&Hc)]%istep_move; try done.
    4:{ injection Heq as <-. simpl. rewrite Nat.eqb_refl. by apply read_lin. }
    all: eapply (move_new st a u fs); try done; intros ->; by destruct (Hc eq_refl) as (?&?&?&?&_).
  Qed.

  Lemma satoms_app a xs a1 ys a2 : satoms E a xs a1 -> satoms E a1 ys a2 -> satoms E a (xs ++ ys) a2.
  Proof. intros H1 H2. induction H1; simpl; [done|]. eapply sas_cons; [done|]. by apply IHsatoms. Qed.
  Lemma shown_app (xs ys : list (sact V Q)) : shown (xs ++ ys) = shown xs ++ shown ys.
  Proof. unfold shown. by rewrite List.filter_app. Qed.
  Lemma does_trans a xs st1 ys st2 :
    does a xs st1 -> (forall a', Sim st1 a' -> does a' ys st2) -> does a (xs ++ ys) st2.
  Proof.
    intros (us&a'&H1&<-&HS) H. destruct (H a' HS) as (zs&a2&H2&<-&HS2). exists (us ++ zs), a2. split_and!.
    - by eapply satoms_app.
    - by rewrite shown_app.
    - done.
  Qed.
  Lemma irun_lin st a ls st' : IInv st -> LInv st -> Sim st a -> run (istep E) st ls = Some st' ->
    does a (isights E st ls) st'.
  Proof.
    revert st a. induction ls as [|l ls IH]; intros st a HI HW HS; simpl.
    - intros [= ->]. by apply does_nil.
    - unfold exec. destruct (istep E st l) as [st1| | |] eqn:Hs; try done; [|by apply IH..]. intros Hr.
      eapply does_trans; [by eapply istep_lin|]. intros a' HS'. apply IH; try done; [by eapply istep_inv|by eapply istep_linv].
  Qed.
  Lemma sim_sets st a : IInv st -> Sim st a ->
    (forall ty p, p ∈ set_of E st ty <-> exists v, (p, v) ∈ ss_vals a /\ ie_ty E v = ty) /\
    (forall p v, (p, v) ∈ ss_made a -> iread st p = Some v).
  Proof.
    intros HI HS. split.
    - intros ty p. rewrite (v_current _ _ HI), elem_of_list_fmap, <- (m_vals _ _ HS). split.
      + intros ([p' v]&->&H). exists v. by apply of_type_in.
      + intros (v&Hv). exists (p, v). split; [done|]. by apply of_type_in.
    - intros p v H. eapply points_read. by apply (m_made _ _ HS).
  Qed.
  Theorem intern_linearizable ls st : run (istep E) iinit ls = Some st ->
    exists xs a, satoms E sinit xs a /\ shown xs = isights E iinit ls /\
      (forall ty p, p ∈ set_of E st ty <-> exists v, (p, v) ∈ ss_vals a /\ ie_ty E v = ty) /\
      (forall p v, (p, v) ∈ ss_made a -> iread st p = Some v).
  Proof.
    intros Hr. destruct (irun_lin iinit sinit ls st) as (xs&a&H1&H2&HS); try done.
    - apply iinv_init.
    - apply linv_init.
    - apply sim_init.
    - exists xs, a. split_and!; try done; apply sim_sets; try done; by eapply irun_inv; [apply iinv_init|].
  Qed.
End lin.

(** ** The atomic interner *)
Section atomic.
  Context {V Q : Type} (E : ienv V Q).
  Implicit Types (a : sset V Q) (v d : V) (p : iptr) (o : iop V Q) (x : sact V Q) (t : nat).

  Lemma satoms_snoc a xs x a' : satoms E a (xs ++ [x]) a' -> exists a1, satoms E a xs a1 /\ satom E a1 x a'.
  Proof.
    revert a. induction xs as [|y xs IH]; intros a H; simpl in *.
    - inversion H as [|? ? ? ? ? H1 H2]; subst. inversion H2; subst. exists a. split; [constructor|done].
    - inversion H as [|? ? ? ? ? H1 H2]; subst. destruct (IH _ H2) as (a1&?&?). exists a1. split; [|done].
      by eapply sas_cons.
  Qed.
  Lemma satoms_ind_r (P : list (sact V Q) -> sset V Q -> Prop) a0 :
    P [] a0 -> (forall xs x a a', satoms E a0 xs a -> P xs a -> satom E a x a' -> P (xs ++ [x]) a') ->
    forall xs a, satoms E a0 xs a -> P xs a.
  Proof.
    intros H0 Hs xs. induction xs as [|x xs IH] using rev_ind; intros a H.
    - by inversion H; subst.
    - apply satoms_snoc in H as (a1&H1&H2). eapply Hs; [done|by apply IH|done].
  Qed.

  Lemma complete_app t xs ys : complete t xs -> complete t ys -> complete (V:=V) (Q:=Q) t (xs ++ ys).
  Proof.
    intros H Hy. induction H as [|x xs ? ? IH|o r xs e ys' zs H1 IH1 He Hys Hz IHz|o xs zs H1 IH1 Hz IHz]; simpl.
    - done.
    - by apply cp_other.
    - rewrite <- app_assoc. simpl. rewrite <- app_assoc. simpl. by apply cp_call.
    - rewrite <- app_assoc. simpl. by apply cp_panic.
  Qed.
  Lemma complete_others t xs : Forall (λ x, sthread x <> Some t) xs -> complete (V:=V) (Q:=Q) t xs.
  Proof. induction 1; [constructor|by apply cp_other]. Qed.

  (** The actions so far, as thread [t]'s stack has them. *)
  Fixpoint tale t (k : list (iop V Q * option ires)) (xs : list (sact V Q)) : Prop :=
    match k with
    | [] => complete t xs
    | (o, None) :: k' => exists ys zs, xs = ys ++ SCall t o :: zs /\ complete t zs /\ tale t k' ys
    | (o, Some r) :: k' => exists ys zs e ws, xs = ys ++ SCall t o :: zs ++ e :: ws /\ complete t zs /\
        effect e = Some (t, r) /\ Forall (λ x, sthread x <> Some t) ws /\ tale t k' ys
    end.
  Definition waiting (k : list (iop V Q * option ires)) : Prop := match k with (_, Some _) :: _ => False | _ => True end.
  (** Below the top nothing has taken effect. *)
  Definition stk_ok (k : list (iop V Q * option ires)) : Prop := Forall (λ c, c.2 = None) (tail k).
  Lemma waiting_tail c k : stk_ok (c :: k) -> waiting k /\ stk_ok k.
  Proof.
    unfold stk_ok. simpl. destruct k as [|[o r] k]; [done|]. intros H. inversion H; subst. simpl in *. by subst.
  Qed.

  Lemma tale_other t k xs x : tale t k xs -> sthread x <> Some t -> tale t k (xs ++ [x]).
  Proof.
    destruct k as [|[o [r|]] k]; simpl.
    - intros H Hx. apply complete_app; [done|]. by apply complete_others, Forall_singleton.
    - intros (ys&zs&e&ws&->&?&?&?&?) Hx. exists ys, zs, e, (ws ++ [x]). split_and!; try done.
      + rewrite <- app_assoc. simpl. by rewrite <- app_assoc.
      + apply Forall_app. split; [done|]. by apply Forall_singleton.
    - intros (ys&zs&->&?&?) Hx. exists ys, (zs ++ [x]). split_and!; try done.
      + by rewrite <- app_assoc.
      + apply complete_app; [done|]. by apply complete_others, Forall_singleton.
  Qed.
  (** Completing a call on top of a waiting stack. *)
  Lemma tale_done t k ys zs : waiting k -> tale t k ys -> complete t zs -> tale t k (ys ++ zs).
  Proof.
    destruct k as [|[o [r|]] k]; simpl; [|done|].
    - intros _. apply complete_app.
    - intros _ (us&ws&->&?&?) Hz. exists us, (ws ++ zs). split_and!; try done; [by rewrite <- app_assoc|by apply complete_app].
  Qed.

  Lemma tales xs a : satoms E sinit xs a -> forall t, stk_ok (calls a t) /\ tale t (calls a t) xs.
  Proof.
    revert xs a. apply (satoms_ind_r (λ xs a, forall t, stk_ok (calls a t) /\ tale t (calls a t) xs)).
    - intros t. unfold calls. simpl. rewrite lookup_empty. simpl. split; [by constructor|constructor].
    - intros xs x a a' _ IH Hx u.
      assert (forall t k, a' = put_calls a t k \/ (exists l1 l2, a' = put_calls (SSet l1 l2 (ss_calls a)) t k) ->
        forall w, calls a' w = if decide (t = w) then k else calls a w) as Hput.
      { intros t k H w. destruct H as [->|(l1&l2&->)]; unfold calls; simpl; (destruct (decide (t = w)) as [->|];
          [by rewrite lookup_insert|by rewrite lookup_insert_ne]). }
      assert (forall t, sthread x = Some t -> t <> u -> calls a' u = calls a u -> stk_ok (calls a' u) /\ tale u (calls a' u) (xs ++ [x])) as Hoth.
      { intros t Ht Hne ->. destruct (IH u) as [? ?]. split; [done|]. apply tale_other; [done|]. rewrite Ht. congruence. }
      assert (forall t o r k, effect x = Some (t, r) -> calls a t = (o, None) :: k -> t = u ->
        (forall w, calls a' w = if decide (t = w) then (o, Some r) :: k else calls a w) ->
        stk_ok (calls a' u) /\ tale u (calls a' u) (xs ++ [x])) as Heff.
      { intros t o r k He Hc <- Hw. rewrite Hw, decide_True by done. destruct (IH t) as [H1 H2]. rewrite Hc in H1, H2.
        destruct H2 as (ys&zs&->&Hz&Hk). split; [done|]. exists ys, zs, x, []. split_and!; try done. by rewrite <- app_assoc. }
      destruct Hx as [t o Hw|t o k p d Hc Hno Hin Ha|t o k p v Hc Hs Ha Hno Hf|t ty w q k b Hc Hb|t ty k n Hc Hn|t ty k Hc|t o r k Hc|t o k Hc|p v Hin].
      + pose proof (Hput _ _ (or_introl eq_refl)) as Hw'. destruct (decide (t = u)) as [<-|Hne].
        * rewrite Hw', decide_True by done. destruct (IH t) as [H1 H2]. split.
          -- unfold stk_ok. simpl. destruct (calls a t) as [|[o' [r|]] k]; [constructor|done|]. by constructor.
          -- exists xs, []. split_and!; [done|constructor|done].
        * apply (Hoth t); try done. by rewrite Hw', decide_False.
      + pose proof (Hput _ _ (or_introl eq_refl)) as Hw'. destruct (decide (t = u)) as [<-|Hne].
        * by eapply Heff.
        * apply (Hoth t); try done. by rewrite Hw', decide_False.
      + assert (forall w, calls (put_calls (SSet ((p, v) :: ss_vals a) ((p, v) :: ss_made a) (ss_calls a)) t ((o, Some (RPtr p)) :: k)) w
          = if decide (t = w) then (o, Some (RPtr p)) :: k else calls a w) as Hw'. { apply Hput. right. by eexists _, _. }
        destruct (decide (t = u)) as [<-|Hne]; [by eapply Heff|]. apply (Hoth t); try done. by rewrite Hw', decide_False.
      + pose proof (Hput _ _ (or_introl eq_refl)) as Hw'. destruct (decide (t = u)) as [<-|Hne]; [by eapply Heff|].
        apply (Hoth t); try done. by rewrite Hw', decide_False.
      + pose proof (Hput _ _ (or_introl eq_refl)) as Hw'. destruct (decide (t = u)) as [<-|Hne]; [by eapply Heff|].
        apply (Hoth t); try done. by rewrite Hw', decide_False.
      + assert (forall w, calls (put_calls (SSet (not_of_type E ty (ss_vals a)) (ss_made a) (ss_calls a)) t ((OClear ty, Some RUnit) :: k)) w
          = if decide (t = w) then (OClear ty, Some RUnit) :: k else calls a w) as Hw'. { apply Hput. right. by eexists _, _. }
        destruct (decide (t = u)) as [<-|Hne]; [by eapply Heff|]. apply (Hoth t); try done. by rewrite Hw', decide_False.
      + pose proof (Hput _ _ (or_introl eq_refl)) as Hw'. destruct (decide (t = u)) as [<-|Hne].
        * rewrite Hw', decide_True by done. destruct (IH t) as [H1 H2]. rewrite Hc in H1, H2.
          destruct (waiting_tail _ _ H1) as [Hwt Hok]. split; [done|]. destruct H2 as (ys&zs&e&ws&->&Hz&He&Hws&Hk).
          rewrite <- app_assoc. apply tale_done; [done|done|]. simpl. rewrite <- app_assoc. simpl.
          apply (cp_call t o r zs e ws []); try done. constructor.
        * apply (Hoth t); try done. by rewrite Hw', decide_False.
      + pose proof (Hput _ _ (or_introl eq_refl)) as Hw'. destruct (decide (t = u)) as [<-|Hne].
        * rewrite Hw', decide_True by done. destruct (IH t) as [H1 H2]. rewrite Hc in H1, H2.
          destruct (waiting_tail _ _ H1) as [Hwt Hok]. split; [done|]. destruct H2 as (ys&zs&->&Hz&Hk).
          rewrite <- app_assoc. apply tale_done; [done|done|]. simpl.
          apply (cp_panic t o zs []); try done. constructor.
        * apply (Hoth t); try done. by rewrite Hw', decide_False.
      + destruct (IH u) as [? ?]. split; [done|]. by apply tale_other.
  Qed.

  Theorem one_effect xs t o r a : satoms E sinit (xs ++ [SRet t o r]) a ->
    exists xs1 xs2, xs = xs1 ++ SCall t o :: xs2 /\
      ((r = RPanic /\ complete t xs2) \/
       exists xs3 e xs4, xs2 = xs3 ++ e :: xs4 /\ complete t xs3 /\ effect e = Some (t, r) /\
         Forall (λ x, sthread x <> Some t) xs4).
  Proof.
    intros (a1&H1&H2)%satoms_snoc. destruct (tales _ _ H1 t) as [_ Ht]. inversion H2 as [| | | | | |? ? ? k Hc|? ? k Hc|]; subst;
      rewrite Hc in Ht; simpl in Ht.
    - destruct Ht as (ys&zs&e&ws&->&?&?&?&_). exists ys, (zs ++ e :: ws). split; [done|]. right. by exists zs, e, ws.
    - destruct Ht as (ys&zs&->&?&_). exists ys, zs. split; [done|]. by left.
  Qed.
  Theorem all_complete xs t a : satoms E sinit xs a -> calls a t = [] -> complete t xs.
  Proof. intros H Hc. destruct (tales _ _ H t) as [_ Ht]. by rewrite Hc in Ht. Qed.

  (** Equal values have one handle, and handles are Eq only if they are the same. *)
  Lemma asks_eq o u v : ilawful E -> asks E o v -> ie_ty E u = ie_ty E v -> ie_eq E u v = true -> asks E o u.
  Proof.
    intros HL Ha Hty He. destruct o as [w|w|w|ty w q|ty w q|ty|ty]; simpl in *; try done; destruct Ha as [Hv Ha].
    1-3: split; [congruence|by eapply (il_trans _ HL)].
    all: split; [congruence|]; eapply (il_qtrans _ HL); [|exact Ha]; by rewrite (il_borrow_eq _ HL).
  Qed.
  Lemma set_unique_inv xs a : ilawful E -> satoms E sinit xs a ->
    (forall y, y ∈ ss_vals a -> y ∈ ss_made a) /\
    (forall p q u v, (p, u) ∈ ss_vals a -> (q, v) ∈ ss_vals a -> ie_ty E u = ie_ty E v ->
      ie_eq E u v = true \/ iptr_eqb p q = true -> p = q /\ u = v).
  Proof.
    intros HL. revert xs a.
    apply (satoms_ind_r (λ xs a, (forall y, y ∈ ss_vals a -> y ∈ ss_made a) /\
      (forall p q u v, (p, u) ∈ ss_vals a -> (q, v) ∈ ss_vals a -> ie_ty E u = ie_ty E v ->
      ie_eq E u v = true \/ iptr_eqb p q = true -> p = q /\ u = v))).
    - split; simpl; [done|]. intros p q u v H. by apply elem_of_nil in H.
    - intros xs x a a' _ [IH1 IH2] Hx. destruct Hx as [| |t o k p v Hc Hs Ha Hno Hf| | |t ty k Hc| | |]; try done; simpl.
      + assert (forall q d, (q, d) ∈ ss_vals a -> ie_ty E d = ie_ty E v -> ie_eq E d v = true \/ iptr_eqb q p = true -> False) as Hnew.
        { intros q d Hq Hty [He|He]; apply (Hno q d Hq); apply (asks_eq o d v HL Ha Hty); [done|].
          apply IH1 in Hq. by apply (Hf q d Hq). }
        split.
        * intros y [->|Hy]%elem_of_cons; [by left|]. right. by apply IH1.
        * intros p1 q1 u1 v1 [[= -> ->]|H1]%elem_of_cons [[= -> ->]|H2]%elem_of_cons Hty Heq.
          -- done.
          -- exfalso. apply (Hnew q1 v1 H2); [done|]. destruct Heq as [He|He]; [left; by apply (il_sym _ HL)|right].
             unfold iptr_eqb in *. by rewrite (Nat.eqb_sym (ip_addr q1)), (Nat.eqb_sym (ip_meta q1)).
          -- exfalso. by apply (Hnew p1 u1 H1).
          -- by apply IH2.
      + assert (forall y, y ∈ not_of_type E ty (ss_vals a) -> y ∈ ss_vals a) as Hsub.
        { intros y. unfold not_of_type. rewrite !elem_of_list_In, List.filter_In. tauto. }
        split; [intros y Hy; by apply IH1, Hsub|]. intros p q u v H1 H2. apply IH2; by apply Hsub.
  Qed.
  Theorem set_unique xs a : ilawful E -> satoms E sinit xs a ->
    forall p q u v, (p, u) ∈ ss_vals a -> (q, v) ∈ ss_vals a -> ie_ty E u = ie_ty E v ->
    ie_eq E u v = true \/ iptr_eqb p q = true -> p = q /\ u = v.
  Proof. intros HL H. by destruct (set_unique_inv xs a HL H). Qed.
End atomic.

(** ** Panics come from user code *)
Section panics.
  Context {V Q : Type} (E : ienv V Q).
  Implicit Types (st : istate V Q) (t u : nat) (l : ilabel V Q).

  Definition panf (f : frame V Q) : nat := match f with FDup _ _ RPanic | FDone _ RPanic => 1 | _ => 0 end.
  Definition pk u st : nat := lsum panf (get_stack st u) + panics u (i_log st).
  Lemma pk_set u st st1 t k : i_threads st1 = i_threads st -> i_log st1 = i_log st ->
    pk u (set_stack st1 t k) = (if decide (t = u) then lsum panf k else lsum panf (get_stack st u)) + panics u (i_log st).
  Proof.
    intros H1 H2. unfold pk. rewrite get_stack_set. simpl. rewrite H2. unfold get_stack. rewrite H1. by destruct (decide (t = u)).
  Qed.
  Lemma free_threads st p st1 : ifree st p = Some st1 -> i_threads st1 = i_threads st.
  Proof. unfold ifree. destruct (_ !! _) as [x|]; [|done]. destruct (io_leaked x); [done|]. by intros [= <-]. Qed.
  Lemma leak_threads st p st1 : ileak st p = Some st1 -> i_threads st1 = i_threads st.
  Proof. unfold ileak. destruct (_ !! _) as [x|]; [|done]. destruct (io_leaked x); [done|]. by intros [= <-]. Qed.
  Lemma alloc_same st a v b st1 p : ialloc E st a v b = Some (st1, p) -> i_threads st1 = i_threads st /\ i_log st1 = i_log st.
  Proof. unfold ialloc. destruct (_ || _); [|done]. by intros [= <- <-]. Qed.

  Lemma step_pk u st l st' : istep E st l = Next st' ->
    pk u st' <= pk u st + match l with IPanic t => if t =? u then 1 else 0 | _ => 0 end.
  Proof.
    intros H.
    assert (forall st1 t k x, i_threads st1 = i_threads st -> i_log st1 = i_log st ->
      (t = u -> lsum panf k <= lsum panf (get_stack st t) + x) -> pk u (set_stack st1 t k) <= pk u st + x) as Hk.
    { intros st1 t k x H1 H2 Hle. rewrite (pk_set u st) by done. unfold pk. destruct (decide (t = u)) as [<-|]; [|lia].
      specialize (Hle eq_refl). lia. }
    destruct l as [t o a|t a i|t v|t|p]; simpl in H.
    - destruct (match get_stack st t with [] => true | _ => _ end); [|done].
      destruct o as [v|v|v|ty w q|ty w q|ty|ty].
      3:{ destruct (ialloc E st a v false) as [[st1 p]|] eqn:Ha; [|done]. injection H as <-. apply alloc_same in Ha as [? ?].
          apply Hk; [done|done|]. intros _. simpl. lia. }
      all: injection H as <-; apply Hk; [done|done|]; intros _; simpl; lia.
    - unfold istep_thread in H.
      destruct (get_stack st t) as [|[o b|o b|ty w q|o v|o p|o b r|o r] k] eqn:Hst; [done|..].
      + destruct (i_locks st !! _); [done|].
        destruct o; injection H as <-; try (apply Hk; [done|done|]; intros _; rewrite Hst; simpl; lia).
        match goal with |- pk u (set_stack (add_event ?s0 _) ?t0 ?k0) <= _ =>
          change (pk u (set_stack s0 t0 k0) <= pk u st + 0) end.
        apply Hk; [done|done|]. intros _. rewrite Hst. simpl. lia.
      + destruct (ireadable st _); [|done].
        destruct (ipick i _) as [p|]; destruct o; try done;
          try (injection H as <-; apply Hk; [done|done|]; intros _; rewrite Hst; simpl; lia).
        destruct b as [p|]; [|done]. destruct (ileak st p) as [st1|] eqn:Hl; [|done]. injection H as <-.
        apply Hk; [by eapply leak_threads|by eapply log_leak|]. intros _. rewrite Hst. simpl. lia.
      + done.
      + destruct (ialloc E st a v true) as [[st1 p]|] eqn:Ha; [|done]. injection H as <-. apply alloc_same in Ha as [? ?].
        apply Hk; [done|done|]. intros _. rewrite Hst. simpl. lia.
      + destruct (iread st p) as [v|]; [|done]. destruct (ireadable st _); [|done].
        destruct (candidates _ _ _); injection H as <-.
        * match goal with |- pk u (set_stack (add_event ?s0 _) ?t0 ?k0) <= _ =>
            change (pk u (set_stack s0 t0 k0) <= pk u st + 0) end.
          apply Hk; [done|done|]. intros _. rewrite Hst. simpl. lia.
        * apply Hk; [done|done|]. intros _. rewrite Hst. simpl. lia.
      + destruct b as [p|].
        * destruct (ifree st p) as [st1|] eqn:Hf; [|done]. injection H as <-.
          apply Hk; [by eapply free_threads|by eapply log_free|]. intros _. rewrite Hst. simpl. destruct r; simpl; lia.
        * injection H as <-. apply Hk; [done|done|]. intros _. rewrite Hst. simpl. destruct r; simpl; lia.
      + injection H as <-. unfold pk. simpl.
        change (get_stack (add_event _ _) u) with (get_stack (set_stack st t k) u). rewrite get_stack_set.
        destruct (Nat.eqb_spec t u) as [<-|Hne].
        * rewrite decide_True, Hst by done. simpl. destruct r; lia.
        * rewrite decide_False by done. destruct r; lia.
    - destruct (get_stack st t) as [|[] k] eqn:Hst; try done. destruct (_ && _); [|done]. injection H as <-.
      apply Hk; [done|done|]. intros _. rewrite Hst. simpl. lia.
    - unfold istep_panic in H. destruct (get_stack st t) as [|[o b|o b|ty w q|o v|o p|o b r|o r] k] eqn:Hst; try done.
      4: destruct r; try done.
      all: injection H as <-; apply Hk; [done|done|]; intros ->; rewrite Hst, Nat.eqb_refl; simpl; lia.
    - destruct (returned p _); [|done]. destruct (iread st p); [|done]. injection H as <-. unfold pk. simpl.
      change (get_stack (add_event _ _) u) with (get_stack st u). lia.
  Qed.
  Theorem panics_from_user ls st u : run (istep E) iinit ls = Some st ->
    panics u (i_log st) <= length (List.filter (λ l, match l with IPanic t => t =? u | _ => false end) ls).
  Proof.
    assert (forall ls s st, run (istep E) s ls = Some st ->
      pk u st <= pk u s + length (List.filter (λ l, match l with IPanic t => t =? u | _ => false end) ls)) as H.
    { clear. induction ls as [|l ls IH]; intros s st; simpl; [intros [= ->]; lia|].
      unfold exec. destruct (istep E s l) as [s1| | |] eqn:Hs; try done; intros Hr%IH.
      - apply (step_pk u) in Hs. destruct l as [| | |t|]; simpl in *; try lia. destruct (t =? u); simpl in *; lia.
      - destruct l as [| | |t|]; simpl in *; try lia. destruct (t =? u); simpl in *; lia.
      - destruct l as [| | |t|]; simpl in *; try lia. destruct (t =? u); simpl in *; lia. }
    intros Hr%H. unfold pk in Hr. simpl in Hr. unfold get_stack in Hr. simpl in Hr. rewrite lookup_empty in Hr. simpl in Hr. lia.
  Qed.
End panics.

(** [from_ref] with a conversion that does not borrow back as the key: every such call makes
    an allocation of its own.  No law is used. *)
From stdpp Require Import gmap list numbers.
From Verif Require Import Base InternModel InternSpec InternInv InternStep InternLaw InternFinal.
Require Import ZifyBool ZifyNat ZifyN.

Section waste.
  Context {V Q : Type} (E : ienv V Q).
  Implicit Types (st : istate V Q) (v d : V) (p : iptr) (o : iop V Q) (f g : frame V Q) (t ty s : nat).
  Implicit Types (ls : list (ilabel V Q)) (l : list (ievent V Q)) (lb : ilabel V Q).
  Notation op_ty := (op_ty E).
  Notation IInv := (IInv E).

  (** [val]: the values in the final state. *)
  Definition missed (val : nat -> option V) s o r : nat :=
    match o, r with
    | ORef _ w q, RPtr p =>
        match val (ip_ser p) with
        | Some d => if (ip_ser p =? s) && negb (ie_qeq E (ie_borrow E w d) q) then 1 else 0
        | None => 0
        end
    | _, _ => 0
    end.
  Definition mf val s f : nat :=
    match f with
    | FIns _ p => if ip_ser p =? s then 1 else 0
    | FDone o r => missed val s o r
    | FDup o _ r => missed val s o r
    | _ => 0
    end.
  Fixpoint me val s l : nat :=
    match l with [] => 0 | EvRet _ o r :: l' => missed val s o r + me val s l' | _ :: l' => me val s l' end.
  Definition lkd st s : nat := match i_objs st !! s with Some x => if io_leaked x then 1 else 0 | None => 0 end.
  Definition agree (val : nat -> option V) st : Prop :=
    forall s x, i_objs st !! s = Some x -> io_leaked x = true -> val s = Some (io_val x).
  Definition MI val st : Prop := forall s, msum (lsum (mf val s)) (i_threads st) + me val s (i_log st) <= lkd st s.

  Lemma missed_le val s o p : missed val s o (RPtr p) <= if ip_ser p =? s then 1 else 0.
  Proof.
    unfold missed. destruct o; try lia. destruct (val (ip_ser p)); [|lia].
    destruct (ip_ser p =? s); simpl; [|lia]. destruct (negb _); lia.
  Qed.

  Lemma agree_back val st lb st' : IInv st -> istep E st lb = Next st' -> agree val st' -> agree val st.
  Proof.
    intros HI [(p&v&_&_&->&->)|(t&fs&fs'&k&st1&Hst&Hm&->&Hlb'&Hc)]%istep_move Ha; [done|].
    destruct (move_ok E st t fs fs' k st1 HI Hst Hm) as [Htr HI'].
    intros s x Hx Hl. apply Ha; [|done]. apply (tr_objs _ _ _ _ _ _ _ Htr); [done|].
    pose proof (v_owned _ _ HI s) as Ho. unfold own_obj in Ho. rewrite Hx, Hl in Ho.
    pose proof (msum_stack_ge (owned s) st t) as Hge. rewrite Hst, lsum_app in Hge. lia.
  Qed.

  Lemma mi_step val st lb st' : IInv st -> istep E st lb = Next st' -> agree val st' -> MI val st -> MI val st'.
  Proof.
    intros HI Hs Ha HC. pose proof (agree_back _ _ _ _ HI Hs Ha) as Ha0.
    destruct (istep_move E _ _ _ Hs) as [(p&v&_&_&->&->)|(t&fs&fs'&k&st1&Hst&Hm&->&Hlb'&Hc)]; [done|].
    destruct (move_ok E st t fs fs' k st1 HI Hst Hm) as [Htr HI'].
    cut (forall s, lsum (mf val s) fs' + me val s (i_log st1) + lkd st s <= lsum (mf val s) fs + me val s (i_log st) + lkd st1 s).
    { intros H s. specialize (H s). specialize (HC s).
      pose proof (msum_stack (mf val s) st _ t _ (tr_new _ _ _ _ _ _ _ Htr)) as Hms.
      rewrite Hst, !lsum_app in Hms. simpl i_log.
      change (lkd (set_stack st1 t (fs' ++ k)) s) with (lkd st1 s). lia. }
    clear Htr HI'.
    assert (forall f, f ∈ fs -> frame_ok E st f) as Hfr.
    { intros f Hf. apply (v_frames _ _ HI t). rewrite Hst. apply elem_of_app. by left. }
    intros s.
    assert (forall o r, match r with RPtr _ => False | _ => True end -> missed val s o r = 0) as Hz.
    { intros o r. by destruct o, r. }
    destruct Hm; simpl lsum; try (rewrite ?Hz by done; unfold lkd; simpl; lia).
    - destruct (ialloc_spec E _ _ _ _ _ _ HI H) as (->&_&Hn&_). unfold lkd. simpl.
      destruct (decide (i_next st = s)) as [<-|]; [rewrite lookup_insert, Hn; simpl; lia|rewrite lookup_insert_ne by done; lia].
    - by destruct o.
    - destruct o; try done. assert (missed val s (ORef ty w q) (RPtr p) = 0) as ->; [|lia].
      apply elem_of_list_In, filter_In in H as [Hin Hm]. apply elem_of_list_In in Hin.
      unfold iread in Hm. destruct (i_objs st !! ip_ser p) as [x|] eqn:Hx; [|done]. simpl in Hm.
      unfold missed. destruct (val (ip_ser p)) as [d|] eqn:Hv; [|done].
      assert (io_leaked x = true) as Hl.
      { simpl in Hin. rewrite (v_current _ _ HI) in Hin. apply elem_of_list_fmap in Hin as ([p' v']&Heq&Hin). simpl in Heq. subst p'.
        apply inserted_in in Hin as (t'&o'&Hin&_). apply (v_log _ _ HI) in Hin as [(Hx'&_) _]. rewrite Hx in Hx'. by injection Hx' as ->. }
      rewrite (Ha0 _ _ Hx Hl) in Hv. injection Hv as <-. apply andb_true_iff in Hm as [_ Hm]. rewrite Hm. by rewrite andb_false_r.
    - destruct (Hfr (FGet (OBox v) (Some p))) as [(p'&[= <-]&Hx&_) ?]; [by left|]. unfold ileak in H0. rewrite Hx in H0.
      simpl in H0. injection H0 as <-. unfold lkd. simpl. destruct (Nat.eqb_spec (ip_ser p) s) as [<-|].
      + rewrite lookup_insert, Hx. simpl. lia.
      + rewrite lookup_insert_ne by done. lia.
    - destruct (ialloc_spec E _ _ _ _ _ _ HI H) as (->&Hp&Hn&_). unfold lkd. rewrite Hp. simpl.
      destruct (Nat.eqb_spec (i_next st) s) as [<-|]; [rewrite lookup_insert, Hn; simpl; lia|rewrite lookup_insert_ne by done; lia].
    - pose proof (missed_le val s o p). unfold lkd. simpl. lia.
    - pose proof (missed_le val s o p). unfold lkd. simpl. lia.
    - unfold ifree in H. unfold lkd. destruct (i_objs st !! ip_ser p) as [x|] eqn:Hx; [|done].
      destruct (io_leaked x) eqn:Hl; [done|]. injection H as <-. simpl.
      destruct (decide (ip_ser p = s)) as [<-|]; [rewrite lookup_delete, Hx, Hl; lia|rewrite lookup_delete_ne by done; lia].
  Qed.

  Lemma reach_mi val ls st : run (istep E) iinit ls = Some st -> agree val st -> MI val st.
  Proof.
    revert st. induction ls as [|lb ls IH] using rev_ind; intros st Hr Ha.
    { injection Hr as <-. intros s. simpl. rewrite msum_empty. lia. }
    rewrite run_snoc in Hr. destruct (run (istep E) iinit ls) as [st0|] eqn:Hr0; [|done].
    pose proof (reach_inv E _ _ Hr0) as HI. unfold exec in Hr.
    destruct (istep E st0 lb) as [st1| | |] eqn:Hs; try done; injection Hr as ->; try by apply IH.
    eapply mi_step; [done|done|done|]. apply IH; [done|]. by eapply agree_back.
  Qed.

  Lemma me_app val s l1 l2 : me val s (l1 ++ l2) = me val s l1 + me val s l2.
  Proof. induction l1 as [|[] l1 IH]; simpl; lia. Qed.

  Lemma missed_fresh ls st l1 l2 l3 t1 ty1 w1 q1 p1 d1 t2 ty2 w2 q2 p2 d2 :
    run (istep E) iinit ls = Some st ->
    i_log st = l1 ++ EvRet t2 (ORef ty2 w2 q2) (RPtr p2) :: l2 ++ EvRet t1 (ORef ty1 w1 q1) (RPtr p1) :: l3 ->
    iread st p1 = Some d1 -> ie_qeq E (ie_borrow E w1 d1) q1 = false ->
    iread st p2 = Some d2 -> ie_qeq E (ie_borrow E w2 d2) q2 = false ->
    ip_ser p1 <> ip_ser p2 /\ (is_zst E d1 = false -> is_zst E d2 = false -> iptr_eqb p1 p2 = false).
  Proof.
    intros Hr Hl Hd1 Hq1 Hd2 Hq2. pose proof (reach_inv E _ _ Hr) as HI.
    assert (ip_ser p1 <> ip_ser p2) as Hne.
    { intros Heq. pose proof (reach_mi (λ s, io_val <$> i_objs st !! s) ls st Hr) as HM.
      assert (agree (λ s, io_val <$> i_objs st !! s) st) as Ha. { intros s x Hx _. by rewrite Hx. }
      specialize (HM Ha (ip_ser p1)). rewrite Hl, me_app in HM. simpl in HM. rewrite me_app in HM. simpl in HM.
      unfold iread in Hd1, Hd2. rewrite <- Heq in HM. rewrite <- Heq in Hd2. rewrite Hd1 in HM.
      assert (d2 = d1) as -> by congruence. rewrite Hq1, Hq2, Nat.eqb_refl in HM. simpl in HM.
      unfold lkd in HM. destruct (i_objs st !! ip_ser p1) as [x|]; [destruct (io_leaked x); lia|lia]. }
    split; [done|]. intros Hz1 Hz2. destruct (iptr_eqb p1 p2) eqn:He; [exfalso|done].
    unfold iptr_eqb in He. apply andb_true_iff in He as [Hadr%Nat.eqb_eq _].
    assert (EvRet t1 (ORef ty1 w1 q1) (RPtr p1) ∈ i_log st) as Hy1.
    { rewrite Hl. apply elem_of_app. right. right. apply elem_of_app. right. by left. }
    assert (EvRet t2 (ORef ty2 w2 q2) (RPtr p2) ∈ i_log st) as Hy2.
    { rewrite Hl. apply elem_of_app. right. by left. }
    apply (v_log _ _ HI) in Hy1 as [v1 Hp1], Hy2 as [v2 Hp2].
    pose proof (points_read E _ _ _ _ _ Hp1). pose proof (points_read E _ _ _ _ _ Hp2).
    assert (v1 = d1) as -> by congruence. assert (v2 = d2) as -> by congruence.
    apply Hne. eapply (v_addr _ _ HI); [apply Hp1|apply Hp2|done|done|done].
  Qed.
End waste.

(** Interior mutability of values of [Intern]. *)
From stdpp Require Import gmap list numbers.
From Verif Require Import Base InternModel InternSpec InternInv InternStep InternLaw InternFinal InternMore MutModel MutSpec MutArc.
Require Import ZifyBool ZifyNat ZifyN.

(** ** Any store: memory stays safe *)
Section any.
  Context {V Q : Type} (E : ienv V Q).
  Implicit Types (st : istate V Q) (v d : V) (p : iptr) (o : iop V Q) (f g : frame V Q) (t ty s : nat).
  Implicit Types (l L : list (ievent V Q)) (lb : ilabel V Q).
  Notation op_ty := (op_ty E).
  Notation IInv := (IInv E).

  Definition with_log st L : istate V Q :=
    IState (i_objs st) (i_slots st) (i_locks st) (i_poison st) (i_threads st) (i_next st) L.
  (** Two states that differ in their logs only. *)
  Definition logs L st st' : Prop := st' = with_log st (i_log st') /\ exists es, i_log st' = es ++ L.
  Definition rets L L' : Prop := forall t o r, EvRet t o r ∈ L <-> EvRet t o r ∈ L'.
  Lemma returned_in p L : returned p L = true <-> exists t o, EvRet t o (RPtr p) ∈ L.
  Proof.
    unfold returned. rewrite existsb_exists. split.
    - intros ([t o q v|u|t o [q| | | |]|q v]&Hin&H); try done. apply bool_decide_eq_true in H as ->. exists t, o. by apply elem_of_list_In.
    - intros (t&o&H). exists (EvRet t o (RPtr p)). split; [by apply elem_of_list_In|]. by apply bool_decide_eq_true.
  Qed.
  Lemma rets_returned p L L' : rets L L' -> returned p L = returned p L'.
  Proof. intros H. apply eq_true_iff_eq. rewrite !returned_in. by setoid_rewrite (H _ _ _). Qed.

  Lemma log_step st L lb : rets (i_log st) L ->
    match istep E st lb with
    | Next st' => exists es, i_log st' = es ++ i_log st /\ istep E (with_log st L) lb = Next (with_log st' (es ++ L))
    | Blocked => istep E (with_log st L) lb = Blocked
    | Illegal => istep E (with_log st L) lb = Illegal
    | UB => istep E (with_log st L) lb = UB
    end.
  Proof.
    intros HL.
    destruct lb as [t o a|t a i|t v|t|p]; simpl; change (get_stack (with_log st L)) with (get_stack st).
    - destruct (match get_stack st t with [] => true | _ => _ end); [|done].
      destruct o; try (by exists []).
      unfold ialloc. change (addr_free E (with_log st L) a) with (addr_free E st a).
      destruct (_ || _); [|done]. by exists [].
    - unfold istep_thread. change (get_stack (with_log st L)) with (get_stack st).
      change (i_locks (with_log st L)) with (i_locks st).
      destruct (get_stack st t) as [|[o b|o b|ty w q|o v|o p|o b r|o r] k]; [done|..].
      + destruct (i_locks st !! slot E (op_ty o)); [done|]. destruct o; try (by exists []). by exists [EvClr ty].
      + change (set_of E (with_log st L)) with (set_of E st).
        change (ireadable (with_log st L)) with (ireadable st).
        change (candidates (with_log st L)) with (candidates st).
        destruct (ireadable st _); [|done].
        destruct (ipick i _); destruct o; try done; try (by exists []).
        destruct b as [p|]; [|done]. unfold ileak. simpl. destruct (i_objs st !! ip_ser p) as [x|]; [|done].
        destruct (io_leaked x); [done|]. by exists [].
      + done.
      + unfold ialloc. change (addr_free E (with_log st L) a) with (addr_free E st a).
        destruct (_ || _); [|done]. by exists [].
      + change (set_of E (with_log st L)) with (set_of E st).
        change (ireadable (with_log st L)) with (ireadable st).
        change (candidates (with_log st L)) with (candidates st).
        change (iread (with_log st L)) with (iread st).
        destruct (iread st p) as [v|]; [|done]. destruct (ireadable st _); [|done].
        destruct (candidates st _ _); [by exists [EvIns t o p v]|by exists []].
      + destruct b as [p|]; [|by exists []]. unfold ifree. simpl. destruct (i_objs st !! ip_ser p) as [x|]; [|done].
        destruct (io_leaked x); [done|]. by exists [].
      + by exists [EvRet t o r].
    - destruct (get_stack st t) as [|[o b|o b|ty w q|o v'|o p|o b r|o r] k]; try done.
      destruct (_ && _); [|done]. by exists [].
    - unfold istep_panic. change (get_stack (with_log st L)) with (get_stack st).
      destruct (get_stack st t) as [|[o b|o b|ty w q|o v'|o p|o b r|o r] k]; try done; try (by exists []).
      destruct r; try done; by exists [].
    - rewrite <- (rets_returned _ _ _ HL). destruct (returned p (i_log st)); [|done].
      change (iread (with_log st L)) with (iread st). destruct (iread st p) as [v|]; [|done]. by exists [EvRead p v].
  Qed.

  (** ** A handle that a client has, or will get, is not about to be inserted *)
  Definition frame_ret f : option iptr :=
    match f with FDone _ (RPtr p) | FDup _ _ (RPtr p) => Some p | _ => None end.
  Definition out st p : Prop :=
    (exists t f, f ∈ get_stack st t /\ frame_ret f = Some p) \/ exists t o, EvRet t o (RPtr p) ∈ i_log st.
  Definition DI st : Prop := forall p, out st p -> msum (lsum (insf (ip_ser p))) (i_threads st) = 0.

  Lemma out_leaked st p : IInv st -> out st p -> exists ty, good E st ty p.
  Proof.
    intros HI [(t&f&Hf&Hr)|(t&o&Hin)].
    - pose proof (v_frames _ _ HI _ _ Hf) as H. destruct f as [o b|o b|ty w q|o v|o q|o b [q| | | |]|o [q| | | |]]; simpl in Hr; try done;
        injection Hr as ->; simpl in H; [destruct H as [_ H]|]; eauto.
    - pose proof (v_log _ _ HI _ Hin) as H. simpl in H. eauto.
  Qed.

  Lemma di_move st t fs fs' k st1 : IInv st -> CI st -> DI st -> get_stack st t = fs ++ k -> move E st t fs fs' st1 ->
    DI (set_stack st1 t (fs' ++ k)).
  Proof.
    intros HI HC HD Hst Hm.
    destruct (move_ok E st t fs fs' k st1 HI Hst Hm) as [Htr HI'].
    assert (forall s, msum (lsum (insf s)) (i_threads (set_stack st1 t (fs' ++ k))) + lsum (insf s) fs =
      lsum (insf s) fs' + msum (lsum (insf s)) (i_threads st)) as Hms.
    { intros s. pose proof (msum_stack (insf s) st _ t _ (tr_new _ _ _ _ _ _ _ Htr)) as Hms.
      rewrite Hst, !lsum_app in Hms. lia. }
    assert (forall u f, f ∈ get_stack (set_stack st1 t (fs' ++ k)) u -> f ∈ fs' \/ f ∈ get_stack st u) as Hg.
    { intros u f. rewrite (stack_upd st _ t _ u (tr_new _ _ _ _ _ _ _ Htr)). destruct (decide (t = u)) as [<-|]; [|by right].
      rewrite Hst, !elem_of_app. tauto. }
    intros p Hp. specialize (Hms (ip_ser p)).
    assert (out st p -> lsum (insf (ip_ser p)) fs' <= lsum (insf (ip_ser p)) fs ->
      msum (lsum (insf (ip_ser p))) (i_threads (set_stack st1 t (fs' ++ k))) = 0) as Hold.
    { intros Ho Hle. pose proof (HD p Ho). lia. }
    assert (forall f, f ∈ fs' -> frame_ret f = Some p -> (exists g, g ∈ fs /\ frame_ret g = Some p) \/
      (exists v, (p, v) ∈ inserted E (frame_ty E f) (i_log st)) \/ exists o, fs = [FIns o p]) as Hnew.
    { intros f Hf Hr. destruct Hm; first [apply elem_of_list_singleton in Hf; subst f|by apply elem_of_nil in Hf]; simpl in *; try done.
      - injection Hr as ->. right; left. destruct (cand_ins E st _ _ _ HI H) as (d&?&_). eauto.
      - injection Hr as ->. right; left. destruct (cand_ins E st _ _ _ HI H) as (d&?&_). eauto.
      - injection Hr as ->. right; right. eauto.
      - injection Hr as ->. right; right. eauto.
      - left. eexists. split; [by left|done].
      - left. eexists. split; [by left|done]. }
    assert (out st p \/ (exists ty v, (p, v) ∈ inserted E ty (i_log st)) \/ exists o, fs = [FIns o p]) as Hp'.
    { destruct Hp as [(u&f&Hf&Hr)|(u&o&Hin)].
      - destruct (Hg _ _ Hf) as [Hf'|?]; [|left; left; eauto].
        destruct (Hnew f Hf' Hr) as [(g&Hgf&Hgr)|[(v&?)|?]]; [|right; left; eauto|right; right; eauto].
        left. left. exists t, g. split; [|done]. rewrite Hst. apply elem_of_app. by left.
      - simpl in Hin. assert (EvRet u o (RPtr p) ∈ i_log st \/ fs = [FDone o (RPtr p)]) as [?| ->].
        { destruct Hm; simpl in Hin; try (by left); try (apply elem_of_cons in Hin as [Hin|Hin]; [|by left]); try done.
          - left. by destruct (ialloc_spec E _ _ _ _ _ _ HI H) as (->&_).
          - left. unfold ileak in H0. destruct (i_objs st !! ip_ser p0) as [x|]; [|done]. destruct (io_leaked x); [done|]. by injection H0 as <-.
          - left. by destruct (ialloc_spec E _ _ _ _ _ _ HI H) as (->&_).
          - left. unfold ifree in H. destruct (i_objs st !! ip_ser p0) as [x|]; [|done]. destruct (io_leaked x); [done|]. by injection H as <-.
          - injection Hin as -> -> ->. by right. }
        + left. right. eauto.
        + left. left. exists t, (FDone o (RPtr p)). split; [|done]. rewrite Hst. by left. }
    destruct Hp' as [Ho|[(ty&v&Hin)|(o&->)]].
    - apply Hold; [done|]. destruct (out_leaked st p HI Ho) as (ty&v&Hpt). destruct Hpt as (Hpt&_). destruct Hm; simpl; try lia.
      + unfold ileak in H0. destruct (Nat.eqb_spec (ip_ser p0) (ip_ser p)) as [Heq|]; [|lia]. rewrite Heq, Hpt in H0. done.
      + destruct (ialloc_spec E _ _ _ _ _ _ HI H) as (_&Hq&Hn&_). rewrite Hq. simpl.
        destruct (Nat.eqb_spec (i_next st) (ip_ser p)) as [Heq|]; [|lia]. by rewrite <- Heq, Hn in Hpt.
    - pose proof (HC (ip_ser p)) as HCp.
      assert (0 < inse (ip_ser p) (i_log st)) as Hi.
      { assert (exists t o, EvIns t o p v ∈ i_log st) as (u&o&He).
        { clear -Hin. induction (i_log st) as [|e L IH]; simpl in Hin; [by apply elem_of_nil in Hin|].
          destruct e as [u o q w|u|u o r|q w].
          - destruct (op_ty o =? ty).
            + apply elem_of_cons in Hin as [[= -> ->]|Hin]; [exists u, o; by left|]. destruct (IH Hin) as (u'&o'&?). exists u', o'. by right.
            + destruct (IH Hin) as (u'&o'&?). exists u', o'. by right.
          - destruct (u =? ty); [by apply elem_of_nil in Hin|]. destruct (IH Hin) as (u'&o'&?). exists u', o'. by right.
          - destruct (IH Hin) as (u'&o'&?). exists u', o'. by right.
          - destruct (IH Hin) as (u'&o'&?). exists u', o'. by right. }
        by apply inse_in in He. }
      assert (msum (lsum (insf (ip_ser p))) (i_threads st) = 0 /\ exists x, i_objs st !! ip_ser p = Some x /\ io_leaked x = true) as [H0 (x&Hx&Hlk)].
      { unfold leaked in HCp. destruct (i_objs st !! ip_ser p) as [x|]; [|lia]. destruct (io_leaked x) eqn:Hlx; [|lia]. split; [lia|eauto]. }
      cut (lsum (insf (ip_ser p)) fs' <= lsum (insf (ip_ser p)) fs); [lia|]. destruct Hm; simpl; try lia.
      + unfold ileak in H1. destruct (Nat.eqb_spec (ip_ser p0) (ip_ser p)) as [Heq|]; [|lia]. by rewrite Heq, Hx, Hlk in H1.
      + destruct (ialloc_spec E _ _ _ _ _ _ HI H) as (_&Hq&Hn&_). rewrite Hq. simpl.
        destruct (Nat.eqb_spec (i_next st) (ip_ser p)) as [Heq|]; [|lia]. by rewrite <- Heq, Hn in Hx.
    - pose proof (HC (ip_ser p)) as HCp.
      assert (msum (lsum (insf (ip_ser p))) (i_threads st) <= 1) as Hle.
      { unfold leaked in HCp. destruct (i_objs st !! ip_ser p) as [x|]; [destruct (io_leaked x)|]; lia. }
      assert (lsum (insf (ip_ser p)) [FIns o p : frame V Q] = 1) as H1 by (simpl; by rewrite Nat.eqb_refl).
      assert (lsum (insf (ip_ser p)) fs' = 0); [|lia]. inversion Hm; subst; simpl; lia.
  Qed.

  Lemma di_read st p v : DI st -> DI (add_event st (EvRead p v)).
  Proof.
    intros HD q [H|(t&o&H)]; apply HD; [by left|]. right. exists t, o. apply elem_of_cons in H as [?|H]; [done|done].
  Qed.
  Lemma di_step st lb st' : IInv st -> CI st -> DI st -> istep E st lb = Next st' -> DI st'.
  Proof.
    intros HI HC HD [(p&v&_&_&->&->)|(t&fs&fs'&k&st1&Hst&Hm&->&Hlb'&Hc)]%istep_move; [by apply di_read|by eapply di_move].
  Qed.

  (** ** Rewriting history: the object had the new value from the start *)
  Definition edit p v' (e : ievent V Q) : ievent V Q :=
    match e with
    | EvIns t o q v => if ip_ser q =? ip_ser p then EvIns t (ONew v') q v' else e
    | EvRead q v => if ip_ser q =? ip_ser p then EvRead q v' else e
    | _ => e
    end.
  Lemma edit_rets p v' L : rets (edit p v' <$> L) L.
  Proof.
    intros t o r. rewrite elem_of_list_fmap. split.
    - intros ([]&He&Hin); simpl in He; try (destruct (_ =? _); done); try done. by injection He as -> -> ->.
    - intros H. eexists. split; [|exact H]. done.
  Qed.
  Lemma edit_inse p v' L s : inse s (edit p v' <$> L) = inse s L.
  Proof. induction L as [|[t o q v|u|t o r|q v] L IH]; csimpl; try done; try (destruct (_ =? ip_ser p); simpl; congruence). Qed.
  Lemma edit_inserted p v' L ty : (forall t o q v, EvIns t o q v ∈ L -> ip_ser q = ip_ser p -> op_ty o = ie_ty E v') ->
    (inserted E ty (edit p v' <$> L)).*1 = (inserted E ty L).*1.
  Proof.
    intros H. induction L as [|[t o q v|u|t o r|q v] L IH]; csimpl; [done|..].
    - assert (op_ty o = ie_ty E v' \/ ip_ser q <> ip_ser p) as Ho.
      { destruct (decide (ip_ser q = ip_ser p)); [left|by right]. eapply H; [by left|done]. }
      assert ((inserted E ty (edit p v' <$> L)).*1 = (inserted E ty L).*1) as IH'.
      { apply IH. intros; eapply H; [by right|done]. }
      destruct (Nat.eqb_spec (ip_ser q) (ip_ser p)); csimpl.
      + destruct Ho as [->|]; [|done]. destruct (_ =? ty); csimpl; congruence.
      + destruct (op_ty o =? ty); csimpl; congruence.
    - destruct (u =? ty); [done|]. apply IH. intros; eapply H; [by right|done].
    - apply IH. intros; eapply H; [by right|done].
    - destruct (ip_ser q =? ip_ser p); csimpl; apply IH; intros; eapply H; try done; by right.
  Qed.

  Lemma store_points st p x v' ty q d b : i_objs st !! ip_ser p = Some x -> points E st ty q d b -> forall L,
    (ip_ser q <> ip_ser p -> points E (with_log (istore st p x v') L) ty q d b) /\
    (ip_ser q = ip_ser p -> d = io_val x /\ (ie_ty E v' = ie_ty E (io_val x) -> ie_meta E v' = ie_meta E (io_val x) ->
        points E (with_log (istore st p x v') L) ty q v' b)).
  Proof.
    intros Hx (H1&H2&H3) L. split.
    - intros Hne. split; [simpl; by rewrite lookup_insert_ne|done].
    - intros Heq. rewrite Heq, Hx in H1. injection H1 as ->. simpl. split; [done|]. intros Ht Hm.
      split; [simpl; by rewrite Heq, lookup_insert|]. split; congruence.
  Qed.

  Lemma store_inv st p x v' : IInv st -> CI st -> DI st -> out st p ->
    i_objs st !! ip_ser p = Some x -> ie_ty E v' = ie_ty E (io_val x) -> ie_meta E v' = ie_meta E (io_val x) ->
    let st' := with_log (istore st p x v') (edit p v' <$> i_log st) in IInv st' /\ CI st' /\ DI st'.
  Proof.
    intros HI HC HD Ho Hx Hty Hmt st'.
    assert (i_threads st' = i_threads st) as Hth by done.
    assert (forall t, get_stack st' t = get_stack st t) as Hgs by done.
    assert (exists ty0 d0, points E st ty0 p d0 true) as (ty0&d0&Hp0).
    { destruct (out_leaked st p HI Ho) as (ty0&d0&?). eauto. }
    assert (io_leaked x = true) as Hlk. { destruct Hp0 as (H&_). rewrite Hx in H. by injection H as ->. }
    assert (is_zst E v' = is_zst E (io_val x)) as Hz by (unfold is_zst; by rewrite Hty, Hmt).
    assert (forall s y, i_objs st' !! s = Some y -> exists y0, i_objs st !! s = Some y0 /\ io_addr y0 = io_addr y /\
      is_zst E (io_val y0) = is_zst E (io_val y) /\ ie_ty E (io_val y0) = ie_ty E (io_val y) /\ ie_meta E (io_val y0) = ie_meta E (io_val y) /\ io_leaked y0 = io_leaked y) as Hob.
    { intros s y Hy. simpl in Hy. destruct (decide (ip_ser p = s)) as [<-|].
      - rewrite lookup_insert in Hy. injection Hy as <-. exists x. simpl. by split_and!.
      - rewrite lookup_insert_ne in Hy by done. exists y. done. }
    assert (forall ty q, good E st ty q -> good E st' ty q) as Hgood.
    { intros ty q (d&Hd). destruct (store_points st p x v' ty q d true Hx Hd (edit p v' <$> i_log st)) as [H1 H2].
      destruct (decide (ip_ser q = ip_ser p)) as [He|]; [|exists d; by apply H1].
      destruct (H2 He) as [_ H]. exists v'. by apply H. }
    assert (forall o b, box_ok E st o b -> box_ok E st' o b) as Hbox.
    { intros o b H. destruct o; simpl in *; try done. destruct H as (q&->&Hq). exists q. split; [done|].
      destruct (store_points st p x v' _ q _ false Hx Hq (edit p v' <$> i_log st)) as [H1 H2].
      apply H1. intros He. destruct Hq as (Hq&_). rewrite He, Hx in Hq. injection Hq as ->. done. }
    assert (forall ty r, res_ok E st ty r -> res_ok E st' ty r) as Hres by (intros ty []; simpl; auto).
    assert (forall t o q, FIns o q ∈ get_stack st t -> ip_ser q <> ip_ser p) as Hni.
    { intros t o q Hf He. pose proof (HD p Ho) as H0. pose proof (msum_stack_ge (insf (ip_ser p)) st t) as H1.
      apply (lsum_ge (insf (ip_ser p))) in Hf. simpl in Hf. rewrite He, Nat.eqb_refl in Hf. lia. }
    split_and!.
    - destruct HI as [I1 I2 I3 I4 I5 I6 I7 I8 I9 I10 I11]. constructor; try done.
      + intros s y (y0&Hy&_)%Hob. by apply I1 in Hy.
      + intros s y (y0&Hy&Ha&Hzz&Htt&Hmm&_)%Hob. apply I2 in Hy. unfold addr_ok in *. by rewrite <- Ha, <- Hzz, <- Htt, <- Hmm.
      + intros s1 s2 y1 y2 (z1&Hz1&Ha1&Hzz1&_)%Hob (z2&Hz2&Ha2&Hzz2&_)%Hob. rewrite <- Ha1, <- Hzz1, <- Ha2, <- Hzz2. eauto.
      + intros ty. change (set_of E st' ty) with (set_of E st ty). rewrite I6. symmetry. apply edit_inserted.
        intros t o q v Hin He. destruct (I10 _ Hin) as [Hpt _].
        destruct (store_points st p x v' _ q _ true Hx Hpt []) as [_ H]. destruct (H He) as [-> _]. destruct Hpt as (_&_&<-). done.
      + intros t f Hf. rewrite Hgs in Hf. pose proof (I7 t f Hf) as Hok.
        destruct f as [o b|o b|ty w q|o v|o q|o b r|o r]; simpl in Hok |- *; auto.
        * destruct Hok; split; auto.
        * destruct Hok as (v&Hv&Hs). exists v. split; [|done].
          apply (store_points st p x v' _ q _ true Hx Hv). by eapply Hni.
        * destruct Hok; split; auto.
      + intros s. rewrite Hth, I8. unfold own_obj. simpl. destruct (decide (ip_ser p = s)) as [<-|].
        * by rewrite lookup_insert, Hx.
        * by rewrite lookup_insert_ne.
      + intros e He. simpl in He. apply elem_of_list_fmap in He as (e0&->&He0). pose proof (I10 e0 He0) as Hok.
        destruct e0 as [t o q v|u|t o r|q v]; simpl in Hok |- *.
        * destruct Hok as [Hpt Hs].
          destruct (store_points st p x v' _ q _ true Hx Hpt (edit p v' <$> i_log st)) as [H1 H2].
          destruct (Nat.eqb_spec (ip_ser q) (ip_ser p)) as [He|Hne]; simpl.
          -- destruct (H2 He) as [-> H]. split; [|done]. destruct Hpt as (_&_&Hpt). rewrite Hty, Hpt. by apply H.
          -- split; [by apply H1|done].
        * done.
        * destruct r; auto.
        * destruct Hok as [ty Hpt].
          destruct (store_points st p x v' _ q _ true Hx Hpt (edit p v' <$> i_log st)) as [H1 H2].
          destruct (Nat.eqb_spec (ip_ser q) (ip_ser p)) as [He|Hne]; simpl; exists ty; [|by apply H1].
          destruct (H2 He) as [-> H]. by apply H.
    - intros s. specialize (HC s). simpl. rewrite edit_inse. unfold leaked in *. simpl.
      destruct (decide (ip_ser p = s)) as [<-|]; [|by rewrite lookup_insert_ne]. rewrite lookup_insert. by rewrite Hx in HC.
    - intros q [Hq|(t&o&Hq)]; apply HD; [by left|]. right. exists t, o. by apply (edit_rets p v' (i_log st)).
  Qed.

  (** ** Reachable states *)
  Definition MI st : Prop := exists L, rets (i_log st) L /\ IInv (with_log st L) /\ CI (with_log st L) /\ DI (with_log st L).

  Lemma rets_app es L L' : rets L L' -> rets (es ++ L) (es ++ L').
  Proof. intros H t o r. rewrite !elem_of_app. by rewrite (H t o r). Qed.
  Lemma mstep_ok st ml : MI st -> int_mstep E st ml <> UB /\ forall st', int_mstep E st ml = Next st' -> MI st'.
  Proof.
    intros (L&HL&HI&HC&HD). destruct ml as [lb|[p v]]; simpl.
    - pose proof (log_step st L lb HL) as H. split.
      + intros Hu. rewrite Hu in H. by apply (istep_safe E _ _ HI) in H.
      + intros st' Hs. rewrite Hs in H. destruct H as (es&He&Hs').
        exists (es ++ L). split_and!.
        * rewrite He. by apply rets_app.
        * by eapply istep_inv.
        * by eapply ci_step.
        * by eapply di_step.
    - destruct (returned p (i_log st)) eqn:Hr; [|done].
      assert (out (with_log st L) p) as Ho.
      { right. rewrite (rets_returned _ _ _ HL) in Hr. by apply returned_in. }
      destruct (out_leaked _ _ HI Ho) as (ty&d&Hd&_). simpl in Hd. rewrite Hd. simpl.
      split; [by destruct (_ && _)|]. intros st'. destruct (_ && _) eqn:Hc; [|done]. intros [= <-].
      apply andb_true_iff in Hc as [Ht%Nat.eqb_eq Hm%Nat.eqb_eq].
      exists (edit p v <$> L). destruct (store_inv (with_log st L) p _ v HI HC HD Ho Hd Ht Hm) as (H1&H2&H3). split_and!; try done.
      intros t o r. rewrite (HL t o r). symmetry. apply edit_rets.
  Qed.
  Lemma mi_init : MI iinit.
  Proof.
    exists []. split_and!; [done|apply iinv_init|apply ci_init|]. intros p [(t&f&Hf&_)|(t&o&H)]; [|by apply elem_of_nil in H].
    unfold get_stack in Hf. simpl in Hf. by apply elem_of_nil in Hf.
  Qed.
  Lemma mrun_ok ls : exists st, run (int_mstep E) iinit ls = Some st /\ MI st.
  Proof.
    induction ls as [|l ls IH] using rev_ind; [exists iinit; split; [done|apply mi_init]|].
    destruct IH as (st&Hr&HM). rewrite run_snoc, Hr. unfold exec. destruct (mstep_ok st l HM) as [H1 H2].
    destruct (int_mstep E st l) as [st'| | |]; eauto. done.
  Qed.

  Theorem intern_stores_safe ls : exists st, run (int_mstep E) iinit ls = Some st /\
    (forall t o p, EvRet t o (RPtr p) ∈ i_log st -> exists x, i_objs st !! ip_ser p = Some x /\
       io_addr x = ip_addr p /\ io_leaked x = true /\ ie_ty E (io_val x) = op_ty o /\ ie_meta E (io_val x) = ip_meta p) /\
    (forall s1 s2 x1 x2, i_objs st !! s1 = Some x1 -> i_objs st !! s2 = Some x2 ->
       is_zst E (io_val x1) = false -> is_zst E (io_val x2) = false -> io_addr x1 = io_addr x2 -> s1 = s2).
  Proof.
    destruct (mrun_ok ls) as (st&Hr&L&HL&HI&_&_). exists st. split_and!; [done| |].
    - intros t o p Hin. apply HL in Hin. destruct (v_log _ _ HI _ Hin) as (d&Hd&Hm&Ht). simpl in Hd.
      eexists. split; [exact Hd|]. by split_and!.
    - exact (v_addr _ _ HI).
  Qed.
  Theorem intern_stores_persist ls2 st1 st2 t o p :
    EvRet t o (RPtr p) ∈ i_log st1 -> run (int_mstep E) st1 ls2 = Some st2 ->
    EvRet t o (RPtr p) ∈ i_log st2.
  Proof.
    intros Hin. revert st2. induction ls2 as [|l ls2 IH] using rev_ind; intros st2 Hr2; [by injection Hr2 as <-|].
    rewrite run_snoc in Hr2. destruct (run (int_mstep E) st1 ls2) as [s|]; [|done]. specialize (IH _ eq_refl).
    unfold exec in Hr2. destruct (int_mstep E s l) as [s'| | |] eqn:Hs; try done; injection Hr2 as <-; try done.
    destruct l as [lb|[q v]]; simpl in Hs.
    - pose proof (log_step s (i_log s) lb) as H. rewrite Hs in H. destruct H as (es&->&_); [done|]. apply elem_of_app. by right.
    - destruct (returned q (i_log s)); [|done]. destruct (i_objs s !! ip_ser q); [|done]. destruct (_ && _); [|done]. by injection Hs as <-.
  Qed.
End any.

(** ** Stores that Eq, Hash and Borrow do not see *)
Section sim.
  Context {V Q : Type} (E : ienv V Q).
  Implicit Types (st : istate V Q) (v d : V) (p : iptr) (o : iop V Q) (f : frame V Q) (t ty s : nat).
  Notation ilike := (ilike E).
  Notation iunseen := (iunseen E).

  Lemma iu_refl v : iunseen v v.
  Proof. by constructor. Qed.
  Lemma iu_sym v w : iunseen v w -> iunseen w v.
  Proof. intros [H1 H2 H3 H4 H5]. constructor; [done..| |done]. intros u. by destruct (H4 u). Qed.
  Lemma iu_trans u v w : iunseen u v -> iunseen v w -> iunseen u w.
  Proof.
    intros [H1 H2 H3 H4 H5] [G1 G2 G3 G4 G5]. constructor; [congruence..| |].
    - intros x. destruct (H4 x), (G4 x). split; congruence.
    - intros x q. by rewrite H5.
  Qed.
  Lemma iu_zst v w : iunseen v w -> is_zst E v = is_zst E w.
  Proof. intros H. unfold is_zst. by rewrite (iu_ty _ _ _ H), (iu_meta _ _ _ H). Qed.
  Lemma iu_key o v w : iunseen v w -> key_match E o v = key_match E o w.
  Proof.
    intros H. destruct o; simpl; try done; unfold seen; rewrite (iu_hash _ _ _ H); f_equal;
      first [apply (iu_eq _ _ _ H)|apply (iu_borrow _ _ _ H)].
  Qed.
  Lemma iu_ins u u' v w : iunseen u u' -> iunseen v w -> ins_match E u v = ins_match E u' w.
  Proof.
    intros H G. unfold ins_match, seen. rewrite (iu_hash _ _ _ H), (iu_hash _ _ _ G). f_equal.
    rewrite (proj1 (iu_eq _ _ _ H v)). apply (iu_eq _ _ _ G).
  Qed.

  Lemma ilike_read st st' p : ilike st st' -> option_Forall2 iunseen (iread st p) (iread st' p).
  Proof.
    intros H. unfold iread. pose proof (il_objs _ _ _ H (ip_ser p)) as Ho.
    inversion Ho as [x y (_&_&?) Hx Hy|]; simpl; by constructor.
  Qed.
  Lemma ilike_stack st st' t : ilike st st' -> get_stack st t = get_stack st' t.
  Proof. intros H. unfold get_stack. by rewrite (il_threads _ _ _ H). Qed.
  Lemma ilike_set st st' ty : ilike st st' -> set_of E st ty = set_of E st' ty.
  Proof. intros H. unfold set_of, container. by rewrite (il_slots _ _ _ H). Qed.
  Lemma ilike_readable st st' ps : ilike st st' -> ireadable st ps = ireadable st' ps.
  Proof.
    intros H. induction ps as [|p ps IH]; [done|]. simpl. rewrite IH. f_equal.
    pose proof (ilike_read st st' p H) as Hr. by inversion Hr.
  Qed.
  Lemma ilike_cand st st' (f g : V -> bool) ps : ilike st st' -> (forall v w, iunseen v w -> f v = g w) ->
    candidates st f ps = candidates st' g ps.
  Proof.
    intros H Hf. unfold candidates. induction ps as [|p ps IH]; [done|]. simpl. rewrite IH.
    pose proof (ilike_read st st' p H) as Hr. inversion Hr as [v w Hu|]; [|done]. by rewrite (Hf _ _ Hu).
  Qed.
  Lemma ilike_free st st' a : ilike st st' -> addr_free E st a = addr_free E st' a.
  Proof.
    intros H. unfold addr_free. apply bool_decide_ext. split; intros Hm s y Hy; pose proof (il_objs _ _ _ H s) as Ho;
      rewrite Hy in Ho; inversion Ho as [x x' (Ha&_&Hu) Hx Hx'|]; subst.
    - rewrite <- (iu_zst _ _ Hu), <- Ha. by apply (Hm s).
    - rewrite (iu_zst _ _ Hu), Ha. by apply (Hm s).
  Qed.

  Lemma ilike_set_stack st st' t k : ilike st st' -> ilike (set_stack st t k) (set_stack st' t k).
  Proof. intros [H1 H2 H3 H4 H5 H6 H7]. constructor; try done. simpl. by rewrite H6. Qed.
  Lemma ilike_lock st st' s t : ilike st st' -> ilike (ilock st s t) (ilock st' s t).
  Proof. intros [H1 H2 H3 H4 H5 H6 H7]. constructor; try done. simpl. by rewrite H4. Qed.
  Lemma ilike_unlock st st' s b : ilike st st' -> ilike (iunlock st s b) (iunlock st' s b).
  Proof. intros [H1 H2 H3 H4 H5 H6 H7]. constructor; try done; simpl; [by rewrite H4|by rewrite H5]. Qed.
  Lemma ilike_set_slots st st' m : ilike st st' -> ilike (set_slots st m) (set_slots st' m).
  Proof. intros [H1 H2 H3 H4 H5 H6 H7]. by constructor. Qed.
  Lemma ilike_event st st' (e e' : ievent V Q) : ilike st st' -> ievent_like E e e' -> ilike (add_event st e) (add_event st' e').
  Proof. intros [H1 H2 H3 H4 H5 H6 H7] He. constructor; try done. by constructor. Qed.
  Lemma ilike_put st st' ty ps : ilike st st' -> ilike (put_set E st ty ps) (put_set E st' ty ps).
  Proof. intros H. unfold put_set, container. rewrite (il_slots _ _ _ H). by apply ilike_set_slots. Qed.
  Lemma ilike_insert st st' s x y : ilike st st' -> iobj_like E x y ->
    ilike (set_objs st (<[s:=x]> (i_objs st))) (set_objs st' (<[s:=y]> (i_objs st'))).
  Proof.
    intros [H1 H2 H3 H4 H5 H6 H7] Hx. constructor; try done. intros u. simpl.
    destruct (decide (s = u)) as [->|]; [rewrite !lookup_insert; by constructor|by rewrite !lookup_insert_ne].
  Qed.
  Lemma ilike_delete st st' s : ilike st st' ->
    ilike (set_objs st (delete s (i_objs st))) (set_objs st' (delete s (i_objs st'))).
  Proof.
    intros [H1 H2 H3 H4 H5 H6 H7]. constructor; try done. intros u. simpl.
    destruct (decide (s = u)) as [->|]; [rewrite !lookup_delete; constructor|by rewrite !lookup_delete_ne].
  Qed.
  Lemma ilike_alloc st st' a v b : ilike st st' ->
    option_Forall2 (λ x y, ilike x.1 y.1 /\ x.2 = y.2) (ialloc E st a v b) (ialloc E st' a v b).
  Proof.
    intros H. unfold ialloc. rewrite (ilike_free _ _ a H). destruct (_ || _); constructor.
    destruct H as [H1 H2 H3 H4 H5 H6 H7]. simpl. rewrite H7. split; [|done]. constructor; try done; simpl.
    intros u. destruct (decide (i_next st' = u)) as [->|]; [|by rewrite !lookup_insert_ne].
    rewrite !lookup_insert. constructor. split_and!; done || apply iu_refl.
  Qed.

  Lemma ithread_like st st' t a i : ilike st st' ->
    out_like ilike (istep_thread E st t a i) (istep_thread E st' t a i).
  Proof.
    intros H. unfold istep_thread. rewrite (ilike_stack _ _ t H).
    destruct (get_stack st' t) as [|[o b|o b|ty w q|o v|o p|o b r|o r] k]; [done|..].
    - rewrite (il_locks _ _ _ H). destruct (i_locks st' !! _); [done|].
      assert (container st (slot E (op_ty E o)) = container st' (slot E (op_ty E o))) as Hc.
      { unfold container. by rewrite (il_slots _ _ _ H). }
      rewrite Hc, (il_slots _ _ _ H). destruct o; simpl; try (apply ilike_set_stack, ilike_set_slots; by apply ilike_lock).
      apply ilike_set_stack, ilike_event; [|done]. apply ilike_put, ilike_set_slots. by apply ilike_lock.
    - rewrite (ilike_set _ _ _ H), (ilike_readable _ _ _ H). destruct (ireadable st' _); [|done].
      rewrite (ilike_cand st st' _ (key_match E o) _ H (iu_key o)).
      destruct (ipick i _) as [p|], o; try done; simpl; try (by apply ilike_set_stack).
      destruct b as [p|]; [|done]. unfold ileak. pose proof (il_objs _ _ _ H (ip_ser p)) as Ho.
      inversion Ho as [x y (Ha&Hlk&Hu) Hx Hy|]; [|done]. rewrite Hlk. destruct (io_leaked y); [done|]. simpl.
      apply ilike_set_stack, ilike_insert; [done|]. by split_and!.
    - done.
    - pose proof (ilike_alloc st st' a v true H) as Ha.
      inversion Ha as [[s1 p1] [s2 p2] [Hs Hp] Hx Hy|]; [|done]. simpl in *. subst. by apply ilike_set_stack.
    - rewrite (ilike_set _ _ _ H), (ilike_readable _ _ _ H). pose proof (ilike_read st st' p H) as Hr.
      inversion Hr as [v w Hu Hx Hy|]; [|done]. destruct (ireadable st' _); [|done].
      rewrite (ilike_cand st st' _ (ins_match E w) _ H (λ x y, iu_ins v w x y Hu)).
      destruct (candidates st' _ _); simpl; apply ilike_set_stack; [|done].
      apply ilike_event; [by apply ilike_put|]. by split_and!.
    - destruct b as [p|]; [|by apply ilike_set_stack]. unfold ifree. pose proof (il_objs _ _ _ H (ip_ser p)) as Ho.
      inversion Ho as [x y (Ha&Hlk&Hu) Hx Hy|]; [|done]. rewrite Hlk. destruct (io_leaked y); [done|]. simpl.
      apply ilike_set_stack. by apply ilike_delete.
    - simpl. apply ilike_event; [|done]. apply ilike_set_stack. by apply ilike_unlock.
  Qed.
  Lemma returned_like p L L' : Forall2 (ievent_like E) L L' -> returned p L = returned p L'.
  Proof.
    induction 1 as [|e f L L' He _ IH]; [done|]. simpl. rewrite IH. f_equal.
    destruct e, f; simpl in He; try done; by injection He as -> -> ->.
  Qed.
  Lemma istep_like st st' l : ilike st st' -> out_like ilike (istep E st l) (istep E st' l).
  Proof.
    intros H. destruct l as [t o a|t a i|t v|t|p]; cbn [istep]; try (rewrite (ilike_stack _ _ t H)).
    - destruct (match get_stack st' t with [] => true | _ => _ end); [|done].
      destruct o; try (by apply ilike_set_stack). pose proof (ilike_alloc st st' a v false H) as Ha.
      inversion Ha as [[s1 p1] [s2 p2] [Hs Hp] Hx Hy|]; [|done]. simpl in *. subst. by apply ilike_set_stack.
    - by apply ithread_like.
    - destruct (get_stack st' t) as [|[o b|o b|ty w q|o v'|o p|o b r|o r] k]; try done.
      destruct (_ && _); [|done]. by apply ilike_set_stack.
    - unfold istep_panic. rewrite (ilike_stack _ _ t H).
      destruct (get_stack st' t) as [|[o b|o b|ty w q|o v'|o p|o b r|o r] k]; try done; try (by apply ilike_set_stack).
      destruct r; try done; by apply ilike_set_stack.
    - rewrite (returned_like _ _ _ (il_log _ _ _ H)). destruct (returned p (i_log st')); [|done].
      pose proof (ilike_read st st' p H) as Hr. inversion Hr as [v w Hu Hx Hy|]; [|done].
      simpl. apply ilike_event; [done|]. by split.
  Qed.
  Lemma ilike_init : ilike iinit iinit.
  Proof. constructor; try done; constructor. Qed.

  Lemma istore_like st st' p x v : ilike st st' -> i_objs st !! ip_ser p = Some x -> iunseen (io_val x) v ->
    ilike (istore st p x v) st'.
  Proof.
    intros [H1 H2 H3 H4 H5 H6 H7] Hx Hv. constructor; try done. intros s. simpl.
    destruct (decide (ip_ser p = s)) as [<-|]; [|by rewrite lookup_insert_ne].
    rewrite lookup_insert. specialize (H1 (ip_ser p)). rewrite Hx in H1. inversion H1 as [? y (Ha&Hl&Hu) Hy1 Hy2|].
    constructor. split_and!; simpl; [done|done|]. eapply iu_trans; [by apply iu_sym|done].
  Qed.
  Lemma iquiet_app ls1 ls2 : iquiet E (ls1 ++ ls2) -> iquiet E ls1.
  Proof. intros H l1 p v l2 st d ->. apply (H l1 p v (l2 ++ ls2)). by rewrite <- app_assoc. Qed.
  Lemma iquiet_like ls : iquiet E ls ->
    exists st st', run (int_mstep E) iinit ls = Some st /\ run (istep E) iinit (plain ls) = Some st' /\ ilike st st'.
  Proof.
    induction ls as [|l ls IH] using rev_ind; intros Hq.
    { exists iinit, iinit. split_and!; [done|done|apply ilike_init]. }
    destruct (IH (iquiet_app _ _ Hq)) as (st&st'&Hr&Hr'&HL).
    destruct (mrun_ok E (ls ++ [l])) as (st1&Hr1&_). exists st1. rewrite Hr1.
    rewrite plain_app, run_app, Hr'. rewrite run_snoc, Hr in Hr1. unfold exec in Hr1. destruct l as [l|[p v]].
    - cbn [plain run]. unfold exec. pose proof (istep_like st st' l HL) as Hs. simpl in Hr1.
      destruct (istep E st l) as [s1| | |], (istep E st' l) as [s2| | |]; simpl in Hs; try done; injection Hr1 as <-; eauto.
    - exists st'. split_and!; [done|done|]. simpl in Hr1.
      destruct (returned p (i_log st)); [|by injection Hr1 as <-].
      destruct (i_objs st !! ip_ser p) as [x|] eqn:Hx; [|done].
      destruct (_ && _); injection Hr1 as <-; [|done]. eapply istore_like; try done.
      eapply (Hq ls p v [] st); try done. unfold iread. by rewrite Hx.
  Qed.
End sim.

Lemma ieq_unseen {V Q} (E : ienv V Q) d d' : ilawful E -> ie_eq E d d' = true -> ie_ty E d = ie_ty E d' ->
  ie_meta E d = ie_meta E d' -> iunseen E d d'.
Proof.
  intros HL He Ht Hm. pose proof (il_sym _ HL _ _ He) as He'. constructor; [done|done|by apply HL| |].
  - intros u. split.
    + destruct (ie_eq E d u) eqn:H1, (ie_eq E d' u) eqn:H2; try done.
      * by rewrite (il_trans _ HL _ _ _ He' H1) in H2.
      * by rewrite (il_trans _ HL _ _ _ He H2) in H1.
    + destruct (ie_eq E u d) eqn:H1, (ie_eq E u d') eqn:H2; try done.
      * by rewrite (il_trans _ HL _ _ _ H1 He) in H2.
      * by rewrite (il_trans _ HL _ _ _ H2 He') in H1.
  - intros w q.
    assert (ie_qeq E (ie_borrow E w d) (ie_borrow E w d') = true) as Hb by by rewrite (il_borrow_eq _ HL).
    pose proof (il_qsym _ HL _ _ Hb) as Hb'.
    destruct (ie_qeq E (ie_borrow E w d) q) eqn:H1, (ie_qeq E (ie_borrow E w d') q) eqn:H2; try done.
    + by rewrite (il_qtrans _ HL _ _ _ Hb' H1) in H2.
    + by rewrite (il_qtrans _ HL _ _ _ Hb H2) in H1.
Qed.

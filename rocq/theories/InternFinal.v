(** Consequences of the Intern invariants, in the form used by the property theorems. *)
From stdpp Require Import gmap list numbers.
From Verif Require Import Base InternModel InternSpec InternInv InternStep InternLaw.
Require Import ZifyBool ZifyNat ZifyN.

Lemma each_suffix_app {A} (h : A -> list A -> Prop) l1 e l2 :
  each_suffix h (l1 ++ e :: l2) -> h e l2.
Proof. induction l1 as [|x l1 IH]; simpl; [tauto|]. intros [_ H]. by apply IH. Qed.

Section final.
  Context {V Q : Type} (E : ienv V Q).
  Implicit Types (st : istate V Q) (v d : V) (p : iptr) (o : iop V Q) (f g : frame V Q) (t ty s : nat).
  Implicit Types (ls : list (ilabel V Q)) (l : list (ievent V Q)).
  Notation slot := (slot E).
  Notation op_ty := (op_ty E).
  Notation IInv := (IInv E).

  Lemma reach_inv ls st : run (istep E) iinit ls = Some st -> IInv st.
  Proof. apply irun_inv, iinv_init. Qed.
  Lemma reach_law ls st : ilawful E -> run (istep E) iinit ls = Some st -> LInv E st.
  Proof. intros HL. apply (irun_linv E HL); [apply iinv_init|apply linv_init]. Qed.

  (** A step relation ignoring the label. *)
  Lemma run_ind' (P : istate V Q -> istate V Q -> Prop) :
    (forall st, P st st) ->
    (forall st lb st1 st2, IInv st -> istep E st lb = Next st1 -> IInv st1 -> P st1 st2 -> P st st2) ->
    forall ls st st', IInv st -> run (istep E) st ls = Some st' -> P st st'.
  Proof.
    intros Hr Hs. induction ls as [|lb ls IH]; intros st st' HI; simpl; [intros [= ->]; apply Hr|].
    unfold exec. destruct (istep E st lb) as [st1| | |] eqn:Hst; try done; [|by apply IH..].
    intros Hrun. assert (IInv st1) as HI1 by (by eapply istep_inv). eapply Hs; try done. by apply IH.
  Qed.

  Lemma step_points st lb st' ty p v : IInv st -> istep E st lb = Next st' ->
    points E st ty p v true -> points E st' ty p v true.
  Proof.
    intros HI [(p'&v'&?&?&_&->)|(t&fs&fs'&k&st1&Hst&Hm&->&_&_)]%istep_move Hp; [done|].
    destruct (move_ok E st t fs fs' k st1 HI Hst Hm) as [[] _].
    by eapply (upd_points E st _ t fs fs' k).
  Qed.
  Lemma points_persist ls st st' ty p v : IInv st -> run (istep E) st ls = Some st' ->
    points E st ty p v true -> points E st' ty p v true.
  Proof.
    intros HI Hr. revert HI Hr. apply (run_ind' (λ st st', points E st ty p v true -> points E st' ty p v true)); [done|].
    intros. by eauto using step_points.
  Qed.

  Lemma step_log st lb st' : IInv st -> istep E st lb = Next st' -> exists l, i_log st' = l ++ i_log st.
  Proof.
    intros HI [(p'&v'&?&?&_&->)|(t&fs&fs'&k&st1&Hst&Hm&->&_&_)]%istep_move; [by eexists [_]|].
    destruct Hm; simpl; try (by exists []); try (by eexists [_]).
    - exists []. by destruct (ialloc_spec E _ _ _ _ _ _ HI H) as (->&_).
    - exists []. unfold ileak in H0. destruct (i_objs st !! ip_ser p) as [x|]; [|done].
      destruct (io_leaked x); [done|]. by injection H0 as <-.
    - exists []. by destruct (ialloc_spec E _ _ _ _ _ _ HI H) as (->&_).
    - exists []. unfold ifree in H. destruct (i_objs st !! ip_ser p) as [x|]; [|done].
      destruct (io_leaked x); [done|]. by injection H as <-.
  Qed.
  Lemma run_log ls st st' : IInv st -> run (istep E) st ls = Some st' -> exists l, i_log st' = l ++ i_log st.
  Proof.
    apply (run_ind' (λ st st', exists l, i_log st' = l ++ i_log st)); [by exists []|].
    intros st1 lb st2 st3 HI Hs _ [l2 Hl2]. destruct (step_log _ _ _ HI Hs) as [l1 Hl1].
    exists (l2 ++ l1). by rewrite Hl2, Hl1, app_assoc.
  Qed.

  (** ** C19, C28 *)
  Lemma handle_valid ls1 ls2 st1 st2 t o p :
    run (istep E) iinit ls1 = Some st1 -> EvRet t o (RPtr p) ∈ i_log st1 ->
    run (istep E) st1 ls2 = Some st2 ->
    exists v, ie_ty E v = op_ty o /\ ip_meta p = ie_meta E v /\
      i_objs st1 !! ip_ser p = Some (IObj (ip_addr p) v true) /\
      i_objs st2 !! ip_ser p = Some (IObj (ip_addr p) v true) /\
      istep E st2 (IDeref p) = Next (add_event st2 (EvRead p v)).
  Proof.
    intros Hr1 Hin Hr2. pose proof (reach_inv _ _ Hr1) as HI.
    destruct (v_log _ _ HI _ Hin) as [v Hp]. pose proof (points_persist _ _ _ _ _ _ HI Hr2 Hp) as Hp2.
    exists v. split_and!; [apply Hp|apply Hp|apply Hp|apply Hp2|].
    simpl. destruct (run_log _ _ _ HI Hr2) as [l Hl].
    assert (returned p (i_log st2) = true) as ->.
    { apply returned_in. exists t, o. rewrite Hl. apply elem_of_app. by right. }
    by rewrite (points_read E _ _ _ _ _ Hp2).
  Qed.
  Lemma never_ub ls : exists st, run (istep E) iinit ls = Some st /\
    forall t o p, EvRet t o (RPtr p) ∈ i_log st -> exists v, iread st p = Some v /\ ie_ty E v = op_ty o.
  Proof.
    destruct (run (istep E) iinit ls) as [st|] eqn:Hr; [|by apply irun_safe in Hr; [|apply iinv_init]].
    exists st. split; [done|]. intros t o p Hin. pose proof (reach_inv _ _ Hr) as HI.
    destruct (v_log _ _ HI _ Hin) as [v Hp]. exists v. split; [by eapply points_read|apply Hp].
  Qed.

  (** ** Executions without clear *)
  Definition op_of f : option (iop V Q) :=
    match f with FWait o _ | FGet o _ | FStore o _ | FIns o _ | FDup o _ _ | FDone o _ => Some o | FConv _ _ _ => None end.
  Definition NC st : Prop :=
    (forall ty, EvClr ty ∉ i_log st) /\ (forall t f ty, f ∈ get_stack st t -> op_of f <> Some (OClear ty)).
  Lemma nc_step st lb st' : IInv st -> NC st -> (forall t ty a, lb <> ICall t (OClear ty) a) ->
    istep E st lb = Next st' -> NC st'.
  Proof.
    intros HI [Hlog Hfr] Hlb [(p'&v'&?&?&_&->)|(t&fs&fs'&k&st1&Hst&Hm&->&_&Hc)]%istep_move.
    { split; [|done]. simpl. intros ty. rewrite not_elem_of_cons. done. }
    assert (forall f ty, f ∈ fs -> op_of f <> Some (OClear ty)) as Hfs.
    { intros f ty Hf. apply (Hfr t). rewrite Hst. apply elem_of_app. by left. }
    destruct (move_ok E st t fs fs' k st1 HI Hst Hm) as [[] _].
    split.
    - intros ty. destruct Hm; simpl in *; try done.
      + destruct (ialloc_spec E _ _ _ _ _ _ HI H) as (->&_). apply Hlog.
      + exfalso. eapply (Hfs _ ty0); [by left|done].
      + unfold ileak in H0. destruct (i_objs st !! ip_ser p) as [x|]; [|done].
        destruct (io_leaked x); [done|]. injection H0 as <-. apply Hlog.
      + destruct (ialloc_spec E _ _ _ _ _ _ HI H) as (->&_). apply Hlog.
      + rewrite not_elem_of_cons. done.
      + unfold ifree in H. destruct (i_objs st !! ip_ser p) as [x|]; [|done].
        destruct (io_leaked x); [done|]. injection H as <-. apply Hlog.
      + rewrite not_elem_of_cons. done.
    - intros u f ty Hf. destruct (other_in st _ t fs' k tr_new u f Hf) as [[-> Hin]|Ho].
      + destruct Hm; try (apply elem_of_list_singleton in Hin; subst f); simpl; try done;
          try (specialize (Hfs _ ty ltac:(by left)); simpl in Hfs; done).
        * destruct (Hc eq_refl) as (o'&b&a&Hlb'&Heq). injection Heq as <- <-. intros [= ->]. by eapply Hlb.
        * by apply elem_of_nil in Hin.
      + destruct (other_was st t fs k tr_old f Ho) as [u' Hu]. by eapply Hfr.
  Qed.
  Lemma nc_run ls st st' : IInv st -> NC st -> no_clear ls -> run (istep E) st ls = Some st' -> NC st'.
  Proof.
    revert st. induction ls as [|lb ls IH]; intros st HI HN Hls; simpl; [by intros [= ->]|].
    assert (no_clear ls) as Hls'. { intros t ty a Hin. apply (Hls t ty a). by right. }
    unfold exec. destruct (istep E st lb) as [st1| | |] eqn:Hs; try done; [|by apply IH..].
    apply IH; [by eapply istep_inv| |done]. eapply (nc_step st lb); try done.
    intros t ty a ->. apply (Hls t ty a). by left.
  Qed.
  Lemma nc_init : NC iinit.
  Proof.
    split; simpl; [intros ty H; by apply elem_of_nil in H|].
    intros t f ty H. unfold get_stack in H. simpl in H. rewrite lookup_empty in H. by apply elem_of_nil in H.
  Qed.
  Lemma reach_nc ls st : no_clear ls -> run (istep E) iinit ls = Some st -> NC st.
  Proof. intros. eapply nc_run; try done; [apply iinv_init|apply nc_init]. Qed.

  Lemma inserted_app ty l1 l2 : (forall u, EvClr u ∉ l1) ->
    exists l' : list (iptr * V), inserted E ty (l1 ++ l2) = l' ++ inserted E ty l2 /\
      forall p v, (p, v) ∈ l' -> exists t o, EvIns t o p v ∈ l1 /\ op_ty o = ty.
  Proof.
    induction l1 as [|e l1 IH]; intros Hc.
    - exists []. split; [done|]. intros p v H. by apply elem_of_nil in H.
    - destruct IH as (l'&Hl&Hin). { intros u Hu. apply (Hc u). by right. }
      destruct e as [t o p v|u|t o r|p v]; simpl.
      + destruct (Nat.eqb_spec (op_ty o) ty) as [<-|].
        * exists ((p, v) :: l'). rewrite Hl. split; [done|]. intros p' v' [[= -> ->]|Hi]%elem_of_cons.
          -- exists t, o. split; [by left|done].
          -- destruct (Hin _ _ Hi) as (t'&o'&?&?). exists t', o'. split; [by right|done].
        * exists l'. split; [done|]. intros p' v' Hi. destruct (Hin _ _ Hi) as (t'&o'&?&?). exists t', o'. split; [by right|done].
      + exfalso. apply (Hc u). by left.
      + exists l'. split; [done|]. intros p' v' Hi. destruct (Hin _ _ Hi) as (t'&o'&?&?). exists t', o'. split; [by right|done].
      + exists l'. split; [done|]. intros p' v' Hi. destruct (Hin _ _ Hi) as (t'&o'&?&?). exists t', o'. split; [by right|done].
  Qed.
  Lemma ins_inserted l t o p v : (forall u, EvClr u ∉ l) -> EvIns t o p v ∈ l -> (p, v) ∈ inserted E (op_ty o) l.
  Proof.
    induction l as [|e l IH]; intros Hc Hin; [by apply elem_of_nil in Hin|].
    assert (forall u, EvClr u ∉ l) as Hc'. { intros u Hu. apply (Hc u). by right. }
    apply elem_of_cons in Hin as [<-|Hin].
    - simpl. rewrite Nat.eqb_refl. by left.
    - specialize (IH Hc' Hin). destruct e as [t' o' p' v'|u|t' o' r|p' v']; simpl; try done.
      + destruct (_ =? _); [by right|done].
      + exfalso. apply (Hc u). by left.
  Qed.

  (** A returned pointer is in the set of its type, as long as nothing is cleared. *)
  Lemma ret_inserted st t o p :
    ilawful E -> icoherent E -> IInv st -> LInv E st -> (forall u, EvClr u ∉ i_log st) ->
    EvRet t o (RPtr p) ∈ i_log st ->
    exists d, (p, d) ∈ inserted E (op_ty o) (i_log st) /\ asks E o d /\ points E st (op_ty o) p d true.
  Proof.
    intros HL HC HI HW Hcl Hin.
    apply elem_of_list_split in Hin as (l1&l2&Hl). pose proof (w_log _ _ HW) as Hw. rewrite Hl in Hw.
    apply each_suffix_app in Hw. destruct (Hw HC) as (d&Hd&Ha).
    exists d. assert ((p, d) ∈ inserted E (op_ty o) (i_log st)) as Hi.
    { rewrite Hl. change (l1 ++ EvRet t o (RPtr p) :: l2) with (l1 ++ [EvRet t o (RPtr p)] ++ l2).
      rewrite app_assoc. destruct (inserted_app (op_ty o) (l1 ++ [EvRet t o (RPtr p)]) l2) as (l'&->&_).
      - intros u Hu. apply (Hcl u). rewrite Hl. apply elem_of_app in Hu as [Hu|Hu%elem_of_list_singleton]; [|done].
        apply elem_of_app. by left.
      - apply elem_of_app. by right. }
    split_and!; [done|done|]. by eapply key_ty.
  Qed.

  Lemma ordpairs_uniq ty l p1 d1 p2 d2 : ilawful E ->
    ForallOrdPairs (λ a b, ie_eq E b.2 a.2 = false) (inserted E ty l) ->
    (p1, d1) ∈ inserted E ty l -> (p2, d2) ∈ inserted E ty l -> ie_eq E d1 d2 = true -> p1 = p2 /\ d1 = d2.
  Proof.
    intros HL. generalize (inserted E ty l). induction 1 as [|[p d] l' Hf Ho IH]; intros H1 H2 He.
    - by apply elem_of_nil in H1.
    - rewrite List.Forall_forall in Hf.
      apply elem_of_cons in H1 as [[= -> ->]|H1]; apply elem_of_cons in H2 as [[= -> ->]|H2].
      + done.
      + apply elem_of_list_In, Hf in H2. simpl in H2. apply (il_sym _ HL) in He. congruence.
      + apply elem_of_list_In, Hf in H1. simpl in H1. congruence.
      + by apply IH.
  Qed.

  (** ** C18 *)
  Lemma handles_eq_st st t1 o1 p1 t2 o2 p2 v1 v2 :
    ilawful E -> icoherent E -> zst_eq_at E (op_ty o1) -> IInv st -> LInv E st -> (forall u, EvClr u ∉ i_log st) ->
    EvRet t1 o1 (RPtr p1) ∈ i_log st -> EvRet t2 o2 (RPtr p2) ∈ i_log st -> op_ty o1 = op_ty o2 ->
    iread st p1 = Some v1 -> iread st p2 = Some v2 ->
    iptr_eqb p1 p2 = ie_eq E v1 v2.
  Proof.
    intros HL HC HZ HI HW Hcl H1 H2 Hty Hv1 Hv2.
    destruct (ret_inserted _ _ _ _ HL HC HI HW Hcl H1) as (d1&Hi1&_&Hp1).
    destruct (ret_inserted _ _ _ _ HL HC HI HW Hcl H2) as (d2&Hi2&_&Hp2).
    pose proof (points_read E _ _ _ _ _ Hp1). pose proof (points_read E _ _ _ _ _ Hp2).
    assert (d1 = v1) as -> by congruence. assert (d2 = v2) as -> by congruence.
    destruct Hp1 as (Hx1&Hm1&Ht1), Hp2 as (Hx2&Hm2&Ht2).
    apply eq_true_iff_eq. split.
    - unfold iptr_eqb. rewrite andb_true_iff, !Nat.eqb_eq. intros [Ha Hm].
      destruct (is_zst E v1) eqn:Hz1.
      + apply HZ; congruence.
      + assert (is_zst E v2 = false) as Hz2. { unfold is_zst in *. rewrite <- Hm2, <- Hm, Hm1, Ht2, <- Hty, <- Ht1. done. }
        assert (ip_ser p1 = ip_ser p2) as Hs by (by eapply (v_addr _ _ HI)).
        rewrite Hs in Hx1. assert (v1 = v2) as -> by congruence. apply (il_refl _ HL).
    - intros He. rewrite <- Hty in Hi2. destruct (ordpairs_uniq _ _ _ _ _ _ HL (w_uniq _ _ HW (op_ty o1)) Hi1 Hi2 He) as [-> _].
      unfold iptr_eqb. by rewrite !Nat.eqb_refl.
  Qed.

  Lemma handles_eq_ty ls st t1 o1 p1 t2 o2 p2 v1 v2 :
    ilawful E -> icoherent E -> zst_eq_at E (op_ty o1) -> no_clear ls -> run (istep E) iinit ls = Some st ->
    EvRet t1 o1 (RPtr p1) ∈ i_log st -> EvRet t2 o2 (RPtr p2) ∈ i_log st -> op_ty o1 = op_ty o2 ->
    iread st p1 = Some v1 -> iread st p2 = Some v2 ->
    iptr_eqb p1 p2 = ie_eq E v1 v2.
  Proof.
    intros HL HC HZ Hnc Hr. apply handles_eq_st; try done; [by eapply reach_inv|by eapply reach_law|by eapply reach_nc].
  Qed.
  Lemma zst_eq_all ty : zst_eq E -> zst_eq_at E ty.
  Proof. intros HZ u v <- Hv. by intros; apply HZ. Qed.
  Lemma handles_eq ls st t1 o1 p1 t2 o2 p2 v1 v2 :
    ilawful E -> icoherent E -> zst_eq E -> no_clear ls -> run (istep E) iinit ls = Some st ->
    EvRet t1 o1 (RPtr p1) ∈ i_log st -> EvRet t2 o2 (RPtr p2) ∈ i_log st -> op_ty o1 = op_ty o2 ->
    iread st p1 = Some v1 -> iread st p2 = Some v2 ->
    iptr_eqb p1 p2 = ie_eq E v1 v2.
  Proof.
    intros HL HC HZ%(zst_eq_all (op_ty o1)). by apply handles_eq_ty.
  Qed.

  (** ** C20 *)
  Lemma asks_eq o d d' : ilawful E -> asks E o d -> asks E o d' -> ie_eq E d d' = true.
  Proof.
    intros HL. destruct o; simpl; try done.
    1-3: intros [_ H1] [_ H2]; apply (il_sym _ HL) in H2; by eapply (il_trans _ HL).
    all: intros [Ht1 H1] [Ht2 H2]; rewrite <- (il_borrow_eq _ HL w) by congruence;
      apply (il_qsym _ HL) in H2; by eapply (il_qtrans _ HL).
  Qed.
  Lemma value_eq_st st t o p :
    ilawful E -> icoherent E -> IInv st -> LInv E st -> EvRet t o (RPtr p) ∈ i_log st ->
    exists d, iread st p = Some d /\ asks E o d.
  Proof.
    intros HL HC HI HW Hin.
    apply elem_of_list_split in Hin as (l1&l2&Hl). pose proof (w_log _ _ HW) as Hw. rewrite Hl in Hw.
    apply each_suffix_app in Hw. destruct (Hw HC) as (d&(t'&o'&Hd&_)%inserted_in&Ha). exists d. split; [|done].
    assert (EvIns t' o' p d ∈ i_log st) as Hin. { rewrite Hl. apply elem_of_app. right. by right. }
    apply (v_log _ _ HI) in Hin as [Hp _]. by eapply points_read.
  Qed.
  Lemma value_eq ls st t o p :
    ilawful E -> icoherent E -> run (istep E) iinit ls = Some st -> EvRet t o (RPtr p) ∈ i_log st ->
    exists d, iread st p = Some d /\ asks E o d.
  Proof. intros HL HC Hr. apply value_eq_st; [done|done|by eapply reach_inv|by eapply reach_law]. Qed.
  Lemma same_class_st st t1 o1 p1 t2 o2 p2 d1 :
    ilawful E -> icoherent E -> IInv st -> LInv E st -> (forall u, EvClr u ∉ i_log st) ->
    EvRet t1 o1 (RPtr p1) ∈ i_log st -> EvRet t2 o2 (RPtr p2) ∈ i_log st ->
    iread st p1 = Some d1 -> asks E o2 d1 -> p2 = p1.
  Proof.
    intros HL HC HI HW Hcl H1 H2 Hv1 Ha.
    destruct (ret_inserted _ _ _ _ HL HC HI HW Hcl H1) as (d1'&Hi1&_&Hp1).
    destruct (ret_inserted _ _ _ _ HL HC HI HW Hcl H2) as (d2&Hi2&Ha2&Hp2).
    pose proof (points_read E _ _ _ _ _ Hp1). assert (d1' = d1) as -> by congruence.
    assert (op_ty o2 = op_ty o1) as Hty.
    { destruct Hp1 as (_&_&<-). destruct o2; simpl in *; try done; by destruct Ha. }
    rewrite Hty in Hi2. pose proof (asks_eq _ _ _ HL Ha2 Ha) as He.
    by destruct (ordpairs_uniq _ _ _ _ _ _ HL (w_uniq _ _ HW (op_ty o1)) Hi2 Hi1 He) as [-> _].
  Qed.
  Lemma same_class ls st t1 o1 p1 t2 o2 p2 d1 :
    ilawful E -> icoherent E -> no_clear ls -> run (istep E) iinit ls = Some st ->
    EvRet t1 o1 (RPtr p1) ∈ i_log st -> EvRet t2 o2 (RPtr p2) ∈ i_log st ->
    iread st p1 = Some d1 -> asks E o2 d1 -> p2 = p1.
  Proof.
    intros HL HC Hnc Hr. apply same_class_st; try done; [by eapply reach_inv|by eapply reach_law|by eapply reach_nc].
  Qed.
  (** Exactly one insertion for the class; it supplied the value read. *)
  Lemma one_insertion_st st t o p d :
    ilawful E -> icoherent E -> IInv st -> LInv E st -> (forall u, EvClr u ∉ i_log st) ->
    EvRet t o (RPtr p) ∈ i_log st -> iread st p = Some d ->
    exists t0 o0 l1 l2, i_log st = l1 ++ EvIns t0 o0 p d :: l2 /\ op_ty o0 = op_ty o /\ supplies E o0 d /\
      forall t' o' p' d', EvIns t' o' p' d' ∈ l1 ++ l2 -> op_ty o' = op_ty o -> ie_eq E d' d = false.
  Proof.
    intros HL HC HI HW Hcl Hin Hv.
    destruct (ret_inserted _ _ _ _ HL HC HI HW Hcl Hin) as (d'&Hi&_&Hp).
    pose proof (points_read E _ _ _ _ _ Hp). assert (d' = d) as -> by congruence.
    destruct (inserted_in E _ _ _ _ Hi) as (t0&o0&Hin0&Hty0). pose proof (v_log _ _ HI _ Hin0) as [_ Hs].
    apply elem_of_list_split in Hin0 as (l1&l2&Hl). exists t0, o0, l1, l2. split_and!; try done.
    intros t' o' p' d' Hin' Hty'. pose proof (w_uniq _ _ HW (op_ty o)) as Hu. rewrite Hl in Hu, Hcl.
    pose proof (w_log _ _ HW) as Hw. rewrite Hl in Hw.
    assert (forall u, EvClr u ∉ l1) as Hc1. { intros u Hu'. apply (Hcl u). apply elem_of_app. by left. }
    assert (forall u, EvClr u ∉ l2) as Hc2. { intros u Hu'. apply (Hcl u). apply elem_of_app. right. by right. }
    apply elem_of_app in Hin' as [Hin'|Hin'].
    - (* later than the insertion *)
      apply elem_of_list_split in Hin' as (l3&l4&->). rewrite <- app_assoc in Hw. simpl in Hw.
      apply each_suffix_app in Hw as [Hab _]. 
      destruct (ie_eq E d' d) eqn:He; [|done]. apply (il_sym _ HL) in He. enough (ie_eq E d d' = false) by congruence. apply (Hab p).
      rewrite Hty', <- Hty0. apply (ins_inserted _ t0).
      + intros u [Hu'|[?|Hu']%elem_of_cons]%elem_of_app; [|done|by apply (Hc2 u)].
        apply (Hc1 u). apply elem_of_app. right. by right.
      + apply elem_of_app. right. by left.
    - apply each_suffix_app in Hw as [Hab _]. apply (Hab p'). rewrite Hty0, <- Hty'. by eapply ins_inserted.
  Qed.

  Lemma one_insertion ls st t o p d :
    ilawful E -> icoherent E -> no_clear ls -> run (istep E) iinit ls = Some st ->
    EvRet t o (RPtr p) ∈ i_log st -> iread st p = Some d ->
    exists t0 o0 l1 l2, i_log st = l1 ++ EvIns t0 o0 p d :: l2 /\ op_ty o0 = op_ty o /\ supplies E o0 d /\
      forall t' o' p' d', EvIns t' o' p' d' ∈ l1 ++ l2 -> op_ty o' = op_ty o -> ie_eq E d' d = false.
  Proof.
    intros HL HC Hnc Hr. apply one_insertion_st; try done; [by eapply reach_inv|by eapply reach_law|by eapply reach_nc].
  Qed.

  (** ** C21 *)
  Lemma is_interned_exact ls st l1 l2 t ty w q b :
    ilawful E -> run (istep E) iinit ls = Some st -> no_clear ls ->
    i_log st = l1 ++ EvRet t (OIs ty w q) (RBool b) :: l2 ->
    b = true <-> exists t' o' p d, EvIns t' o' p d ∈ l2 /\ ie_ty E d = ty /\ ie_qeq E (ie_borrow E w d) q = true.
  Proof.
    intros HL Hr Hnc Hl. pose proof (reach_inv _ _ Hr) as HI. pose proof (reach_law _ _ HL Hr) as HW.
    destruct (reach_nc _ _ Hnc Hr) as [Hcl _].
    pose proof (w_log _ _ HW) as Hw. rewrite Hl in Hw. apply each_suffix_app in Hw. simpl in Hw. rewrite Hw. split.
    - intros (p&d&(t'&o'&Hin&_)%inserted_in&Ha). by exists t', o', p, d.
    - intros (t'&o'&p&d&Hin&Ha). exists p, d. split; [|done].
      assert (op_ty o' = ty) as <-.
      { assert (EvIns t' o' p d ∈ i_log st) as Hin'. { rewrite Hl. apply elem_of_app. right. by right. }
        apply (v_log _ _ HI) in Hin' as [(_&_&<-) _]. apply Ha. }
      apply (ins_inserted _ t'); [|done]. intros u Hu. apply (Hcl u). rewrite Hl. apply elem_of_app. right. by right.
  Qed.
  (** A returned value was inserted before. *)
  Lemma ret_after_ins st l1 l2 t o p d :
    ilawful E -> icoherent E -> IInv st -> LInv E st ->
    i_log st = l1 ++ EvRet t o (RPtr p) :: l2 -> iread st p = Some d ->
    exists t' o', EvIns t' o' p d ∈ l2 /\ op_ty o' = op_ty o /\ ie_ty E d = op_ty o.
  Proof.
    intros HL HC HI HW Hl Hv.
    pose proof (w_log _ _ HW) as Hw. rewrite Hl in Hw. apply each_suffix_app in Hw. simpl in Hw.
    destruct (Hw HC) as (d'&(t'&o'&Hin&Ht)%inserted_in&Ha). 
    assert (EvIns t' o' p d' ∈ i_log st) as Hin'. { rewrite Hl. apply elem_of_app. right. by right. }
    apply (v_log _ _ HI) in Hin' as [Hp _]. pose proof (points_read E _ _ _ _ _ Hp).
    assert (d' = d) as -> by congruence. exists t', o'. split_and!; try done. rewrite <- Ht. apply Hp.
  Qed.
  Lemma is_interned_after ls st l1 l2 l3 t1 o1 p d t ty w q b :
    ilawful E -> icoherent E -> no_clear ls -> run (istep E) iinit ls = Some st ->
    i_log st = l1 ++ EvRet t (OIs ty w q) (RBool b) :: l2 ++ EvRet t1 o1 (RPtr p) :: l3 ->
    op_ty o1 = ty -> iread st p = Some d -> ie_qeq E (ie_borrow E w d) q = true -> b = true.
  Proof.
    intros HL HC Hnc Hr Hl Hty Hv Hq. apply (is_interned_exact _ _ _ _ _ _ _ _ _ HL Hr Hnc Hl).
    change (l1 ++ ?x :: l2 ++ ?y :: l3) with (l1 ++ (x :: l2) ++ (y :: l3)) in Hl. rewrite app_assoc in Hl.
    destruct (ret_after_ins _ _ _ _ _ _ _ HL HC (reach_inv _ _ Hr) (reach_law _ _ HL Hr) Hl Hv) as (t'&o'&Hin&Ht'&Ht).
    exists t', o', p, d. split_and!; [|congruence|done]. apply elem_of_app. right. by right.
  Qed.
  Lemma is_interned_mono ls st l1 l2 l3 t1 t2 ty w q b :
    ilawful E -> no_clear ls -> run (istep E) iinit ls = Some st ->
    i_log st = l1 ++ EvRet t2 (OIs ty w q) (RBool b) :: l2 ++ EvRet t1 (OIs ty w q) (RBool true) :: l3 ->
    b = true.
  Proof.
    intros HL Hnc Hr Hl. apply (is_interned_exact _ _ _ _ _ _ _ _ _ HL Hr Hnc Hl).
    change (l1 ++ ?x :: l2 ++ ?y :: l3) with (l1 ++ (x :: l2) ++ (y :: l3)) in Hl. rewrite app_assoc in Hl.
    destruct (proj1 (is_interned_exact _ _ _ _ _ _ _ _ _ HL Hr Hnc Hl) eq_refl) as (t'&o'&p&d&Hin&?).
    exists t', o', p, d. split; [|done]. apply elem_of_app. right. by right.
  Qed.
  Lemma inserts_supplied ls st t o p v :
    run (istep E) iinit ls = Some st -> EvIns t o p v ∈ i_log st -> supplies E o v /\ ie_ty E v = op_ty o.
  Proof. intros Hr Hin. apply (v_log _ _ (reach_inv _ _ Hr)) in Hin as [Hp Hs]. split; [done|apply Hp]. Qed.

  (** ** C22 *)
  Lemma pair_values (l : list (iptr * V)) : ForallOrdPairs (λ a b : iptr * V, ie_eq E b.2 a.2 = false) l ->
    ForallOrdPairs (λ a b, ie_eq E b a = false) l.*2.
  Proof.
    induction 1 as [|[p d] l' Hf Ho IH]; csimpl; constructor; [|done].
    rewrite List.Forall_forall in *. intros d' Hd'%elem_of_list_In. apply elem_of_list_fmap in Hd' as ([p'' d'']&->&Hin).
    simpl. apply elem_of_list_In, Hf in Hin. done.
  Qed.
  Lemma len_exact_st st l1 l2 t ty n :
    ilawful E -> IInv st -> LInv E st -> (forall u, EvClr u ∉ i_log st) ->
    i_log st = l1 ++ EvRet t (OLen ty) (RNum n) :: l2 ->
    exists vs, length vs = n /\ ForallOrdPairs (λ a b, ie_eq E b a = false) vs /\
      (forall d, d ∈ vs <-> exists t' o' p, EvIns t' o' p d ∈ l2 /\ ie_ty E d = ty) /\
      (icoherent E -> forall t' o' p, EvRet t' o' (RPtr p) ∈ l2 -> op_ty o' = ty ->
        exists d, iread st p = Some d /\ d ∈ vs).
  Proof.
    intros HL HI HW Hcl Hl.
    pose proof (w_log _ _ HW) as Hw. rewrite Hl in Hw. apply each_suffix_app in Hw. destruct Hw as [_ ->].
    assert (forall d, d ∈ (inserted E ty l2).*2 <-> exists t' o' p, EvIns t' o' p d ∈ l2 /\ ie_ty E d = ty) as Hmem.
    { intros d. rewrite elem_of_list_fmap. split.
      + intros ([p d']&->&(t'&o'&Hin&Ht)%inserted_in). exists t', o', p. split; [done|].
        assert (EvIns t' o' p d' ∈ i_log st) as Hin'. { rewrite Hl. apply elem_of_app. right. by right. }
        apply (v_log _ _ HI) in Hin' as [(_&_&?) _]. simpl. congruence.
      + intros (t'&o'&p&Hin&Ht). exists (p, d). split; [done|].
        assert (op_ty o' = ty) as <-.
        { assert (EvIns t' o' p d ∈ i_log st) as Hin'. { rewrite Hl. apply elem_of_app. right. by right. }
          apply (v_log _ _ HI) in Hin' as [(_&_&<-) _]. done. }
        apply (ins_inserted _ t'); [|done]. intros u Hu. apply (Hcl u). rewrite Hl. apply elem_of_app. right. by right. }
    exists (inserted E ty l2).*2. simpl. rewrite fmap_length. split_and!; [done| | |].
    - apply pair_values. pose proof (w_uniq _ _ HW ty) as Hu. rewrite Hl in Hu.
      destruct (inserted_app ty (l1 ++ [EvRet t (OLen ty) (RNum (length (inserted E ty l2)))]) l2) as (l'&Hl'&_).
      + intros u Hu'. apply (Hcl u). rewrite Hl. apply elem_of_app in Hu' as [?|?%elem_of_list_singleton]; [|done].
        apply elem_of_app. by left.
      + rewrite <- app_assoc in Hl'. simpl in Hl', Hu. rewrite Hl' in Hu. clear -Hu.
        induction l'; simpl in Hu; [done|]. inversion Hu. auto.
    - intros d. by apply Hmem.
    - intros HC t' o' p Hin Ht. destruct (value_eq_st st t' o' p HL HC HI HW) as (d&Hd&_).
      { rewrite Hl. apply elem_of_app. right. by right. }
      exists d. split; [done|]. apply Hmem. apply elem_of_list_split in Hin as (l3&l4&->).
      assert (i_log st = (l1 ++ EvRet t (OLen ty) (RNum (length (inserted E ty (l3 ++ EvRet t' o' (RPtr p) :: l4)))) :: l3)
                ++ EvRet t' o' (RPtr p) :: l4) as Hl2 by (rewrite Hl, <- app_assoc; done).
      destruct (ret_after_ins st _ _ _ _ _ _ HL HC HI HW Hl2 Hd) as (t''&o''&Hin&_&Ht'').
      exists t'', o'', p. split; [|congruence]. apply elem_of_app. right. by right.
  Qed.

  Lemma len_exact ls st l1 l2 t ty n :
    ilawful E -> run (istep E) iinit ls = Some st -> no_clear ls ->
    i_log st = l1 ++ EvRet t (OLen ty) (RNum n) :: l2 ->
    exists vs, length vs = n /\ ForallOrdPairs (λ a b, ie_eq E b a = false) vs /\
      (forall d, d ∈ vs <-> exists t' o' p, EvIns t' o' p d ∈ l2 /\ ie_ty E d = ty) /\
      (icoherent E -> forall t' o' p, EvRet t' o' (RPtr p) ∈ l2 -> op_ty o' = ty ->
        exists d, iread st p = Some d /\ d ∈ vs).
  Proof.
    intros HL Hr Hnc. apply len_exact_st; try done; [by eapply reach_inv|by eapply reach_law|by eapply reach_nc].
  Qed.

  Lemma len_mono ls st l1 l2 l3 t1 t2 ty n m :
    run (istep E) iinit ls = Some st -> no_clear ls -> ilawful E ->
    i_log st = l1 ++ EvRet t2 (OLen ty) (RNum m) :: l2 ++ EvRet t1 (OLen ty) (RNum n) :: l3 -> n <= m.
  Proof.
    intros Hr Hnc HL Hl. pose proof (reach_law _ _ HL Hr) as HW.
    destruct (reach_nc _ _ Hnc Hr) as [Hcl _].
    pose proof (w_log _ _ HW) as Hw. rewrite Hl in Hw. pose proof (each_suffix_app _ _ _ _ Hw) as [_ ->].
    change (l1 ++ ?x :: l2 ++ ?y :: l3) with (l1 ++ (x :: l2) ++ (y :: l3)) in Hw. rewrite app_assoc in Hw.
    pose proof (each_suffix_app _ _ _ _ Hw) as [_ ->].
    destruct (inserted_app ty (l2 ++ [EvRet t1 (OLen ty) (RNum (length (inserted E ty l3)))]) l3) as (l'&Hl'&_).
    - intros u Hu'. apply (Hcl u). rewrite Hl. apply elem_of_app. right. right. apply elem_of_app.
      apply elem_of_app in Hu' as [?|?%elem_of_list_singleton]; [by left|done].
    - rewrite <- app_assoc in Hl'. simpl in *. rewrite Hl', app_length. lia.
  Qed.
End final.

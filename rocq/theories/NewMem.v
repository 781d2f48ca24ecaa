(** What [NewIntern] keeps allocated. *)
From stdpp Require Import gmap list numbers.
From Verif Require Import Base InternModel InternSpec InternInv InternStep InternLaw InternFinal InternMore InternMemSpec InternMem
  NewModel NewSpec NewSim NewStep NewFinal.
Require Import ZifyBool ZifyNat ZifyN.

Section mem.
  Context {V Q : Type} (E : ienv V Q).
  Context (HL : ilawful E) (HC : icoherent E).
  Implicit Types (s : nstate V Q) (st : istate V Q) (v : V) (p : iptr) (o : iop V Q) (f g : frame V Q) (t ty n : nat).
  Implicit Types (ls : list (ilabel V Q)) (ab : nat -> nat).
  Notation op_ty := (op_ty E).
  Notation E1 := (E1 E).
  Notation R := (R E).
  Notation IInv := (IInv E1).

  (** A call for type [ty] has panicked. *)
  Definition bad st ty : Prop :=
    exists t o, op_ty o = ty /\ (FDone o RPanic ∈ get_stack st t \/ EvRet t o RPanic ∈ i_log st).
  Record Mem ab st : Prop := {
    m_acc : Acc ab st;
    m_ret : Ret st;
    m_bad : forall n, 0 < ab n -> exists x, i_objs st !! n = Some x /\ bad st (ie_ty E (io_val x));
    m_one : forall n1 n2 x1 x2, 0 < ab n1 -> 0 < ab n2 -> i_objs st !! n1 = Some x1 -> i_objs st !! n2 = Some x2 ->
      ie_ty E (io_val x1) = ie_ty E (io_val x2) -> n1 = n2;
  }.

  Lemma mem_init : Mem (λ _, 0) iinit.
  Proof.
    constructor; try lia.
    - intros n. simpl. by rewrite msum_empty.
    - intros ???? H. by apply elem_of_nil in H.
  Qed.

  Lemma ab_persist ab st st' t fs fs' k n x : IInv st -> Acc ab st -> trans E1 st st' t fs fs' k ->
    0 < ab n -> i_objs st !! n = Some x -> i_objs st' !! n = Some x.
  Proof.
    intros HI HA Htr Hn Hx. apply (tr_objs _ _ _ _ _ _ _ Htr); [done|].
    specialize (HA n). unfold live in HA. rewrite Hx in HA.
    pose proof (msum_stack_ge (hand n) st t) as Hge. rewrite (tr_old _ _ _ _ _ _ _ Htr), lsum_app in Hge.
    assert (forall l : list (frame V Q), lsum (owned n) l <= lsum (hand n) l) as Hle.
    { intros l. induction l as [|f l IH]; simpl; [lia|]. unfold hand at 1. lia. }
    specialize (Hle fs). lia.
  Qed.
  (** Only returning takes a [FDone] frame away. *)
  Lemma bad_move st t fs fs' k st1 ty : IInv st -> get_stack st t = fs ++ k -> move E1 st t fs fs' st1 ->
    bad st ty -> bad (set_stack st1 t (fs' ++ k)) ty.
  Proof.
    intros HI Hst Hm (u&o&Ho&Hb). destruct (move_ok E1 st t fs fs' k st1 HI Hst Hm) as [Htr _].
    assert (exists l, i_log st1 = l ++ i_log st) as [l Hlog].
    { destruct Hm; simpl; try (by exists []); try (by eexists [_]).
      - exists []. by destruct (ialloc_spec E1 _ _ _ _ _ _ HI H) as (->&_).
      - exists []. unfold ileak in H0. destruct (i_objs st !! ip_ser p) as [x|]; [|done]. destruct (io_leaked x); [done|]. by injection H0 as <-.
      - exists []. by destruct (ialloc_spec E1 _ _ _ _ _ _ HI H) as (->&_).
      - exists []. unfold ifree in H. destruct (i_objs st !! ip_ser p) as [x|]; [|done]. destruct (io_leaked x); [done|]. by injection H as <-. }
    exists u, o. split; [done|]. cbn [i_log set_stack]. destruct Hb as [Hb|Hb]; [|right; rewrite Hlog; apply elem_of_app; by right].
    rewrite (stack_upd st _ t _ u (tr_new _ _ _ _ _ _ _ Htr)). destruct (decide (t = u)) as [<-|]; [|by left].
    rewrite Hst in Hb. apply elem_of_app in Hb as [Hb|Hb]; [|left; apply elem_of_app; by right].
    destruct Hm; try (apply elem_of_list_singleton in Hb; try done); [by apply elem_of_nil in Hb..|].
    injection Hb as <- <-. right. simpl. by left.
  Qed.

  Lemma ins_gone st t o p k r st1 : IInv st -> LInv E1 st -> get_stack st t = [FIns o p] ++ k ->
    move E1 st t [FIns o p] [FDone o r] st1 -> i_log st1 = i_log st -> r = RPanic.
  Proof.
    intros HI HW Hst Hm Hlog. assert (FIns o p ∈ get_stack st t) as Hin by (rewrite Hst; by left).
    destruct (w_frames _ _ HW _ _ Hin) as (v&Hpt&Hab). apply points_read in Hpt.
    inversion Hm as [| | | | | | | | | | | | | |o' p' v' Hr Hc E1' E2 E3|o' p' v' p'' Hr Hc E1' E2 E3| | | | | | |]; try done.
    - rewrite <- E3 in Hlog. simpl in Hlog. apply (f_equal length) in Hlog. simpl in Hlog. lia.
    - exfalso. subst st1. assert (v' = v) as -> by congruence. destruct (cand_ins E1 _ _ _ _ HI Hc) as (d&Hd&Hdm&_).
      destruct (Hab HC) as [Habs _]. apply Habs in Hd. unfold ins_match in Hdm. apply andb_true_iff in Hdm as [_ Hdm].
      apply (il_sym _ HL) in Hdm. change (ie_eq E1) with (ie_eq E) in Hd. congruence.
  Qed.

  Lemma mem_move ab st t fs fs' k st1 :
    IInv st -> LInv E1 st -> Mem ab st ->
    (forall u o, EvRet u o RPanic ∈ i_log st -> i_locks st !! slot E1 (op_ty o) = None) ->
    get_stack st t = fs ++ k -> move E1 st t fs fs' st1 ->
    exists ab', Mem ab' (set_stack st1 t (fs' ++ k)).
  Proof.
    intros HI HW HM Hp Hst Hm. destruct HM as [HA HR Hbad Hone].
    destruct (move_ok E1 st t fs fs' k st1 HI Hst Hm) as [Htr HI'].
    pose proof (ret_move E1 _ _ _ _ _ _ HI Hst Hm HR) as HR'.
    assert (forall ty, bad st ty -> bad (set_stack st1 t (fs' ++ k)) ty) as Hbm by (intros ty; by eapply bad_move).
    assert (forall n, 0 < ab n -> exists x, i_objs st !! n = Some x /\ i_objs (set_stack st1 t (fs' ++ k)) !! n = Some x) as Hkeep.
    { intros n Hn. destruct (Hbad n Hn) as (x&Hx&_). exists x. split; [done|]. exact (ab_persist _ _ _ _ _ _ _ _ _ HI HA Htr Hn Hx). }
    destruct (acc_move E1 ab _ _ _ _ _ _ HI Hst Hm HA) as [(n0&Hg&HA')|(_&HA')].
    - destruct Hg as (o&p&r&->&<-&->&Hlog). eexists. constructor; [exact HA'|done|..].
      all: assert (FIns o p ∈ get_stack st t) as Hin by (rewrite Hst; by left).
      all: destruct (w_frames _ _ HW _ _ Hin) as (v&Hpt&Hab).
      all: assert (r = RPanic) as ->.
      1,3: exact (ins_gone _ _ _ _ _ _ _ HI HW Hst Hm Hlog).
      all: assert (i_objs (set_stack st1 t (([FDone o RPanic]) ++ k)) !! ip_ser p = Some (IObj (ip_addr p) v true)) as Hx0.
      1,3: destruct Hpt as (Hx&_); apply (tr_objs _ _ _ _ _ _ _ Htr); done.
      all: assert (ie_ty E v = op_ty o) as Hty by apply Hpt.
      all: assert (forall n x, 0 < ab n -> i_objs st !! n = Some x -> ie_ty E (io_val x) <> op_ty o) as Hnew.
      1,3: intros n x Hn Hx Ht; destruct (Hbad n Hn) as (x'&Hx'&u&o'&Ho'&Hb); assert (x' = x) as -> by congruence;
        rewrite Ht in Ho';
        assert (lsum (held E1 (slot E1 (op_ty o))) (get_stack st t) = 1 + lsum (held E1 (slot E1 (op_ty o))) k) as Hh
          by (rewrite Hst; simpl; change (InternModel.op_ty E1 o) with (op_ty o); by rewrite Nat.eqb_refl);
        pose proof (v_locks _ _ HI (slot E1 (op_ty o))) as Hlk; pose proof (lk_le st (slot E1 (op_ty o)));
        pose proof (msum_stack_ge (held E1 (slot E1 (op_ty o))) st t) as Hge;
        (destruct Hb as [Hb|Hb];
         [|apply Hp in Hb; rewrite Ho' in Hb; unfold lk in Hlk; rewrite Hb in Hlk; lia]);
        assert (held E1 (slot E1 (op_ty o)) (FDone o' RPanic) = 1) as Hh'
          by (simpl; change (InternModel.op_ty E1 o') with (op_ty o'); rewrite Ho'; by rewrite Nat.eqb_refl);
        (destruct (decide (u = t)) as [->|Hne];
         [rewrite Hst in Hb; apply elem_of_cons in Hb as [?|Hb]; [done|];
          pose proof (lsum_ge (held E1 (slot E1 (op_ty o))) _ _ Hb); lia
         |pose proof (msum_stack_ge2 (held E1 (slot E1 (op_ty o))) st u t Hne);
          pose proof (lsum_ge (held E1 (slot E1 (op_ty o))) _ _ Hb); lia]).
      + intros n Hn. unfold one in Hn. destruct (decide (n = ip_ser p)) as [->|Hne]; [|destruct (Nat.eqb_spec (ip_ser p) n); [by subst n|]].
        * exists (IObj (ip_addr p) v true). split; [done|]. cbn [io_val]. exists t, o. split; [done|]. left.
          rewrite (stack_upd st _ t _ t (tr_new _ _ _ _ _ _ _ Htr)). destruct (decide (t = t)); [by left|done].
        * assert (0 < ab n) as Hn' by lia. destruct (Hbad n Hn') as (x&Hx&Hb). destruct (Hkeep n Hn') as (x'&Hx'&Hx'').
          exists x. split; [congruence|auto].
      + intros n1 n2 x1 x2 H1 H2 Hx1 Hx2 Ht. unfold one in H1, H2.
        destruct (Nat.eqb_spec (ip_ser p) n1) as [Heq1|]; destruct (Nat.eqb_spec (ip_ser p) n2) as [Heq2|]; [congruence| subst n1|subst n2|].
        * exfalso. assert (0 < ab n2) as Hn by lia. destruct (Hkeep n2 Hn) as (x&Hx&Hx'). assert (x2 = x) as -> by congruence.
          apply (Hnew n2 x Hn Hx). rewrite <- Ht, <- Hty. rewrite Hx0 in Hx1. by injection Hx1 as <-.
        * exfalso. assert (0 < ab n1) as Hn by lia. destruct (Hkeep n1 Hn) as (x&Hx&Hx'). assert (x1 = x) as -> by congruence.
          apply (Hnew n1 x Hn Hx). rewrite Ht, <- Hty. rewrite Hx0 in Hx2. by injection Hx2 as <-.
        * assert (0 < ab n1) as Hn1 by lia. assert (0 < ab n2) as Hn2 by lia.
          destruct (Hkeep n1 Hn1) as (y1&Hy1&Hy1'), (Hkeep n2 Hn2) as (y2&Hy2&Hy2').
          eapply (Hone n1 n2 y1 y2); try done. congruence.
    - exists ab. constructor; [done|done|..].
      + intros n Hn. destruct (Hbad n Hn) as (x&Hx&Hb). destruct (Hkeep n Hn) as (x'&Hx'&Hx''). exists x. split; [congruence|auto].
      + intros n1 n2 x1 x2 H1 H2 Hx1 Hx2 Ht. destruct (Hkeep n1 H1) as (y1&Hy1&Hy1'), (Hkeep n2 H2) as (y2&Hy2&Hy2').
        eapply (Hone n1 n2 y1 y2); try done. congruence.
  Qed.

  Lemma mem_give ab st t st' : IInv st -> Mem ab st -> give_up st t st' -> exists ab', Mem ab' st'.
  Proof.
    intros HI HM Hg. destruct HM as [HA HR Hbad Hone].
    destruct (give_up_trans E st t st' HI Hg) as (o&b&k&Htr&_&Hlog).
    exists ab.
    assert (forall n, 0 < ab n -> exists x, i_objs st !! n = Some x /\ i_objs st' !! n = Some x) as Hkeep.
    { intros n Hn. destruct (Hbad n Hn) as (x&Hx&_). exists x. split; [done|]. exact (ab_persist _ _ _ _ _ _ _ _ _ HI HA Htr Hn Hx). }
    assert (forall u g, g ∈ get_stack st u -> g <> FWait o b -> g ∈ get_stack st' u) as Hst.
    { intros u g Hu Hne. rewrite (stack_upd st st' t _ u (tr_new _ _ _ _ _ _ _ Htr)). destruct (decide (t = u)) as [<-|]; [|done].
      rewrite (tr_old _ _ _ _ _ _ _ Htr) in Hu. by apply elem_of_cons in Hu as [?|?]. }
    constructor.
    - intros n. specialize (HA n). rewrite Hlog. simpl.
      pose proof (msum_stack (hand n) st st' t _ (tr_new _ _ _ _ _ _ _ Htr)) as Hms.
      rewrite (tr_old _ _ _ _ _ _ _ Htr), !lsum_app in Hms. simpl in Hms.
      assert (live st n = live st' n + box_is n b) as Hlv; [|unfold hand in Hms at 2; simpl in Hms; lia].
      inversion Hg as [o1 k1 Ho1 Heq1|o1 p1 k1 st1 Ho1 Hf Heq1]; subst st'.
      + rewrite (tr_old _ _ _ _ _ _ _ Htr) in Ho1. injection Ho1 as -> -> _. unfold live. simpl. lia.
      + rewrite (tr_old _ _ _ _ _ _ _ Htr) in Ho1. injection Ho1 as -> -> _.
        unfold ifree in Hf. destruct (i_objs st !! ip_ser p1) as [x|] eqn:Hx; [|done]. destruct (io_leaked x); [done|].
        injection Hf as <-. unfold live. simpl. destruct (Nat.eqb_spec (ip_ser p1) n) as [<-|].
        * rewrite lookup_delete, Hx. done.
        * rewrite lookup_delete_ne by done. lia.
    - intros u o' p v Hin. rewrite Hlog in Hin |- *. apply elem_of_cons in Hin as [?|Hin]; [done|].
      destruct (HR _ _ _ _ Hin); [left; by apply Hst|right; by right].
    - intros n Hn. destruct (Hbad n Hn) as (x&Hx&(u&o'&Ho'&Hb)). destruct (Hkeep n Hn) as (x'&Hx'&Hx'').
      exists x. split; [congruence|]. exists u, o'. split; [done|]. rewrite Hlog. destruct Hb; [left; by apply Hst|right; by right].
    - intros n1 n2 x1 x2 H1 H2 Hx1 Hx2 Ht. destruct (Hkeep n1 H1) as (y1&Hy1&Hy1'), (Hkeep n2 H2) as (y2&Hy2&Hy2').
      eapply (Hone n1 n2 y1 y2); try done; congruence.
  Qed.

  Lemma panic_unlocked s st u o : R s st -> EvRet u o RPanic ∈ i_log st -> i_locks st !! slot E1 (op_ty o) = None.
  Proof.
    intros HR Hin. pose proof (r_base _ _ _ HR) as HR0. rewrite (r_log _ _ _ HR0) in Hin.
    destruct (r_panics _ _ _ HR0 _ _ Hin) as (i&Hf&Hp). rewrite (r_locks _ _ _ HR0), Hf. by apply (r_poison _ _ _ HR0).
  Qed.

  Definition NMem s : Prop := exists st ab, IInv st /\ LInv E1 st /\ R s st /\ Mem ab st.
  Lemma nmem_step s l s' : NMem s -> nstep E s l = Next s' -> NMem s'.
  Proof.
    intros (st&ab&HI&HW&HR&HM) Hs. destruct (nstep_sim E _ _ _ _ HI HR Hs) as (st'&Hsim&HR').
    pose proof (sim_inv E _ _ HI Hsim) as HI'. pose proof (sim_law E _ _ (lawful1 E HL) HI HW Hsim) as HW'.
    assert (exists ab', Mem ab' st') as [ab' HM']; [|by exists st', ab'].
    destruct Hsim as [|t fs fs' k st1 Hst Hm|p v Hr Hv|t st'' Hg].
    - by exists ab.
    - eapply (mem_move ab st); try done. intros u o. by eapply panic_unlocked.
    - exists ab. destruct HM as [HA HRt Hb Ho]. constructor; [done|by apply ret_read| |done].
      intros n Hn. destruct (Hb n Hn) as (x&Hx&(u&o&Ho'&Hb')). exists x. split; [done|]. exists u, o. split; [done|].
      destruct Hb'; [by left|right; simpl; by right].
    - exact (mem_give _ _ _ _ HI HM Hg).
  Qed.
  Lemma nreach_mem ls s : run (nstep E) ninit ls = Some s -> NMem s.
  Proof.
    revert s. induction ls as [|lb ls IH] using rev_ind; intros s Hr.
    { injection Hr as <-. exists iinit, (λ _, 0). split_and!; [apply iinv_init|apply linv_init|apply R_init|apply mem_init]. }
    rewrite run_snoc in Hr. destruct (run (nstep E) ninit ls) as [s0|] eqn:Hr0; [|done]. specialize (IH _ eq_refl).
    unfold exec in Hr. destruct (nstep E s0 lb) as [s1| | |] eqn:Hs; try done; injection Hr as ->; try done.
    by eapply nmem_step.
  Qed.

  (** Every allocation at rest is in the set, or was abandoned by a panic. *)
  Lemma rest_place s st ab n x : IInv st -> R s st -> Mem ab st -> (forall t, nstack s t = []) ->
    n_objs s !! n = Some x ->
    (exists t o p, EvIns t o p (io_val x) ∈ n_log s /\ EvRet t o (RPtr p) ∈ n_log s /\ ip_ser p = n /\ op_ty o = ie_ty E (io_val x)) \/
    (0 < ab n /\ exists t o, EvRet t o RPanic ∈ n_log s /\ op_ty o = ie_ty E (io_val x)).
  Proof.
    intros HI HR [HA HRt Hb Ho] Hq Hx. pose proof (r_base _ _ _ HR) as HR0. rewrite <- (r_objs _ _ _ HR0) in Hx.
    rewrite <- (r_log _ _ _ HR0).
    assert (forall t, get_stack st t = []) as Hq'. { intros t. by rewrite (R_stack _ _ _ _ HR), Hq. }
    specialize (HA n). unfold live in HA. rewrite Hx in HA.
    destruct (decide (0 < ab n)) as [Hn|Hn].
    - right. split; [done|]. destruct (Hb n Hn) as (x'&Hx'&(t&o&Ht&[Hf|Hf])).
      + rewrite Hq' in Hf. by apply elem_of_nil in Hf.
      + exists t, o. split; [done|]. congruence.
    - left. destruct (decide (0 < inse n (i_log st))) as [Hi|Hi].
      + apply inse_pos in Hi as (t&o&p&v&Hin&<-). pose proof (v_log _ _ HI _ Hin) as [(Hx'&_&Ht) _].
        assert (x = IObj (ip_addr p) v true) as -> by congruence. simpl. exists t, o, p. split_and!; try done.
        destruct (HRt _ _ _ _ Hin) as [Hf|]; [|done]. rewrite Hq' in Hf. by apply elem_of_nil in Hf.
      + exfalso. assert (0 < msum (lsum (hand n)) (i_threads st)) as Hm by lia.
        apply msum_pos_stack in Hm as (t&f&Hf&_). rewrite Hq' in Hf. by apply elem_of_nil in Hf.
  Qed.

  Theorem new_one_per_value ls s : run (nstep E) ninit ls = Some s -> no_clear ls -> (forall t, nstack s t = []) ->
    forall ty, (forall t o, EvRet t o RPanic ∈ n_log s -> op_ty o <> ty) ->
    (forall n1 x1 n2 x2, n_objs s !! n1 = Some x1 -> n_objs s !! n2 = Some x2 ->
       ie_ty E (io_val x1) = ty -> ie_ty E (io_val x2) = ty -> ie_eq E (io_val x1) (io_val x2) = true -> n1 = n2) /\
    (forall n x, n_objs s !! n = Some x -> ie_ty E (io_val x) = ty ->
       exists t o p, EvRet t o (RPtr p) ∈ n_log s /\ ip_ser p = n).
  Proof.
    intros Hr Hnc Hq ty Hnp. destruct (nreach_mem _ _ Hr) as (st&ab&HI&HW&HR&HM).
    pose proof (nreach_nc E _ _ Hnc Hr) as [Hcl _].
    assert (forall n x, n_objs s !! n = Some x -> ie_ty E (io_val x) = ty -> exists t o p,
      EvIns t o p (io_val x) ∈ n_log s /\ EvRet t o (RPtr p) ∈ n_log s /\ ip_ser p = n /\ op_ty o = ty) as Hpl.
    { intros n x Hx Ht. destruct (rest_place _ _ _ _ _ HI HR HM Hq Hx) as [(t&o&p&?&?&?&?)|(_&t&o&Hin&Ho)].
      - exists t, o, p. split_and!; try done. congruence.
      - apply Hnp in Hin. congruence. }
    split.
    - intros n1 x1 n2 x2 H1 H2 Ht1 Ht2 He.
      destruct (Hpl _ _ H1 Ht1) as (t1&o1&p1&Hi1&_&<-&Ho1). destruct (Hpl _ _ H2 Ht2) as (t2&o2&p2&Hi2&_&<-&Ho2).
      rewrite <- (r_log _ _ _ (r_base _ _ _ HR)) in Hi1, Hi2, Hcl.
      apply (ins_inserted E1) in Hi1; [|done]. apply (ins_inserted E1) in Hi2; [|done].
      change (InternModel.op_ty E1) with op_ty in *. rewrite Ho1 in Hi1. rewrite Ho2 in Hi2.
      destruct (ordpairs_uniq E1 _ _ _ _ _ _ (lawful1 E HL) (w_uniq _ _ HW ty) Hi1 Hi2 He) as [-> _]. done.
    - intros n x Hx Ht. destruct (Hpl _ _ Hx Ht) as (t&o&p&_&?&?&_). by exists t, o, p.
  Qed.

  Theorem new_leaks_once ls s n1 x1 n2 x2 : run (nstep E) ninit ls = Some s -> (forall t, nstack s t = []) ->
    n_objs s !! n1 = Some x1 -> n_objs s !! n2 = Some x2 -> ie_ty E (io_val x1) = ie_ty E (io_val x2) ->
    (forall t o p, EvRet t o (RPtr p) ∈ n_log s -> ip_ser p <> n1 /\ ip_ser p <> n2) -> n1 = n2.
  Proof.
    intros Hr Hq H1 H2 Ht Hno. destruct (nreach_mem _ _ Hr) as (st&ab&HI&HW&HR&HM).
    destruct (rest_place _ _ _ _ _ HI HR HM Hq H1) as [(t&o&p&_&Hin&Hp&_)|[Hn1 _]].
    { apply Hno in Hin. naive_solver. }
    destruct (rest_place _ _ _ _ _ HI HR HM Hq H2) as [(t&o&p&_&Hin&Hp&_)|[Hn2 _]].
    { apply Hno in Hin. naive_solver. }
    rewrite <- (r_objs _ _ _ (r_base _ _ _ HR)) in H1, H2. by eapply (m_one _ _ HM).
  Qed.
End mem.

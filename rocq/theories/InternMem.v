(** What [Intern] keeps allocated. *)
From stdpp Require Import gmap list numbers.
From Verif Require Import Base InternModel InternSpec InternInv InternStep InternLaw InternFinal InternMore InternMemSpec.
Require Import ZifyBool ZifyNat ZifyN.

Section mem.
  Context {V Q : Type} (E : ienv V Q).
  Implicit Types (st : istate V Q) (v d : V) (p : iptr) (o : iop V Q) (f g : frame V Q) (t ty s : nat).
  Implicit Types (ls : list (ilabel V Q)) (l : list (ievent V Q)) (lb : ilabel V Q) (ab : nat -> nat).
  Notation op_ty := (op_ty E).
  Notation IInv := (IInv E).

  Definition hand s f : nat := owned s f + insf s f.
  Definition live st s : nat := match i_objs st !! s with Some _ => 1 | None => 0 end.
  Definition one s s' : nat := if s =? s' then 1 else 0.
  (** [ab]: how often an allocation was abandoned. *)
  Definition Acc ab st : Prop := forall s, msum (lsum (hand s)) (i_threads st) + inse s (i_log st) + ab s = live st s.

  (** The allocation abandoned by a move. *)
  Definition gone (st : istate V Q) st1 (fs fs' : list (frame V Q)) s : Prop :=
    exists o p r, fs = [FIns o p] /\ ip_ser p = s /\ fs' = [FDone o r] /\ i_log st1 = i_log st.

  Lemma move_acc st t fs fs' k st1 : IInv st -> get_stack st t = fs ++ k -> move E st t fs fs' st1 ->
    (exists s0, gone st st1 fs fs' s0 /\
      forall s, lsum (hand s) fs' + inse s (i_log st1) + one s0 s + live st s = lsum (hand s) fs + inse s (i_log st) + live st1 s) \/
    ((forall s0, ~ gone st st1 fs fs' s0) /\
      forall s, lsum (hand s) fs' + inse s (i_log st1) + live st s = lsum (hand s) fs + inse s (i_log st) + live st1 s).
  Proof.
    intros HI Hst Hm.
    assert (forall f, f ∈ fs -> frame_ok E st f) as Hfr.
    { intros f Hf. apply (v_frames _ _ HI t). rewrite Hst. apply elem_of_app. by left. }
    destruct Hm; try (right; split; [intros s0 (?&?&?&?&?&?&?); done|]; intros s; unfold hand, live; simpl; lia).
    - right; split; [intros s0 (?&?&?&?&?&?&?); done|]. intros s.
      destruct (ialloc_spec E _ _ _ _ _ _ HI H) as (->&->&Hn&_). unfold hand, live. simpl.
      destruct (Nat.eqb_spec (i_next st) s) as [<-|]; [rewrite lookup_insert, Hn; simpl; lia|rewrite lookup_insert_ne by done; lia].
    - right; split; [intros s0 (?&?&?&?&?&?&?); done|]. intros s. unfold hand, live. simpl.
      assert (frame_ok E st (FWait (OLen ty) b)) as Hb by (apply Hfr; by left). simpl in Hb. subst b. simpl. lia.
    - right; split; [intros s0 (?&?&?&?&?&?&?); done|]. intros s. unfold hand, live. simpl.
      assert (frame_ok E st (FWait (OClear ty) b)) as Hb by (apply Hfr; by left). simpl in Hb. subst b. simpl. lia.
    - right; split; [intros s0 (?&?&?&?&?&?&?); done|]. intros s. unfold hand, live. simpl.
      destruct (Hfr (FGet o b)) as [Hb _]; [by left|]. destruct o; simpl in *; try done; subst b; simpl; lia.
    - right; split; [intros s0 (?&?&?&?&?&?&?); done|]. intros s. unfold hand, live. simpl.
      destruct (Hfr (FGet (OIs ty w q) b)) as [Hb _]; [by left|]. simpl in Hb. subst b. simpl. lia.
    - right; split; [intros s0 (?&?&?&?&?&?&?); done|]. intros s. unfold hand, live. simpl.
      destruct (Hfr (FGet o b)) as [Hb _]; [by left|]. destruct H0; subst o; simpl in Hb; subst b; simpl; lia.
    - right; split; [intros s0 (?&?&?&?&?&?&?); done|]. intros s.
      destruct (Hfr (FGet (OBox v) (Some p))) as [(p'&[= <-]&Hx&_) ?]; [by left|]. unfold ileak in H0. rewrite Hx in H0.
      simpl in H0. injection H0 as <-. unfold hand, live. simpl. destruct (Nat.eqb_spec (ip_ser p) s) as [<-|].
      + rewrite lookup_insert, Hx. simpl. lia.
      + rewrite lookup_insert_ne by done. lia.
    - right; split; [intros s0 (?&?&?&?&?&?&?); done|]. intros s. unfold hand, live. simpl.
      destruct (Hfr (FGet (ORef ty w q) b)) as [Hb _]; [by left|]. simpl in Hb. subst b. simpl. lia.
    - right; split; [intros s0 (?&?&?&?&?&?&?); done|]. intros s. unfold hand, live. simpl.
      destruct (Hfr (FGet (OIs ty w q) b)) as [Hb _]; [by left|]. simpl in Hb. subst b. simpl. lia.
    - right; split; [intros s0 (?&?&?&?&?&?&?); done|]. intros s.
      destruct (ialloc_spec E _ _ _ _ _ _ HI H) as (->&->&Hn&_). unfold hand, live. simpl.
      destruct (Nat.eqb_spec (i_next st) s) as [<-|]; [rewrite lookup_insert, Hn; simpl; lia|rewrite lookup_insert_ne by done; lia].
    - right; split; [|intros s; unfold hand, live; simpl; lia].
      intros s0 (?&?&?&?&?&?&Hl). simpl in Hl. apply (f_equal length) in Hl. simpl in Hl. lia.
    - left. exists (ip_ser p). split; [by eexists _, _, _|]. intros s. unfold hand, live, one. simpl. lia.
    - right; split; [intros s0 (?&?&?&?&?&?&?); done|]. intros s.
      unfold ifree in H. destruct (i_objs st !! ip_ser p) as [x|] eqn:Hx; [|done]. destruct (io_leaked x); [done|].
      injection H as <-. unfold hand, live. simpl. destruct (Nat.eqb_spec (ip_ser p) s) as [<-|].
      + rewrite lookup_delete, Hx. lia.
      + rewrite lookup_delete_ne by done. lia.
    - left. exists (ip_ser p). split; [by eexists _, _, _|]. intros s. unfold hand, live, one. simpl. lia.
  Qed.

  Lemma gone_abandons st lb t fs fs' k st1 s : get_stack st t = fs ++ k -> lab_thread lb = Some t ->
    istep E st lb = Next (set_stack st1 t (fs' ++ k)) ->
    (fs = [] -> exists o b, fs' = [FWait o b]) -> length fs <= 1 ->
    gone st st1 fs fs' s <-> abandons E st lb s.
  Proof.
    intros Hst Hlb Hs Hc Hn. split.
    - intros (o&p&r&->&<-&->&Hl). exists t, o, p, k, r. eexists. split_and!; [done|done|done|exact Hs| |done].
      rewrite get_stack_set. by destruct (decide (t = t)).
    - intros (t'&o&p&k'&r&st'&Hst'&<-&Hlb'&Hs'&Hd&Hl). assert (t' = t) as -> by congruence.
      rewrite Hs in Hs'. injection Hs' as <-. rewrite get_stack_set in Hd. destruct (decide (t = t)); [|done].
      rewrite Hst in Hst'. destruct fs as [|f [|]]; simpl in *; [|injection Hst' as -> ->|lia].
      + destruct Hc as (o'&b&->); [done|]. done.
      + assert (fs' = [FDone o r]) as ->.
        { change (FDone o r :: k') with ([FDone o r] ++ k') in Hd. by apply app_inv_tail in Hd. }
        by exists o, p, r.
  Qed.
  Lemma move_one st t fs fs' st1 : move E st t fs fs' st1 -> length fs <= 1.
  Proof. destruct 1; simpl; lia. Qed.

  Lemma acc_move ab st t fs fs' k st1 : IInv st -> get_stack st t = fs ++ k -> move E st t fs fs' st1 -> Acc ab st ->
    (exists s0, gone st st1 fs fs' s0 /\ Acc (λ s, ab s + one s0 s) (set_stack st1 t (fs' ++ k))) \/
    ((forall s0, ~ gone st st1 fs fs' s0) /\ Acc ab (set_stack st1 t (fs' ++ k))).
  Proof.
    intros HI Hst Hm HA. destruct (move_ok E st t fs fs' k st1 HI Hst Hm) as [Htr _].
    assert (forall s, msum (lsum (hand s)) (i_threads (set_stack st1 t (fs' ++ k))) + lsum (hand s) fs =
      lsum (hand s) fs' + msum (lsum (hand s)) (i_threads st)) as Hms.
    { intros s. pose proof (msum_stack (hand s) st _ t _ (tr_new _ _ _ _ _ _ _ Htr)) as Hms.
      rewrite Hst, !lsum_app in Hms. lia. }
    assert (forall s, live (set_stack st1 t (fs' ++ k)) s = live st1 s) as Hlv by done.
    destruct (move_acc st t fs fs' k st1 HI Hst Hm) as [(s0&H0&H)|(H0&H)]; [left; exists s0|right]; (split; [done|]);
      intros s; specialize (H s); specialize (HA s); specialize (Hms s); rewrite Hlv; simpl i_log; lia.
  Qed.
  Lemma acc_step ab st lb st' : IInv st -> istep E st lb = Next st' -> Acc ab st ->
    (exists s0, (forall s, abandons E st lb s <-> s = s0) /\ Acc (λ s, ab s + one s0 s) st') \/
    ((forall s0, ~ abandons E st lb s0) /\ Acc ab st').
  Proof.
    intros HI Hs HA. destruct (istep_move E _ _ _ Hs) as [(p&v&_&_&->&->)|(t&fs&fs'&k&st1&Hst&Hm&->&Hlb&Hc)].
    { right. split; [|done]. intros s0 (?&?&?&?&?&?&?&?&?&?). done. }
    assert (forall s, gone st st1 fs fs' s <-> abandons E st lb s) as Hg.
    { intros s. eapply gone_abandons; try done; [|by eapply move_one].
      intros Hf. destruct (Hc Hf) as (o&b&a&_&->). eauto. }
    destruct (acc_move ab st t fs fs' k st1 HI Hst Hm HA) as [(s0&H0&H)|(H0&H)].
    - left. exists s0. split; [|done].
      intros s. rewrite <- Hg. split; [|by intros ->]. destruct H0 as (?&?&?&->&<-&->&_). by intros (?&?&?&[= -> ->]&<-&_).
    - right. split; [intros s; by rewrite <- Hg|done].
  Qed.

  Lemma abandoned_snoc ls lb st s : run (istep E) iinit ls = Some st ->
    abandoned E (ls ++ [lb]) s <-> abandoned E ls s \/ abandons E st lb s.
  Proof.
    intros Hr. split.
    - intros (ls1&lb'&ls2&st1&Heq&Hr1&Ha). destruct ls2 as [|lb3 ls3 _] using rev_ind.
      + apply app_inj_tail in Heq as [-> ->]. right. assert (st1 = st) as -> by congruence. done.
      + rewrite app_comm_cons, app_assoc in Heq. apply app_inj_tail in Heq as [-> _]. left. by exists ls1, lb', ls3, st1.
    - intros [(ls1&lb'&ls2&st1&->&Hr1&Ha)|Ha].
      + exists ls1, lb', (ls2 ++ [lb]), st1. by rewrite <- app_assoc.
      + exists ls, lb, [], st. done.
  Qed.

  Lemma reach_acc ls st : run (istep E) iinit ls = Some st ->
    exists ab, Acc ab st /\ forall s, 0 < ab s <-> abandoned E ls s.
  Proof.
    revert st. induction ls as [|lb ls IH] using rev_ind; intros st Hr.
    { injection Hr as <-. exists (λ _, 0). split; [intros s; simpl; rewrite msum_empty; done|].
      intros s. split; [lia|]. intros (ls1&lb&ls2&st1&Heq&_). by destruct ls1. }
    rewrite run_snoc in Hr. destruct (run (istep E) iinit ls) as [st0|] eqn:Hr0; [|done].
    pose proof (reach_inv E _ _ Hr0) as HI. destruct (IH _ eq_refl) as (ab&HA&Hab). unfold exec in Hr.
    assert ((forall s, ~ abandons E st0 lb s) -> forall s, 0 < ab s <-> abandoned E (ls ++ [lb]) s) as Hno.
    { intros Hn s. rewrite (abandoned_snoc _ _ _ _ Hr0), Hab. split; [by left|]. intros [?|Ha]; [done|]. by apply Hn in Ha. }
    destruct (istep E st0 lb) as [st1| | |] eqn:Hs; try done; injection Hr as ->.
    - destruct (acc_step _ _ _ _ HI Hs HA) as [(s0&Hs0&HA')|(Hn&HA')]; [|exists ab; by auto].
      eexists. split; [exact HA'|]. intros s. simpl. rewrite (abandoned_snoc _ _ _ _ Hr0), <- Hab, Hs0. unfold one.
      destruct (Nat.eqb_spec s0 s) as [->|]; [split; [by right|lia]|]. split; [left; lia|]. intros [?| ->]; [lia|done].
    - exists ab. split; [done|]. apply Hno. intros s (?&?&?&?&?&?&?&?&?&H&_). congruence.
    - exists ab. split; [done|]. apply Hno. intros s (?&?&?&?&?&?&?&?&?&H&_). congruence.
  Qed.

  (** ** From counts to statements *)
  Lemma inse_pos s l : 0 < inse s l -> exists t o p v, EvIns t o p v ∈ l /\ ip_ser p = s.
  Proof.
    induction l as [|e l IH]; simpl; [lia|].
    destruct e as [t o p v|u|t o r|p v]; try (intros H; destruct (IH H) as (t'&o'&p'&v'&?&?); exists t', o', p', v'; split; [by right|done]).
    destruct (Nat.eqb_spec (ip_ser p) s) as [<-|].
    - intros _. exists t, o, p, v. split; [by left|done].
    - intros H. destruct (IH H) as (t'&o'&p'&v'&?&?). exists t', o', p', v'. split; [by right|done].
  Qed.
  Lemma hand_in s f : 0 < hand s f <-> in_hand f s.
  Proof.
    unfold hand. destruct f as [o [p|]|o [p|]|ty w q|o v|o p|o [p|] r|o r]; simpl; try lia;
      destruct (Nat.eqb_spec (ip_ser p) s); split; try done; lia.
  Qed.
  Lemma hand_le s f : hand s f <= 1.
  Proof.
    unfold hand. destruct f as [o [p|]|o [p|]|ty w q|o v|o p|o [p|] r|o r]; simpl; try lia;
      destruct (Nat.eqb_spec (ip_ser p) s); lia.
  Qed.
  Lemma msum_pos_stack (w : frame V Q -> nat) st : 0 < msum (lsum w) (i_threads st) ->
    exists t f, f ∈ get_stack st t /\ 0 < w f.
  Proof.
    intros H. destruct (msum_pos (lsum w) (i_threads st) H) as (t&k&Ht&Hk).
    apply lsum_pos in Hk as (f&Hf&Hw). exists t, f. unfold get_stack. by rewrite Ht.
  Qed.
  Lemma live_pos st s : 0 < live st s <-> is_Some (i_objs st !! s).
  Proof. unfold live. destruct (i_objs st !! s); split; try lia; try done. intros []; done. Qed.
  Lemma hand_sum st t f s : f ∈ get_stack st t -> in_hand f s -> 0 < msum (lsum (hand s)) (i_threads st).
  Proof.
    intros Hf Hh%hand_in. pose proof (msum_stack_ge (hand s) st t). pose proof (lsum_ge (hand s) _ _ Hf). lia.
  Qed.

  Theorem where_allocated ls st s : run (istep E) iinit ls = Some st ->
    (is_Some (i_objs st !! s) <->
       (exists t f, f ∈ get_stack st t /\ in_hand f s) \/
       (exists t o p v, EvIns t o p v ∈ i_log st /\ ip_ser p = s) \/
       abandoned E ls s).
  Proof.
    intros Hr. destruct (reach_acc _ _ Hr) as (ab&HA&Hab). specialize (HA s). rewrite <- live_pos, <- Hab. split.
    - intros Hl. destruct (decide (0 < msum (lsum (hand s)) (i_threads st))) as [H|].
      + left. apply msum_pos_stack in H as (t&f&?&H). exists t, f. by rewrite hand_in in H.
      + destruct (decide (0 < inse s (i_log st))) as [H|]; [|lia]. right. left. by apply inse_pos.
    - intros [(t&f&Hf&Hh)|[(t&o&p&v&Hin&<-)|?]]; [|apply inse_in in Hin; lia|lia].
      pose proof (hand_sum _ _ _ _ Hf Hh). lia.
  Qed.

  Theorem one_place ls st s : run (istep E) iinit ls = Some st ->
    (forall t1 i1 f1 t2 i2 f2, get_stack st t1 !! i1 = Some f1 -> in_hand f1 s ->
       get_stack st t2 !! i2 = Some f2 -> in_hand f2 s -> t1 = t2 /\ i1 = i2) /\
    (forall t f t' o p v, f ∈ get_stack st t -> in_hand f s -> EvIns t' o p v ∈ i_log st -> ip_ser p <> s) /\
    (forall t f, f ∈ get_stack st t -> in_hand f s -> ~ abandoned E ls s) /\
    (forall t' o p v, EvIns t' o p v ∈ i_log st -> abandoned E ls s -> ip_ser p <> s).
  Proof.
    intros Hr. destruct (reach_acc _ _ Hr) as (ab&HA&Hab). specialize (HA s).
    assert (live st s <= 1) as Hle. { unfold live. destruct (i_objs st !! s); lia. }
    split_and!.
    - intros t1 i1 f1 t2 i2 f2 H1 Hh1%hand_in H2 Hh2%hand_in. destruct (decide (t1 = t2)) as [->|Hne].
      + split; [done|]. destruct (decide (i1 = i2)) as [|Hi]; [done|exfalso].
        pose proof (msum_stack_ge (hand s) st t2) as Hge.
        assert (hand s f1 + hand s f2 <= lsum (hand s) (get_stack st t2)); [|lia].
        clear -H1 H2 Hi. revert i1 i2 H1 H2 Hi. induction (get_stack st t2) as [|f k IH]; intros i1 i2 H1 H2 Hi; [done|].
        destruct i1 as [|i1], i2 as [|i2]; simpl in *; [done|..].
        * injection H1 as ->. apply elem_of_list_lookup_2, (lsum_ge (hand s)) in H2. lia.
        * injection H2 as ->. apply elem_of_list_lookup_2, (lsum_ge (hand s)) in H1. lia.
        * specialize (IH i1 i2 H1 H2 ltac:(lia)). lia.
      + exfalso. pose proof (msum_stack_ge2 (hand s) st t1 t2 Hne).
        apply elem_of_list_lookup_2, (lsum_ge (hand s)) in H1. apply elem_of_list_lookup_2, (lsum_ge (hand s)) in H2. lia.
    - intros t f t' o p v Hf Hh Hin Hs. pose proof (hand_sum _ _ _ _ Hf Hh). apply inse_in in Hin. rewrite Hs in Hin. lia.
    - intros t f Hf Hh Ha%Hab. pose proof (hand_sum _ _ _ _ Hf Hh). lia.
    - intros t' o p v Hin Ha%Hab Hs. apply inse_in in Hin. rewrite Hs in Hin. lia.
  Qed.

  (** ** Nothing is abandoned *)
  Lemma no_abandon ls st s : ilawful E -> icoherent E -> no_insert_panic E ls -> run (istep E) iinit ls = Some st ->
    ~ abandoned E ls s.
  Proof.
    intros HL HC Hnp Hr (ls1&lb&ls2&st1&->&Hr1&(t&o&p&k&r&st'&Hst&_&Hlb&Hs&Hd&Hl)).
    pose proof (reach_inv E _ _ Hr1) as HI. pose proof (reach_law E _ _ HL Hr1) as HW.
    destruct lb as [t' o' a|t' a i|t' v|t'|p']; simpl in Hlb; try done; injection Hlb as ->; simpl in Hs.
    - rewrite Hst in Hs. simpl in Hs. exfalso. destruct o'; try (injection Hs as <-; rewrite get_stack_set in Hd; by destruct (decide (t = t))).
      destruct (ialloc E st1 a v false) as [[st2 p2]|]; [|done]. injection Hs as <-.
      rewrite get_stack_set in Hd. by destruct (decide (t = t)).
    - unfold istep_thread in Hs. rewrite Hst in Hs.
      assert (FIns o p ∈ get_stack st1 t) as Hin by (rewrite Hst; by left).
      destruct (w_frames _ _ HW _ _ Hin) as (v&Hp&Ha). destruct (Ha HC) as [Hab _]. apply points_read in Hp. rewrite Hp in Hs.
      destruct (ireadable _ _); [|done]. destruct (candidates _ _ _) as [|p' l'] eqn:Hc.
      + injection Hs as <-. simpl in Hl. apply (f_equal length) in Hl. simpl in Hl. lia.
      + assert (p' ∈ candidates st1 (ins_match E v) (set_of E st1 (op_ty o))) as Hcin by (rewrite Hc; by left).
        destruct (cand_ins E _ _ _ _ HI Hcin) as (d&Hdi&Hdm&_). apply Hab in Hdi.
        unfold ins_match in Hdm. apply andb_true_iff in Hdm as [_ Hdm]. apply (il_sym _ HL) in Hdm. congruence.
    - rewrite Hst in Hs. done.
    - by eapply (Hnp ls1 t ls2).
  Qed.

  (** ** Who inserted also returned *)
  Definition Ret st : Prop := forall t o p v, EvIns t o p v ∈ i_log st ->
    FDone o (RPtr p) ∈ get_stack st t \/ EvRet t o (RPtr p) ∈ i_log st.
  Lemma ret_move st t fs fs' k st1 : IInv st -> get_stack st t = fs ++ k -> move E st t fs fs' st1 -> Ret st ->
    Ret (set_stack st1 t (fs' ++ k)).
  Proof.
    intros HI Hst Hm HR.
    destruct (move_ok E st t fs fs' k st1 HI Hst Hm) as [Htr _].
    assert (forall g u, g ∈ get_stack st u -> g ∉ fs -> g ∈ get_stack (set_stack st1 t (fs' ++ k)) u) as Hkeep.
    { intros g u Hg Hn. rewrite (stack_upd st _ t _ u (tr_new _ _ _ _ _ _ _ Htr)). destruct (decide (t = u)) as [<-|]; [|done].
      rewrite Hst in Hg. apply elem_of_app in Hg as [?|?]; [done|]. apply elem_of_app. by right. }
    assert (forall g, g ∈ fs' -> g ∈ get_stack (set_stack st1 t (fs' ++ k)) t) as Hput.
    { intros g Hg. rewrite (stack_upd st _ t _ t (tr_new _ _ _ _ _ _ _ Htr)). destruct (decide (t = t)); [|done]. apply elem_of_app. by left. }
    assert (forall u o p, FDone o (RPtr p) ∈ get_stack st u \/ EvRet u o (RPtr p) ∈ i_log st ->
      i_log st1 = i_log st -> FDone o (RPtr p) ∉ fs ->
      FDone o (RPtr p) ∈ get_stack (set_stack st1 t (fs' ++ k)) u \/ EvRet u o (RPtr p) ∈ i_log st1) as Hsame.
    { intros u o p [?|?] Hl Hn; [left; by apply Hkeep|right; by rewrite Hl]. }
    intros u o p v Hin. cbn [i_log set_stack] in *.
    assert (forall f, fs = [f] -> (forall o r, f <> FDone o r) -> FDone o (RPtr p) ∉ fs) as Hnf.
    { intros f -> Hf Hx. apply elem_of_list_singleton in Hx. by eapply Hf. }
    destruct Hm; simpl in Hin; try (apply Hsame; [by eapply HR|done|first [by eapply Hnf|intros Hx; by apply elem_of_nil in Hx]]).
    - assert (i_log st1 = i_log st) as Hl by (by destruct (ialloc_spec E _ _ _ _ _ _ HI H) as (->&_)). rewrite Hl in Hin.
      apply Hsame; [by eapply HR|done|intros Hx; by apply elem_of_nil in Hx].
    - apply elem_of_cons in Hin as [?|Hin]; [done|]. destruct (HR _ _ _ _ Hin); [left; apply Hkeep; [done|by eapply Hnf]|right; by right].
    - assert (i_log st1 = i_log st) as Hl.
      { unfold ileak in H0. destruct (i_objs st !! ip_ser p0) as [x|]; [|done]. destruct (io_leaked x); [done|]. by injection H0 as <-. }
      rewrite Hl in Hin. apply Hsame; [by eapply HR|done|by eapply Hnf].
    - assert (i_log st1 = i_log st) as Hl by (by destruct (ialloc_spec E _ _ _ _ _ _ HI H) as (->&_)). rewrite Hl in Hin.
      apply Hsame; [by eapply HR|done|by eapply Hnf].
    - apply elem_of_cons in Hin as [[= -> -> -> ->]|Hin]; [left; apply Hput; by left|].
      destruct (HR _ _ _ _ Hin); [left; apply Hkeep; [done|by eapply Hnf]|right; by right].
    - assert (i_log st1 = i_log st) as Hl.
      { unfold ifree in H. destruct (i_objs st !! ip_ser p0) as [x|]; [|done]. destruct (io_leaked x); [done|]. by injection H as <-. }
      rewrite Hl in Hin. apply Hsame; [by eapply HR|done|by eapply Hnf].
    - apply elem_of_cons in Hin as [?|Hin]; [done|]. destruct (HR _ _ _ _ Hin) as [Hx|Hx]; [|right; by right].
      destruct (decide (u = t)) as [->|Hne].
      + rewrite Hst in Hx. apply elem_of_cons in Hx as [[= <- <-]|Hx]; [right; by left|].
        left. rewrite (stack_upd st _ t _ t (tr_new _ _ _ _ _ _ _ Htr)). by destruct (decide (t = t)).
      + left. rewrite (stack_upd st _ t _ u (tr_new _ _ _ _ _ _ _ Htr)). by destruct (decide (t = u)).
  Qed.
  Lemma ret_read st p v : Ret st -> Ret (add_event st (EvRead p v)).
  Proof.
    intros HR t o p' v' Hin. simpl in Hin. apply elem_of_cons in Hin as [?|Hin]; [done|].
    destruct (HR _ _ _ _ Hin); [by left|]. right. simpl. by right.
  Qed.
  Lemma ret_step st lb st' : IInv st -> istep E st lb = Next st' -> Ret st -> Ret st'.
  Proof.
    intros HI Hs HR. destruct (istep_move E _ _ _ Hs) as [(p&v&_&_&->&->)|(t&fs&fs'&k&st1&Hst&Hm&->&Hlb&Hc)].
    - by apply ret_read.
    - by eapply ret_move.
  Qed.
  Lemma reach_ret ls st : run (istep E) iinit ls = Some st -> Ret st.
  Proof.
    intros Hr. assert (Ret iinit -> Ret st) as H; [|apply H; intros ???? Hx; by apply elem_of_nil in Hx].
    apply (run_ind' E (λ st st', Ret st -> Ret st')) with ls; [done| |apply iinv_init|done].
    intros. eauto using ret_step.
  Qed.

  (** ** At rest *)
  Lemma rest_ins ls st s x : ilawful E -> icoherent E -> no_insert_panic E ls -> no_clear ls ->
    run (istep E) iinit ls = Some st -> all_returned st -> i_objs st !! s = Some x ->
    exists t o p, EvIns t o p (io_val x) ∈ i_log st /\ ip_ser p = s /\
      (p, io_val x) ∈ inserted E (ie_ty E (io_val x)) (i_log st) /\ op_ty o = ie_ty E (io_val x).
  Proof.
    intros HL HC Hnp Hnc Hr Hq Hx. pose proof (reach_inv E _ _ Hr) as HI.
    destruct (where_allocated ls st s Hr) as [H _]. destruct H as [(t&f&Hf&_)|[(t&o&p&v&Hin&Hs)|Ha]]; [by rewrite Hx| | |].
    - rewrite Hq in Hf. by apply elem_of_nil in Hf.
    - pose proof (v_log _ _ HI _ Hin) as [(Hx'&_&Ht) _]. rewrite Hs in Hx'. assert (x = IObj (ip_addr p) v true) as -> by congruence.
      simpl. exists t, o, p. rewrite Ht. split_and!; try done. eapply ins_inserted; [|done]. by eapply reach_nc.
    - by eapply no_abandon in Ha.
  Qed.

  Theorem one_per_value ls st : ilawful E -> icoherent E -> no_insert_panic E ls -> no_clear ls ->
    run (istep E) iinit ls = Some st -> all_returned st ->
    (forall s1 x1 s2 x2, i_objs st !! s1 = Some x1 -> i_objs st !! s2 = Some x2 ->
       ie_ty E (io_val x1) = ie_ty E (io_val x2) -> ie_eq E (io_val x1) (io_val x2) = true -> s1 = s2) /\
    (forall s x, i_objs st !! s = Some x -> exists t o p, EvRet t o (RPtr p) ∈ i_log st /\ ip_ser p = s).
  Proof.
    intros HL HC Hnp Hnc Hr Hq. pose proof (reach_law E _ _ HL Hr) as HW. split.
    - intros s1 x1 s2 x2 H1 H2 Ht He.
      destruct (rest_ins _ _ _ _ HL HC Hnp Hnc Hr Hq H1) as (_&_&p1&_&<-&Hi1&_).
      destruct (rest_ins _ _ _ _ HL HC Hnp Hnc Hr Hq H2) as (_&_&p2&_&<-&Hi2&_).
      rewrite <- Ht in Hi2. by destruct (ordpairs_uniq E _ _ _ _ _ _ HL (w_uniq _ _ HW _) Hi1 Hi2 He) as [-> _].
    - intros s x Hx. destruct (rest_ins _ _ _ _ HL HC Hnp Hnc Hr Hq Hx) as (t&o&p&Hin&<-&_).
      exists t, o, p. split; [|done]. destruct (reach_ret _ _ Hr _ _ _ _ Hin) as [Hf|]; [|done].
      rewrite Hq in Hf. by apply elem_of_nil in Hf.
  Qed.

  Lemma inserted_ser_nodup ty l : (forall s, inse s l <= 1) -> NoDup (ip_ser <$> (inserted E ty l).*1).
  Proof.
    induction l as [|e l IH]; intros H; simpl; [constructor|].
    assert (forall s, inse s l <= 1) as H'. { intros s. specialize (H s). destruct e; simpl in H; lia. }
    destruct e as [t o p v|u|t o r|p v]; [|destruct (u =? ty); [constructor|auto]|auto|auto].
    destruct (op_ty o =? ty); [|auto]. csimpl. constructor; [|auto].
    intros (p'&Hs&Hin)%elem_of_list_fmap. apply elem_of_list_fmap in Hin as ([p'' v']&->&Hin).
    apply inserted_in in Hin as (t'&o'&Hin&_). apply inse_in in Hin. simpl in Hs.
    specialize (H (ip_ser p)). simpl in H. rewrite Nat.eqb_refl in H. rewrite <- Hs in Hin. lia.
  Qed.

  Theorem len_is_size ls st t ty n l : ilawful E -> icoherent E -> no_insert_panic E ls -> no_clear ls ->
    run (istep E) iinit ls = Some st -> all_returned st -> i_log st = EvRet t (OLen ty) (RNum n) :: l ->
    n = size (filter (λ sx : nat * iobj V, ie_ty E (io_val sx.2) = ty) (i_objs st)).
  Proof.
    intros HL HC Hnp Hnc Hr Hq Hlog. pose proof (reach_inv E _ _ Hr) as HI. pose proof (reach_law E _ _ HL Hr) as HW.
    destruct (reach_acc _ _ Hr) as (ab&HA&_).
    pose proof (w_log _ _ HW) as Hw. rewrite Hlog in Hw. destruct Hw as [[_ ->] _]. simpl.
    assert (inserted E ty (i_log st) = inserted E ty l) as Hi by (by rewrite Hlog).
    rewrite <- Hi.
    assert (forall s, inse s (i_log st) <= 1) as Hle.
    { intros s. specialize (HA s). unfold live in HA. destruct (i_objs st !! s); lia. }
    rewrite <- (fmap_length fst), <- (fmap_length ip_ser).
    rewrite <- (size_list_to_set (C := gset nat)) by (by apply inserted_ser_nodup).
    rewrite <- size_dom. f_equal. apply set_eq. intros s. rewrite elem_of_list_to_set, elem_of_dom. split.
    - intros (p&->&Hin)%elem_of_list_fmap. apply elem_of_list_fmap in Hin as ([p' v]&->&Hin). simpl.
      destruct (key_ty E _ _ _ _ HI Hin) as (Hx&_&Ht). eexists. apply map_filter_lookup_Some. split; [exact Hx|done].
    - intros [x [Hx Ht]%map_filter_lookup_Some]. simpl in Ht.
      destruct (rest_ins _ _ _ _ HL HC Hnp Hnc Hr Hq Hx) as (_&_&p&_&<-&Hin&_). rewrite Ht in Hin.
      apply elem_of_list_fmap. exists p. split; [done|]. apply elem_of_list_fmap. by exists (p, io_val x).
  Qed.
End mem.

(** Isolation of types, panics, deadlocks and clearing, for the Intern model.  No law about
    the user's types is used except where stated. *)
From stdpp Require Import gmap list numbers fin_sets.
From Verif Require Import Base InternModel InternSpec InternInv InternStep InternLaw InternFinal.
Require Import ZifyBool ZifyNat ZifyN.

Section more.
  Context {V Q : Type} (E : ienv V Q).
  Implicit Types (st : istate V Q) (v d : V) (p : iptr) (o : iop V Q) (f g : frame V Q) (t ty s : nat).
  Implicit Types (ls : list (ilabel V Q)) (l : list (ievent V Q)) (lb : ilabel V Q).
  Notation slot := (slot E).
  Notation op_ty := (op_ty E).
  Notation IInv := (IInv E).
  Notation total_from := (total_from E).
  Notation ordered := (ordered E).

  (** ** C23 *)
  Lemma sets_isolated st lb st' ty :
    IInv st -> istep E st lb = Next st' -> set_of E st' ty <> set_of E st ty ->
    exists t f k, lab_thread lb = Some t /\ get_stack st t = f :: k /\
      ((exists o p, f = FIns o p /\ op_ty o = ty) \/ exists b, f = FWait (OClear ty) b).
  Proof.
    intros HI Hs Hne. pose proof (istep_inv E _ _ _ HI Hs) as HI'.
    assert (inserted E ty (i_log st') <> inserted E ty (i_log st)) as Hni.
    { intros Heq. apply Hne. by rewrite (v_current _ _ HI), (v_current _ _ HI'), Heq. }
    destruct (istep_move E _ _ _ Hs) as [(p'&v'&?&?&_&->)|(t&fs&fs'&k&st1&Hst&Hm&->&Hlb&_)]; [done|].
    destruct Hm; simpl in *; try done.
    - by destruct (ialloc_spec E _ _ _ _ _ _ HI H) as (->&_).
    - destruct (Nat.eqb_spec ty0 ty) as [Heq|]; [|done].
      exists t, (FWait (OClear ty0) b), k. split_and!; try done. right. exists b. by rewrite Heq.
    - unfold ileak in H0. destruct (i_objs st !! ip_ser p) as [x|]; [|done]. destruct (io_leaked x); [done|]. by injection H0 as <-.
    - by destruct (ialloc_spec E _ _ _ _ _ _ HI H) as (->&_).
    - destruct (Nat.eqb_spec (op_ty o) ty) as [<-|]; [|done]. exists t, (FIns o p), k. split_and!; try done. left. by exists o, p.
    - unfold ifree in H. destruct (i_objs st !! ip_ser p) as [x|]; [|done]. destruct (io_leaked x); [done|]. by injection H as <-.
  Qed.
  Lemma set_typed ls st ty p : run (istep E) iinit ls = Some st -> p ∈ set_of E st ty ->
    exists v, iread st p = Some v /\ ie_ty E v = ty.
  Proof.
    intros Hr Hp. destruct (set_points E st ty p (reach_inv _ _ _ Hr) Hp) as (v&Hv&_).
    exists v. split; [by eapply points_read|apply Hv].
  Qed.
  Lemma set_complete ls st t o p v : run (istep E) iinit ls = Some st -> no_clear ls ->
    EvIns t o p v ∈ i_log st -> p ∈ set_of E st (ie_ty E v).
  Proof.
    intros Hr Hnc Hin. pose proof (reach_inv _ _ _ Hr) as HI. destruct (reach_nc _ _ _ Hnc Hr) as [Hcl _].
    rewrite (v_current _ _ HI). apply elem_of_list_fmap. exists (p, v). split; [done|].
    pose proof (v_log _ _ HI _ Hin) as [(_&_&->) _]. by eapply ins_inserted.
  Qed.
  Lemma one_set ls st s : run (istep E) iinit ls = Some st -> NoDup (container st s).*1.
  Proof. intros Hr. apply (v_nodup _ _ (reach_inv _ _ _ Hr)). Qed.

  (** ** Poison is irrelevant *)
  Lemma poison_step st P lb :
    match istep E st lb with
    | Next st' => exists P', istep E (with_poison st P) lb = Next (with_poison st' P')
    | Blocked => istep E (with_poison st P) lb = Blocked
    | Illegal => istep E (with_poison st P) lb = Illegal
    | UB => istep E (with_poison st P) lb = UB
    end.
  Proof.
    destruct lb as [t o a|t a i|t v|t|p]; simpl; change (get_stack (with_poison st P)) with (get_stack st);
      change (i_log (with_poison st P)) with (i_log st).
    - destruct (match get_stack st t with [] => true | _ => _ end); [|done].
      destruct o; try (by exists P).
      unfold ialloc. change (addr_free E (with_poison st P) a) with (addr_free E st a).
      destruct (_ || _); [|done]. by exists P.
    - unfold istep_thread. change (get_stack (with_poison st P)) with (get_stack st).
      change (i_locks (with_poison st P)) with (i_locks st).
      destruct (get_stack st t) as [|[o b|o b|ty w q|o v|o p|o b r|o r] k]; [done|..].
      + destruct (i_locks st !! slot (op_ty o)); [done|]. destruct o; by exists P.
      + change (set_of E (with_poison st P)) with (set_of E st).
        change (ireadable (with_poison st P)) with (ireadable st).
        change (candidates (with_poison st P)) with (candidates st).
        destruct (ireadable st _); [|done].
        destruct (ipick i _); destruct o; try done; try (by exists P).
        destruct b as [p|]; [|done]. unfold ileak. simpl. destruct (i_objs st !! ip_ser p) as [x|]; [|done].
        destruct (io_leaked x); [done|]. by exists P.
      + done.
      + unfold ialloc. change (addr_free E (with_poison st P) a) with (addr_free E st a).
        destruct (_ || _); [|done]. by exists P.
      + change (set_of E (with_poison st P)) with (set_of E st).
        change (ireadable (with_poison st P)) with (ireadable st).
        change (candidates (with_poison st P)) with (candidates st).
        change (iread (with_poison st P)) with (iread st).
        destruct (iread st p) as [v|]; [|done]. destruct (ireadable st _); [|done].
        destruct (candidates st _ _); by exists P.
      + destruct b as [p|]; [|by exists P]. unfold ifree. simpl. destruct (i_objs st !! ip_ser p) as [x|]; [|done].
        destruct (io_leaked x); [done|]. by exists P.
      + eexists. reflexivity.
    - destruct (get_stack st t) as [|[o b|o b|ty w q|o v'|o p|o b r|o r] k]; try done.
      destruct (_ && _); [|done]. by exists P.
    - unfold istep_panic. change (get_stack (with_poison st P)) with (get_stack st).
      destruct (get_stack st t) as [|[o b|o b|ty w q|o v'|o p|o b r|o r] k]; try done; try (by exists P).
      destruct r; try done; by exists P.
    - destruct (returned p (i_log st)); [|done]. change (iread (with_poison st P)) with (iread st).
      destruct (iread st p); [|done]. by exists P.
  Qed.
  Lemma poison_run ls st P st' : run (istep E) st ls = Some st' ->
    exists P', run (istep E) (with_poison st P) ls = Some (with_poison st' P').
  Proof.
    revert st P. induction ls as [|lb ls IH]; intros st P; simpl; [intros [= ->]; by exists P|].
    unfold exec. pose proof (poison_step st P lb) as H.
    destruct (istep E st lb) as [st1| | |]; [destruct H as [P' ->]|rewrite H..]; try done; by apply IH.
  Qed.

  (** ** C25 *)
  (** A panic is cleaned up by the thread itself within two steps; no set changes. *)
  Lemma done_release st t o r k : get_stack st t = FDone o r :: k ->
    exists st', istep E st (IStep t 0 0) = Next st' /\ i_slots st' = i_slots st /\
      i_locks st' !! slot (op_ty o) = None /\ get_stack st' t = k /\ i_log st' = EvRet t o r :: i_log st.
  Proof.
    intros Hst. eexists. simpl. unfold istep_thread. rewrite Hst. split; [reflexivity|]. simpl.
    split_and!; [done|by rewrite lookup_delete| |done].
    unfold get_stack. simpl. by rewrite lookup_insert.
  Qed.
  Lemma panic_cleanup st t st1 :
    IInv st -> istep E st (IPanic t) = Next st1 ->
    exists f k o n st2,
      get_stack st t = f :: k /\ frame_ty E f = op_ty o /\ n <= 2 /\
      run (istep E) st1 (replicate n (IStep t 0 0)) = Some st2 /\
      i_log st2 = EvRet t o RPanic :: i_log st /\ i_slots st2 = i_slots st /\
      i_locks st2 !! slot (op_ty o) = None /\ get_stack st2 t = k.
  Proof.
    intros HI Hs. pose proof (istep_inv E _ _ _ HI Hs) as HI1. simpl in Hs. unfold istep_panic in Hs.
    assert (forall o b k, st1 = set_stack st t (FDup o b RPanic :: k) ->
      exists st2, run (istep E) st1 [IStep t 0 0; IStep t 0 0] = Some st2 /\
      i_log st2 = EvRet t o RPanic :: i_log st /\ i_slots st2 = i_slots st /\
      i_locks st2 !! slot (op_ty o) = None /\ get_stack st2 t = k) as Hdup.
    { intros o b k ->.
      assert (get_stack (set_stack st t (FDup o b RPanic :: k)) t = FDup o b RPanic :: k) as Hg.
      { rewrite get_stack_set. by rewrite decide_True. }
      assert (frame_ok E (set_stack st t (FDup o b RPanic :: k)) (FDup o b RPanic)) as [Hb _].
      { apply (v_frames _ _ HI1 t). rewrite Hg. by left. }
      assert (exists st2, istep E (set_stack st t (FDup o b RPanic :: k)) (IStep t 0 0) = Next st2 /\
        get_stack st2 t = FDone o RPanic :: k /\ i_log st2 = i_log st /\ i_slots st2 = i_slots st) as (st2&Hs2&Hg2&Hl2&Hsl2).
      { simpl. unfold istep_thread. rewrite Hg. destruct b as [p|].
        - destruct o; simpl in Hb; try done. destruct Hb as (p'&[= <-]&Hx&_). unfold ifree. rewrite Hx. simpl.
          eexists. split; [reflexivity|]. rewrite get_stack_set. by rewrite decide_True.
        - eexists. split; [reflexivity|]. rewrite get_stack_set. by rewrite decide_True. }
      destruct (done_release st2 t o RPanic k Hg2) as (st3&Hs3&?&?&?&?).
      exists st3. simpl run. unfold exec. rewrite Hs2, Hs3. split_and!; congruence. }
    destruct (get_stack st t) as [|[o b|o b|ty w q|o v'|o p|o b r|o r] k] eqn:Hst; try done.
    - injection Hs as <-. destruct (Hdup o b k eq_refl) as (st2&?&?&?&?&?). exists (FGet o b), k, o, 2, st2. split_and!; done || lia.
    - injection Hs as <-.
      destruct (done_release (set_stack st t (FDone (ORef ty w q) RPanic :: k)) t (ORef ty w q) RPanic k) as (st3&Hs3&?&?&?&?).
      { rewrite get_stack_set. by rewrite decide_True. }
      exists (FConv ty w q), k, (ORef ty w q), 1, st3. simpl run. unfold exec. rewrite Hs3. split_and!; done || lia.
    - injection Hs as <-.
      destruct (done_release (set_stack st t (FDone o RPanic :: k)) t o RPanic k) as (st3&Hs3&?&?&?&?).
      { rewrite get_stack_set. by rewrite decide_True. }
      exists (FIns o p), k, o, 1, st3. simpl run. unfold exec. rewrite Hs3. split_and!; done || lia.
    - assert (st1 = set_stack st t (FDup o b RPanic :: k)) as Heq by (destruct r; try done; congruence).
      destruct (Hdup o b k Heq) as (st2&?&?&?&?&?). exists (FDup o b r), k, o, 2, st2. split_and!; done || lia.
  Qed.

  (** ** Progress *)
  Definition rank f : nat :=
    match f with FWait _ _ => 6 | FGet _ _ => 5 | FConv _ _ _ => 4 | FStore _ _ => 3 | FIns _ _ | FDup _ _ _ => 2 | FDone _ _ => 1 end.
  Definition waiting st f : Prop := exists o b, f = FWait o b /\ is_Some (i_locks st !! slot (op_ty o)).

  Lemma free_addr st : exists a, addr_free E st a = true.
  Proof.
    exists (fresh (list_to_set ((map_to_list (i_objs st)).*2 ≫= λ x, [io_addr x]) : gset nat)).
    apply addr_free_spec. intros s x Hx. right. intros Heq.
    pose proof (is_fresh (list_to_set ((map_to_list (i_objs st)).*2 ≫= λ x, [io_addr x]) : gset nat)) as Hf.
    apply Hf. rewrite <- Heq. apply elem_of_list_to_set, elem_of_list_bind. exists x.
    split; [by left|]. apply elem_of_list_fmap. exists (s, x). split; [done|]. by apply elem_of_map_to_list.
  Qed.
  Lemma ialloc_some st v b : exists a st1 p, ialloc E st a v b = Some (st1, p).
  Proof.
    destruct (free_addr st) as [a Ha]. exists a. unfold ialloc. rewrite Ha, orb_true_r. by repeat eexists.
  Qed.

  Definition fop f : iop V Q :=
    match f with FWait o _ | FGet o _ | FStore o _ | FIns o _ | FDup o _ _ | FDone o _ => o | FConv ty w q => ORef ty w q end.
  Definition unwinds f : bool := match f with FDup _ _ RPanic | FDone _ RPanic => true | _ => false end.
  Definition follows f g : Prop := fop g = fop f /\ unwinds g = unwinds f.

  (** A thread that is not waiting for a mutex can take a step, which makes its stack
      smaller. *)
  Lemma thread_steps st t f k :
    IInv st -> total_from -> get_stack st t = f :: k -> ~ waiting st f ->
    exists lb st' fs' st1, istep E st lb = Next st' /\ quiet lb /\ lab_thread lb = Some t /\
      move E st t [f] fs' st1 /\ st' = set_stack st1 t (fs' ++ k) /\ lsum rank fs' < rank f /\
      (forall o b, FWait o b ∉ fs') /\ Forall (follows f) fs'.
  Proof.
    intros HI HT Hst Hw.
    assert (frame_ok E st f) as Hfr. { apply (v_frames _ _ HI t). rewrite Hst. by left. }
    cut (exists lb fs' st1, istep E st lb = Next (set_stack st1 t (fs' ++ k)) /\ quiet lb /\ lab_thread lb = Some t /\
      move E st t [f] fs' st1 /\ lsum rank fs' < rank f /\ Forall (follows f) fs').
    { intros (lb&fs'&st1&Hs&Hq&Hlb&Hm&Hrk&Hfo).
      exists lb, (set_stack st1 t (fs' ++ k)), fs', st1. split_and!; try done.
      intros o b Hin. clear Hfo. inversion Hm; subst; try (apply elem_of_list_singleton in Hin; done); by apply elem_of_nil in Hin. }
    destruct f as [o b|o b|ty w q|o v|o p|o b r|o r].
    - exists (IStep t 0 0). simpl istep. unfold istep_thread. rewrite Hst.
      destruct (i_locks st !! slot (op_ty o)) eqn:Hl; [exfalso; apply Hw; by exists o, b; rewrite Hl|].
      destruct o; eexists [_], _; (split_and!; [reflexivity|done|done|by constructor|simpl; lia|repeat constructor]).
    - exists (IStep t 0 0). simpl istep. unfold istep_thread. rewrite Hst, set_readable by done.
      destruct Hfr as [Hb Ho]. destruct (ipick 0 _) as [p|] eqn:Hp; [apply ipick_in in Hp|apply ipick_none in Hp].
      + destruct o; try done; eexists [_], _; (split_and!; [reflexivity|done|done| |simpl; lia|repeat constructor]);
          first [by apply MHitDup|by apply MHit|by eapply MIsHit].
      + destruct o; try done.
        3:{ destruct Hb as (p&->&Hx&_). destruct (ileak st p) as [st1|] eqn:Hlk.
            - exists [FIns (OBox v) p], st1. split_and!; try done; [by apply MMissBox|simpl; lia|repeat constructor].
            - unfold ileak in Hlk. by rewrite Hx in Hlk. }
        all: eexists [_], _; (split_and!; [reflexivity|done|done| |simpl; lia|repeat constructor]).
        * apply MMiss; [done|by left].
        * apply MMiss; [done|by right].
        * by apply MMissRef.
        * by apply MIsMiss.
    - destruct (HT ty w q) as (v&Hf&Ht). exists (IConv t v). simpl istep. rewrite Hst, Hf, Ht, Nat.eqb_refl.
      exists [FStore (ORef ty w q) v], st. split_and!; try done; [by apply MConv|simpl; lia|repeat constructor].
    - destruct (ialloc_some st v true) as (a&st1&p&Ha). exists (IStep t a 0). simpl istep. unfold istep_thread.
      rewrite Hst, Ha. exists [FIns o p], st1. split_and!; try done; [by eapply MStore|simpl; lia|repeat constructor].
    - exists (IStep t 0 0). simpl istep. unfold istep_thread. rewrite Hst. destruct Hfr as (v&Hp&_).
      apply points_read in Hp. rewrite Hp, set_readable by done.
      destruct (candidates _ _ _) as [|p' l'] eqn:Hc; eexists [_], _; (split_and!; [reflexivity|done|done| |simpl; lia|repeat constructor]).
      + by apply MInsert.
      + eapply (MPresent _ _ _ _ _ _ p'); [done|]. rewrite Hc. by left.
    - exists (IStep t 0 0). simpl istep. unfold istep_thread. rewrite Hst. destruct Hfr as [Hb _].
      destruct b as [p|].
      + destruct o; simpl in Hb; try done. destruct Hb as (p'&[= <-]&Hx&_).
        destruct (ifree st p) as [st1|] eqn:Hf; [|unfold ifree in Hf; by rewrite Hx in Hf].
        eexists [_], _. (split_and!; [reflexivity|done|done|by apply MFree|simpl; lia|repeat constructor]).
      + eexists [_], _. (split_and!; [reflexivity|done|done|by apply MDrop|simpl; lia|repeat constructor]).
    - exists (IStep t 0 0). simpl istep. unfold istep_thread. rewrite Hst.
      exists []. eexists. (split_and!; [|done|done|by apply MRet|simpl; lia|repeat constructor]). reflexivity.
  Qed.

  (** ** C27: no deadlock when nested calls go to higher containers only *)
  Definition slot_bound st : nat := S (msum (lsum (λ f, slot (frame_ty E f))) (i_threads st)).
  Lemma slot_lt st u f : f ∈ get_stack st u -> slot (frame_ty E f) < slot_bound st.
  Proof.
    intros Hf. pose proof (msum_stack_ge (λ f, slot (frame_ty E f)) st u).
    pose proof (lsum_ge (λ f, slot (frame_ty E f)) _ _ Hf). unfold slot_bound. simpl in *. lia.
  Qed.
  Lemma holder st s : IInv st -> is_Some (i_locks st !! s) ->
    exists u g, g ∈ get_stack st u /\ held E s g = 1.
  Proof.
    intros HI [x Hx]. pose proof (v_locks _ _ HI s) as H. unfold lk in H. rewrite Hx in H.
    destruct (msum_pos (lsum (held E s)) (i_threads st)) as (u&k&Hu&Hk); [lia|].
    destruct (lsum_pos (held E s) k Hk) as (g&Hg&Hp). exists u, g. unfold get_stack. rewrite Hu. simpl.
    split; [done|]. unfold held in *. destruct g; [lia|..]; destruct (_ =? s); lia.
  Qed.
  Lemma held_slot s g : held E s g = 1 -> slot (frame_ty E g) = s.
  Proof.
    unfold held. destruct (Nat.eqb_spec (slot (frame_ty E g)) s); [done|]. by destruct g.
  Qed.
  Lemma some_can_step st s : IInv st -> ordered st -> is_Some (i_locks st !! s) ->
    exists u f k, get_stack st u = f :: k /\ ~ waiting st f.
  Proof.
    intros HI Ho. remember (slot_bound st - s) as n eqn:Hn. revert s Hn.
    induction n as [n IH] using lt_wf_ind. intros s Hn Hl.
    destruct (holder st s HI Hl) as (u&g&Hg&Hh).
    assert (slot (frame_ty E g) = s) as Hs.
    { apply held_slot in Hh. done. }
    pose proof (slot_lt st u g Hg).
    destruct (get_stack st u) as [|f k] eqn:Hst; [by apply elem_of_nil in Hg|].
    assert (waiting st f \/ ~ waiting st f) as [(o&b&->&Hw)|Hw].
    { destruct f as [o b|o b|ty w q|o v|o p|o b r|o r]; try (right; intros (?&?&?&?); done).
      destruct (i_locks st !! slot (op_ty o)) eqn:Hl'; [left; exists o, b; by rewrite Hl'|].
      right. intros (o'&b'&[= <- <-]&Hw). rewrite Hl' in Hw. by destruct Hw. }
    - apply elem_of_cons in Hg as [->|Hg]; [done|].
      pose proof (Ho u [] o b k Hst g Hg). assert (slot (op_ty o) < slot_bound st). { apply (slot_lt st u (FWait o b)). rewrite Hst. by left. }
      by apply (IH (slot_bound st - slot (op_ty o)) ltac:(lia) (slot (op_ty o))).
    - by exists u, f, k.
  Qed.
  Lemma all_finish st : IInv st -> total_from -> ordered st ->
    exists ls st', run (istep E) st ls = Some st' /\ (forall lb, lb ∈ ls -> quiet lb) /\
      forall t, get_stack st' t = [].
  Proof.
    intros HI HT. remember (msum (lsum rank) (i_threads st)) as n eqn:Hn. revert st HI Hn.
    induction n as [n IH] using lt_wf_ind. intros st HI Hn Ho.
    destruct (decide (map_Forall (λ _ k, k = []) (i_threads st))) as [Hall|Hsome].
    { exists [], st. split_and!; [done|intros lb Hin; by apply elem_of_nil in Hin|].
      intros t. unfold get_stack. destruct (i_threads st !! t) as [k|] eqn:Ht; [|done]. by apply Hall in Ht. }
    assert (exists u f k, get_stack st u = f :: k /\ ~ waiting st f) as (u&f&k&Hst&Hw).
    { apply map_not_Forall in Hsome as (t&k&Ht&Hk); [|apply _]. destruct k as [|f k]; [done|].
      assert (get_stack st t = f :: k) as Hst. { unfold get_stack. by rewrite Ht. }
      destruct f as [o b|o b|ty w q|o v|o p|o b r|o r].
      2-7: exists t; eexists; exists k; split; [done|intros (?&?&?&?); done].
      destruct (i_locks st !! slot (op_ty o)) eqn:Hl.
      - apply (some_can_step st (slot (op_ty o)) HI Ho). by rewrite Hl.
      - exists t, (FWait o b), k. split; [done|]. intros (o'&b'&[= <- <-]&Hw). rewrite Hl in Hw. by destruct Hw. }
    destruct (thread_steps st u f k HI HT Hst Hw) as (lb&st'&fs'&st1&Hs&Hq&Hlb&Hm&->&Hrk&Hnw&_).
    destruct (move_ok E st u [f] fs' k st1 HI Hst Hm) as [Htr HI'].
    set (st' := set_stack st1 u (fs' ++ k)) in *.
    assert (ordered st') as Ho'.
    { intros t k1 o b k2 Hst' g Hg. rewrite (stack_upd st st' u _ t (tr_new _ _ _ _ _ _ _ Htr)) in Hst'.
      destruct (decide (u = t)) as [<-|]; [|by apply (Ho t k1 o b k2)].
      assert (exists k0, k = k0 ++ FWait o b :: k2) as [k0 ->].
      { clear -Hst' Hnw. revert k1 Hst'. induction fs' as [|x fs' IH]; intros k1 Heq; [by exists k1|].
        destruct k1 as [|y k1]; simpl in Heq; injection Heq as Hx Heq; subst x.
        - exfalso. apply (Hnw o b). by left.
        - apply IH in Heq; [done|]. intros o' b' Hin. apply (Hnw o' b'). by right. }
      by apply (Ho u (f :: k0) o b k2). }
    destruct (IH (msum (lsum rank) (i_threads st'))) with (st := st') as (ls&st2&Hr&Hqs&Hend); try done.
    { pose proof (msum_stack rank st st' u _ (tr_new _ _ _ _ _ _ _ Htr)) as Hms.
      rewrite Hst, lsum_app in Hms. change (lsum rank (f :: k)) with (rank f + lsum rank k) in Hms. lia. }
    exists (lb :: ls), st2. split_and!; [|intros lb' [->|?]%elem_of_cons; auto|done].
    simpl run. unfold exec. by rewrite Hs.
  Qed.

  (** A call on a free mutex finishes by itself and does not panic. *)
  Lemma solo_finish n st t f :
    rank f <= n -> IInv st -> total_from -> get_stack st t = [f] -> ~ waiting st f -> unwinds f = false ->
    exists ls st' r l, run (istep E) st ls = Some st' /\ (forall lb, lb ∈ ls -> quiet lb /\ lab_thread lb = Some t) /\
      get_stack st' t = [] /\ i_log st' = EvRet t (fop f) r :: l /\ r <> RPanic.
  Proof.
    revert st f. induction n as [|n IH]; intros st f Hn HI HT Hst Hw Hu; [destruct f; simpl in Hn; lia|].
    destruct (thread_steps st t f [] HI HT Hst Hw) as (lb&st'&fs'&st1&Hs&Hq&Hlb&Hm&->&Hrk&Hnw&Hfo).
    destruct (move_ok E st t [f] fs' [] st1 HI Hst Hm) as [Htr HI'].
    destruct fs' as [|g fs'].
    - inversion Hm; subst. exists [lb]. eexists _, r, (i_log st). simpl run. unfold exec. rewrite Hs.
      split_and!; [reflexivity| | |done|].
      + by intros lb' ->%elem_of_list_singleton.
      + rewrite get_stack_set. by rewrite decide_True.
      + intros ->. done.
    - assert (fs' = []) as -> by (by inversion Hm).
      apply Forall_cons in Hfo as [[Hf1 Hf2] _].
      destruct (IH (set_stack st1 t [g]) g) as (ls&st2&r&l&Hr&Hls&Hend&Hlog&Hnp); try done.
      + simpl in Hrk. lia.
      + rewrite get_stack_set. by rewrite decide_True.
      + intros (o&b&->&_). apply (Hnw o b). by left.
      + congruence.
      + exists (lb :: ls), st2, r, l. split_and!; try done; [|intros lb' [->|?]%elem_of_cons; auto|by rewrite <- Hf1].
        simpl run. unfold exec. by rewrite Hs.
  Qed.
  Lemma later_call st t o :
    IInv st -> total_from -> get_stack st t = [] -> i_locks st !! slot (op_ty o) = None ->
    exists a ls st' r l, run (istep E) st (ICall t o a :: ls) = Some st' /\
      (forall lb, lb ∈ ls -> quiet lb /\ lab_thread lb = Some t) /\
      get_stack st' t = [] /\ i_log st' = EvRet t o r :: l /\ r <> RPanic.
  Proof.
    intros HI HT Hst Hl.
    assert (exists a b st1, istep E st (ICall t o a) = Next (set_stack st1 t [FWait o b]) /\ i_locks st1 = i_locks st) as (a&b&st1&Hs&Hl1).
    { destruct o.
      3:{ destruct (ialloc_some st v false) as (a&st1&p&Ha). exists a, (Some p), st1. simpl. rewrite Hst, Ha. split; [done|].
          by destruct (ialloc_spec E _ _ _ _ _ _ HI Ha) as (->&_). }
      all: exists 0, None, st; simpl; rewrite Hst; done. }
    assert (IInv (set_stack st1 t [FWait o b])) as HI1 by (by eapply istep_inv).
    destruct (solo_finish 6 (set_stack st1 t [FWait o b]) t (FWait o b)) as (ls&st'&r&l&Hr&?&?&?&?); try done.
    - rewrite get_stack_set. by rewrite decide_True.
    - intros (o'&b'&[= <- <-]&Hw). simpl in Hw. rewrite Hl1, Hl in Hw. by destruct Hw.
    - exists a, ls, st', r, l. split_and!; try done. simpl run. unfold exec. simpl istep in Hs |- *. by rewrite Hs.
  Qed.

  (** Without re-entrancy every stack has at most one frame. *)
  Lemma flat_ordered st : (forall t, length (get_stack st t) <= 1) -> ordered st.
  Proof.
    intros Hf t k1 o b k2 Hst g Hg. specialize (Hf t). rewrite Hst, app_length in Hf. simpl in Hf.
    destruct k2; [by apply elem_of_nil in Hg|]. simpl in Hf. lia.
  Qed.

  (** A thread waiting for a mutex that it holds itself. *)
  Lemma self_wait st t o b k g :
    get_stack st t = FWait o b :: k -> g ∈ k -> held E (slot (op_ty o)) g = 1 ->
    forall ls st', IInv st -> run (istep E) st ls = Some st' -> get_stack st' t = get_stack st t.
  Proof.
    intros Hst Hg Hh ls st' HI Hr. revert ls st st' HI Hr Hst.
    apply (run_ind' E (λ st st', get_stack st t = FWait o b :: k -> get_stack st' t = get_stack st t)); [done|].
    intros st lb st1 st2 HI Hs HI1 IH Hst.
    assert (get_stack st1 t = get_stack st t) as Heq.
    { destruct (istep_move E _ _ _ Hs) as [(p&v&_&_&->&->)|(t'&fs&fs'&k'&s1&Hst'&Hm&->&Hlb'&Hc)]; [done|].
      destruct (decide (t' = t)) as [->|Hne].
      2:{ rewrite get_stack_set, decide_False by done. destruct (move_ok E st t' fs fs' k' s1 HI Hst' Hm) as [[] _].
          pose proof (stack_upd _ _ _ _ t tr_new) as Hu. rewrite get_stack_set in Hu. rewrite !decide_False in Hu by done. done. }
      exfalso. assert (is_Some (i_locks st !! slot (op_ty o))) as [x Hx].
      { pose proof (v_locks _ _ HI (slot (op_ty o))) as Hv. unfold lk in Hv.
        destruct (i_locks st !! slot (op_ty o)); [done|].
        pose proof (msum_stack_ge (held E (slot (op_ty o))) st t) as Hge. rewrite Hst in Hge.
        simpl in Hge. pose proof (lsum_ge (held E (slot (op_ty o))) k g Hg). lia. }
      destruct fs as [|f0 fs].
      - destruct (Hc eq_refl) as (o'&b'&a&->&_). simpl in Hs. rewrite Hst in Hs. done.
      - rewrite Hst in Hst'. injection Hst' as <- ->. inversion Hm; subst; simpl in *; congruence. }
    rewrite <- Heq. apply IH. by rewrite Heq.
  Qed.

  (** Re-entrancy: the mutex is never released again, so nobody's call on that container
      returns. *)
  Lemma self_wait_forever st t o b k g :
    get_stack st t = FWait o b :: k -> g ∈ k -> held E (slot (op_ty o)) g = 1 ->
    forall ls st', IInv st -> run (istep E) st ls = Some st' ->
    forall u o' r, slot (op_ty o') = slot (op_ty o) -> EvRet u o' r ∈ i_log st' -> EvRet u o' r ∈ i_log st.
  Proof.
    intros Hst Hg Hh ls st' HI Hr u o' r Hsl. revert ls st st' HI Hr Hst.
    apply (run_ind' E (λ st st', get_stack st t = FWait o b :: k -> EvRet u o' r ∈ i_log st' -> EvRet u o' r ∈ i_log st)); [done|].
    intros st lb st1 st2 HI Hs HI1 IH Hst Hin.
    assert (get_stack st1 t = FWait o b :: k) as Hst1.
    { rewrite <- Hst. apply (self_wait st t o b k g Hst Hg Hh [lb] st1 HI). simpl run. unfold exec. by rewrite Hs. }
    specialize (IH Hst1 Hin).
    destruct (istep_move E _ _ _ Hs) as [(p&v&_&_&->&->)|(t'&fs&fs'&k'&s1&Hst'&Hm&->&Hlb'&Hc)].
    { simpl in IH. by apply elem_of_cons in IH as [?|?]. }
    destruct Hm; simpl in IH; try done.
    - by destruct (ialloc_spec E _ _ _ _ _ _ HI H) as (->&_).
    - by apply elem_of_cons in IH as [?|?].
    - unfold ileak in H0. destruct (i_objs st !! ip_ser p) as [x|]; [|done]. destruct (io_leaked x); [done|]. by injection H0 as <-.
    - by destruct (ialloc_spec E _ _ _ _ _ _ HI H) as (->&_).
    - by apply elem_of_cons in IH as [?|?].
    - unfold ifree in H. destruct (i_objs st !! ip_ser p) as [x|]; [|done]. destruct (io_leaked x); [done|]. by injection H as <-.
    - apply elem_of_cons in IH as [[= -> -> ->]|?]; [exfalso|done].
      assert (t' <> t) as Hne. { intros ->. rewrite Hst in Hst'. done. }
      pose proof (msum_stack_ge2 (held E (slot (op_ty o))) st t' t Hne) as Hge.
      rewrite (v_locks _ _ HI), Hst', Hst in Hge. simpl in Hge. rewrite Hsl, Nat.eqb_refl in Hge.
      pose proof (lsum_ge (held E (slot (op_ty o))) k g Hg). pose proof (lk_le st (slot (op_ty o))). lia.
  Qed.

  (** ** C29 *)
  Definition insf s f : nat := match f with FIns _ p => if ip_ser p =? s then 1 else 0 | _ => 0 end.
  Fixpoint inse s l : nat :=
    match l with [] => 0 | EvIns _ _ p _ :: l' => (if ip_ser p =? s then 1 else 0) + inse s l' | _ :: l' => inse s l' end.
  Definition leaked st s : nat := match i_objs st !! s with Some x => if io_leaked x then 1 else 0 | None => 0 end.
  Definition CI st : Prop := forall s, msum (lsum (insf s)) (i_threads st) + inse s (i_log st) <= leaked st s.
  Lemma ci_init : CI iinit.
  Proof. intros s. simpl. rewrite msum_empty. unfold leaked. simpl. rewrite lookup_empty. lia. Qed.
  Lemma ci_step st lb st' : IInv st -> CI st -> istep E st lb = Next st' -> CI st'.
  Proof.
    intros HI HC [(p&v&_&_&->&->)|(t&fs&fs'&k&st1&Hst&Hm&->&Hlb'&Hc)]%istep_move; [done|].
    destruct (move_ok E st t fs fs' k st1 HI Hst Hm) as [Htr HI'].
    cut (forall s, lsum (insf s) fs' + inse s (i_log st1) + leaked st s <= lsum (insf s) fs + inse s (i_log st) + leaked st1 s).
    { intros H s. specialize (H s). specialize (HC s).
      pose proof (msum_stack (insf s) st _ t _ (tr_new _ _ _ _ _ _ _ Htr)) as Hms.
      rewrite Hst, !lsum_app in Hms. simpl i_log.
      change (leaked (set_stack st1 t (fs' ++ k)) s) with (leaked st1 s). lia. }
    clear Htr HI'.
    assert (forall f, f ∈ fs -> frame_ok E st f) as Hfr.
    { intros f Hf. apply (v_frames _ _ HI t). rewrite Hst. apply elem_of_app. by left. }
    intros s. destruct Hm; simpl lsum; try (unfold leaked; simpl; lia).
    - destruct (ialloc_spec E _ _ _ _ _ _ HI H) as (->&_&Hn&_). unfold leaked. simpl.
      destruct (decide (i_next st = s)) as [<-|]; [rewrite lookup_insert, Hn; simpl; lia|rewrite lookup_insert_ne by done; lia].
    - destruct (Hfr (FGet (OBox v) (Some p))) as [(p'&[= <-]&Hx&_) ?]; [by left|]. unfold ileak in H0. rewrite Hx in H0.
      simpl in H0. injection H0 as <-. unfold leaked. simpl. destruct (Nat.eqb_spec (ip_ser p) s) as [<-|].
      + rewrite lookup_insert, Hx. simpl. lia.
      + rewrite lookup_insert_ne by done. lia.
    - destruct (ialloc_spec E _ _ _ _ _ _ HI H) as (->&Hp&Hn&_). unfold leaked. rewrite Hp. simpl.
      destruct (Nat.eqb_spec (i_next st) s) as [<-|]; [rewrite lookup_insert, Hn; simpl; lia|rewrite lookup_insert_ne by done; lia].
    - unfold ifree in H. unfold leaked. destruct (i_objs st !! ip_ser p) as [x|] eqn:Hx; [|done].
      destruct (io_leaked x) eqn:Hl; [done|]. injection H as <-. simpl.
      destruct (decide (ip_ser p = s)) as [<-|]; [rewrite lookup_delete, Hx, Hl; lia|rewrite lookup_delete_ne by done; lia].
  Qed.
  Lemma reach_ci ls st : run (istep E) iinit ls = Some st -> CI st.
  Proof.
    intros Hr. assert (CI iinit -> CI st) as H; [|apply H, ci_init].
    apply (run_ind' E (λ st st', CI st -> CI st')) with ls; [done| |apply iinv_init|done].
    intros. eauto using ci_step.
  Qed.
  Lemma inse_app s l1 l2 : inse s (l1 ++ l2) = inse s l1 + inse s l2.
  Proof. induction l1 as [|[] l1 IH]; simpl; lia. Qed.
  Lemma inse_in t o p v l : EvIns t o p v ∈ l -> 0 < inse (ip_ser p) l.
  Proof.
    intros (l1&l2&->)%elem_of_list_split. rewrite inse_app. simpl. rewrite Nat.eqb_refl. lia.
  Qed.
  Lemma inserted_clear ty l1 l2 p v : (p, v) ∈ inserted E ty (l1 ++ EvClr ty :: l2) ->
    exists t o, EvIns t o p v ∈ l1.
  Proof.
    induction l1 as [|e l1 IH]; simpl; [rewrite Nat.eqb_refl; intros H; by apply elem_of_nil in H|].
    assert ((exists t o, EvIns t o p v ∈ l1) -> exists t o, EvIns t o p v ∈ e :: l1) as Hw.
    { intros (t&o&?). exists t, o. by right. }
    destruct e as [t o p' v'|u|t o r|p' v'].
    - destruct (_ =? ty); [|auto]. intros [[= -> ->]|H]%elem_of_cons; [exists t, o; by left|auto].
    - destruct (u =? ty); [intros H; by apply elem_of_nil in H|auto].
    - auto.
    - auto.
  Qed.
  Lemma clear_fresh ls st l1 l2 ty t1 o1 p1 t2 o2 p2 v1 :
    ilawful E -> icoherent E -> run (istep E) iinit ls = Some st ->
    i_log st = l1 ++ EvClr ty :: l2 ->
    EvRet t1 o1 (RPtr p1) ∈ l2 -> op_ty o1 = ty -> EvRet t2 o2 (RPtr p2) ∈ l1 -> op_ty o2 = ty ->
    iread st p1 = Some v1 -> ie_zst E ty (ie_meta E v1) = false ->
    iptr_eqb p1 p2 = false.
  Proof.
    intros HL HC Hr Hl H1 Ht1 H2 Ht2 Hv1 Hz. pose proof (reach_inv _ _ _ Hr) as HI.
    pose proof (reach_law _ _ _ HL Hr) as HW. pose proof (w_log _ _ HW) as Hw. rewrite Hl in Hw.
    apply elem_of_list_split in H1 as (l3&l4&->), H2 as (l5&l6&->).
    assert (exists t o d, EvIns t o p2 d ∈ l6) as (t3&o3&d2&Hi2).
    { rewrite <- app_assoc in Hw. simpl in Hw. apply each_suffix_app in Hw. simpl in Hw. rewrite Ht2 in Hw.
      destruct (Hw HC) as (d&(t&o&?)%inserted_clear&_). by exists t, o, d. }
    assert (exists t o d, EvIns t o p1 d ∈ l4) as (t4&o4&d1&Hi1).
    { change (_ ++ EvClr ty :: l3 ++ ?x :: l4) with ((l5 ++ EvRet t2 o2 (RPtr p2) :: l6) ++ (EvClr ty :: l3) ++ x :: l4) in Hw.
      rewrite app_assoc in Hw. apply each_suffix_app in Hw. simpl in Hw.
      destruct (Hw HC) as (d&(t&o&?&_)%inserted_in&_). by exists t, o, d. }
    pose proof (reach_ci _ _ Hr (ip_ser p1)) as Hc. rewrite Hl in Hc.
    assert (EvIns t4 o4 p1 d1 ∈ i_log st) as Hx1. { rewrite Hl. apply elem_of_app. right. right. apply elem_of_app. right. by right. }
    assert (EvIns t3 o3 p2 d2 ∈ i_log st) as Hx2. { rewrite Hl. apply elem_of_app. left. apply elem_of_app. right. by right. }
    assert (EvRet t1 o1 (RPtr p1) ∈ i_log st) as Hy1. { rewrite Hl. apply elem_of_app. right. right. apply elem_of_app. right. by left. }
    assert (EvRet t2 o2 (RPtr p2) ∈ i_log st) as Hy2. { rewrite Hl. apply elem_of_app. left. apply elem_of_app. right. by left. }
    apply (v_log _ _ HI) in Hy1 as [v1' Hp1], Hy2 as [v2 Hp2].
    pose proof (points_read E _ _ _ _ _ Hp1). assert (v1' = v1) as -> by congruence.
    destruct Hp1 as (Ho1&Hm1&Hty1), Hp2 as (Ho2&Hm2&Hty2).
    destruct (iptr_eqb p1 p2) eqn:He; [exfalso|done].
    unfold iptr_eqb in He. apply andb_true_iff in He as [Ha%Nat.eqb_eq Hm%Nat.eqb_eq].
    assert (ip_ser p1 = ip_ser p2) as Hs.
    { eapply (v_addr _ _ HI); [done|done| | |done]; simpl; unfold is_zst.
      - by rewrite Hty1, Ht1.
      - by rewrite Hty2, Ht2, <- Hm2, <- Hm, Hm1. }
    rewrite !inse_app in Hc. simpl in Hc. rewrite !inse_app in Hc. simpl in Hc.
    pose proof (inse_in _ _ _ _ _ Hi1). pose proof (inse_in _ _ _ _ _ Hi2) as Hi2'. rewrite <- Hs in Hi2'.
    unfold leaked in Hc. destruct (i_objs st !! ip_ser p1) as [x|]; [destruct (io_leaked x); lia|lia].
  Qed.
End more.

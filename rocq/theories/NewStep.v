(** Every step of the model of [NewIntern] is simulated, and none is undefined. *)
From stdpp Require Import gmap list numbers.
From Verif Require Import Base InternModel InternSpec InternInv InternStep InternLaw NewModel NewSim.
Require Import ZifyBool ZifyNat ZifyN.

Section step.
  Context {V Q : Type} (E : ienv V Q).
  Implicit Types (s : nstate V Q) (st : istate V Q) (v : V) (p : iptr) (o : iop V Q) (g : frame V Q) (f : nframe V Q) (t ty c i : nat).
  Notation op_ty := (op_ty E).
  Notation E1 := (E1 E).
  Notation first := (first E).
  Notation slot := (slot E).
  Notation R0 := (R0 E).
  Notation R := (R E).

  Lemma first_len s ty i : first s ty = Some i -> i < length (nvec s (slot ty)).
  Proof. intros H%find_ty_lookup. by eapply lookup_lt_Some. Qed.
  (** Different types use different sets. *)
  Lemma first_inj s ty ty' i i' : first s ty = Some i -> first s ty' = Some i' ->
    (slot ty, i) = (slot ty', i') -> ty = ty'.
  Proof.
    intros H%find_ty_lookup H'%find_ty_lookup [= Hs ->]. rewrite Hs in H. congruence.
  Qed.

  Lemma R0_lock s st t ty i :
    R0 s st -> first s ty = Some i -> n_locks s !! (slot ty, i) = None -> (slot ty, i) ∉ n_poison s ->
    R0 (nlock s (slot ty, i) t) (locked E1 st t ty).
  Proof.
    intros HR Hf Hl Hp. constructor; simpl.
    - apply (r_objs _ _ _ HR).
    - apply (r_next _ _ _ HR).
    - apply (r_log _ _ _ HR).
    - intros ty'. rewrite locked_set_of. apply (r_sets _ _ _ HR).
    - intros ty'. change (first (nlock s _ t) ty') with (first s ty'). rewrite !slot1.
      destruct (decide (ty = ty')) as [<-|Hne].
      + by rewrite Hf, !lookup_insert.
      + rewrite lookup_insert_ne by done. pose proof (r_locks _ _ _ HR ty') as H. rewrite slot1 in H. rewrite H.
        destruct (first s ty') as [i'|] eqn:Hf'; [|done]. rewrite lookup_insert_ne; [done|].
        intros Heq. by apply Hne, (first_inj s ty ty' i i').
    - intros c j Hj. change (nvec (nlock s _ t) c) with (nvec s c) in Hj.
      destruct (r_fresh _ _ _ HR c j Hj) as (?&?&?). split_and!; [done| |done].
      rewrite lookup_insert_ne; [done|]. intros [= <- <-]. apply first_len in Hf. lia.
    - intros x Hx. rewrite lookup_insert_ne; [by apply (r_poison _ _ _ HR)|]. by intros <-.
    - apply (r_panics _ _ _ HR).
  Qed.
  Lemma R0_unlock s st ty i b b' :
    R0 s st -> first s ty = Some i -> R0 (nunlock s (slot ty, i) b) (iunlock st (InternModel.slot E1 ty) b').
  Proof.
    intros HR Hf. constructor; simpl.
    - apply (r_objs _ _ _ HR).
    - apply (r_next _ _ _ HR).
    - apply (r_log _ _ _ HR).
    - apply (r_sets _ _ _ HR).
    - intros ty'. change (first (nunlock s _ b) ty') with (first s ty'). rewrite !slot1.
      destruct (decide (ty = ty')) as [<-|Hne].
      + by rewrite Hf, !lookup_delete.
      + rewrite lookup_delete_ne by done. pose proof (r_locks _ _ _ HR ty') as H. rewrite slot1 in H. rewrite H.
        destruct (first s ty') as [i'|] eqn:Hf'; [|done]. rewrite lookup_delete_ne; [done|].
        intros Heq. by apply Hne, (first_inj s ty ty' i i').
    - intros c j Hj. change (nvec (nunlock s _ b) c) with (nvec s c) in Hj.
      destruct (r_fresh _ _ _ HR c j Hj) as (?&?&?). split_and!; [done| |].
      + rewrite lookup_delete_None. by right.
      + destruct b; [|done]. apply not_elem_of_union. split; [|done]. rewrite elem_of_singleton.
        intros [= -> ->]. apply first_len in Hf. lia.
    - intros x Hx. rewrite lookup_delete_None. destruct (decide (x = (slot ty, i))) as [->|]; [by left|]. right.
      apply (r_poison _ _ _ HR). destruct b; [|done]. set_solver.
    - intros t o Hin. destruct (r_panics _ _ _ HR t o Hin) as (j&?&?). exists j. split; [done|].
      destruct b; set_solver.
  Qed.
  Lemma R0_put s st ty i ps :
    R0 s st -> first s ty = Some i -> is_Some (find_set ty (container st (InternModel.slot E1 ty))) ->
    R0 (nput s (slot ty, i) ps) (put_set E1 st ty ps).
  Proof.
    intros HR Hf Hs. constructor; simpl.
    - apply (r_objs _ _ _ HR).
    - apply (r_next _ _ _ HR).
    - apply (r_log _ _ _ HR).
    - intros ty'. rewrite put_set_of by done. change (first (nput s _ ps) ty') with (first s ty').
      unfold nset. simpl. destruct (Nat.eqb_spec ty' ty) as [->|Hne].
      + by rewrite Hf, lookup_insert.
      + rewrite (r_sets _ _ _ HR). destruct (first s ty') as [i'|] eqn:Hf'; [|done].
        rewrite lookup_insert_ne; [done|]. intros Heq. by apply Hne; symmetry; apply (first_inj s ty ty' i i').
    - apply (r_locks _ _ _ HR).
    - intros c j Hj. change (nvec (nput s _ ps) c) with (nvec s c) in Hj.
      destruct (r_fresh _ _ _ HR c j Hj) as (?&?&?). split_and!; [|done|done].
      rewrite lookup_insert_ne; [done|]. intros [= <- <-]. apply first_len in Hf. lia.
    - apply (r_poison _ _ _ HR).
    - apply (r_panics _ _ _ HR).
  Qed.
  Lemma R0_event s st e :
    R0 s st -> (forall t o, e = EvRet t o RPanic ->
      exists i, first s (op_ty o) = Some i /\ (slot (op_ty o), i) ∈ n_poison s) ->
    R0 (nevent s e) (add_event st e).
  Proof.
    intros HR He. constructor; simpl; try apply HR.
    - by rewrite (r_log _ _ _ HR).
    - intros t o [<-|Hin]%elem_of_cons; [by apply (He t o)|]. by apply (r_panics _ _ _ HR t o).
  Qed.
  Lemma first_publish s ty ty' :
    first (npublish s (slot ty) ty) ty' = match first s ty' with
      | Some i => Some i
      | None => if ty =? ty' then Some (length (nvec s (slot ty))) else None
      end.
  Proof.
    unfold NewSim.first, nvec at 1. simpl. destruct (decide (slot ty = slot ty')) as [Heq|Hne].
    - rewrite Heq, lookup_insert. simpl. destruct (find_ty ty' (nvec s (slot ty'))) as [i|] eqn:Hf.
      + by apply find_ty_app.
      + by rewrite find_ty_snoc.
    - rewrite lookup_insert_ne by done. fold (nvec s (slot ty')).
      destruct (find_ty ty' _); [done|]. destruct (Nat.eqb_spec ty ty') as [->|]; done.
  Qed.
  Lemma R0_publish s st ty : R0 s st -> R0 (npublish s (slot ty) ty) st.
  Proof.
    intros HR. constructor; simpl; try apply HR.
    - intros ty'. rewrite first_publish, (r_sets _ _ _ HR). destruct (first s ty') as [i|] eqn:Hf; [done|].
      destruct (Nat.eqb_spec ty ty') as [<-|]; [|done]. unfold nset.
      destruct (r_fresh _ _ _ HR (slot ty) (length (nvec s (slot ty))) ltac:(lia)) as (H&_&_).
      change (n_sets (npublish s (slot ty) ty)) with (n_sets s). by rewrite H.
    - intros ty'. rewrite first_publish, (r_locks _ _ _ HR). destruct (first s ty') as [i|] eqn:Hf; [done|].
      destruct (Nat.eqb_spec ty ty') as [<-|]; [|done].
      by destruct (r_fresh _ _ _ HR (slot ty) (length (nvec s (slot ty))) ltac:(lia)) as (_&->&_).
    - intros c i Hi. apply (r_fresh _ _ _ HR). revert Hi. unfold nvec at 1. simpl.
      destruct (decide (slot ty = c)) as [<-|]; [|by rewrite lookup_insert_ne].
      rewrite lookup_insert. simpl. rewrite app_length. simpl. lia.
    - intros t o Hin. destruct (r_panics _ _ _ HR t o Hin) as (i&Hi&?). exists i.
      rewrite first_publish, Hi. done.
  Qed.
  Lemma R0_reserve s st c : R0 s st -> R0 (nreserve s c) st.
  Proof. intros []. by constructor. Qed.
  Lemma mono_publish s ty t k : mono E s (nset_stack (npublish s (slot ty) ty) t k).
  Proof. split; [|done]. intros ty' i H. change (first (npublish s (slot ty) ty) ty' = Some i). by rewrite first_publish, H. Qed.
  Lemma mono_unlock s x b e t k : mono E s (nevent (nset_stack (nunlock s x b) t k) e).
  Proof. split; [done|]. simpl. destruct b; set_solver. Qed.

  Lemma fin s st t fs0 fs k s1 st1 :
    R s st -> nstack s t = fs0 ++ k -> move E1 st t (erase <$> fs0) (erase <$> fs) st1 -> R0 s1 st1 ->
    n_threads s1 = n_threads s -> i_threads st1 = i_threads st -> mono E s s1 ->
    (forall f, f ∈ fs -> fr_ok E s1 f) ->
    exists st', sim_step E st st' /\ R (nset_stack s1 t (fs ++ k)) st'.
  Proof.
    intros HR Hst Hm HR0 Ht1 Ht2 Hmo Hfs. eexists. split.
    - apply (SimMove E st t (erase <$> fs0) (erase <$> fs) (erase <$> k) st1); [|done].
      by rewrite (R_stack E s st t HR), Hst, fmap_app.
    - apply (R_upd E s st _ _ t fs0 fs k HR); try done.
      + by apply R0_stack.
      + simpl. by rewrite Ht1.
      + simpl. by rewrite Ht2, fmap_app.
  Qed.
  Lemma fin_same s st t f0 f k s1 :
    R s st -> nstack s t = f0 :: k -> erase f = erase f0 -> R0 s1 st ->
    n_threads s1 = n_threads s -> mono E s s1 -> fr_ok E s1 f ->
    exists st', sim_step E st st' /\ R (nset_stack s1 t (f :: k)) st'.
  Proof.
    intros HR Hst He HR0 Ht1 Hmo Hf. exists st. split; [constructor|].
    apply (R_upd E s st _ _ t [f0] [f] k HR); try done.
    - destruct HR0. by constructor.
    - simpl. by rewrite Ht1.
    - csimpl. rewrite He. symmetry. apply insert_id. rewrite (r_threads _ _ _ HR), lookup_fmap.
      unfold nstack in Hst. destruct (n_threads s !! t); simpl in *; [by rewrite Hst|done].
    - by intros g ->%elem_of_list_singleton.
  Qed.
  Lemma mono_same s s' : n_vecs s' = n_vecs s -> n_poison s' = n_poison s -> mono E s s'.
  Proof. apply mono_refl. Qed.

  Lemma in_set s st t g i k : IInv E1 st -> R s st -> nstack s t = NIn i g :: k ->
    set_of E1 st (frame_ty E g) = nset s (slot (frame_ty E g), i) /\
    first s (frame_ty E g) = Some i /\ frame_ok E1 st g /\
    is_Some (find_set (frame_ty E g) (container st (InternModel.slot E1 (frame_ty E g)))).
  Proof.
    intros HI HR Hst. assert (NIn i g ∈ nstack s t) as Hin by (rewrite Hst; by left).
    destruct (r_frames _ _ _ HR _ _ Hin) as [Hf Hw].
    assert (g ∈ get_stack st t) as Hin'. { rewrite (R_stack E s st t HR), Hst. csimpl. by left. }
    split_and!; [|done|by eapply (v_frames _ _ HI)|].
    - by rewrite (r_sets _ _ _ (r_base _ _ _ HR)), Hf.
    - pose proof (v_has _ _ HI _ _ Hin') as H. by destruct g.
  Qed.

  Ltac same := by apply mono_same.
  Ltac one := intros ? ->%elem_of_list_singleton; simpl; try done.
  Ltac rest := first [done|by apply mono_same|by one].

  Lemma call_sim s st t o a s' : IInv E1 st -> R s st -> nstep E s (ICall t o a) = Next s' ->
    exists st', sim_step E st st' /\ R s' st'.
  Proof.
    intros HI HR H. simpl in H. destruct (match nstack s t with [] => true | _ => _ end); [|done].
    pose proof (r_base _ _ _ HR) as HR0.
    destruct o as [v|v|v|ty w q|ty w q|ty|ty]; try done.
    3:{ destruct (ialloc E (nmem s) a v false) as [[m p]|] eqn:Ha; [|done]. injection H as <-.
        destruct (mem_alloc _ _ _ _ _ _ _ _ HR0 Ha) as (st1&Ha1&HR1&Ht).
        apply (fin s st t [] [NScan (OBox v) (Some p) false] (nstack s t) _ st1); try rest; [].
        by eapply MCallBox. }
    all: injection H as <-; match goal with |- context [NScan ?o ?b ?c] =>
      apply (fin s st t [] [NScan o b c] (nstack s t) s st); try rest; by apply MCall end.
  Qed.

  Lemma in_sim s st t a j i g k s' : IInv E1 st -> R s st -> nstack s t = NIn i g :: k ->
    nstep_thread E s t a j = Next s' -> exists st', sim_step E st st' /\ R s' st'.
  Proof.
    intros HI HR Hst H. destruct (in_set _ _ _ _ _ _ HI HR Hst) as (Hset&Hf&Hok&Hhas).
    pose proof (r_base _ _ _ HR) as HR0. unfold nstep_thread in H. rewrite Hst in H.
    destruct g as [o b|o b|ty w q|o v|o p|o b r|o r]; simpl in Hset, Hf, Hok, Hhas; try done.
    - destruct (ireadable (nmem s) _); [|done]. rewrite <- Hset, (mem_cand E s st _ _ HR0) in H.
      destruct (ipick j _) as [p|] eqn:Hp; [apply ipick_in in Hp|apply ipick_none in Hp].
      + destruct o; try done; injection H as <-; (eapply (fin s st t [_] [_] k s st); try rest; []);
          first [by apply MHitDup|by apply MHit].
      + destruct o; try done.
        3:{ destruct b as [p|]; [|done]. destruct (ileak (nmem s) p) as [m|] eqn:Hl; [|done]. injection H as <-.
            destruct (mem_leak _ _ _ _ _ HR0 Hl) as (st1&Hl1&HR1&Ht).
            eapply (fin s st t [_] [_] k _ st1); try rest; []. by apply MMissBox. }
        all: injection H as <-; (eapply (fin s st t [_] [_] k s st); try rest; []).
        * apply MMiss; [done|by left].
        * apply MMiss; [done|by right].
        * by apply MMissRef.
    - destruct (ialloc E (nmem s) a v true) as [[m p]|] eqn:Ha; [|done]. injection H as <-.
      destruct (mem_alloc _ _ _ _ _ _ _ _ HR0 Ha) as (st1&Ha1&HR1&Ht).
      eapply (fin s st t [_] [_] k _ st1); try rest; []. by eapply MStore.
    - rewrite (mem_read E s st p HR0) in H. destruct (iread st p) as [v|] eqn:Hr; [|done].
      destruct (ireadable (nmem s) _); [|done]. rewrite <- Hset, (mem_cand E s st _ _ HR0) in H.
      destruct (candidates st (ins_match E v) _) as [|p' l] eqn:Hc; injection H as <-.
      + eapply (fin s st t [NIn i (FIns o p)] [_] k _ _ HR Hst); [by apply (MInsert E1 st t o p v)| |done|done|same|one].
        apply R0_event; [|done]. by apply R0_put.
      + eapply (fin s st t [_] [_] k s st); try rest; [].
        eapply (MPresent E1 _ _ _ _ v p'); [done|]. change (ins_match E1 v) with (ins_match E v).
        change (InternModel.op_ty E1 o) with (op_ty o). rewrite Hc. by left.
    - destruct b as [p|].
      + destruct (ifree (nmem s) p) as [m|] eqn:Hl; [|done]. injection H as <-.
        destruct (mem_free _ _ _ _ _ HR0 Hl) as (st1&Hl1&HR1&Ht).
        eapply (fin s st t [_] [_] k _ st1); try rest; []. by apply MFree.
      + injection H as <-. eapply (fin s st t [_] [_] k s st); try rest; []. by apply MDrop.
    - injection H as <-.
      apply (fin s st t [NIn i (FDone o r)] [] k
        (nevent (nunlock s (slot (op_ty o), i) (match r with RPanic => true | _ => false end)) (EvRet t o r))
        _ HR Hst (MRet E1 st t o r)); [|done|done| |].
      + apply R0_event; [by apply R0_unlock|]. intros t' o' [= <- <- ->]. exists i. split; [done|]. simpl. set_solver.
      + apply (mono_unlock s (slot (op_ty o), i) _ (EvRet t o r) t k).
      + intros f Hin. by apply elem_of_nil in Hin.
  Qed.

  Lemma thread_sim s st t a j s' : IInv E1 st -> R s st -> nstep_thread E s t a j = Next s' ->
    exists st', sim_step E st st' /\ R s' st'.
  Proof.
    intros HI HR H. destruct (nstack s t) as [|f k] eqn:Hst; [unfold nstep_thread in H; by rewrite Hst in H|].
    pose proof (r_base _ _ _ HR) as HR0.
    assert (fr_ok E s f) as Hok. { apply (r_frames _ _ _ HR t). rewrite Hst. by left. }
    destruct f as [o b again|o b|o b i|o b i|o b|i g]; [..|by eapply in_sim];
      unfold nstep_thread in H; rewrite Hst in H; simpl in Hok.
    - destruct (find_ty (op_ty o) _) as [i|] eqn:Hf.
      + destruct ((j =? 0) || again); injection H as <-; eapply fin_same; rest.
      + destruct again; [done|]. injection H as <-. eapply fin_same; rest.
    - injection H as <-. eapply fin_same; try rest. by apply R0_reserve.
    - destruct (Nat.eqb_spec (length (nvec s (slot (op_ty o)))) i) as [Hi|]; [|done]. injection H as <-.
      eapply fin_same; try done; [by apply R0_publish|apply (mono_publish s (op_ty o) 0 [])|].
      simpl. rewrite first_publish. destruct (first s (op_ty o)); [done|]. by rewrite Nat.eqb_refl.
    - destruct (n_locks s !! _) eqn:Hl; [done|]. destruct (bool_decide _) eqn:Hp.
      + rewrite bool_decide_eq_true in Hp. destruct (existsb unwinds k); [done|]. injection H as <-.
        eapply fin_same; try rest. by exists i.
      + rewrite bool_decide_eq_false in Hp.
        assert (R0 (nlock s (slot (op_ty o), i) t) (locked E1 st t (op_ty o))) as HR1 by (by apply R0_lock).
        assert (i_locks st !! InternModel.slot E1 (op_ty o) = None) as Hl1.
        { by rewrite (r_locks _ _ _ HR0), Hok. }
        assert (set_of E1 st (op_ty o) = nset s (slot (op_ty o), i)) as Hset.
        { by rewrite (r_sets _ _ _ HR0), Hok. }
        destruct o as [v|v|v|ty w q|ty w q|ty|ty]; injection H as <-.
        1-5: eapply (fin s st t [_] [_] k _ _ HR Hst); [by apply MLock|exact HR1|done|done|same|by one].
        * simpl in Hset |- *. rewrite <- Hset, <- (locked_set_of E1 st t ty ty).
          eapply (fin s st t [_] [_] k _ _ HR Hst); [by apply MLen|exact HR1|done|done|same|by one].
        * eapply (fin s st t [_] [_] k _ _ HR Hst); [by apply MClear| |done|done|same|by one].
          apply R0_event; [|done]. apply (R0_put (nlock s (slot ty, i) t) (locked E1 st t ty) ty i); [done|done|].
          apply locked_has.
    - destruct Hok as (i&Hi&Hp).
      destruct b as [p|].
      + destruct (ifree (nmem s) p) as [m|] eqn:Hl; [|done]. injection H as <-.
        destruct (mem_free _ _ _ _ _ HR0 Hl) as (st1&Hl1&HR1&Ht).
        eexists. split.
        * eapply SimGive, (GiveBox st t o p (erase <$> k) st1); [|done]. by rewrite (R_stack E s st t HR), Hst.
        * apply (R_upd E s st _ _ t [NPanic o (Some p)] [] k HR); try done.
          -- apply R0_event; [by apply R0_stack|]. intros t' o' [= <- <-]. by exists i.
          -- simpl. by rewrite Ht.
          -- intros f Hf. by apply elem_of_nil in Hf.
      + injection H as <-. eexists. split.
        * eapply SimGive, (GiveNone st t o (erase <$> k)). by rewrite (R_stack E s st t HR), Hst.
        * apply (R_upd E s st _ _ t [NPanic o None] [] k HR); try done.
          -- apply R0_event; [by apply R0_stack|]. intros t' o' [= <- <-]. by exists i.
          -- intros f Hf. by apply elem_of_nil in Hf.
  Qed.

  Lemma nstep_sim s st l s' : IInv E1 st -> R s st -> nstep E s l = Next s' ->
    exists st', sim_step E st st' /\ R s' st'.
  Proof.
    intros HI HR H. pose proof (r_base _ _ _ HR) as HR0. destruct l as [t o a|t a j|t v|t|p].
    - by eapply call_sim.
    - by eapply thread_sim.
    - simpl in H. destruct (nstack s t) as [|[| | | | |i []] k] eqn:Hst; try done.
      destruct (in_set _ _ _ _ _ _ HI HR Hst) as (Hset&Hf&Hok&Hhas).
      destruct (ie_from E w q v) eqn:Hfr; [|done]. destruct (Nat.eqb_spec (ie_ty E v) ty); [|done].
      injection H as <-. eapply (fin s st t [_] [_] k s st); try rest; by apply MConv.
    - simpl in H. unfold nstep_panic in H. destruct (nstack s t) as [|f k] eqn:Hst; [done|].
      destruct (existsb unwinds (f :: k)); [done|]. destruct f as [| | | | |i g]; try done.
      destruct (in_set _ _ _ _ _ _ HI HR Hst) as (Hset&Hf&Hok&Hhas).
      destruct g; try done; injection H as <-; (eapply (fin s st t [_] [_] k s st); try rest; []); by constructor.
    - simpl in H. destruct (returned p (n_log s)) eqn:Hr; [|done]. rewrite (mem_read E s st p HR0) in H.
      destruct (iread st p) as [v|] eqn:Hv; [|done]. injection H as <-. exists (add_event st (EvRead p v)). split.
      + apply SimRead; [|done]. by rewrite (r_log _ _ _ HR0).
      + destruct HR. constructor; try done. by apply R0_event.
  Qed.

  Lemma nstep_safe s st l : IInv E1 st -> R s st -> nstep E s l <> UB.
  Proof.
    intros HI HR. pose proof (r_base _ _ _ HR) as HR0.
    assert (forall ty, ireadable (nmem s) (set_of E1 st ty) = true) as Hrd.
    { intros ty. pose proof (set_readable E1 st ty HI) as H. unfold ireadable, iread in *. simpl.
      by rewrite <- (r_objs _ _ _ HR0). }
    assert (forall p v ty, points E1 st ty p v false -> is_Some (ifree (nmem s) p) /\ is_Some (ileak (nmem s) p)) as Hbox.
    { intros p v ty (Hx&_). unfold ifree, ileak. simpl. rewrite <- (r_objs _ _ _ HR0), Hx. by split; eexists. }
    destruct l as [t o a|t a j|t v|t|p]; simpl.
    - destruct (match nstack s t with [] => true | _ => _ end); [|done].
      destruct o; try done. by destruct (ialloc _ _ _ _ _) as [[]|].
    - unfold nstep_thread. destruct (nstack s t) as [|f k] eqn:Hst; [done|].
      assert (fr_ok E s f) as Hok. { apply (r_frames _ _ _ HR t). rewrite Hst. by left. }
      assert (frame_ok E1 st (erase f)) as Hfr.
      { apply (v_frames _ _ HI t). rewrite (R_stack E s st t HR), Hst. csimpl. by left. }
      destruct f as [o b again|o b|o b i|o b i|o b|i g]; simpl in Hok, Hfr.
      + unfold NewSim.first in Hok. destruct (find_ty _ _); [by destruct (_ || _)|]. destruct again; [|done]. by destruct Hok.
      + done.
      + by destruct (_ =? i).
      + destruct (n_locks s !! _); [done|]. destruct (bool_decide _); [by destruct (existsb unwinds k)|]. by destruct o.
      + destruct b as [p|]; [|done]. destruct o; simpl in Hfr; try done. destruct Hfr as (p'&[= <-]&Hp).
        destruct (Hbox _ _ _ Hp) as [[m Hm] _]. by rewrite Hm.
      + destruct (in_set _ _ _ _ _ _ HI HR Hst) as (Hset&Hf&_&Hhas).
        destruct g as [o b|o b|ty w q|o v|o p|o b r|o r]; simpl in Hset, Hf, Hfr; try done.
        * rewrite <- Hset, Hrd. destruct (ipick j _); destruct o; try done.
          destruct Hfr as [(p&->&Hp) _]. destruct (Hbox _ _ _ Hp) as [_ [m Hm]]. by rewrite Hm.
        * by destruct (ialloc _ _ _ _ _) as [[]|].
        * destruct Hfr as (v&Hp&_). rewrite (mem_read E s st p HR0), (points_read E1 _ _ _ _ _ Hp).
          rewrite <- Hset, Hrd. by destruct (candidates _ _ _).
        * destruct b as [p|]; [|done]. destruct Hfr as [Hfr _]. destruct o; simpl in Hfr; try done.
          destruct Hfr as (p'&[= <-]&Hp). destruct (Hbox _ _ _ Hp) as [[m Hm] _]. by rewrite Hm.
    - destruct (nstack s t) as [|[| | | | |i []] k]; try done. by destruct (_ && _).
    - unfold nstep_panic. destruct (nstack s t) as [|f k]; [done|]. destruct (existsb _ _); [done|].
      destruct f as [| | | | |i g]; try done. by destruct g.
    - destruct (returned p (n_log s)) eqn:Hr; [|done]. rewrite <- (r_log _ _ _ HR0) in Hr.
      apply returned_in in Hr as (t&o&Hin). apply (v_log _ _ HI) in Hin as [v Hp].
      by rewrite (mem_read E s st p HR0), (points_read E1 _ _ _ _ _ Hp).
  Qed.

  Lemma R_init : R ninit iinit.
  Proof.
    constructor; [constructor|..]; simpl; try done.
    - intros t o H. by apply elem_of_nil in H.
    - by rewrite fmap_empty.
    - intros t f H. unfold nstack in H. simpl in H. rewrite lookup_empty in H. by apply elem_of_nil in H.
  Qed.

  (** ** The invariant *)
  Definition NInv s : Prop := exists st, IInv E1 st /\ (ilawful E -> LInv E1 st) /\ R s st.
  Lemma lawful1 : ilawful E -> ilawful E1.
  Proof. intros []. by constructor. Qed.
  Lemma ninv_init : NInv ninit.
  Proof. exists iinit. split_and!; [apply iinv_init|intros _; apply linv_init|apply R_init]. Qed.
  Lemma nstep_inv s l s' : NInv s -> nstep E s l = Next s' -> NInv s'.
  Proof.
    intros (st&HI&HW&HR) H. destruct (nstep_sim _ _ _ _ HI HR H) as (st'&Hs&HR'). exists st'. split_and!; [|..|done].
    - by eapply sim_inv.
    - intros HL. eapply sim_law; [by apply lawful1|done|by apply HW|done].
  Qed.
  Lemma nstep_noub s l : NInv s -> nstep E s l <> UB.
  Proof. intros (st&HI&_&HR). by eapply nstep_safe. Qed.
  Theorem nrun_inv s ls s' : NInv s -> run (nstep E) s ls = Some s' -> NInv s'.
  Proof.
    revert s. induction ls as [|l ls IH]; intros s HI; simpl; [by intros [= ->]|].
    unfold exec. destruct (nstep E s l) as [s1| | |] eqn:Hs; try done; [|by apply IH..].
    apply IH. by eapply nstep_inv.
  Qed.
  Theorem nrun_safe s ls : NInv s -> run (nstep E) s ls <> None.
  Proof.
    revert s. induction ls as [|l ls IH]; intros s HI; simpl; [done|].
    unfold exec. destruct (nstep E s l) as [s1| | |] eqn:Hs; [|by apply IH..|by apply nstep_noub in Hs].
    apply IH. by eapply nstep_inv.
  Qed.
End step.

(** The model of [NewIntern] is simulated by the model of [Intern] with one container per
    type, extended with the panic on a poisoned mutex.  So the invariants of the latter
    hold of the former. *)
From stdpp Require Import gmap list numbers.
From Verif Require Import Base InternModel InternSpec InternInv InternStep InternLaw NewModel.
Require Import ZifyBool ZifyNat ZifyN.

Section sim.
  Context {V Q : Type} (E : ienv V Q).
  Implicit Types (s : nstate V Q) (st : istate V Q) (v : V) (p : iptr) (o : iop V Q) (g : frame V Q) (f : nframe V Q) (t ty c i : nat).
  Notation op_ty := (op_ty E).

  (** The same types, every one with a container for itself. *)
  Definition E1 : ienv V Q :=
    IEnv (ie_ty E) (ie_eq E) (ie_hash E) (ie_borrow E) (ie_qeq E) (ie_qhash E) (ie_from E) (ie_sees E)
      (ie_meta E) (ie_zst E) (ie_dangle E) N.of_nat 0 0.
  Lemma slot1 ty : slot E1 ty = ty.
  Proof. unfold slot. simpl. destruct (N.of_nat ty) as [|x] eqn:H; simpl; lia. Qed.

  (** The extra step: a call gives up because the mutex is poisoned. *)
  Inductive give_up st t : istate V Q -> Prop :=
  | GiveNone o k : get_stack st t = FWait o None :: k ->
      give_up st t (add_event (set_stack st t k) (EvRet t o RPanic))
  | GiveBox o p k st1 : get_stack st t = FWait o (Some p) :: k -> ifree st p = Some st1 ->
      give_up st t (add_event (set_stack st1 t k) (EvRet t o RPanic)).
  Inductive sim_step st : istate V Q -> Prop :=
  | SimSame : sim_step st st
  | SimMove t fs fs' k st1 : get_stack st t = fs ++ k -> move E1 st t fs fs' st1 ->
      sim_step st (set_stack st1 t (fs' ++ k))
  | SimRead p v : returned p (i_log st) = true -> iread st p = Some v -> sim_step st (add_event st (EvRead p v))
  | SimGive t st' : give_up st t st' -> sim_step st st'.

  Lemma give_up_trans st t st' : IInv E1 st -> give_up st t st' ->
    exists o b k, trans E1 st st' t [FWait o b] [] k /\ IInv E1 st' /\ i_log st' = EvRet t o RPanic :: i_log st.
  Proof.
    intros HI [o k Hst|o p k st1 Hst Hf].
    - exists o, None, k.
      assert (trans E1 st (add_event (set_stack st t k) (EvRet t o RPanic)) t [FWait o None] [] k) as Htr.
      { constructor; simpl; try done. intros ty. by left. }
      split_and!; [done| |done]. destruct Htr. eapply (upd_inv E1 st _ t [FWait o None] [] k); try done; simpl.
      + apply (v_fresh _ _ HI).
      + apply (v_zaddr _ _ HI).
      + apply (v_addr _ _ HI).
      + apply (v_slot _ _ HI).
      + apply (v_nodup _ _ HI).
      + apply (v_current _ _ HI).
      + intros f H. by apply elem_of_nil in H.
      + intros e [->|?]%elem_of_cons; [by right|by left].
      + intros f H. by apply elem_of_nil in H.
    - exists o, (Some p), k.
      assert (frame_ok E1 st (FWait o (Some p))) as Hok.
      { apply (v_frames _ _ HI t). rewrite Hst. by left. }
      assert (exists v, points E1 st (ie_ty E1 v) p v false) as (v&Hp).
      { destruct o; simpl in Hok; try done. destruct Hok as (p'&Heq&Hp). injection Heq as <-. by exists v. }
      destruct (trans_free E1 st t p v (ie_ty E1 v) st1 [FWait o (Some p)] [] k HI Hf Hst Hp) as [Htr Hi].
      { intros s. simpl. lia. }
      { done. }
      assert (IInv E1 (set_stack st1 t k)) as HI1.
      { apply Hi; intros f H; by apply elem_of_nil in H. }
      assert (i_log st1 = i_log st) as Hlog.
      { unfold ifree in Hf. destruct (i_objs st !! ip_ser p) as [x|]; [|done]. destruct (io_leaked x); [done|].
        by injection Hf as <-. }
      split_and!; [| |simpl; by rewrite Hlog].
      + by destruct Htr.
      + destruct HI1. constructor; try done. simpl in *. intros e [->|He]%elem_of_cons; [done|]. by apply v_log.
  Qed.

  Lemma sim_inv st st' : IInv E1 st -> sim_step st st' -> IInv E1 st'.
  Proof.
    intros HI [|t fs fs' k st1 Hst Hm|p v Hr Hv|t st'' Hg]; [done| | |].
    - by destruct (move_ok E1 st t fs fs' k st1 HI Hst Hm).
    - by apply inv_deref.
    - by destruct (give_up_trans _ _ _ HI Hg) as (o&b&k&_&?&_).
  Qed.
  Lemma sim_law st st' : ilawful E1 -> IInv E1 st -> LInv E1 st -> sim_step st st' -> LInv E1 st'.
  Proof.
    intros HL HI HW [|t fs fs' k st1 Hst Hm|p v Hr Hv|t st'' Hg]; [done| | |].
    - by eapply move_linv.
    - destruct HW. constructor; try done. simpl. split; [|done]. by apply returned_in in Hr.
    - destruct (give_up_trans _ _ _ HI Hg) as (o&b&k&Htr&HI'&Hlog).
      apply (move_law E1 st st'' t [FWait o b] [] k HI HI' HW Htr).
      + intros f H. by apply elem_of_nil in H.
      + right. exists (EvRet t o RPanic). left. split_and!; [done| |done]. done.
  Qed.

  (** ** Searching a container *)
  Lemma find_ty_app ty l l' i : find_ty ty l = Some i -> find_ty ty (l ++ l') = Some i.
  Proof.
    revert i. induction l as [|u l IH]; intros i; simpl; [done|].
    destruct (u =? ty); [done|]. destruct (find_ty ty l) as [j|]; simpl; [|done].
    intros [= <-]. by rewrite (IH j).
  Qed.
  Lemma find_ty_snoc ty l u : find_ty ty l = None ->
    find_ty ty (l ++ [u]) = if u =? ty then Some (length l) else None.
  Proof.
    induction l as [|w l IH]; simpl; [by destruct (u =? ty)|].
    destruct (w =? ty); [done|]. destruct (find_ty ty l) as [j|]; simpl; [done|].
    intros _. rewrite IH by done. by destruct (u =? ty).
  Qed.
  Lemma find_ty_lookup ty l i : find_ty ty l = Some i -> l !! i = Some ty.
  Proof.
    revert i. induction l as [|u l IH]; intros i; simpl; [done|].
    destruct (Nat.eqb_spec u ty) as [->|]; [by intros [= <-]|].
    destruct (find_ty ty l) as [j|]; simpl; [|done]. intros [= <-]. by apply IH.
  Qed.

  (** The set that calls for a type use. *)
  Definition first s ty : option nat := find_ty ty (nvec s (slot E ty)).

  (** ** The relation *)
  Definition erase (f : nframe V Q) : frame V Q :=
    match f with
    | NScan o b _ | NPush o b | NPub o b _ | NLock o b _ | NPanic o b => FWait o b
    | NIn _ g => g
    end.
  Definition fr_ok s (f : nframe V Q) : Prop :=
    match f with
    | NScan o _ true => is_Some (first s (op_ty o))
    | NScan _ _ false | NPush _ _ | NPub _ _ _ => True
    | NLock o _ i => first s (op_ty o) = Some i
    | NPanic o _ => exists i, first s (op_ty o) = Some i /\ (slot E (op_ty o), i) ∈ n_poison s
    | NIn i g => first s (frame_ty E g) = Some i /\ match g with FWait _ _ => False | _ => True end
    end.
  Record R0 s st : Prop := {
    r_objs : i_objs st = n_objs s;
    r_next : i_next st = n_next s;
    r_log : i_log st = n_log s;
    r_sets : forall ty, set_of E1 st ty = match first s ty with Some i => nset s (slot E ty, i) | None => [] end;
    r_locks : forall ty, i_locks st !! slot E1 ty =
      match first s ty with Some i => n_locks s !! (slot E ty, i) | None => None end;
    r_fresh : forall c i, length (nvec s c) <= i ->
      n_sets s !! (c, i) = None /\ n_locks s !! (c, i) = None /\ (c, i) ∉ n_poison s;
    r_poison : forall x, x ∈ n_poison s -> n_locks s !! x = None;
    r_panics : forall t o, EvRet t o RPanic ∈ n_log s ->
      exists i, first s (op_ty o) = Some i /\ (slot E (op_ty o), i) ∈ n_poison s;
  }.
  Record R s st : Prop := {
    r_base : R0 s st;
    r_threads : i_threads st = (λ k : list (nframe V Q), erase <$> k) <$> n_threads s;
    r_frames : forall t f, f ∈ nstack s t -> fr_ok s f;
  }.
  Definition mono s s' : Prop :=
    (forall ty i, first s ty = Some i -> first s' ty = Some i) /\ n_poison s ⊆ n_poison s'.

  Lemma fr_mono s s' f : mono s s' -> fr_ok s f -> fr_ok s' f.
  Proof.
    intros [Hf Hp]. destruct f as [o b []|o b|o b i|o b i|o b|i g]; simpl; try done.
    - intros [i Hi]. exists i. by apply Hf.
    - apply Hf.
    - intros (i&Hi&Hpo). exists i. split; [by apply Hf|set_solver].
    - intros [? ?]. split; [by apply Hf|done].
  Qed.
  Lemma R_upd s st s' st' t fs0 fs k :
    R s st -> R0 s' st' -> nstack s t = fs0 ++ k ->
    n_threads s' = <[t:=fs ++ k]> (n_threads s) ->
    i_threads st' = <[t:=erase <$> (fs ++ k)]> (i_threads st) ->
    mono s s' -> (forall f, f ∈ fs -> fr_ok s' f) -> R s' st'.
  Proof.
    intros HR HR0 Hst Ht Hit Hm Hfs. constructor; [done| |].
    - rewrite Hit, Ht, fmap_insert, (r_threads _ _ HR). done.
    - intros u f. unfold nstack. rewrite Ht. destruct (decide (t = u)) as [<-|Hne].
      + rewrite lookup_insert. simpl. intros [Hf|Hf]%elem_of_app; [by apply Hfs|].
        apply (fr_mono s); [done|]. apply (r_frames _ _ HR t). rewrite Hst. apply elem_of_app. by right.
      + rewrite lookup_insert_ne by done. intros Hf. apply (fr_mono s); [done|]. by apply (r_frames _ _ HR u).
  Qed.
  Lemma R_stack s st t : R s st -> get_stack st t = erase <$> nstack s t.
  Proof.
    intros HR. unfold get_stack, nstack. rewrite (r_threads _ _ HR), lookup_fmap.
    by destruct (n_threads s !! t).
  Qed.
  Lemma mono_refl s s' : n_vecs s' = n_vecs s -> n_poison s' = n_poison s -> mono s s'.
  Proof. intros H1 H2. split; [|by rewrite H2]. intros ty i. unfold first, nvec. by rewrite H1. Qed.

  (** ** Memory *)
  Lemma mem_alloc s st a v b m p : R0 s st -> ialloc E (nmem s) a v b = Some (m, p) ->
    exists st1, ialloc E1 st a v b = Some (st1, p) /\ R0 (with_mem s m) st1 /\ i_threads st1 = i_threads st.
  Proof.
    intros HR. unfold ialloc, addr_free. simpl. rewrite (r_objs _ _ HR), (r_next _ _ HR).
    change (is_zst E1) with (is_zst E).
    destruct (_ || _); [|done]. intros [= <- <-]. eexists. split_and!; [done| |done].
    destruct HR. by constructor.
  Qed.
  Lemma mem_free s st p m : R0 s st -> ifree (nmem s) p = Some m ->
    exists st1, ifree st p = Some st1 /\ R0 (with_mem s m) st1 /\ i_threads st1 = i_threads st.
  Proof.
    intros HR. unfold ifree. simpl. rewrite (r_objs _ _ HR).
    destruct (n_objs s !! ip_ser p) as [x|]; [|done]. destruct (io_leaked x); [done|].
    intros [= <-]. eexists. split_and!; [done| |done]. destruct HR. by constructor.
  Qed.
  Lemma mem_leak s st p m : R0 s st -> ileak (nmem s) p = Some m ->
    exists st1, ileak st p = Some st1 /\ R0 (with_mem s m) st1 /\ i_threads st1 = i_threads st.
  Proof.
    intros HR. unfold ileak. simpl. rewrite (r_objs _ _ HR).
    destruct (n_objs s !! ip_ser p) as [x|]; [|done]. destruct (io_leaked x); [done|].
    intros [= <-]. eexists. split_and!; [done| |done]. destruct HR. by constructor.
  Qed.
  Lemma mem_read s st p : R0 s st -> iread (nmem s) p = iread st p.
  Proof. intros HR. unfold iread. simpl. by rewrite (r_objs _ _ HR). Qed.
  Lemma mem_cand s st h ps : R0 s st -> candidates (nmem s) h ps = candidates st h ps.
  Proof. intros HR. unfold candidates, iread. simpl. by rewrite (r_objs _ _ HR). Qed.
  Lemma R0_stack s st t k k' : R0 s st -> R0 (nset_stack s t k) (set_stack st t k').
  Proof. intros []. by constructor. Qed.
End sim.

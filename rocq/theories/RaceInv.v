(** The invariant behind race freedom of ArcIntern. *)
From stdpp Require Import gmap list numbers.
From Verif Require Import Base ArcModel ArcSpec ArcInv ArcStep ArcSafe ArcReach RaceModel.
Require Import ZifyBool ZifyNat ZifyN.

Section inv.
  Context {V : Type} (E : tyenv V) (O : orders).
  Implicit Types (st : state V) (s : rstate V) (p q : ptr) (tr : list access) (W : gset nat).

  Definition touches tr (k i : nat) : Prop :=
    exists x w, tr !! i = Some x /\ (k, w) ∈ a_touch x.
  Definition writes tr (k i : nat) : Prop :=
    exists x, tr !! i = Some x /\ (k, TWrite) ∈ a_touch x.

  Lemma touches_app tr l k i : touches tr k i -> touches (tr ++ l) k i.
  Proof. intros (x&w&Hx&Hk). exists x, w. split; [by apply lookup_app_l_Some|done]. Qed.
  Lemma writes_app tr l k i : writes tr k i -> writes (tr ++ l) k i.
  Proof. intros (x&Hx&Hk). exists x. split; [by apply lookup_app_l_Some|done]. Qed.
  Lemma writes_touches tr k i : writes tr k i -> touches tr k i.
  Proof. intros (x&Hx&Hk). by exists x, TWrite. Qed.
  Lemma touches_inv tr l k i : touches (tr ++ l) k i ->
    touches tr k i \/ exists j x w, i = length tr + j /\ l !! j = Some x /\ (k, w) ∈ a_touch x.
  Proof.
    intros (x&w&Hx&Hk). apply lookup_app_Some in Hx as [Hx|[Hl Hx]].
    - left. by exists x, w.
    - right. exists (i - length tr), x, w. split; [lia|done].
  Qed.
  Lemma writes_inv tr l k i : writes (tr ++ l) k i ->
    writes tr k i \/ exists j x, i = length tr + j /\ l !! j = Some x /\ (k, TWrite) ∈ a_touch x.
  Proof.
    intros (x&Hx&Hk). apply lookup_app_Some in Hx as [Hx|[Hl Hx]].
    - left. by exists x.
    - right. exists (i - length tr), x. split; [lia|done].
  Qed.

  (** ** Views *)

  (** Views contain accesses made, and with each of them what happens before it. *)
  Definition closed tr W : Prop :=
    forall i, i ∈ W -> exists x, tr !! i = Some x /\ a_past x ⊆ W.

  Lemma closed_union tr W1 W2 : closed tr W1 -> closed tr W2 -> closed tr (W1 ∪ W2).
  Proof.
    intros H1 H2 i [Hi|Hi]%elem_of_union.
    - destruct (H1 i Hi) as (x&Hx&Hp). exists x. split; [done|set_solver].
    - destruct (H2 i Hi) as (x&Hx&Hp). exists x. split; [done|set_solver].
  Qed.
  Lemma closed_empty tr : closed tr ∅.
  Proof. intros i Hi. set_solver. Qed.
  Lemma closed_app tr l W : closed tr W -> closed (tr ++ l) W.
  Proof.
    intros H i Hi. destruct (H i Hi) as (x&Hx&Hp). exists x. split; [|done].
    by apply lookup_app_l_Some.
  Qed.
  Lemma closed_new tr t l W : closed tr W ->
    closed (tr ++ [Access t l W]) ({[length tr]} ∪ W).
  Proof.
    intros H i [Hi|Hi]%elem_of_union.
    - apply elem_of_singleton in Hi as ->. exists (Access t l W).
      split; [by apply list_lookup_middle|]. simpl. set_solver.
    - destruct (H i Hi) as (x&Hx&Hp). exists x. split; [by apply lookup_app_l_Some|set_solver].
  Qed.

  Record WF s : Prop := MkWF {
    wf_seen : forall t, closed (r_trace s) (seen s t);
    wf_lock : forall l, closed (r_trace s) (lockv s l);
    wf_count : forall k, closed (r_trace s) (countv s k);
    wf_made : forall h x, r_hands s !! h = Some x -> closed (r_trace s) (h_made x);
    wf_used : forall h x, r_hands s !! h = Some x -> closed (r_trace s) (h_used x);
    wf_msgs : forall m, closed (r_trace s) (msgv s m);
    wf_past : forall i x, r_trace s !! i = Some x -> closed (r_trace s) (a_past x);
  }.

  Lemma seen_set_seen s t W u : seen (set_seen s t W) u = if decide (u = t) then W else seen s u.
  Proof.
    unfold seen. simpl. destruct (decide (u = t)) as [->|].
    - by rewrite lookup_insert.
    - by rewrite lookup_insert_ne.
  Qed.
  Lemma lockv_set_lockv s l W l' : lockv (set_lockv s l W) l' = if decide (l' = l) then W else lockv s l'.
  Proof.
    unfold lockv. simpl. destruct (decide (l' = l)) as [->|].
    - by rewrite lookup_insert.
    - by rewrite lookup_insert_ne.
  Qed.
  Lemma countv_set_countv s l W l' : countv (set_countv s l W) l' = if decide (l' = l) then W else countv s l'.
  Proof.
    unfold countv. simpl. destruct (decide (l' = l)) as [->|].
    - by rewrite lookup_insert.
    - by rewrite lookup_insert_ne.
  Qed.
  Lemma seen_add s t l u : seen (add_access s t l) u =
    if decide (u = t) then {[length (r_trace s)]} ∪ seen s t else seen s u.
  Proof.
    unfold seen at 1. simpl. destruct (decide (u = t)) as [->|].
    - by rewrite lookup_insert.
    - by rewrite lookup_insert_ne.
  Qed.

  Lemma wf_add s t l : WF s -> WF (add_access s t l).
  Proof.
    intros HW. constructor.
    - intros u. rewrite seen_add. simpl. destruct (decide (u = t)) as [->|].
      + apply closed_new, HW.
      + apply closed_app, HW.
    - intros k. apply closed_app, HW.
    - intros k. apply closed_app, HW.
    - intros h x Hx. eapply closed_app, wf_made; done.
    - intros h x Hx. eapply closed_app, wf_used; done.
    - intros m. apply closed_app, HW.
    - intros i x Hx. simpl in Hx. simpl. apply closed_app.
      apply lookup_app_Some in Hx as [Hx|[_ Hx]]; [by eapply wf_past|].
      apply list_lookup_singleton_Some in Hx as [_ <-]. simpl. apply HW.
  Qed.
  Lemma wf_set_seen s t W : WF s -> closed (r_trace s) W -> WF (set_seen s t W).
  Proof.
    intros HW Hc. constructor; simpl; try apply HW.
    intros u. rewrite seen_set_seen. destruct (decide (u = t)); [done|apply HW].
  Qed.
  Lemma wf_set_lockv s l W : WF s -> closed (r_trace s) W -> WF (set_lockv s l W).
  Proof.
    intros HW Hc. constructor; simpl; try apply HW.
    intros u. rewrite lockv_set_lockv. destruct (decide (u = l)); [done|apply HW].
  Qed.
  Lemma wf_set_countv s l W : WF s -> closed (r_trace s) W -> WF (set_countv s l W).
  Proof.
    intros HW Hc. constructor; simpl; try apply HW.
    intros u. rewrite countv_set_countv. destruct (decide (u = l)); [done|apply HW].
  Qed.
  Lemma msgv_set_msgv s l W l' : msgv (set_msgv s l W) l' = if decide (l' = l) then W else msgv s l'.
  Proof.
    unfold msgv. simpl. destruct (decide (l' = l)) as [->|].
    - by rewrite lookup_insert.
    - by rewrite lookup_insert_ne.
  Qed.
  Lemma wf_set_msgv s l W : WF s -> closed (r_trace s) W -> WF (set_msgv s l W).
  Proof.
    intros HW Hc. constructor; simpl; try apply HW.
    intros u. rewrite msgv_set_msgv. destruct (decide (u = l)); [done|apply HW].
  Qed.
  Lemma wf_set_st s st : WF s -> WF (set_st s st).
  Proof. intros HW. constructor; apply HW. Qed.
  Lemma wf_delete s h : WF s -> WF (set_hands s (delete h (r_hands s))).
  Proof.
    intros HW. constructor; simpl; try apply HW.
    - intros h' x [_ Hx]%lookup_delete_Some. by eapply wf_made.
    - intros h' x [_ Hx]%lookup_delete_Some. by eapply wf_used.
  Qed.
  Lemma wf_insert s h x : WF s -> closed (r_trace s) (h_made x) -> closed (r_trace s) (h_used x) ->
    WF (set_hands s (<[h:=x]> (r_hands s))).
  Proof.
    intros HW H1 H2. constructor; simpl; try apply HW.
    - intros h' y [[_ <-]|[_ Hx]]%lookup_insert_Some; [done|]. by eapply wf_made.
    - intros h' y [[_ <-]|[_ Hx]]%lookup_insert_Some; [done|]. by eapply wf_used.
  Qed.

  Lemma wf_apply s t m : WF s -> WF (apply s t m).
  Proof.
    intros HW. destruct m as [l|l|l|k o|k o|m|m]; simpl.
    - by apply wf_add.
    - apply wf_set_seen; [done|]. apply closed_union; apply HW.
    - apply wf_set_lockv; [done|]. apply closed_union; apply HW.
    - set (s1 := if acquires o then _ else _).
      assert (WF s1) as H1.
      { subst s1. destruct (acquires o); [|done]. apply wf_set_seen; [done|].
        apply closed_union; apply HW. }
      pose proof (wf_add s1 t [(k, TAtomic)] H1) as H2.
      destruct (releases o); [|done]. apply wf_set_countv; [done|].
      apply closed_union; apply H2.
    - set (s1 := if acquires o then _ else _).
      assert (WF s1) as H1.
      { subst s1. destruct (acquires o); [|done]. apply wf_set_seen; [done|].
        apply closed_union; apply HW. }
      by apply wf_add.
    - apply wf_set_msgv; [done|]. apply closed_union; apply HW.
    - apply wf_set_seen; [done|]. apply closed_union; apply HW.
  Qed.
  Lemma wf_applies s t ms : WF s -> WF (applies s t ms).
  Proof.
    revert s. induction ms as [|m ms IH]; intros s HW; [done|]. simpl. by apply IH, wf_apply.
  Qed.

  (** ** What an [apply] does *)
  Lemma apply_frame s t m :
    r_st (apply s t m) = r_st s /\ r_hands (apply s t m) = r_hands s /\ (forall k, msgv s k ⊆ msgv (apply s t m) k)
    /\ (forall u, u <> t -> seen (apply s t m) u = seen s u)
    /\ seen s t ⊆ seen (apply s t m) t
    /\ (forall l, lockv s l ⊆ lockv (apply s t m) l)
    /\ (forall k, countv s k ⊆ countv (apply s t m) k)
    /\ exists l, r_trace (apply s t m) = r_trace s ++ l.
  Proof.
    assert (forall u W, u <> t -> seen (set_seen s t W) u = seen s u) as Hne.
    { intros u W Hu. by rewrite seen_set_seen, decide_False. }
    assert (forall s l u, u <> t -> seen (add_access s t l) u = seen s u) as Hne2.
    { intros s0 l u Hu. by rewrite seen_add, decide_False. }
    assert (forall s l, seen s t ⊆ seen (add_access s t l) t) as Ht2.
    { intros s0 l. rewrite seen_add, decide_True by done. set_solver. }
    destruct m as [l|l|l|k o|k o|m|m]; cbn [apply].
    - split; [done|]. split; [done|]. split; [done|]. split; [by apply Hne2|]. split; [by apply Ht2|].
      split; [done|]. split; [done|]. by eexists.
    - split; [done|]. split; [done|]. split; [done|]. split; [by intros; apply Hne|].
      split; [rewrite seen_set_seen, decide_True by done; set_solver|].
      split; [done|]. split; [done|]. exists []. by rewrite app_nil_r.
    - split; [done|]. split; [done|]. split; [done|]. split; [done|]. split; [done|].
      split; [intros l'; rewrite lockv_set_lockv; destruct (decide (l' = l)) as [->|]; set_solver|].
      split; [done|]. exists []. by rewrite app_nil_r.
    - set (s1 := if acquires o then _ else _).
      assert (r_st s1 = r_st s /\ r_hands s1 = r_hands s /\ r_msgs s1 = r_msgs s /\
              (forall u, u <> t -> seen s1 u = seen s u) /\ seen s t ⊆ seen s1 t /\
              r_lock s1 = r_lock s /\ r_count s1 = r_count s /\ r_trace s1 = r_trace s)
        as (Ha&Hb&Hc&Hd&He&Hf&Hg&Hh).
      { subst s1. destruct (acquires o); [|done]. split; [done|]. split; [done|]. split; [done|].
        split; [by intros; apply Hne|].
        split; [rewrite seen_set_seen, decide_True by done; set_solver|done]. }
      set (s2 := add_access s1 t [(k, TAtomic)]).
      assert (r_st s2 = r_st s /\ r_hands s2 = r_hands s /\ r_msgs s2 = r_msgs s /\
              (forall u, u <> t -> seen s2 u = seen s u) /\ seen s t ⊆ seen s2 t /\
              r_lock s2 = r_lock s /\ r_count s2 = r_count s /\ exists l, r_trace s2 = r_trace s ++ l)
        as (Ha'&Hb'&Hc'&Hd'&He'&Hf'&Hg'&Hh').
      { subst s2. split; [done|]. split; [done|]. split; [done|].
        split; [intros; rewrite Hne2 by done; auto|].
        split; [etrans; [exact He|apply Ht2]|]. split; [done|]. split; [done|].
        eexists. simpl. by rewrite Hh. }
      destruct (releases o).
      + split; [done|]. split; [done|]. split; [intros l; unfold msgv; simpl; by rewrite ?Hc, ?Hc'|]. split; [done|]. split; [done|].
        split; [intros l; unfold lockv; simpl; by rewrite Hf|].
        split; [|done]. intros k'. rewrite countv_set_countv.
        assert (countv s2 k' = countv s k') as Heq by (unfold countv; by rewrite Hg').
        destruct (decide (k' = k)) as [->|]; [|by rewrite Heq]. rewrite Heq. set_solver.
      + split; [done|]. split; [done|]. split; [intros l; unfold msgv; simpl; by rewrite ?Hc, ?Hc'|]. split; [done|]. split; [done|].
        split; [intros l; unfold lockv; by rewrite Hf'|].
        split; [intros l; unfold countv; by rewrite Hg'|done].
    - set (s1 := if acquires o then _ else _).
      assert (r_st s1 = r_st s /\ r_hands s1 = r_hands s /\ r_msgs s1 = r_msgs s /\
              (forall u, u <> t -> seen s1 u = seen s u) /\ seen s t ⊆ seen s1 t /\
              r_lock s1 = r_lock s /\ r_count s1 = r_count s /\ r_trace s1 = r_trace s)
        as (Ha&Hb&Hc&Hd&He&Hf&Hg&Hh).
      { subst s1. destruct (acquires o); [|done]. split; [done|]. split; [done|]. split; [done|].
        split; [by intros; apply Hne|].
        split; [rewrite seen_set_seen, decide_True by done; set_solver|done]. }
      split; [done|]. split; [done|]. split; [intros l; unfold msgv; simpl; by rewrite Hc|].
      split; [intros; rewrite Hne2 by done; auto|].
      split; [etrans; [exact He|apply Ht2]|].
      split; [intros l; unfold lockv; simpl; by rewrite Hf|].
      split; [intros l; unfold countv; simpl; by rewrite Hg|].
      eexists. simpl. by rewrite Hh.
    - split; [done|]. split; [done|].
      split; [intros l'; rewrite msgv_set_msgv; destruct (decide (l' = m)) as [->|]; set_solver|].
      split; [done|]. split; [done|].
      split; [done|]. split; [done|]. exists []. by rewrite app_nil_r.
    - split; [done|]. split; [done|]. split; [done|]. split; [by intros; apply Hne|].
      split; [rewrite seen_set_seen, decide_True by done; set_solver|].
      split; [done|]. split; [done|]. exists []. by rewrite app_nil_r.
  Qed.

  (** ** The invariant *)

  (** Thread [t] owns a handle to [p], is about to remove [p], or owns its memory. *)
  Definition own st p (t : nat) : Prop :=
    0 < pc_rc p (get_pc st t) \/ 0 < pc_oc (p_addr p) (get_pc st t).
  Definition resp st p (t : nat) : Prop := 0 < pc_handles E p (get_pc st t) \/ own st p t.

  (** What is known to whoever holds a lock. *)
  Definition lview s l : gset nat :=
    match st_locks (r_st s) !! l with Some t => seen s t | None => lockv s l end.

  (** Whoever destroys [p] will know of access [e]. *)
  Inductive cov s (e : nat) : ptr -> Prop :=
  | cov_count p : e ∈ countv s (p_ser p) -> cov s e p
  | cov_hand h x : r_hands s !! h = Some x -> e ∈ h_made x ∪ h_used x -> cov s e (h_ptr x)
  | cov_thread p t : resp (r_st s) p t -> e ∈ seen s t -> cov s e p
  | cov_table p d : p ∈ st_table (r_st s) -> data (r_st s) p = Some d ->
      e ∈ lview s (lock_of E d) -> cov s e p
  | cov_gone p : p ∈ st_gone (r_st s) \/ p ∈ st_zombies (r_st s) -> cov s e p
  | cov_past p i x : r_trace s !! i = Some x -> (p_ser p, TWrite) ∈ a_touch x ->
      e ∈ a_past x -> cov s e p
  | cov_kid p q d : data (r_st s) q = Some d -> p ∈ te_kids E d -> cov s e q -> cov s e p.

  Definition live st p : Prop := is_Some (deref st p).

  Definition trace_ok tr : Prop :=
    forall i j y k w, i < j -> tr !! j = Some y -> (k, w) ∈ a_touch y ->
      (w = TWrite -> touches tr k i -> i ∈ a_past y) /\
      (writes tr k i -> i ∈ a_past y).

  Record RInv s : Prop := MkRInv {
    ri_wf : WF s;
    ri_lock : forall l t, st_locks (r_st s) !! l = Some t -> lockv s l ⊆ seen s t;
    ri_fresh : forall k i, touches (r_trace s) k i -> k < st_next (r_st s);
    ri_written : forall p, live (r_st s) p -> exists i, writes (r_trace s) (p_ser p) i;
    ri_khand : forall h x i, r_hands s !! h = Some x -> writes (r_trace s) (p_ser (h_ptr x)) i ->
      i ∈ h_made x;
    ri_kthr : forall p t i, live (r_st s) p -> resp (r_st s) p t ->
      writes (r_trace s) (p_ser p) i -> i ∈ seen s t;
    ri_ktab : forall p d i, p ∈ st_table (r_st s) -> data (r_st s) p = Some d ->
      writes (r_trace s) (p_ser p) i -> i ∈ lview s (lock_of E d);
    ri_kkid : forall q d k i x j, data (r_st s) q = Some d -> k ∈ te_kids E d ->
      r_trace s !! i = Some x -> (p_ser q, TWrite) ∈ a_touch x ->
      writes (r_trace s) (p_ser k) j -> j ∈ a_past x;
    ri_own : forall p t e, live (r_st s) p -> own (r_st s) p t -> e ∈ countv s (p_ser p) ->
      e ∈ seen s t \/ exists d, p ∈ st_table (r_st s) /\ data (r_st s) p = Some d /\ e ∈ lview s (lock_of E d);
    ri_cov : forall p i, live (r_st s) p -> touches (r_trace s) (p_ser p) i -> cov s i p;
    ri_race : trace_ok (r_trace s);
    ri_cfresh : forall k e, e ∈ countv s k -> k < st_next (r_st s);
  }.

  Lemma data_live st p d : data st p = Some d -> live st p.
  Proof. intros (c&Hc&_)%data_Some. by exists c. Qed.

  (** How coverage is carried over. *)
  Lemma cov_pres s s' e :
    (forall k, countv s k ⊆ countv s' k) ->
    (forall h x, r_hands s !! h = Some x -> live (r_st s') (h_ptr x) -> e ∈ h_made x ∪ h_used x ->
       cov s' e (h_ptr x)) ->
    (forall p t, live (r_st s') p -> resp (r_st s) p t -> e ∈ seen s t -> cov s' e p) ->
    (forall p d, live (r_st s') p -> p ∈ st_table (r_st s) -> data (r_st s) p = Some d ->
       e ∈ lview s (lock_of E d) -> cov s' e p) ->
    (forall p, p ∈ st_gone (r_st s) -> p ∈ st_gone (r_st s')) ->
    (forall p, p ∈ st_zombies (r_st s) -> p ∈ st_zombies (r_st s')) ->
    (exists l, r_trace s' = r_trace s ++ l) ->
    (forall q d p, live (r_st s') p -> data (r_st s) q = Some d -> p ∈ te_kids E d -> cov s e q ->
       data (r_st s') q = Some d \/ cov s' e p) ->
    forall p, cov s e p -> live (r_st s') p -> cov s' e p.
  Proof.
    intros H1 H2 H3 H4 H5 H6 [l H7] H8 p Hc.
    induction Hc as [p He|h x Hx He|p t Hr He|p d Hp Hd He|p Hg|p i x Hx Hw He|p q d Hd Hk Hc IH]; intros Hl.
    - apply cov_count. by apply H1.
    - by eapply H2.
    - by eapply H3.
    - by eapply H4.
    - apply cov_gone. destruct Hg; auto.
    - eapply cov_past; [|done|done]. rewrite H7. by apply lookup_app_l_Some.
    - destruct (H8 q d p Hl Hd Hk Hc) as [Hd'|]; [|done].
      eapply cov_kid; [done..|]. apply IH. by eapply data_live.
  Qed.

  (** The common case: the state of ArcModel changes in nothing but locks (and counts). *)
  Lemma cov_mono s s' e :
    (forall k, countv s k ⊆ countv s' k) ->
    (forall h x, r_hands s !! h = Some x -> exists x', r_hands s' !! h = Some x' /\ h_ptr x' = h_ptr x
       /\ h_made x ⊆ h_made x' /\ h_used x ⊆ h_used x') ->
    (forall t, seen s t ⊆ seen s' t) ->
    (forall l, lview s l ⊆ lview s' l) ->
    (forall t, get_pc (r_st s') t = get_pc (r_st s) t) ->
    st_table (r_st s') = st_table (r_st s) ->
    st_gone (r_st s') = st_gone (r_st s) ->
    st_zombies (r_st s') = st_zombies (r_st s) ->
    (forall q, data (r_st s') q = data (r_st s) q) ->
    (exists l, r_trace s' = r_trace s ++ l) ->
    forall p, cov s e p -> cov s' e p.
  Proof.
    intros H1 H2 H3 H4 H5 H6 H7 H8 H9 [l H10] p Hc.
    induction Hc as [p He|h x Hx He|p t Hr He|p d Hp Hd He|p Hg|p i x Hx Hw He|p q d Hd Hk Hc IH].
    - apply cov_count. by apply H1.
    - destruct (H2 h x Hx) as (x'&Hx'&<-&Hm&Hu). eapply cov_hand; [done|]. set_solver.
    - apply (cov_thread _ _ _ t); [|by apply H3]. unfold resp, own. by rewrite H5.
    - eapply cov_table; [by rewrite H6|by rewrite H9|]. by apply H4.
    - apply cov_gone. by rewrite H7, H8.
    - eapply cov_past; [|done|done]. rewrite H10. by apply lookup_app_l_Some.
    - eapply cov_kid; [by rewrite H9|done|done].
  Qed.

  Lemma lview_seen s l t : st_locks (r_st s) !! l = Some t -> lview s l = seen s t.
  Proof. unfold lview. by intros ->. Qed.

  (** ** Knowing more *)
  Lemma ri_learn s t W : RInv s -> closed (r_trace s) W -> RInv (set_seen s t (W ∪ seen s t)).
  Proof.
    intros HI HW. set (s' := set_seen _ _ _).
    assert (forall u, seen s u ⊆ seen s' u) as Hs.
    { intros u. unfold s'. rewrite seen_set_seen. destruct (decide (u = t)) as [->|]; set_solver. }
    assert (forall l, lview s l ⊆ lview s' l) as Hlv.
    { intros l. unfold lview. simpl. destruct (st_locks (r_st s) !! l); [apply Hs|done]. }
    constructor; simpl.
    - apply wf_set_seen; [apply HI|]. apply closed_union; [done|apply HI].
    - intros l u Hl. etrans; [by apply (ri_lock _ HI)|apply Hs].
    - apply HI.
    - apply HI.
    - apply HI.
    - intros p u i Hl Hr Hw. apply Hs. by eapply ri_kthr.
    - intros p d i Hp Hd Hw. apply Hlv. by eapply ri_ktab.
    - apply HI.
    - intros p u e Hl Ho He. destruct (ri_own _ HI p u e Hl Ho He) as [?|(d&?&?&?)].
      + left. by apply Hs.
      + right. exists d. split; [done|]. split; [done|]. by apply Hlv.
    - intros p i Hl Ht. eapply (cov_mono s); try done; [|by exists []; rewrite app_nil_r|by apply (ri_cov _ HI)].
      intros h x Hx. by exists x.
    - apply HI.
    - apply HI.
  Qed.

  (** ** Taking and releasing a lock *)
  Lemma ri_acq s t l : RInv s -> st_locks (r_st s) !! l = None ->
    RInv (set_st (apply s t (MAcq l)) (lock (r_st s) l t)).
  Proof.
    intros HI Hn. pose proof (ri_learn s t (lockv s l) HI (wf_lock _ (ri_wf _ HI) l)) as H1.
    cbn [apply]. set (s1 := set_seen s t (lockv s l ∪ seen s t)) in *. set (s' := set_st _ _).
    assert (forall l', lview s1 l' ⊆ lview s' l') as Hlv.
    { intros l'. unfold lview. simpl. destruct (decide (l' = l)) as [->|].
      - rewrite lookup_insert, Hn. change (seen s' t) with (seen s1 t). unfold s1.
        rewrite seen_set_seen, decide_True by done. change (lockv (set_seen _ _ _) l) with (lockv s l).
        set_solver.
      - by rewrite lookup_insert_ne. }
    constructor; simpl; try apply H1.
    - apply wf_set_st, H1.
    - intros l' u. destruct (decide (l' = l)) as [->|].
      + rewrite lookup_insert. intros [= <-]. change (seen s' t) with (seen s1 t). unfold s1.
        rewrite seen_set_seen, decide_True by done. change (lockv s' l) with (lockv s l). set_solver.
      + rewrite lookup_insert_ne by done. apply (ri_lock _ H1).
    - intros p d i Hp Hd Hw. apply Hlv. by eapply (ri_ktab _ H1).
    - intros p u e Hl Ho He. destruct (ri_own _ H1 p u e Hl Ho He) as [?|(d&?&?&?)]; [by left|].
      right. exists d. split; [done|]. split; [done|]. by apply Hlv.
    - intros p i Hl Ht. eapply (cov_mono s1); try done; [|by exists []; rewrite app_nil_r|by apply (ri_cov _ H1)].
      intros h x Hx. by exists x.
  Qed.

  Lemma ri_rel s t l : RInv s -> st_locks (r_st s) !! l = Some t ->
    RInv (set_st (apply s t (MRel l)) (unlock (r_st s) l)).
  Proof.
    intros HI Hn. cbn [apply]. set (s' := set_st _ _).
    assert (forall l', lview s l' ⊆ lview s' l') as Hlv.
    { intros l'. unfold lview. simpl. destruct (decide (l' = l)) as [->|].
      - rewrite lookup_delete, Hn. change (lockv s' l) with (lockv (set_lockv s l (seen s t ∪ lockv s l)) l).
        rewrite lockv_set_lockv, decide_True by done. set_solver.
      - rewrite lookup_delete_ne by done. change (lockv s' l') with (lockv (set_lockv s l (seen s t ∪ lockv s l)) l').
        by rewrite lockv_set_lockv, decide_False. }
    constructor; simpl; try apply HI.
    - apply wf_set_st, wf_set_lockv; [apply HI|]. apply closed_union; apply HI.
    - intros l' u [Hne Hl]%lookup_delete_Some.
      change (lockv s' l') with (lockv (set_lockv s l (seen s t ∪ lockv s l)) l').
      rewrite lockv_set_lockv, decide_False by done. by apply (ri_lock _ HI).
    - intros p d i Hp Hd Hw. apply Hlv. by eapply (ri_ktab _ HI).
    - intros p u e Hl Ho He. destruct (ri_own _ HI p u e Hl Ho He) as [?|(d&?&?&?)]; [by left|].
      right. exists d. split; [done|]. split; [done|]. by apply Hlv.
    - intros p i Hl Ht. eapply (cov_mono s); try done; [|by exists []; rewrite app_nil_r|by apply (ri_cov _ HI)].
      intros h x Hx. by exists x.
  Qed.

  (** ** Accesses that destroy nothing *)
  Lemma trace_ok_snoc tr t touch W :
    trace_ok tr ->
    (forall k w, (k, w) ∈ touch -> (w = TWrite -> forall i, touches tr k i -> i ∈ W) /\
                                   (forall i, writes tr k i -> i ∈ W)) ->
    trace_ok (tr ++ [Access t touch W]).
  Proof.
    intros HR HN i j y k w Hij Hy Hk.
    assert (forall i, i < j -> touches (tr ++ [Access t touch W]) k i -> j <= length tr -> touches tr k i) as Ht.
    { intros i0 Hi (x&w'&Hx&Hx'). exists x, w'. split; [|done].
      apply lookup_app_Some in Hx as [?|[? _]]; [done|lia]. }
    assert (forall i, i < j -> writes (tr ++ [Access t touch W]) k i -> j <= length tr -> writes tr k i) as Hw.
    { intros i0 Hi (x&Hx&Hx'). exists x. split; [|done].
      apply lookup_app_Some in Hx as [?|[? _]]; [done|lia]. }
    apply lookup_app_Some in Hy as [Hy|[Hl Hy]].
    - pose proof (lookup_lt_Some _ _ _ Hy). destruct (HR i j y k w Hij Hy Hk) as [H1 H2].
      split; [intros E1 E2; apply H1; [done|apply Ht; [done|done|lia]]|].
      intros E2. apply H2, Hw; [done|done|lia].
    - apply list_lookup_singleton_Some in Hy as [Hj <-]. simpl in *.
      destruct (HN k w Hk) as [H1 H2].
      split; [intros E1 E2; apply H1; [done|apply Ht; [done|done|lia]]|].
      intros E2. apply H2, Hw; [done|done|lia].
  Qed.

  Lemma touches_snoc tr t touch W k i :
    touches (tr ++ [Access t touch W]) k i -> touches tr k i \/ i = length tr /\ exists w, (k, w) ∈ touch.
  Proof.
    intros [?|(j&x&w&->&Hj&Hk)]%touches_inv; [by left|].
    apply list_lookup_singleton_Some in Hj as [-> <-]. right. split; [lia|]. by exists w.
  Qed.
  Lemma writes_snoc tr t touch W k i :
    writes (tr ++ [Access t touch W]) k i -> writes tr k i \/ i = length tr /\ (k, TWrite) ∈ touch.
  Proof.
    intros [?|(j&x&->&Hj&Hk)]%writes_inv; [by left|].
    apply list_lookup_singleton_Some in Hj as [-> <-]. right. split; [lia|]. done.
  Qed.

  (** [hs'] are the handles after the access: one of them may be marked as used. *)
  Lemma ri_touch s t touch hs' : RInv s ->
    (forall k, (k, TWrite) ∉ touch) ->
    (forall k w, (k, w) ∈ touch -> k < st_next (r_st s) /\ forall i, writes (r_trace s) k i -> i ∈ seen s t) ->
    let s' := set_hands (add_access s t touch) hs' in
    (forall h x', hs' !! h = Some x' -> exists x, r_hands s !! h = Some x /\ h_ptr x' = h_ptr x
       /\ h_made x' = h_made x /\ closed (r_trace s') (h_used x')) ->
    (forall h x, r_hands s !! h = Some x -> exists x', hs' !! h = Some x' /\ h_ptr x' = h_ptr x
       /\ h_made x' = h_made x /\ h_used x ⊆ h_used x') ->
    (forall p w, live (r_st s) p -> (p_ser p, w) ∈ touch -> cov s' (length (r_trace s)) p) ->
    RInv s'.
  Proof.
    intros HI Hnw Hk s' Hh1 Hh2 Hc.
    assert (forall k i, writes (r_trace s') k i -> writes (r_trace s) k i) as Hw.
    { intros k i [?|[_ []%Hnw]]%writes_snoc. done. }
    assert (forall u, seen s u ⊆ seen s' u) as Hs.
    { intros u. unfold s'. change (seen (set_hands ?a _) u) with (seen a u). rewrite seen_add.
      destruct (decide (u = t)) as [->|]; set_solver. }
    assert (forall l, lview s l ⊆ lview s' l) as Hlv.
    { intros l. unfold lview. simpl. destruct (st_locks (r_st s) !! l); [apply Hs|done]. }
    constructor.
    - pose proof (wf_add s t touch (ri_wf _ HI)) as H1. constructor; try apply H1.
      + intros h x' Hx. destruct (Hh1 h x' Hx) as (x&Hx0&_&->&_). by eapply (wf_made _ H1).
      + intros h x' Hx. by destruct (Hh1 h x' Hx) as (x&Hx0&_&_&?).
    - intros l u Hl. etrans; [by apply (ri_lock _ HI)|apply Hs].
    - intros k i [?|[-> [w Hw']]]%touches_snoc; [by eapply (ri_fresh _ HI)|]. by eapply Hk.
    - intros p Hl. destruct (ri_written _ HI p Hl) as [i Hi]. exists i. by apply writes_app.
    - intros h x' i Hx Hi%Hw. destruct (Hh1 h x' Hx) as (x&Hx0&Hp&->&_).
      eapply (ri_khand _ HI); [done|]. by rewrite <- Hp.
    - intros p u i Hl Hr Hi%Hw. apply Hs. by eapply (ri_kthr _ HI).
    - intros p d i Hp Hd Hi%Hw. apply Hlv. by eapply (ri_ktab _ HI).
    - intros q d k i x j Hd Hk' Hx Ht Hj%Hw. simpl in Hx.
      apply lookup_app_Some in Hx as [Hx|[_ Hx]]; [by eapply (ri_kkid _ HI)|].
      apply list_lookup_singleton_Some in Hx as [_ <-]. by apply Hnw in Ht.
    - intros p u e Hl Ho He. destruct (ri_own _ HI p u e Hl Ho He) as [?|(d&?&?&?)]; [left; by apply Hs|].
      right. exists d. split; [done|]. split; [done|]. by apply Hlv.
    - intros p i Hl [Hi|[-> [w Hw']]]%touches_snoc; [|by eapply Hc].
      eapply (cov_mono s); try done; [|by eexists|by apply (ri_cov _ HI)].
      intros h x Hx. destruct (Hh2 h x Hx) as (x'&Hx'&?&E1&E2). exists x'.
      split; [done|]. split; [done|]. split; [by rewrite E1|done].
    - apply trace_ok_snoc; [apply HI|]. intros k w Hin. split.
      + intros ->. by apply Hnw in Hin.
      + by apply (Hk k w).
    - apply HI.
  Qed.

  (** The same without handles. *)
  Lemma ri_touch' s t touch : RInv s ->
    (forall k, (k, TWrite) ∉ touch) ->
    (forall k w, (k, w) ∈ touch -> k < st_next (r_st s) /\ forall i, writes (r_trace s) k i -> i ∈ seen s t) ->
    (forall p w, live (r_st s) p -> (p_ser p, w) ∈ touch ->
       resp (r_st s) p t \/ exists d, p ∈ st_table (r_st s) /\ data (r_st s) p = Some d
                                    /\ st_locks (r_st s) !! lock_of E d = Some t) ->
    RInv (add_access s t touch).
  Proof.
    intros HI Hnw Hk Hr.
    assert (length (r_trace s) ∈ seen (add_access s t touch) t) as Hin.
    { rewrite seen_add, decide_True by done. set_solver. }
    assert (add_access s t touch = set_hands (add_access s t touch) (r_hands s)) as -> by done.
    apply ri_touch; try done.
    - intros h x Hx. exists x. split; [done|]. split; [done|]. split; [done|].
      eapply closed_app, wf_used; [apply HI|done].
    - intros h x Hx. by exists x.
    - intros p w Hl Hp. destruct (Hr p w Hl Hp) as [?|(d&Hp'&Hd&Hlk)].
      + by apply (cov_thread _ _ _ t).
      + eapply cov_table; [done|done|]. unfold lview. simpl. by rewrite Hlk.
  Qed.

  (** Publishing in the count. *)
  Lemma ri_publish s t k : RInv s -> k < st_next (r_st s) ->
    (forall p u, live (r_st s) p -> p_ser p = k -> own (r_st s) p u ->
       u = t \/ exists d, p ∈ st_table (r_st s) /\ data (r_st s) p = Some d
                        /\ st_locks (r_st s) !! lock_of E d = Some t) ->
    RInv (set_countv s k (seen s t ∪ countv s k)).
  Proof.
    intros HI Hk Ho. set (s' := set_countv _ _ _).
    constructor; try apply HI.
    - apply wf_set_countv; [apply HI|]. apply closed_union; apply HI.
    - intros p u e Hl Hu. unfold s' at 1. rewrite countv_set_countv.
      destruct (decide (p_ser p = k)) as [He|]; [|by apply (ri_own _ HI)].
      rewrite elem_of_union. intros [Hin|Hin].
      + destruct (Ho p u Hl He Hu) as [->|(d&Hp&Hd&Hlk)]; [by left|].
        right. exists d. split; [done|]. split; [done|]. unfold lview. simpl. by rewrite Hlk.
      + rewrite <- He in Hin. by apply (ri_own _ HI).
    - intros p i Hl Ht. eapply (cov_mono s); try done; [| |by exists []; rewrite app_nil_r|by apply (ri_cov _ HI)].
      + intros k'. unfold s'. rewrite countv_set_countv. destruct (decide (k' = k)) as [->|]; set_solver.
      + intros h x Hx. by exists x.
    - intros k' e. unfold s'. rewrite countv_set_countv. destruct (decide (k' = k)) as [->|]; [done|].
      apply (ri_cfresh _ HI).
  Qed.

  Lemma ri_rmw s t k o : RInv s ->
    k < st_next (r_st s) -> (forall i, writes (r_trace s) k i -> i ∈ seen s t) ->
    (forall p, live (r_st s) p -> p_ser p = k ->
       resp (r_st s) p t \/ exists d, p ∈ st_table (r_st s) /\ data (r_st s) p = Some d
                                    /\ st_locks (r_st s) !! lock_of E d = Some t) ->
    (forall p u, live (r_st s) p -> p_ser p = k -> own (r_st s) p u ->
       u = t \/ exists d, p ∈ st_table (r_st s) /\ data (r_st s) p = Some d
                        /\ st_locks (r_st s) !! lock_of E d = Some t) ->
    RInv (apply s t (MRmw k o)).
  Proof.
    intros HI Hk Hw Hr Ho. cbn [apply].
    set (s1 := if acquires o then _ else _).
    assert (RInv s1 /\ r_st s1 = r_st s /\ r_trace s1 = r_trace s /\ seen s t ⊆ seen s1 t) as (H1&Hst&Htr&Hss).
    { subst s1. destruct (acquires o); [|done]. split; [|split; [done|split; [done|]]].
      - apply ri_learn; [done|]. apply HI.
      - rewrite seen_set_seen, decide_True by done. set_solver. }
    assert (RInv (add_access s1 t [(k, TAtomic)])) as H2.
    { apply ri_touch'; [done| | |].
      - intros k' ?%elem_of_list_singleton. done.
      - intros k' w [= -> ->]%elem_of_list_singleton. rewrite Hst, Htr. split; [done|].
        intros i Hi. apply Hss. by apply Hw.
      - intros p w Hl [= He ->]%elem_of_list_singleton. rewrite Hst in *. by apply Hr. }
    set (s2 := add_access s1 t [(k, TAtomic)]) in *.
    destruct (releases o); [|done]. apply ri_publish; [done| |]; unfold s2; simpl; by rewrite Hst.
  Qed.

  (** ** Changes of the state of ArcModel *)

  (** Nothing relevant changes. *)
  Lemma ri_same s st' : RInv s ->
    st_locks st' = st_locks (r_st s) -> st_table st' = st_table (r_st s) ->
    st_gone st' = st_gone (r_st s) -> st_zombies st' = st_zombies (r_st s) ->
    st_next st' = st_next (r_st s) -> (forall t, get_pc st' t = get_pc (r_st s) t) ->
    (forall q, data st' q = data (r_st s) q) -> (forall q, live st' q <-> live (r_st s) q) ->
    RInv (set_st s st').
  Proof.
    intros HI H1 H2 H3 H4 H5 H6 H7 H8. set (s' := set_st s st').
    assert (forall l, lview s' l = lview s l) as Hlv.
    { intros l. unfold lview. simpl. by rewrite H1. }
    assert (forall p t, own st' p t <-> own (r_st s) p t) as Hown.
    { intros p t. unfold own. by rewrite H6. }
    assert (forall p t, resp st' p t <-> resp (r_st s) p t) as Hresp.
    { intros p t. unfold resp. by rewrite H6, Hown. }
    constructor; simpl; rewrite ?H1, ?H2, ?H5; try apply HI.
    - apply wf_set_st, HI.
    - intros p Hl%H8. by apply (ri_written _ HI).
    - intros p t i Hl%H8 Hr%Hresp. by apply (ri_kthr _ HI).
    - intros p d i. rewrite H7, Hlv. apply (ri_ktab _ HI).
    - intros q d k i x j. rewrite H7. apply (ri_kkid _ HI).
    - intros p t e Hl%H8 Ho%Hown He. destruct (ri_own _ HI p t e Hl Ho He) as [?|(d&?&?&?)]; [by left|].
      right. exists d. by rewrite H7, Hlv.
    - intros p i Hl%H8 Ht. eapply (cov_mono s); try done; [|intros; by rewrite Hlv| |by apply (ri_cov _ HI)].
      + intros h x Hx. by exists x.
      + exists []. by rewrite app_nil_r.
  Qed.

  (** A thread goes on. *)
  Lemma ri_set_pc s t x : RInv s ->
    let s' := set_st s (set_pc (r_st s) t x) in
    (forall p e, live (r_st s) p -> resp (r_st s) p t -> e ∈ seen s t -> cov s' e p) ->
    (forall p i, live (r_st s) p -> resp (r_st s') p t -> writes (r_trace s) (p_ser p) i -> i ∈ seen s t) ->
    (forall p e, live (r_st s) p -> own (r_st s') p t -> e ∈ countv s (p_ser p) ->
       e ∈ seen s t \/ exists d, p ∈ st_table (r_st s) /\ data (r_st s) p = Some d /\ e ∈ lview s (lock_of E d)) ->
    RInv s'.
  Proof.
    intros HI s' H1 H2 H3.
    assert (forall u, u <> t -> get_pc (r_st s') u = get_pc (r_st s) u) as Hne.
    { intros u Hu. unfold s'. simpl. by rewrite get_pc_set, decide_False. }
    assert (forall p u, u <> t -> resp (r_st s') p u <-> resp (r_st s) p u) as Hresp.
    { intros p u Hu. unfold resp, own. by rewrite Hne. }
    assert (forall p u, u <> t -> own (r_st s') p u <-> own (r_st s) p u) as Hown.
    { intros p u Hu. unfold own. by rewrite Hne. }
    constructor; try apply HI.
    - apply wf_set_st, HI.
    - intros p u i Hl Hr Hw. destruct (decide (u = t)) as [->|Hu]; [by eapply H2|].
      apply Hresp in Hr; [|done]. by eapply (ri_kthr _ HI).
    - intros p u e Hl Hr He. destruct (decide (u = t)) as [->|Hu]; [by apply H3|].
      apply Hown in Hr; [|done]. by apply (ri_own _ HI).
    - intros p i Hl Ht. eapply (cov_pres s); try done; [| | | | |by apply (ri_cov _ HI)].
      + intros h y Hy _ Hi. by eapply cov_hand.
      + intros p0 u Hl0 Hr Hi. destruct (decide (u = t)) as [->|Hu]; [by apply H1|].
        apply (cov_thread _ _ _ u); [by apply Hresp|done].
      + intros p0 d _ Hp Hd Hi. by eapply cov_table.
      + exists []. by rewrite app_nil_r.
      + intros. by left.
  Qed.

  (** The common case: the thread keeps what it has. *)
  Lemma ri_goto s t x : RInv s ->
    let st' := set_pc (r_st s) t x in
    (forall p, live (r_st s) p -> resp (r_st s) p t <-> resp st' p t) ->
    (forall p, live (r_st s) p -> own st' p t -> own (r_st s) p t) ->
    RInv (set_st s st').
  Proof.
    intros HI st' H1 H2. apply ri_set_pc; [done|..].
    - intros p e Hl Hr He. apply (cov_thread _ _ _ t); [by apply H1|done].
    - intros p i Hl Hr%H1; [|done]. by apply (ri_kthr _ HI).
    - intros p e Hl Hr. apply (ri_own _ HI); [done|by apply H2].
  Qed.

  (** An entry is inserted into the table, or taken out, by the holder of the lock. *)
  Lemma ri_insert s t q d : RInv s ->
    data (r_st s) q = Some d -> resp (r_st s) q t -> st_locks (r_st s) !! lock_of E d = Some t ->
    RInv (set_st s (set_table (r_st s) (q :: st_table (r_st s)))).
  Proof.
    intros HI Hd Hr Hlk. set (s' := set_st _ _).
    constructor; try apply HI.
    - apply wf_set_st, HI.
    - intros p d' i [->|Hp]%elem_of_cons Hd' Hw; [|by apply (ri_ktab _ HI p)].
      simpl in Hd'. change (data (set_table ?a _) ?b) with (data a b) in Hd'. simplify_eq.
      unfold lview. simpl. rewrite Hlk. eapply (ri_kthr _ HI); [by eapply data_live|done|done].
    - intros p u e Hl Ho He. destruct (ri_own _ HI p u e Hl Ho He) as [?|(d'&?&?&?)]; [by left|].
      right. exists d'. split; [by right|done].
    - intros p i Hl Ht. eapply (cov_pres s); try done; [| | | | |by apply (ri_cov _ HI)].
      + intros h y Hy _ Hi. by eapply cov_hand.
      + intros p0 u Hl0 Hr' Hi. by apply (cov_thread _ _ _ u).
      + intros p0 d' _ Hp Hd' Hi. eapply cov_table; [by right|done|done].
      + exists []. by rewrite app_nil_r.
      + intros. by left.
  Qed.
  Lemma ri_delete s t q d : RInv s ->
    data (r_st s) q = Some d -> resp (r_st s) q t -> (forall u, own (r_st s) q u -> u = t) ->
    st_locks (r_st s) !! lock_of E d = Some t ->
    RInv (set_st s (set_table (r_st s) (remove_entry q (st_table (r_st s))))).
  Proof.
    intros HI Hd Hr Ho Hlk. set (s' := set_st _ _).
    assert (forall p, p ∈ remove_entry q (st_table (r_st s)) <-> p <> q /\ p ∈ st_table (r_st s)) as Hin.
    { intros p. unfold remove_entry. by rewrite elem_of_list_filter. }
    constructor; try apply HI.
    - apply wf_set_st, HI.
    - intros p d' i [_ Hp]%Hin Hd' Hw. by apply (ri_ktab _ HI p).
    - intros p u e Hl Ho' He. destruct (ri_own _ HI p u e Hl Ho' He) as [?|(d'&?&Hd'&He')]; [by left|].
      destruct (decide (p = q)) as [->|Hpq].
      + left. simplify_eq. rewrite (Ho u Ho'). unfold lview in He'. by rewrite Hlk in He'.
      + right. exists d'. split; [by apply Hin|done].
    - intros p i Hl Ht. eapply (cov_pres s); try done; [| | | | |by apply (ri_cov _ HI)].
      + intros h y Hy _ Hi. by eapply cov_hand.
      + intros p0 u Hl0 Hr' Hi. by apply (cov_thread _ _ _ u).
      + intros p0 d' _ Hp Hd' Hi. destruct (decide (p0 = q)) as [->|Hpq].
        * simplify_eq. unfold lview in Hi. rewrite Hlk in Hi. by apply (cov_thread _ _ _ t).
        * eapply cov_table; [by apply Hin|done|done].
      + exists []. by rewrite app_nil_r.
      + intros. by left.
  Qed.

  (** ** Creating an object *)
  Lemma ri_create s t a v x : RInv s ->
    let q := Ptr a (st_next (r_st s)) in
    let st' := set_pc (alloc (r_st s) a v) t x in
    st_heap (r_st s) !! a = None ->
    (forall p, live (r_st s) p -> p_ser p < st_next (r_st s)) ->
    (forall p, p ∈ st_table (r_st s) -> live (r_st s) p) ->
    (forall h y, r_hands s !! h = Some y -> live (r_st s) (h_ptr y)) ->
    (forall p u, 0 < pc_handles E p (get_pc (r_st s) u) -> live (r_st s) p) ->
    (forall p u, 0 < pc_rc p (get_pc (r_st s) u) -> live (r_st s) p) ->
    (forall u, pc_oc a (get_pc (r_st s) u) = 0) ->
    (forall p d, data (r_st s) p = Some d -> forall k, k ∈ te_kids E d -> live (r_st s) k) ->
    (forall k, k ∈ te_kids E v -> resp (r_st s) k t /\ live (r_st s) k) ->
    (forall p, live (r_st s) p -> resp (r_st s) p t -> resp st' p t \/ p ∈ te_kids E v) ->
    (forall p, live (r_st s) p -> resp st' p t -> resp (r_st s) p t) ->
    (forall p, live (r_st s) p -> own st' p t -> own (r_st s) p t) ->
    resp st' q t ->
    RInv (set_st (add_access s t [(st_next (r_st s), TWrite)]) st').
  Proof.
    intros HI q st' Ha Hser Htab Hhand Hph Hpr Hpo Hkid Hkv Hr1 Hr2 Ho2 Hq.
    set (n := st_next (r_st s)) in *.
    set (s' := set_st _ _).
    assert (r_trace s' = r_trace s ++ [Access t [(n, TWrite)] (seen s t)]) as Htr by done.
    assert (forall p, deref st' p = if decide (p = q) then Some (Cell n 1%N (Some v)) else deref (r_st s) p) as Hder.
    { intros p. unfold deref. simpl. destruct (decide (p = q)) as [->|Hne]; simpl.
      - by rewrite lookup_insert, Nat.eqb_refl.
      - destruct (decide (a = p_addr p)) as [He|].
        + rewrite <- He, lookup_insert, Ha. simpl. destruct (Nat.eqb_spec (st_next (r_st s)) (p_ser p)) as [Hs0|Hs0]; [|done].
          destruct Hne. destruct p. unfold q, n. simpl in *. by subst.
        + by rewrite lookup_insert_ne. }
    assert (forall p, live st' p -> p = q \/ live (r_st s) p) as Hlive.
    { intros p [c Hc]. rewrite Hder in Hc. destruct (decide (p = q)); [by left|right; by exists c]. }
    assert (~ live (r_st s) q) as Hnq.
    { intros ?%Hser. simpl in *. lia. }
    assert (forall p, live (r_st s) p -> p <> q) as Hpq.
    { intros p Hp ->. done. }
    assert (forall p, live (r_st s) p -> live st' p) as Hlive'.
    { intros p Hp. pose proof (Hpq p Hp). destruct Hp as [c Hc]. exists c. by rewrite Hder, decide_False. }
    assert (forall p d, data st' p = Some d -> p = q /\ d = v \/ data (r_st s) p = Some d) as Hdata.
    { intros p d Hd. unfold data in Hd. rewrite Hder in Hd. destruct (decide (p = q)); [left|by right].
      simpl in Hd. by simplify_eq. }
    assert (forall p d, data (r_st s) p = Some d -> data st' p = Some d) as Hdata'.
    { intros p d Hd. unfold data. rewrite Hder. pose proof (Hpq p (data_live _ _ _ Hd)).
      by rewrite decide_False. }
    assert (forall k i, writes (r_trace s') k i -> writes (r_trace s) k i \/ i = length (r_trace s) /\ k = n) as Hw.
    { intros k i [?|[? Hi]]%writes_snoc; [by left|]. apply elem_of_list_singleton in Hi as [= ->]. by right. }
    assert (forall p i, live (r_st s) p -> writes (r_trace s') (p_ser p) i -> writes (r_trace s) (p_ser p) i) as Hwl.
    { intros p i Hl [?|[_ He]]%Hw; [done|]. pose proof (Hser p Hl). lia. }
    assert (forall i, ~ writes (r_trace s) n i) as Hwn.
    { intros i Hi%writes_touches. pose proof (ri_fresh _ HI _ _ Hi). unfold n in *. lia. }
    assert (forall i, ~ touches (r_trace s) n i) as Htn.
    { intros i Hi. pose proof (ri_fresh _ HI _ _ Hi). unfold n in *. lia. }
    assert (forall u, u <> t -> get_pc st' u = get_pc (r_st s) u) as Hpc.
    { intros u Hu. unfold st'. by rewrite get_pc_set, decide_False. }
    assert (forall u, u <> t -> ~ resp (r_st s) q u) as Hqu.
    { intros u Hu [Hh|[Hh|Hh]].
      - apply Hnq. by eapply Hph.
      - apply Hnq. by eapply Hpr.
      - simpl in Hh. rewrite Hpo in Hh. lia. }
    assert (forall p u, u <> t -> resp st' p u <-> resp (r_st s) p u) as Hresp.
    { intros p u Hu. unfold resp, own. by rewrite Hpc. }
    assert (forall p u, u <> t -> own st' p u <-> own (r_st s) p u) as Hown.
    { intros p u Hu. unfold own. by rewrite Hpc. }
    assert (forall u, seen s' u = if decide (u = t) then {[length (r_trace s)]} ∪ seen s t else seen s u) as Hseen.
    { intros u. apply (seen_add s t). }
    assert (forall u, seen s u ⊆ seen s' u) as Hs.
    { intros u. rewrite Hseen. destruct (decide (u = t)) as [->|]; set_solver. }
    assert (forall l, lview s l ⊆ lview s' l) as Hlv.
    { intros l. unfold lview. simpl. destruct (st_locks (r_st s) !! l); [apply Hs|done]. }
    constructor.
    - apply wf_set_st, wf_add, HI.
    - intros l u Hl. etrans; [by apply (ri_lock _ HI)|apply Hs].
    - intros k i [Hi|[_ [w Hk]]]%touches_snoc.
      + pose proof (ri_fresh _ HI k i Hi). simpl. unfold n in *. lia.
      + apply elem_of_list_singleton in Hk as [= -> _]. simpl. unfold n. lia.
    - intros p [->|Hl]%Hlive.
      + exists (length (r_trace s)). eexists. split; [by apply list_lookup_middle|]. by left.
      + destruct (ri_written _ HI p Hl) as [i Hi]. exists i. by apply writes_app.
    - intros h y i Hy Hi. apply Hwl in Hi; [|by eapply Hhand]. by eapply (ri_khand _ HI).
    - intros p u i Hl Hr Hi. destruct (Hlive p Hl) as [->|Hl'].
      + destruct (decide (u = t)) as [->|Hu].
        * apply Hw in Hi as [Hi|[-> _]]; [by apply Hwn in Hi|]. rewrite Hseen, decide_True by done. set_solver.
        * apply Hresp in Hr; [|done]. by apply Hqu in Hr.
      + apply Hwl in Hi; [|done]. apply Hs. destruct (decide (u = t)) as [->|Hu].
        * apply (ri_kthr _ HI p); [done| |done]. by apply Hr2.
        * apply Hresp in Hr; [|done]. by apply (ri_kthr _ HI p).
    - intros p d i Hp Hd Hi. pose proof (Htab p Hp) as Hl. apply Hwl in Hi; [|done].
      apply Hlv. apply (ri_ktab _ HI p); [done| |done].
      apply Hdata in Hd as [[-> _]|?]; [|done]. by destruct Hnq.
    - intros q0 d k i y j Hd Hk Hy Hin Hj. apply Hdata in Hd as [[-> ->]|Hd].
      + destruct (Hkv k Hk) as [Hr Hl]. apply Hwl in Hj; [|done].
        assert (i = length (r_trace s)) as ->.
        { assert (writes (r_trace s') n i) as [Hi|[-> _]]%Hw by (by exists y); [|done]. by apply Hwn in Hi. }
        rewrite Htr in Hy. apply lookup_app_Some in Hy as [Hy|[_ Hy]].
        { apply lookup_lt_Some in Hy. lia. }
        apply list_lookup_singleton_Some in Hy as [_ <-]. simpl. by eapply (ri_kthr _ HI).
      + pose proof (Hkid _ _ Hd k Hk) as Hlk. apply Hwl in Hj; [|done].
        apply lookup_app_Some in Hy as [Hy|[_ Hy]]; [by eapply (ri_kkid _ HI)|].
        apply list_lookup_singleton_Some in Hy as [_ <-]. simpl in Hin.
        apply elem_of_list_singleton in Hin as [= He]. pose proof (Hser q0 (data_live _ _ _ Hd)). lia.
    - intros p u e Hl Ho He. destruct (Hlive p Hl) as [->|Hl'].
      + apply (ri_cfresh _ HI) in He. simpl in He. unfold n in *. lia.
      + assert (own (r_st s) p u) as Ho'.
        { destruct (decide (u = t)) as [->|]; [by apply Ho2|by apply Hown]. }
        destruct (ri_own _ HI p u e Hl' Ho' He) as [?|(d&?&?&?)]; [left; by apply Hs|].
        right. exists d. split; [done|]. split; [by apply Hdata'|by apply Hlv].
    - intros p i Hl Hi. destruct (Hlive p Hl) as [->|Hl'].
      + apply touches_snoc in Hi as [Hi|[-> _]]; [by apply Htn in Hi|].
        apply (cov_thread _ _ _ t); [done|]. rewrite Hseen, decide_True by done. set_solver.
      + apply touches_snoc in Hi as [Hi|[_ [w Hi]]].
        2:{ apply elem_of_list_singleton in Hi as [= He _]. pose proof (Hser p Hl'). lia. }
        eapply (cov_pres s); try done; [| | | | |by apply (ri_cov _ HI)].
        * intros h y Hy _ He. by eapply cov_hand.
        * intros p0 u Hl0 Hr He. destruct (Hlive p0 Hl0) as [->|Hl0'].
          { destruct (decide (u = t)) as [->|Hu]; [|by apply Hqu in Hr].
            apply (cov_thread _ _ _ t); [done|by apply Hs]. }
          destruct (decide (u = t)) as [->|Hu].
          2:{ apply (cov_thread _ _ _ u); [by apply Hresp|by apply Hs]. }
          destruct (Hr1 p0 Hl0' Hr) as [?|Hk]; [apply (cov_thread _ _ _ t); [done|by apply Hs]|].
          apply (cov_kid _ _ _ q v); [|done|].
          { simpl. unfold data. by rewrite Hder, decide_True. }
          eapply (cov_past _ _ _ (length (r_trace s))); [by apply list_lookup_middle|by left|done].
        * intros p0 d _ Hp Hd He. eapply cov_table; [done|by apply Hdata'|by apply Hlv].
        * by eexists.
        * intros. left. by apply Hdata'.
    - apply trace_ok_snoc; [apply HI|]. intros k w [= -> ->]%elem_of_list_singleton. split.
      + intros _ i Hi. by apply Htn in Hi.
      + intros i Hi. by apply Hwn in Hi.
    - intros k e He. apply (ri_cfresh _ HI) in He. simpl. unfold n in *. lia.
  Qed.
End inv.

(** The inductive invariant of the ArcIntern model. *)
From stdpp Require Import gmap list numbers.
From Verif Require Import Base ArcModel ArcSpec.
Require Import ZifyBool ZifyNat ZifyN.

Section inv.
  Context {V : Type} (E : tyenv V).
  Implicit Types (st : state V) (v d : V) (p q : ptr).

  Notation hc := (handles_to E).

  (** Transient increments made by [new] on a dying entry. *)
  Definition pc_tc p (x : pc V) : nat :=
    match x with PInc _ _ _ q old => if (old =? 0)%N then is_p p q else 0 | _ => 0 end.
  Definition tc st p : nat := msum (pc_tc p) (st_threads st).

  (** Pending removals. *)
  Definition item_rc p (it : item) : nat := match it with IRemove q => is_p p q | _ => 0 end.
  Fixpoint work_rc p (w : list item) : nat :=
    match w with [] => 0 | it :: w' => item_rc p it + work_rc p w' end.
  Definition pc_rc p (x : pc V) : nat :=
    match x with
    | PRem _ q w _ => is_p p q + work_rc p w
    | PWork w _ => work_rc p w
    | _ => 0
    end.
  Definition rc st p : nat := occ p (st_zombies st) + msum (pc_rc p) (st_threads st).

  (** Owners of the allocation at an address. *)
  Definition at_addr (a : nat) q : nat := b2n (p_addr q =? a).
  Definition item_oc a (it : item) : nat := match it with IFree q => at_addr a q | _ => 0 end.
  Fixpoint work_oc a (w : list item) : nat :=
    match w with [] => 0 | it :: w' => item_oc a it + work_oc a w' end.
  Definition box_oc a (b : option ptr) : nat :=
    match b with Some q => at_addr a q | None => 0 end.
  Definition pc_oc a (x : pc V) : nat :=
    match x with
    | PLookup _ _ b | PHit _ _ b _ | PInc _ _ b _ _ | PUndo _ _ b _ | PAlloc _ _ b => box_oc a b
    | PEntry _ _ q | PVac _ _ q | POcc _ _ q => at_addr a q
    | PRem _ _ w _ | PWork w _ => work_oc a w
    | _ => 0
    end.
  Definition tab_oc a (tb : list ptr) : nat := occ a (p_addr <$> tb).
  Definition oc st a : nat := tab_oc a (st_table st) + msum (pc_oc a) (st_threads st).

  (** The shard lock a thread holds. *)
  Definition pc_lock (x : pc V) : option (nat * nat) :=
    match x with
    | PHit _ v _ _ | PInc _ v _ _ _ | PUndo _ v _ _
    | PVac _ v _ | POcc _ v _ | PIns _ v _ => Some (lock_of E v)
    | PRem l _ _ _ => Some l
    | _ => None
    end.

  Definition box_ok st q v : Prop := deref st q = Some (Cell (p_ser q) 1 (Some v)).
  Definition arg_ok st (k : kind) v (b : option ptr) : Prop :=
    match k with
    | KSized => b = None
    | KDst => te_kids E v = [] /\ forall q, b = Some q -> box_ok st q v
    end.
  Definition hit_ok st v p : Prop :=
    p ∈ st_table st /\ exists d, data st p = Some d /\ te_eq E v d = true.
  Definition ret_ok st (r : option (V * ptr)) : Prop :=
    forall v p, r = Some (v, p) -> exists d, data st p = Some d /\ te_eq E v d = true.
  Definition free_ok st (w : list item) : Prop :=
    forall q, IFree q ∈ w -> exists c, deref st q = Some c /\
      match c_data c with None => True | Some v => te_kids E v = [] end.
  Definition nomatch st v : Prop :=
    forall p d, p ∈ st_table st -> data st p = Some d -> te_eq E v d = false.

  Definition pc_ok st (x : pc V) : Prop :=
    match x with
    | PLookup k v b | PUndo k v b _ | PAlloc k v b => arg_ok st k v b
    | PHit k v b p => arg_ok st k v b /\ hit_ok st v p
    | PInc k v b p old => arg_ok st k v b /\ hit_ok st v p /\ (old = 0%N -> hc st p = 0)
    | PEntry k v q | POcc k v q => box_ok st q v /\ (k = KDst -> te_kids E v = [])
    | PVac k v q => box_ok st q v /\ (k = KDst -> te_kids E v = []) /\ nomatch st v
    | PIns k v q => q ∈ st_table st /\ data st q = Some v
    | PRem l q w r => q ∈ st_table st /\ (exists d, data st q = Some d /\ lock_of E d = l)
                      /\ free_ok st w /\ ret_ok st r
    | PWork w r => free_ok st w /\ ret_ok st r
    | _ => True
    end.

  Record Inv st : Prop := MkInv {
    inv_live : forall p, p ∈ st_table st -> exists d, data st p = Some d;
    inv_own : forall a, oc st a = match st_heap st !! a with Some _ => 1 | None => 0 end;
    inv_uniq : forall p q u v, p ∈ st_table st -> q ∈ st_table st ->
      data st p = Some u -> data st q = Some v -> te_eq E u v = true -> p = q;
    inv_cnt : forall p c, p ∈ st_table st -> deref st p = Some c ->
      c_count c = (N.of_nat (hc st p + tc st p) mod te_mod E)%N;
    inv_hand : forall p, 0 < hc st p -> p ∈ st_table st;
    inv_rem_in : forall p, 0 < rc st p -> p ∈ st_table st;
    inv_rem : forall p, p ∈ st_table st -> rc st p = if hc st p =? 0 then 1 else 0;
    inv_lock : forall l t, st_locks st !! l = Some t <-> pc_lock (get_pc st t) = Some l;
    inv_pc : forall t, pc_ok st (get_pc st t);
    inv_ser : forall a c, st_heap st !! a = Some c -> c_ser c < st_next st;
    inv_acyc : forall a c v k, st_heap st !! a = Some c -> c_data c = Some v ->
      k ∈ te_kids E v -> p_ser k < c_ser c;
    inv_log : forall t v p, EvNew t v p ∈ st_log st -> p_ser p < st_next st /\
      forall d, data st p = Some d -> te_eq E v d = true;
  }.

  (** ** Elementary facts *)

  Lemma is_p_self p : is_p p p = 1.
  Proof. unfold is_p. by rewrite bool_decide_eq_true_2. Qed.
  Lemma is_p_ne p q : q <> p -> is_p p q = 0.
  Proof. intros. unfold is_p. by rewrite bool_decide_eq_false_2. Qed.
  Lemma at_addr_self q : at_addr (p_addr q) q = 1.
  Proof. unfold at_addr. by rewrite Nat.eqb_refl. Qed.
  Lemma at_addr_ne a q : p_addr q <> a -> at_addr a q = 0.
  Proof. intros. unfold at_addr. by rewrite (proj2 (Nat.eqb_neq _ _)). Qed.

  Lemma work_handles_app p w1 w2 :
    work_handles p (w1 ++ w2) = work_handles p w1 + work_handles p w2.
  Proof. induction w1; simpl; lia. Qed.
  Lemma work_rc_app p w1 w2 : work_rc p (w1 ++ w2) = work_rc p w1 + work_rc p w2.
  Proof. induction w1; simpl; lia. Qed.
  Lemma work_oc_app a w1 w2 : work_oc a (w1 ++ w2) = work_oc a w1 + work_oc a w2.
  Proof. induction w1; simpl; lia. Qed.
  Lemma work_handles_drops p l : work_handles p (IDrop <$> l) = occ p l.
  Proof.
    induction l as [|x l IH]; [done|]. simpl. rewrite <- IH. unfold is_p.
    case_bool_decide; destruct (decide (x = p)); done.
  Qed.
  Lemma work_rc_drops p (l : list ptr) : work_rc p (IDrop <$> l) = 0.
  Proof. induction l as [|x l IH]; [done|]. simpl. done. Qed.
  Lemma work_oc_drops a (l : list ptr) : work_oc a (IDrop <$> l) = 0.
  Proof. induction l as [|x l IH]; [done|]. simpl. done. Qed.

  Lemma get_pc_set st t x t' :
    get_pc (set_pc st t x) t' = if decide (t' = t) then x else get_pc st t'.
  Proof.
    unfold get_pc. simpl. destruct (decide (t' = t)) as [->|].
    - by rewrite lookup_insert.
    - by rewrite lookup_insert_ne.
  Qed.

  (** Sums over threads after updating one thread. *)
  Lemma tsum_set (f : pc V -> nat) st t x : f PFree = 0 ->
    msum f (<[t:=x]> (st_threads st)) + f (get_pc st t) = f x + msum f (st_threads st).
  Proof. intros. unfold get_pc. by apply msum_insert_default. Qed.

  Lemma tsum_ge (f : pc V -> nat) st t : f PFree = 0 -> f (get_pc st t) <= msum f (st_threads st).
  Proof.
    intros H0. unfold get_pc. destruct (st_threads st !! t) as [x|] eqn:Ht; simpl; [|lia].
    by eapply msum_ge.
  Qed.

  Lemma tsum_pos (f : pc V -> nat) st : 0 < msum f (st_threads st) -> exists t, 0 < f (get_pc st t).
  Proof.
    intros (t&x&Ht&Hx)%msum_pos. exists t. unfold get_pc. by rewrite Ht.
  Qed.

  Lemma tsum_ge2 (f : pc V -> nat) st t1 t2 : f PFree = 0 -> t1 <> t2 ->
    f (get_pc st t1) + f (get_pc st t2) <= msum f (st_threads st).
  Proof.
    intros H0 Hne. unfold get_pc.
    destruct (st_threads st !! t1) as [x1|] eqn:H1, (st_threads st !! t2) as [x2|] eqn:H2;
      simpl; rewrite ?H0, ?Nat.add_0_r; simpl.
    - by eapply msum_ge2.
    - by eapply msum_ge.
    - by eapply msum_ge.
    - lia.
  Qed.

  Lemma deref_Some st p c :
    deref st p = Some c <-> st_heap st !! p_addr p = Some c /\ c_ser c = p_ser p.
  Proof.
    unfold deref. destruct (st_heap st !! p_addr p) as [c'|]; [|naive_solver].
    destruct (Nat.eqb_spec (c_ser c') (p_ser p)); naive_solver.
  Qed.

  Lemma data_Some st p d :
    data st p = Some d <-> exists c, deref st p = Some c /\ c_data c = Some d.
  Proof. unfold data. destruct (deref st p); naive_solver. Qed.

  Lemma deref_ext st st' p :
    st_heap st' !! p_addr p = st_heap st !! p_addr p -> deref st' p = deref st p.
  Proof. unfold deref. by intros ->. Qed.
  Lemma data_ext st st' p :
    st_heap st' !! p_addr p = st_heap st !! p_addr p -> data st' p = data st p.
  Proof. unfold data. intros ?. by rewrite (deref_ext st st'). Qed.

  Lemma data_set_count st p c n q :
    deref st p = Some c -> data (set_count st p c n) q = data st q.
  Proof.
    intros [Hc Hs]%deref_Some. unfold data, deref. simpl.
    destruct (decide (p_addr p = p_addr q)) as [He|].
    - rewrite <- He, lookup_insert, Hc. simpl. by destruct (c_ser c =? p_ser q).
    - by rewrite lookup_insert_ne.
  Qed.

  Lemma deref_set_count st p c n q :
    deref st p = Some c ->
    deref (set_count st p c n) q =
    (if decide (p_addr q = p_addr p) then
      match deref st q with Some c' => Some (Cell (c_ser c') n (c_data c')) | None => None end
     else deref st q).
  Proof.
    intros [Hc Hs]%deref_Some. unfold deref. simpl.
    destruct (decide (p_addr q = p_addr p)) as [He|].
    - rewrite He, lookup_insert, Hc. simpl. by destruct (c_ser c =? p_ser q).
    - by rewrite lookup_insert_ne.
  Qed.

  (** ** Handle counts after each kind of update *)

  Lemma hc_set_pc st t x p :
    hc (set_pc st t x) p + pc_handles E p (get_pc st t) = hc st p + pc_handles E p x.
  Proof.
    unfold handles_to. simpl. pose proof (tsum_set (pc_handles E p) st t x eq_refl). lia.
  Qed.
  Lemma tc_set_pc st t x p : tc (set_pc st t x) p + pc_tc p (get_pc st t) = tc st p + pc_tc p x.
  Proof. unfold tc. simpl. pose proof (tsum_set (pc_tc p) st t x eq_refl). lia. Qed.
  Lemma rc_set_pc st t x p : rc (set_pc st t x) p + pc_rc p (get_pc st t) = rc st p + pc_rc p x.
  Proof. unfold rc. simpl. pose proof (tsum_set (pc_rc p) st t x eq_refl). lia. Qed.
  Lemma oc_set_pc st t x a : oc (set_pc st t x) a + pc_oc a (get_pc st t) = oc st a + pc_oc a x.
  Proof. unfold oc. simpl. pose proof (tsum_set (pc_oc a) st t x eq_refl). lia. Qed.

  Lemma hc_heap_update st a c c' p :
    st_heap st !! a = Some c ->
    hc (set_heap st (<[a:=c']> (st_heap st))) p + cell_handles E p c
    = hc st p + cell_handles E p c'.
  Proof.
    intros Ha. unfold handles_to. simpl.
    pose proof (msum_insert_Some (cell_handles E p) (st_heap st) a c' c Ha). lia.
  Qed.

  Lemma hc_set_count st p c n q :
    deref st p = Some c -> hc (set_count st p c n) q = hc st q.
  Proof.
    intros [Hc _]%deref_Some.
    pose proof (hc_heap_update st _ c (Cell (c_ser c) n (c_data c)) q Hc).
    change (cell_handles E q (Cell (c_ser c) n (c_data c))) with (cell_handles E q c) in *.
    unfold set_count. lia.
  Qed.

  Lemma hc_ge_kids st a c v k :
    st_heap st !! a = Some c -> c_data c = Some v -> k ∈ te_kids E v -> 0 < hc st k.
  Proof.
    intros Ha Hv Hk. unfold handles_to.
    pose proof (msum_ge (cell_handles E k) _ _ _ Ha) as Hge.
    unfold cell_handles in Hge at 1. rewrite Hv in Hge.
    pose proof (proj2 (occ_pos k (te_kids E v)) Hk). lia.
  Qed.

  Lemma hc_ge_pc st t p : pc_handles E p (get_pc st t) <= hc st p.
  Proof. unfold handles_to. pose proof (tsum_ge (pc_handles E p) st t eq_refl). lia. Qed.

  Lemma hc_ge_pool st p : p ∈ st_pool st -> 0 < hc st p.
  Proof. intros ?%occ_pos. unfold handles_to. lia. Qed.

  Lemma tab_oc_in q tb : q ∈ tb -> 1 <= tab_oc (p_addr q) tb.
  Proof.
    intros Hq. unfold tab_oc. apply occ_pos. apply elem_of_list_fmap. by exists q.
  Qed.

  Lemma tab_oc_2 p q tb : p ∈ tb -> q ∈ tb -> p <> q -> p_addr p = p_addr q ->
    2 <= tab_oc (p_addr p) tb.
  Proof.
    unfold tab_oc. induction tb as [|z tb IH]; intros Hp Hq Hne Heq; [by apply elem_of_nil in Hp|].
    csimpl. apply elem_of_cons in Hp as [->|Hp], Hq as [->|Hq]; [done| | |].
    - rewrite decide_True by done. pose proof (tab_oc_in q tb Hq) as H1. unfold tab_oc in H1.
      rewrite Heq. lia.
    - rewrite decide_True by done. pose proof (tab_oc_in p tb Hp) as H1. unfold tab_oc in H1. lia.
    - pose proof (IH Hp Hq Hne Heq). lia.
  Qed.

  Section from_inv.
    Context st (HI : Inv st).

    Lemma table_ptr_inj p q : p ∈ st_table st -> q ∈ st_table st -> p_addr p = p_addr q -> p = q.
    Proof.
      intros Hp Hq Ha. destruct (decide (p = q)) as [|Hne]; [done|exfalso].
      pose proof (tab_oc_2 p q _ Hp Hq Hne Ha) as H2.
      pose proof (inv_own st HI (p_addr p)) as Ho. unfold oc in Ho.
      destruct (st_heap st !! p_addr p); lia.
    Qed.

    Lemma table_not_box q t : q ∈ st_table st -> pc_oc (p_addr q) (get_pc st t) = 0.
    Proof.
      intros Hq. pose proof (inv_own st HI (p_addr q)) as Ho. unfold oc in Ho.
      pose proof (tab_oc_in q _ Hq). pose proof (tsum_ge (pc_oc (p_addr q)) st t eq_refl).
      destruct (st_heap st !! p_addr q); lia.
    Qed.

    Lemma box_alone a t1 t2 : t1 <> t2 -> 0 < pc_oc a (get_pc st t1) -> pc_oc a (get_pc st t2) = 0.
    Proof.
      intros Hne H1. pose proof (inv_own st HI a) as Ho. unfold oc in Ho.
      pose proof (tsum_ge2 (pc_oc a) st t1 t2 eq_refl Hne).
      destruct (st_heap st !! a); lia.
    Qed.

    Lemma table_deref p : p ∈ st_table st ->
      exists c d, deref st p = Some c /\ c_data c = Some d /\ data st p = Some d.
    Proof.
      intros Hp. destruct (inv_live st HI p Hp) as [d Hd].
      pose proof Hd as (c&Hc&Hcd)%data_Some. eauto.
    Qed.

    Lemma inv_readable : readable st = true.
    Proof.
      unfold readable. apply forallb_forall. intros q Hq%elem_of_list_In.
      by destruct (inv_live st HI q Hq) as [d ->].
    Qed.

    Lemma lock_unique l t1 t2 :
      pc_lock (get_pc st t1) = Some l -> pc_lock (get_pc st t2) = Some l -> t1 = t2.
    Proof.
      intros H1%(inv_lock st HI) H2%(inv_lock st HI). congruence.
    Qed.

    Lemma hand_ser p : 0 < hc st p -> p_ser p < st_next st.
    Proof.
      intros Hp%(inv_hand st HI). destruct (table_deref p Hp) as (c&d&Hc&_).
      apply deref_Some in Hc as [Hc <-]. by eapply inv_ser.
    Qed.
  End from_inv.

  Section lawful.
    Context (HL : coherent E).

    Lemma law_lock u v : te_eq E u v = true -> lock_of E u = lock_of E v.
    Proof.
      intros He. unfold lock_of. by rewrite (coh_hash E HL _ _ He), (coh_ty E HL _ _ He).
    Qed.

    Lemma elem_matches st v q :
      q ∈ matches E st v <-> q ∈ st_table st /\ exists d, data st q = Some d /\ te_eq E v d = true.
    Proof.
      unfold matches. rewrite !elem_of_list_In, filter_In. unfold is_match.
      split.
      - intros [Hq Hm]. split; [done|]. destruct (data st q) as [d|]; [|done].
        exists d. split; [done|]. by apply andb_prop in Hm as [_ ?].
      - intros [Hq (d&Hd&He)]. split; [done|]. rewrite Hd.
        rewrite (coh_hash E HL _ _ He), (coh_ty E HL _ _ He), !Nat.eqb_refl. done.
    Qed.

    Lemma pick_Some i l q : pick i l = Some q -> q ∈ l.
    Proof.
      unfold pick. destruct (nth_error l i) as [x|] eqn:Hn.
      - intros [= <-]. apply nth_error_In in Hn. by apply elem_of_list_In.
      - destruct l; [done|]. intros [= <-]. by left.
    Qed.
    Lemma pick_None i l : pick i l = None -> l = [].
    Proof.
      unfold pick. destruct (nth_error l i) as [x|] eqn:Hn; [done|]. by destruct l.
    Qed.

    Lemma pick_match_hit i st v q : pick i (matches E st v) = Some q -> hit_ok st v q.
    Proof. intros ?%pick_Some. by apply elem_matches. Qed.
    Lemma pick_match_none i st v : pick i (matches E st v) = None -> nomatch st v.
    Proof.
      intros Hn%pick_None p d Hp Hd. destruct (te_eq E v d) eqn:He; [|done]. exfalso.
      assert (p ∈ matches E st v) as Hin by (apply elem_matches; eauto).
      rewrite Hn in Hin. by apply elem_of_nil in Hin.
    Qed.
  End lawful.
End inv.

(** Every step of the ArcIntern model is matched by actions of the atomic interner. *)
From stdpp Require Import gmap list numbers.
From Verif Require Import Base ArcModel ArcSpec ArcInv ArcStep ArcSafe ArcReach ArcLive ArcProps AtomSpec RaceFinal.
Require Import ZifyBool ZifyNat ZifyN.

Section sim.
  Context {V : Type} (E : tyenv V).
  Implicit Types (st : state V) (v d : V) (p q : ptr) (a : atom V).
  Notation hc := (handles_to E).
  Context (HC : coherent E) (HW : wide E).

  Definition obj_of st p : option (V * nat) :=
    if hc st p =? 0 then None else (λ d, (d, hc st p)) <$> data st p.
  Definition bury st p : list (todo V) := match data st p with Some d => [Bury d] | None => [] end.
  Fixpoint todos st (w : list item) : list (todo V) :=
    match w with
    | [] => []
    | IDrop p :: w' => Release p :: todos st w'
    | IRemove p :: w' => bury st p ++ todos st w'
    | IFree _ :: w' => todos st w'
    end.
  Definition thr_of st (x : pc V) : athread V :=
    match x with
    | PFree | PLen _ _ _ | PShrink _ _ => TIdle
    | PLookup _ v _ | PHit _ v _ _ | PUndo _ v _ _ | PAlloc _ v _ | PEntry _ v _ | PVac _ v _ | POcc _ v _ => TCall v
    | PInc _ v _ p old => if (old =? 0)%N then TCall v else TWork (Release <$> te_kids E v) (Some (v, p))
    | PIns _ v q => TWork [] (Some (v, q))
    | PRem _ q w r => TWork (bury st q ++ todos st w) r
    | PWork w r => TWork (todos st w) r
    end.

  Record sim st a : Prop := Sim {
    sim_objs : forall p, at_objs a !! p = obj_of st p;
    sim_owned : at_owned a = st_pool st;
    sim_thr : forall t, thread a t = thr_of st (get_pc st t);
  }.

  Lemma sim_init : sim init ainit.
  Proof.
    constructor; [|done|].
    - intros p. simpl. rewrite lookup_empty. unfold obj_of, handles_to. simpl. by rewrite !msum_empty.
    - intros t. done.
  Qed.

  (** ** Todo lists *)
  Lemma todos_app st w1 w2 : todos st (w1 ++ w2) = todos st w1 ++ todos st w2.
  Proof.
    induction w1 as [|[p|p|p] w1 IH]; simpl; [done|by rewrite IH| |done].
    by rewrite IH, (assoc_L (++)).
  Qed.
  Lemma todos_drops st ps : todos st (IDrop <$> ps) = Release <$> ps.
  Proof. induction ps as [|p ps IH]; [done|]. csimpl. by rewrite IH. Qed.
  Lemma todos_args st k v b : (k = KDst -> te_kids E v = []) ->
    todos st (drop_args E k v b) = Release <$> te_kids E v.
  Proof.
    intros Hk. destruct k; simpl.
    - apply todos_drops.
    - rewrite Hk by done. by destruct b.
  Qed.
  Lemma todos_box st v q : todos st (drop_box E v q) = Release <$> te_kids E v.
  Proof. unfold drop_box. rewrite todos_app, todos_drops. simpl. apply app_nil_r. Qed.

  Lemma bury_Some st p d : data st p = Some d -> bury st p = [Bury d].
  Proof. unfold bury. by intros ->. Qed.

  Section one.
    Context (st st' : state V) (l : label V).
    Context (HI : Inv E st) (HI' : Inv E st') (Hs : step E st l = Next st').

    Lemma pend_same p : 0 < rc st p -> 0 < rc st' p -> data st' p = data st p.
    Proof.
      intros H1%(inv_rem_in _ _ HI) H2%(inv_rem_in _ _ HI').
      destruct (inv_live _ _ HI p H1) as [d Hd]. rewrite Hd.
      by eapply (table_data_step E st l st').
    Qed.
    Lemma todos_same w :
      (forall p, 0 < work_rc p w -> 0 < rc st p /\ 0 < rc st' p) -> todos st' w = todos st w.
    Proof.
      induction w as [|[p|p|p] w IH]; intros H; simpl; [done| | |].
      - rewrite IH; [done|]. intros q Hq. apply H. simpl. lia.
      - rewrite IH; [|intros q Hq; apply H; simpl; lia]. unfold bury. rewrite pend_same; [done| |].
        + apply H. simpl. rewrite is_p_self. lia.
        + apply H. simpl. rewrite is_p_self. lia.
      - rewrite IH; [done|]. intros q Hq. apply H. simpl. lia.
    Qed.
    Lemma rc_pc (s : state V) t p : pc_rc p (get_pc s t) <= rc s p.
    Proof. unfold rc. pose proof (tsum_ge (pc_rc p) s t eq_refl). lia. Qed.
    Lemma todos_pc w t t' :
      (forall p, work_rc p w <= pc_rc p (get_pc st t)) -> (forall p, work_rc p w <= pc_rc p (get_pc st' t')) ->
      todos st' w = todos st w.
    Proof.
      intros H1 H2. apply todos_same. intros p Hp.
      pose proof (H1 p). pose proof (H2 p). pose proof (rc_pc st t p). pose proof (rc_pc st' t' p). lia.
    Qed.
    Lemma thr_same t : get_pc st' t = get_pc st t -> thr_of st' (get_pc st' t) = thr_of st (get_pc st t).
    Proof.
      intros He. pose proof (rc_pc st t) as H1. pose proof (rc_pc st' t) as H2. rewrite He in *.
      destruct (get_pc st t); simpl in *; try done.
      - f_equal. unfold bury. rewrite pend_same.
        + f_equal. apply todos_same. intros p Hp. pose proof (H1 p). pose proof (H2 p). lia.
        + pose proof (H1 q). rewrite is_p_self in *. lia.
        + pose proof (H2 q). rewrite is_p_self in *. lia.
      - f_equal. apply todos_same. intros p Hp. pose proof (H1 p). pose proof (H2 p). lia.
    Qed.

    Lemma obj_same p : hc st' p = hc st p -> obj_of st' p = obj_of st p.
    Proof.
      intros He. unfold obj_of. rewrite He. destruct (Nat.eqb_spec (hc st p) 0); [done|].
      destruct (step_keeps E st l st' p HI HI') as (_&_&->); [unfold alive; lia|done|done].
    Qed.
    Lemma obj_alive p d : data st p = Some d -> 0 < hc st p -> 0 < hc st' p -> obj_of st' p = Some (d, hc st' p).
    Proof.
      intros Hd H0 H1. unfold obj_of. destruct (Nat.eqb_spec (hc st' p) 0); [lia|].
      destruct (step_keeps E st l st' p HI HI') as (_&_&->); [unfold alive; lia|done|]. by rewrite Hd.
    Qed.
  End one.

  Lemma obj_now st p : Inv E st -> 0 < hc st p -> exists d, data st p = Some d /\ obj_of st p = Some (d, hc st p).
  Proof.
    intros HI Hp. destruct (hand_deref E st p HI Hp) as (_&d&_&_&Hd). exists d. split; [done|].
    unfold obj_of. rewrite Hd. destruct (Nat.eqb_spec (hc st p) 0); [lia|done].
  Qed.
  Lemma obj_Some st p d n : obj_of st p = Some (d, n) -> data st p = Some d /\ hc st p = n /\ 0 < n.
  Proof.
    unfold obj_of. destruct (Nat.eqb_spec (hc st p) 0); [done|]. destruct (data st p); [|done].
    intros [= <- <-]. split; [done|]. lia.
  Qed.

  Lemma put_thread a t x t' : thread (put a t x) t' = if decide (t' = t) then x else thread a t'.
  Proof.
    unfold thread, put. simpl. destruct (decide (t' = t)) as [->|].
    - by rewrite lookup_insert.
    - by rewrite lookup_insert_ne.
  Qed.

  (** ** Reaching handles *)
  Lemma sim_reaches st a p ks k :
    Inv E st -> sim st a -> 0 < hc st p -> follow E st p ks = Next k -> reaches E a p ks k.
  Proof.
    intros HI HS. revert p. induction ks as [|x ks IH]; intros p Hp Hf; simpl in *.
    - by injection Hf as <-.
    - destruct (obj_now st p HI Hp) as (d&Hd&Ho). rewrite Hd in Hf.
      destruct (decide (x ∈ te_kids E d)) as [Hx|]; [|done].
      exists d, (hc st p). rewrite (sim_objs _ _ HS). split_and!; [done..|].
      apply IH; [|done]. apply data_Some in Hd as (c&[Hc _]%deref_Some&Hcd). by eapply hc_ge_kids.
  Qed.
  Lemma sim_borrow st a p ks k :
    Inv E st -> sim st a -> borrow E st p ks = Next k ->
    p ∈ at_owned a /\ reaches E a p ks k /\ exists d, data st k = Some d /\ at_objs a !! k = Some (d, hc st k).
  Proof.
    intros HI HS Hb. pose proof Hb as Hb'. unfold borrow in Hb. destruct (decide (p ∈ st_pool st)) as [Hp|]; [|done].
    rewrite (sim_owned _ _ HS). split; [done|]. split.
    - apply (sim_reaches st); [done..| |done]. by apply hc_ge_pool.
    - rewrite (sim_objs _ _ HS). apply obj_now; [done|].
      by apply (borrow_live E st p ks HI).
  Qed.

  (** ** Steps *)
  Definition matched st a l st' : Prop :=
    exists xs a', atomics E a xs a' /\ visible xs = sight st l st' /\ sim st' a'.

  Lemma atomics_1 a x a' : atomic E a x a' -> atomics E a [x] a'.
  Proof. intros. by eapply ats_cons; [|apply ats_nil]. Qed.

  (** Nothing observable happens. *)
  Lemma quiet_step st l st' a t :
    Inv E st -> Inv E st' -> step E st l = Next st' -> sim st a ->
    sight st l st' = [] -> creates st l = 0 -> (forall p, destroys st l p = 0) -> st_pool st' = st_pool st ->
    (forall t', t' <> t -> get_pc st' t' = get_pc st t') ->
    thr_of st' (get_pc st' t) = thr_of st (get_pc st t) ->
    matched st a l st'.
  Proof.
    intros HI HI' Hs HS Hv Hc Hd Hp Ho Ht. exists [], a. split; [apply ats_nil|]. split; [done|].
    constructor.
    - intros p. rewrite (sim_objs _ _ HS). symmetry. eapply obj_same; [done..|].
      pose proof (step_hc E st l st' p HI Hs). pose proof (step_hc_low E st l st' p HI Hs).
      rewrite Hc in *. rewrite Hd in *. lia.
    - by rewrite Hp, (sim_owned _ _ HS).
    - intros t'. rewrite (sim_thr _ _ HS). symmetry. destruct (decide (t' = t)) as [->|Hne]; [done|].
      by eapply thr_same; [..|apply Ho].
  Qed.

  (** Counts do not change, thread [t] moves, by one action. *)
  Lemma plain_step st l st' a t x y o :
    Inv E st -> Inv E st' -> step E st l = Next st' -> sim st a ->
    creates st l = 0 -> (forall p, destroys st l p = 0) ->
    (forall t', t' <> t -> get_pc st' t' = get_pc st t') ->
    atomic E a x (put (set_owned a o) t y) -> o = st_pool st' -> y = thr_of st' (get_pc st' t) ->
    visible [x] = sight st l st' ->
    matched st a l st'.
  Proof.
    intros HI HI' Hs HS Hc Hd Ho Hx -> -> Hv. eexists [x], _. split; [by apply atomics_1|]. split; [done|].
    constructor.
    - intros p. simpl. rewrite (sim_objs _ _ HS). symmetry. eapply obj_same; [done..|].
      pose proof (step_hc E st l st' p HI Hs). pose proof (step_hc_low E st l st' p HI Hs).
      rewrite Hc in *. rewrite Hd in *. lia.
    - done.
    - intros t'. rewrite put_thread. destruct (decide (t' = t)) as [->|Hne]; [done|].
      change (thread (set_owned a (st_pool st')) t') with (thread a t'). rewrite (sim_thr _ _ HS).
      symmetry. by eapply thr_same; [..|apply Ho].
  Qed.

  Lemma step_match st l st' a :
    Inv E st -> fits E st -> Inv E st' -> sim st a -> step E st l = Next st' -> matched st a l st'.
  Proof.
    intros HI HF HI' HS Hs. pose proof Hs as Hs0.
    destruct l as [t k v|t p|p ks|p|p ks|p ks|t ty|t ty|t b i|t]; simpl in Hs.
    - (* LNew *)
      destruct (get_pc st t) eqn:Hpc; try done.
      assert (exists pl, rem_all (te_kids E v) (st_pool st) = Some pl /\ 
                st' = set_pc (set_pool st pl) t (PLookup k v None)) as (pl&Hpl&->).
      { destruct k.
        - destruct rem_all as [pl|]; [|done]. injection Hs as <-. eauto.
        - destruct te_kids; [|done]. injection Hs as <-. exists (st_pool st). split; [done|]. by destruct st. }
      eapply (plain_step _ _ _ _ t (ACall t v) _ pl); try done.
      + intros t' Hne. rewrite get_pc_set, decide_False by done. done.
      + rewrite get_pc_set, decide_True by done. simpl. constructor.
        * by rewrite (sim_thr _ _ HS), Hpc.
        * by rewrite (sim_owned _ _ HS).
    - (* LDrop *)
      destruct (get_pc st t) eqn:Hpc; try done. destruct (rem1 p (st_pool st)) as [pl|] eqn:Hpl; [|done].
      injection Hs as <-.
      eapply (plain_step _ _ _ _ t (ADrop t p) _ pl); try done.
      + intros t' Hne. rewrite get_pc_set, decide_False by done. done.
      + rewrite get_pc_set, decide_True by done. simpl. constructor.
        * by rewrite (sim_thr _ _ HS), Hpc.
        * by rewrite (sim_owned _ _ HS).
    - (* LClone *)
      destruct (borrow E st p ks) as [k| | |] eqn:Hb; try done.
      destruct (deref st k) as [c|] eqn:Hc; [|done]. injection Hs as <-.
      destruct (sim_borrow st a p ks k HI HS Hb) as (Hp&Hr&d&Hd&Ho).
      assert (0 < hc st k) as Hk by by apply (borrow_live E st p ks HI).
      assert (forall q, hc (set_pool (set_count st k c (count_inc E (c_count c))) (k :: st_pool st)) q
                        = hc st q + is_p q k) as Hq.
      { intros q. pose proof (hc_set_count E st k c (count_inc E (c_count c)) q Hc) as H1.
        unfold handles_to in *. simpl in *. unfold is_p. case_bool_decide; destruct (decide (k = q)); simpl; try done; lia. }
      eexists [AClone p ks k], _. split; [apply atomics_1; by econstructor|]. split; [done|].
      constructor.
      + intros q. simpl. unfold more. destruct (decide (q = k)) as [->|Hne].
        * rewrite lookup_insert. symmetry. rewrite (obj_alive st _ _ HI HI' Hs0 k d Hd Hk) by (rewrite Hq; lia).
          by rewrite Hq, is_p_self, Nat.add_1_r.
        * rewrite lookup_insert_ne by done. rewrite (sim_objs _ _ HS). symmetry. eapply obj_same; [done..|].
          rewrite Hq, is_p_ne by done. lia.
      + simpl. by rewrite (sim_owned _ _ HS).
      + intros t. change (thread a t = thr_of (set_pool (set_count st k c (count_inc E (c_count c))) (k :: st_pool st)) (get_pc st t)).
        rewrite (sim_thr _ _ HS). symmetry. exact (thr_same st _ _ HI HI' Hs0 t eq_refl).
    - (* LForget *)
      destruct (rem1 p (st_pool st)) as [pl|] eqn:Hpl; [|done]. injection Hs as <-.
      eexists [AForget p], _. split; [apply atomics_1; constructor; by rewrite (sim_owned _ _ HS)|].
      split; [done|]. constructor.
      + intros q. simpl. rewrite (sim_objs _ _ HS). symmetry. eapply obj_same; [done..|].
        pose proof (rem1_occ _ _ _ q Hpl). unfold handles_to. simpl. destruct (decide (p = q)); lia.
      + done.
      + intros t. change (thread a t = thr_of (set_gone (set_pool st pl) (p :: st_gone st)) (get_pc st t)).
        rewrite (sim_thr _ _ HS). symmetry. exact (thr_same st _ _ HI HI' Hs0 t eq_refl).
    - (* LRef *)
      destruct (borrow E st p ks) as [k| | |] eqn:Hb; try done.
      destruct (deref st k) as [c|] eqn:Hc; [|done]. injection Hs as <-.
      destruct (sim_borrow st a p ks k HI HS Hb) as (Hp&Hr&d&Hd&Ho).
      assert (0 < hc st k) as Hk by by apply (borrow_live E st p ks HI).
      destruct (cnt_live E st k c HI HF Hk Hc) as [_ Hn].
      exists [ARef p ks k (N.of_nat (hc st k))], a. split; [apply atomics_1; by econstructor|].
      split; [simpl; by rewrite Hn|]. constructor.
      + exact (sim_objs _ _ HS).
      + exact (sim_owned _ _ HS).
      + intros t. rewrite (sim_thr _ _ HS). symmetry. exact (thr_same st _ _ HI HI' Hs0 t eq_refl).
    - (* LDeref *)
      destruct (borrow E st p ks) as [k| | |] eqn:Hb; try done.
      destruct (data st k) as [d|] eqn:Hd; [|done]. injection Hs as <-.
      destruct (sim_borrow st a p ks k HI HS Hb) as (Hp&Hr&d'&Hd'&Ho). rewrite Hd in Hd'. injection Hd' as <-.
      exists [ADeref p ks k d], a. split; [apply atomics_1; by econstructor|].
      split; [done|]. constructor.
      + exact (sim_objs _ _ HS).
      + exact (sim_owned _ _ HS).
      + intros t. rewrite (sim_thr _ _ HS). symmetry. exact (thr_same st _ _ HI HI' Hs0 t eq_refl).
    - (* LLen *)
      destruct (get_pc st t) eqn:Hpc; try done. injection Hs as <-.
      eapply (quiet_step _ _ _ _ t); try done.
      + intros t' Hne. rewrite get_pc_set, decide_False by done. done.
      + by rewrite get_pc_set, decide_True, Hpc.
    - (* LShrink *)
      destruct (get_pc st t) eqn:Hpc; try done. injection Hs as <-.
      eapply (quiet_step _ _ _ _ t); try done.
      + intros t' Hne. rewrite get_pc_set, decide_False by done. done.
      + by rewrite get_pc_set, decide_True, Hpc.
    - (* LStep *)
      assert (forall t', t' <> t -> get_pc st' t' = get_pc st t') as Hoth.
      { intros t'. by eapply step_other. }
      assert ((forall r, get_pc st t <> PWork [] r) -> sight st (LStep t b i) st' = []) as Hsi.
      { intros Hr. simpl. destruct (get_pc st t) as [| | | | | | | | | | |[|] r| |]; try done. by destruct (Hr r). }
      pose proof (step_thread_pool E st t b i st' Hs) as Hpool.
      unfold step_thread in Hs. pose proof (inv_pc _ _ HI t) as Hok.
      assert (forall x, get_pc st t = x -> (forall r, x <> PWork [] r) ->
                creates st (LStep t b i) = 0 -> (forall p, destroys st (LStep t b i) p = 0) ->
                thr_of st' (get_pc st' t) = thr_of st x -> matched st a (LStep t b i) st') as Hquiet.
      { intros x Hx Hn Hcr Hde Ht. eapply (quiet_step _ _ _ _ t); try done.
        - apply Hsi. rewrite Hx. apply Hn.
        - apply Hpool. intros v p. rewrite Hx. apply Hn.
        - by rewrite Hx. }
      destruct (get_pc st t) as [|k v x|k v x p|k v x p old|k v x p|k v x|k v q|k v q|k v q|k v q|l q w r|w r|ty j acc|ty j] eqn:Hpc;
        simpl in Hok; try done.
      + (* PLookup *)
        destruct (st_locks st !! lock_of E v); [done|]. destruct readable; [|done].
        destruct pick; injection Hs as <-; (apply (Hquiet _ eq_refl); [done|by simpl; rewrite Hpc|by intros; simpl; rewrite Hpc|]);
          by rewrite get_set.
      + (* PHit *)
        destruct (deref st p) as [c|] eqn:Hc; [|done]. injection Hs as <-.
        set (st' := set_pc _ _ _) in *. destruct Hok as [Harg [Hin (d&Hd&He)]].
        destruct (decide (hc st p = 0)) as [H0|H0].
        * (* a dying object *)
          assert (c_count c = 0%N) as Hc0.
          { rewrite (inv_cnt _ _ HI p c Hin Hc), H0. assert (tc st p = 0) as ->; [|by apply N.mod_0_l; unfold wide in HW; lia].
            destruct (decide (tc st p = 0)) as [|Hne]; [done|exfalso].
            unfold tc in Hne. assert (0 < msum (pc_tc p) (st_threads st)) as (t2&H2)%tsum_pos by lia.
            pose proof (inv_pc _ _ HI t2) as Hok2. pose proof (lock_unique E st HI (lock_of E v) t t2) as Hl.
            destruct (get_pc st t2) as [|?? ?|????|k2 v2 x2 p2 old2|????|???|???|???|???|???|????|??|???|??] eqn:Hpc2; simpl in H2; try lia.
            destruct (N.eqb_spec old2 0) as [->|]; [|lia]. unfold is_p in H2. case_bool_decide; simpl in H2; [|lia]. subst p2.
            destruct Hok2 as (_&[_ (d2&Hd2&He2)]&_). assert (d2 = d) as -> by congruence.
            rewrite Hpc in Hl. simpl in Hl. assert (t = t2) as <-.
            { apply Hl; [done|]. simpl. f_equal. by rewrite (law_lock E HC _ _ He2), <- (law_lock E HC _ _ He). }
            congruence. }
          apply (Hquiet _ eq_refl); [done| | |].
          -- simpl. rewrite Hpc, Hc, Hc0. done.
          -- intros. simpl. by rewrite Hpc.
          -- subst st'. rewrite get_set. simpl. by rewrite Hc0.
        * (* success *)
          destruct (cnt_live E st p c HI HF) as [_ Hcnt]; [lia|done|].
          assert (c_count c <> 0%N) as Hn0 by lia.
          assert (forall q, hc st' q = hc st q + is_p q p) as Hq.
          { intros q. subst st'.
            pose proof (hc_set_count E st p c (count_inc E (c_count c)) q Hc) as H1.
            pose proof (hc_set_pc E (set_count st p c (count_inc E (c_count c))) t (PInc k v x p (c_count c)) q) as H2.
            change (get_pc (set_count st p c (count_inc E (c_count c))) t) with (get_pc st t) in H2.
            rewrite Hpc in H2. simpl in H2. rewrite (proj2 (N.eqb_neq _ _) Hn0) in H2. lia. }
          destruct (obj_now st p HI) as (d'&Hd'&Ho); [lia|]. assert (d' = d) as -> by congruence.
          eexists [AHit t p], _. split.
          { apply atomics_1. econstructor; [by rewrite (sim_thr _ _ HS), Hpc|by rewrite (sim_objs _ _ HS)|done]. }
          split; [by rewrite Hsi|]. constructor.
          -- intros q. simpl. unfold more. destruct (decide (q = p)) as [->|Hne].
             ++ rewrite lookup_insert. symmetry. rewrite (obj_alive st _ _ HI HI' Hs0 p d Hd) by (rewrite ?Hq; lia).
                by rewrite Hq, is_p_self, Nat.add_1_r.
             ++ rewrite lookup_insert_ne by done. rewrite (sim_objs _ _ HS). symmetry. eapply obj_same; [done..|].
                rewrite Hq, is_p_ne by done. lia.
          -- simpl. by rewrite (sim_owned _ _ HS).
          -- intros t'. rewrite put_thread. destruct (decide (t' = t)) as [->|Hne].
             ++ subst st'. rewrite get_set. simpl. by rewrite (proj2 (N.eqb_neq _ _) Hn0).
             ++ change (thread a t' = thr_of st' (get_pc st' t')). rewrite (sim_thr _ _ HS).
                symmetry. apply (thr_same st _ _ HI HI' Hs0). by apply Hoth.
      + (* PInc *)
        destruct (N.eqb_spec old 0) as [->|Hold].
        * destruct (deref st p) as [c|] eqn:Hc; [|done]. injection Hs as <-.
          apply (Hquiet _ eq_refl); [done|by simpl; rewrite Hpc|by intros; simpl; rewrite Hpc|]. by rewrite get_set.
        * injection Hs as <-.
          apply (Hquiet _ eq_refl); [done|by simpl; rewrite Hpc|by intros; simpl; rewrite Hpc|].
          rewrite get_set. simpl. rewrite (proj2 (N.eqb_neq _ _) Hold), todos_args; [done|].
          intros ->. simpl in Hok. tauto.
      + (* PUndo *)
        injection Hs as <-. apply (Hquiet _ eq_refl); [done|by simpl; rewrite Hpc|by intros; simpl; rewrite Hpc|]. by rewrite get_set.
      + (* PAlloc *)
        assert (exists st1 q, st' = set_pc st1 t (PEntry k v q)) as (st1&q&He).
        { destruct k, x; try (destruct (st_heap st !! b); [done|]); injection Hs as <-; eauto. }
        apply (Hquiet _ eq_refl); [done|by simpl; rewrite Hpc|by intros; simpl; rewrite Hpc|]. rewrite He. by rewrite get_set.
      + (* PEntry *)
        destruct (data st q) as [d|]; [|done]. destruct (st_locks st !! lock_of E d); [done|]. destruct readable; [|done].
        destruct pick; injection Hs as <-; (apply (Hquiet _ eq_refl); [done|by simpl; rewrite Hpc|by intros; simpl; rewrite Hpc|]);
          by rewrite get_set.
      + (* PVac *)
        injection Hs as <-. set (st' := set_pc _ _ _) in *. destruct Hok as (Hbox&Hk&Hno).
        assert (hc st q = 0) as Hq0.
        { destruct (decide (hc st q = 0)) as [|Hne]; [done|exfalso].
          assert (q ∈ st_table st) as Hq by (apply (inv_hand _ _ HI); lia).
          pose proof (table_not_box E st HI q t Hq) as H1. rewrite Hpc in H1. simpl in H1. rewrite at_addr_self in H1. lia. }
        assert (forall p, hc st' p = hc st p + is_p p q) as Hq.
        { intros p. subst st'. pose proof (hc_set_pc E (set_table st (q :: st_table st)) t (PIns k v q) p) as H2.
          change (get_pc (set_table st (q :: st_table st)) t) with (get_pc st t) in H2.
          change (hc (set_table st (q :: st_table st)) p) with (hc st p) in H2.
          rewrite Hpc in H2. simpl in H2. lia. }
        eexists [AMiss t q], _. split.
        { apply atomics_1. econstructor; [by rewrite (sim_thr _ _ HS), Hpc|].
          intros p d n. rewrite (sim_objs _ _ HS). intros (Hd&Hn&Hpos)%obj_Some.
          assert (p ∈ st_table st) as Hp by (apply (inv_hand _ _ HI); lia).
          split; [by eapply Hno|]. intros Haddr.
          pose proof (table_not_box E st HI p t Hp) as H1. rewrite Hpc in H1. simpl in H1.
          rewrite Haddr, at_addr_self in H1. lia. }
        split; [by rewrite Hsi|]. constructor.
        -- intros p. simpl. destruct (decide (p = q)) as [->|Hne].
           ++ rewrite lookup_insert. unfold obj_of. rewrite Hq, Hq0, is_p_self. simpl.
              change (data st' q) with (data st q). unfold data. by rewrite Hbox.
           ++ rewrite lookup_insert_ne by done. rewrite (sim_objs _ _ HS). symmetry. eapply obj_same; [done..|].
              rewrite Hq, is_p_ne by done. lia.
        -- simpl. by rewrite (sim_owned _ _ HS).
        -- intros t'. rewrite put_thread. destruct (decide (t' = t)) as [->|Hne].
           ++ subst st'. by rewrite get_set.
           ++ change (thread a t' = thr_of st' (get_pc st' t')). rewrite (sim_thr _ _ HS).
              symmetry. apply (thr_same st _ _ HI HI' Hs0). by apply Hoth.
      + (* POcc *)
        destruct Hok as [Hbox Hk]. rewrite Hbox in Hs. simpl in Hs.
        destruct k; injection Hs as <-; (apply (Hquiet _ eq_refl); [done|by simpl; rewrite Hpc|by intros; simpl; rewrite Hpc|]);
          by rewrite get_set.
      + (* PIns *)
        injection Hs as <-. apply (Hquiet _ eq_refl); [done|by simpl; rewrite Hpc|by intros; simpl; rewrite Hpc|]. by rewrite get_set.
      + (* PRem: the value is destroyed *)
        destruct Hok as (Hin&(d&Hd&Hl)&Hfree&Hret).
        destruct (table_deref _ _ HI q Hin) as (c&d'&Hc&Hcd&Hd'). assert (d' = d) as -> by congruence.
        rewrite Hc, Hcd in Hs. injection Hs as <-. set (st' := set_pc _ _ _) in *.
        apply (plain_step st _ st' a t (ABury t) (TWork ((Release <$> te_kids E d) ++ todos st w) r) (st_pool st)); try done.
        * simpl. by rewrite Hpc.
        * intros. simpl. by rewrite Hpc.
        * assert (set_owned a (st_pool st) = a) as -> by (rewrite <- (sim_owned _ _ HS); by destruct a).
          apply (at_bury E a t d (todos st w) r). by rewrite (sim_thr _ _ HS), Hpc; simpl; rewrite (bury_Some _ _ _ Hd).
        * subst st'. rewrite get_set. simpl. rewrite todos_app, todos_box. f_equal. f_equal. symmetry.
          eapply (todos_pc st _ (LStep t b i) HI HI' Hs0 w t t).
          -- intros p. rewrite Hpc. simpl. lia.
          -- intros p. rewrite get_set. simpl. rewrite work_rc_app. lia.
        * by rewrite Hsi.
      + (* PWork *)
        destruct w as [|[p|p|q] w].
        * (* return *)
          destruct r as [[v p]|]; injection Hs as <-.
          -- eapply (plain_step _ _ _ _ t (ARet t (Some (v, p))) TIdle (p :: at_owned a)); try done.
             ++ simpl. by rewrite Hpc.
             ++ intros. simpl. by rewrite Hpc.
             ++ apply (at_ret E a t (Some (v, p))). by rewrite (sim_thr _ _ HS), Hpc.
             ++ simpl. by rewrite (sim_owned _ _ HS).
             ++ unfold get_pc. simpl. by rewrite lookup_insert.
             ++ simpl. by rewrite Hpc.
          -- eapply (plain_step _ _ _ _ t (ARet t None) TIdle (at_owned a)); try done.
             ++ simpl. by rewrite Hpc.
             ++ intros. simpl. by rewrite Hpc.
             ++ apply (at_ret E a t None). by rewrite (sim_thr _ _ HS), Hpc.
             ++ simpl. by rewrite (sim_owned _ _ HS).
             ++ by rewrite get_set.
             ++ simpl. by rewrite Hpc.
        * (* a handle is given up *)
          destruct (deref st p) as [c|] eqn:Hc; [|done]. injection Hs as <-. set (st' := set_pc _ _ _) in *.
          assert (0 < hc st p) as Hpos.
          { pose proof (hc_ge_pc E st t p) as H1. rewrite Hpc in H1. simpl in H1. rewrite is_p_self in H1. lia. }
          destruct (cnt_live E st p c HI HF Hpos Hc) as [_ Hcnt].
          destruct (obj_now st p HI Hpos) as (d&Hd&Ho).
          assert (forall q, hc st' q + is_p q p = hc st q) as Hq.
          { intros q. subst st'.
            pose proof (hc_set_count E st p c (count_dec E (c_count c)) q Hc) as H1.
            pose proof (hc_set_pc E (set_count st p c (count_dec E (c_count c))) t
              (PWork (if (c_count c =? 1)%N then IRemove p :: w else w) r) q) as H2.
            change (get_pc (set_count st p c (count_dec E (c_count c))) t) with (get_pc st t) in H2.
            rewrite Hpc in H2. simpl in H2. destruct (c_count c =? 1)%N; simpl in *; lia. }
          assert (todos st' w = todos st w) as Hw.
          { eapply (todos_pc st _ (LStep t b i) HI HI' Hs0 w t t).
            - intros q. rewrite Hpc. simpl. lia.
            - intros q. subst st'. rewrite get_set. simpl. destruct (c_count c =? 1)%N; simpl; lia. }
          eexists [ARelease t], _. split.
          { apply atomics_1. eapply at_release; [by rewrite (sim_thr _ _ HS), Hpc|by rewrite (sim_objs _ _ HS)]. }
          split; [by rewrite Hsi|]. constructor.
          -- intros q. simpl. unfold less. pose proof (Hq q) as Hqq. destruct (decide (q = p)) as [->|Hne].
             ++ rewrite is_p_self in Hqq. destruct (Nat.eqb_spec (hc st p) 1) as [H1|H1].
                ** rewrite lookup_delete. unfold obj_of. by replace (hc st' p) with 0 by lia.
                ** rewrite lookup_insert. symmetry. rewrite (obj_alive st _ _ HI HI' Hs0 p d Hd) by lia.
                   f_equal. f_equal. lia.
             ++ rewrite is_p_ne in Hqq by done.
                assert (forall y, (if hc st p =? 1 then delete p (at_objs a) else <[p:=y]> (at_objs a)) !! q = at_objs a !! q) as ->.
                { intros y. destruct (hc st p =? 1); [by rewrite lookup_delete_ne|by rewrite lookup_insert_ne]. }
                rewrite (sim_objs _ _ HS). symmetry. eapply obj_same; [done..|]. lia.
          -- simpl. by rewrite (sim_owned _ _ HS).
          -- intros t'. rewrite put_thread. destruct (decide (t' = t)) as [->|Hne].
             ++ subst st'. rewrite get_set. simpl. f_equal.
                replace (hc st p =? 1) with (c_count c =? 1)%N by lia.
                destruct (N.eqb_spec (c_count c) 1) as [H1|H1]; simpl; rewrite Hw; [|done].
                rewrite (bury_Some _ _ d); [done|].
                change (data (set_count st p c (count_dec E (c_count c))) p = Some d).
                by rewrite data_set_count.
             ++ change (thread a t' = thr_of st' (get_pc st' t')). rewrite (sim_thr _ _ HS).
                symmetry. apply (thr_same st _ _ HI HI' Hs0). by apply Hoth.
        * (* the entry is looked up *)
          destruct (rem_hand E st t p HI) as (Hin&H0&c&d&Hc&Hcd&Hd).
          { rewrite Hpc. simpl. rewrite is_p_self. lia. }
          rewrite Hd in Hs. destruct (st_locks st !! lock_of E d); [done|].
          rewrite (inv_readable _ _ HI) in Hs.
          destruct (pick i (matches E st d)) as [q|] eqn:Hpick.
          -- apply pick_match_hit in Hpick as [Hq (d2&Hd2&He2)]; [|done].
             assert (q = p) as -> by (symmetry; by eapply (inv_uniq _ _ HI)).
             injection Hs as <-.
             apply (Hquiet _ eq_refl); [done|by simpl; rewrite Hpc|by intros; simpl; rewrite Hpc|]. rewrite get_set. simpl. f_equal. f_equal.
             eapply (todos_pc st _ (LStep t b i) HI HI' Hs0 w t t).
             ++ intros z. rewrite Hpc. simpl. lia.
             ++ intros z. rewrite get_set. simpl. lia.
          -- exfalso. apply pick_match_none in Hpick; [|done]. pose proof (Hpick p d Hin Hd) as H1.
             rewrite (coh_refl _ HC) in H1. done.
        * destruct (deref st q) as [c|] eqn:Hc; [|done]. injection Hs as <-.
          apply (Hquiet _ eq_refl); [done|by simpl; rewrite Hpc|by intros; simpl; rewrite Hpc|]. rewrite get_set. simpl. f_equal.
          eapply (todos_pc st _ (LStep t b i) HI HI' Hs0 w t t).
          -- intros p. rewrite Hpc. simpl. lia.
          -- intros p. rewrite get_set. simpl. lia.
      + destruct (j <? te_shards E); [destruct (st_locks st !! (ty, j)); [done|]|]; injection Hs as <-;
          (apply (Hquiet _ eq_refl); [done|by simpl; rewrite Hpc|by intros; simpl; rewrite Hpc|]).
        * by rewrite get_set.
        * unfold get_pc. simpl. by rewrite lookup_insert.
      + destruct (j <? te_shards E); [destruct (st_locks st !! (ty, j)); [done|]|]; injection Hs as <-;
          (apply (Hquiet _ eq_refl); [done|by simpl; rewrite Hpc|by intros; simpl; rewrite Hpc|]); by rewrite get_set.
    - (* LPanic *)
      assert (set_owned a (st_pool st) = a) as Hown by (rewrite <- (sim_owned _ _ HS); by destruct a).
      pose proof (step_panic_pool E st t st' Hs) as Hpool.
      assert (forall t', t' <> t -> get_pc st' t' = get_pc st t') as Hoth.
      { intros t' Hne. clear HI'. unfold step_panic in Hs.
        assert (forall x, get_pc (set_pc st t x) t' = get_pc st t') as Ho.
        { intros x. rewrite get_pc_set. by rewrite decide_False. }
        repeat (match goal with
          | H : Next _ = Next _ |- _ => injection H as <-
          | H : (match ?x with _ => _ end) = Next _ |- _ => destruct x; try done
          end); exact (Ho _). }
      assert (forall y, atomic E a (APanic t) (put a t y) -> y = thr_of st' (get_pc st' t) ->
                matched st a (LPanic t) st') as Hplain.
      { intros y Hy Hyt. eapply (plain_step _ _ _ _ t (APanic t) y (st_pool st)); try done. by rewrite Hown. }
      unfold step_panic in Hs. pose proof (inv_pc _ _ HI t) as Hok.
      destruct (get_pc st t) as [|k v x|k v x p|k v x p old|k v x p|k v x|k v q|k v q|k v q|k v q|l q w r|w r|ty j acc|ty j] eqn:Hpc;
        simpl in Hok; try done.
      + injection Hs as <-. eapply Hplain.
        * apply (at_panic_call E a t v). by rewrite (sim_thr _ _ HS), Hpc.
        * rewrite get_set. simpl. rewrite todos_args; [done|]. intros ->. simpl in Hok. tauto.
      + destruct Hok as [Hbox Hk]. rewrite Hbox in Hs. simpl in Hs. injection Hs as <-. eapply Hplain.
        * apply (at_panic_call E a t v). by rewrite (sim_thr _ _ HS), Hpc.
        * rewrite get_set. simpl. by rewrite todos_box.
      + destruct w as [|[p|p|q] w]; try done. injection Hs as <-.
        destruct (rem_hand E st t p HI) as (Hin&H0&c&d&Hc&Hcd&Hd).
        { rewrite Hpc. simpl. rewrite is_p_self. lia. }
        eapply Hplain.
        * apply (at_panic_bury E a t d (todos st w) r). rewrite (sim_thr _ _ HS), Hpc. simpl. by rewrite (bury_Some _ _ _ Hd).
        * rewrite get_set. simpl. rewrite todos_app. f_equal. f_equal.
          -- symmetry. eapply (todos_pc st _ (LPanic t) HI HI' Hs0 w t t).
             ++ intros z. rewrite Hpc. simpl. lia.
             ++ intros z. rewrite get_set. simpl. rewrite work_rc_app. lia.
          -- by destruct r as [[v y]|].
  Qed.

  (** ** Executions *)
  Lemma atomics_app a xs a1 ys a2 : atomics E a xs a1 -> atomics E a1 ys a2 -> atomics E a (xs ++ ys) a2.
  Proof. intros H. revert a2. induction H; intros a2 H2; [done|]. simpl. econstructor; eauto. Qed.
  Lemma visible_app (xs ys : list (act V)) : visible (xs ++ ys) = visible xs ++ visible ys.
  Proof. unfold visible. apply filter_app. Qed.

  Lemma run_sim ls : forall ls1 st a, bounded E (ls1 ++ ls) -> run (step E) init ls1 = Some st -> sim st a ->
    forall st', run (step E) st ls = Some st' ->
    exists xs a', atomics E a xs a' /\ visible xs = sights E st ls /\ sim st' a'.
  Proof.
    induction ls as [|l ls IH]; intros ls1 st a Hb Hr HS st' Hr'.
    - injection Hr' as <-. exists [], a. split; [apply ats_nil|done].
    - assert (bounded E (ls1 ++ [l])) as Hb1.
      { replace (ls1 ++ l :: ls) with ((ls1 ++ [l]) ++ ls) in Hb by by rewrite <- app_assoc.
        by eapply bounded_app. }
      pose proof (bounded_app E _ _ Hb1) as Hb0.
      pose proof (run_Inv E HC HW ls1 st Hb0 Hr) as HI.
      pose proof (bounded_fits E ls1 st Hb0 Hr) as HF.
      assert (bounded E ((ls1 ++ [l]) ++ ls)) as Hb2 by by rewrite <- app_assoc.
      simpl in Hr'. unfold exec in Hr'. simpl. destruct (step E st l) as [st1| | |] eqn:Hs; [| | |done].
      + assert (run (step E) init (ls1 ++ [l]) = Some st1) as Hr1.
        { rewrite run_app, Hr. simpl. unfold exec. by rewrite Hs. }
        pose proof (run_Inv E HC HW _ st1 Hb1 Hr1) as HI1.
        destruct (step_match st l st1 a HI HF HI1 HS Hs) as (xs&a1&H1&H2&H3).
        destruct (IH (ls1 ++ [l]) st1 a1 Hb2 Hr1 H3 st' Hr') as (ys&a2&H4&H5&H6).
        exists (xs ++ ys), a2. split; [by eapply atomics_app|]. split; [|done]. by rewrite visible_app, H2, H5.
      + eapply (IH (ls1 ++ [l]) st a Hb2); [|done|done]. rewrite run_app, Hr. simpl. unfold exec. by rewrite Hs.
      + eapply (IH (ls1 ++ [l]) st a Hb2); [|done|done]. rewrite run_app, Hr. simpl. unfold exec. by rewrite Hs.
  Qed.
End sim.

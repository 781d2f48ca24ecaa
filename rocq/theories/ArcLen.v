(** num_objects_interned (arc.rs:203-205): shard-by-shard counting. *)
From stdpp Require Import gmap list numbers.
From Verif Require Import Base ArcModel ArcSpec ArcInv ArcStep ArcSafe ArcReach.
Require Import ZifyBool ZifyNat ZifyN.

Section len.
  Context {V : Type} (E : tyenv V).
  Implicit Types (st : state V) (v d : V) (p q : ptr) (ls : list (label V)).
  Notation hc := (handles_to E).

  (** Sum of the lengths of the first [n] shards. *)
  Fixpoint shards_total (f : nat -> nat) (n : nat) : nat :=
    match n with 0 => 0 | S n' => shards_total f n' + f n' end.

  Definition of_type st (ty : nat) q : bool :=
    match data st q with Some d => te_ty E d =? ty | None => false end.

  Lemma shards_sum st ty :
    0 < te_shards E ->
    shards_total (shard_len E st ty) (te_shards E)
    = length (List.filter (of_type st ty) (st_table st)).
  Proof.
    intros Hs. unfold shard_len.
    assert (forall n tb, shards_total (λ i, length (List.filter (in_shard E st ty i) tb)) n
              = length (List.filter (λ q, match data st q with
                   | Some d => (te_ty E d =? ty) && (te_hash E d mod te_shards E <? n)
                   | None => false end) tb)) as H.
    { induction n as [|n IH]; intros tb.
      - simpl. symmetry. apply length_zero_iff_nil. induction tb as [|q tb IHt]; simpl; [done|].
        destruct (data st q); [|done]. by rewrite (proj2 (Nat.ltb_nlt _ 0)), andb_false_r by lia.
      - simpl. rewrite IH. clear IH. induction tb as [|q tb IHt]; simpl; [done|].
        unfold in_shard at 1. destruct (data st q) as [d|]; [|done].
        destruct (te_ty E d =? ty); simpl; [|done].
        destruct (Nat.ltb_spec (te_hash E d mod te_shards E) n),
          (Nat.eqb_spec (te_hash E d mod te_shards E) n),
          (Nat.ltb_spec (te_hash E d mod te_shards E) (S n)); simpl; lia. }
    rewrite H. f_equal. apply filter_ext. intros q. unfold of_type.
    destruct (data st q) as [d|]; [|done].
    rewrite (proj2 (Nat.ltb_lt _ _)); [by rewrite andb_true_r|]. by apply Nat.mod_upper_bound; lia.
  Qed.

  (** Running [num_objects_interned] alone. *)
  Lemma len_solo st t ty j acc m :
    get_pc st t = PLen ty j acc -> (forall l, st_locks st !! l = None) ->
    te_shards E = j + m ->
    exists st', run (step E) st (replicate (S m) (LStep t 0 0)) = Some st' /\
      st_log st' = EvLen t ty (acc + (shards_total (shard_len E st ty) (te_shards E)
                                      - shards_total (shard_len E st ty) j)) :: st_log st /\
      (forall t', get_pc st' t' = if decide (t' = t) then PFree else get_pc st t') /\
      st_table st' = st_table st /\ st_heap st' = st_heap st /\ st_pool st' = st_pool st.
  Proof.
    revert st j acc. induction m as [|m IH]; intros st j acc Hpc Hlk Hs; simpl.
    - unfold exec. simpl. unfold step_thread. rewrite Hpc.
      rewrite (proj2 (Nat.ltb_nlt _ _)) by lia. eexists. split; [done|]. simpl.
      split; [do 2 f_equal; rewrite Hs, Nat.add_0_r; lia|]. split; [|done].
      intros t'. apply (get_pc_set st t PFree t').
    - unfold exec at 1. simpl. unfold step_thread. rewrite Hpc.
      rewrite (proj2 (Nat.ltb_lt _ _)) by lia. rewrite Hlk.
      set (st1 := set_pc st t _).
      destruct (IH st1 (S j) (acc + shard_len E st ty j)) as (st'&Hr&Hl&Hp&Ht&Hh&Hpl).
      + unfold st1. rewrite get_pc_set. by rewrite decide_True.
      + done.
      + lia.
      + exists st'. split; [exact Hr|]. split; [|split; [|done]].
        * rewrite Hl. simpl. do 2 f_equal.
          assert (forall n, shards_total (shard_len E st1 ty) n = shards_total (shard_len E st ty) n) as He.
          { intros n. induction n as [|n IHn]; [done|]. simpl. rewrite IHn. f_equal. }
          rewrite !He.
          assert (forall n k, shards_total (shard_len E st ty) n <= shards_total (shard_len E st ty) (n + k)) as Hm.
          { intros n k. induction k as [|k IHk]; [by rewrite Nat.add_0_r|].
            rewrite Nat.add_succ_r. simpl. lia. }
          pose proof (Hm (S j) m). rewrite Hs. replace (j + S m) with (S j + m) by lia. simpl in *.
          change (shard_len E st1 ty j) with (shard_len E st ty j). rewrite (He j). lia.
        * intros t'. rewrite Hp. unfold st1. rewrite get_pc_set. by destruct (decide (t' = t)).
  Qed.

  Lemma filter_NoDup {A} (f : A -> bool) (l : list A) : NoDup l -> NoDup (List.filter f l).
  Proof.
    induction 1 as [|x l Hx Hl IH]; simpl; [constructor|].
    destruct (f x); [|done]. constructor; [|done].
    rewrite elem_of_list_In, filter_In, <- elem_of_list_In. tauto.
  Qed.

  Lemma table_NoDup st : Inv E st -> NoDup (st_table st).
  Proof.
    intros HI. apply (NoDup_fmap_1 p_addr). apply occ_NoDup. intros a.
    pose proof (inv_own _ _ HI a) as Ho. unfold oc, tab_oc in Ho.
    destruct (st_heap st !! a); lia.
  Qed.

  Context (HC : coherent E) (HW : wide E).

  Lemma filter_live st ty p : Inv E st -> quiescent st -> st_zombies st = [] ->
    p ∈ List.filter (of_type st ty) (st_table st) <-> live_object E st ty p.
  Proof.
    intros HI Hq Hz. rewrite elem_of_list_In, filter_In, <- elem_of_list_In. unfold of_type, live_object.
    split.
    - intros [Hin Hty]. split.
      + unfold alive. pose proof (inv_rem _ _ HI p Hin) as Hrc. unfold rc in Hrc. rewrite Hz in Hrc.
        rewrite (quiescent_sum (pc_rc p)) in Hrc by done. simpl in Hrc.
        destruct (Nat.eqb_spec (hc st p) 0); lia.
      + destruct (data st p) as [d|]; [|done]. exists d. split; [done|]. by apply Nat.eqb_eq.
    - intros [Hh0 (d&Hd&Hty)]. split; [by apply (inv_hand _ _ HI)|]. rewrite Hd. by apply Nat.eqb_eq.
  Qed.

  Theorem len_quiescent ls st t ty :
    bounded E ls -> run (step E) init ls = Some st -> quiescent st -> st_zombies st = [] ->
    0 < te_shards E ->
    exists st' objs,
      run (step E) st (LLen t ty :: replicate (S (te_shards E)) (LStep t 0 0)) = Some st' /\
      st_log st' = EvLen t ty (length objs) :: st_log st /\
      NoDup objs /\ (forall p, p ∈ objs <-> live_object E st ty p) /\ quiescent st'.
  Proof.
    intros Hb Hr Hq Hz Hsh. pose proof (run_Inv E HC HW ls st Hb Hr) as HI.
    set (st1 := set_pc st t (PLen ty 0 0)).
    destruct (len_solo st1 t ty 0 0 (te_shards E)) as (st'&Hr'&Hl&Hp&Ht&Hh&Hpl).
    - unfold st1. rewrite get_pc_set. by rewrite decide_True.
    - intros l. simpl. destruct (st_locks st !! l) as [t'|] eqn:Hlk; [|done].
      apply (inv_lock _ _ HI) in Hlk. by rewrite (Hq t') in Hlk.
    - done.
    - exists st', (List.filter (of_type st ty) (st_table st)).
      split; [|split; [|split; [|split]]].
      + rewrite <- Hr'. cbn [run]. unfold exec at 1. simpl. by rewrite Hq.
      + rewrite Hl. simpl. do 2 f_equal. rewrite Nat.sub_0_r.
        rewrite <- shards_sum by done.
        reflexivity.
      + apply filter_NoDup. by apply table_NoDup.
      + intros p. by apply filter_live.
      + intros t'. rewrite Hp. destruct (decide (t' = t)); [done|].
        unfold st1. rewrite get_pc_set. rewrite decide_False by done. apply Hq.
  Qed.

  (** Under concurrency: the result adds up what each shard held at the moment it was
      visited, the visits being made one after the other during the call. *)
  Lemma shards_total_ext f g n : (forall i, i < n -> f i = g i) -> shards_total f n = shards_total g n.
  Proof.
    induction n as [|n IH]; intros H; simpl; [done|]. rewrite IH, (H n); [done|lia|].
    intros i Hi. apply H. lia.
  Qed.

  Theorem len_visits st0 t ty ls st' n rest :
    get_pc st0 t = PFree ->
    run (step E) st0 (LLen t ty :: ls) = Some st' ->
    (forall l1 l2 st1, ls = l1 ++ l2 -> run (step E) st0 (LLen t ty :: l1) = Some st1 ->
       l2 <> [] -> get_pc st1 t <> PFree) ->
    st_log st' = EvLen t ty n :: rest ->
    get_pc st' t = PFree ->
    exists (time : nat -> nat) (at_time : nat -> state V),
      (forall i, i < te_shards E -> time i < length ls /\
         run (step E) st0 (LLen t ty :: take (time i) ls) = Some (at_time i)) /\
      (forall i j, i < j < te_shards E -> time i < time j) /\
      n = shards_total (λ i, shard_len E (at_time i) ty i) (te_shards E).
  Proof.
    intros Hpc0 Hr Hst Hlog Hfin.
    set (st1 := set_pc st0 t (PLen ty 0 0)).
    assert (forall l, run (step E) st0 (LLen t ty :: l) = run (step E) st1 l) as Hstart.
    { intros l. cbn [run]. unfold exec. simpl. by rewrite Hpc0. }
    set (good := λ (m j : nat) (g : nat -> nat) (f : nat -> state V),
      (forall i, i < j -> g i < m /\ run (step E) st1 (take (g i) ls) = Some (f i)) /\
      (forall i i', i < i' < j -> g i < g i')).
    assert (forall l1 l2 s, ls = l1 ++ l2 -> run (step E) st1 l1 = Some s ->
      (exists j g f, j <= te_shards E /\ good (length l1) j g f /\
         get_pc s t = PLen ty j (shards_total (λ i, shard_len E (f i) ty i) j)) \/
      get_pc s t = PFree /\ exists g f, good (length l1) (te_shards E) g f /\
        exists rest', st_log s = EvLen t ty (shards_total (λ i, shard_len E (f i) ty i) (te_shards E)) :: rest') as Hinv.
    { induction l1 as [|l l1 IH] using rev_ind; intros l2 s Hls Hrun.
      - simpl in Hrun. injection Hrun as <-. left. exists 0, (λ _, 0), (λ _, st0). split; [lia|].
        split; [split; intros; lia|]. unfold st1. rewrite get_pc_set. by rewrite decide_True.
      - rewrite run_snoc in Hrun. destruct (run (step E) st1 l1) as [s1|] eqn:Hr1; [|done].
        assert (ls = l1 ++ l :: l2) as Hls' by (by rewrite Hls, <- app_assoc).
        assert (take (length l1) ls = l1) as Htake by (rewrite Hls', take_app; done).
        assert (forall j g f, good (length l1) j g f -> good (length (l1 ++ [l])) j g f) as Hmon.
        { intros j g f [H1 H2]. split; [|done]. intros i Hi. destruct (H1 i Hi).
          rewrite app_length. simpl. split; [lia|done]. }
        destruct (IH (l :: l2) s1) as [(j&g&f&Hj&Hg&Hpc)|[Hpc _]]; [done|done| |].
        2: { exfalso. by eapply (Hst l1 (l :: l2) s1); [|rewrite Hstart| |]. }
        unfold exec in Hrun.
        destruct (step E s1 l) as [s2| | |] eqn:Hs; try done; injection Hrun as <-; try (left; exists j, g, f; eauto; done).
        assert (forall t' x, get_pc s1 t' = PFree \/ t' <> t -> get_pc (set_pc s1 t' x) t = get_pc s1 t) as Hoth.
        { intros t' x Ht'. rewrite get_pc_set. destruct (decide (t = t')) as [->|]; [|done].
          destruct Ht' as [Ht'|]; [congruence|done]. }
        assert (get_pc s2 t = get_pc s1 t \/ exists a i, l = LStep t a i) as [Hsame|(a&i&->)].
        { clear -Hs Hoth Hpc. destruct l as [t' k v|t' q|q ks|q|q ks|q ks|t' ty'|t' ty'|t' a i|t']; simpl in Hs.
          - left. destruct (get_pc s1 t') eqn:Hp'; try done. destruct k.
            + destruct rem_all as [pl|]; [|done]. injection Hs as <-.
              exact (Hoth t' _ (or_introl Hp')).
            + destruct te_kids; [|done]. injection Hs as <-. exact (Hoth t' _ (or_introl Hp')).
          - left. destruct (get_pc s1 t') eqn:Hp'; try done. destruct rem1 as [pl|]; [|done].
            injection Hs as <-. exact (Hoth t' _ (or_introl Hp')).
          - left. destruct (borrow E s1 q ks); try done. destruct (deref s1 s); [|done].
            by injection Hs as <-.
          - left. destruct rem1; [|done]. by injection Hs as <-.
          - left. destruct (borrow E s1 q ks); try done. destruct (deref s1 s); [|done].
            by injection Hs as <-.
          - left. destruct (borrow E s1 q ks); try done. destruct (data s1 s); [|done].
            by injection Hs as <-.
          - left. destruct (get_pc s1 t') eqn:Hp'; try done. injection Hs as <-.
            exact (Hoth t' _ (or_introl Hp')).
          - left. destruct (get_pc s1 t') eqn:Hp'; try done. injection Hs as <-.
            exact (Hoth t' _ (or_introl Hp')).
          - destruct (decide (t' = t)) as [->|Hne]; [right; eauto|left].
            unfold step_thread in Hs.
            repeat (match goal with
              | H : Next _ = Next _ |- _ => injection H as <-
              | H : (match ?x with _ => _ end) = Next _ |- _ => destruct x; try done
              end); exact (Hoth t' _ (or_intror Hne)).
          - left. destruct (decide (t' = t)) as [->|Hne].
            + unfold step_panic in Hs. by rewrite Hpc in Hs.
            + unfold step_panic in Hs.
              repeat (match goal with
              | H : Next _ = Next _ |- _ => injection H as <-
              | H : (match ?x with _ => _ end) = Next _ |- _ => destruct x; try done
              end); exact (Hoth t' _ (or_intror Hne)). }
        + left. exists j, g, f. rewrite Hsame. eauto.
        + simpl in Hs. unfold step_thread in Hs. rewrite Hpc in Hs.
          destruct (Nat.ltb_spec j (te_shards E)) as [Hlt|Hge].
          * destruct (st_locks s1 !! (ty, j)); [done|]. injection Hs as <-. left.
            exists (S j), (λ i, if i =? j then length l1 else g i), (λ i, if i =? j then s1 else f i).
            destruct Hg as [Hg1 Hg2].
            split; [lia|]. split; [split|].
            -- intros x Hi. rewrite app_length. simpl. destruct (Nat.eqb_spec x j) as [->|Hne].
               ++ split; [lia|]. by rewrite Htake.
               ++ destruct (Hg1 x); [lia|]. split; [lia|done].
            -- intros x x' Hi. destruct (Nat.eqb_spec x j); [lia|].
               destruct (Nat.eqb_spec x' j).
               ++ apply Hg1. lia.
               ++ apply Hg2. lia.
            -- rewrite get_pc_set. rewrite decide_True by done. simpl.
               rewrite Nat.eqb_refl. do 2 f_equal. apply shards_total_ext.
               intros x Hi. by rewrite (proj2 (Nat.eqb_neq _ _)) by lia.
          * injection Hs as <-. right. replace j with (te_shards E) in * by lia. split.
            -- etransitivity; [apply (get_pc_set s1 t PFree t)|]. by rewrite decide_True.
            -- exists g, f. split; [by apply Hmon|]. simpl. eauto. }
    rewrite Hstart in Hr.
    destruct (Hinv ls [] st') as [(j&g&f&_&_&Hpc)|[_ (g&f&[Hg1 Hg2]&rest'&Hl)]];
      [by rewrite app_nil_r|done|congruence|].
    exists g, f. split_and!; [|done|congruence].
    intros i Hi. destruct (Hg1 i Hi). rewrite Hstart. done.
  Qed.

  (** In particular it is exact if no object of that type comes or goes during the call. *)
  Theorem len_stable st0 t ty ls st' n rest :
    get_pc st0 t = PFree ->
    run (step E) st0 (LLen t ty :: ls) = Some st' ->
    (forall l1 l2 st1, ls = l1 ++ l2 -> run (step E) st0 (LLen t ty :: l1) = Some st1 ->
       (forall i, shard_len E st1 ty i = shard_len E st0 ty i) /\
       (l2 <> [] -> get_pc st1 t <> PFree)) ->
    st_log st' = EvLen t ty n :: rest ->
    get_pc st' t = PFree ->
    n = shards_total (shard_len E st0 ty) (te_shards E).
  Proof.
    intros Hpc0 Hr Hst Hlog Hfin.
    destruct (len_visits st0 t ty ls st' n rest) as (g&f&Hg&_&->); try done.
    { intros l1 l2 st1 He Hr1. by apply (Hst l1 l2 st1 He Hr1). }
    apply shards_total_ext. intros i Hi. destruct (Hg i Hi) as [_ Hrun].
    apply (Hst (take (g i) ls) (drop (g i) ls) (f i)); [by rewrite take_drop|done].
  Qed.
End len.

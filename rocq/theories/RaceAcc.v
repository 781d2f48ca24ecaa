(** The operations of the steps of RaceModel account for them (C51). *)
From stdpp Require Import gmap list numbers.
From Verif Require Import Base ArcModel ArcSpec ArcInv RaceModel RaceSpec RaceInv RaceSafe RaceFinal RaceThm RaceAccSpec.

Lemma touches_cons m ms k w : touches (m :: ms) k w <-> (k, w) ∈ touched m \/ touches ms k w.
Proof.
  split.
  - intros (x&[->|H]%elem_of_cons&Hx); [by left|right; by exists x].
  - intros [H|(x&H&Hx)]; [exists m; split; [left|done]|exists x; split; [by right|done]].
Qed.
Lemma touches_nil k w : ~ touches [] k w.
Proof. by intros (x&?%elem_of_nil&_). Qed.

Lemma eqb2_sym x y z w : (x =? y) && (z =? w) = false -> (y =? x) && (w =? z) = false.
Proof. by rewrite (Nat.eqb_sym x), (Nat.eqb_sym z). Qed.

Section acc.
  Context {V : Type} (E : tyenv V) (O : orders).
  Implicit Types (st : state V) (s : rstate V) (p q : ptr).

  (** ** Changing the heap, and nothing else *)
  Definition hp (f : cell V -> cell V) st : state V := set_heap st (f <$> st_heap st).
  Definition pokes (F : state V -> state V) s : rstate V := set_st s (F (r_st s)).
  Section pokes.
  Context (F : state V -> state V) (HF : forall st t, get_pc (F st) t = get_pc st t).
  Notation poke F s := (pokes F s) (only parsing).
  Lemma apply_poke s t m : apply (poke F s) t m = poke F (apply s t m).
  Proof. destruct m; simpl; try done; repeat case_match; done. Qed.
  Lemma applies_poke ms : forall s t, applies (poke F s) t ms = poke F (applies s t ms).
  Proof.
    induction ms as [|m ms IH]; intros s t; [done|]. unfold applies in *. simpl. rewrite apply_poke. apply IH.
  Qed.
  Lemma may_use_poke s t h : may_use (poke F s) t h = may_use s t h.
  Proof. unfold may_use. simpl. by rewrite HF. Qed.
  Lemma may_consume_poke s t h : may_consume (poke F s) t h = may_consume s t h.
  Proof. unfold may_consume. by rewrite may_use_poke. Qed.
  Lemma consume_poke hs : forall s t, consume_all (poke F s) t hs = (λ x, (x.1, poke F x.2)) <$> consume_all s t hs.
  Proof.
    induction hs as [|h hs IH]; intros s t; [done|]. simpl. rewrite may_consume_poke. destruct (may_consume s t h) as [x|]; [|done].
    replace (set_hands (poke F s) (delete h (r_hands s))) with (poke F (set_hands s (delete h (r_hands s)))) by done. rewrite IH.
    by destruct (consume_all _ t hs) as [[]|].
  Qed.
  Lemma lift_poke g s l s' : (forall x, g (poke F x) = poke F (g x)) ->
    (forall st', step E (r_st s) l = Next st' -> step E (F (r_st s)) l = Next (F st')) ->
    lift E s l g = Next s' -> lift E (poke F s) l g = Next (poke F s').
  Proof.
    intros Hg Hs (st&Hst&->)%lift_Next. unfold lift. change (r_st (poke F s)) with (F (r_st s)). rewrite (Hs _ Hst). f_equal.
    rewrite <- Hg. done.
  Qed.

  (** A step is the same after [f] if the step of ArcModel and its operations are. *)
  Lemma rstep_pokes s l s' :
    (forall l' st', erase s l = Some l' -> step E (r_st s) l' = Next st' -> step E (F (r_st s)) l' = Next (F st')) ->
    (forall t a i h, l = RStep t a i h -> mops E O (F (r_st s)) t i = mops E O (r_st s) t i) ->
    (forall t, l = RPanic t -> panic_mops E (F (r_st s)) t = panic_mops E (r_st s) t) ->
    rstep E O s l = Next s' -> rstep E O (poke F s) l = Next (poke F s').
  Proof.
    intros Hst Hm Hp.
    destruct l as [t k v hs|t h|t h ks h'|t h|t h ks|t h ks|t ty|t ty|t a i h|t|t m|t m]; cbn [rstep]; intros Hs.
    - rewrite consume_poke. destruct (consume_all s t hs) as [[ps s1]|] eqn:Hc; [|done]. simpl. destruct (decide _); [|done].
      apply consume_all_inv in Hc as (hm&->&_). apply lift_poke; [done| |done]. intros. by apply Hst.
    - rewrite may_consume_poke. destruct (may_consume s t h) as [x|] eqn:Hc; [|done].
      apply may_consume_inv in Hc as (_&Hh&_). cbn in Hst. rewrite Hh in Hst.
      apply (lift_poke (λ x, x) (set_hands s (delete h (r_hands s)))); [done| |done]. intros. by apply Hst.
    - rewrite may_use_poke. destruct (may_use s t h) as [x|] eqn:Hc; [|done]. change (r_hands (poke F s)) with (r_hands s).
      destruct (r_hands s !! h'); [done|]. apply may_use_inv in Hc as (_&Hh&_). cbn in Hst. rewrite Hh in Hst.
      apply lift_poke; [|by intros; apply Hst|done]. intros y. by rewrite applies_poke.
    - rewrite may_consume_poke. destruct (may_consume s t h) as [x|] eqn:Hc; [|done].
      apply may_consume_inv in Hc as (_&Hh&_). cbn in Hst. rewrite Hh in Hst.
      apply (lift_poke (λ x, x) (set_hands s (delete h (r_hands s)))); [done| |done]. intros. by apply Hst.
    - rewrite may_use_poke. destruct (may_use s t h) as [x|] eqn:Hc; [|done].
      apply may_use_inv in Hc as (_&Hh&_). cbn in Hst. rewrite Hh in Hst.
      apply lift_poke; [|by intros; apply Hst|done]. intros y. by rewrite applies_poke.
    - rewrite may_use_poke. destruct (may_use s t h) as [x|] eqn:Hc; [|done].
      apply may_use_inv in Hc as (_&Hh&_). cbn in Hst. rewrite Hh in Hst.
      apply lift_poke; [|by intros; apply Hst|done]. intros y. by rewrite applies_poke.
    - apply lift_poke; [done|by intros; apply Hst|done].
    - apply lift_poke; [done|by intros; apply Hst|done].
    - change (r_st (poke F s)) with (F (r_st s)); rewrite HF.
      assert (forall g, lift E s (LStep t a i) g = Next s' -> (forall x, g (poke F x) = poke F (g x)) ->
        lift E (poke F s) (LStep t a i) g = Next (poke F s')) as Hgo.
      { intros g Hl Hg. apply lift_poke; [done|by intros; apply Hst|done]. }
      assert (lift E s (LStep t a i) (λ s', applies s' t (mops E O (r_st s) t i)) = Next s' ->
        lift E (poke F s) (LStep t a i) (λ s', applies s' t (mops E O (r_st (poke F s)) t i)) = Next (poke F s')) as Hgo2.
      { intros Hl. change (r_st (poke F s)) with (F (r_st s)). rewrite (Hm t a i h eq_refl). apply Hgo; [done|]. intros. apply applies_poke. }
      destruct (get_pc (r_st s) t) as [| | | | | | | | | | |[|it w] [[v p]|]| |] eqn:Hpc; try (by apply Hgo2).
      change (r_hands (poke F s)) with (r_hands s). destruct (r_hands s !! h); [done|]. by apply Hgo.
    - change (r_st (poke F s)) with (F (r_st s)). rewrite (Hp t eq_refl). apply lift_poke; [|by intros; apply Hst|done].
      intros. apply applies_poke.
    - change (r_st (poke F s)) with (F (r_st s)); rewrite HF. case_match; try done. by simplify_eq.
    - change (r_st (poke F s)) with (F (r_st s)); rewrite HF. case_match; try done. by simplify_eq.
  Qed.

  End pokes.
  Lemma rstep_poke f s l s' :
    (forall l' st', erase s l = Some l' -> step E (r_st s) l' = Next st' -> step E (hp f (r_st s)) l' = Next (hp f st')) ->
    (forall t a i h, l = RStep t a i h -> mops E O (hp f (r_st s)) t i = mops E O (r_st s) t i) ->
    (forall t, l = RPanic t -> panic_mops E (hp f (r_st s)) t = panic_mops E (r_st s) t) ->
    rstep E O s l = Next s' -> rstep E O (poke f s) l = Next (poke f s').
  Proof. apply (rstep_pokes (hp f)). done. Qed.

  (** ** Other data *)
  Section data.
    Context (st : state V) (k : nat) (v : V).
    Context (Hsame : forall a c d, st_heap st !! a = Some c -> c_ser c = k -> c_data c = Some d -> lock_of E v = lock_of E d).
    Notation f := (poke_data k v).
    Notation st1 := (hp f st).

    Lemma pd_ser c : c_ser (f c) = c_ser c.
    Proof. unfold poke_data. repeat case_match; done. Qed.
    Lemma pd_deref p : deref st1 p = f <$> deref st p.
    Proof.
      unfold deref. simpl. rewrite lookup_fmap. destruct (st_heap st !! p_addr p) as [c|]; [|done]. simpl. rewrite pd_ser.
      by destruct (_ =? _).
    Qed.
    Lemma pd_data_ne p : p_ser p <> k -> data st1 p = data st p.
    Proof.
      intros Hne. unfold data. rewrite pd_deref. destruct (deref st p) as [c|] eqn:Hd; [|done]. simpl.
      apply deref_Some in Hd as [_ Hd]. unfold poke_data. destruct (Nat.eqb_spec (c_ser c) k); [congruence|done].
    Qed.
    Lemma pd_data_some p : (exists d, data st1 p = Some d) <-> exists d, data st p = Some d.
    Proof.
      unfold data. rewrite pd_deref. destruct (deref st p) as [c|]; [|done]. simpl. unfold poke_data.
      destruct (_ =? _); [|done]. destruct (c_data c) eqn:Hc; [|by rewrite Hc]. simpl. split; intros _; by eexists.
    Qed.
    Lemma pd_data_lock p d d' : data st1 p = Some d -> data st p = Some d' -> lock_of E d = lock_of E d'.
    Proof.
      unfold data. rewrite pd_deref. destruct (deref st p) as [c|] eqn:Hd; [|done]. apply deref_Some in Hd as [Ha _]. simpl. unfold poke_data.
      destruct (Nat.eqb_spec (c_ser c) k) as [Hk|]; [|congruence]. destruct (c_data c) eqn:Hc; [|congruence]. simpl. intros [= <-] [= <-].
      by eapply Hsame.
    Qed.
    Lemma pd_in_shard ty i q : in_shard E st1 ty i q = in_shard E st ty i q.
    Proof.
      unfold in_shard. pose proof (pd_data_some q) as Hq. pose proof (pd_data_lock q) as Hl.
      destruct (data st1 q) as [d|], (data st q) as [d'|]; try done.
      - specialize (Hl _ _ eq_refl eq_refl). unfold lock_of in Hl. injection Hl as -> ->. done.
      - destruct Hq as [[? ?] _]; [by eexists|done].
      - destruct Hq as [_ [? ?]]; [by eexists|done].
    Qed.
    Lemma pd_shard l : shard E st1 l = shard E st l.
    Proof.
      unfold shard. f_equal. simpl. induction (st_table st) as [|q tb IH]; [done|]. simpl. by rewrite pd_in_shard, IH.
    Qed.
    Lemma pd_shard_len ty i : shard_len E st1 ty i = shard_len E st ty i.
    Proof.
      unfold shard_len. simpl. induction (st_table st) as [|q tb IH]; [done|]. simpl. rewrite pd_in_shard.
      destruct (in_shard E st ty i q); simpl; by rewrite IH.
    Qed.
    Lemma pd_readable : readable st1 = readable st.
    Proof.
      unfold readable. simpl. induction (st_table st) as [|q tb IH]; [done|]. simpl. rewrite IH. f_equal.
      pose proof (pd_data_some q) as Hq. destruct (data st1 q), (data st q); try done.
      - destruct Hq as [[? ?] _]; [by eexists|done].
      - destruct Hq as [_ [? ?]]; [by eexists|done].
    Qed.
    Lemma pd_matches w : (k, TRead) ∉ shard E st (lock_of E w) -> matches E st1 w = matches E st w.
    Proof.
      unfold matches, shard. simpl. induction (st_table st) as [|q tb IH]; [done|]. intros Hn. simpl in Hn |- *.
      assert (is_match E st1 w q = is_match E st w q) as ->.
      { destruct (decide (p_ser q = k)) as [Hk|]; [|unfold is_match; by rewrite pd_data_ne].
        assert (in_shard E st (te_ty E w) (te_hash E w mod te_shards E) q = false) as Hi.
        { destruct (in_shard E st _ _ q) eqn:Hi; [|done]. destruct Hn. simpl. rewrite <- Hk. left. }
        pose proof (pd_in_shard (te_ty E w) (te_hash E w mod te_shards E) q) as Hi1. rewrite Hi in Hi1.
        unfold in_shard in Hi, Hi1. unfold is_match.
        destruct (data st1 q) as [d1|], (data st q) as [d|].
        all: repeat match goal with
          | H : (?x =? ?y) && (?z =? ?w) = false |- _ => apply eqb2_sym in H; rewrite H; clear H
          end; done. }
      assert ((k, TRead) ∉ ((λ q, (p_ser q, TRead)) <$> List.filter (in_shard E st (te_ty E w) (te_hash E w mod te_shards E)) tb)) as Hn'.
      { intros H. apply Hn. destruct (in_shard _ _ _ _ q); [by right|done]. }
      rewrite (IH Hn'). done.
    Qed.
    Lemma pd_set_count (z : state V) p c n : set_count (hp f z) p (f c) n = hp f (set_count z p c n).
    Proof.
      unfold set_count, hp, set_heap. simpl. f_equal. rewrite fmap_insert. f_equal. unfold poke_data. simpl.
      destruct (_ =? _); [|done]. by destruct c as [? ? []].
    Qed.
    Lemma pd_take (z : state V) p c : take_data (hp f z) p (f c) = hp f (take_data z p c).
    Proof.
      unfold take_data, hp, set_heap. simpl. f_equal. rewrite fmap_insert. f_equal. unfold poke_data. simpl.
      destruct (_ =? _); [|done]. by destruct c as [? ? []].
    Qed.
    Lemma pd_count c : c_count (f c) = c_count c.
    Proof. unfold poke_data. repeat case_match; done. Qed.
    Lemma pd_free (z : state V) p : free (hp f z) p = hp f (free z p).
    Proof. unfold free, hp, set_heap. simpl. f_equal. by rewrite fmap_delete. Qed.
    Lemma pd_alloc a w : st_next st <> k -> alloc st1 a w = hp f (alloc st a w).
    Proof.
      intros Hn. unfold alloc, hp, set_heap. simpl. f_equal. rewrite fmap_insert. f_equal. unfold poke_data. simpl.
      by destruct (Nat.eqb_spec (st_next st) k).
    Qed.

    Lemma pd_data_same p d : p_ser p <> k -> data st p = Some d -> data st1 p = Some d.
    Proof. intros Hp Hd. by rewrite pd_data_ne. Qed.
    Lemma pd_deref_same p c : p_ser p <> k -> deref st p = Some c -> deref st1 p = Some c.
    Proof.
      intros Hp Hd. rewrite pd_deref, Hd. simpl. apply deref_Some in Hd as [_ Hd]. unfold poke_data.
      destruct (Nat.eqb_spec (c_ser c) k); [congruence|done].
    Qed.
    Lemma pd_fix p c : p_ser p <> k -> deref st p = Some c -> f c = c.
    Proof.
      intros Hp Hd. apply deref_Some in Hd as [_ Hd]. unfold poke_data. destruct (Nat.eqb_spec (c_ser c) k); [congruence|done].
    Qed.
    Definition unread (ms : list mop) : Prop := ~ touches ms k TRead /\ ~ touches ms k TWrite.

    Lemma pd_step_thread t a i st' :
      (forall kd w q, get_pc st t = PEntry kd w q -> data st q = Some w) ->
      unread (mops E O st t i) -> step_thread E st t a i = Next st' ->
      step_thread E st1 t a i = Next (hp f st') /\ mops E O st1 t i = mops E O st t i.
    Proof.
      unfold unread. intros He [Hr Hw] Hs. unfold step_thread in *. unfold mops in *.
      change (get_pc st1 t) with (get_pc st t). change (st_locks st1) with (st_locks st).
      destruct (get_pc st t) as [|kd w b|kd w b p|kd w b p old|kd w b p|kd w b|kd w q|kd w q|kd w q|kd w q|l q w r|
        [|[p|p|q] w] r|ty j acc|ty j] eqn:Hpc; rewrite ?touches_cons in Hr; rewrite ?touches_cons in Hw.
      - done.
      - destruct (st_locks st !! lock_of E w); [done|]. rewrite pd_readable, pd_matches, pd_shard by tauto.
        destruct (readable st); [|done]. destruct (pick i (matches E st w)); by simplify_eq.
      - rewrite pd_deref. destruct (deref st p) as [c|]; [|done]. simpl. simplify_eq. by rewrite pd_set_count, pd_count.
      - destruct (old =? 0)%N; [|by simplify_eq]. rewrite pd_deref. destruct (deref st p) as [c|]; [|done]. simpl. simplify_eq.
        by rewrite pd_set_count, pd_count.
      - by simplify_eq.
      - assert (forall (x : ptr -> pc V) (L : list mop), L = [MTouch [(st_next st, TWrite)]] -> ~ touches L k TWrite ->
          match st_heap st !! a with Some _ => Illegal | None => Next (set_pc (alloc st a w) t (x (Ptr a (st_next st)))) end = Next st' ->
          match st_heap st1 !! a with Some _ => Illegal | None => Next (set_pc (alloc st1 a w) t (x (Ptr a (st_next st1)))) end
            = Next (hp f st')) as Hal.
        { intros x L -> Hn Hx. simpl. rewrite lookup_fmap. destruct (st_heap st !! a); [done|]. simpl. simplify_eq.
          rewrite pd_alloc; [done|]. intros Hk. apply Hn, touches_cons. left. rewrite <- Hk. by apply elem_of_list_here. }
        destruct kd, b; try (by simplify_eq); (split; [|done]); by eapply (Hal (PEntry _ w) _ eq_refl).
      - specialize (He _ _ _ eq_refl). rewrite He in Hs. rewrite (pd_data_same q w), pd_readable, pd_matches, pd_shard; [|tauto|intros <-; apply Hr; left; by apply elem_of_list_here|done].
        destruct (st_locks st !! lock_of E w); [done|]. destruct (readable st); [|done].
        destruct (pick i (matches E st w)); by simplify_eq.
      - simplify_eq. by rewrite pd_shard.
      - destruct kd; [|by simplify_eq]. rewrite pd_deref. destruct (deref st q) as [c|] eqn:Hq; [|done]. simpl.
        rewrite (pd_fix q c); [|intros <-; apply Hw; right; apply touches_cons; left; by apply elem_of_list_here|done].
        destruct (c_data c); [|done]. simplify_eq. split; [|done]. change (unlock st1 (lock_of E w)) with (hp f (unlock st (lock_of E w))). by rewrite pd_free.
      - by simplify_eq.
      - rewrite pd_deref. destruct (deref st q) as [c|] eqn:Hq; [|done]. simpl.
        assert (f c = c) as Hc by (apply (pd_fix q); [intros <-; apply Hw; right; left; by apply elem_of_list_here|done]).
        rewrite Hc. destruct (c_data c); [|done]. simplify_eq. split; [|done]. 
        pose proof (pd_take (unlock (set_table st (remove_entry q (st_table st))) l) q c) as Hz. rewrite Hc in Hz.
        change (unlock (set_table st1 (remove_entry q (st_table st))) l) with (hp f (unlock (set_table st (remove_entry q (st_table st))) l)).
        by rewrite Hz.
      - destruct r as [[w p]|]; by simplify_eq.
      - rewrite pd_deref. destruct (deref st p) as [c|]; [|done]. simpl. simplify_eq. by rewrite pd_set_count, pd_count.
      - destruct (data st p) as [d|] eqn:Hd; [|done]. rewrite ?touches_cons in Hr. rewrite ?touches_cons in Hw.
        rewrite (pd_data_same p d), pd_readable, pd_matches, pd_shard; [|tauto|intros <-; apply Hr; left; by apply elem_of_list_here|done].
        destruct (st_locks st !! lock_of E d); [done|]. destruct (readable st); [|done].
        destruct (pick i (matches E st d)); by simplify_eq.
      - rewrite pd_deref. destruct (deref st q) as [c|]; [|done]. simpl. simplify_eq. split; [|done]. by rewrite pd_free.
      - destruct (j <? te_shards E); [|by simplify_eq]. destruct (st_locks st !! (ty, j)); [done|]. simplify_eq. by rewrite pd_shard_len.
      - destruct (j <? te_shards E); [|by simplify_eq]. rewrite pd_shard. destruct (st_locks st !! (ty, j)); [done|]. by simplify_eq.
    Qed.

    Lemma pd_searched l : searched E st1 l = searched E st l.
    Proof. unfold searched. by rewrite pd_shard. Qed.
    Lemma pd_step_panic t st' :
      unread (panic_mops E st t) -> step_panic E st t = Next st' ->
      step_panic E st1 t = Next (hp f st') /\ panic_mops E st1 t = panic_mops E st t.
    Proof.
      intros [Hr Hw] Hs. unfold step_panic, panic_mops in *. change (get_pc st1 t) with (get_pc st t).
      destruct (get_pc st t) as [|kd w b|kd w b p|kd w b p old|kd w b p|kd w b|kd w q|kd w q|kd w q|kd w q|l q w r|
        [|[p|p|q] w] r|ty j acc|ty j] eqn:Hpc; try done.
      - simplify_eq. by rewrite pd_searched.
      - rewrite touches_cons in Hr. rewrite pd_searched. rewrite pd_deref. destruct (deref st q) as [c|] eqn:Hq; [|done]. simpl.
        assert (f c = c) as Hc by (apply (pd_fix q); [intros <-; apply Hr; left; by apply elem_of_list_here|done]).
        rewrite Hc. destruct (c_data c); [|done]. simplify_eq. split; [|done]. pose proof (pd_take st q c) as Hz. rewrite Hc in Hz. by rewrite Hz.
      - simplify_eq. split; [done|]. pose proof (pd_data_some p) as Hp. destruct (data st p) as [d|] eqn:Hd.
        + rewrite touches_cons in Hr. rewrite (pd_data_same p d); [by rewrite pd_searched| |done].
          intros <-. apply Hr. left. by apply elem_of_list_here.
        + destruct (data st1 p); [|done]. destruct Hp as [[? ?] _]; [by eexists|done].
    Qed.

    Lemma pd_follow ks : forall p r, k ∉ path p ks -> follow E st p ks = Next r -> follow E st1 p ks = Next r.
    Proof.
      induction ks as [|x ks IH]; intros p r Hn Hf; [done|]. simpl in *. destruct (data st p) as [d|] eqn:Hd; [|done].
      rewrite (pd_data_same p d); [|intros <-; apply Hn; left|done]. destruct (decide _); [|done]. apply IH; [|done].
      intros ?. apply Hn. by right.
    Qed.
    Lemma pd_borrow ks p r : k ∉ path p ks -> borrow E st p ks = Next r -> borrow E st1 p ks = Next r.
    Proof. intros Hn. unfold borrow. simpl. destruct (decide _); [|done]. by apply pd_follow. Qed.
  End data.

  Lemma elem_fmap (k : nat) (w : how) (L : list nat) : k ∈ L -> (k, w) ∈ (λ n, (n, w)) <$> L.
  Proof. intros. apply elem_of_list_fmap. by exists k. Qed.

  Lemma erase_ops_data s l s' k v :
    (forall a c d, st_heap (r_st s) !! a = Some c -> c_ser c = k -> c_data c = Some d -> lock_of E v = lock_of E d) ->
    (forall t kd w q, get_pc (r_st s) t = PEntry kd w q -> data (r_st s) q = Some w) ->
    unread k (ops E O s l) -> rstep E O s l = Next s' ->
    rstep E O (poke (poke_data k v) s) l = Next (poke (poke_data k v) s').
  Proof.
    intros Hv He Hu Hs. pose proof (rstep_erase E O s l s' Hs) as Hst. apply rstep_poke; [| | |done].
    - intros l' st' Hl Hl'. clear Hs Hst.
      destruct l as [t kd w hs|t h|t h ks h'|t h|t h ks|t h ks|t ty|t ty|t a i h|t|t m|t m]; cbn [erase ops] in Hl, Hu; simplify_eq.
      + simpl in *. change (get_pc (hp (poke_data k v) (r_st s)) t) with (get_pc (r_st s) t).
        repeat (case_match; try done); by simplify_eq.
      + destruct (r_hands s !! h); [|done]. simplify_eq. simpl in *. change (get_pc (hp (poke_data k v) (r_st s)) t) with (get_pc (r_st s) t).
        repeat (case_match; try done); by simplify_eq.
      + destruct (r_hands s !! h) as [x|]; [|done]. simplify_eq. simpl in *. destruct Hu as [Hr _]. rewrite touches_cons in Hr.
        destruct (borrow E (r_st s) (h_ptr x) ks) as [y| | |] eqn:Hb; try done.
        rewrite (pd_borrow (r_st s) k v Hv ks (h_ptr x) y); [|intros Hin; apply Hr; left; by apply elem_fmap|done]. rewrite pd_deref.
        destruct (deref (r_st s) y) as [c|]; [|done]. simpl. simplify_eq. by rewrite pd_set_count, pd_count.
      + destruct (r_hands s !! h); [|done]. simplify_eq. simpl in *. repeat (case_match; try done); by simplify_eq.
      + destruct (r_hands s !! h) as [x|]; [|done]. simplify_eq. simpl in *. destruct Hu as [Hr _]. rewrite touches_cons in Hr.
        destruct (borrow E (r_st s) (h_ptr x) ks) as [y| | |] eqn:Hb; try done.
        rewrite (pd_borrow (r_st s) k v Hv ks (h_ptr x) y); [|intros Hin; apply Hr; left; by apply elem_fmap|done]. rewrite pd_deref.
        destruct (deref (r_st s) y) as [c|]; [|done]. simpl. simplify_eq. by rewrite pd_count.
      + destruct (r_hands s !! h) as [x|]; [|done]. simplify_eq. simpl in *. destruct Hu as [Hr _]. rewrite touches_cons in Hr.
        destruct (borrow E (r_st s) (h_ptr x) ks) as [y| | |] eqn:Hb; try done.
        pose proof (borrow_owns _ _ _ _ _ Hb) as (Hy&_&_). simpl in Hr. rewrite fmap_app, elem_of_app in Hr.
        rewrite (pd_borrow (r_st s) k v Hv ks (h_ptr x) y); [|intros Hin; apply Hr; left; left; by apply elem_fmap|done].
        rewrite pd_data_ne; [|intros <-; apply Hr; left; right; rewrite Hy; by apply elem_of_list_here].
        destruct (data (r_st s) y) as [c|]; [|done]. by simplify_eq.
      + simpl in *. change (get_pc (hp (poke_data k v) (r_st s)) t) with (get_pc (r_st s) t).
        repeat (case_match; try done); by simplify_eq.
      + simpl in *. change (get_pc (hp (poke_data k v) (r_st s)) t) with (get_pc (r_st s) t).
        repeat (case_match; try done); by simplify_eq.
      + simpl in *. by destruct (pd_step_thread _ k v Hv t a i st' (He t) Hu Hl').
      + simpl in *. by destruct (pd_step_panic _ k v Hv t st' Hu Hl').
    - intros t a i h ->. simpl in *. by destruct (pd_step_thread _ k v Hv t a i _ (He t) Hu Hst).
    - intros t ->. simpl in *. by destruct (pd_step_panic _ k v Hv t _ Hu Hst).
  Qed.

  (** ** Another count *)
  Section count.
    Context (k : nat) (n : N).
    Notation f := (poke_count k n).
    Implicit Types z : state V.

    Lemma pn_ser (c : cell V) : c_ser (f c) = c_ser c.
    Proof. unfold poke_count. case_match; done. Qed.
    Lemma pn_cdata (c : cell V) : c_data (f c) = c_data c.
    Proof. unfold poke_count. case_match; done. Qed.
    Lemma pn_deref z p : deref (hp f z) p = f <$> deref z p.
    Proof.
      unfold deref. simpl. rewrite lookup_fmap. destruct (st_heap z !! p_addr p) as [c|]; [|done]. simpl. rewrite pn_ser.
      by destruct (_ =? _).
    Qed.
    Lemma pn_data z p : data (hp f z) p = data z p.
    Proof. unfold data. rewrite pn_deref. destruct (deref z p); [|done]. simpl. apply pn_cdata. Qed.
    Lemma pn_in_shard z ty i q : in_shard E (hp f z) ty i q = in_shard E z ty i q.
    Proof. unfold in_shard. by rewrite pn_data. Qed.
    Lemma pn_filter (P Q : ptr -> bool) (L : list ptr) : (forall q, P q = Q q) -> List.filter P L = List.filter Q L.
    Proof. intros H. induction L as [|q L IH]; [done|]. simpl. by rewrite H, IH. Qed.
    Lemma pn_shard z l : shard E (hp f z) l = shard E z l.
    Proof. unfold shard. f_equal. apply pn_filter. intros q. apply pn_in_shard. Qed.
    Lemma pn_shard_len z ty i : shard_len E (hp f z) ty i = shard_len E z ty i.
    Proof. unfold shard_len. f_equal. apply pn_filter. intros q. apply pn_in_shard. Qed.
    Lemma pn_readable z : readable (hp f z) = readable z.
    Proof. unfold readable. simpl. induction (st_table z) as [|q tb IH]; [done|]. simpl. by rewrite pn_data, IH. Qed.
    Lemma pn_matches z w : matches E (hp f z) w = matches E z w.
    Proof. unfold matches. apply pn_filter. intros q. unfold is_match. by rewrite pn_data. Qed.
    Lemma pn_fix z p c : p_ser p <> k -> deref z p = Some c -> f c = c.
    Proof.
      intros Hp Hd. apply deref_Some in Hd as [_ Hd]. unfold poke_count. destruct (Nat.eqb_spec (c_ser c) k); [congruence|done].
    Qed.
    Lemma pn_set_count z p c m : p_ser p <> k -> deref z p = Some c ->
      set_count (hp f z) p c m = hp f (set_count z p c m).
    Proof.
      intros Hp [_ Hd]%deref_Some. unfold set_count, hp, set_heap. simpl. f_equal. rewrite fmap_insert. f_equal.
      unfold poke_count. simpl. destruct (Nat.eqb_spec (c_ser c) k); [congruence|done].
    Qed.
    Lemma pn_take z p c : take_data (hp f z) p (f c) = hp f (take_data z p c).
    Proof.
      unfold take_data, hp, set_heap. simpl. f_equal. rewrite fmap_insert. f_equal. unfold poke_count. simpl. by destruct (_ =? _).
    Qed.
    Lemma pn_free z p : free (hp f z) p = hp f (free z p).
    Proof. unfold free, hp, set_heap. simpl. f_equal. by rewrite fmap_delete. Qed.
    Lemma pn_alloc z a w : st_next z <> k -> alloc (hp f z) a w = hp f (alloc z a w).
    Proof.
      intros Hn. unfold alloc, hp, set_heap. simpl. f_equal. rewrite fmap_insert. f_equal. unfold poke_count. simpl.
      by destruct (Nat.eqb_spec (st_next z) k).
    Qed.
    Definition uncounted (ms : list mop) : Prop := ~ touches ms k TAtomic /\ ~ touches ms k TWrite.

    Lemma pn_mops z t i : mops E O (hp f z) t i = mops E O z t i.
    Proof.
      unfold mops. change (get_pc (hp f z) t) with (get_pc z t).
      destruct (get_pc z t) as [|kd w b|kd w b p|kd w b p old|kd w b p|kd w b|kd w q|kd w q|kd w q|kd w q|l q w r|
        [|[p|p|q] w] r|ty j acc|ty j]; rewrite ?pn_data; try (case_match; [|done]);
        rewrite ?pn_shard, ?pn_matches; done.
    Qed.
    Lemma pn_panic_mops z t : panic_mops E (hp f z) t = panic_mops E z t.
    Proof.
      unfold panic_mops, searched. change (get_pc (hp f z) t) with (get_pc z t).
      destruct (get_pc z t) as [|kd w b|kd w b p|kd w b p old|kd w b p|kd w b|kd w q|kd w q|kd w q|kd w q|l q w r|
        [|[p|p|q] w] r|ty j acc|ty j]; rewrite ?pn_data; try (case_match; [|done]);
        rewrite ?pn_shard, ?pn_matches; done.
    Qed.

    Lemma pn_step_thread z t a i z' : uncounted (mops E O z t i) -> step_thread E z t a i = Next z' ->
      step_thread E (hp f z) t a i = Next (hp f z').
    Proof.
      intros [Hr Hw] Hs. unfold step_thread in *. unfold mops in *.
      change (get_pc (hp f z) t) with (get_pc z t). change (st_locks (hp f z)) with (st_locks z).
      destruct (get_pc z t) as [|kd w b|kd w b p|kd w b p old|kd w b p|kd w b|kd w q|kd w q|kd w q|kd w q|l q w r|
        [|[p|p|q] w] r|ty j acc|ty j] eqn:Hpc.
      - done.
      - rewrite pn_readable, pn_matches. repeat (case_match; try done); by simplify_eq.
      - rewrite pn_deref. destruct (deref z p) as [c|] eqn:Hc; [|done]. simpl.
        assert (p_ser p <> k) as Hne by (intros <-; apply Hr, touches_cons; left; by apply elem_of_list_here).
        rewrite (pn_fix z p c), pn_set_count by done. by simplify_eq.
      - destruct (old =? 0)%N; [|by simplify_eq]. rewrite pn_deref. destruct (deref z p) as [c|] eqn:Hc; [|done]. simpl.
        assert (p_ser p <> k) as Hne by (intros <-; apply Hr, touches_cons; left; by apply elem_of_list_here).
        rewrite (pn_fix z p c), pn_set_count by done. by simplify_eq.
      - by simplify_eq.
      - assert (forall (x : ptr -> pc V) (L : list mop), L = [MTouch [(st_next z, TWrite)]] -> ~ touches L k TWrite ->
          match st_heap z !! a with Some _ => Illegal | None => Next (set_pc (alloc z a w) t (x (Ptr a (st_next z)))) end = Next z' ->
          match st_heap (hp f z) !! a with Some _ => Illegal | None => Next (set_pc (alloc (hp f z) a w) t (x (Ptr a (st_next (hp f z))))) end
            = Next (hp f z')) as Hal.
        { intros x L -> Hn Hx. simpl. rewrite lookup_fmap. destruct (st_heap z !! a); [done|]. simpl. simplify_eq.
          rewrite pn_alloc; [done|]. intros Hk. apply Hn, touches_cons. left. rewrite <- Hk. by apply elem_of_list_here. }
        destruct kd, b; try (by simplify_eq); by eapply (Hal (PEntry _ w) _ eq_refl).
      - rewrite pn_data. destruct (data z q) as [d|]; [|done]. rewrite pn_readable, pn_matches. repeat (case_match; try done); by simplify_eq.
      - by simplify_eq.
      - destruct kd; [|by simplify_eq]. rewrite pn_deref. destruct (deref z q) as [c|] eqn:Hq; [|done]. simpl.
        rewrite pn_cdata. destruct (c_data c); [|done]. simplify_eq.
        change (unlock (hp f z) (lock_of E w)) with (hp f (unlock z (lock_of E w))). by rewrite pn_free.
      - by simplify_eq.
      - rewrite pn_deref. destruct (deref z q) as [c|] eqn:Hq; [|done]. simpl.
        rewrite pn_cdata. destruct (c_data c); [|done]. simplify_eq.
        change (unlock (set_table (hp f z) (remove_entry q (st_table z))) l) with (hp f (unlock (set_table z (remove_entry q (st_table z))) l)).
        by rewrite pn_take.
      - destruct r as [[w p]|]; by simplify_eq.
      - rewrite pn_deref. destruct (deref z p) as [c|] eqn:Hc; [|done]. simpl.
        assert (p_ser p <> k) as Hne by (intros <-; apply Hr, touches_cons; left; by apply elem_of_list_here).
        rewrite (pn_fix z p c), pn_set_count by done. by simplify_eq.
      - rewrite pn_data. destruct (data z p) as [d|]; [|done]. rewrite pn_readable, pn_matches. repeat (case_match; try done); by simplify_eq.
      - rewrite pn_deref. destruct (deref z q) as [c|]; [|done]. simpl. simplify_eq. by rewrite pn_free.
      - rewrite pn_shard_len. repeat (case_match; try done); by simplify_eq.
      - repeat (case_match; try done); by simplify_eq.
    Qed.
    Lemma pn_step_panic z t z' : step_panic E z t = Next z' -> step_panic E (hp f z) t = Next (hp f z').
    Proof.
      intros Hs. unfold step_panic in *. change (get_pc (hp f z) t) with (get_pc z t).
      destruct (get_pc z t) as [|kd w b|kd w b p|kd w b p old|kd w b p|kd w b|kd w q|kd w q|kd w q|kd w q|l q w r|
        [|[p|p|q] w] r|ty j acc|ty j]; try done; try (by simplify_eq).
      rewrite pn_deref. destruct (deref z q) as [c|]; [|done]. simpl. rewrite pn_cdata. destruct (c_data c); [|done].
      simplify_eq. by rewrite pn_take.
    Qed.
    Lemma pn_borrow z ks p : borrow E (hp f z) p ks = borrow E z p ks.
    Proof.
      unfold borrow. simpl. destruct (decide _) as [_|]; [|done]. revert p. induction ks as [|x ks IH]; intros p; [done|].
      simpl. rewrite pn_data. destruct (data z p); [|done]. destruct (decide _); [|done]. apply IH.
    Qed.
  End count.

  Lemma erase_ops_count s l s' k n :
    uncounted k (ops E O s l) -> rstep E O s l = Next s' ->
    rstep E O (poke (poke_count k n) s) l = Next (poke (poke_count k n) s').
  Proof.
    intros Hu Hs. apply rstep_poke; [| | |done].
    - intros l' st' Hl Hl'. clear Hs.
      destruct l as [t kd w hs|t h|t h ks h'|t h|t h ks|t h ks|t ty|t ty|t a i h|t|t m|t m]; cbn [erase ops] in Hl, Hu; simplify_eq.
      + simpl in *. change (get_pc (hp (poke_count k n) (r_st s)) t) with (get_pc (r_st s) t).
        repeat (case_match; try done); by simplify_eq.
      + destruct (r_hands s !! h); [|done]. simplify_eq. simpl in *. change (get_pc (hp (poke_count k n) (r_st s)) t) with (get_pc (r_st s) t).
        repeat (case_match; try done); by simplify_eq.
      + destruct (r_hands s !! h) as [x|]; [|done]. simplify_eq. simpl in *. destruct Hu as [Hr _]. rewrite !touches_cons in Hr.
        rewrite pn_borrow. destruct (borrow E (r_st s) (h_ptr x) ks) as [y| | |] eqn:Hb; try done.
        pose proof (borrow_owns _ _ _ _ _ Hb) as (Hy&_&_).
        rewrite pn_deref. destruct (deref (r_st s) y) as [c|] eqn:Hc; [|done]. simpl.
        assert (p_ser y <> k) as Hne by (intros <-; apply Hr; right; left; rewrite Hy; by apply elem_of_list_here).
        rewrite (pn_fix _ _ (r_st s) y c), pn_set_count by done. by simplify_eq.
      + destruct (r_hands s !! h); [|done]. simplify_eq. simpl in *. repeat (case_match; try done); by simplify_eq.
      + destruct (r_hands s !! h) as [x|]; [|done]. simplify_eq. simpl in *. destruct Hu as [Hr _]. rewrite !touches_cons in Hr.
        rewrite pn_borrow. destruct (borrow E (r_st s) (h_ptr x) ks) as [y| | |] eqn:Hb; try done.
        pose proof (borrow_owns _ _ _ _ _ Hb) as (Hy&_&_).
        rewrite pn_deref. destruct (deref (r_st s) y) as [c|] eqn:Hc; [|done]. simpl.
        assert (p_ser y <> k) as Hne by (intros <-; apply Hr; right; left; rewrite Hy; by apply elem_of_list_here).
        rewrite (pn_fix _ _ (r_st s) y c) by done. by simplify_eq.
      + destruct (r_hands s !! h) as [x|]; [|done]. simplify_eq. simpl in *.
        rewrite pn_borrow. destruct (borrow E (r_st s) (h_ptr x) ks) as [y| | |] eqn:Hb; try done.
        rewrite pn_data. destruct (data (r_st s) y) as [c|]; [|done]. by simplify_eq.
      + simpl in *. change (get_pc (hp (poke_count k n) (r_st s)) t) with (get_pc (r_st s) t).
        repeat (case_match; try done); by simplify_eq.
      + simpl in *. change (get_pc (hp (poke_count k n) (r_st s)) t) with (get_pc (r_st s) t).
        repeat (case_match; try done); by simplify_eq.
      + simpl in *. by apply pn_step_thread.
      + simpl in *. by apply pn_step_panic.
    - intros. apply pn_mops.
    - intros. apply pn_panic_mops.
  Qed.

  (** ** Writes *)
  Implicit Types hh : gmap nat (cell V).
  Definition hwr hh (ms : list mop) hh' : Prop :=
    (forall a c, hh !! a = Some c ->
       (forall c', hh' !! a = Some c' -> c_ser c' <> c_ser c) -> touches ms (c_ser c) TWrite) /\
    (forall a c', hh' !! a = Some c' -> hh !! a <> Some c' ->
       touches ms (c_ser c') TWrite \/
       exists c o, hh !! a = Some c /\ c_ser c = c_ser c' /\ c_data c = c_data c' /\ MRmw (c_ser c') o ∈ ms).

  Lemma hwr_same hh ms : hwr hh ms hh.
  Proof. split; [|done]. intros a c Hc Hn. by destruct (Hn c Hc). Qed.
  Lemma hwr_count st p c n o ms : deref st p = Some c -> MRmw (p_ser p) o ∈ ms ->
    hwr (st_heap st) ms (<[p_addr p := Cell (c_ser c) n (c_data c)]> (st_heap st)).
  Proof.
    intros [Hc Hp]%deref_Some Ho. split.
    - intros a c1 H1 Hn. destruct (decide (a = p_addr p)) as [->|].
      + simplify_eq. by destruct (Hn _ (lookup_insert _ _ _)).
      + edestruct Hn; [by rewrite lookup_insert_ne|done].
    - intros a c' H1 Hn. destruct (decide (a = p_addr p)) as [->|]; [|by rewrite lookup_insert_ne in H1].
      rewrite lookup_insert in H1. simplify_eq. right. exists c, o. simpl. rewrite Hp. done.
  Qed.
  Lemma hwr_take st p c n ms : deref st p = Some c -> touches ms (p_ser p) TWrite ->
    hwr (st_heap st) ms (<[p_addr p := Cell (c_ser c) n None]> (st_heap st)).
  Proof.
    intros [Hc Hp]%deref_Some Ho. split.
    - intros a c1 H1 Hn. destruct (decide (a = p_addr p)) as [->|].
      + simplify_eq. by destruct (Hn _ (lookup_insert _ _ _)).
      + edestruct Hn; [by rewrite lookup_insert_ne|done].
    - intros a c' H1 Hn. destruct (decide (a = p_addr p)) as [->|]; [|by rewrite lookup_insert_ne in H1].
      rewrite lookup_insert in H1. simplify_eq. left. simpl. by rewrite Hp.
  Qed.
  Lemma hwr_free st p c ms : deref st p = Some c -> touches ms (p_ser p) TWrite ->
    hwr (st_heap st) ms (delete (p_addr p) (st_heap st)).
  Proof.
    intros [Hc Hp]%deref_Some Ho. split.
    - intros a c1 H1 Hn. destruct (decide (a = p_addr p)) as [->|]; [simplify_eq; by rewrite Hp|].
      edestruct Hn; [by rewrite lookup_delete_ne|done].
    - intros a c' [_ H1]%lookup_delete_Some Hn. done.
  Qed.
  Lemma hwr_alloc st a w ms : st_heap st !! a = None -> touches ms (st_next st) TWrite ->
    hwr (st_heap st) ms (<[a := Cell (st_next st) 1%N (Some w)]> (st_heap st)).
  Proof.
    intros Hc Ho. split.
    - intros b c1 H1 Hn. destruct (decide (b = a)) as [->|]; [congruence|]. edestruct Hn; [by rewrite lookup_insert_ne|done].
    - intros b c' H1 Hn. destruct (decide (b = a)) as [->|]; [|by rewrite lookup_insert_ne in H1].
      rewrite lookup_insert in H1. simplify_eq. by left.
  Qed.

  Lemma touch_in k w L ms : MTouch L ∈ ms -> (k, w) ∈ L -> touches ms k w.
  Proof. intros H1 H2. by exists (MTouch L). Qed.

  Lemma hwr_step_thread st t a i st' : step_thread E st t a i = Next st' -> hwr (st_heap st) (mops E O st t i) (st_heap st').
  Proof.
    intros Hs. unfold step_thread in Hs. unfold mops.
    destruct (get_pc st t) as [|kd w b|kd w b p|kd w b p old|kd w b p|kd w b|kd w q|kd w q|kd w q|kd w q|l q w r|
        [|[p|p|q] w] r|ty j acc|ty j] eqn:Hpc; repeat (case_match; try done); simplify_eq; simpl; try apply hwr_same.
    all: try (by eapply hwr_count; [done|apply elem_of_list_here]).
    all: try (apply hwr_alloc; [done|eapply touch_in; apply elem_of_list_here]).
    all: try (eapply hwr_free; [done|exists (MTouch [(p_ser q, TWrite)]); split; [set_solver|by apply elem_of_list_here]]).
    all: try (eapply hwr_take; [done|exists (MTouch [(p_ser q, TWrite)]); split; [set_solver|by apply elem_of_list_here]]).
  Qed.
  Lemma hwr_step_panic st t st' : step_panic E st t = Next st' -> hwr (st_heap st) (panic_mops E st t) (st_heap st').
  Proof.
    intros Hs. unfold step_panic in Hs. unfold panic_mops.
    destruct (get_pc st t) as [|kd w b|kd w b p|kd w b p old|kd w b p|kd w b|kd w q|kd w q|kd w q|kd w q|l q w r|
        [|[p|p|q] w] r|ty j acc|ty j] eqn:Hpc; try done; try (simplify_eq; apply hwr_same).
    destruct (deref st q) as [c|] eqn:Hc; [|done]. destruct (c_data c); [|done]. simplify_eq. simpl.
    eapply hwr_take; [done|]. exists (MTouch [(p_ser q, TWrite)]); split; [set_solver|by apply elem_of_list_here].
  Qed.

  Lemma rstep_written s l s' : rstep E O s l = Next s' -> heap_written s (ops E O s l) s'.
  Proof.
    intros Hs%(rstep_erase E O). unfold heap_written. fold (hwr (st_heap (r_st s)) (ops E O s l) (st_heap (r_st s'))).
    revert Hs. generalize (r_st s'). intros st' Hs.
    destruct l as [t kd w hs|t h|t h ks h'|t h|t h ks|t h ks|t ty|t ty|t a i h|t|t m|t m]; cbn [erase ops] in *.
    1,2,4,7,8: simpl in Hs; repeat (case_match; simplify_eq; simpl in *; try done); simplify_eq; apply hwr_same.
    - destruct (r_hands s !! h) as [x|]; [|simplify_eq; apply hwr_same]. simpl in Hs.
      destruct (borrow E (r_st s) (h_ptr x) ks) as [y| | |] eqn:Hb; try done.
      pose proof (borrow_owns _ _ _ _ _ Hb) as (Hy&_&_). destruct (deref (r_st s) y) as [c|] eqn:Hc; [|done]. simplify_eq. simpl.
      eapply hwr_count; [done|]. right. left.
    - repeat (case_match; simplify_eq; simpl in *; try done); simplify_eq; apply hwr_same.
    - repeat (case_match; simplify_eq; simpl in *; try done); simplify_eq; apply hwr_same.
    - by eapply hwr_step_thread.
    - by eapply hwr_step_panic.
    - subst. apply hwr_same.
    - subst. apply hwr_same.
  Qed.

  (** ** Locks *)
  Definition lkm (lk : gmap (nat * nat) nat) (t : nat) (ms : list mop) (lk' : gmap (nat * nat) nat) : Prop :=
    (forall l, MAcq l ∈ ms -> lk !! l = None) /\
    (forall l, MRel l ∈ ms -> (lk !! l = Some t \/ MAcq l ∈ ms) /\ lk' !! l = None) /\
    (forall l, lk' !! l <> lk !! l -> MAcq l ∈ ms /\ lk' !! l = Some t \/ MRel l ∈ ms /\ lk !! l = Some t).
  Lemma lkm_same lk t ms : (forall l, MAcq l ∉ ms) -> (forall l, MRel l ∉ ms) -> lkm lk t ms lk.
  Proof. intros H1 H2. split; [by intros l ?%H1|]. split; [by intros l ?%H2|done]. Qed.
  Lemma lkm_take lk t ms l0 : lk !! l0 = None -> (forall l, MAcq l ∈ ms <-> l = l0) -> (forall l, MRel l ∉ ms) ->
    lkm lk t ms (<[l0 := t]> lk).
  Proof.
    intros H0 H1 H2. split; [by intros l ->%H1|]. split; [by intros l ?%H2|]. intros l Hl.
    destruct (decide (l = l0)) as [->|]; [|by rewrite lookup_insert_ne in Hl]. left. split; [by apply H1|apply lookup_insert].
  Qed.
  Lemma lkm_both lk t ms l0 : lk !! l0 = None -> (forall l, MAcq l ∈ ms <-> l = l0) -> (forall l, MRel l ∈ ms -> l = l0) ->
    lkm lk t ms lk.
  Proof. intros H0 H1 H2. split; [by intros l ->%H1|]. split; [|done]. intros l ->%H2. split; [right; by apply H1|done]. Qed.
  Lemma lkm_rel lk t ms l0 : lk !! l0 = Some t -> (forall l, MAcq l ∉ ms) -> (forall l, MRel l ∈ ms <-> l = l0) ->
    lkm lk t ms (delete l0 lk).
  Proof.
    intros H0 H1 H2. split; [by intros l ?%H1|]. split; [intros l ->%H2; split; [by left|apply lookup_delete]|]. intros l Hl.
    destruct (decide (l = l0)) as [->|]; [|by rewrite lookup_delete_ne in Hl]. right. split; [by apply H2|done].
  Qed.

  Lemma lkm_step_thread st t a i st' : Inv E st -> step_thread E st t a i = Next st' ->
    lkm (st_locks st) t (mops E O st t i) (st_locks st').
  Proof.
    intros HI Hs.
    assert (forall l, pc_lock E (get_pc st t) = Some l -> st_locks st !! l = Some t) as Hlk by (intros; by apply (inv_lock E st HI)).
    assert (pc_ok E st (get_pc st t)) as Hok by apply (inv_pc E st HI).
    unfold step_thread in Hs. unfold mops.
    destruct (get_pc st t) as [|kd w b|kd w b p|kd w b p old|kd w b p|kd w b|kd w q|kd w q|kd w q|kd w q|l q w r|
        [|[p|p|q] w] r|ty j acc|ty j] eqn:Hpc; simpl in Hlk, Hok.
    - done.
    - destruct (st_locks st !! lock_of E w) eqn:Hl; [done|]. destruct (readable st); [|done]. destruct (pick i (matches E st w)); simplify_eq; simpl.
      + apply lkm_take; [done|set_solver..].
      + eapply lkm_both; [done|set_solver..].
    - destruct (deref st p); [|done]. simplify_eq. apply lkm_same; set_solver.
    - destruct (old =? 0)%N.
      + destruct (deref st p); [|done]. simplify_eq. apply lkm_same; set_solver.
      + simplify_eq. apply lkm_rel; [by apply Hlk|set_solver..].
    - simplify_eq. apply lkm_rel; [by apply Hlk|set_solver..].
    - repeat (case_match; try done); simplify_eq; apply lkm_same; set_solver.
    - destruct Hok as [Hok _]. unfold box_ok in Hok. unfold data in Hs. rewrite Hok in Hs. simpl in Hs.
      destruct (st_locks st !! lock_of E w) eqn:Hl; [done|]. destruct (readable st); [|done].
      destruct (pick i (matches E st w)); simplify_eq; (apply lkm_take; [done|set_solver..]).
    - simplify_eq. apply lkm_same; set_solver.
    - destruct kd; repeat (case_match; try done); simplify_eq; (apply lkm_rel; [by apply Hlk|set_solver..]).
    - simplify_eq. apply lkm_rel; [by apply Hlk|set_solver..].
    - repeat (case_match; try done); simplify_eq; (apply lkm_rel; [by apply Hlk|set_solver..]).
    - repeat (case_match; try done); simplify_eq; apply lkm_same; set_solver.
    - destruct (deref st p); [|done]. simplify_eq. apply lkm_same; set_solver.
    - destruct (data st p) as [d|]; [|done].
      destruct (st_locks st !! lock_of E d) eqn:Hl; [done|]. destruct (readable st); [|done]. destruct (pick i (matches E st d)); simplify_eq; simpl.
      + apply lkm_take; [done|set_solver..].
      + eapply lkm_both; [done|set_solver..].
    - destruct (deref st q); [|done]. simplify_eq. apply lkm_same; set_solver.
    - repeat (case_match; try done); simplify_eq; apply lkm_same; set_solver.
    - destruct (j <? te_shards E); [|simplify_eq; apply lkm_same; set_solver].
      destruct (st_locks st !! (ty, j)) eqn:Hl; [done|]. simplify_eq. eapply lkm_both; [done|set_solver..].
  Qed.

  Lemma lkm_step_panic st t st' : step_panic E st t = Next st' -> lkm (st_locks st) t (panic_mops E st t) (st_locks st').
  Proof.
    intros Hs. unfold step_panic in Hs. unfold panic_mops, searched.
    destruct (get_pc st t) as [|kd w b|kd w b p|kd w b p old|kd w b p|kd w b|kd w q|kd w q|kd w q|kd w q|l q w r|
        [|[p|p|q] w] r|ty j acc|ty j] eqn:Hpc; try done.
    - simplify_eq. simpl. destruct (st_locks st !! lock_of E w) eqn:Hl; [apply lkm_same; set_solver|eapply lkm_both; [done|set_solver..]].
    - destruct (deref st q) as [c|] eqn:Hc; [|done]. destruct (c_data c); [|done]. simplify_eq. simpl.
      destruct (st_locks st !! lock_of E w) eqn:Hl; [apply lkm_same; set_solver|eapply lkm_both; [done|set_solver..]].
    - simplify_eq. simpl. destruct (data st p) as [d|]; [|apply lkm_same; set_solver].
      destruct (st_locks st !! lock_of E d) eqn:Hl; [apply lkm_same; set_solver|eapply lkm_both; [done|set_solver..]].
  Qed.

  Lemma rstep_locks s l s' : Inv E (r_st s) -> rstep E O s l = Next s' -> locks_moved s (actor l) (ops E O s l) s'.
  Proof.
    intros HI Hs%(rstep_erase E O). unfold locks_moved. fold (lkm (st_locks (r_st s)) (actor l) (ops E O s l) (st_locks (r_st s'))).
    revert Hs. generalize (r_st s'). intros st' Hs.
    destruct l as [t kd w hs|t h|t h ks h'|t h|t h ks|t h ks|t ty|t ty|t a i h|t|t m|t m]; cbn [erase ops actor] in *.
    1-8: simpl in Hs; repeat (case_match; simplify_eq; simpl in *; try done); simplify_eq; apply lkm_same; set_solver.
    - by eapply lkm_step_thread.
    - by eapply lkm_step_panic.
    - subst. apply lkm_same; set_solver.
    - subst. apply lkm_same; set_solver.
  Qed.

  (** ** The table *)
  Lemma filter_comm {A} (P Q : A -> bool) (L : list A) : List.filter P (List.filter Q L) = List.filter Q (List.filter P L).
  Proof. induction L as [|x L IH]; [done|]. simpl. destruct (Q x) eqn:HQ, (P x) eqn:HP; simpl; rewrite ?HQ, ?HP, ?IH; done. Qed.
  Lemma filter_absorb {A} (P Q : A -> bool) (L : list A) : (forall x, P x = true -> Q x = true) ->
    List.filter P (List.filter Q L) = List.filter P L.
  Proof.
    intros H. induction L as [|x L IH]; [done|]. simpl. destruct (Q x) eqn:HQ; simpl; [by rewrite IH|].
    destruct (P x) eqn:HP; [|done]. rewrite (H x HP) in HQ. done.
  Qed.
  Lemma remove_filter (P : ptr -> bool) q (L : list ptr) : remove_entry q (List.filter P L) = List.filter P (remove_entry q L).
  Proof.
    unfold remove_entry. induction L as [|x L IH]; [done|]. simpl. rewrite filter_cons. destruct (P x) eqn:HP.
    - rewrite filter_cons. destruct (decide _); simpl; rewrite ?HP, IH; done.
    - destruct (decide _); simpl; rewrite ?HP, IH; done.
  Qed.

  Section table.
    Context (st : state V) (ℓ : nat * nat).
    Notation P := (λ q, negb (in_shard E st ℓ.1 ℓ.2 q)).
    Definition cut (z : state V) : state V := set_table z (List.filter P (st_table z)).
    Notation st1 := (cut st).

    Lemma ct_other l q : l <> ℓ -> in_shard E st l.1 l.2 q = true -> P q = true.
    Proof.
      intros Hl. unfold in_shard. destruct (data st q) as [d|]; [|done]. destruct l as [x y], ℓ as [x' y']. simpl.
      rewrite !andb_true_iff, !Nat.eqb_eq. intros [-> ->]. apply negb_true_iff, andb_false_iff. rewrite !Nat.eqb_neq.
      destruct (decide (x = x')) as [->|]; [right; congruence|by left].
    Qed.
    Lemma ct_shard l : l <> ℓ -> shard E st1 l = shard E st l.
    Proof.
      intros Hl. unfold shard. f_equal. simpl. change (in_shard E st1 l.1 l.2) with (in_shard E st l.1 l.2).
      apply filter_absorb. intros q. by apply ct_other.
    Qed.
    Lemma ct_shard_len ty i : (ty, i) <> ℓ -> shard_len E st1 ty i = shard_len E st ty i.
    Proof.
      intros Hl. unfold shard_len. f_equal. simpl. change (in_shard E st1 ty i) with (in_shard E st ty i).
      apply filter_absorb. intros q. by apply (ct_other (ty, i)).
    Qed.
    Lemma ct_readable : readable st = true -> readable st1 = true.
    Proof.
      unfold readable. simpl. rewrite !forallb_forall. intros H q [Hq _]%filter_In. by apply H.
    Qed.
    Lemma ct_matches w : lock_of E w <> ℓ -> matches E st1 w = matches E st w.
    Proof.
      intros Hl. unfold matches. simpl. change (is_match E st1 w) with (is_match E st w). apply filter_absorb.
      intros q Hq. apply (ct_other (lock_of E w)); [done|]. unfold is_match in Hq. unfold in_shard. destruct (data st q) as [d|]; [|done].
      simpl. rewrite !andb_true_iff, !Nat.eqb_eq in Hq. destruct Hq as [[[-> ->] _] _]. by rewrite !Nat.eqb_refl.
    Qed.

    Lemma ct_step_thread t a i st' : Inv E st ->
      st_locks st !! ℓ <> Some t -> MAcq ℓ ∉ mops E O st t i ->
      (forall n, get_pc st t = PLen ℓ.1 ℓ.2 n -> st_locks st !! ℓ <> None) ->
      step_thread E st t a i = Next st' ->
      step_thread E st1 t a i = Next (cut st') /\ mops E O st1 t i = mops E O st t i.
    Proof.
      intros HI Hno Hn Hlen Hs.
      assert (forall l, pc_lock E (get_pc st t) = Some l -> l <> ℓ) as Hlk by (intros l Hl%(inv_lock E st HI) ->; done).
      assert (pc_ok E st (get_pc st t)) as Hok by apply (inv_pc E st HI).
      unfold step_thread in *. unfold mops in *.
      change (get_pc st1 t) with (get_pc st t). change (st_locks st1) with (st_locks st).
      destruct (get_pc st t) as [|kd w b|kd w b p|kd w b p old|kd w b p|kd w b|kd w q|kd w q|kd w q|kd w q|l q w r|
        [|[p|p|q] w] r|ty j acc|ty j] eqn:Hpc; simpl in Hlk, Hok; change (deref st1) with (deref st); change (data st1) with (data st).
      - done.
      - assert (lock_of E w <> ℓ) by set_solver. rewrite ct_matches, ct_shard by done.
        destruct (st_locks st !! lock_of E w); [done|]. destruct (readable st) eqn:Hr; [|done]. rewrite ct_readable by done.
        destruct (pick i (matches E st w)); by simplify_eq.
      - destruct (deref st p); [|done]. by simplify_eq.
      - destruct (old =? 0)%N; [|by simplify_eq]. destruct (deref st p); [|done]. by simplify_eq.
      - by simplify_eq.
      - destruct kd, b; try (by simplify_eq); simpl; (destruct (st_heap st !! a); [done|]); by simplify_eq.
      - destruct Hok as [Hok _]. unfold box_ok in Hok. assert (data st q = Some w) as Hd by (unfold data; by rewrite Hok).
        rewrite Hd in Hs |- *. assert (lock_of E w <> ℓ) by set_solver. rewrite ct_matches, ct_shard by done.
        destruct (st_locks st !! lock_of E w); [done|]. destruct (readable st) eqn:Hr; [|done]. rewrite ct_readable by done.
        destruct (pick i (matches E st w)); by simplify_eq.
      - destruct Hok as [Hok _]. assert (lock_of E w <> ℓ) as Hw by (by apply Hlk). rewrite ct_shard by done. split; [|done].
        simplify_eq. unfold box_ok in Hok. assert (data st q = Some w) as Hd by (unfold data; by rewrite Hok).
        unfold cut, set_pc, set_table. simpl. rewrite (ct_other (lock_of E w) q Hw); [done|].
        unfold in_shard. rewrite Hd. simpl. by rewrite !Nat.eqb_refl.
      - destruct kd; repeat (case_match; try done); by simplify_eq.
      - by simplify_eq.
      - destruct (deref st q) as [c|]; [|done]. destruct (c_data c); [|done]. simplify_eq. split; [|done].
        f_equal. unfold cut, set_pc, take_data, set_heap, unlock, set_table. simpl. by rewrite remove_filter.
      - destruct r as [[w p]|]; by simplify_eq.
      - destruct (deref st p); [|done]. by simplify_eq.
      - destruct (data st p) as [d|]; [|done]. assert (lock_of E d <> ℓ) by set_solver. rewrite ct_matches, ct_shard by done.
        destruct (st_locks st !! lock_of E d); [done|]. destruct (readable st) eqn:Hr; [|done]. rewrite ct_readable by done.
        destruct (pick i (matches E st d)); by simplify_eq.
      - destruct (deref st q); [|done]. by simplify_eq.
      - destruct (j <? te_shards E); [|by simplify_eq]. destruct (st_locks st !! (ty, j)) eqn:Hl; [done|]. rewrite ct_shard_len; [by simplify_eq|].
        intros <-. by destruct (Hlen acc).
      - destruct (j <? te_shards E); [|by simplify_eq]. rewrite ct_shard by set_solver. destruct (st_locks st !! (ty, j)); [done|]. by simplify_eq.
    Qed.
    Lemma ct_searched l : MAcq ℓ ∉ searched E st l -> searched E st1 l = searched E st l.
    Proof.
      unfold searched. simpl. destruct (st_locks st !! l); [done|]. intros Hn. rewrite ct_shard; [done|]. set_solver.
    Qed.
    Lemma ct_step_panic t st' : MAcq ℓ ∉ panic_mops E st t -> step_panic E st t = Next st' ->
      step_panic E st1 t = Next (cut st') /\ panic_mops E st1 t = panic_mops E st t.
    Proof.
      intros Hn Hs. unfold step_panic, panic_mops in *. change (get_pc st1 t) with (get_pc st t).
      destruct (get_pc st t) as [|kd w b|kd w b p|kd w b p old|kd w b p|kd w b|kd w q|kd w q|kd w q|kd w q|l q w r|
        [|[p|p|q] w] r|ty j acc|ty j] eqn:Hpc; try done; change (deref st1) with (deref st); change (data st1) with (data st).
      - rewrite ct_searched by done. by simplify_eq.
      - rewrite ct_searched by set_solver. destruct (deref st q) as [c|]; [|done]. destruct (c_data c); [|done]. by simplify_eq.
      - destruct (data st p); [|by simplify_eq]. rewrite ct_searched by set_solver. by simplify_eq.
    Qed.
    Lemma ct_borrow ks p : borrow E st1 p ks = borrow E st p ks.
    Proof.
      unfold borrow. simpl. destruct (decide _) as [_|]; [|done]. revert p. induction ks as [|x ks IH]; intros p; [done|].
      simpl. change (data st1) with (data st). destruct (data st p); [|done]. destruct (decide _); [|done]. apply IH.
    Qed.
  End table.

  Lemma rstep_table_read s l s' ℓ : Inv E (r_st s) -> ~ has_shard s (actor l) (ops E O s l) ℓ -> rstep E O s l = Next s' ->
    rstep E O (less (of_shard E s ℓ) s) l = Next (less (of_shard E s ℓ) s').
  Proof.
    intros HI Hn Hs. apply (rstep_pokes (cut (r_st s) ℓ)); [done|..|done].
    - intros l' st' Hl Hl'. clear Hs.
      destruct l as [t kd w hs|t h|t h ks h'|t h|t h ks|t h ks|t ty|t ty|t a i h|t|t m|t m]; cbn [erase ops actor] in Hl, Hn; simplify_eq.
      9: { simpl in *. unfold has_shard in Hn. eapply ct_step_thread; [done|tauto|tauto| |done]. intros n Hp Hl. apply Hn. eauto. }
      9: { simpl in *. unfold has_shard in Hn. eapply ct_step_panic; [tauto|done]. }
      all: try (destruct (r_hands s !! h); [|done]); simplify_eq; simpl in *; rewrite ?ct_borrow;
        change (get_pc (cut (r_st s) ℓ (r_st s))) with (get_pc (r_st s));
        change (deref (cut (r_st s) ℓ (r_st s))) with (deref (r_st s)); change (data (cut (r_st s) ℓ (r_st s))) with (data (r_st s));
        repeat (case_match; try done); by simplify_eq.
    - intros t a i h ->. apply (rstep_erase E O) in Hs. simpl in *. unfold has_shard in Hn. eapply ct_step_thread; [done|tauto|tauto| |done].
      intros n Hp Hl. apply Hn. eauto.
    - intros t ->. apply (rstep_erase E O) in Hs. simpl in *. unfold has_shard in Hn. eapply ct_step_panic; [tauto|done].
  Qed.

  Lemma rstep_table_write s l s' q d : Inv E (r_st s) -> rstep E O s l = Next s' ->
    ~ (q ∈ st_table (r_st s) <-> q ∈ st_table (r_st s')) -> data (r_st s) q = Some d ->
    st_locks (r_st s) !! lock_of E d = Some (actor l).
  Proof.
    intros HI Hs%(rstep_erase E O). revert Hs. generalize (r_st s'). intros st' Hs Hq Hd.
    destruct l as [t kd w hs|t h|t h ks h'|t h|t h ks|t h ks|t ty|t ty|t a i h|t|t m|t m]; cbn [erase actor] in *.
    1-8: exfalso; simpl in Hs; repeat (case_match; simplify_eq; simpl in *; try done).
    - apply (inv_lock E _ HI). pose proof (inv_pc E _ HI t) as Hok. simpl in Hs. unfold step_thread in Hs.
      destruct (get_pc (r_st s) t) as [|kd w b|kd w b p|kd w b p old|kd w b p|kd w b|kd w q'|kd w q'|kd w q'|kd w q'|l q' w r|
        [|[p|p|q'] w] r|ty j acc|ty j] eqn:Hpc; simpl in Hok |- *;
        try (exfalso; repeat (case_match; try done); by simplify_eq).
      + destruct Hok as [Hok _]. unfold box_ok in Hok. simplify_eq. simpl in Hq. destruct (decide (q = q')) as [->|].
        * unfold data in Hd. rewrite Hok in Hd. simpl in Hd. by simplify_eq.
        * exfalso. apply Hq. set_solver.
      + destruct (deref (r_st s) q') as [c|] eqn:Hc; [|done]. destruct (c_data c) eqn:Hcd; [|done]. simplify_eq. simpl in Hq.
        destruct (decide (q = q')) as [->|].
        * destruct Hok as (_&(d'&Hd'&Hl)&_). congruence.
        * exfalso. apply Hq. unfold remove_entry. rewrite elem_of_list_filter. tauto.
    - exfalso. simpl in Hs. unfold step_panic in Hs. repeat (case_match; simplify_eq; simpl in *; try done).
    - by subst.
    - by subst.
  Qed.

  (** ** At reachable states *)
  Lemma rrun_inv ls s : coherent E -> wide E -> acquires (o_sub O) = true -> releases (o_sub O) = true -> rbounded E O ls ->
    run (rstep E O) rinit ls = Some s -> Inv E (r_st s).
  Proof.
    intros HL HW Hacq Hrel Hb Hr. destruct (rrun_good E O HL Hacq Hrel HW ls Hb) as (s'&Hr'&HG).
    rewrite Hr in Hr'. injection Hr' as <-. apply HG.
  Qed.
  Lemma rrun_reads_data s l s' k v : Inv E (r_st s) -> rstep E O s l = Next s' ->
    ~ touches (ops E O s l) k TRead -> ~ touches (ops E O s l) k TWrite ->
    (forall a c d, st_heap (r_st s) !! a = Some c -> c_ser c = k -> c_data c = Some d -> lock_of E v = lock_of E d) ->
    rstep E O (poke (poke_data k v) s) l = Next (poke (poke_data k v) s').
  Proof.
    intros HI Hs H1 H2 Hv. apply erase_ops_data; [done| |done|done]. intros t kd w q Hpc.
    pose proof (inv_pc E _ HI t) as Hok. rewrite Hpc in Hok. destruct Hok as [Hok _]. unfold data. by rewrite Hok.
  Qed.
End acc.

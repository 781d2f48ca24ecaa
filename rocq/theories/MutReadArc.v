(** What is read through a handle of ArcIntern or Arena when values have interior mutability. *)
From stdpp Require Import gmap list numbers.
From Verif Require Import Base MutModel MutSpec.
From Verif Require ArcModel ArcSpec ArcReach InternModel ArenaModel.
Require Import ZifyBool ZifyNat ZifyN.

Section arc.
  Import ArcModel ArcSpec ArcReach.
  Context {V : Type} (E : tyenv V).
  Implicit Types (st : state V) (v d : V) (p q k : ptr).
  Definition low (h : gmap nat (cell V)) (n : nat) : Prop := forall a c, h !! a = Some c -> c_ser c < n.
  Lemma low_insert h n a c : low h n -> c_ser c < n -> low (<[a:=c]> h) n.
  Proof. intros Hh Hc b x [[_ <-]|[_ Hx]]%lookup_insert_Some; [done|by eapply Hh]. Qed.
  Lemma low_delete h n a : low h n -> low (delete a h) n.
  Proof. intros Hh b x [_ Hx]%lookup_delete_Some. by eapply Hh. Qed.
  Lemma low_mono h n m : low h n -> n <= m -> low h m.
  Proof. intros Hh Hn a c Ha. specialize (Hh a c Ha). lia. Qed.
  Lemma low_deref st n p c : low (st_heap st) n -> deref st p = Some c -> c_ser c < n.
  Proof.
    intros Hh. unfold deref. destruct (st_heap st !! p_addr p) as [x|] eqn:Hx; [|done].
    destruct (_ =? _); [|done]. intros [= <-]. by eapply Hh.
  Qed.
  Lemma step_low st l st' : step E st l = Next st' -> low (st_heap st) (st_next st) -> low (st_heap st') (st_next st').
  Proof.
    intros Hs Hh.
    destruct l as [t k v|t q|q ks|q|q ks|q ks|t ty|t ty|t a i|t]; simpl in Hs;
      unfold step_thread, step_panic in Hs;
      repeat (match goal with
              | H : Next _ = Next _ |- _ => injection H as <-
              | H : (match ?x with _ => _ end) = Next _ |- _ => destruct x eqn:?; try done
              end); simpl; try exact Hh;
      first [apply low_delete; exact Hh
            |apply low_insert; [exact Hh|]; simpl; eapply low_deref; [exact Hh|eassumption]
            |apply low_insert; [eapply low_mono; [exact Hh|lia]|simpl; lia]].
  Qed.
  (** Where a store goes. *)
  Lemma store_step st p ks v st' : arc_mstep E st (MSet (AS p ks v)) = Next st' -> exists k c d,
    borrow E st p ks = Next k /\ deref st k = Some c /\ c_data c = Some d /\ st' = store st k c v.
  Proof.
    simpl. destruct (borrow E st p ks) as [k| | |]; try done. destruct (deref st k) as [c|] eqn:Hc; [|done].
    destruct (c_data c) as [d|] eqn:Hd; [|done]. destruct (_ && _); [|done]. intros [= <-]. by exists k, c, d.
  Qed.
  Lemma deref_in st k c : deref st k = Some c -> st_heap st !! p_addr k = Some c /\ c_ser c = p_ser k.
  Proof.
    unfold deref. destruct (st_heap st !! p_addr k) as [x|]; [|done]. destruct (Nat.eqb_spec (c_ser x) (p_ser k)); [|done].
    by intros [= <-].
  Qed.
  Lemma store_data st k c v p : deref st k = Some c ->
    data (store st k c v) p = if decide (k = p) then Some v else data st p.
  Proof.
    intros [Hk Hc]%deref_in. unfold data, deref, store. simpl.
    destruct (decide (p_addr k = p_addr p)) as [He|Hne].
    - rewrite <- He, lookup_insert, Hk. simpl. destruct (Nat.eqb_spec (c_ser c) (p_ser p)) as [Hs|Hs].
      + rewrite decide_True; [done|]. destruct k, p; simpl in *; congruence.
      + rewrite decide_False; [done|]. intros ->. congruence.
    - rewrite lookup_insert_ne by done. rewrite decide_False; [done|]. by intros ->.
  Qed.
  Lemma mstep_next st l st' : arc_mstep E st l = Next st' -> low (st_heap st) (st_next st) ->
    low (st_heap st') (st_next st') /\ st_next st <= st_next st'.
  Proof.
    intros Hs Hh. destruct l as [l|[p ks v]].
    - simpl in Hs. split; [by eapply step_low|]. by destruct (step_mono E _ _ _ Hs) as (?&_).
    - apply store_step in Hs as (k&c&d&_&Hc&_&->). split; [|done]. simpl.
      apply low_insert; [done|]. simpl. by eapply low_deref.
  Qed.
  Lemma mrun_low ls st : run (arc_mstep E) init ls = Some st -> low (st_heap st) (st_next st).
  Proof.
    revert st. induction ls as [|l ls IH] using rev_ind; intros st; simpl.
    { intros [= <-] a c H. simpl in H. by rewrite lookup_empty in H. }
    rewrite run_snoc. destruct (run (arc_mstep E) init ls) as [s|]; [|done]. specialize (IH _ eq_refl).
    unfold exec. destruct (arc_mstep E s l) as [s'| | |] eqn:Hs; intros [= <-]; [by eapply mstep_next|done..].
  Qed.
  Lemma data_low st n p d : low (st_heap st) n -> data st p = Some d -> p_ser p < n.
  Proof.
    intros Hh. unfold data. destruct (deref st p) as [c|] eqn:Hc; [|done]. intros _.
    destruct (deref_in _ _ _ Hc) as [Ha <-]. by eapply Hh.
  Qed.

  Definition spared st ls p : Prop := forall l1 q ks v l2 st' k, ls = l1 ++ MSet (AS q ks v) :: l2 ->
    run (arc_mstep E) st l1 = Some st' -> borrow E st' q ks = Next k -> k <> p.
  Lemma back ls st st' p d : run (arc_mstep E) st ls = Some st' -> low (st_heap st) (st_next st) -> spared st ls p ->
    p_ser p < st_next st -> data st' p = Some d -> data st p = Some d.
  Proof.
    revert st. induction ls as [|l ls IH]; intros st; simpl; [by intros [= <-]|].
    intros Hr Hh Hsp Hp Hd. unfold exec in Hr.
    assert (forall st1, exec (arc_mstep E) st l = Some st1 -> spared st1 ls p) as Hsp'.
    { intros st1 He l1 q ks v l2 st2 k -> H1 H2. eapply (Hsp (l :: l1)); [done| |done]. simpl. by rewrite He. }
    unfold exec in Hsp'. destruct (arc_mstep E st l) as [st1| | |] eqn:Hs; try done.
    2,3: by eapply IH; [done|done|by apply Hsp'|..].
    destruct (mstep_next _ _ _ Hs Hh) as [Hh1 Hn].
    assert (data st1 p = Some d) as Hd1. { eapply IH; [done|done|by apply Hsp'|lia|done]. }
    destruct l as [l|[q ks v]].
    - simpl in Hs. by eapply step_data_stable.
    - apply store_step in Hs as (k&c&d0&Hb&Hc&_&->). rewrite (store_data _ _ _ _ p Hc) in Hd1.
      rewrite decide_False in Hd1; [done|]. by apply (Hsp [] q ks v ls st).
  Qed.

  Theorem arc_unstored ls1 ls2 st1 st2 p d d' :
    run (arc_mstep E) init ls1 = Some st1 -> run (arc_mstep E) st1 ls2 = Some st2 -> spared st1 ls2 p ->
    data st1 p = Some d -> data st2 p = Some d' -> d' = d.
  Proof.
    intros Hr1 Hr2 Hsp H1 H2. pose proof (mrun_low _ _ Hr1) as Hh.
    pose proof (back _ _ _ _ _ Hr2 Hh Hsp (data_low _ _ _ _ Hh H1) H2). congruence.
  Qed.
  Theorem arc_last_store ls1 ls2 st1 st st2 q ks v p d' :
    run (arc_mstep E) init ls1 = Some st1 -> borrow E st1 q ks = Next p ->
    arc_mstep E st1 (MSet (AS q ks v)) = Next st -> run (arc_mstep E) st ls2 = Some st2 -> spared st ls2 p ->
    data st2 p = Some d' -> d' = v.
  Proof.
    intros Hr1 Hb Hs Hr2 Hsp H2. eapply (arc_unstored (ls1 ++ [MSet (AS q ks v)]) ls2 st); [|done|done| |done].
    - rewrite run_snoc, Hr1. unfold exec. by rewrite Hs.
    - apply store_step in Hs as (k&c&d0&Hb'&Hc&_&->). rewrite Hb in Hb'. injection Hb' as <-.
      rewrite (store_data _ _ _ _ p Hc). by rewrite decide_True.
  Qed.
End arc.

Section arena.
  Import InternModel ArenaModel.
  Context {V Q : Type} (E : ienv V Q).
  Implicit Types (st : astate V Q) (v d : V) (p q : iptr).
  Definition alow st : Prop := forall s x, a_objs st !! s = Some x -> s < a_next st.
  (** What one step can do to the boxes. *)
  Definition achg st st' : Prop :=
    (a_objs st' = a_objs st /\ a_next st' = a_next st) \/
    (exists s, a_objs st' = delete s (a_objs st) /\ a_next st' = a_next st) \/
    (exists x, a_objs st' = <[a_next st := x]> (a_objs st) /\ a_next st' = S (a_next st)).
  Lemma free_chg st w p st1 : a_free st w p = Some st1 -> achg st st1.
  Proof. unfold a_free. destruct (_ !! _); [|done]. intros [= <-]. right. left. by eexists. Qed.
  Lemma alloc_chg st a v st1 p : a_alloc E st a v = Some (st1, p) -> achg st st1.
  Proof. unfold a_alloc. destruct (_ || _); [|done]. intros [= <- _]. right. right. by eexists. Qed.
  Lemma astep_chg st l st' : astep E st l = Next st' -> achg st st'.
  Proof.
    intros Hs. destruct l as [t ty|t r o a|t a i|t v|t|r p|t r]; simpl in Hs;
      unfold a_step_thread, a_step_panic, a_free_opt in Hs;
      repeat (match goal with
              | H : Next _ = Next _ |- _ => injection H as <-
              | H : Some _ = Some _ |- _ => injection H as ?; subst
              | H : (match ?x with _ => _ end) = Next _ |- _ => destruct x eqn:?; try done
              | H : (match ?x with _ => _ end) = Some _ |- _ => destruct x eqn:?; try done
              end);
      first [left; split; reflexivity
            |match goal with
             | H : a_free _ _ _ = Some _ |- _ => exact (free_chg _ _ _ _ H)
             | H : a_alloc _ _ _ _ = Some _ |- _ => exact (alloc_chg _ _ _ _ _ H)
             end].
  Qed.
  Lemma chg_low st st' : achg st st' -> alow st -> alow st' /\ a_next st <= a_next st'.
  Proof.
    intros [[Ho Hn]|[(s&Ho&Hn)|(x&Ho&Hn)]] Hl; unfold alow; rewrite Ho, Hn; (split; [|lia]).
    - done.
    - intros j y [_ H]%lookup_delete_Some. by eapply Hl.
    - intros j y [[<- _]|[_ H]]%lookup_insert_Some; [lia|]. specialize (Hl _ _ H). lia.
  Qed.
  Lemma chg_back st st' s x : achg st st' -> s < a_next st -> a_objs st' !! s = Some x -> a_objs st !! s = Some x.
  Proof.
    intros [[Ho Hn]|[(j&Ho&Hn)|(y&Ho&Hn)]] Hl; rewrite Ho; [done| |].
    - by intros [_ H]%lookup_delete_Some.
    - rewrite lookup_insert_ne by lia. done.
  Qed.
  Lemma astore_step st r p v st' : are_mstep E st (MSet (RS r p v)) = Next st' -> exists x,
    a_objs st !! ip_ser p = Some x /\ st' = astore st p x v.
  Proof.
    simpl. destruct (a_returned r p (a_log st)); [|done]. destruct (a_arenas st !! r); [|done].
    destruct (a_objs st !! ip_ser p) as [x|]; [|done]. destruct (_ && _); [|done]. intros [= <-]. by exists x.
  Qed.
  Lemma amstep_next st l st' : are_mstep E st l = Next st' -> alow st -> alow st' /\ a_next st <= a_next st'.
  Proof.
    intros Hs Hl. destruct l as [l|[r p v]].
    - simpl in Hs. eapply chg_low; [by eapply astep_chg|done].
    - apply astore_step in Hs as (x&Hx&->). split; [|done]. intros j y. simpl.
      intros [[<- _]|[_ H]]%lookup_insert_Some; by eapply Hl.
  Qed.
  Lemma amrun_low ls st : run (are_mstep E) ainit ls = Some st -> alow st.
  Proof.
    revert st. induction ls as [|l ls IH] using rev_ind; intros st; simpl.
    { intros [= <-] a c H. simpl in H. by rewrite lookup_empty in H. }
    rewrite run_snoc. destruct (run (are_mstep E) ainit ls) as [s|]; [|done]. specialize (IH _ eq_refl).
    unfold exec. destruct (are_mstep E s l) as [s'| | |] eqn:Hs; intros [= <-]; [by eapply amstep_next|done..].
  Qed.
  Lemma aback ls st st' p d : run (are_mstep E) st ls = Some st' -> alow st ->
    (forall r q v, MSet (RS r q v) ∈ ls -> ip_ser q <> ip_ser p) ->
    ip_ser p < a_next st -> a_read st' p = Some d -> a_read st p = Some d.
  Proof.
    revert st. induction ls as [|l ls IH]; intros st; simpl; [by intros [= <-]|].
    intros Hr Hh Hsp Hp Hd. unfold exec in Hr.
    assert (forall r q v, MSet (RS r q v) ∈ ls -> ip_ser q <> ip_ser p) as Hsp'.
    { intros r q v H. apply (Hsp r q v). by right. }
    destruct (are_mstep E st l) as [st1| | |] eqn:Hs; try done; [|by eapply IH..].
    destruct (amstep_next _ _ _ Hs Hh) as [Hh1 Hn].
    assert (a_read st1 p = Some d) as Hd1. { eapply IH; [done|done|done|lia|done]. }
    unfold a_read in *. destruct l as [l|[r q v]].
    - simpl in Hs. apply astep_chg in Hs. destruct (a_objs st1 !! ip_ser p) as [x|] eqn:Hx; [|done].
      by rewrite (chg_back _ _ _ _ Hs Hp Hx).
    - apply astore_step in Hs as (x&Hx&->). simpl in Hd1. rewrite lookup_insert_ne in Hd1; [done|].
      apply (Hsp r q v). by left.
  Qed.
  Theorem arena_unstored ls1 ls2 st1 st2 p d d' :
    run (are_mstep E) ainit ls1 = Some st1 -> run (are_mstep E) st1 ls2 = Some st2 ->
    (forall r q v, MSet (RS r q v) ∈ ls2 -> ip_ser q <> ip_ser p) ->
    a_read st1 p = Some d -> a_read st2 p = Some d' -> d' = d.
  Proof.
    intros Hr1 Hr2 Hsp H1 H2. pose proof (amrun_low _ _ Hr1) as Hh.
    assert (ip_ser p < a_next st1) as Hp.
    { unfold a_read in H1. destruct (a_objs st1 !! ip_ser p) eqn:Hx; [|done]. by eapply Hh. }
    pose proof (aback _ _ _ _ _ Hr2 Hh Hsp Hp H2). congruence.
  Qed.
  Theorem arena_last_store ls1 ls2 st1 st st2 r p v d' :
    run (are_mstep E) ainit ls1 = Some st1 -> are_mstep E st1 (MSet (RS r p v)) = Next st ->
    run (are_mstep E) st ls2 = Some st2 -> (forall r q w, MSet (RS r q w) ∈ ls2 -> ip_ser q <> ip_ser p) ->
    a_read st2 p = Some d' -> d' = v.
  Proof.
    intros Hr1 Hs Hr2 Hsp H2. eapply (arena_unstored (ls1 ++ [MSet (RS r p v)]) ls2 st); [|done|done| |done].
    - rewrite run_snoc, Hr1. unfold exec. by rewrite Hs.
    - apply astore_step in Hs as (x&Hx&->). unfold a_read. simpl. by rewrite lookup_insert.
  Qed.
End arena.

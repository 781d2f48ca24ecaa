(** No use of a block is kept from the aliasing machines. *)
From stdpp Require Import gmap list numbers.
From Verif Require Import Base ArcModel AliasModel ArcAliasModel.
Require Import ZifyBool ZifyNat ZifyN.

Section seen.
  Context (M : machine) (im : bool) (n m k : list bool) (late : bool) {V : Type} (E : tyenv V).
  Notation apply := (c_apply M im n m k).
  Notation applys := (c_applys M im n m k).
  Implicit Types (st : state V) (p q : ptr).

  Lemma capply_none g y g' s : (forall w, y <> (s, CAlloc w)) -> g !! s = None -> apply g y = Some g' -> y.1 <> s /\ g' !! s = None.
  Proof.
    destruct y as [s' o]. intros Hy Hs. unfold c_apply. cbn [fst snd].
    assert (forall x, g !! s' = Some x -> s' <> s) as Hne by (intros x Hx ->; congruence).
    destruct o; try (destruct (g !! s') as [x|] eqn:Hx; [|done]; specialize (Hne _ eq_refl); destruct (c_do _ _ _ _ _ _ x) as [x'|]; [|done];
      intros [= <-]; split; [done|]; first [by rewrite lookup_insert_ne|by rewrite lookup_delete_ne]).
    assert (s' <> s) by (intros ->; by eapply Hy).
    destruct (c_do _ _ _ _ _ _ _) as [x'|]; [|done]. intros [= <-]. split; [done|]. by rewrite lookup_insert_ne.
  Qed.
  Lemma capplys_none ys : forall g s o, (forall w, (s, CAlloc w) ∉ ys) -> g !! s = None -> (s, o) ∈ ys -> applys ys g = None.
  Proof.
    induction ys as [|y ys IH]; intros g s o Ha Hs Hin; [by apply elem_of_nil in Hin|]. cbn [c_applys].
    destruct (apply g y) as [g1|] eqn:H1; [|done].
    destruct (capply_none g y g1 s) as [Hne Hs1]; [|done|done|].
    { intros w ->. eapply Ha. by left. }
    apply (IH g1 s o); [|done|].
    - intros w Hw. apply (Ha w). by right.
    - apply elem_of_cons in Hin as [<-|Hin]; [by destruct Hne|done].
  Qed.

  Section gone.
    Context (st : state V) (p : ptr) (Hp : is_Some (deref st p)).
    Notation st' := (free st p).
    Lemma deref_gone q c : deref st q = Some c -> deref st' q = None -> p_ser q = p_ser p.
    Proof.
      unfold deref, free. simpl. intros H1 H2. destruct Hp as [c' Hc]. unfold deref in Hc.
      destruct (decide (p_addr p = p_addr q)) as [He|Hne].
      - rewrite He in Hc. destruct (st_heap st !! p_addr q) as [x|]; [|done].
        destruct (Nat.eqb_spec (c_ser x) (p_ser q)); [|done]. destruct (Nat.eqb_spec (c_ser x) (p_ser p)); [congruence|done].
      - rewrite lookup_delete_ne in H2 by done. congruence.
    Qed.
    Lemma deref_same q c : deref st' q = Some c -> deref st q = Some c.
    Proof.
      unfold deref, free. simpl. destruct (decide (p_addr p = p_addr q)) as [->|Hne]; [by rewrite lookup_delete|by rewrite lookup_delete_ne].
    Qed.
    Lemma data_gone q d : data st q = Some d -> data st' q = None -> p_ser q = p_ser p.
    Proof.
      unfold data. destruct (deref st q) as [c|] eqn:H1; [|done]. intros Hd. destruct (deref st' q) as [c'|] eqn:H2.
      - apply deref_same in H2. rewrite H1 in H2. injection H2 as <-. congruence.
      - intros _. by eapply deref_gone.
    Qed.
    Lemma data_same q d : data st' q = Some d -> data st q = Some d.
    Proof. unfold data. destruct (deref st' q) as [c'|] eqn:H2; [|done]. by rewrite (deref_same _ _ H2). Qed.
    Lemma looks_gone : readable st = true -> readable st' = false -> (p_ser p, CLook) ∈ c_looks st.
    Proof.
      unfold readable, c_looks. change (st_table st') with (st_table st). induction (st_table st) as [|q tb IH]; [done|]. cbn [forallb]. rewrite fmap_cons.
      intros [H1 H1']%andb_true_iff [H2|H2]%andb_false_iff.
      - destruct (data st q) as [d|] eqn:Hd; [|done]. destruct (data st' q) eqn:Hd'; [done|]. unfold c_at.
        rewrite (data_gone _ _ Hd Hd'). by left.
      - right. by apply IH.
    Qed.
    Lemma follow_gone j o q ks x : follow E st q ks = Next x ->
      (follow E st' q ks = Next x /\ exists i, c_at (o i) x ∈ c_path j o q ks) \/
      (exists y, (p_ser p, y) ∈ c_path j o q ks).
    Proof.
      revert q. induction ks as [|y ks IH]; intros q; cbn [follow c_path].
      - intros [= ->]. left. split; [done|]. eexists. by left.
      - destruct (data st q) as [d|] eqn:Hd; [|done]. destruct (decide (y ∈ te_kids E d)); [|done]. intros Hf.
        destruct (data st' q) as [d'|] eqn:Hd'.
        + apply data_same in Hd'. rewrite Hd in Hd'. injection Hd' as <-. destruct (decide _); [|done].
          destruct (IH _ Hf) as [[H1 [i Hi]]|[z Hz]].
          * left. split; [done|]. exists i. by right.
          * right. exists z. by right.
        + right. exists (CRead (j (p_ser q))). unfold c_at. rewrite (data_gone _ _ Hd Hd'). by left.
    Qed.
    Lemma follow_same q ks : follow E st' q ks = UB \/ follow E st' q ks = follow E st q ks.
    Proof.
      revert q. induction ks as [|y ks IH]; intros q; cbn [follow]; [by right|].
      destruct (data st' q) as [d'|] eqn:Hd'; [|by left]. rewrite (data_same _ _ Hd'). destruct (decide _); [apply IH|by right].
    Qed.
  End gone.

  Lemma path_alloc j o p ks s w : (forall i w', o i <> CAlloc w') -> (s, CAlloc w) ∉ c_path j o p ks.
  Proof.
    intros Ho. revert p. induction ks as [|q ks IH]; intros p; cbn [c_path]; unfold c_at.
    - intros H%elem_of_list_singleton. injection H as _ H. by eapply Ho.
    - intros [H|H]%elem_of_cons; [done|by eapply IH].
  Qed.
  Lemma looks_alloc st s w : (s, CAlloc w) ∉ c_looks st.
  Proof. unfold c_looks, c_at. by intros (q&?&_)%elem_of_list_fmap. Qed.

  Lemma arc_seen (cs : cstate M) l j st' p :
    step E (cs_arc cs) l = Next st' -> is_Some (deref (cs_arc cs) p) -> step E (free (cs_arc cs) p) l = UB ->
    cs_objs cs !! p_ser p = None -> cstep M im n m k late E cs (l, j) = UB.
  Proof.
    intros Hs Hp Hu Hg. unfold cstep. cbn [fst snd]. rewrite Hs. set (st := cs_arc cs) in *.
    assert ((exists o, (p_ser p, o) ∈ c_ops late E st l j) /\ forall w, (p_ser p, CAlloc w) ∉ c_ops late E st l j) as [[o Ho] Ha].
    2:{ by rewrite (capplys_none _ _ _ o Ha Hg Ho). }
    assert (forall q y (ys : list (nat * cop)) w, y <> CAlloc w -> (p_ser p, CAlloc w) ∉ ys -> (p_ser p, CAlloc w) ∉ c_at y q :: ys) as Hcons.
    { intros q y ys w Hy Hys [H|H]%elem_of_cons; [|done]. injection H as _ H. congruence. }
    assert (forall (xs ys : list (nat * cop)) w, (p_ser p, CAlloc w) ∉ xs -> (p_ser p, CAlloc w) ∉ ys -> (p_ser p, CAlloc w) ∉ xs ++ ys) as Happ.
    { intros xs ys w Hx Hy [H|H]%elem_of_app; done. }
    assert (forall w, (p_ser p, CAlloc w) ∉ ([] : list (nat * cop))) as Hnil by (intros w; apply not_elem_of_nil).
    assert (forall q y c (ys : list (nat * cop)), deref st q = Some c -> deref (free st p) q = None -> exists o, (p_ser p, o) ∈ c_at y q :: ys) as Hd.
    { intros q y c ys H1 H2. exists y. unfold c_at. rewrite (deref_gone _ _ Hp _ _ H1 H2). by left. }
    assert (forall q y c (ys : list (nat * cop)), data st q = Some c -> data (free st p) q = None -> exists o, (p_ser p, o) ∈ c_at y q :: ys) as Hdd.
    { intros q y c ys H1 H2. exists y. unfold c_at. rewrite (data_gone _ _ Hp _ _ H1 H2). by left. }
    assert (forall q y c (ys : list (nat * cop)), deref st q = Some c -> match deref (free st p) q with Some c => c_data c | None => None end = None -> c_data c <> None ->
      exists o, (p_ser p, o) ∈ c_at y q :: ys) as Hdc.
    { intros q y c ys H1 H2 H3. destruct (deref (free st p) q) as [c'|] eqn:H4; [|by eapply Hd]. apply deref_same in H4. congruence. }
    assert (forall o q ks x, (forall i w', o i <> CAlloc w') -> borrow E st q ks = Next x ->
      (borrow E (free st p) q ks = Next x -> p_ser x = p_ser p) ->
      (exists y, (p_ser p, y) ∈ c_path j o q ks) /\ forall w, (p_ser p, CAlloc w) ∉ c_path j o q ks) as Hb.
    { intros o q ks x Ho Hx Hfx. split; [|intros w; by apply path_alloc].
      unfold borrow in Hx, Hfx. change (st_pool (free st p)) with (st_pool st) in Hfx. destruct (decide (q ∈ st_pool st)); [|done].
      destruct (follow_gone st p Hp j o _ _ _ Hx) as [[H1 [i Hi]]|H1]; [|done]. specialize (Hfx H1). exists (o i). by rewrite <- Hfx. }
    destruct l as [t kd v|t q|q ks|q|q ks|q ks|t ty|t ty|t a i|t]; cbn [step c_ops] in *.
    all: try (change (get_pc (free st p) t) with (get_pc st t) in Hu).
    all: try (change (st_pool (free st p)) with (st_pool st) in Hu).
    - destruct (get_pc st t); try done. destruct kd; [by destruct (rem_all _ _)|by destruct (te_kids E v)].
    - destruct (get_pc st t); try done. by destruct (rem1 _ _).
    - destruct (borrow E st q ks) as [x| | |] eqn:Hx; try done. apply (Hb _ q ks x); [done|done|]. intros H2. rewrite H2 in Hu.
      destruct (deref st x) as [c|] eqn:H3; [|done]. destruct (deref (free st p) x) eqn:H4; [done|]. by eapply deref_gone.
    - by destruct (rem1 _ _).
    - destruct (borrow E st q ks) as [x| | |] eqn:Hx; try done. apply (Hb _ q ks x); [done|done|]. intros H2. rewrite H2 in Hu.
      destruct (deref st x) as [c|] eqn:H3; [|done]. destruct (deref (free st p) x) eqn:H4; [done|]. by eapply deref_gone.
    - destruct (borrow E st q ks) as [x| | |] eqn:Hx; try done. apply (Hb _ q ks x); [done|done|]. intros H2. rewrite H2 in Hu.
      destruct (data st x) as [c|] eqn:H3; [|done]. destruct (data (free st p) x) eqn:H4; [done|]. by eapply data_gone.
    - by destruct (get_pc st t).
    - by destruct (get_pc st t).
    - unfold step_thread in Hs, Hu. change (get_pc (free st p) t) with (get_pc st t) in Hu.
      change (st_locks (free st p)) with (st_locks st) in Hu.
      destruct (get_pc st t) as [|kd v b|kd v b q|kd v b q old|kd v b q|kd v b|kd v q|kd v q|kd v q|kd v q|lk q w rs|[|[q|q|q] w] rs|ty i' acc|ty i'] eqn:Hpc; try done.
      + destruct (st_locks st !! _); [done|]. destruct (readable st) eqn:H1; [|done]. destruct (readable (free st p)) eqn:H2; [by destruct (pick _ (matches _ (free _ _) _))|].
        split; [eexists; by apply looks_gone|intros; apply looks_alloc].
      + destruct (deref st q) eqn:H1; [|done]. destruct (deref (free st p) q) eqn:H2; [done|]. split; [by eapply Hd|intros; by apply Hcons].
      + destruct (old =? 0)%N; [|done]. destruct (deref st q) eqn:H1; [|done]. destruct (deref (free st p) q) eqn:H2; [done|].
        split; [by eapply Hd|intros; by apply Hcons].
      + exfalso. destruct kd; [|destruct b]; try done; by destruct (st_heap (free st p) !! a).
      + destruct (data st q) as [d|] eqn:H1; [|done]. destruct (data (free st p) q) as [d'|] eqn:H2.
        * rewrite (data_same _ _ _ _ H2) in H1. injection H1 as ->. destruct (st_locks st !! _); [done|].
          destruct (readable st) eqn:H3; [|done]. destruct (readable (free st p)) eqn:H4; [by destruct (pick _ (matches _ (free _ _) _))|].
          split; [eexists; right; apply elem_of_app; left; by apply looks_gone|].
          intros w. apply Hcons; [done|]. apply Happ; [apply looks_alloc|by apply Hcons].
        * split; [by eapply Hdd|]. intros w. apply Hcons; [done|]. apply Happ; [apply looks_alloc|by apply Hcons].
      + destruct kd; [|done]. destruct (deref st q) as [c|] eqn:H1; [|done]. destruct (c_data c) as [d|] eqn:H3; [|done].
        split; [|intros; by apply Hcons]. eapply Hdc; [done| |congruence].
        destruct (deref (free st p) q) as [c'|]; [|done]. by destruct (c_data c').
      + destruct (deref st q) as [c|] eqn:H1; [|done]. destruct (c_data c) as [d|] eqn:H3; [|done].
        split; [|intros; by apply Hcons]. eapply Hdc; [done| |congruence].
        destruct (deref (free st p) q) as [c'|]; [|done]. by destruct (c_data c').
      + destruct rs as [[? ?]|]; done.
      + destruct (deref st q) eqn:H1; [|done]. destruct (deref (free st p) q) eqn:H2; [done|]. split; [by eapply Hd|intros; by apply Hcons].
      + destruct (data st q) as [d|] eqn:H1; [|done]. destruct (data (free st p) q) as [d'|] eqn:H2.
        * rewrite (data_same _ _ _ _ H2) in H1. injection H1 as ->. destruct (st_locks st !! _); [done|].
          destruct (readable st) eqn:H3; [|done]. destruct (readable (free st p)) eqn:H4; [by destruct (pick _ (matches _ (free _ _) _))|].
          split; [eexists; right; by apply looks_gone|]. intros w'. apply Hcons; [done|apply looks_alloc].
        * split; [by eapply Hdd|]. intros w'. apply Hcons; [done|apply looks_alloc].
      + destruct (deref st q) eqn:H1; [|done]. destruct (deref (free st p) q) eqn:H2; [done|]. split; [by eapply Hd|intros; by apply Hcons].
      + destruct (i' <? _); [|done]. by destruct (st_locks st !! _).
      + destruct (i' <? _); [|done]. by destruct (st_locks st !! _).
    - unfold step_panic in Hs, Hu. change (get_pc (free st p) t) with (get_pc st t) in Hu.
      destruct (get_pc st t) as [|kd v b|kd v b q|kd v b q old|kd v b q|kd v b|kd v q|kd v q|kd v q|kd v q|lk q w rs|[|[q|q|q] w] rs|ty i' acc|ty i'] eqn:Hpc; try done.
      destruct (deref st q) as [c|] eqn:H1; [|done]. destruct (c_data c) as [d|] eqn:H3; [|done].
      split; [|intros; apply Hcons; [done|]; apply Happ; [apply looks_alloc|by apply Hcons]]. eapply Hdc; [done| |congruence].
      destruct (deref (free st p) q) as [c'|]; [|done]. by destruct (c_data c').
  Qed.
End seen.

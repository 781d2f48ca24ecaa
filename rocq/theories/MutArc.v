(** Stores that Eq and Hash do not see change nothing: ArcIntern. *)
From stdpp Require Import gmap list numbers.
From Verif Require Import Base ArcModel ArcSpec ArcInv ArcSafe ArcReach VarModel VarSpec VarProof MutModel MutSpec.
Require Import ZifyBool ZifyNat ZifyN.

Definition out_like {S} (R : S -> S -> Prop) (x y : outcome S) : Prop :=
  match x, y with
  | Next a, Next b => R a b
  | Blocked, Blocked | Illegal, Illegal | UB, UB => True
  | _, _ => False
  end.

Lemma plain_app {L S} (l1 l2 : list (mlabel L S)) : plain (l1 ++ l2) = plain l1 ++ plain l2.
Proof. induction l1 as [|[] l1 IH]; simpl; [done|by rewrite IH|done]. Qed.
Lemma plain_length {L S} (ls : list (mlabel L S)) : length (plain ls) <= length ls.
Proof. induction ls as [|[] ls IH]; simpl; lia. Qed.

Section sim.
  Context {V : Type} (E : tyenv V).
  Implicit Types (st : state V) (p q : ptr).
  Notation like := (like E).
  Notation unseen := (unseen E).

  Lemma un_refl v : unseen v v.
  Proof. by constructor. Qed.
  Lemma un_sym v w : unseen v w -> unseen w v.
  Proof. intros [H1 H2 H3 H4]. constructor; [done..|]. intros u. by destruct (H4 u). Qed.
  Lemma un_trans u v w : unseen u v -> unseen v w -> unseen u w.
  Proof.
    intros [H1 H2 H3 H4] [G1 G2 G3 G4]. constructor; [congruence..|]. intros x.
    destruct (H4 x), (G4 x). split; congruence.
  Qed.
  Lemma un_lock v w : unseen v w -> lock_of E v = lock_of E w.
  Proof. intros H. unfold lock_of. by rewrite (un_ty _ _ _ H), (un_hash _ _ _ H). Qed.
  Lemma un_eqs v w d d' : unseen v w -> unseen d d' -> te_eq E v d = te_eq E w d'.
  Proof. intros H G. rewrite (proj1 (un_eq _ _ _ H d)). apply (un_eq _ _ _ G). Qed.

  Lemma like_deref st st' p : like st st' -> option_Forall2 (cell_like E) (deref st p) (deref st' p).
  Proof.
    intros H. unfold deref. pose proof (lk_heap _ _ _ H (p_addr p)) as Hh.
    inversion Hh as [c c' Hc Hx Hy|Hx Hy]; [|constructor]. destruct Hc as (H1&H2&H3). rewrite H1.
    destruct (c_ser c' =? p_ser p); constructor. by split_and!.
  Qed.
  Lemma like_data st st' p : like st st' -> option_Forall2 unseen (data st p) (data st' p).
  Proof.
    intros H. unfold data. pose proof (like_deref st st' p H) as Hh.
    inversion Hh as [c c' Hc Hx Hy|Hx Hy]; [|constructor]. by destruct Hc as (_&_&?).
  Qed.
  Lemma like_readable st st' : like st st' -> readable st = readable st'.
  Proof.
    intros H. unfold readable. rewrite (lk_table _ _ _ H). induction (st_table st') as [|q tb IH]; [done|].
    simpl. rewrite IH. f_equal. pose proof (like_data st st' q H) as Hd. by inversion Hd.
  Qed.
  Lemma filter_ext_b {A} (f g : A -> bool) (l : list A) : (forall x, f x = g x) -> List.filter f l = List.filter g l.
  Proof. intros H. induction l as [|x l IH]; [done|]. simpl. by rewrite H, IH. Qed.
  Lemma like_matches st st' v w : like st st' -> unseen v w -> matches E st v = matches E st' w.
  Proof.
    intros H Hv. unfold matches. rewrite (lk_table _ _ _ H). apply filter_ext_b. intros q. unfold is_match.
    pose proof (like_data st st' q H) as Hd. inversion Hd as [d d' Hu|]; [|done].
    by rewrite (un_ty _ _ _ Hv), (un_ty _ _ _ Hu), (un_hash _ _ _ Hv), (un_hash _ _ _ Hu), (un_eqs _ _ _ _ Hv Hu).
  Qed.
  Lemma like_shard_len st st' ty i : like st st' -> shard_len E st ty i = shard_len E st' ty i.
  Proof.
    intros H. unfold shard_len. rewrite (lk_table _ _ _ H). f_equal. apply filter_ext_b. intros q. unfold in_shard.
    pose proof (like_data st st' q H) as Hd. inversion Hd as [d d' Hu|]; [|done].
    by rewrite (un_ty _ _ _ Hu), (un_hash _ _ _ Hu).
  Qed.
  Lemma like_follow st st' ks : like st st' -> forall p, follow E st p ks = follow E st' p ks.
  Proof.
    intros H. induction ks as [|k ks IH]; intros p; [done|]. simpl.
    pose proof (like_data st st' p H) as Hd. inversion Hd as [d d' Hu|]; [|done].
    rewrite (un_kids _ _ _ Hu). destruct (decide _); [apply IH|done].
  Qed.
  Lemma like_borrow st st' ks p : like st st' -> borrow E st p ks = borrow E st' p ks.
  Proof. intros H. unfold borrow. rewrite (lk_pool _ _ _ H). destruct (decide _); [by apply like_follow|done]. Qed.

  (** ** Elementary changes *)
  Lemma like_set_pc st st' t x y : like st st' -> pc_like E x y -> like (set_pc st t x) (set_pc st' t y).
  Proof.
    intros [H1 H2 H3 H4 H5 H6 H7 H8 H9] Hxy. constructor; try done. intros u. unfold get_pc. simpl.
    destruct (decide (t = u)) as [->|]; [by rewrite !lookup_insert|rewrite !lookup_insert_ne by done; apply H2].
  Qed.
  Lemma like_lock st st' l t : like st st' -> like (lock st l t) (lock st' l t).
  Proof. intros [H1 H2 H3 H4 H5 H6 H7 H8 H9]. constructor; try done. simpl. by rewrite H5. Qed.
  Lemma like_unlock st st' l : like st st' -> like (unlock st l) (unlock st' l).
  Proof. intros [H1 H2 H3 H4 H5 H6 H7 H8 H9]. constructor; try done. simpl. by rewrite H5. Qed.
  Lemma like_table st st' tb : like st st' -> like (set_table st tb) (set_table st' tb).
  Proof. intros [H1 H2 H3 H4 H5 H6 H7 H8 H9]. by constructor. Qed.
  Lemma like_pool st st' pl : like st st' -> like (set_pool st pl) (set_pool st' pl).
  Proof. intros [H1 H2 H3 H4 H5 H6 H7 H8 H9]. by constructor. Qed.
  Lemma like_gone st st' pl : like st st' -> like (set_gone st pl) (set_gone st' pl).
  Proof. intros [H1 H2 H3 H4 H5 H6 H7 H8 H9]. by constructor. Qed.
  Lemma like_zombie st st' p : like st st' -> like (add_zombie st p) (add_zombie st' p).
  Proof. intros [H1 H2 H3 H4 H5 H6 H7 H8 H9]. constructor; try done. simpl. by rewrite H9. Qed.
  Lemma like_log st st' e f : like st st' -> event_like E e f -> like (add_log st e) (add_log st' f).
  Proof. intros [H1 H2 H3 H4 H5 H6 H7 H8 H9] He. constructor; try done. by constructor. Qed.
  Lemma like_insert st st' a c c' : like st st' -> cell_like E c c' ->
    like (set_heap st (<[a:=c]> (st_heap st))) (set_heap st' (<[a:=c']> (st_heap st'))).
  Proof.
    intros [H1 H2 H3 H4 H5 H6 H7 H8 H9] Hc. constructor; try done. intros b. simpl.
    destruct (decide (a = b)) as [->|]; [rewrite !lookup_insert; by constructor|by rewrite !lookup_insert_ne].
  Qed.
  Lemma like_free st st' p : like st st' -> like (free st p) (free st' p).
  Proof.
    intros [H1 H2 H3 H4 H5 H6 H7 H8 H9]. constructor; try done. intros b. simpl.
    destruct (decide (p_addr p = b)) as [->|]; [rewrite !lookup_delete; constructor|by rewrite !lookup_delete_ne].
  Qed.
  Lemma like_alloc st st' a v w : like st st' -> unseen v w -> like (alloc st a v) (alloc st' a w).
  Proof.
    intros [H1 H2 H3 H4 H5 H6 H7 H8 H9] Hv. constructor; try done; simpl; [|by rewrite H8].
    intros b. destruct (decide (a = b)) as [->|]; [|by rewrite !lookup_insert_ne].
    rewrite !lookup_insert, H8. constructor. split_and!; try done. by constructor.
  Qed.
  Lemma like_args k v w b : unseen v w -> drop_args E k v b = drop_args E k w b.
  Proof. intros H. unfold drop_args. by rewrite (un_kids _ _ _ H). Qed.

  (** ** Steps *)
  Lemma thread_like st st' t a i : like st st' ->
    out_like like (step_thread E st t a i) (step_thread E st' t a i).
  Proof.
    intros H. pose proof (lk_threads _ _ _ H t) as Hp. unfold step_thread.
    destruct (get_pc st t) as [|k v b|k v b p|k v b p n|k v b p|k v b|k v q|k v q|k v q|k v q|l q w r|w r|ty j n|ty j],
      (get_pc st' t) as [|k' v' b'|k' v' b' p'|k' v' b' p' n'|k' v' b' p'|k' v' b'|k' v' q'|k' v' q'|k' v' q'|k' v' q'|l' q' w' r'|w' r'|ty' j' n'|ty' j'];
      simpl in Hp; try done.
    - destruct Hp as (<-&Hv&<-). rewrite (un_lock _ _ Hv), (lk_locks _ _ _ H).
      destruct (st_locks st' !! _); [done|]. rewrite (like_readable _ _ H). destruct (readable st'); [|done].
      rewrite (like_matches _ _ _ _ H Hv). destruct (pick i _); simpl.
      + apply like_set_pc; [by apply like_lock|]. by split_and!.
      + apply like_set_pc; [done|]. by split_and!.
    - destruct Hp as (<-&Hv&<-&<-). pose proof (like_deref st st' p H) as Hd.
      inversion Hd as [c c' Hc Hx Hy|Hx Hy]; [|done]. destruct Hc as (H1&H2&H3). simpl.
      apply like_set_pc; [|by split_and!]. apply like_insert; [done|]. split_and!; simpl; [done|by rewrite H2|done].
    - destruct Hp as (<-&Hv&<-&<-&<-). destruct (n =? 0)%N.
      + pose proof (like_deref st st' p H) as Hd.
        inversion Hd as [c c' Hc Hx Hy|Hx Hy]; [|done]. destruct Hc as (H1&H2&H3). simpl.
        apply like_set_pc; [|by split_and!]. apply like_insert; [done|]. split_and!; simpl; [done|by rewrite H2|done].
      + simpl. rewrite (un_lock _ _ Hv), (like_args _ _ _ _ Hv). apply like_set_pc; [by apply like_unlock|].
        split; [done|]. by constructor.
    - destruct Hp as (<-&Hv&<-&<-). simpl. rewrite (un_lock _ _ Hv). apply like_set_pc; [by apply like_unlock|]. by split_and!.
    - destruct Hp as (<-&Hv&<-).
      assert (out_like like
        (match st_heap st !! a with Some _ => Illegal
         | None => Next (set_pc (alloc st a v) t (PEntry k v (Ptr a (st_next st)))) end)
        (match st_heap st' !! a with Some _ => Illegal
         | None => Next (set_pc (alloc st' a v') t (PEntry k v' (Ptr a (st_next st')))) end)) as Ha.
      { pose proof (lk_heap _ _ _ H a) as Hh. inversion Hh; [done|]. simpl. rewrite (lk_next _ _ _ H).
        apply like_set_pc; [by apply like_alloc|]. by split_and!. }
      destruct k; [exact Ha|]. destruct b as [q|]; [|exact Ha]. simpl. apply like_set_pc; [done|]. by split_and!.
    - destruct Hp as (<-&Hv&<-). pose proof (like_data st st' q H) as Hd.
      inversion Hd as [d d' Hu Hx Hy|Hx Hy]; [|done]. rewrite (un_lock _ _ Hu), (lk_locks _ _ _ H).
      destruct (st_locks st' !! _); [done|]. rewrite (like_readable _ _ H). destruct (readable st'); [|done].
      rewrite (like_matches _ _ _ _ H Hu). destruct (pick i _); simpl;
        (apply like_set_pc; [by apply like_lock|]; by split_and!).
    - destruct Hp as (<-&Hv&<-). simpl. rewrite (lk_table _ _ _ H). apply like_set_pc; [by apply like_table|]. by split_and!.
    - destruct Hp as (<-&Hv&<-). rewrite (un_lock _ _ Hv). destruct k.
      + pose proof (like_deref st st' q H) as Hd.
        inversion Hd as [c c' Hc Hx Hy|Hx Hy]; [|done]. destruct Hc as (H1&H2&H3).
        inversion H3 as [d d' Hu Hdx Hdy|]; [|done]. simpl.
        apply like_set_pc; [apply like_free; by apply like_unlock|]. by split_and!.
      + simpl. apply like_set_pc; [by apply like_unlock|]. by split_and!.
    - destruct Hp as (<-&Hv&<-). simpl. rewrite (un_lock _ _ Hv). apply like_set_pc; [by apply like_unlock|].
      split; [done|]. by constructor.
    - destruct Hp as (<-&<-&<-&Hr). pose proof (like_deref st st' q H) as Hd.
      inversion Hd as [c c' Hc Hx Hy|Hx Hy]; [|done]. destruct Hc as (H1&H2&H3).
      inversion H3 as [d d' Hu Hdx Hdy|]; [|done]. simpl. unfold drop_box. rewrite (un_kids _ _ _ Hu), (lk_table _ _ _ H).
      apply like_set_pc; [|by split]. unfold take_data. apply like_insert; [apply like_unlock; by apply like_table|].
      split_and!; simpl; [done|done|constructor].
    - destruct Hp as (<-&Hr). destruct w as [|[p|p|q] w].
      + inversion Hr as [[v p] [v' p'] [Hv Hq] Hx Hy|Hx Hy]; simpl in *.
        * subst p'. apply like_log; [|by split_and!]. rewrite (lk_pool _ _ _ H). apply like_pool. by apply like_set_pc.
        * by apply like_set_pc.
      + pose proof (like_deref st st' p H) as Hd.
        inversion Hd as [c c' Hc Hx Hy|Hx Hy]; [|done]. destruct Hc as (H1&H2&H3). simpl. rewrite H2.
        apply like_set_pc; [|by split]. by apply like_insert.
      + pose proof (like_data st st' p H) as Hd.
        inversion Hd as [d d' Hu Hx Hy|Hx Hy]; [|done]. rewrite (un_lock _ _ Hu), (lk_locks _ _ _ H).
        destruct (st_locks st' !! _); [done|]. rewrite (like_readable _ _ H). destruct (readable st'); [|done].
        rewrite (like_matches _ _ _ _ H Hu). destruct (pick i _); simpl.
        * apply like_set_pc; [by apply like_lock|]. by split_and!.
        * apply like_set_pc; [done|]. by split.
      + pose proof (like_deref st st' q H) as Hd. inversion Hd; [|done]. simpl.
        apply like_set_pc; [by apply like_free|by split].
    - destruct Hp as (<-&<-&<-). destruct (j <? te_shards E); simpl.
      + rewrite (lk_locks _ _ _ H). destruct (st_locks st' !! _); [done|]. simpl. rewrite (like_shard_len _ _ _ _ H).
        apply like_set_pc; [done|]. by split_and!.
      + apply like_log; [by apply like_set_pc|]. by split_and!.
    - destruct Hp as (<-&<-). destruct (j <? te_shards E); simpl.
      + rewrite (lk_locks _ _ _ H). destruct (st_locks st' !! _); [done|]. simpl.
        apply like_set_pc; [done|]. by split_and!.
      + by apply like_set_pc.
  Qed.

  Lemma panic_like st st' t : like st st' -> out_like like (step_panic E st t) (step_panic E st' t).
  Proof.
    intros H. pose proof (lk_threads _ _ _ H t) as Hp. unfold step_panic.
    destruct (get_pc st t) as [|k v b|k v b p|k v b p n|k v b p|k v b|k v q|k v q|k v q|k v q|l q w r|w r|ty j n|ty j],
      (get_pc st' t) as [|k' v' b'|k' v' b' p'|k' v' b' p' n'|k' v' b' p'|k' v' b'|k' v' q'|k' v' q'|k' v' q'|k' v' q'|l' q' w' r'|w' r'|ty' j' n'|ty' j'];
      simpl in Hp; try done.
    - destruct Hp as (<-&Hv&<-). simpl. rewrite (like_args _ _ _ _ Hv). apply like_set_pc; [done|]. split; [done|constructor].
    - destruct Hp as (<-&Hv&<-). pose proof (like_deref st st' q H) as Hd.
      inversion Hd as [c c' Hc Hx Hy|Hx Hy]; [|done]. destruct Hc as (H1&H2&H3).
      inversion H3 as [d d' Hu Hdx Hdy|]; [|done]. simpl. unfold drop_box. rewrite (un_kids _ _ _ Hu).
      apply like_set_pc; [|split; [done|constructor]]. unfold take_data. apply like_insert; [done|].
      split_and!; simpl; [done|done|constructor].
    - destruct Hp as (<-&Hr). destruct w as [|[p|p|q] w]; try done. simpl.
      assert (match r with Some (_, x) => [IDrop x] | None => [] end = match r' with Some (_, x) => [IDrop x] | None => [] end) as ->.
      { inversion Hr as [[] [] [_ Hq]|]; simpl in *; [by subst|done]. }
      apply like_set_pc; [by apply like_zombie|]. split; [done|constructor].
  Qed.

  Lemma step_like st st' l : like st st' -> out_like like (step E st l) (step E st' l).
  Proof.
    intros H. destruct l as [t k v|t p|p ks|p|p ks|p ks|t ty|t ty|t a i|t]; cbn [step].
    - pose proof (lk_threads _ _ _ H t) as Hp. destruct (get_pc st t), (get_pc st' t); simpl in Hp; try done.
      rewrite (lk_pool _ _ _ H). destruct k.
      + destruct (rem_all (te_kids E v) (st_pool st')); [|done]. simpl.
        apply like_set_pc; [by apply like_pool|]. split_and!; done || apply un_refl.
      + destruct (te_kids E v); [|done]. simpl. apply like_set_pc; [done|]. split_and!; done || apply un_refl.
    - pose proof (lk_threads _ _ _ H t) as Hp. destruct (get_pc st t), (get_pc st' t); simpl in Hp; try done.
      rewrite (lk_pool _ _ _ H). destruct (rem1 p (st_pool st')); [|done]. simpl.
      apply like_set_pc; [by apply like_pool|]. split; [done|constructor].
    - rewrite (like_borrow _ _ _ _ H). destruct (borrow E st' p ks) as [k| | |]; try done.
      pose proof (like_deref st st' k H) as Hd.
      inversion Hd as [c c' Hc Hx Hy|Hx Hy]; [|done]. destruct Hc as (H1&H2&H3). simpl. rewrite (lk_pool _ _ _ H).
      apply like_pool. apply like_insert; [done|]. split_and!; simpl; [done|by rewrite H2|done].
    - rewrite (lk_pool _ _ _ H). destruct (rem1 p (st_pool st')); [|done]. simpl.
      rewrite (lk_gone _ _ _ H). apply like_gone. by apply like_pool.
    - rewrite (like_borrow _ _ _ _ H). destruct (borrow E st' p ks) as [k| | |]; try done.
      pose proof (like_deref st st' k H) as Hd.
      inversion Hd as [c c' Hc Hx Hy|Hx Hy]; [|done]. destruct Hc as (H1&H2&H3). simpl.
      apply like_log; [done|]. by split.
    - rewrite (like_borrow _ _ _ _ H). destruct (borrow E st' p ks) as [k| | |]; try done.
      pose proof (like_data st st' k H) as Hd. inversion Hd; [|done]. simpl. apply like_log; [done|]. by split.
    - pose proof (lk_threads _ _ _ H t) as Hp. destruct (get_pc st t), (get_pc st' t); simpl in Hp; try done.
      simpl. by apply like_set_pc.
    - pose proof (lk_threads _ _ _ H t) as Hp. destruct (get_pc st t), (get_pc st' t); simpl in Hp; try done.
      simpl. by apply like_set_pc.
    - by apply thread_like.
    - by apply panic_like.
  Qed.
  Lemma like_init : like init init.
  Proof. constructor; try done; constructor. Qed.

  (** A store that Eq and Hash do not see. *)
  Lemma store_like st st' k c d v : like st st' -> deref st k = Some c -> c_data c = Some d -> unseen d v ->
    like (store st k c v) st'.
  Proof.
    intros [H1 H2 H3 H4 H5 H6 H7 H8 H9] Hk Hd Hv. constructor; try done. intros a. simpl.
    destruct (decide (p_addr k = a)) as [<-|]; [|by rewrite lookup_insert_ne].
    rewrite lookup_insert. specialize (H1 (p_addr k)). unfold deref in Hk.
    destruct (st_heap st !! p_addr k) as [c0|]; [|done]. destruct (c_ser c0 =? p_ser k); [|done]. injection Hk as ->.
    inversion H1 as [? c' (G1&G2&G3) Hx Hy|]. constructor. split_and!; simpl; [done|done|].
    rewrite Hd in G3. inversion G3 as [? d' Hu|]. constructor. eapply un_trans; [by apply un_sym|done].
  Qed.

  Lemma quiet_app ls1 ls2 : quiet E (ls1 ++ ls2) -> quiet E ls1.
  Proof.
    intros H l1 p ks v l2 st k d ->. apply (H l1 p ks v (l2 ++ ls2)). by rewrite <- app_assoc.
  Qed.
  (** One more label. *)
  Lemma exec_like ls l st st' st1 : quiet E (ls ++ [l]) -> run (arc_mstep E) init ls = Some st -> like st st' ->
    exec (arc_mstep E) st l = Some st1 ->
    exists st1', run (step E) st' (plain [l]) = Some st1' /\ like st1 st1'.
  Proof.
    intros Hq Hr HL He. unfold exec in He. destruct l as [l|[p ks v]].
    - simpl in He |- *. unfold exec. pose proof (step_like st st' l HL) as Hs.
      destruct (step E st l) as [s1| | |], (step E st' l) as [s2| | |]; simpl in Hs; try done; injection He as <-; eauto.
    - simpl. exists st'. split; [done|]. simpl in He.
      destruct (borrow E st p ks) as [k| | |] eqn:Hb; try done; try (injection He as <-; done).
      destruct (deref st k) as [c|] eqn:Hk; [|done]. destruct (c_data c) as [d|] eqn:Hd; [|done].
      destruct (_ && _); injection He as <-; [|done]. eapply store_like; try done.
      eapply (Hq ls p ks v [] st k d); try done. unfold data. by rewrite Hk.
  Qed.
  Lemma quiet_like ls st : quiet E ls -> run (arc_mstep E) init ls = Some st ->
    exists st', run (step E) init (plain ls) = Some st' /\ like st st'.
  Proof.
    revert st. induction ls as [|l ls IH] using rev_ind; intros st Hq Hr.
    { injection Hr as <-. exists init. split; [done|apply like_init]. }
    rewrite run_snoc in Hr. destruct (run (arc_mstep E) init ls) as [st1|] eqn:Hr1; [|done].
    destruct (IH st1 (quiet_app _ _ Hq) eq_refl) as (st2&Hr2&HL).
    destruct (exec_like ls l st1 st2 st Hq Hr1 HL Hr) as (st3&Hr3&HL'). exists st3. split; [|done].
    by rewrite plain_app, run_app, Hr2.
  Qed.

  Context (HC : coherent E) (HW : wide E).
  Lemma quiet_safe ls : quiet E ls -> bounded E (plain ls) -> run (arc_mstep E) init ls <> None.
  Proof.
    induction ls as [|l ls IH] using rev_ind; intros Hq Hb; [done|].
    rewrite plain_app in Hb. assert (bounded E (plain ls)) as Hb1.
    { intros l1 l2 s1 Hl. apply (Hb l1 (l2 ++ plain [l])). by rewrite Hl, <- app_assoc. }
    specialize (IH (quiet_app _ _ Hq) Hb1). rewrite run_snoc.
    destruct (run (arc_mstep E) init ls) as [st|] eqn:Hr; [|done]. clear IH.
    destruct (quiet_like ls st (quiet_app _ _ Hq) Hr) as (st'&Hr'&HL).
    assert (forall l', step E st' l' <> UB) as Hno.
    { intros l'. destruct (run_safe E HC HW (plain ls) Hb1) as (s&Hs&HI). rewrite Hr' in Hs. injection Hs as <-.
      by apply step_no_ub. }
    unfold exec. destruct (arc_mstep E st l) as [s1| | |] eqn:Hs; try done. exfalso.
    destruct l as [l|[p ks v]]; simpl in Hs.
    - pose proof (step_like st st' l HL) as H. rewrite Hs in H. apply (Hno l). by destruct (step E st' l).
    - pose proof (step_like st st' (LDeref p ks) HL) as H. apply (Hno (LDeref p ks)).
      assert (step E st (LDeref p ks) = UB) as Hd.
      { simpl. unfold data. destruct (borrow E st p ks) as [k| | |]; try done.
        destruct (deref st k) as [c|]; [|done]. destruct (c_data c); [|done]. by destruct (_ && _). }
      rewrite Hd in H. by destruct (step E st' (LDeref p ks)).
  Qed.
  Lemma quiet_safe_short ls : quiet E ls -> (N.of_nat (length ls) < te_mod E)%N -> run (arc_mstep E) init ls <> None.
  Proof.
    intros Hq Hl. apply quiet_safe; [done|]. apply short_bounded; [done|done|].
    pose proof (plain_length ls). lia.
  Qed.
End sim.

Lemma eq_unseen {V} (E : tyenv V) d d' : lawful E -> te_eq E d d' = true -> te_kids E d = te_kids E d' -> unseen E d d'.
Proof.
  intros HL He Hk. pose proof (law_sym _ HL _ _ He) as He'. constructor; [by apply HL|done|by apply HL|].
  intros u. split.
  - destruct (te_eq E d u) eqn:H1, (te_eq E d' u) eqn:H2; try done.
    + by rewrite (law_trans _ HL _ _ _ He' H1) in H2.
    + by rewrite (law_trans _ HL _ _ _ He H2) in H1.
  - destruct (te_eq E u d) eqn:H1, (te_eq E u d') eqn:H2; try done.
    + by rewrite (law_trans _ HL _ _ _ H1 He) in H2.
    + by rewrite (law_trans _ HL _ _ _ H2 He') in H1.
Qed.

(** ** A store that Eq sees *)
Section unsafe.
  Context {V : Type} (E : tyenv V).
  Implicit Types (st : state V) (p q : ptr).

  Lemma mrun_do st ls : run (arc_mstep E) st (MDo <$> ls) = run (step E) st ls.
  Proof.
    revert st. induction ls as [|l ls IH]; intros st; [done|]. simpl. unfold exec. simpl.
    destruct (step E st l); [apply IH..|done].
  Qed.
  Lemma alone_run st t a v :
    get_pc st t = PFree -> st_locks st = ∅ -> readable st = true -> matches E st v = [] ->
    te_kids E v = [] -> st_heap st !! a = None ->
    exists st', run (arc_mstep E) st (alone t a v) = Some st' /\
      get_pc st' t = PFree /\ st_locks st' = ∅ /\ st_next st' = S (st_next st) /\
      st_table st' = Ptr a (st_next st) :: st_table st /\ st_pool st' = Ptr a (st_next st) :: st_pool st /\
      st_heap st' = <[a := Cell (st_next st) 1%N (Some v)]> (st_heap st).
  Proof.
    intros H1 H2 H3 H4 H5 H6.
    destruct (undisturbed_run E (λ _ _, None) st t a v H1 H2 H3 H4 H5 H6) as (s&Hr&Hs). exists s. split; [|exact Hs].
    change (alone t a v) with (MDo (S := arc_store V) <$> (LNew t KSized v :: replicate 6 (LStep t a 0))).
    rewrite mrun_do, <- (vrun_do E (λ _ _, None)). exact Hr.
  Qed.

  Lemma set_and_drop_ub v w w' :
    te_eq E w v = false -> te_eq E w' w = true -> te_hash E w' = te_hash E w ->
    te_ty E w' = te_ty E v -> te_ty E w' = te_ty E w ->
    te_kids E v = [] -> te_kids E w = [] -> te_kids E w' = [] ->
    run (arc_mstep E) init (set_and_drop v w w') = None.
  Proof.
    intros Hne He Hh Hty Hty' Hkv Hkw Hkw'. unfold set_and_drop.
    destruct (alone_run init 0 0 v) as (s1&Hr1&Hp1&Hl1&Hn1&Ht1&Hpl1&Hh1); try done.
    simpl in Hn1, Ht1, Hpl1, Hh1.
    assert (data s1 (Ptr 0 0) = Some v) as Hd1.
    { unfold data, deref. by rewrite Hh1. }
    assert (is_match E s1 w (Ptr 0 0) = false) as Hm1.
    { unfold is_match. rewrite Hd1, Hne. apply andb_false_r. }
    destruct (alone_run s1 0 1 w) as (s2&Hr2&Hp2&Hl2&Hn2&Ht2&Hpl2&Hh2); try done.
    { unfold readable. rewrite Ht1. simpl. by rewrite Hd1. }
    { unfold matches. rewrite Ht1. simpl. by rewrite Hm1. }
    { by rewrite Hh1. }
    rewrite Hn1 in Hn2, Ht2, Hpl2, Hh2. rewrite Ht1 in Ht2. rewrite Hpl1 in Hpl2. rewrite Hh1 in Hh2.
    rewrite run_app, Hr1, run_app, Hr2.
    set (s3 := store s2 (Ptr 0 0) (Cell 0 1%N (Some v)) w').
    set (s4 := set_pc (set_pool s3 [Ptr 1 1]) 0 (PWork [IDrop (Ptr 0 0)] None)).
    set (c0 := Cell 0 1%N (Some w')).
    assert (deref s2 (Ptr 0 0) = Some (Cell 0 1%N (Some v))) as Hc2.
    { unfold deref. by rewrite Hh2. }
    assert (deref s4 (Ptr 0 0) = Some c0) as Hc4.
    { unfold deref. simpl. rewrite Hh2. done. }
    set (s5 := set_pc (set_count s4 (Ptr 0 0) c0 (count_dec E 1)) 0 (PWork [IRemove (Ptr 0 0)] None)).
    set (s6 := set_pc (lock s5 (lock_of E w') 0) 0 (PRem (lock_of E w') (Ptr 1 1) [] None)).
    assert (arc_mstep E s2 (MSet (AS (Ptr 0 0) [] w')) = Next s3) as H3.
    { simpl. unfold borrow. rewrite Hpl2. rewrite decide_True by (by right; left). simpl. rewrite Hc2. simpl.
      rewrite Hty, Nat.eqb_refl, Hkv, Hkw', bool_decide_eq_true_2 by done. done. }
    assert (arc_mstep E s3 (MDo (LDrop 0 (Ptr 0 0))) = Next s4) as H4.
    { cbn. change (get_pc s3 0) with (get_pc s2 0). rewrite Hp2, Hpl2. simpl. done. }
    assert (arc_mstep E s4 (MDo (LStep 0 0 0)) = Next s5) as H5.
    { simpl. unfold step_thread. unfold s4 at 1. rewrite get_pc_set, decide_True by done. by rewrite Hc4. }
    assert (st_heap s5 = <[0:=Cell 0 (count_dec E 1) (Some w')]> (<[0:=c0]> (<[1:=Cell 1 1%N (Some w)]> (<[0:=Cell 0 1%N (Some v)]> ∅)))) as Hh5.
    { unfold s5. simpl. by rewrite Hh2. }
    assert (data s5 (Ptr 0 0) = Some w') as Hd50 by (unfold data, deref; by rewrite Hh5).
    assert (data s5 (Ptr 1 1) = Some w) as Hd51 by (unfold data, deref; by rewrite Hh5).
    assert (st_table s5 = [Ptr 1 1; Ptr 0 0]) as Ht5 by done.
    assert (readable s5 = true) as Hre.
    { unfold readable. rewrite Ht5. simpl. by rewrite Hd50, Hd51. }
    assert (exists ms, matches E s5 w' = Ptr 1 1 :: ms) as [ms Hms].
    { unfold matches. rewrite Ht5. simpl. unfold is_match at 1. rewrite Hd51, Hh, Hty', !Nat.eqb_refl, He. simpl. eauto. }
    assert (arc_mstep E s5 (MDo (LStep 0 0 0)) = Next s6) as H6.
    { simpl. unfold step_thread. unfold s5 at 1. rewrite get_pc_set, decide_True by done.
      rewrite Hd50. change (st_locks s5) with (st_locks s2). rewrite Hl2, lookup_empty, Hre, Hms. done. }
    assert (deref s6 (Ptr 1 1) = Some (Cell 1 1%N (Some w))) as Hc6.
    { unfold deref. change (st_heap s6) with (st_heap s5). by rewrite Hh5. }
    cbn [run]. unfold exec at 1. rewrite H3. unfold exec at 1. rewrite H4. unfold exec at 1. rewrite H5.
    unfold exec at 1. rewrite H6. unfold exec at 1. unfold arc_mstep at 1, step, step_thread.
    unfold s6 at 1. rewrite get_pc_set, decide_True by done. rewrite Hc6. simpl.
    unfold exec, arc_mstep, step, borrow. rewrite decide_True by (by left). simpl.
    unfold data, deref. simpl. by rewrite lookup_insert.
  Qed.
End unsafe.

(** Proofs about panics of Hash while a table is written. *)
From stdpp Require Import gmap list numbers.
From Verif Require Import Base ArcModel ArcSpec ArcInv ArcStep ArcSafe ArcReach ArcTame ArcProps GrowModel GrowSpec.
Require Import ZifyBool ZifyNat ZifyN.

Section serials.
  Context {V : Type} (E : tyenv V) (early : bool).
  Implicit Types (st : state V) (p q : ptr) (l : glabel V).

  Notation gstep := (gstep E early).

  (** ** What a step does to memory: cells are made with fresh serials and never refilled. *)
  Definition heap_from (h h' : gmap nat (cell V)) (n n' : nat) : Prop :=
    n <= n' /\
    forall a c', h' !! a = Some c' ->
      c_ser c' = n /\ n < n' \/
      exists c, h !! a = Some c /\ c_ser c' = c_ser c /\ (c_data c' = c_data c \/ c_data c' = None).

  Lemma hf_refl h n : heap_from h h n n.
  Proof. split; [done|]. intros a c Hc. right. eauto. Qed.
  Lemma hf_count st p c x : deref st p = Some c ->
    heap_from (st_heap st) (<[p_addr p := Cell (c_ser c) x (c_data c)]> (st_heap st)) (st_next st) (st_next st).
  Proof.
    intros [Hc _]%deref_Some. split; [done|]. intros a c' Hc'. right.
    destruct (decide (a = p_addr p)) as [->|].
    - rewrite lookup_insert in Hc'. simplify_eq. eauto.
    - rewrite lookup_insert_ne in Hc' by done. eauto.
  Qed.
  Lemma hf_take st p c : deref st p = Some c ->
    heap_from (st_heap st) (<[p_addr p := Cell (c_ser c) (c_count c) None]> (st_heap st)) (st_next st) (st_next st).
  Proof.
    intros [Hc _]%deref_Some. split; [done|]. intros a c' Hc'. right.
    destruct (decide (a = p_addr p)) as [->|].
    - rewrite lookup_insert in Hc'. simplify_eq. eauto.
    - rewrite lookup_insert_ne in Hc' by done. eauto.
  Qed.
  Lemma hf_free st a0 : heap_from (st_heap st) (delete a0 (st_heap st)) (st_next st) (st_next st).
  Proof. split; [done|]. intros a c [_ Hc]%lookup_delete_Some. right. eauto. Qed.
  Lemma hf_alloc st a0 v :
    heap_from (st_heap st) (<[a0 := Cell (st_next st) 1%N (Some v)]> (st_heap st)) (st_next st) (S (st_next st)).
  Proof.
    split; [lia|]. intros a c [[<- <-]|[_ Hc]]%lookup_insert_Some.
    - left. simpl. lia.
    - right. eauto.
  Qed.

  Lemma step_heap st (l : label V) st' : step E st l = Next st' ->
    heap_from (st_heap st) (st_heap st') (st_next st) (st_next st').
  Proof.
    destruct l; simpl; unfold step_thread, step_panic, borrow; intros Hs;
      repeat (case_match; try discriminate Hs); simplify_eq/=;
      first [apply hf_refl|by apply hf_count|by apply hf_take|apply hf_free|apply hf_alloc].
  Qed.

  Lemma hf_trans h1 h2 h3 n : heap_from h1 h2 n n -> heap_from h2 h3 n n -> heap_from h1 h3 n n.
  Proof.
    intros [_ H1] [_ H2]. split; [done|]. intros a c3 Hc3.
    destruct (H2 a c3 Hc3) as [[_ ?]|(c2&Hc2&Hs2&Hd2)]; [lia|].
    destruct (H1 a c2 Hc2) as [[_ ?]|(c1&Hc1&Hs1&Hd1)]; [lia|].
    right. exists c1. split; [done|]. split; [congruence|]. destruct Hd1, Hd2; [left|right..]; congruence.
  Qed.

  Lemma lose_frame st p :
    st_next (lose st p) = st_next st /\ st_threads (lose st p) = st_threads st /\
    st_locks (lose st p) = st_locks st /\ st_pool (lose st p) = st_pool st /\
    st_table (lose st p) ⊆ st_table st.
  Proof.
    unfold lose. destruct (deref st p); simpl; [|done]. split_and!; try done.
    unfold remove_entry. apply list_filter_subseteq.
  Qed.
  Lemma losing st gone :
    st_next (fold_left lose gone st) = st_next st /\ st_threads (fold_left lose gone st) = st_threads st /\
    st_locks (fold_left lose gone st) = st_locks st /\ st_pool (fold_left lose gone st) = st_pool st /\
    st_table (fold_left lose gone st) ⊆ st_table st.
  Proof.
    revert st. induction gone as [|p gone IH]; intros st; simpl; [done|].
    destruct (IH (lose st p)) as (->&->&->&->&Ht), (lose_frame st p) as (->&->&->&->&Ht').
    split_and!; try done. by etrans.
  Qed.
  Lemma lose_heap st gone :
    heap_from (st_heap st) (st_heap (fold_left lose gone st)) (st_next st) (st_next st).
  Proof.
    revert st. induction gone as [|p gone IH]; intros st; simpl; [apply hf_refl|].
    eapply hf_trans; [|specialize (IH (lose st p)); destruct (lose_frame st p) as (Hn&_); rewrite Hn in IH; apply IH].
    unfold lose. destruct (deref st p) as [c|] eqn:Hc; [by apply (hf_take st)|apply hf_refl].
  Qed.

  (** Emptying [q] after other cells have been emptied. *)
  Lemma hf_take_later st h' q c : deref st q = Some c ->
    heap_from (st_heap st) h' (st_next st) (st_next st) ->
    heap_from (st_heap st) (<[p_addr q := Cell (c_ser c) (c_count c) None]> h') (st_next st) (st_next st).
  Proof.
    intros [Hc _]%deref_Some [_ H]. split; [done|].
    intros a c' [[<- <-]|[_ Hc']]%lookup_insert_Some; [|by apply H]. right. eauto.
  Qed.

  Lemma gstep_heap st l st' : gstep st l = Next st' ->
    heap_from (st_heap st) (st_heap st') (st_next st) (st_next st').
  Proof.
    destruct l as [l|t gone|t|t]; simpl; intros Hs; [by eapply step_heap|..];
      repeat (case_match; try discriminate Hs); simplify_eq/=; try apply hf_refl;
    destruct (losing st gone) as (->&_); (apply hf_take_later; [done|]); apply lose_heap.
  Qed.

  (** Hence what is gone stays gone. *)
  Definition old st p : Prop := p_ser p < st_next st.

  Lemma gstep_old st l st' p : gstep st l = Next st' -> old st p -> old st' p.
  Proof. intros [Hn _]%gstep_heap. unfold old. lia. Qed.
  Lemma gstep_dead st l st' p : gstep st l = Next st' -> old st p -> deref st p = None -> deref st' p = None.
  Proof.
    intros [Hn H]%gstep_heap Ho Hd. destruct (deref st' p) as [c'|] eqn:Hc'; [|done]. exfalso.
    apply deref_Some in Hc' as [Hc' Hs]. unfold old in Ho.
    destruct (H _ _ Hc') as [[He _]|(c&Hc&He&_)]; [lia|].
    assert (deref st p = Some c) by (apply deref_Some; split; [done|congruence]). congruence.
  Qed.
  Lemma gstep_empty st l st' p : gstep st l = Next st' -> old st p -> data st p = None -> data st' p = None.
  Proof.
    intros [Hn H]%gstep_heap Ho Hd. destruct (data st' p) as [d|] eqn:Hd'; [|done]. exfalso.
    apply data_Some in Hd' as (c'&Hc'&Hcd). apply deref_Some in Hc' as [Hc' Hs]. unfold old in Ho.
    destruct (H _ _ Hc') as [[He _]|(c&Hc&He&Hx)]; [lia|].
    assert (deref st p = Some c) as Hdc by (apply deref_Some; split; [done|congruence]).
    assert (data st p = c_data c) by (unfold data; by rewrite Hdc).
    destruct Hx; congruence.
  Qed.

  (** ** Boxes and table entries have been allocated. *)
  Definition pc_box (x : pc V) : option ptr :=
    match x with
    | PLookup _ _ b | PHit _ _ b _ | PInc _ _ b _ _ | PUndo _ _ b _ | PAlloc _ _ b => b
    | PEntry _ _ q | PVac _ _ q | POcc _ _ q => Some q
    | _ => None
    end.
  Definition known st : Prop :=
    (forall p, p ∈ st_table st -> old st p) /\
    (forall t q, pc_box (get_pc st t) = Some q -> old st q).

  Lemma known_set st st' t x : known st -> st_next st <= st_next st' ->
    st_threads st' = <[t:=x]> (st_threads st) ->
    (forall p, p ∈ st_table st' -> p ∈ st_table st \/ old st' p) ->
    (forall q, pc_box x = Some q -> old st' q) -> known st'.
  Proof.
    intros [Ht Hb] Hn Hth Htb Hx. split.
    - intros p Hp. destruct (Htb p Hp) as [H|H]; [|done]. specialize (Ht p H). unfold old in *. lia.
    - intros t' q. unfold get_pc. rewrite Hth. destruct (decide (t' = t)) as [->|].
      + rewrite lookup_insert. apply Hx.
      + rewrite lookup_insert_ne by done. intros Hq. specialize (Hb t' q Hq). unfold old in *. lia.
  Qed.
  Lemma known_same st st' : known st -> st_next st' = st_next st ->
    st_threads st' = st_threads st -> st_table st' = st_table st -> known st'.
  Proof. intros [Ht Hb] Hn Hth Htb. unfold known, old, get_pc. rewrite Hn, Hth, Htb. done. Qed.

  Lemma step_known st (l : label V) st' : step E st l = Next st' -> known st -> known st'.
  Proof.
    intros Hs HK. pose proof HK as [Ht Hb].
    destruct l as [t k v|t p|p ks|p|p ks|p ks|t ty|t ty|t a i|t]; simpl in Hs.
    1,2,7,8: repeat (case_match; try discriminate Hs); simplify_eq/=;
      (eapply (known_set st _ t); [done|done|reflexivity|by left|done]).
    1-4: unfold borrow in Hs; repeat (case_match; try discriminate Hs); simplify_eq/=; by apply (known_same st).
    - unfold step_thread in Hs. specialize (Hb t).
      destruct (get_pc st t) as [|k v b|k v b q|k v b q o|k v b q|k v b|k v q|k v q|k v q|k v q|l' q w r|w r|ty j acc|ty j];
        try discriminate Hs;
        repeat (case_match; try discriminate Hs); simplify_eq/=;
        (eapply (known_set st _ t);
          [done|first [done|simpl; lia]|reflexivity
          |simpl; first [by left|intros ? [->|?]%elem_of_cons; [right; by apply Hb|by left]
                        |intros ? [_ ?]%elem_of_list_filter; by left]
          |simpl; first [done|exact Hb|intros ? [= <-]; unfold old; simpl; lia]]).
    - unfold step_panic in Hs. repeat (case_match; try discriminate Hs); simplify_eq/=;
        (eapply (known_set st _ t); [done|done|reflexivity|by left|done]).
  Qed.

  Lemma gstep_known st l st' : gstep st l = Next st' -> known st -> known st'.
  Proof.
    destruct l as [l|t gone|t|t]; simpl; intros Hs; [by eapply step_known|..];
      repeat (case_match; try discriminate Hs); simplify_eq/=; intros HK.
    1,2: destruct (losing st gone) as (Hn&Hth&_&_&Htb);
      eapply (known_set st _ t); simpl; [done|lia|by rewrite Hth|by left; apply Htb|done].
    all: by eapply (known_set st _ t); simpl; [done|lia|done|by left|done].
  Qed.

  Lemma run_known ls st : run gstep init ls = Some st -> known st.
  Proof.
    revert st. induction ls as [|l ls IH] using rev_ind; intros st Hr.
    - simplify_eq/=. split; [intros p Hp; by apply elem_of_nil in Hp|].
      intros t q. unfold get_pc. simpl. by rewrite lookup_empty.
    - rewrite run_snoc in Hr. destruct (run gstep init ls) as [s|]; [|done]. unfold exec in Hr.
      destruct (gstep s l) as [s'| | |] eqn:Hs; simplify_eq; eauto using gstep_known.
  Qed.

  Lemma run_keeps (P : state V -> Prop) ls st st' :
    (forall s l s', gstep s l = Next s' -> P s -> P s') -> run gstep st ls = Some st' -> P st -> P st'.
  Proof.
    intros HP. revert st. induction ls as [|l ls IH]; intros st Hr H; simplify_eq/=; [done|].
    unfold exec in Hr. destruct (gstep st l) as [s| | |] eqn:Hs; simplify_eq; eauto.
  Qed.
End serials.

(** ** The handle made before the insertion is dropped after its object. *)
Section doomed.
  Context {V : Type} (E : tyenv V) (early : bool).
  Implicit Types (st : state V) (p q : ptr).

  Notation gstep := (gstep E early).

  (** The destructors still to run end with a drop of the handle [q], after its memory is
      freed. *)
  Definition tail_of q (w : list item) st : Prop :=
    exists w', w = w' ++ [IDrop q] /\ (IFree q ∈ w' \/ deref st q = None).
  Definition doomed t q st : Prop :=
    old st q /\
    match get_pc st t with
    | PWork w None | PRem _ _ w None => tail_of q w st
    | _ => False
    end.

  Lemma tail_cons q it w st : tail_of q (it :: w) st -> w <> [] -> it <> IFree q -> tail_of q w st.
  Proof.
    intros ([|i w']&He&Hx) Hne Hi; simplify_eq/=. exists w'. split; [done|].
    destruct Hx as [[Hx|Hx]%elem_of_cons|Hx]; [by subst| |]; auto.
  Qed.
  Lemma tail_app q w1 w st : tail_of q w st -> tail_of q (w1 ++ w) st.
  Proof.
    intros (w'&->&Hx). exists (w1 ++ w'). rewrite app_assoc. split; [done|].
    destruct Hx; [left|by right]. apply elem_of_app. by right.
  Qed.
  Lemma tail_next q w st st' l : gstep st l = Next st' -> old st q -> tail_of q w st -> tail_of q w st'.
  Proof.
    intros Hs Ho (w'&->&Hx). exists w'. split; [done|]. destruct Hx; [by left|right].
    by eapply gstep_dead.
  Qed.
  Lemma tail_ne q w st : tail_of q w st -> w <> [].
  Proof. intros (w'&->&_). by destruct w'. Qed.

  Lemma get_pc_other st (l : label V) st' t :
    step E st l = Next st' ->
    match l with LNew u _ _ | LDrop u _ | LLen u _ | LShrink u _ | LStep u _ _ | LPanic u => u <> t | _ => True end ->
    get_pc st' t = get_pc st t.
  Proof.
    assert (forall h tb lk pl gn n z lg u x, u <> t ->
      get_pc (State h tb lk pl gn (<[u:=x]> (st_threads st)) n z lg) t = get_pc st t) as Hx.
    { intros. unfold get_pc. simpl. by rewrite lookup_insert_ne. }
    destruct l; simpl; unfold step_thread, step_panic, borrow; intros Hs Hne;
      repeat (case_match; try discriminate Hs); simplify_eq/=; try done; by apply Hx.
  Qed.

  Lemma free_dead st q x t : deref (set_pc (free st q) t x) q = None.
  Proof. unfold deref. simpl. by rewrite lookup_delete. Qed.

  Lemma pc_after st0 st1 t x : set_pc st0 t x = st1 -> x = get_pc st1 t.
  Proof. intros <-. by rewrite get_pc_set, decide_True. Qed.

  Lemma gstep_doomed t q st l st' : gstep st l = Next st' -> doomed t q st -> doomed t q st'.
  Proof.
    intros Hs [Ho Hd]. split; [by eapply gstep_old|].
    assert (get_pc st' t = get_pc st t -> match get_pc st' t with PWork w None | PRem _ _ w None => tail_of q w st' | _ => False end) as Hsame.
    { intros ->. destruct (get_pc st t) as [| | | | | | | | | |? ? ? [|]|? [|]| |]; try done; by eapply tail_next. }
    pose proof (λ w, tail_next q w st st' l Hs Ho) as Hnext.
    destruct l as [l|u gone|u|u].
    4: { destruct (decide (u = t)) as [->|Hne].
      - simpl in Hs. destruct (get_pc st t) as [| | | | | | | | | |? ? ? [|]|w [|]| |] eqn:Hpc; try done.
        injection Hs as Hs. rewrite <- (pc_after _ _ _ _ Hs), app_nil_r. by apply Hnext.
      - apply Hsame. clear Hsame Hnext Hd. simpl in Hs. destruct (get_pc st u); try done. injection Hs as <-.
        by rewrite get_pc_set, decide_False. }
    2-3: destruct (decide (u = t)) as [->|Hne];
      [exfalso; simpl in Hs; by destruct (get_pc st t)|apply Hsame];
      clear Hsame Hnext Hd; simpl in Hs;
      destruct (get_pc st u); try discriminate Hs;
      repeat (case_match; try discriminate Hs); injection Hs as <-;
      rewrite get_pc_set, decide_False by done; try done;
      unfold get_pc; simpl; by destruct (losing st gone) as (_&->&_).
    simpl in Hs.
    assert ((exists a i, l = LStep t a i) \/ l = LPanic t \/ get_pc st' t = get_pc st t) as Hl.
    { destruct l as [u k v|u p|p ks|p|p ks|p ks|u ty|u ty|u a i|u];
        try (right; right; by eapply get_pc_other);
        (destruct (decide (u = t)) as [->|]; [|right; right; by eapply get_pc_other]);
        try (exfalso; simpl in Hs; by destruct (get_pc st t));
        [left; eauto|right; by left]. }
    destruct Hl as [(a&i&->)|[->|Hl]]; [| |by apply Hsame].
    - simpl in Hs. unfold step_thread in Hs.
      destruct (get_pc st t) as [| | | | | | | | | |lk p w [|]|w [|]| |] eqn:Hpc; try done.
      + (* PRem *)
        destruct (deref st p) as [c|]; [|done]. destruct (c_data c) as [d|]; [|done].
        injection Hs as Hs. rewrite <- (pc_after _ _ _ _ Hs).
        apply tail_app. by apply Hnext.
      + (* PWork *)
        pose proof (tail_ne _ _ _ Hd) as Hne. destruct w as [|[p|p|p] w]; [done|..].
        * destruct (deref st p) as [c|] eqn:Hc; [|done].
          assert (w <> []) as Hw.
          { intros ->. destruct Hd as ([|? [|??]]&He&Hx); simplify_eq/=.
            destruct Hx as [Hx|Hx]; [by apply elem_of_nil in Hx|congruence]. }
          injection Hs as Hs. rewrite <- (pc_after _ _ _ _ Hs).
          assert (tail_of q w st') by (apply Hnext; by eapply tail_cons).
          destruct (c_count c =? 1)%N; [|done]. by apply (tail_app _ [_]).
        * assert (tail_of q w st) as Hw.
          { apply (tail_cons _ (IRemove p)); [done| |done]. intros ->.
            destruct Hd as ([|? [|??]]&He&Hx); simplify_eq/=. }
          destruct (data st p) as [d|]; [|done]. destruct (st_locks st !! lock_of E d); [done|].
          destruct (readable st); [|done].
          destruct (pick i (matches E st d)) as [p'|]; injection Hs as Hs; rewrite <- (pc_after _ _ _ _ Hs); by apply Hnext.
        * destruct (deref st p) as [c|] eqn:Hc; [|done].
          injection Hs as Hs. rewrite <- (pc_after _ _ _ _ Hs).
          destruct Hd as ([|i' w']&He&Hx); simplify_eq/=.
          exists w'. split; [done|]. destruct Hx as [[[= <-]|Hx]%elem_of_cons|Hx].
          -- right. apply free_dead.
          -- by left.
          -- right. by eapply (gstep_dead E early _ (GDo (LStep t a i))); [simpl; unfold step_thread; rewrite Hpc, Hc|..].
    - simpl in Hs. unfold step_panic in Hs.
      destruct (get_pc st t) as [| | | | | | | | | |lk p w [|]|w [|]| |] eqn:Hpc; try done.
      destruct w as [|[p|p|p] w]; try done.
      injection Hs as Hs. rewrite <- (pc_after _ _ _ _ Hs).
      rewrite app_nil_r. apply Hnext. apply (tail_cons _ (IRemove p)); [done| |done]. intros ->.
      destruct Hd as ([|? [|??]]&He&Hx); simplify_eq/=.
  Qed.

  (** ** Consequences *)
  Lemma insert_doomed ls st t gone k v q st1 :
    early = true -> run gstep init ls = Some st -> get_pc st t = PVac k v q ->
    gstep st (GInsert t gone) = Next st1 -> doomed t q st1.
  Proof.
    intros He Hr Hpc Hs. destruct (run_known _ _ _ _ Hr) as [_ Hk].
    specialize (Hk t q). rewrite Hpc in Hk. specialize (Hk eq_refl).
    split; [by eapply gstep_old|]. simpl in Hs. rewrite Hpc in Hs.
    destruct (bool_decide _ && bool_decide _ && _); [|done]. destruct (deref st q) as [c|]; [|done].
    destruct (c_data c) as [d|]; [|done]. injection Hs as Hs. rewrite <- (pc_after _ _ _ _ Hs), He.
    unfold drop_box. rewrite !app_assoc. eexists. split; [reflexivity|].
    left. apply elem_of_app. right. by apply elem_of_list_singleton.
  Qed.

  Lemma insert_panic_stuck ls st t gone k v q st1 ls2 st2 :
    early = true -> run gstep init ls = Some st -> get_pc st t = PVac k v q ->
    gstep st (GInsert t gone) = Next st1 -> run gstep st1 ls2 = Some st2 -> get_pc st2 t <> PFree.
  Proof.
    intros He Hr Hpc Hs Hr2. pose proof (insert_doomed _ _ _ _ _ _ _ _ He Hr Hpc Hs) as Hd.
    assert (doomed t q st2) as [_ H].
    { eapply (run_keeps E early (doomed t q)); [|done..]. intros. by eapply gstep_doomed. }
    intros Hx. by rewrite Hx in H.
  Qed.

  (** A value without handles: two steps later. *)
  Lemma insert_panic_ub st t k v q d st1 :
    early = true -> get_pc st t = PVac k v q -> data st q = Some d -> te_kids E d = [] ->
    gstep st (GInsert t []) = Next st1 ->
    run gstep st1 [GDo (LStep t 0 0); GDo (LStep t 0 0)] = None.
  Proof.
    intros He Hpc Hd Hk Hs. simpl in Hs. rewrite Hpc in Hs.
    apply data_Some in Hd as (c&Hc&Hcd). rewrite Hc, Hcd in Hs.
    unfold drop_box in Hs. rewrite Hk, He in Hs. simpl in Hs. injection Hs as <-.
    pose proof Hc as [Hh Hse]%deref_Some.
    simpl. unfold exec. simpl. unfold step_thread at 1. rewrite get_pc_set, decide_True by done. simpl.
    unfold deref at 1. simpl. rewrite lookup_insert. simpl. rewrite Hse, Nat.eqb_refl.
    unfold exec. simpl. unfold step_thread at 1. rewrite get_pc_set, decide_True by done. simpl.
    unfold deref. simpl. by rewrite lookup_delete.
  Qed.

  (** Entries lost by a table. *)
  Lemma lose_empty st p q : data (lose st p) q = if decide (q = p) then None else data (lose st p) q.
  Proof.
    destruct (decide (q = p)) as [->|]; [|done]. unfold lose.
    destruct (deref st p) as [c|] eqn:Hc; [|unfold data; by rewrite Hc].
    unfold data, deref. simpl. rewrite lookup_insert. simpl. by destruct (c_ser c =? p_ser p).
  Qed.
  Lemma lose_keeps_empty st p q : data st q = None -> data (lose st p) q = None.
  Proof.
    intros Hq. unfold lose. destruct (deref st p) as [c|] eqn:Hc; [|done].
    unfold data, deref in *. simpl. apply deref_Some in Hc as [Hh _].
    destruct (decide (p_addr p = p_addr q)) as [He|].
    - rewrite <- He, lookup_insert. simpl. by destruct (c_ser c =? p_ser q).
    - by rewrite lookup_insert_ne.
  Qed.
  Lemma losing_empties st gone q : q ∈ gone \/ data st q = None -> data (fold_left lose gone st) q = None.
  Proof.
    revert st. induction gone as [|p gone IH]; intros st; simpl.
    - by intros [?%elem_of_nil|?].
    - intros [[->|Hq]%elem_of_cons|Hq]; apply IH; auto using lose_keeps_empty.
      right. by rewrite lose_empty, decide_True.
  Qed.

  Lemma lost_forever ls st t gone st1 p ls2 st2 :
    run gstep init ls = Some st -> gstep st (GInsert t gone) = Next st1 -> p ∈ gone ->
    run gstep st1 ls2 = Some st2 -> data st2 p = None.
  Proof.
    intros Hr Hs Hp Hr2. destruct (run_known _ _ _ _ Hr) as [Hk _].
    assert (p ∈ st_table st /\ data st1 p = None) as [Hin Hd].
    { simpl in Hs. destruct (get_pc st t) as [| | | | | | |k v q| | | | | |]; try done.
      destruct (bool_decide _ && bool_decide _ && _) eqn:Hb; [|done].
      apply andb_true_iff in Hb as [[_ Hsub%bool_decide_eq_true]%andb_true_iff _].
      destruct (deref st q) as [c|] eqn:Hc; [|done]. destruct (c_data c) as [d|]; [|done].
      injection Hs as <-. split; [by apply Hsub|].
      pose proof (losing_empties st gone p (or_introl Hp)) as Hl.
      unfold data, deref in *. simpl.
      destruct (decide (p_addr q = p_addr p)) as [He|].
      - rewrite He, lookup_insert. simpl. by destruct (c_ser c =? p_ser p).
      - by rewrite lookup_insert_ne. }
    assert (old st2 p /\ data st2 p = None) as [_ ?]; [|done].
    eapply (run_keeps E early (λ s, old s p /\ data s p = None)); [|exact Hr2|].
    - intros s l s' Hs' [? ?]. split; [by eapply gstep_old|by eapply gstep_empty].
    - split; [|done]. eapply gstep_old; [done|]. by apply Hk.
  Qed.

  Lemma lost_dangle ls st t gone st1 p ls2 st2 :
    run gstep init ls = Some st -> gstep st (GInsert t gone) = Next st1 -> p ∈ gone ->
    run gstep st1 ls2 = Some st2 ->
    data st2 p = None /\ (p ∈ st_pool st2 -> gstep st2 (GDo (LDeref p [])) = UB).
  Proof.
    intros Hr Hs Hp Hr2. pose proof (lost_forever _ _ _ _ _ _ _ _ Hr Hs Hp Hr2) as Hd.
    split; [done|]. intros Hin. simpl. unfold borrow. rewrite decide_True by done. simpl. by rewrite Hd.
  Qed.
End doomed.

(** ** Otherwise nothing happens. *)
Section safe.
  Context {V : Type} (E : tyenv V) (early : bool).
  Implicit Types (st : state V) (p q : ptr) (l : glabel V) (ls : list (glabel V)).

  Definition harmless l : Prop :=
    match l with GInsert _ gone => early = false /\ gone = [] | _ => True end.

  Lemma ginv (HL : coherent E) (HW : wide E) st l st' :
    harmless l -> fits E st -> Inv E st -> gstep E early st l = Next st' -> Inv E st'.
  Proof.
    destruct l as [l|t gone|t|t]; intros Hl Hf HI Hs.
    - by eapply (step_inv E HL HW).
    - destruct Hl as [-> ->]. simpl in Hs.
      pose proof (inv_pc _ _ HI t) as Hok.
      destruct (get_pc st t) as [| | | | | | |k v q| | | | | |] eqn:Hpc; try done.
      destruct Hok as (Hb&Hk&_). rewrite Hb in Hs. simpl in Hs.
      rewrite app_nil_r in Hs. injection Hs as <-.
      set (c := Cell _ _ _ : cell V) in *.
      eapply (inv_unbox E st _ t q c (PWork (drop_box E v q) None)
                (Some (Cell (p_ser q) 1%N None))); try exact Hb; try done; rewrite ?Hpc; try done.
      + simpl. rewrite at_addr_self. lia.
      + by intros ? [= <-].
      + intros p. simpl. unfold drop_box. rewrite work_handles_app, work_handles_drops.
        unfold cell_handles. simpl. lia.
      + intros p. simpl. unfold drop_box. rewrite work_rc_app, work_rc_drops. done.
      + intros a'. simpl. unfold drop_box. rewrite work_oc_app, work_oc_drops. simpl. lia.
      + apply lock_ok_rel; [exact (inv_lock_ok E st HI)| |done]. by rewrite pc_lock_get, Hpc.
      + split; [|done]. intros q' Hq'. unfold drop_box in Hq'. apply elem_of_app in Hq' as [Hq'|Hq'].
        * apply elem_of_list_fmap in Hq' as (?&?&?). done.
        * apply elem_of_list_singleton in Hq'. simplify_eq.
          eexists. split; [|by instantiate (1 := Cell (p_ser q) 1%N None)].
          apply deref_Some. simpl. by rewrite lookup_insert.
    - simpl in Hs. destruct (get_pc st t) as [| | | | | | | | | | | | |ty j] eqn:Hpc; try done.
      destruct (j <? te_shards E); [|done]. destruct (st_locks st !! (ty, j)); [done|]. injection Hs as <-.
      eapply (inv_local E st _ t PFree); try done; rewrite ?Hpc; try done.
      + apply lock_ok_same; [exact (inv_lock_ok E st HI)|]. by rewrite pc_lock_get, Hpc.
      + intros. by left.
    - simpl in Hs. pose proof (inv_pc _ _ HI t) as Hok.
      destruct (get_pc st t) as [| | | | | | | | | | |w r| |] eqn:Hpc; try done. injection Hs as <-.
      destruct Hok as [Hfree Hret].
      eapply (inv_local E st _ t _); try done; rewrite ?Hpc; try done.
      + intros q. simpl. rewrite work_handles_app. destruct r as [[v x]|]; simpl; lia.
      + intros q. simpl. rewrite work_rc_app. destruct r as [[v x]|]; simpl; lia.
      + intros a'. simpl. rewrite work_oc_app. destruct r as [[v x]|]; simpl; lia.
      + apply lock_ok_same; [exact (inv_lock_ok E st HI)|]. by rewrite pc_lock_get, Hpc.
      + split; [|done]. intros q [Hq|Hq]%elem_of_app; [by apply Hfree|].
        destruct r as [[v x]|]; [|by apply elem_of_nil in Hq].
        by apply elem_of_list_singleton in Hq.
      + intros. by left.
  Qed.

  Lemma gno_ub (HL : coherent E) (HW : wide E) st l : Inv E st -> gstep E early st l <> UB.
  Proof.
    intros HI. destruct l as [l|t gone|t|t]; simpl.
    - by apply (step_no_ub E).
    - pose proof (inv_pc _ _ HI t) as Hok.
      destruct (get_pc st t) as [| | | | | | |k v q| | | | | |] eqn:Hpc; try done.
      destruct Hok as (Hb&_). rewrite Hb. simpl. by destruct (bool_decide _ && bool_decide _ && _).
    - repeat case_match; done.
    - repeat case_match; done.
  Qed.

  Lemma grun_safe (HL : coherent E) (HW : wide E) ls : gbounded E early ls -> Forall harmless ls ->
    exists st, run (gstep E early) init ls = Some st /\ Inv E st.
  Proof.
    induction ls as [|l ls IH] using rev_ind; intros Hb Hl.
    - exists init. split; [done|]. by apply inv_init.
    - apply Forall_app in Hl as [Hl Hl1]. apply Forall_inv in Hl1.
      assert (gbounded E early ls) as Hb'.
      { intros l1 l2 st1 -> Hr p. eapply (Hb l1 (l2 ++ [l])); [|done]. by rewrite app_assoc. }
      destruct (IH Hb' Hl) as (st&Hr&HI). rewrite run_snoc, Hr. unfold exec.
      destruct (gstep E early st l) as [st'| | |] eqn:Hs; [|by eauto..|].
      + exists st'. split; [done|]. eapply ginv; [done..| |done|exact Hs].
        intros p. by apply (Hb ls [l] st).
      + exfalso. by apply (gno_ub HL HW st l HI).
  Qed.

  (** Executions with fewer than 2^W steps are bounded. *)
  Lemma ghc st l st' p : harmless l -> Inv E st -> gstep E early st l = Next st' ->
    handles_to E st' p <= handles_to E st p + 1.
  Proof.
    destruct l as [l|t gone|t|t]; intros Hl HI Hs.
    - pose proof (step_hc E st l st' p HI Hs).
      assert (creates st l <= 1) by (unfold creates; repeat case_match; lia). lia.
    - destruct Hl as [-> ->]. simpl in Hs. pose proof (inv_pc _ _ HI t) as Hok.
      destruct (get_pc st t) as [| | | | | | |k v q| | | | | |] eqn:Hpc; try done.
      destruct Hok as (Hb&Hk&_). rewrite Hb in Hs. simpl in Hs. rewrite app_nil_r in Hs. injection Hs as <-.
      apply deref_Some in Hb as [Hh _].
      pose proof (hc_heap_update E st _ _ (Cell (p_ser q) 1%N None) p Hh) as H1.
      pose proof (tsum_set (pc_handles E p) st t (PWork (drop_box E v q) None) eq_refl) as H2.
      rewrite Hpc in H2. unfold handles_to in *. unfold drop_box in *. simpl in *.
      rewrite work_handles_app, work_handles_drops in H2. unfold cell_handles in H1 at 2 4. simpl in *. lia.
    - simpl in Hs. destruct (get_pc st t) as [| | | | | | | | | | | | |ty j] eqn:Hpc; try done.
      destruct (j <? te_shards E); [|done]. destruct (st_locks st !! (ty, j)); [done|]. injection Hs as <-.
      pose proof (hc_set_pc E st t PFree p) as H1. rewrite Hpc in H1. simpl in H1. lia.
    - simpl in Hs. destruct (get_pc st t) as [| | | | | | | | | | |w r| |] eqn:Hpc; try done. injection Hs as <-.
      pose proof (hc_set_pc E st t (PWork (w ++ match r with Some (_, x) => [IDrop x] | None => [] end) None) p) as H1.
      rewrite Hpc in H1. simpl in H1. rewrite work_handles_app in H1. destruct r as [[v x]|]; simpl in *; lia.
  Qed.

  Lemma gshort_bounded (HL : coherent E) (HW : wide E) ls : Forall harmless ls ->
    (N.of_nat (length ls) < te_mod E)%N -> gbounded E early ls.
  Proof.
    intros Hl Hn.
    assert (gbounded E early ls /\ forall st p, run (gstep E early) init ls = Some st ->
              handles_to E st p <= length ls) as [? _]; [|done].
    induction ls as [|l ls IH] using rev_ind.
    - assert (forall st p, run (gstep E early) init [] = Some st -> handles_to E st p <= 0) as H0.
      { simpl. intros st p [= <-]. unfold handles_to. simpl. by rewrite !msum_empty. }
      split; [|done]. intros l1 l2 st1 He Hr p. symmetry in He. apply app_eq_nil in He as [-> _].
      specialize (H0 st1 p Hr). unfold wide in HW. lia.
    - rewrite app_length in *. simpl in *. apply Forall_app in Hl as [Hl Hl1]. apply Forall_inv in Hl1.
      destruct IH as [Hb Hle]; [done|lia|].
      assert (forall st p, run (gstep E early) init (ls ++ [l]) = Some st -> handles_to E st p <= length ls + 1) as H1.
      { intros st p. rewrite run_snoc. destruct (grun_safe HL HW ls Hb Hl) as (st1&Hr1&HI).
        specialize (Hle st1 p Hr1). rewrite Hr1.
        unfold exec. destruct (gstep E early st1 l) as [st2| | |] eqn:Hs; try done; intros [= <-]; try lia.
        pose proof (ghc st1 l st2 p Hl1 HI Hs). lia. }
      split; [|done]. intros l1 l2 st1 He Hr p.
      destruct l2 as [|l' l2 _] using rev_ind.
      + rewrite app_nil_r in He. subst. specialize (H1 st1 p Hr). lia.
      + rewrite app_assoc in He. apply app_inj_tail in He as [-> ->]. by eapply Hb.
  Qed.
End safe.

(** ** Nothing is left behind. *)
Section leak.
  Context {V : Type} (E : tyenv V) (early : bool).
  Context (HL : lawful E) (HW : wide E).
  Implicit Types (st : state V) (ls : list (glabel V)).

  Lemma gstep_zombies st l st' : harmless early l ->
    match l with GDo (LPanic _) => False | _ => True end ->
    gstep E early st l = Next st' -> st_zombies st' = st_zombies st.
  Proof.
    intros Hh Hl Hs. destruct l as [l|t gone|t|t].
    - destruct (step_mono E st l st' Hs) as (_&_&[Hz|[Hp _]]); [done|]. by destruct l.
    - destruct Hh as [-> ->]. simpl in Hs. destruct (get_pc st t); try done.
      destruct (deref st q) as [c|]; [|done]. destruct (c_data c); [|done]. by injection Hs as <-.
    - simpl in Hs. destruct (get_pc st t); try done. repeat (case_match; try done). by injection Hs as <-.
    - simpl in Hs. destruct (get_pc st t); try done. by injection Hs as <-.
  Qed.

  Lemma grun_clean ls st : gbounded E early ls -> Forall (harmless early) ls -> searches_return ls ->
    run (gstep E early) init ls = Some st -> quiescent st ->
    NoDup (st_table st) /\
    (forall p, p ∈ st_table st <-> alive E st p) /\
    (forall a c, st_heap st !! a = Some c <->
       exists p, alive E st p /\ p_addr p = a /\ deref st p = Some c) /\
    (forall p, alive E st p -> exists r, r ∈ st_pool st ++ st_gone st /\ owns E st r p) /\
    (st_pool st = [] -> st_gone st = [] -> st_table st = [] /\ st_heap st = ∅).
  Proof.
    intros Hb Hh Hn Hr Hq.
    destruct (grun_safe E early (lawful_coherent E HL) HW ls Hb Hh) as (st'&Hr'&HI).
    assert (st' = st) as -> by congruence.
    apply quiescent_exact_inv; [done..|].
    clear Hb Hq Hr' HI. revert st Hr. induction ls as [|l ls IH] using rev_ind; intros st Hr; [by simplify_eq/=|].
    apply Forall_app in Hh as [Hh Hh1]. apply Forall_inv in Hh1.
    apply Forall_app in Hn as [Hn Hn1]. apply Forall_inv in Hn1.
    rewrite run_snoc in Hr. destruct (run (gstep E early) init ls) as [s|] eqn:Hs; [|done].
    unfold exec in Hr. destruct (gstep E early s l) as [s'| | |] eqn:Hl; simplify_eq; auto.
    rewrite (gstep_zombies s l st Hh1 Hn1 Hl). auto.
  Qed.
End leak.

Section tame.
  Context {V : Type} (E : tyenv V) (early : bool).
  Implicit Types (st : state V) (ls : list (glabel V)).

  Lemma gstep_cut st l : gstep (cut E) early st l = gstep E early st l.
  Proof. destruct l; [|reflexivity..]. apply step_cut. Qed.
  Lemma grun_cut st ls : run (gstep (cut E) early) st ls = run (gstep E early) st ls.
  Proof.
    revert st. induction ls as [|l ls IH]; intros st; simpl; [done|].
    unfold exec. rewrite gstep_cut. by destruct (gstep E early st l).
  Qed.

  Lemma grun_tame ls : tame E -> wide E -> gbounded E early ls -> Forall (harmless early) ls ->
    run (gstep E early) init ls <> None.
  Proof.
    intros HT HW Hb Hl. rewrite <- grun_cut.
    destruct (grun_safe (cut E) early (cut_coherent E HT) HW ls) as (st&->&_); [|done..].
    intros l1 l2 st1 He Hr. rewrite grun_cut in Hr. exact (Hb l1 l2 st1 He Hr).
  Qed.

  Lemma safe_if_insert_returns ls : tame E -> wide E -> gbounded E early ls -> insert_returns ls ->
    run (gstep E early) init ls <> None.
  Proof.
    intros ? ? ? H. apply grun_tame; [done..|]. eapply Forall_impl; [|exact H]. by intros [].
  Qed.
End tame.

Lemma safe_if_handle_last {V : Type} (E : tyenv V) ls : tame E -> wide E ->
  gbounded E false ls -> entries_kept ls -> run (gstep E false) init ls <> None.
Proof.
  intros ? ? ? H. apply grun_tame; [done..|]. eapply Forall_impl; [|exact H]. by intros [].
Qed.

Lemma harmless_either {V : Type} early (ls : list (glabel V)) :
  insert_returns ls \/ early = false /\ entries_kept ls -> Forall (harmless early) ls.
Proof. intros [H|[-> H]]; (eapply Forall_impl; [|exact H]); by intros []. Qed.

Lemma nothing_leaks {V : Type} (E : tyenv V) early ls st : lawful E -> wide E ->
  gbounded E early ls -> insert_returns ls \/ early = false /\ entries_kept ls -> searches_return ls ->
  run (gstep E early) init ls = Some st -> quiescent st ->
  NoDup (st_table st) /\
  (forall p, p ∈ st_table st <-> alive E st p) /\
  (forall a c, st_heap st !! a = Some c <->
     exists p, alive E st p /\ p_addr p = a /\ deref st p = Some c) /\
  (forall p, alive E st p -> exists r, r ∈ st_pool st ++ st_gone st /\ owns E st r p) /\
  (st_pool st = [] -> st_gone st = [] -> st_table st = [] /\ st_heap st = ∅).
Proof. intros HL HW Hb Hh%(harmless_either early). exact (grun_clean E early HL HW ls st Hb Hh). Qed.

(** Proofs about subtyping of ArcIntern. *)
From stdpp Require Import gmap list numbers.
From Verif Require Import Base ArcModel ArcSpec ArcInv ArcStep ArcSafe ArcReach ArcLive ArcTame ArcProps VarModel VarSpec.
Require Import ZifyBool ZifyNat ZifyN.

Section unsafe.
  Context {V : Type} (E : tyenv V) (up : nat -> V -> option V).
  Implicit Types (st : state V) (v d : V) (p q : ptr).
  Notation vstep := (vstep E up).

  Lemma vrun_do st ls : run vstep st (VDo <$> ls) = run (step E) st ls.
  Proof.
    revert st. induction ls as [|l ls IH]; intros st; [done|]. simpl. unfold exec. simpl.
    destruct (step E st l); [apply IH..|done].
  Qed.

  (** The step that finds an entry of another object. *)
  Lemma found_ub st t ty i p w r d d' q :
    get_pc st t = PWork (IRemove p :: w) r -> data st p = Some d -> up ty d = Some d' ->
    st_locks st !! lock_of E d' = None -> readable st = true ->
    pick i (matches E st d') = Some q -> q ∈ st_pool st ->
    run vstep st [VAs t ty i; VDo (LStep t 0 0); VDo (LDeref q [])] = None.
  Proof.
    intros Hpc Hd Hu Hl Hr Hq Hp. simpl. unfold exec at 1. simpl. rewrite Hpc, Hd, Hu, Hl, Hr, Hq.
    assert (exists c, deref st q = Some c /\ is_Some (c_data c)) as (c&Hc&d0&Hd0).
    { apply pick_Some in Hq. apply elem_of_list_In in Hq. unfold matches in Hq.
      apply filter_In in Hq as [_ Hm]. unfold is_match in Hm.
      destruct (data st q) as [d0|] eqn:Hdq; [|done]. apply data_Some in Hdq as (c&Hc&Hd0). eauto. }
    unfold exec at 1. simpl. unfold step_thread. rewrite get_pc_set, decide_True by done.
    change (deref (set_pc _ _ _) q) with (deref st q). rewrite Hc, Hd0.
    unfold exec, VarModel.vstep, step, borrow. rewrite decide_True by done. simpl.
    assert (Hn : forall s, st_heap s = <[p_addr q:=Cell (c_ser c) (c_count c) None]> (st_heap st) -> data s q = None).
    { intros s Hs. unfold data, deref. rewrite Hs, lookup_insert. by destruct (_ =? _). }
    by rewrite Hn.
  Qed.

  Lemma found_ub' st t ty i st1 l q w r :
    vstep st (VAs t ty i) = Next st1 -> get_pc st1 t = PRem l q w r -> q ∈ st_pool st ->
    run vstep st1 [VDo (LStep t 0 0); VDo (LDeref q [])] = None.
  Proof.
    intros Hs Hpc Hp. pose proof Hs as Hs0. simpl in Hs.
    destruct (get_pc st t) as [| | | | | | | | | | |[|[p|p|q'] w'] r'| |] eqn:Hpc0; try done.
    destruct (data st p) as [d|] eqn:Hd; [|done]. destruct (up ty d) as [d'|] eqn:Hu; [|done].
    destruct (st_locks st !! lock_of E d') eqn:Hl; [done|]. destruct (readable st) eqn:Hr; [|done].
    destruct (pick i (matches E st d')) as [q0|] eqn:Hq; injection Hs as <-;
      rewrite get_pc_set, decide_True in Hpc by done; [|done].
    injection Hpc as <- <- <- <-.
    pose proof (found_ub st t ty i p w' r' d d' q0 Hpc0 Hd Hu Hl Hr Hq Hp) as H.
    cbn [run] in H. unfold exec in H at 1. rewrite Hs0 in H. exact H.
  Qed.

  Lemma readable_ext st st' : st_table st' = st_table st -> (forall q, q ∈ st_table st -> data st' q = data st q) ->
    readable st' = readable st.
  Proof.
    intros Ht Hd. unfold readable. rewrite Ht. apply eq_true_iff_eq. rewrite !forallb_forall.
    split; intros H q Hq; specialize (H q Hq); apply elem_of_list_In in Hq; [by rewrite <- Hd|by rewrite Hd].
  Qed.
  Lemma matches_ext st st' v : st_table st' = st_table st -> (forall q, q ∈ st_table st -> data st' q = data st q) ->
    matches E st' v = matches E st v.
  Proof.
    intros Ht Hd. unfold matches. rewrite Ht. apply filter_ext_in. intros q Hq. apply elem_of_list_In in Hq.
    unfold is_match. by rewrite Hd.
  Qed.

  (** A call that meets no other thread. *)
  Lemma undisturbed_run st t a v :
    get_pc st t = PFree -> st_locks st = ∅ -> readable st = true -> matches E st v = [] ->
    te_kids E v = [] -> st_heap st !! a = None ->
    exists st', run vstep st (undisturbed t a v) = Some st' /\
      get_pc st' t = PFree /\ st_locks st' = ∅ /\ st_next st' = S (st_next st) /\
      st_table st' = Ptr a (st_next st) :: st_table st /\ st_pool st' = Ptr a (st_next st) :: st_pool st /\
      st_heap st' = <[a := Cell (st_next st) 1%N (Some v)]> (st_heap st).
  Proof.
    intros Hpc Hl Hr Hm Hk Ha. unfold undisturbed. cbn [replicate].
    set (n := st_next st).
    set (s1 := set_pc (set_pool st (st_pool st)) t (PLookup KSized v None)).
    set (s2 := set_pc s1 t (PAlloc KSized v None)).
    set (s3 := set_pc (alloc s2 a v) t (PEntry KSized v (Ptr a n))).
    set (s4 := set_pc (lock s3 (lock_of E v) t) t (PVac KSized v (Ptr a n))).
    set (s5 := set_pc (set_table s4 (Ptr a n :: st_table s4)) t (PIns KSized v (Ptr a n))).
    set (s6 := set_pc (unlock s5 (lock_of E v)) t (PWork [] (Some (v, Ptr a n)))).
    set (s7 := add_log (set_pool (set_pc s6 t PFree) (Ptr a n :: st_pool s6)) (EvNew t v (Ptr a n))).
    assert (Hx : forall (s : state V) x, get_pc (set_pc s t x) t = x) by (intros; rewrite get_pc_set; by rewrite decide_True).
    assert (data s3 (Ptr a n) = Some v) as Hd3.
    { unfold data, deref. simpl. rewrite lookup_insert. simpl. unfold n. by rewrite Nat.eqb_refl. }
    assert (forall q, q ∈ st_table st -> data s3 q = data st q) as Hd.
    { intros q Hq. unfold readable in Hr. rewrite forallb_forall in Hr.
      apply elem_of_list_In in Hq. specialize (Hr q Hq).
      destruct (data st q) as [d|] eqn:Hdq; [|done]. unfold data, deref in *. simpl.
      rewrite lookup_insert_ne; [done|]. intros ->. by rewrite Ha in Hdq. }
    assert (step E st (LNew t KSized v) = Next s1) as H1.
    { simpl. rewrite Hpc, Hk. done. }
    assert (step E s1 (LStep t a 0) = Next s2) as H2.
    { simpl. unfold step_thread, s1. rewrite Hx. simpl. rewrite Hl, lookup_empty.
      change (readable _) with (readable st). rewrite Hr.
      change (matches E _ v) with (matches E st v). by rewrite Hm. }
    assert (step E s2 (LStep t a 0) = Next s3) as H3.
    { simpl. unfold step_thread, s2. rewrite Hx. simpl. by rewrite Ha. }
    assert (step E s3 (LStep t a 0) = Next s4) as H4.
    { simpl. unfold step_thread. unfold s3 at 1. rewrite Hx. rewrite Hd3.
      change (st_locks s3) with (st_locks st). rewrite Hl, lookup_empty.
      rewrite (readable_ext st s3), Hr by done. by rewrite (matches_ext st s3), Hm by done. }
    assert (step E s4 (LStep t a 0) = Next s5) as H5.
    { simpl. unfold step_thread. unfold s4 at 1. by rewrite Hx. }
    assert (step E s5 (LStep t a 0) = Next s6) as H6.
    { simpl. unfold step_thread. unfold s5 at 1. by rewrite Hx. }
    assert (step E s6 (LStep t a 0) = Next s7) as H7.
    { simpl. unfold step_thread. unfold s6 at 1. by rewrite Hx. }
    exists s7. split.
    { change (run vstep st (VDo <$> [LNew t KSized v; LStep t a 0; LStep t a 0; LStep t a 0; LStep t a 0; LStep t a 0; LStep t a 0]) = Some s7).
      rewrite vrun_do. clearbody s1 s2 s3 s4 s5 s6 s7.
      cbn [run]. unfold exec. by rewrite H1, H2, H3, H4, H5, H6, H7. }
    split_and!; try done.
    - unfold s7, s6. apply (Hx s6 PFree).
    - simpl. rewrite Hl. apply delete_insert, lookup_empty.
  Qed.

  (** The last handle, dropped at its supertype. *)
  Lemma five_lines_ub ty v w :
    up ty v = Some w -> te_ty E w <> te_ty E v -> te_eq E w w = true ->
    te_kids E v = [] -> te_kids E w = [] ->
    run vstep init (five_lines ty v w) = None.
  Proof.
    intros Hu Hty He Hkv Hkw. unfold five_lines.
    destruct (undisturbed_run init 0 0 v) as (s1&Hr1&Hp1&Hl1&Hn1&Ht1&Hpl1&Hh1); try done.
    simpl in Hn1, Ht1, Hpl1, Hh1.
    assert (data s1 (Ptr 0 0) = Some v) as Hd1.
    { unfold data, deref. by rewrite Hh1. }
    assert (is_match E s1 w (Ptr 0 0) = false) as Hm1.
    { unfold is_match. rewrite Hd1. by rewrite (proj2 (Nat.eqb_neq _ _) Hty). }
    destruct (undisturbed_run s1 0 1 w) as (s2&Hr2&Hp2&Hl2&Hn2&Ht2&Hpl2&Hh2); try done.
    { unfold readable. rewrite Ht1. simpl. by rewrite Hd1. }
    { unfold matches. rewrite Ht1. simpl. by rewrite Hm1. }
    { by rewrite Hh1. }
    rewrite Hn1 in Hn2, Ht2, Hpl2, Hh2. rewrite Ht1 in Ht2. rewrite Hpl1 in Hpl2. rewrite Hh1 in Hh2.
    rewrite run_app, Hr1, run_app, Hr2.
    change [?a; ?b; ?c; ?d; ?e] with ([a; b] ++ [c; d; e]). rewrite run_app.
    set (s3 := set_pc (set_pool s2 [Ptr 1 1]) 0 (PWork [IDrop (Ptr 0 0)] None)).
    set (c0 := Cell 0 1%N (Some v)).
    assert (deref s3 (Ptr 0 0) = Some c0) as Hc3.
    { unfold deref. simpl. rewrite Hh2. done. }
    set (s4 := set_pc (set_count s3 (Ptr 0 0) c0 (count_dec E 1)) 0 (PWork [IRemove (Ptr 0 0)] None)).
    assert (step E s2 (LDrop 0 (Ptr 0 0)) = Next s3) as H3.
    { simpl. rewrite Hp2, Hpl2. simpl. done. }
    assert (step E s3 (LStep 0 0 0) = Next s4) as H4.
    { simpl. unfold step_thread. unfold s3 at 1. rewrite get_pc_set, decide_True by done. by rewrite Hc3. }
    assert (run vstep s2 [VDo (LDrop 0 (Ptr 0 0)); VDo (LStep 0 0 0)] = Some s4) as ->.
    { clearbody s3 s4. cbn [run]. unfold exec. cbn [VarModel.vstep]. by rewrite H3, H4. }
    assert (st_heap s4 = <[0:=Cell 0 (count_dec E 1) (Some v)]> (<[1:=Cell 1 1%N (Some w)]> (<[0:=c0]> ∅))) as Hh4.
    { unfold s4. simpl. by rewrite Hh2. }
    assert (data s4 (Ptr 0 0) = Some v) as Hd40 by (unfold data, deref; by rewrite Hh4).
    assert (data s4 (Ptr 1 1) = Some w) as Hd41 by (unfold data, deref; by rewrite Hh4).
    assert (st_table s4 = [Ptr 1 1; Ptr 0 0]) as Ht4 by done.
    apply (found_ub s4 0 ty 0 (Ptr 0 0) [] None v w (Ptr 1 1)); try done.
    - unfold s4. by rewrite get_pc_set, decide_True.
    - unfold s4, s3. simpl. by rewrite Hl2, lookup_empty.
    - unfold readable. rewrite Ht4. simpl. by rewrite Hd40, Hd41.
    - unfold matches. rewrite Ht4. simpl. unfold is_match. rewrite Hd41, !Nat.eqb_refl, He. done.
    - unfold s4, s3. simpl. by left.
  Qed.
End unsafe.

(** ** Where values come from *)
Section source.
  Context {V : Type} (E : tyenv V) (P : V -> Prop).
  Implicit Types (st : state V) (v d : V) (p q : ptr).

  Definition pc_arg (x : pc V) : option V :=
    match x with
    | PLookup _ v _ | PHit _ v _ _ | PInc _ v _ _ _ | PUndo _ v _ _ | PAlloc _ v _
    | PEntry _ v _ | PVac _ v _ | POcc _ v _ | PIns _ v _ => Some v
    | _ => None
    end.
  Definition stored (h : gmap nat (cell V)) : Prop :=
    forall a c d, h !! a = Some c -> c_data c = Some d -> P d.
  Definition src st : Prop := stored (st_heap st) /\ forall t v, pc_arg (get_pc st t) = Some v -> P v.

  Lemma src_heap st st' : src st -> st_threads st' = st_threads st -> stored (st_heap st') -> src st'.
  Proof. intros [_ Hp] Ht Hh. split; [done|]. intros t v. unfold get_pc. rewrite Ht. apply Hp. Qed.
  Lemma src_set st st' t x : src st -> st_threads st' = <[t:=x]> (st_threads st) -> stored (st_heap st') ->
    (forall v, pc_arg x = Some v -> P v) -> src st'.
  Proof.
    intros [_ Hp] Ht Hh Hx. split; [done|]. intros t' v. unfold get_pc. rewrite Ht.
    destruct (decide (t' = t)) as [->|].
    - rewrite lookup_insert. apply Hx.
    - rewrite lookup_insert_ne by done. apply Hp.
  Qed.
  Lemma stored_count h a c n : stored h -> h !! a = Some c -> stored (<[a:=Cell (c_ser c) n (c_data c)]> h).
  Proof.
    intros Hs Hc b c' d [[<- <-]|[_ Hb]]%lookup_insert_Some; simpl; [by apply (Hs a c)|by apply (Hs b c')].
  Qed.
  Lemma stored_take h a n m : stored h -> stored (<[a:=Cell n m None]> h).
  Proof. intros Hs b c' d [[<- <-]|[_ Hb]]%lookup_insert_Some; [done|by apply (Hs b c')]. Qed.
  Lemma stored_put h a n m v : stored h -> P v -> stored (<[a:=Cell n m (Some v)]> h).
  Proof. intros Hs Hv b c' d [[<- <-]|[_ Hb]]%lookup_insert_Some; [by intros [= <-]|by apply (Hs b c')]. Qed.
  Lemma stored_free h a : stored h -> stored (delete a h).
  Proof. intros Hs b c d [_ Hb]%lookup_delete_Some. by apply (Hs b c). Qed.

  Lemma step_src st l st' : step E st l = Next st' -> (forall t k v, l = LNew t k v -> P v) -> src st -> src st'.
  Proof.
    intros Hs Hl Hsrc. pose proof Hsrc as [Hh Hp].
    assert (forall p c, deref st p = Some c -> st_heap st !! p_addr p = Some c) as Hdr.
    { intros p c Hc. by apply deref_Some in Hc as [? _]. }
    destruct l as [t k v|t q|q ks|q|q ks|q ks|t ty|t ty|t a i|t]; simpl in Hs;
      unfold step_thread, step_panic, borrow in Hs;
      try (pose proof (Hp t) as Hpt);
      repeat (match goal with
        | H : Next _ = Next _ |- _ => injection H as <-
        | H : (match ?x with _ => _ end) = Next _ |- _ => destruct x eqn:?; try discriminate H
        end);
      first [eapply src_heap; [exact Hsrc|done|] | eapply src_set; [exact Hsrc|done| |]];
      cbn [st_heap set_pc set_heap set_table set_pool set_gone add_log add_zombie lock unlock set_count
           alloc free take_data];
      try exact Hh; try (apply stored_take; exact Hh); try (apply stored_free; exact Hh);
      try (by apply stored_count; [|apply Hdr]);
      cbn [pc_arg] in *; try (by intros); try (intros ? [= <-]); eauto.
    all: apply stored_put; [done|by apply Hpt].
  Qed.
End source.

Section apart.
  Context {V : Type} (E : tyenv V) (up : nat -> V -> option V).
  Context (HC : coherent E) (HW : wide E).
  Implicit Types (st : state V) (v d : V) (p q : ptr) (ls : list (vlabel V)).
  Notation vstep := (vstep E up).
  Notation hc := (handles_to E).

  Lemma vbounded_app ls1 ls2 : vbounded E up (ls1 ++ ls2) -> vbounded E up ls1.
  Proof. intros Hb l1 l2 st1 -> Hr. apply (Hb l1 (l2 ++ ls2)); [by rewrite app_assoc|done]. Qed.
  Lemma vbounded_fits ls st : vbounded E up ls -> run vstep init ls = Some st -> fits E st.
  Proof. intros Hb Hr p. eapply (Hb ls []); [by rewrite app_nil_r|done]. Qed.
  Lemma interned_mono ls ls' v : (forall l, l ∈ ls -> l ∈ ls') -> interned ls v -> interned ls' v.
  Proof. intros H (t&k&Hv). exists t, k. by apply H. Qed.

  (** A value that was interned, looked for at another type, is not found. *)
  Lemma not_found ls st ty i p d d' :
    apart E up ls -> Inv E st -> src (interned ls) st -> data st p = Some d -> up ty d = Some d' ->
    pick i (matches E st d') = None.
  Proof.
    intros Hap HI [Hsrc _] Hd Hu. destruct (pick i (matches E st d')) as [q|] eqn:Hq; [|done]. exfalso.
    apply (pick_match_hit E HC) in Hq as [_ (e&He&Heq)].
    apply data_Some in Hd as (c&Hc&Hcd). apply deref_Some in Hc as [Hc _].
    apply data_Some in He as (c'&Hc'&Hce). apply deref_Some in Hc' as [Hc' _].
    rewrite (Hap d e ty d' (Hsrc _ _ _ Hc Hcd) (Hsrc _ _ _ Hc' Hce) Hu) in Heq. done.
  Qed.

  Lemma as_inv st t p w r : Inv E st -> get_pc st t = PWork (IRemove p :: w) r ->
    Inv E (set_pc (add_zombie st p) t (PWork w r)).
  Proof.
    intros HI Hpc. pose proof (inv_pc _ _ HI t) as Hok. rewrite Hpc in Hok. simpl in Hok. destruct Hok as [Hfree Hret].
    eapply (inv_local E st _ t _); try done; rewrite ?Hpc; try done.
    - intros q. simpl. unfold is_p. case_bool_decide; destruct (decide (p = q)); simpl; try done; lia.
    - apply lock_ok_same; [exact (inv_lock_ok E st HI)|]. by rewrite pc_lock_get, Hpc.
    - split; [|done]. intros q Hq. apply Hfree. by right.
    - intros. by left.
  Qed.

  (** What a step of this model is, when nothing equal is interned at the other type. *)
  Lemma vstep_cases ls st l st' :
    apart E up ls -> Inv E st -> src (interned ls) st -> vstep st l = Next st' ->
    (exists l0, l = VDo l0 /\ step E st l0 = Next st') \/
    (exists t ty i p w r, l = VAs t ty i /\ get_pc st t = PWork (IRemove p :: w) r /\
       st' = set_pc (add_zombie st p) t (PWork w r)).
  Proof.
    intros Hap HI Hsrc Hs. destruct l as [l|t ty i]; simpl in Hs; [left; eauto|right].
    destruct (get_pc st t) as [| | | | | | | | | | |[|[p|p|q] w] r| |] eqn:Hpc; try done.
    destruct (data st p) as [d|] eqn:Hd; [|done]. destruct (up ty d) as [d'|] eqn:Hu; [|done].
    destruct (st_locks st !! lock_of E d'); [done|]. rewrite (inv_readable _ _ HI) in Hs.
    rewrite (not_found ls st ty i p d d') in Hs by done. injection Hs as <-. naive_solver.
  Qed.

  Lemma vstep_inv ls st l st' :
    apart E up ls -> Inv E st -> src (interned ls) st -> fits E st -> l ∈ ls ->
    vstep st l = Next st' -> Inv E st' /\ src (interned ls) st'.
  Proof.
    intros Hap HI Hsrc Hf Hl Hs.
    destruct (vstep_cases ls st l st' Hap HI Hsrc Hs) as [(l0&->&Hs0)|(t&ty&i&p&w&r&->&Hpc&->)].
    - split; [by eapply step_inv|]. eapply step_src; [exact Hs0| |done].
      intros t k v ->. by exists t, k.
    - split; [by apply as_inv|]. eapply src_set; [exact Hsrc|done|apply Hsrc|done].
  Qed.
  Lemma vstep_no_ub ls st l : apart E up ls -> Inv E st -> src (interned ls) st -> fits E st -> vstep st l <> UB.
  Proof.
    intros Hap HI Hsrc Hf. destruct l as [l|t ty i]; simpl; [by apply step_no_ub|].
    destruct (get_pc st t) as [| | | | | | | | | | |[|[p|p|q] w] r| |] eqn:Hpc; try done.
    assert (p ∈ st_table st) as Hin.
    { apply (inv_rem_in _ _ HI). pose proof (tsum_ge (pc_rc p) st t eq_refl) as H. rewrite Hpc in H.
      simpl in H. rewrite is_p_self in H. unfold rc. lia. }
    destruct (inv_live _ _ HI p Hin) as [d ->]. destruct (up ty d) as [d'|]; [|done].
    destruct (st_locks st !! lock_of E d'); [done|]. rewrite (inv_readable _ _ HI). by destruct (pick i _).
  Qed.

  Lemma vrun_ok ls ls1 ls2 : apart E up ls -> vbounded E up ls -> ls = ls1 ++ ls2 ->
    exists st, run vstep init ls1 = Some st /\ Inv E st /\ src (interned ls) st.
  Proof.
    intros Hap. revert ls2. induction ls1 as [|l ls1 IH] using rev_ind; intros ls2 Hb Hls.
    - exists init. split; [done|]. split; [by apply inv_init|].
      split; [intros a c d H; simpl in H; by rewrite lookup_empty in H|]. intros t v. unfold get_pc. simpl. by rewrite lookup_empty.
    - destruct (IH (l :: ls2) Hb) as (st&Hr&HI&Hsrc); [by rewrite Hls, <- app_assoc|].
      assert (fits E st) as Hf.
      { eapply (vbounded_fits ls1); [|done]. eapply (vbounded_app _ (l :: ls2)). by rewrite Hls, <- app_assoc in Hb. }
      rewrite run_snoc, Hr. unfold exec.
      destruct (vstep st l) as [st'| | |] eqn:Hs; [|by eauto..|].
      + exists st'. split; [done|]. eapply vstep_inv; try done. rewrite Hls. set_solver.
      + exfalso. by apply (vstep_no_ub ls st l).
  Qed.

  Lemma vrun_inv ls ls1 ls2 st : apart E up ls -> vbounded E up ls -> ls = ls1 ++ ls2 ->
    run vstep init ls1 = Some st -> Inv E st /\ src (interned ls) st.
  Proof. intros Hap Hb Hls Hr. destruct (vrun_ok ls ls1 ls2) as (?&?&?&?); try done. by simplify_eq. Qed.

  Lemma apart_safe ls : apart E up ls -> vbounded E up ls -> run vstep init ls <> None.
  Proof.
    intros Hap Hb. destruct (vrun_ok ls ls []) as (st&->&_); try done. by rewrite app_nil_r.
  Qed.
End apart.

Section lost.
  Context {V : Type} (E : tyenv V) (up : nat -> V -> option V).
  Context (HL : lawful E) (HW : wide E).
  Implicit Types (st : state V) (v d : V) (p q : ptr) (ls : list (vlabel V)).
  Notation vstep := (vstep E up).
  Notation hc := (handles_to E).
  Let HC := lawful_coherent E HL.

  Lemma vstep_log ls st l st' :
    apart E up ls -> Inv E st -> src (interned ls) st -> vstep st l = Next st' ->
    st_log st' = st_log st \/ exists e, st_log st' = e :: st_log st /\
      forall t v q, e = EvNew t v q -> 0 < hc st q /\ exists d, data st q = Some d /\ te_eq E v d = true.
  Proof.
    intros Hap HI Hsrc Hs.
    destruct (vstep_cases E up HC ls st l st' Hap HI Hsrc Hs) as [(l0&->&Hs0)|(t&ty&i&p&w&r&->&Hpc&->)]; [|by left].
    destruct (step_event E st l0 st' HI Hs0) as [?|(e&Hl&_&_&He)]; [by left|right]. exists e. split; [done|].
    intros t v q ->. destruct He as (_&Hq&He). eauto.
  Qed.

  Lemma vstep_keeps ls st l st' p d :
    apart E up ls -> Inv E st -> src (interned ls) st -> Inv E st' -> vstep st l = Next st' -> p ∈ st_zombies st ->
    data st p = Some d ->
    p ∈ st_zombies st' /\ data st' p = Some d.
  Proof.
    intros Hap HI Hsrc HI' Hs Hz Hd. destruct (zombie_dead E st p HI Hz) as [Hin _].
    destruct (vstep_cases E up HC ls st l st' Hap HI Hsrc Hs) as [(l0&->&Hs0)|(t&ty&i&q&w&r&->&Hpc&->)].
    - pose proof (step_zombies_in E _ _ _ _ Hs0 Hz) as Hz'. split; [done|].
      destruct (zombie_dead E st' p HI' Hz') as [Hin' _]. by eapply (table_data_step E st l0).
    - split; [by right|done].
  Qed.

  Lemma lost_forever ls ls1 ls2 ls3 st1 st2 p d :
    apart E up ls -> vbounded E up ls -> ls = ls1 ++ ls2 ++ ls3 ->
    run vstep init ls1 = Some st1 -> run vstep st1 ls2 = Some st2 ->
    p ∈ st_zombies st1 -> data st1 p = Some d ->
    p ∈ st_zombies st2 /\ p ∈ st_table st2 /\ data st2 p = Some d /\ hc st2 p = 0 /\
    exists new, st_log st2 = new ++ st_log st1 /\
      forall t v q, EvNew t v q ∈ new -> te_eq E v d = false.
  Proof.
    intros Hap Hb. revert ls3 st2. induction ls2 as [|l ls2 IH] using rev_ind; intros ls3 st2 Hls Hr1 Hr2 Hz Hd.
    - simpl in Hr2. injection Hr2 as <-.
      destruct (vrun_inv E up HC HW ls ls1 ls3 st1) as [HI _]; try done.
      destruct (zombie_dead E st1 p HI Hz). split_and!; try done.
      exists []. split; [done|]. by intros * ?%elem_of_nil.
    - rewrite run_snoc in Hr2. destruct (run vstep st1 ls2) as [st|] eqn:Hr; [|done].
      destruct (IH (l :: ls3) st) as (Hz'&Hin&Hd'&H0&new&Hlog&Hnew); try done.
      { by rewrite Hls, <- app_assoc. }
      destruct (vrun_inv E up HC HW ls (ls1 ++ ls2) (l :: ls3) st) as [HI Hsrc]; try done.
      { by rewrite Hls, <- !app_assoc. }
      { by rewrite run_app, Hr1. }
      unfold exec in Hr2.
      destruct (vstep st l) as [st'| | |] eqn:Hs; simplify_eq; [|split_and!; eauto..].
      destruct (vrun_inv E up HC HW (ls1 ++ (ls2 ++ [l]) ++ ls3) (ls1 ++ ls2 ++ [l]) ls3 st2) as [HI' _]; try done.
      { by rewrite <- !app_assoc. }
      { rewrite run_app, Hr1, run_snoc, Hr. unfold exec. by rewrite Hs. }
      destruct (vstep_keeps _ st l st2 p d Hap HI Hsrc HI' Hs Hz' Hd') as [Hz2 Hd2].
      destruct (zombie_dead E st2 p HI' Hz2) as [Hin2 H02].
      split_and!; try done.
      destruct (vstep_log _ st l st2 Hap HI Hsrc Hs) as [Hl|(e&Hl&He)].
      * exists new. by rewrite Hl.
      * exists (e :: new). rewrite Hl, Hlog. split; [done|].
        intros t v q [<-|Hx]%elem_of_cons; [|by eapply Hnew].
        destruct (te_eq E v d) eqn:Hvd; [|done]. exfalso.
        destruct (He t v q eq_refl) as (Hq&d'&Hdq&Hvd').
        assert (q = p) as ->.
        { apply (inv_uniq _ _ HI q p d' d); [by apply (inv_hand _ _ HI)|done|done|done|].
          eapply (law_trans E HL); [|exact Hvd]. by apply (law_sym E HL). }
        lia.
  Qed.

  Lemma lost_spins ls ls1 ls2 ls3 st1 st2 p d t v :
    apart E up ls -> vbounded E up ls -> ls = ls1 ++ ls2 ++ ls3 ->
    run vstep init ls1 = Some st1 -> run vstep st1 ls2 = Some st2 ->
    p ∈ st_zombies st1 -> data st1 p = Some d -> te_eq E v d = true -> interning st1 t v ->
    VDo (LPanic t) ∉ ls2 -> interning st2 t v.
  Proof.
    intros Hap Hb. revert ls3 st2. induction ls2 as [|l ls2 IH] using rev_ind; intros ls3 st2 Hls Hr1 Hr2 Hz Hd He Hin Hnp.
    - simpl in Hr2. by injection Hr2 as <-.
    - rewrite elem_of_app, elem_of_list_singleton in Hnp.
      pose proof Hr2 as Hr2'. rewrite run_snoc in Hr2. destruct (run vstep st1 ls2) as [st|] eqn:Hr; [|done].
      assert (ls = ls1 ++ ls2 ++ l :: ls3) as Hls' by (by rewrite Hls, <- app_assoc).
      assert (interning st t v) as Hin' by (apply (IH (l :: ls3)); try done; tauto).
      destruct (vrun_inv E up HC HW ls (ls1 ++ ls2) (l :: ls3) st) as [HI Hsrc]; try done.
      { by rewrite Hls, <- !app_assoc. }
      { by rewrite run_app, Hr1. }
      unfold exec in Hr2.
      destruct (vstep st l) as [st'| | |] eqn:Hs; simplify_eq; try done.
      destruct (vstep_cases E up HC _ st l st2 Hap HI Hsrc Hs) as [(l0&->&Hs0)|(t'&ty&i&q&w&r&->&Hpc&->)].
      + destruct (step_interning_any E st l0 st2 t v HI Hs0) as [|[q Hq]]; [|done|done|].
        { intros ->. tauto. }
        exfalso.
        destruct (lost_forever _ ls1 (ls2 ++ [VDo l0]) ls3 st1 st2 p d Hap Hb eq_refl) as (_&_&_&_&new&Hlog&Hnew); try done.
        destruct (lost_forever _ ls1 ls2 (VDo l0 :: ls3) st1 st p d Hap Hb (f_equal (app ls1) Hls')) as (_&_&_&_&new'&Hlog'&_); try done.
        rewrite Hq, Hlog' in Hlog. change (EvNew t v q :: new' ++ st_log st1) with ((EvNew t v q :: new') ++ st_log st1) in Hlog.
        apply app_inv_tail in Hlog. subst new.
        rewrite (Hnew t v q) in He; [done|]. by left.
      + unfold interning in *. rewrite get_pc_set. destruct (decide (t = t')) as [->|]; [|done].
        by rewrite Hpc in Hin'.
  Qed.

  Lemma lost ls1 st0 t0 ty i p w r d st1 ls2 ls3 st2 st3 :
    apart E up (ls1 ++ VAs t0 ty i :: ls2 ++ ls3) -> vbounded E up (ls1 ++ VAs t0 ty i :: ls2 ++ ls3) ->
    run vstep init ls1 = Some st0 ->
    get_pc st0 t0 = PWork (IRemove p :: w) r -> data st0 p = Some d ->
    vstep st0 (VAs t0 ty i) = Next st1 ->
    run vstep st1 ls2 = Some st2 -> run vstep st2 ls3 = Some st3 ->
    p ∈ st_table st3 /\ data st3 p = Some d /\ hc st3 p = 0 /\
    (exists new, st_log st3 = new ++ st_log st1 /\
       forall t v q, EvNew t v q ∈ new -> te_eq E v d = false) /\
    (forall t v, interning st2 t v -> te_eq E v d = true -> VDo (LPanic t) ∉ ls3 -> interning st3 t v).
  Proof.
    intros Hap Hb Hr0 Hpc Hd Hs Hr2 Hr3.
    destruct (vrun_inv E up HC HW _ ls1 (VAs t0 ty i :: ls2 ++ ls3) st0 Hap Hb eq_refl Hr0) as [HI Hsrc].
    destruct (vstep_cases E up HC _ st0 _ st1 Hap HI Hsrc Hs) as [(l0&?&_)|(t'&ty'&i'&q&w'&r'&Heq&Hpc'&Hst1)]; [done|].
    injection Heq as <- <- <-. rewrite Hpc in Hpc'. injection Hpc' as <- <- <-.
    assert (p ∈ st_zombies st1) as Hz by (rewrite Hst1; by left).
    assert (data st1 p = Some d) as Hd1 by (by rewrite Hst1).
    assert (run vstep init (ls1 ++ [VAs t0 ty i]) = Some st1) as Hr1.
    { rewrite run_snoc, Hr0. unfold exec. by rewrite Hs. }
    set (ls := ls1 ++ VAs t0 ty i :: ls2 ++ ls3) in *.
    destruct (lost_forever ls (ls1 ++ [VAs t0 ty i]) (ls2 ++ ls3) [] st1 st3 p d) as (_&?&?&?&?); try done.
    { unfold ls. by rewrite app_nil_r, <- app_assoc. }
    { by rewrite run_app, Hr2. }
    destruct (lost_forever ls (ls1 ++ [VAs t0 ty i]) ls2 ls3 st1 st2 p d) as (Hz2&_&Hd2&_); try done.
    { unfold ls. by rewrite <- app_assoc. }
    split_and!; try done. intros t v Hin He Hnp.
    apply (lost_spins ls ((ls1 ++ [VAs t0 ty i]) ++ ls2) ls3 [] st2 st3 p d); try done.
    { unfold ls. by rewrite app_nil_r, <- !app_assoc. }
    { by rewrite run_app, Hr1. }
  Qed.
End lost.

Section short.
  Context {V : Type} (E : tyenv V) (up : nat -> V -> option V).
  Context (HC : coherent E) (HW : wide E).
  Implicit Types (st : state V) (p q : ptr) (ls : list (vlabel V)).
  Notation vstep := (vstep E up).
  Notation hc := (handles_to E).

  Lemma apart_app ls1 ls2 : apart E up (ls1 ++ ls2) -> apart E up ls1.
  Proof. intros Ha v w ty v' Hv Hw. apply Ha; (eapply interned_mono; [|done]); set_solver. Qed.

  (** Executions with fewer than 2^W steps are bounded. *)
  Lemma vshort ls : apart E up ls -> (N.of_nat (length ls) < te_mod E)%N -> vbounded E up ls.
  Proof.
    assert (forall n ls, length ls = n -> (N.of_nat n < te_mod E)%N -> apart E up ls ->
      vbounded E up ls /\ forall st p, run vstep init ls = Some st -> hc st p <= n) as H.
    { clear ls. induction n as [|n IH]; intros ls Hlen Hn Hap.
      - apply nil_length_inv in Hlen as ->.
        assert (forall st p, run vstep init [] = Some st -> hc st p <= 0) as H0.
        { simpl. intros st p [= <-]. unfold handles_to. simpl. by rewrite !msum_empty. }
        split; [|done]. intros l1 l2 st1 He Hr p. symmetry in He. apply app_eq_nil in He as [-> _].
        specialize (H0 st1 p Hr). lia.
      - destruct ls as [|l ls] using rev_ind; [done|]. rewrite app_length in Hlen. simpl in Hlen.
        pose proof (apart_app _ _ Hap) as Hap'.
        destruct (IH ls) as [Hb Hle]; [lia..|done|].
        assert (forall st p, run vstep init (ls ++ [l]) = Some st -> hc st p <= S n) as H1.
        { intros st p. rewrite run_snoc. destruct (run vstep init ls) as [st1|] eqn:Hr1; [|done].
          destruct (vrun_inv E up HC HW ls ls [] st1) as [HI Hsrc]; try done; [by rewrite app_nil_r|].
          specialize (Hle st1 p eq_refl).
          unfold exec. destruct (vstep st1 l) as [st2| | |] eqn:Hs; try done; intros [= <-]; try lia.
          destruct (vstep_cases E up HC ls st1 l st2 Hap' HI Hsrc Hs) as [(l0&->&Hs0)|(t&ty&i&q&w&r&->&Hpc&->)].
          - pose proof (step_hc E st1 l0 st2 p HI Hs0).
            assert (creates st1 l0 <= 1) by (unfold creates; repeat case_match; lia). lia.
          - pose proof (hc_set_pc E (add_zombie st1 q) t (PWork w r) p) as Hx.
            change (get_pc (add_zombie st1 q) t) with (get_pc st1 t) in Hx. rewrite Hpc in Hx. simpl in Hx.
            change (hc (add_zombie st1 q) p) with (hc st1 p) in Hx. lia. }
        split; [|done]. intros l1 l2 st1 He Hr p.
        destruct l2 as [|l' l2 _] using rev_ind.
        + rewrite app_nil_r in He. subst. specialize (H1 st1 p Hr). lia.
        + rewrite app_assoc in He. apply app_inj_tail in He as [-> ->]. by eapply Hb. }
    intros Ha Hl. eapply H; [reflexivity|done|done].
  Qed.

  Lemma apart_safe_short ls : apart E up ls -> (N.of_nat (length ls) < te_mod E)%N -> run vstep init ls <> None.
  Proof. intros Ha Hl. apply apart_safe; try done. by apply vshort. Qed.
End short.

(** A handle that has the type it was made with. *)
Section same.
  Context {V : Type} (E : tyenv V) (up : nat -> V -> option V).
  Lemma same_type st t a ty i p w r d :
    get_pc st t = PWork (IRemove p :: w) r -> data st p = Some d -> p ∈ st_table st -> te_eq E d d = true ->
    up ty d = Some d -> vstep E up st (VAs t ty i) = step E st (LStep t a i).
  Proof.
    intros Hp Hd Hin He Hu. simpl. unfold step_thread. rewrite Hp, Hd, Hu.
    destruct (st_locks st !! lock_of E d); [done|]. destruct (readable st); [|done].
    destruct (pick i (matches E st d)) as [q|] eqn:Hm; [done|].
    exfalso. unfold pick in Hm. destruct (nth_error (matches E st d) i); [done|].
    destruct (matches E st d) as [|x l] eqn:Hm'; [|done].
    assert (p ∈ matches E st d) as Hp'; [|rewrite Hm' in Hp'; by apply elem_of_nil in Hp'].
    unfold matches. apply elem_of_list_In, List.filter_In. split; [by apply elem_of_list_In|].
    unfold is_match. rewrite Hd. by rewrite ?He, ?Nat.eqb_refl, ?andb_true_r.
  Qed.
End same.

From Verif Require Import InternModel InternSpec InternInv InternStep InternFinal.

(** ** Intern *)
Section intern.
  Context {V Q : Type} (E : ienv V Q).
  Lemma other_type_other_handle ls st t1 o1 p1 t2 o2 p2 v1 v2 :
    run (istep E) iinit ls = Some st ->
    EvRet t1 o1 (RPtr p1) ∈ i_log st -> EvRet t2 o2 (RPtr p2) ∈ i_log st -> op_ty E o1 <> op_ty E o2 ->
    iread st p1 = Some v1 -> iread st p2 = Some v2 -> is_zst E v1 = false -> is_zst E v2 = false ->
    iptr_eqb p1 p2 = false.
  Proof.
    intros Hr H1 H2 Hty Hv1 Hv2 Hz1 Hz2. pose proof (reach_inv E ls st Hr) as HI.
    destruct (v_log _ _ HI _ H1) as [d1 Hp1], (v_log _ _ HI _ H2) as [d2 Hp2].
    pose proof (points_read E _ _ _ _ _ Hp1) as Hd1. pose proof (points_read E _ _ _ _ _ Hp2) as Hd2.
    simplify_eq. destruct Hp1 as (Ho1&_&Ht1), Hp2 as (Ho2&_&Ht2).
    apply not_true_iff_false. unfold iptr_eqb. intros [Ha%Nat.eqb_eq _]%andb_true_iff.
    pose proof (v_addr _ _ HI _ _ _ _ Ho1 Ho2 Hz1 Hz2 Ha) as Hs. rewrite Hs in Ho1. simplify_eq. congruence.
  Qed.
End intern.

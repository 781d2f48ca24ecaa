(** The ArcIntern property theorems in their final form (restated without proof in
    PropArc.v). *)
From stdpp Require Import gmap list numbers.
From Verif Require Import Base ArcModel ArcSpec ArcInv ArcStep ArcSafe ArcReach ArcLen ArcLive
  ArcTame ArcProps ArcShrink ArcCtorModel ArcCtorSpec ArcEx.

Section final.
  Context {V : Type} (E : tyenv V).
  Implicit Types (st : state V) (v d : V) (p q : ptr) (ls : list (label V)).
  Context (HL : lawful E) (HW : wide E).
  Let HC : coherent E := lawful_coherent E HL.

  Lemma handles_eq_iff ls st p q :
    bounded E ls -> run (step E) init ls = Some st -> alive E st p -> alive E st q ->
    exists u v, data st p = Some u /\ data st q = Some v /\ handle_eqb p q = te_eq E u v.
  Proof. by apply eq_iff. Qed.

  Lemma new_reads ls st t v p :
    bounded E ls -> run (step E) init ls = Some st ->
    EvNew t v p ∈ st_log st -> alive E st p ->
    exists d, data st p = Some d /\ te_eq E v d = true.
  Proof.
    intros Hb Hr Hn Hp. pose proof (run_Inv E HC HW ls st Hb Hr) as HI.
    destruct (hand_deref E st p HI Hp) as (_&d&_&_&Hd). exists d. split; [done|].
    destruct (inv_log _ _ HI _ _ _ Hn) as [_ H]. by apply H.
  Qed.

  Lemma same_object ls1 ls2 st1 st2 p :
    bounded E (ls1 ++ ls2) -> run (step E) init ls1 = Some st1 -> run (step E) st1 ls2 = Some st2 ->
    alive E st1 p -> alive E st2 p -> exists d, data st1 p = Some d /\ data st2 p = Some d.
  Proof.
    intros Hb Hr1 Hr2 Ha1 Ha2.
    assert (run (step E) init (ls1 ++ ls2) = Some st2) as Hr by (by rewrite run_app, Hr1).
    pose proof (run_Inv E HC HW _ _ Hb Hr) as HI2.
    pose proof (run_Inv E HC HW _ _ (bounded_app E _ _ Hb) Hr1) as HI1.
    destruct (hand_deref E st2 p HI2 Ha2) as (_&d&_&_&Hd). exists d. split; [|done].
    assert (p_ser p < st_next st1) as Hser by (by eapply hand_ser).
    clear Hb Hr Ha1 Ha2 HI1 HI2 Hr1.
    revert st1 Hr2 Hser. induction ls2 as [|l ls2 IH]; intros st1 Hr2 Hser.
    - simpl in Hr2. by injection Hr2 as ->.
    - simpl in Hr2. unfold exec in Hr2.
      destruct (step E st1 l) as [st'| | |] eqn:Hs; [|by apply IH..|done].
      eapply step_data_stable; [done|done|]. apply IH; [done|].
      destruct (step_mono E _ _ _ Hs) as (?&_). lia.
  Qed.

  Lemma deref_consistent ls st :
    bounded E ls -> run (step E) init ls = Some st ->
    (forall p d d', EvDeref p d ∈ st_log st -> EvDeref p d' ∈ st_log st -> d = d') /\
    (forall t v p d, EvNew t v p ∈ st_log st -> EvDeref p d ∈ st_log st -> te_eq E v d = true).
  Proof. intros Hb Hr. destruct (run_log E HC HW ls st Hb Hr) as (_&?&?). done. Qed.

  Lemma refcount_now ls st p ks st' :
    bounded E ls -> run (step E) init ls = Some st -> step E st (LRef p ks) = Next st' ->
    exists k, st_log st' = EvRef k (N.of_nat (handles_to E st k)) :: st_log st /\
      borrow E st p ks = Next k /\ alive E st k.
  Proof. by apply refcount_exact. Qed.

  Lemma no_leak ls st :
    bounded E ls -> no_panic ls -> run (step E) init ls = Some st -> quiescent st ->
    NoDup (st_table st) /\
    (forall p, p ∈ st_table st <-> alive E st p) /\
    (forall a c, st_heap st !! a = Some c <->
       exists p, alive E st p /\ p_addr p = a /\ deref st p = Some c) /\
    (forall p, alive E st p -> exists r, r ∈ st_pool st ++ st_gone st /\ owns E st r p) /\
    (st_pool st = [] -> st_gone st = [] -> st_table st = [] /\ st_heap st = ∅).
  Proof.
    intros Hb Hn Hr Hq. apply quiescent_exact_inv; try done.
    - by eapply run_Inv.
    - by eapply run_zombies.
  Qed.

  Lemma pinned ls st l st' p d :
    bounded E (ls ++ [l]) -> run (step E) init ls = Some st -> alive E st p -> data st p = Some d ->
    step E st l = Next st' ->
    p ∈ st_table st /\ p ∈ st_table st' /\ data st' p = Some d /\
    forall t v q, st_log st' = EvNew t v q :: st_log st -> te_eq E v d = true -> q = p.
  Proof.
    intros Hb Hr Ha Hd Hs.
    pose proof (run_Inv E HC HW _ _ (bounded_app E _ _ Hb) Hr) as HI.
    assert (Inv E st') as HI'.
    { eapply (run_Inv E HC HW (ls ++ [l])); [done|]. rewrite run_snoc, Hr. unfold exec. by rewrite Hs. }
    destruct (step_keeps E st l st' p HI HI' Ha Hs) as (?&?&->).
    split_and!; try done. intros t v q Hlog He.
    eapply (step_same_object E HC st l st' p d); try done. apply (law_trans _ HL).
  Qed.

  Lemma len_exact ls st t ty :
    bounded E ls -> no_panic ls -> run (step E) init ls = Some st -> quiescent st ->
    0 < te_shards E ->
    exists st' objs,
      run (step E) st (LLen t ty :: replicate (S (te_shards E)) (LStep t 0 0)) = Some st' /\
      quiescent st' /\
      st_log st' = EvLen t ty (length objs) :: st_log st /\
      NoDup objs /\ (forall p, p ∈ objs <-> live_object E st ty p) /\
      (forall p q u v, p ∈ objs -> q ∈ objs -> data st p = Some u -> data st q = Some v ->
         te_eq E u v = true -> p = q).
  Proof.
    intros Hb Hn Hr Hq Hsh. pose proof (run_zombies E ls st Hn Hr) as Hz.
    destruct (len_quiescent E HC HW ls st t ty Hb Hr Hq Hz Hsh) as (st'&objs&Hrun&Hlog&Hnd&Hobj&Hq').
    exists st', objs. split_and!; try done.
    intros p q u v Hp%Hobj Hq2%Hobj Hu Hv He. pose proof (run_Inv E HC HW ls st Hb Hr) as HI.
    eapply (inv_uniq _ _ HI p q u v); try done; by apply (inv_hand _ _ HI), (proj1 Hp) || by apply (inv_hand _ _ HI), (proj1 Hq2).
  Qed.

  Lemma never_deadlocks ls st t :
    bounded E ls -> run (step E) init ls = Some st -> get_pc st t <> PFree ->
    exists t' a st', get_pc st t' <> PFree /\ step E st (LStep t' a 0) = Next st'.
  Proof. intros Hb Hr. apply (no_deadlock E). by eapply run_Inv. Qed.

  Lemma calls_can_finish ls st :
    bounded E ls -> no_panic ls -> run (step E) init ls = Some st ->
    (forall p, (N.of_nat (handles_to E st p + calls st) < te_mod E)%N) ->
    exists ls' st', Forall (λ l, exists t a, l = LStep t a 0) ls' /\
      run (step E) st ls' = Some st' /\ quiescent st' /\
      forall t v, interning st t v ->
        exists p l1 l2, st_log st' = l1 ++ EvNew t v p :: l2 ++ st_log st.
  Proof.
    intros Hb Hn Hr Hroom.
    destruct (completion E HC HW st) as (ls'&st'&?&?&?&?&?&?); [by eapply run_Inv| |by eapply run_zombies|].
    { intros p. specialize (Hroom p). pose proof (pot_calls st). lia. }
    by exists ls', st'.
  Qed.

  Lemma step_no_intern st t a i st' :
    (forall t v, ~ interning st t v) -> step E st (LStep t a i) = Next st' ->
    st_pool st' = st_pool st /\ st_gone st' = st_gone st /\ forall t v, ~ interning st' t v.
  Proof.
    intros Hno Hs.
    assert (forall st2 x, st_threads st2 = <[t:=x]> (st_threads st) ->
              (forall v, ~ match x with
                | PLookup _ u _ | PHit _ u _ _ | PInc _ u _ _ _ | PUndo _ u _ _ | PAlloc _ u _
                | PEntry _ u _ | PVac _ u _ | POcc _ u _ | PIns _ u _
                | PRem _ _ _ (Some (u, _)) | PWork _ (Some (u, _)) => u = v
                | _ => False end) -> forall t v, ~ interning st2 t v) as Hx.
    { intros st2 x Ht Hx t' v. unfold interning, get_pc. rewrite Ht.
      destruct (decide (t' = t)) as [->|].
      - rewrite lookup_insert. simpl. apply Hx.
      - rewrite lookup_insert_ne by done. apply Hno. }
    pose proof (Hno t) as Ht. unfold interning in Ht. simpl in Hs. unfold step_thread in Hs.
    destruct (get_pc st t) as [|k v b|k v b q|k v b q old|k v b q|k v b|k v q|k v q|k v q|k v q|l' q w [[u ?]|]|w [[u ?]|]|ty j acc|ty j] eqn:Hpc;
      try done; try (exfalso; by eapply Ht); clear Ht.
    - destruct (deref st q) as [c|]; [|done]. destruct (c_data c) as [d|]; [|done]. injection Hs as <-.
      split_and!; [done..|]. eapply Hx; [reflexivity|]. auto.
    - destruct w as [|[x|x|x] w].
      + injection Hs as <-. split_and!; [done..|]. eapply Hx; [reflexivity|]. auto.
      + destruct (deref st x) as [c|]; [|done]. injection Hs as <-. split_and!; [done..|].
        eapply Hx; [reflexivity|]. auto.
      + destruct (data st x) as [d|]; [|done]. destruct (st_locks st !! lock_of E d); [done|].
        destruct (readable st); [|done].
        destruct (pick i (matches E st d)); injection Hs as <-; (split_and!; [done..|]);
        (eapply Hx; [reflexivity|]; auto).
      + destruct (deref st x) as [c|]; [|done]. injection Hs as <-. split_and!; [done..|].
        eapply Hx; [reflexivity|]. auto.
    - destruct (j <? te_shards E).
      + destruct (st_locks st !! (ty, j)); [done|]. injection Hs as <-. split_and!; [done..|].
        eapply Hx; [reflexivity|]. auto.
      + injection Hs as <-. split_and!; [done..|]. eapply Hx; [reflexivity|]. auto.
    - destruct (j <? te_shards E).
      + destruct (st_locks st !! (ty, j)); [done|]. injection Hs as <-. split_and!; [done..|].
        eapply Hx; [reflexivity|]. auto.
      + injection Hs as <-. split_and!; [done..|]. eapply Hx; [reflexivity|]. auto.
  Qed.

  (** Every execution in which the clients have given up everything can only go on to free
      everything. *)
  Lemma all_freed ls st :
    bounded E ls -> no_panic ls -> run (step E) init ls = Some st ->
    (forall p, (N.of_nat (handles_to E st p + calls st) < te_mod E)%N) ->
    st_pool st = [] -> st_gone st = [] -> (forall t v, ~ interning st t v) ->
    exists ls' st', Forall (λ l, exists t a, l = LStep t a 0) ls' /\
      run (step E) st ls' = Some st' /\ quiescent st' /\ st_table st' = [] /\ st_heap st' = ∅.
  Proof.
    intros Hb Hn Hr Hroom Hp Hg Hno.
    destruct (completion E HC HW st) as (ls'&st'&Hls&Hrun&Hq&HI&Hz&_); [by eapply run_Inv| |by eapply run_zombies|].
    { intros p. specialize (Hroom p). pose proof (pot_calls st). lia. }
    exists ls', st'. split_and!; try done.
    all: destruct (quiescent_exact_inv E st' HI Hq Hz) as (_&_&_&_&Hend).
    all: assert (st_pool st' = [] /\ st_gone st' = []) as [Hp' Hg']; [|by apply Hend].
    all: clear - Hls Hrun Hp Hg Hno; revert st Hrun Hp Hg Hno; induction Hls as [|l ls' (t&a&->) _ IH];
      intros st Hrun Hp Hg Hno; simpl in Hrun; [by injection Hrun as <-|];
      unfold exec in Hrun; destruct (step E st (LStep t a 0)) as [st1| | |] eqn:Hs;
      [|by eapply IH..|done];
      destruct (step_no_intern st t a 0 st1 Hno Hs) as (Hp1&Hg1&Hno1); eapply IH; try done; congruence.
  Qed.

  (** Panic in the last drop. *)
  Lemma panic_poison ls1 st0 t0 p w r d st1 ls2 ls3 st2 st3 :
    bounded E (ls1 ++ LPanic t0 :: ls2 ++ ls3) ->
    run (step E) init ls1 = Some st0 ->
    get_pc st0 t0 = PWork (IRemove p :: w) r -> data st0 p = Some d ->
    step E st0 (LPanic t0) = Next st1 ->
    run (step E) st1 ls2 = Some st2 -> run (step E) st2 ls3 = Some st3 ->
    p ∈ st_table st3 /\ data st3 p = Some d /\ handles_to E st3 p = 0 /\
    (exists new, st_log st3 = new ++ st_log st1 /\
       forall t v q, EvNew t v q ∈ new -> te_eq E v d = false) /\
    (forall t v, interning st2 t v -> te_eq E v d = true -> LPanic t ∉ ls3 -> interning st3 t v).
  Proof.
    intros Hb Hr0 Hpc Hd Hs Hr2 Hr3.
    assert (run (step E) init (ls1 ++ [LPanic t0]) = Some st1) as Hr1.
    { rewrite run_snoc, Hr0. unfold exec. by rewrite Hs. }
    assert (p ∈ st_zombies st1 /\ data st1 p = Some d) as [Hz Hd1].
    { simpl in Hs. unfold step_panic in Hs. rewrite Hpc in Hs. injection Hs as <-. split; [by left|done]. }
    assert (bounded E ((ls1 ++ [LPanic t0]) ++ ls2 ++ ls3)) as Hb' by (by rewrite <- app_assoc).
    assert (run (step E) st1 (ls2 ++ ls3) = Some st3) as Hr13 by (by rewrite run_app, Hr2).
    pose proof (law_trans _ HL) as Htr.
    destruct (zombie_forever E HC HW Htr _ _ _ _ _ _ Hb' Hr1 Hr13 Hz Hd1) as (_&?&?&?&?).
    split_and!; try done. intros t v Hin He Hnp.
    assert (bounded E ((ls1 ++ [LPanic t0]) ++ ls2)) as Hb2.
    { rewrite app_assoc in Hb'. by eapply bounded_app. }
    destruct (zombie_forever E HC HW Htr _ _ _ _ _ _ Hb2 Hr1 Hr2 Hz Hd1) as (Hz2&?&Hd2&?&?).
    eapply (zombie_spins E HC HW Htr ((ls1 ++ [LPanic t0]) ++ ls2) ls3 st2); try done.
    - by rewrite <- app_assoc.
    - by rewrite run_app, Hr1.
  Qed.

  (** Constructors *)
  Context {A Q : Type} (of_slice : nat -> list A -> V) (conv : Q -> V).

  Lemma ctors_agree ls st t1 (c1 : ctor V A Q) p1 t2 (c2 : ctor V A Q) p2 :
    bounded E ls -> run (step E) init ls = Some st ->
    EvNew t1 (snd (call of_slice conv c1)) p1 ∈ st_log st ->
    EvNew t2 (snd (call of_slice conv c2)) p2 ∈ st_log st ->
    alive E st p1 -> alive E st p2 ->
    handle_eqb p1 p2 = te_eq E (ctor_content of_slice conv c1) (ctor_content of_slice conv c2).
  Proof.
    assert (forall c : ctor V A Q, snd (call of_slice conv c) = ctor_content of_slice conv c) as H.
    { intros [| | | | |? []| |? []]; done. }
    rewrite !H. by apply new_eq_iff.
  Qed.

  Lemma ctor_starts st t (c : ctor V A Q) pl :
    get_pc st t = PFree -> (of_dst c -> te_kids E (ctor_content of_slice conv c) = []) ->
    rem_all (te_kids E (ctor_content of_slice conv c)) (st_pool st) = Some pl ->
    exists st', step E st (construct of_slice conv t c) = Next st' /\
      interning st' t (ctor_content of_slice conv c) /\ st_pool st' = pl.
  Proof.
    clear HL HC HW. intros Hpc Hd Hr.
    assert (construct of_slice conv t c = LNew t (if decide (of_dst c) then KDst else KSized) (ctor_content of_slice conv c)) as ->.
    { destruct c as [| | | | |? []| |? []]; done. }
    simpl. rewrite Hpc. destruct (decide (of_dst c)) as [HD|HD].
    - rewrite Hd in Hr |- * by done. simpl in Hr. injection Hr as <-.
      eexists. split; [done|]. split; [|done]. unfold interning. by rewrite get_pc_set, decide_True.
    - rewrite Hr. eexists. split; [done|]. split; [|done]. unfold interning. by rewrite get_pc_set, decide_True.
  Qed.

  Lemma compare_source ls st p ty s t q :
    bounded E ls -> run (step E) init ls = Some st -> alive E st p ->
    exists b, handle_eq_source E of_slice st p ty s = Some b /\
      source_eq_handle E of_slice st ty s p = Some b /\
      handle_ne_source E of_slice st p ty s = Some (negb b) /\
      source_ne_handle E of_slice st ty s p = Some (negb b) /\
      (forall d, data st p = Some d -> b = te_eq E d (of_slice ty (source_contents s))) /\
      (EvNew t (snd (call of_slice conv (CFrom ty s))) q ∈ st_log st -> alive E st q ->
       handle_eqb p q = b).
  Proof.
    intros Hb Hr Hp. pose proof (run_Inv E HC HW ls st Hb Hr) as HI.
    destruct (hand_deref E st p HI Hp) as (_&d&_&_&Hd).
    assert (snd (call of_slice conv (CFrom ty s)) = of_slice ty (full_slice s)) as Hcall by (by destruct s).
    exists (te_eq E d (of_slice ty (full_slice s))).
    unfold handle_ne_source, source_ne_handle, handle_eq_source, source_eq_handle. rewrite Hd. simpl.
    assert (te_eq E (of_slice ty (full_slice s)) d = te_eq E d (of_slice ty (full_slice s))) as Hsym.
    { destruct (te_eq E d (of_slice ty (full_slice s))) eqn:He.
      - by apply (law_sym _ HL).
      - destruct (te_eq E (of_slice ty (full_slice s)) d) eqn:He'; [|done].
        apply (law_sym _ HL) in He'. congruence. }
    rewrite Hsym. split_and!; try done.
    - intros d' Hd'. simplify_eq. by destruct s.
    - intros Hn Hq. simpl in Hcall. rewrite Hcall in Hn.
      destruct (new_reads ls st t _ q Hb Hr Hn Hq) as (d2&Hd2&He2).
      destruct (handles_eq_iff ls st p q Hb Hr Hp Hq) as (u&v&Hu&Hv&->).
      rewrite Hd in Hu. injection Hu as <-. rewrite Hd2 in Hv. injection Hv as <-.
      destruct (te_eq E d (of_slice ty (full_slice s))) eqn:He.
      + by eapply (law_trans _ HL).
      + destruct (te_eq E d d2) eqn:Huv; [|done]. rewrite <- He. symmetry.
        eapply (law_trans _ HL); [exact Huv|]. by apply (law_sym _ HL).
  Qed.
End final.

(** Checking hypotheses of concrete executions. *)

Lemma ex_bounded sh M ls : (2 <= M)%N -> (N.of_nat (length ls) < M)%N -> bounded (nodes sh M) ls.
Proof. intros. apply short_bounded; [apply lawful_coherent, nodes_lawful|done|done]. Qed.
Lemma alive_b {V} (E : tyenv V) st p : (0 <? handles_to E st p) = true -> alive E st p.
Proof. apply Nat.ltb_lt. Qed.
Lemma quiescent_b {V} (st : state V) :
  map_fold (λ _ x b, b && match x with PFree => true | _ => false end) true (st_threads st) = true ->
  quiescent st.
Proof.
  intros H t. unfold get_pc. revert H.
  induction (st_threads st) as [|t' x m Ht' IH] using map_ind; [by rewrite lookup_empty|].
  rewrite (map_fold_insert_L (λ _ x b, b && match x with PFree => true | _ => false end));
    [|intros; by rewrite <- !andb_assoc, (andb_comm (match z1 with PFree => true | _ => false end))|done].
  intros [H Hx]%andb_true_iff. destruct (decide (t = t')) as [->|].
  - rewrite lookup_insert. simpl. by destruct x.
  - rewrite lookup_insert_ne by done. by apply IH.
Qed.
Lemma no_panic_b {V} (ls : list (label V)) :
  forallb (λ l, match l with LPanic _ => false | _ => true end) ls = true -> no_panic ls.
Proof.
  unfold no_panic. rewrite forallb_forall. intros H. apply Forall_forall. intros l Hl Hp.
  specialize (H l Hl). by destruct l.
Qed.

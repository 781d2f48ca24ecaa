(** Examples for C74, and a weakly fair execution in which two calls never return. *)
From stdpp Require Import gmap list numbers.
From Verif Require Import Base ArcModel ArcSpec ArcInv ArcStep ArcSafe ArcReach ArcLive ArcFinal ArcEx ArcWit SpinSpec FairSpec Fair.
Require Import ZifyBool ZifyNat ZifyN.

(** An attempt that is blocked or illegal changes nothing. *)
Definition attempt {V} (E : tyenv V) (st : state V) (l : label V) : state V :=
  default st (exec (step E) st l).
(** The execution that attempts [s 0], [s 1], ... in turn. *)
Fixpoint attempts {V} (E : tyenv V) (st : state V) (s : nat -> label V) (n : nat) : state V :=
  match n with
  | 0 => st
  | S n' => attempt E (attempts E st s n') (s n')
  end.

Lemma attempts_S {V} (E : tyenv V) st s n :
  attempts E st s (S n) = attempt E (attempts E st s n) (s n).
Proof. done. Qed.

Lemma attempts_execution {V} (E : tyenv V) st s :
  coherent E -> wide E -> good E st -> only_steps s -> execution E st s (attempts E st s).
Proof.
  intros HC HW HG Hon. split; [done|]. intros n.
  assert (good E (attempts E st s n) /\ exec (step E) (attempts E st s n) (s n) = Some (attempts E st s (S n))) as [_ ?]; [|done].
  assert (forall n, good E (attempts E st s n) -> exec (step E) (attempts E st s n) (s n) = Some (attempts E st s (S n))) as Hst.
  { clear n. intros n (HI&_). cbn [attempts]. unfold attempt, exec.
    pose proof (step_no_ub E _ (s n) HI) as Hu. by destruct (step E (attempts E st s n) (s n)). }
  induction n as [|n [IH IHe]]; [by split; [|apply Hst]|].
  assert (good E (attempts E st s (S n))) as HG'; [|by split; [|apply Hst]].
  remember (attempts E st s (S n)) as y eqn:Hy. clear Hy.
  destruct (Hon n) as (t&a&i&Hl). rewrite Hl in IHe. unfold exec in IHe.
  destruct (step E (attempts E st s n) (LStep t a i)) eqn:Hs; try done; injection IHe as <-; try done.
  by eapply good_step_i.
Qed.

Lemma reached_execution {V} (E : tyenv V) ls st s :
  coherent E -> wide E -> bounded E ls -> no_panic ls -> run (step E) init ls = Some st ->
  (forall p, (N.of_nat (handles_to E st p + calls st) < te_mod E)%N) -> only_steps s ->
  execution E st s (attempts E st s).
Proof.
  intros HC HW Hb Hn Hr Hroom. apply attempts_execution; [done..|].
  split_and!; [by eapply run_Inv| |by eapply run_zombies].
  intros p. specialize (Hroom p). pose proof (pot_calls st). lia.
Qed.

Lemma quiescent_calls {V} (st : state V) : calls st = 0 -> quiescent st.
Proof.
  intros H0 t. pose proof (tsum_ge in_call st t eq_refl) as H. unfold calls in H0.
  destruct (get_pc st t); simpl in H; done || lia.
Qed.

Lemma idle_cannot {V} (E : tyenv V) st t : get_pc st t = PFree -> ~ can_step E st t.
Proof. intros Hp (a&i&st'&Hs). simpl in Hs. unfold step_thread in Hs. by rewrite Hp in Hs. Qed.

(** If the calls end by time [k], the execution is strongly fair. *)
Lemma ended_fair {V} (E : tyenv V) st s x k :
  execution E st s x -> only_steps s -> calls (x k) = 0 -> strongly_fair E s x.
Proof.
  intros Hex Hon Hq%quiescent_calls t n. exists (max n k). split; [lia|]. right. intros m Hm.
  rewrite (quiescent_stays E st s x Hex Hon k m) by (lia || done). by apply idle_cannot.
Qed.

(** ** A weakly fair execution without end.  Thread 1 has dropped the last handle to [exA] and is
    about to remove it; thread 2 looks for it.  Thread 1 is given its turn only while thread 2
    holds the shard's lock. *)
Definition wE : tyenv node := nodes 1 (2 ^ 64).
Definition w_ls : list (label node) :=
  intern 1 10 KSized leaf4 ++ [LDrop 1 exA; LStep 1 0 0; LNew 2 KSized leaf4].
Definition w_st : state node := after wE w_ls.
Definition w_turn (j : nat) : label node := LStep (if j =? 1 then 1 else 2) 0 0.
Definition w_s (n : nat) : label node := w_turn (n mod 5).

(** The states at the beginning of a round. *)
Definition round_start (st : state node) : Prop :=
  get_pc st 1 = PWork [IRemove exA] None /\ get_pc st 2 = PLookup KSized leaf4 None /\
  deref st exA = Some (Cell 0 0 (Some leaf4)) /\ st_table st = [exA] /\ st_locks st !! (0, 0) = None.

Lemma w_run : run (step wE) init w_ls = Some w_st.
Proof. by apply after_run; vm_compute. Qed.
Lemma w_start : round_start w_st.
Proof. unfold round_start. split_and!; by vm_compute. Qed.

Lemma exec_next {V} (E : tyenv V) st l st' : step E st l = Next st' -> exec (step E) st l = Some st'.
Proof. intros H. unfold exec. by rewrite H. Qed.
Lemma exec_blocked {V} (E : tyenv V) st l : step E st l = Blocked -> exec (step E) st l = Some st.
Proof. intros H. unfold exec. by rewrite H. Qed.

Lemma attempts_add {V} (E : tyenv V) st s n m :
  attempts E st s (n + m) = attempts E (attempts E st s n) (λ j, s (n + j)) m.
Proof.
  induction m as [|m IH]; [by rewrite Nat.add_0_r|]. rewrite Nat.add_succ_r. cbn [attempts]. by rewrite IH.
Qed.
Lemma attempts_ext {V} (E : tyenv V) st s s' n :
  (forall j, j < n -> s j = s' j) -> attempts E st s n = attempts E st s' n.
Proof.
  induction n as [|n IH]; intros H; [done|]. cbn [attempts]. rewrite IH by (intros; apply H; lia).
  rewrite H by lia. done.
Qed.

(** One round. *)
Lemma round st : round_start st ->
  exists st1 st2 st3 st4,
    step wE st (LStep 2 0 0) = Next st1 /\ step wE st1 (LStep 1 0 0) = Blocked /\
    step wE st1 (LStep 2 0 0) = Next st2 /\ step wE st2 (LStep 2 0 0) = Next st3 /\
    step wE st3 (LStep 2 0 0) = Next st4 /\ round_start st4 /\
    (forall s', s' = st1 \/ s' = st2 \/ s' = st3 \/ s' = st4 ->
       get_pc s' 1 = PWork [IRemove exA] None /\ interning s' 2 leaf4) /\
    (st_locks st1 !! (0, 0) = Some 2 /\ data st1 exA = Some leaf4).
Proof.
  intros (H1&H2&Hd&Ht&Hl).
  assert (data st exA = Some leaf4) as Hda by (apply data_Some; eauto).
  set (c0 := Cell 0 0 (Some leaf4)) in *. set (c1 := Cell 0 1 (Some leaf4)).
  set (st1 := set_pc (lock st (0, 0) 2) 2 (PHit KSized leaf4 None exA)).
  set (st2 := set_pc (set_count st1 exA c0 1) 2 (PInc KSized leaf4 None exA 0)).
  set (st3 := set_pc (set_count st2 exA c1 0) 2 (PUndo KSized leaf4 None exA)).
  set (st4 := set_pc (unlock st3 (0, 0)) 2 (PLookup KSized leaf4 None)).
  assert (get_pc st1 2 = PHit KSized leaf4 None exA) as Hp1 by apply (get_set _ 2).
  assert (get_pc st2 2 = PInc KSized leaf4 None exA 0) as Hp2 by apply (get_set _ 2).
  assert (get_pc st3 2 = PUndo KSized leaf4 None exA) as Hp3 by apply (get_set _ 2).
  assert (get_pc st4 2 = PLookup KSized leaf4 None) as Hp4 by apply (get_set _ 2).
  assert (get_pc st1 1 = PWork [IRemove exA] None) as Hq1.
  { unfold st1. rewrite get_pc_set, decide_False by done. exact H1. }
  assert (get_pc st2 1 = PWork [IRemove exA] None) as Hq2.
  { unfold st2. rewrite get_pc_set, decide_False by done. exact Hq1. }
  assert (get_pc st3 1 = PWork [IRemove exA] None) as Hq3.
  { unfold st3. rewrite get_pc_set, decide_False by done. exact Hq2. }
  assert (get_pc st4 1 = PWork [IRemove exA] None) as Hq4.
  { unfold st4. rewrite get_pc_set, decide_False by done. exact Hq3. }
  assert (deref st1 exA = Some c0) as Hd1 by exact Hd.
  assert (deref st2 exA = Some c1) as Hd2.
  { change (deref (set_count st1 exA c0 1) exA = Some c1).
    rewrite deref_set_count by done. rewrite decide_True by done. by rewrite Hd1. }
  assert (deref st3 exA = Some c0) as Hd3.
  { change (deref (set_count st2 exA c1 0) exA = Some c0).
    rewrite deref_set_count by done. rewrite decide_True by done. by rewrite Hd2. }
  assert (st_locks st1 !! (0, 0) = Some 2) as Hl1 by apply (lookup_insert (st_locks st)).
  exists st1, st2, st3, st4. split_and!.
  - simpl. unfold step_thread. rewrite H2. change (lock_of wE leaf4) with (0, 0). rewrite Hl.
    unfold readable, matches. rewrite Ht. cbn [forallb List.filter]. rewrite Hda.
    unfold is_match. rewrite Hda. reflexivity.
  - simpl. unfold step_thread. rewrite Hq1. change (data st1 exA) with (data st exA). rewrite Hda.
    change (lock_of wE leaf4) with (0, 0). by rewrite Hl1.
  - simpl. unfold step_thread. rewrite Hp1, Hd1. reflexivity.
  - simpl. unfold step_thread. rewrite Hp2. cbn [N.eqb]. rewrite Hd2. reflexivity.
  - simpl. unfold step_thread. rewrite Hp3. reflexivity.
  - unfold round_start. split_and!; [done|done|exact Hd3|exact Ht|].
    change (delete (0, 0) (st_locks st3) !! (0, 0) = None). apply lookup_delete.
  - unfold interning. intros s' [-> |[-> |[-> | ->]]]; [rewrite Hp1|rewrite Hp2|rewrite Hp3|rewrite Hp4]; done.
  - done.
  - exact Hda.
Qed.

Notation w_x := (attempts wE w_st w_s).

Lemma round_attempts st j : round_start st -> j <= 5 ->
  let x := attempts wE st w_turn in
  get_pc (x j) 1 = PWork [IRemove exA] None /\ interning (x j) 2 leaf4 /\
  (forall t, t <> 2 -> get_pc (x j) t = get_pc st t) /\
  round_start (x 5) /\
  step wE (x 0) (LStep 2 0 0) = Next (x 1) /\ step wE (x 1) (LStep 1 0 0) = Blocked /\
  st_locks (x 1) !! (0, 0) = Some 2 /\ data (x 1) exA = Some leaf4.
Proof.
  intros Hst Hj x.
  assert (forall n, x (S n) = attempt wE (x n) (w_turn n)) as HS by (intros; apply attempts_S).
  assert (x 0 = st) as H0 by done. clearbody x.
  destruct (round st Hst) as (st1&st2&st3&st4&Hs1&Hb&Hs2&Hs3&Hs4&Hr&Hall&Hl&Hda).
  assert (x 1 = st1) as H1.
  { rewrite HS, H0. change (w_turn 0) with (LStep 2 0 0 : label node). unfold attempt; by rewrite (exec_next _ _ _ _ Hs1). }
  assert (x 2 = st1) as H2.
  { rewrite HS, H1. change (w_turn 1) with (LStep 1 0 0 : label node).
    unfold attempt; by rewrite (exec_blocked _ _ _ Hb). }
  assert (x 3 = st2) as H3.
  { rewrite HS, H2. change (w_turn 2) with (LStep 2 0 0 : label node).
    unfold attempt; by rewrite (exec_next _ _ _ _ Hs2). }
  assert (x 4 = st3) as H4.
  { rewrite HS, H3. change (w_turn 3) with (LStep 2 0 0 : label node).
    unfold attempt; by rewrite (exec_next _ _ _ _ Hs3). }
  assert (x 5 = st4) as H5.
  { rewrite HS, H4. change (w_turn 4) with (LStep 2 0 0 : label node).
    unfold attempt; by rewrite (exec_next _ _ _ _ Hs4). }
  assert (forall t, t <> 2 -> get_pc st1 t = get_pc st t /\ get_pc st2 t = get_pc st t /\
            get_pc st3 t = get_pc st t /\ get_pc st4 t = get_pc st t) as Hoth.
  { intros t Ht. rewrite (step_other _ _ _ _ _ _ t Hs4 Ht), (step_other _ _ _ _ _ _ t Hs3 Ht),
      (step_other _ _ _ _ _ _ t Hs2 Ht), (step_other _ _ _ _ _ _ t Hs1 Ht). done. }
  assert (x j = st \/ x j = st1 \/ x j = st2 \/ x j = st3 \/ x j = st4) as Hx.
  { destruct j as [|[|[|[|[|[|]]]]]]; [by left; rewrite H0| | | | | |lia]; rewrite ?H1, ?H2, ?H3, ?H4, ?H5; auto. }
  split_and!.
  - destruct Hx as [-> |[-> |[-> |[-> | ->]]]]; [apply Hst|apply Hall; auto..].
  - destruct Hx as [-> |[-> |[-> |[-> | ->]]]]; [|apply Hall; auto..].
    destruct Hst as (_&Hp&_). unfold interning. by rewrite Hp.
  - intros t Ht. destruct (Hoth t Ht) as (?&?&?&?). by destruct Hx as [-> |[-> |[-> |[-> | ->]]]].
  - by rewrite H5.
  - by rewrite H1, H0.
  - by rewrite H1.
  - by rewrite H1.
  - by rewrite H1.
Qed.

Lemma w_at k j : j <= 5 -> w_x (5 * k + j) = attempts wE (w_x (5 * k)) w_turn j.
Proof.
  intros Hj. rewrite attempts_add. apply attempts_ext. intros i Hi. unfold w_s.
  f_equal. rewrite Nat.add_comm, Nat.mul_comm, Nat.mod_add by done. apply Nat.mod_small. lia.
Qed.
Lemma w_rounds k : round_start (w_x (5 * k)) /\ forall t, t <> 2 -> get_pc (w_x (5 * k)) t = get_pc w_st t.
Proof.
  induction k as [|k [IH IHo]]; [split; [apply w_start|done]|].
  replace (5 * S k) with (5 * k + 5) by lia. rewrite w_at by done.
  destruct (round_attempts _ 5 IH (le_n _)) as (_&_&Ho&Hr&_). split; [done|].
  intros t Ht. rewrite Ho by done. by apply IHo.
Qed.
Lemma w_any n : get_pc (w_x n) 1 = PWork [IRemove exA] None /\ interning (w_x n) 2 leaf4 /\
  forall t, t <> 2 -> get_pc (w_x n) t = get_pc w_st t.
Proof.
  rewrite (Nat.div_mod n 5) by done.
  pose proof (Nat.mod_upper_bound n 5 ltac:(done)) as Hj.
  rewrite w_at by lia. destruct (w_rounds (n / 5)) as [Hr Ho].
  destruct (round_attempts _ (n mod 5) Hr) as (?&?&Ho'&_); [lia|]. split_and!; [done|done|].
  intros t Ht. rewrite Ho' by done. by apply Ho.
Qed.

Lemma w_idle t : t <> 1 -> t <> 2 -> get_pc w_st t = PFree.
Proof.
  intros H1 H2. unfold get_pc. destruct (st_threads w_st !! t) as [y|] eqn:Hy; [|done]. exfalso.
  apply elem_of_map_to_list in Hy.
  assert ((map_to_list (st_threads w_st)).*1 = [1; 2] \/ (map_to_list (st_threads w_st)).*1 = [2; 1]) as Hm
    by (vm_compute; auto).
  assert (t ∈ (map_to_list (st_threads w_st)).*1) as Hin by (apply elem_of_list_fmap; by exists (t, y)).
  destruct Hm as [Hm|Hm]; rewrite Hm in Hin; set_solver.
Qed.

Lemma w_room : forall p, (N.of_nat (handles_to wE w_st p + calls w_st) < te_mod wE)%N.
Proof. apply few. by vm_compute. Qed.

Lemma w_good : good wE w_st.
Proof.
  assert (coherent wE) as HC by apply lawful_coherent, nodes_lawful.
  assert (wide wE) as HW by done.
  split_and!.
  - eapply run_Inv; [done..| |apply w_run]. by apply ex_bounded; vm_compute.
  - intros p. pose proof (w_room p). pose proof (pot_calls w_st). lia.
  - by vm_compute.
Qed.

Lemma w_only : only_steps w_s.
Proof. intros n. unfold w_s, w_turn. eauto. Qed.

Lemma w_execution : execution wE w_st w_s w_x.
Proof.
  apply attempts_execution; [apply lawful_coherent, nodes_lawful|done|apply w_good|apply w_only].
Qed.

Lemma w_fair : weakly_fair wE w_s w_x.
Proof.
  intros t n. destruct (w_rounds n) as [Hr _].
  destruct (round_attempts _ 5 Hr (le_n _)) as (_&_&_&_&Hs&Hb&Hl&Hda).
  destruct (decide (t = 2)) as [-> |H2].
  - exists (5 * n + 0). split; [lia|]. left. exists 0, 0.
    assert (w_s (5 * n + 0) = LStep 2 0 0) as Hw.
    { unfold w_s. by rewrite Nat.add_0_r, Nat.mul_comm, Nat.mod_mul. }
    split; [done|]. rewrite Hw. replace (S (5 * n + 0)) with (5 * n + 1) by lia.
    rewrite !w_at by lia. exact Hs.
  - destruct (decide (t = 1)) as [-> |H1].
    + exists (5 * n + 1). split; [lia|]. right. rewrite w_at by lia.
      intros (a&i&st'&Hst). unfold step, step_thread in Hst.
      destruct (w_any (5 * n + 1)) as (Hpc&_). rewrite w_at in Hpc by lia. rewrite Hpc, Hda in Hst.
      change (lock_of wE leaf4) with (0, 0) in Hst. by rewrite Hl in Hst.
    + exists n. split; [done|]. right. apply idle_cannot. destruct (w_any n) as (_&_&Ho).
      rewrite Ho by done. by apply w_idle.
Qed.

Lemma weak_livelock :
  exists (E : tyenv node) ls st s x,
    lawful E /\ te_mod E = (2 ^ 64)%N /\ bounded E ls /\ no_panic ls /\ run (step E) init ls = Some st /\
    (forall p, (N.of_nat (handles_to E st p + calls st) < te_mod E)%N) /\
    execution E st s x /\ only_steps s /\ weakly_fair E s x /\
    forall n, removing (x n) 1 exA /\ interning (x n) 2 leaf4.
Proof.
  exists wE, w_ls, w_st, w_s, w_x. split_and!; [apply nodes_lawful|done|by apply ex_bounded; vm_compute| |apply w_run|apply w_room|apply w_execution|apply w_only|apply w_fair|].
  - by apply no_panic_b; vm_compute.
  - intros n. destruct (w_any n) as (Hp&?&_). split; [|done]. unfold removing. rewrite Hp. by left.
Qed.

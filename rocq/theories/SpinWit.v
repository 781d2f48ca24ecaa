(** An intern call that never returns although every thread keeps running. *)
From stdpp Require Import gmap list numbers.
From Verif Require Import Base ArcModel ArcSpec ArcInv ArcEx NestModel SpinSpec.

(** The environment: one shard, 64-bit counts. *)
Definition sE : tyenv node := nodes 1 (2 ^ 64).

(** Run where every label happens, and every state passed satisfies [P]. *)
Inductive strict (P : state node -> Prop) : state node -> list (label node) -> state node -> Prop :=
| strict_nil st : P st -> strict P st [] st
| strict_next st l st1 ls st2 :
    P st -> step sE st l = Next st1 -> strict P st1 ls st2 -> strict P st (l :: ls) st2.

Definition waiting (st : state node) : Prop :=
  interning st 2 leaf4 /\ forall p, handles_to sE st p <= 1.

Definition mk (n : nat) (h : gmap nat (cell node)) tb lk pool (x1 x2 : pc node) log : state node :=
  State h tb lk pool [] (<[1:=x1]> {[2 := x2]}) n [] log.
Definition hp (n : nat) (c : N) d : gmap nat (cell node) := {[10 := Cell n c d]}.
Notation L0 := (PLookup KSized leaf4 None).
Lemma mk_deref n' n tb lk pool x1 x2 lg c d : deref (mk n' (hp n c d) tb lk pool x1 x2 lg) (Ptr 10 n) = Some (Cell n c d).
Proof. unfold deref, mk, hp. cbn [st_heap p_addr]. rewrite lookup_singleton. cbn. by rewrite Nat.eqb_refl. Qed.
Lemma mk_data n' n tb lk pool x1 x2 lg c d : data (mk n' (hp n c d) tb lk pool x1 x2 lg) (Ptr 10 n) = d.
Proof. unfold data. by rewrite mk_deref. Qed.
Lemma mk_get1 n h tb lk pool x1 x2 lg : get_pc (mk n h tb lk pool x1 x2 lg) 1 = x1.
Proof. unfold get_pc, mk. cbn [st_threads]. by rewrite lookup_insert. Qed.
Lemma mk_get2 n h tb lk pool x1 x2 lg : get_pc (mk n h tb lk pool x1 x2 lg) 2 = x2.
Proof. unfold get_pc, mk. cbn [st_threads]. by rewrite lookup_insert_ne, lookup_singleton. Qed.
Lemma mk_set1 n h tb lk pool x1 x2 lg y : set_pc (mk n h tb lk pool x1 x2 lg) 1 y = mk n h tb lk pool y x2 lg.
Proof. unfold set_pc, mk. cbn. by rewrite insert_insert. Qed.
Lemma mk_set2 n h tb lk pool x1 x2 lg y : set_pc (mk n h tb lk pool x1 x2 lg) 2 y = mk n h tb lk pool x1 y lg.
Proof. unfold set_pc, mk. cbn. by rewrite insert_commute, insert_singleton. Qed.
Lemma mk_unlock n h tb l t pool x1 x2 lg : unlock (mk n h tb {[l := t]} pool x1 x2 lg) l = mk n h tb ∅ pool x1 x2 lg.
Proof. unfold unlock, mk. cbn. by rewrite delete_singleton. Qed.
Lemma mk_lock n h tb l t pool x1 x2 lg : lock (mk n h tb ∅ pool x1 x2 lg) l t = mk n h tb {[l:=t]} pool x1 x2 lg.
Proof. done. Qed.
Lemma mk_count n' n c d tb lk pool x1 x2 lg c' : set_count (mk n' (hp n c d) tb lk pool x1 x2 lg) (Ptr 10 n) (Cell n c d) c' = mk n' (hp n c' d) tb lk pool x1 x2 lg.
Proof. unfold set_count, set_heap, mk, hp. cbn. by rewrite insert_singleton. Qed.
Lemma mk_take n' n c d tb lk pool x1 x2 lg : take_data (mk n' (hp n c d) tb lk pool x1 x2 lg) (Ptr 10 n) (Cell n c d) = mk n' (hp n c None) tb lk pool x1 x2 lg.
Proof. unfold take_data, set_heap, mk, hp. cbn. by rewrite insert_singleton. Qed.
Lemma mk_free n' n c d tb lk pool x1 x2 lg : free (mk n' (hp n c d) tb lk pool x1 x2 lg) (Ptr 10 n) = mk n' ∅ tb lk pool x1 x2 lg.
Proof. unfold free, set_heap, mk, hp. cbn. by rewrite delete_singleton. Qed.
Lemma mk_alloc n tb lk pool x1 x2 lg v : alloc (mk n ∅ tb lk pool x1 x2 lg) 10 v = mk (S n) (hp n 1 (Some v)) tb lk pool x1 x2 lg.
Proof. done. Qed.
Lemma mk_table n h tb lk pool x1 x2 lg y : set_table (mk n h tb lk pool x1 x2 lg) y = mk n h y lk pool x1 x2 lg.
Proof. done. Qed.
Lemma mk_pool n h tb lk pool x1 x2 lg y : set_pool (mk n h tb lk pool x1 x2 lg) y = mk n h tb lk y x1 x2 lg.
Proof. done. Qed.
Lemma mk_log n h tb lk pool x1 x2 lg y : add_log (mk n h tb lk pool x1 x2 lg) y = mk n h tb lk pool x1 x2 (y :: lg).
Proof. done. Qed.
Lemma mk_handles n h tb lk pool x1 x2 lg p :
  (forall a c d, h !! a = Some c -> c_data c = Some d -> n_kids d = []) ->
  handles_to sE (mk n h tb lk pool x1 x2 lg) p = occ p pool + pc_handles sE p x1 + pc_handles sE p x2.
Proof.
  intros Hh. unfold handles_to, mk. cbn [st_pool st_gone st_heap st_threads occ].
  assert (msum (cell_handles sE p) h = 0) as ->.
  { destruct (decide (msum (cell_handles sE p) h = 0)) as [|H0]; [done|].
    destruct (msum_pos (cell_handles sE p) h) as (a&c&Hc&Hp); [lia|]. unfold cell_handles in Hp.
    destruct (c_data c) as [d|] eqn:Hd; [|lia]. simpl in Hp. rewrite (Hh a c d Hc Hd) in Hp. simpl in Hp. lia. }
  pose proof (msum_insert_None (pc_handles sE p) ({[2 := x2]}) 1 x1 eq_refl) as H1.
  pose proof (msum_insert_None (pc_handles sE p) ∅ 2 x2 eq_refl) as H2.
  change (<[2:=x2]> ∅) with ({[2 := x2]} : gmap nat (pc node)) in H2.
  assert (msum (pc_handles sE p) (∅ : gmap nat (pc node)) = 0) as H3 by done. lia.
Qed.
Lemma hp_ok n c d : d = Some leaf4 \/ d = None ->
  forall a c' d', hp n c d !! a = Some c' -> c_data c' = Some d' -> n_kids d' = [].
Proof. intros Hd a c' d'. unfold hp. intros [_ <-]%lookup_singleton_Some. simpl. by destruct Hd as [-> | ->]; [intros [= <-]|]. Qed.
Lemma no_heap : forall a c (d : node), (∅ : gmap nat (cell node)) !! a = Some c -> c_data c = Some d -> n_kids d = [].
Proof. intros a c d. by rewrite lookup_empty. Qed.
Lemma is_p_le p q : is_p p q <= 1.
Proof. unfold is_p. case_bool_decide; simpl; lia. Qed.
Ltac wt :=
  split; [unfold interning; rewrite mk_get2; reflexivity|];
  let z := fresh "z" in intros z; rewrite mk_handles by (apply no_heap || (apply hp_ok; auto));
  match goal with |- context [Ptr 10 ?n] => pose proof (is_p_le z (Ptr 10 n)) | _ => idtac end;
  cbn -[is_p]; unfold is_p in *; repeat (case_decide || case_bool_decide); cbn in *; first [lia|congruence].
Section s.
Context (n : nat) (log : list (event node)).
Let p := Ptr 10 n.
Definition one  : list (label node) :=
  LNew 1 KSized leaf4 :: steps 1 10 6 ++ [LDrop 1 (Ptr 10 n); LStep 1 0 0] ++ steps 2 0 4 ++ steps 1 0 4.
Lemma mk_read tb n' lk pool x1 x2 lg c : tb = [] \/ tb = [p] -> readable (mk n' (hp n c (Some leaf4)) tb lk pool x1 x2 lg) = true.
Proof. intros [-> | ->]; unfold readable; simpl; [done|]. by rewrite mk_data. Qed.
Lemma mk_match n' lk pool x1 x2 lg c : matches sE (mk n' (hp n c (Some leaf4)) [p] lk pool x1 x2 lg) leaf4 = [p].
Proof. unfold matches. simpl. unfold is_match. by rewrite mk_data. Qed.
Lemma mk_match0 n' h lk pool x1 x2 lg : matches sE (mk n' h [] lk pool x1 x2 lg) leaf4 = [].
Proof. done. Qed.
Ltac go := 
  unfold step, step_thread;
  rewrite ?mk_get1, ?mk_get2; cbn [rem_all te_kids nodes sE n_kids leaf4 st_pool mk];
  rewrite ?mk_data, ?mk_deref; cbv iota beta;
  try change (lock_of sE leaf4) with (0, 0);
  change (st_locks (mk ?a ?b ?c ∅ ?d ?e ?f ?g)) with (∅ : gmap (nat * nat) nat); rewrite ?lookup_empty;
  rewrite ?mk_read, ?mk_match, ?mk_match0 by (by eauto); cbn [pick nth_error head];
  cbn [c_count c_data].
Ltac go2 := rewrite ?mk_lock, ?mk_table, ?mk_unlock, ?mk_pool, ?mk_count, ?mk_take, ?mk_free, ?mk_alloc, ?mk_log, ?mk_set1, ?mk_set2, ?mk_pool, ?mk_log.
Lemma one_ok : strict waiting (mk n ∅ [] ∅ [] PFree L0 log) one (mk (S n) ∅ [] ∅ [] PFree L0 (EvNew 1 leaf4 p :: log)).
Proof.
  unfold one, steps, intern. cbn [replicate app].
  eapply strict_next; [wt|..].
  { instantiate (1 := mk n ∅ [] ∅ [] L0 L0 log). go. go2. reflexivity. }
  eapply strict_next; [wt|..].
  { instantiate (1 := mk n ∅ [] ∅ [] (PAlloc KSized leaf4 None) L0 log). go. cbn [readable st_table mk forallb]. go2. reflexivity. }
  eapply strict_next; [wt|..].
  { instantiate (1 := mk (S n) (hp n 1 (Some leaf4)) [] ∅ [] (PEntry KSized leaf4 p) L0 log). go. go2. reflexivity. }
  eapply strict_next; [wt|..].
  { instantiate (1 := mk (S n) (hp n 1 (Some leaf4)) [] {[(0,0):=1]} [] (PVac KSized leaf4 p) L0 log).
    go. go2. reflexivity. }
  eapply strict_next; [wt|..].
  { instantiate (1 := mk (S n) (hp n 1 (Some leaf4)) [p] {[(0,0):=1]} [] (PIns KSized leaf4 p) L0 log). go. go2. reflexivity. }
  eapply strict_next; [wt|..].
  { instantiate (1 := mk (S n) (hp n 1 (Some leaf4)) [p] ∅ [] (PWork [] (Some (leaf4, p))) L0 log). go. go2. reflexivity. }
  eapply strict_next; [wt|..].
  { instantiate (1 := mk (S n) (hp n 1 (Some leaf4)) [p] ∅ [p] PFree L0 (EvNew 1 leaf4 p :: log)). go. go2. reflexivity. }
  set (lg := EvNew 1 leaf4 p :: log).
  eapply strict_next; [wt|..].
  { instantiate (1 := mk (S n) (hp n 1 (Some leaf4)) [p] ∅ [] (PWork [IDrop p] None) L0 lg).
    go. unfold rem1. rewrite decide_True by done. go2. reflexivity. }
  eapply strict_next; [wt|..].
  { instantiate (1 := mk (S n) (hp n 0 (Some leaf4)) [p] ∅ [] (PWork [IRemove p] None) L0 lg).
    go. go2. reflexivity. }
  eapply strict_next; [wt|..].
  { instantiate (1 := mk (S n) (hp n 0 (Some leaf4)) [p] {[(0,0):=2]} [] (PWork [IRemove p] None) (PHit KSized leaf4 None p) lg).
    go. go2. reflexivity. }
  eapply strict_next; [wt|..].
  { instantiate (1 := mk (S n) (hp n 1 (Some leaf4)) [p] {[(0,0):=2]} [] (PWork [IRemove p] None) (PInc KSized leaf4 None p 0) lg).
    go. go2. reflexivity. }
  eapply strict_next; [wt|..].
  { instantiate (1 := mk (S n) (hp n 0 (Some leaf4)) [p] {[(0,0):=2]} [] (PWork [IRemove p] None) (PUndo KSized leaf4 None p) lg).
    go. go2. reflexivity. }
  eapply strict_next; [wt|..].
  { instantiate (1 := mk (S n) (hp n 0 (Some leaf4)) [p] ∅ [] (PWork [IRemove p] None) L0 lg). go. go2. reflexivity. }
  eapply strict_next; [wt|..].
  { instantiate (1 := mk (S n) (hp n 0 (Some leaf4)) [p] {[(0,0):=1]} [] (PRem (0,0) p [] None) L0 lg).
    go. go2. reflexivity. }
  eapply strict_next; [wt|..].
  { instantiate (1 := mk (S n) (hp n 0 None) [] ∅ [] (PWork [IFree p] None) L0 lg).
    go. change (st_table _) with [p]. unfold remove_entry. rewrite filter_cons_False by (intros H; by apply H). go2. reflexivity. }
  eapply strict_next; [wt|..].
  { instantiate (1 := mk (S n) ∅ [] ∅ [] (PWork [] None) L0 lg).
    go. go2. reflexivity. }
  eapply strict_next; [wt|..].
  { instantiate (1 := mk (S n) ∅ [] ∅ [] PFree L0 lg). go. go2. reflexivity. }
  apply strict_nil. wt.
Qed.
End s.

(** Thread 1 shrinks the table (any call would do), thread 2 starts to intern. *)
Definition pre : list (label node) := [LShrink 1 0; LStep 1 0 0; LStep 1 0 0; LNew 2 KSized leaf4].
Fixpoint rounds (n k : nat) : list (label node) :=
  match k with 0 => [] | S k' => one n ++ rounds (S n) k' end.
Fixpoint returns (n k : nat) (log : list (event node)) : list (event node) :=
  match k with 0 => log | S k' => returns (S n) k' (EvNew 1 leaf4 (Ptr 10 n) :: log) end.

Lemma strict_app P s1 l1 s2 l2 s3 : strict P s1 l1 s2 -> strict P s2 l2 s3 -> strict P s1 (l1 ++ l2) s3.
Proof. induction 1 as [|st l st1 ls st2 HP Hs H IH]; intros; simpl; [done|]. eapply strict_next; eauto. Qed.
Lemma strict_inv P s1 l1 l2 s3 : strict P s1 (l1 ++ l2) s3 -> exists s2, strict P s1 l1 s2 /\ strict P s2 l2 s3.
Proof.
  revert s1. induction l1 as [|l l1 IH]; intros s1; simpl.
  - intros H. exists s1. split; [|done]. apply strict_nil. by inversion H.
  - inversion 1 as [|? ? st1 ? ? HP Hs H2]; subst. destruct (IH _ H2) as (s2&?&?).
    exists s2. split; [|done]. by eapply strict_next.
Qed.
Lemma strict_run P s1 ls s2 : strict P s1 ls s2 -> run (step sE) s1 ls = Some s2.
Proof. induction 1 as [|st l st1 ls st2 HP Hs H IH]; [done|]. simpl. unfold exec. by rewrite Hs. Qed.
Lemma strict_mono (P Q : state node -> Prop) s1 ls s2 : (forall s, P s -> Q s) -> strict P s1 ls s2 -> strict Q s1 ls s2.
Proof. intros HPQ. induction 1; [apply strict_nil; auto|]. eapply strict_next; eauto. Qed.
Lemma strict_last P s1 ls s2 : strict P s1 ls s2 -> P s2.
Proof. by induction 1. Qed.

Lemma rounds_ok n k log : strict waiting (mk n ∅ [] ∅ [] PFree L0 log) (rounds n k) (mk (n + k) ∅ [] ∅ [] PFree L0 (returns n k log)).
Proof.
  revert n log. induction k as [|k IH]; intros n log; cbn [rounds returns].
  - rewrite Nat.add_0_r. apply strict_nil. wt.
  - rewrite <- Nat.add_succ_comm. eapply strict_app; [apply one_ok|]. apply IH.
Qed.
Lemma rounds_length n k : length (rounds n k) = 17 * k.
Proof. revert n. induction k as [|k IH]; intros n; [done|]. cbn [rounds]. rewrite app_length, IH. simpl. lia. Qed.
Lemma rounds_app n k1 k2 : rounds n (k1 + k2) = rounds n k1 ++ rounds (n + k1) k2.
Proof.
  revert n. induction k1 as [|k1 IH]; intros n; cbn [rounds Nat.add app]; [by rewrite Nat.add_0_r|].
  rewrite <- app_assoc, IH, Nat.add_succ_comm. done.
Qed.
Lemma returns_one n k log e : e ∈ returns n k log -> e ∈ log \/ exists p, e = EvNew 1 leaf4 p.
Proof.
  revert n log. induction k as [|k IH]; intros n log; simpl; [by left|].
  intros [[->|]%elem_of_cons|]%IH; eauto.
Qed.
Lemma returns_length n k log : length (returns n k log) = k + length log.
Proof. revert n log. induction k as [|k IH]; intros n log; simpl; [done|]. rewrite IH. simpl. lia. Qed.

Definition any : state node -> Prop := λ st, forall p, handles_to sE st p <= 1.
Lemma any_waiting st : waiting st -> any st.
Proof. by intros [_ ?]. Qed.

Ltac sg := unfold step, step_thread, get_pc; cbn [st_threads]; rewrite lookup_singleton; cbn; unfold set_pc; cbn; by rewrite insert_singleton.
Ltac sg2 := unfold step, get_pc; cbn [st_threads]; rewrite lookup_singleton_ne by done; cbn; unfold set_pc, mk; cbn;
  unfold singletonM, map_singleton; by rewrite insert_commute.
Lemma pre_ok : strict any init pre (mk 0 ∅ [] ∅ [] PFree L0 []).
Proof.
  assert (forall th lk n lg, (forall t x, th !! t = Some x -> forall p, pc_handles sE p x = 0) ->
    any (State ∅ [] lk [] [] th n [] lg)) as Hany.
  { intros th lk n lg Hth p. unfold handles_to. cbn [st_pool st_gone st_heap st_threads occ].
    rewrite msum_empty, (msum_zero (pc_handles sE p) th); [lia|]. intros t x Ht. by eapply Hth. }
  unfold pre.
  eapply strict_next with (st1 := State ∅ [] ∅ [] [] {[1 := PShrink 0 0]} 0 [] []); [|reflexivity|].
  { apply Hany. intros t x. by rewrite lookup_empty. }
  eapply strict_next with (st1 := State ∅ [] ∅ [] [] {[1 := PShrink 0 1]} 0 [] []); [|sg|].
  { apply Hany. by intros t x [_ <-]%lookup_singleton_Some. }
  eapply strict_next with (st1 := State ∅ [] ∅ [] [] {[1 := PFree]} 0 [] []); [|sg|].
  { apply Hany. by intros t x [_ <-]%lookup_singleton_Some. }
  eapply strict_next with (st1 := mk 0 ∅ [] ∅ [] PFree L0 []); [|sg2|].
  { apply Hany. by intros t x [_ <-]%lookup_singleton_Some. }
  apply strict_nil, any_waiting. wt.
Qed.

Definition labels (k : nat) : list (label node) := pre ++ rounds 0 k.
Lemma labels_ok k : strict any init (labels k) (mk k ∅ [] ∅ [] PFree L0 (returns 0 k [])).
Proof.
  eapply strict_app; [apply pre_ok|]. eapply strict_mono; [apply any_waiting|]. apply (rounds_ok 0 k []).
Qed.
Lemma labels_length k : length (labels k) = 4 + 17 * k.
Proof. unfold labels. by rewrite app_length, rounds_length. Qed.
Lemma labels_prefix k1 k2 : k1 <= k2 -> exists l, labels k2 = labels k1 ++ l.
Proof.
  intros H. exists (rounds (0 + k1) (k2 - k1)). unfold labels. rewrite <- app_assoc. f_equal.
  rewrite <- rounds_app. f_equal. lia.
Qed.
Lemma labels_take n k : n <= k -> take n (labels k) = take n (labels n).
Proof.
  intros H. destruct (labels_prefix n k H) as [l ->]. apply take_app_le. rewrite labels_length. lia.
Qed.

Definition ever (n : nat) : label node := nth n (labels (S n)) (LPanic 0).
Definition at_ (n : nat) : state node := default init (run (step sE) init (take n (labels n))).

Lemma at_strict n k : n <= k -> strict any init (take n (labels k)) (at_ n).
Proof.
  intros H. rewrite labels_take by done. pose proof (labels_ok n) as Hok.
  rewrite <- (take_drop n (labels n)) in Hok. apply strict_inv in Hok as (s&Hs&_).
  unfold at_. by rewrite (strict_run _ _ _ _ Hs).
Qed.

Lemma at_step n : step sE (at_ n) (ever n) = Next (at_ (S n)).
Proof.
  pose proof (at_strict (S n) (S n) (Nat.le_refl _)) as H.
  assert (take (S n) (labels (S n)) = take n (labels (S n)) ++ [ever n]) as Heq.
  { apply take_S_r. unfold ever. rewrite nth_lookup.
    destruct (lookup_lt_is_Some_2 (labels (S n)) n) as [l Hl]; [rewrite labels_length; lia|]. by rewrite Hl. }
  rewrite Heq in H. apply strict_inv in H as (s&H1&H2).
  pose proof (at_strict n (S n) (Nat.le_succ_diag_r n)) as H3.
  apply strict_run in H1. apply strict_run in H3. rewrite H1 in H3. injection H3 as ->.
  inversion H2 as [|? ? st1 ? ? _ Hs Hn]; subst. inversion Hn; subst. done.
Qed.

Lemma at_waiting n : 4 <= n -> waiting (at_ n).
Proof.
  intros Hn. unfold at_, labels. change 4 with (length pre) in Hn.
  rewrite take_app_ge by done.
  rewrite run_app, (strict_run _ _ _ _ pre_ok).
  pose proof (rounds_ok 0 n []) as Hok. rewrite <- (take_drop (n - length pre) (rounds 0 n)) in Hok.
  apply strict_inv in Hok as (s&Hs&_). rewrite (strict_run _ _ _ _ Hs). simpl. by eapply strict_last.
Qed.

Lemma at_round k : at_ (4 + 17 * k) = mk k ∅ [] ∅ [] PFree L0 (returns 0 k []).
Proof.
  pose proof (at_strict (4 + 17 * k) (4 + 17 * k) (Nat.le_refl _)) as H.
  destruct (labels_prefix k (4 + 17 * k)) as [l Hl]; [lia|]. rewrite Hl in H.
  rewrite take_app_alt in H by (by rewrite labels_length).
  apply strict_run in H. rewrite (strict_run _ _ _ _ (labels_ok k)) in H. by injection H.
Qed.

Lemma ever_at k j l : one k !! j = Some l -> ever (4 + 17 * k + j) = l.
Proof.
  intros Hj. unfold ever. set (n := 4 + 17 * k + j).
  destruct (labels_prefix (S k) (S n)) as [l' ->]; [lia|]. rewrite nth_lookup.
  assert (labels (S k) !! n = Some l) as Hl.
  { unfold labels. replace (S k) with (k + 1) by lia. rewrite rounds_app, app_assoc. change (pre ++ rounds 0 k) with (labels k).
    rewrite lookup_app_r by (rewrite labels_length; lia). rewrite labels_length. cbn [rounds]. rewrite app_nil_r.
    replace (n - (4 + 17 * k)) with j by lia. done. }
  by rewrite (lookup_app_l_Some _ _ _ _ Hl).
Qed.

Lemma ever_label n : match ever n with
  | LNew t _ v => (t = 1 \/ t = 2) /\ v = leaf4
  | LDrop t _ | LShrink t _ | LStep t _ _ => t = 1 \/ t = 2
  | _ => False
  end.
Proof.
  assert (forall k m, Forall (λ l : label node, match l with
    | LNew t _ v => (t = 1 \/ t = 2) /\ v = leaf4
    | LDrop t _ | LShrink t _ | LStep t _ _ => t = 1 \/ t = 2
    | _ => False
    end) (rounds m k)) as Hr.
  { induction k as [|k IH]; intros m; cbn [rounds]; [done|]. apply Forall_app. split; [|apply IH].
    unfold one, steps. cbn [replicate app]. repeat (apply Forall_cons_2; [by auto|]). by apply Forall_nil. }
  unfold ever. rewrite nth_lookup.
  destruct (lookup_lt_is_Some_2 (labels (S n)) n) as [l Hl]; [rewrite labels_length; lia|]. rewrite Hl. simpl.
  pattern l. eapply Forall_lookup_1; [|exact Hl]. unfold labels. apply Forall_app.
  split; [|apply Hr]. unfold pre. repeat (apply Forall_cons_2; [by auto|]). by apply Forall_nil.
Qed.

Lemma starvation :
  exists (E : tyenv node) (s : nat -> label node) (x : nat -> state node),
    lawful E /\ te_mod E = (2 ^ 64)%N /\ infinite E s x /\ fair_to s 1 /\ fair_to s 2 /\
    (forall n, match s n with
               | LNew t _ v => (t = 1 \/ t = 2) /\ v = leaf4
               | LDrop t _ | LShrink t _ | LStep t _ _ => t = 1 \/ t = 2
               | _ => False
               end) /\
    s 3 = LNew 2 KSized leaf4 /\ (forall n, 3 < n -> interning (x n) 2 leaf4) /\
    (forall n p, handles_to E (x n) p <= 1) /\
    (forall k, exists n, k <= length (st_log (x n)) /\
       forall e, e ∈ st_log (x n) -> exists p, e = EvNew 1 leaf4 p).
Proof.
  exists sE, ever, at_. split_and!.
  - apply nodes_lawful.
  - done.
  - split; [done|]. apply at_step.
  - intros n. exists (4 + 17 * n + 0). split; [lia|]. by rewrite (ever_at n 0 (LNew 1 KSized leaf4)).
  - intros n. exists (4 + 17 * n + 9). split; [lia|]. by rewrite (ever_at n 9 (LStep 2 0 0)).
  - apply ever_label.
  - done.
  - intros n Hn. by apply at_waiting.
  - intros n. exact (strict_last _ _ _ _ (at_strict n n (Nat.le_refl _))).
  - intros k. exists (4 + 17 * k). rewrite at_round. simpl. split; [rewrite returns_length; lia|].
    intros e [[]%elem_of_nil|]%returns_one. done.
Qed.

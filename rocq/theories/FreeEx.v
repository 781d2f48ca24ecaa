(** Chains of interned values, of any length. *)
From stdpp Require Import gmap list numbers.
From Verif Require Import Base ArcModel ArcSpec ArcInv ArcStep ArcSafe ArcReach ArcProps ArcLive ArcEx FreeSpec FreeProof.
Require Import ZifyBool ZifyNat ZifyN.

(** Node [i] has number [i] (up to the last bit) and owns the handle to node [i - 1]. *)
Definition link (i : nat) : node := Node 0 (2 * i) (match i with 0 => [] | S j => [Ptr j j] end).
Fixpoint links_heap (n : nat) : gmap nat (cell node) :=
  match n with 0 => ∅ | S i => <[i := Cell i 1%N (Some (link i))]> (links_heap i) end.
Fixpoint links (n : nat) : list ptr := match n with 0 => [] | S i => Ptr i i :: links i end.
(** Thread 0 interns them, one after the other. *)
Definition make (i : nat) : list (label node) := LNew 0 KSized (link i) :: replicate 6 (LStep 0 i 0).
Fixpoint make_all (n : nat) : list (label node) := match n with 0 => [] | S i => make_all i ++ make i end.

Section links.
  Context (M : N).
  Notation E := (nodes 1 M).

  Record linked (n : nat) (st : state node) : Prop := Linked {
    k_heap : st_heap st = links_heap n;
    k_table : st_table st = links n;
    k_locks : st_locks st = ∅;
    k_pool : st_pool st = match n with 0 => [] | S i => [Ptr i i] end;
    k_pc : forall t, get_pc st t = PFree;
    k_next : st_next st = n;
  }.

  Lemma links_lookup n i : links_heap n !! i = if decide (i < n) then Some (Cell i 1%N (Some (link i))) else None.
  Proof.
    induction n as [|n IH]; simpl; [by rewrite lookup_empty|].
    destruct (decide (i = n)) as [->|Hne].
    - rewrite lookup_insert. by rewrite decide_True by lia.
    - rewrite lookup_insert_ne by done. rewrite IH. by destruct (decide (i < n)), (decide (i < S n)); try lia.
  Qed.
  Lemma links_in n p : p ∈ links n <-> exists i, i < n /\ p = Ptr i i.
  Proof.
    induction n as [|n IH]; simpl; [rewrite elem_of_nil; split; [done|intros (?&?&_); lia]|].
    rewrite elem_of_cons, IH. split.
    - intros [->|(i&?&->)]; eexists; split; try done; lia.
    - intros (i&Hi&->). destruct (decide (i = n)) as [->|]; [by left|]. right. exists i. split; [lia|done].
  Qed.
  Lemma links_data n m st i : st_heap st = links_heap n -> i < n -> m = i -> data st (Ptr i m) = Some (link i).
  Proof.
    intros Hh Hi ->. unfold data, deref. simpl. rewrite Hh, links_lookup, decide_True by done. by rewrite Nat.eqb_refl.
  Qed.
  Lemma links_readable n m st : st_heap st = links_heap n -> st_table st = links m -> m <= n -> readable st = true.
  Proof.
    intros Hh Ht Hle. unfold readable. apply forallb_forall. rewrite Ht. intros q (i&Hi&->)%elem_of_list_In%links_in.
    by rewrite (links_data n i st i Hh) by lia.
  Qed.
  Lemma links_nomatch n m st i : st_heap st = links_heap n -> st_table st = links m -> m <= n ->
    pick i (matches E st (link m)) = None.
  Proof.
    intros Hh Ht Hle. assert (matches E st (link m) = []) as ->; [|by destruct i].
    unfold matches. rewrite Ht. clear Ht. assert (forall l, (forall p, p ∈ l -> exists j, j < m /\ p = Ptr j j) ->
      List.filter (is_match E st (link m)) l = []) as H; [|apply H; intros p; apply links_in].
    induction l as [|p l IH]; intros Hp; [done|]. simpl. destruct (Hp p) as (j&Hj&->); [by left|].
    assert (is_match E st (link m) (Ptr j j) = false) as ->; [|apply IH; intros; apply Hp; by right].
    unfold is_match. rewrite (links_data n j st j Hh) by lia.
    assert (te_eq E (link m) (link j) = false) as ->; [|by rewrite andb_false_r].
    change (te_eq E) with node_eqb. unfold node_eqb. cbn [link n_ty n_val].
    rewrite !(Nat.mul_comm 2), !Nat.div_mul by done. destruct (Nat.eqb_spec m j); [lia|]. by rewrite andb_false_r.
  Qed.
  Lemma link_kids i : te_kids E (link i) = match i with 0 => [] | S j => [Ptr j j] end.
  Proof. done. Qed.

  Lemma make_run n st : linked n st -> exists st', run (step E) st (make n) = Some st' /\ linked (S n) st'.
  Proof.
    intros [Hh Ht Hl Hp Hpc Hn].
    set (L := lock_of E (link n)).
    set (s1 := set_pc (set_pool st []) 0 (PLookup KSized (link n) None)).
    assert (step E st (LNew 0 KSized (link n)) = Next s1) as H1.
    { simpl. rewrite Hpc, Hp. unfold s1. destruct n; simpl; [done|]. by rewrite decide_True. }
    set (s2 := set_pc s1 0 (PAlloc KSized (link n) None)).
    assert (get_pc s1 0 = PLookup KSized (link n) None) as Hp1 by apply (get_set _ 0).
    assert (step E s1 (LStep 0 n 0) = Next s2) as H2.
    { cbn [step]. unfold step_thread. rewrite Hp1. assert (st_locks s1 !! lock_of E (link n) = None) as -> by (simpl; by rewrite Hl).
      rewrite (links_readable n n s1 Hh Ht) by lia. by rewrite (links_nomatch n n s1 0 Hh Ht) by lia. }
    set (s3 := set_pc (alloc s2 n (link n)) 0 (PEntry KSized (link n) (Ptr n n))).
    assert (get_pc s2 0 = PAlloc KSized (link n) None) as Hp2 by apply (get_set _ 0).
    assert (step E s2 (LStep 0 n 0) = Next s3) as H3.
    { cbn [step]. unfold step_thread. rewrite Hp2. assert (st_heap s2 !! n = None) as ->.
      { simpl. rewrite Hh, links_lookup. by rewrite decide_False by lia. }
      simpl. rewrite Hn. done. }
    assert (get_pc s3 0 = PEntry KSized (link n) (Ptr n n)) as Hp3 by apply (get_set _ 0).
    assert (st_heap s3 = links_heap (S n)) as Hh3 by (simpl; by rewrite Hh, Hn).
    set (s4 := set_pc (lock s3 L 0) 0 (PVac KSized (link n) (Ptr n n))).
    assert (step E s3 (LStep 0 n 0) = Next s4) as H4.
    { cbn [step]. unfold step_thread. rewrite Hp3, (links_data (S n) n s3 n Hh3) by lia.
      assert (st_locks s3 !! lock_of E (link n) = None) as -> by (simpl; by rewrite Hl).
      rewrite (links_readable (S n) n s3 Hh3 Ht) by lia. by rewrite (links_nomatch (S n) n s3 0 Hh3 Ht) by lia. }
    assert (get_pc s4 0 = PVac KSized (link n) (Ptr n n)) as Hp4 by apply (get_set _ 0).
    set (s5 := set_pc (set_table s4 (Ptr n n :: st_table s4)) 0 (PIns KSized (link n) (Ptr n n))).
    assert (step E s4 (LStep 0 n 0) = Next s5) as H5 by (simpl; unfold step_thread; by rewrite Hp4).
    assert (get_pc s5 0 = PIns KSized (link n) (Ptr n n)) as Hp5 by apply (get_set _ 0).
    set (s6 := set_pc (unlock s5 L) 0 (PWork [] (Some (link n, Ptr n n)))).
    assert (step E s5 (LStep 0 n 0) = Next s6) as H6 by (simpl; unfold step_thread; by rewrite Hp5).
    assert (get_pc s6 0 = PWork [] (Some (link n, Ptr n n))) as Hp6 by apply (get_set _ 0).
    set (s7 := add_log (set_pool (set_pc s6 0 PFree) (Ptr n n :: st_pool s6)) (EvNew 0 (link n) (Ptr n n))).
    assert (step E s6 (LStep 0 n 0) = Next s7) as H7 by (simpl; unfold step_thread; by rewrite Hp6).
    exists s7. split.
    - unfold make. cbn [run replicate]. unfold exec. by rewrite H1, H2, H3, H4, H5, H6, H7.
    - constructor.
      + exact Hh3.
      + simpl. by rewrite Ht.
      + simpl. rewrite Hl. apply delete_insert, lookup_empty.
      + done.
      + intros t. unfold get_pc. simpl. destruct (decide (t = 0)) as [->|Hne]; [by rewrite lookup_insert|].
        rewrite !lookup_insert_ne by done. apply Hpc.
      + simpl. by rewrite Hn.
  Qed.
  Lemma make_all_run n : exists st, run (step E) init (make_all n) = Some st /\ linked n st.
  Proof.
    induction n as [|n (st&Hr&HL)].
    - exists init. split; [done|]. constructor; done.
    - destruct (make_run n st HL) as (st'&Hr'&HL'). exists st'. split; [|done]. simpl. by rewrite run_app, Hr.
  Qed.
  Lemma make_all_length n : length (make_all n) = 7 * n.
  Proof. induction n; [done|]. simpl. rewrite app_length, IHn. simpl. lia. Qed.
  Lemma make_all_calm n : no_panic (make_all n).
  Proof.
    induction n as [|n IH]; [constructor|]. apply Forall_app. split; [done|]. repeat (constructor; [by intros []|]). constructor.
  Qed.

  Lemma linked_single n st : Inv E st -> fits E st -> linked n st -> (2 <= M)%N -> forall m, m < n -> single E st (links (S m)).
  Proof.
    intros HI Hf [Hh Ht Hl Hp Hpc Hn] HM.
    assert (forall i, i < n -> handles_to E st (Ptr i i) = 1 /\ data st (Ptr i i) = Some (link i)) as H1.
    { intros i Hi. split; [|by eapply links_data].
      assert (Ptr i i ∈ st_table st) as Hin by (rewrite Ht; apply links_in; by eauto).
      pose proof (inv_cnt _ _ HI (Ptr i i) (Cell i 1%N (Some (link i))) Hin) as Hc.
      assert (tc st (Ptr i i) = 0) as Htc.
      { unfold tc. apply msum_zero. intros k x Hk. specialize (Hpc k). unfold get_pc in Hpc. rewrite Hk in Hpc. simpl in Hpc. by subst. }
      rewrite Htc in Hc. specialize (Hf (Ptr i i)). simpl te_mod in *. rewrite N.mod_small in Hc by lia.
      assert (1%N = N.of_nat (handles_to E st (Ptr i i) + 0)); [|lia]. apply Hc. unfold deref. simpl.
      rewrite Hh, links_lookup, decide_True by done. by rewrite Nat.eqb_refl. }
    induction m as [|m IH]; intros Hm.
    - simpl. destruct (H1 0 Hm). by econstructor.
    - change (links (S (S m))) with (Ptr (S m) (S m) :: Ptr m m :: links m). destruct (H1 (S m) Hm).
      econstructor; [done|done|done|]. apply IH. lia.
  Qed.
End links.

Lemma unbounded n : exists (E : tyenv node) ls st t,
  lawful E /\ wide E /\ (N.of_nat (length ls) < te_mod E)%N /\ no_panic ls /\
  run (step E) init ls = Some st /\ length (nested st t) = n.
Proof.
  set (M := N.of_nat (10 * n + 10)). set (E := nodes 1 M).
  assert (wide E) as HW by (unfold wide; simpl; lia). pose proof (nodes_lawful 1 M) as HL. fold E in HL.
  pose proof (lawful_coherent E HL) as HC.
  destruct n as [|n].
  - exists E, [], init, 0. split_and!; try done. constructor.
  - destruct (make_all_run M (S n)) as (st&Hr&Hk). fold E in Hr.
    assert (bounded E (make_all (S n))) as Hb.
    { apply short_bounded; [done..|]. rewrite make_all_length. simpl te_mod. lia. }
    pose proof (run_Inv E HC HW _ _ Hb Hr) as HI. pose proof (bounded_fits E _ _ Hb Hr) as Hf.
    destruct (deep E HC HW (make_all (S n)) st 0 (Ptr n n) (links n) Hb Hr) as (st'&Hr'&Hn).
    + apply (k_pc _ _ Hk).
    + intros l. rewrite (k_locks _ _ Hk). apply lookup_empty.
    + rewrite (k_pool _ _ Hk). by left.
    + eapply (linked_single M (S n)); [done|done|done|lia|lia].
    + exists E, (make_all (S n) ++ LDrop 0 (Ptr n n) :: replicate (3 * length (Ptr n n :: links n)) (LStep 0 0 0)), st', 0.
      assert (length (links n) = n) as Hlen by (clear; induction n; simpl; congruence).
      split_and!; try done.
      * rewrite app_length, make_all_length. cbn [length]. rewrite replicate_length, Hlen. simpl te_mod. lia.
      * apply Forall_app. split; [apply make_all_calm|]. constructor; [by intros []|].
        apply Forall_forall. intros x Hx%elem_of_list_In%elem_of_replicate_inv. subst. by intros [].
      * by rewrite run_app, Hr.
      * rewrite Hn, rev_length. simpl. by rewrite Hlen.
Qed.

(** Proofs about [Fits64]. *)
From stdpp Require Import gmap list numbers.
From Verif Require Import Base FitsModel.
Require Import ZifyBool ZifyNat ZifyN.
Local Open Scope N_scope.

(** ** Arithmetic *)
Lemma shiftr_lxor_zero x y k : N.shiftr (N.lxor x y) k = 0 <-> N.shiftr x k = N.shiftr y k.
Proof. rewrite N.shiftr_lxor, N.lxor_eq_0_iff. done. Qed.
Lemma lt_pow2_shiftr x k : x < 2 ^ k <-> N.shiftr x k = 0.
Proof.
  rewrite N.shiftr_div_pow2. assert (2 ^ k <> 0) by (apply N.pow_nonzero; lia). split.
  - intros. by apply N.div_small.
  - intros H0. apply N.div_small_iff in H0; done.
Qed.
Lemma code_small a h p k : to_code a h p < 2 ^ k <-> N.shiftr (p / a) k = N.shiftr (h / a) k.
Proof. unfold to_code. by rewrite lt_pow2_shiftr, shiftr_lxor_zero. Qed.
Lemma div_u64 a p : p < u64_bound -> p / a < u64_bound.
Proof. intros H. destruct (decide (a = 0)) as [->|]; [by destruct p|]. pose proof (N.div_le_upper_bound p a p). nia. Qed.
Lemma lxor_u64 x y : x < u64_bound -> y < u64_bound -> N.lxor x y < u64_bound.
Proof.
  unfold u64_bound. rewrite !lt_pow2_shiftr. intros Hx Hy. by rewrite N.shiftr_lxor, Hx, Hy.
Qed.
Lemma code_u64 a h p : p < u64_bound -> h < u64_bound -> to_code a h p < u64_bound.
Proof. intros Hp Hh. apply lxor_u64; by apply div_u64. Qed.
Lemma code_decodes a h p : (a | p) -> a <> 0 -> p < u64_bound -> from_code a h (to_code a h p) = Some p.
Proof.
  intros [q ->] Ha Hp. unfold from_code, to_code. rewrite N.lxor_assoc, N.lxor_nilpotent, N.lxor_0_r, N.div_mul by done.
  by apply N.ltb_lt in Hp as ->.
Qed.
Lemma code_inj a h p p' : (a | p) -> (a | p') -> a <> 0 -> to_code a h p = to_code a h p' -> p = p'.
Proof.
  intros [q ->] [q' ->] Ha. unfold to_code. rewrite !N.div_mul by done. intros H.
  assert (N.lxor (N.lxor q (h / a)) (h / a) = N.lxor (N.lxor q' (h / a)) (h / a)) as H' by (by rewrite H).
  rewrite !N.lxor_assoc, N.lxor_nilpotent, !N.lxor_0_r in H'. by rewrite H'.
Qed.

(** ** The race *)
Definition hused (e : hevent) (h : N) : Prop :=
  match e with
  | HvHeap _ h' => h' = h
  | HvTo _ a p x => x = to_code a h p /\ a <> 0 /\ p < u64_bound
  | HvFrom _ a x r => r = from_code a h x /\ a <> 0 /\ x < u64_bound
  end.
Definition hop_ok (o : hop) : Prop :=
  match o with HHeap => True | HTo a p => a <> 0 /\ p < u64_bound | HFrom a x => a <> 0 /\ x < u64_bound end.
Record HInv (s : hstate) : Prop := {
  hi_loc : h_loc s < u64_bound;
  hi_frame : forall t f, h_threads s !! t = Some f ->
    match f with
    | HLoad o | HAlloc o => hop_ok o
    | HCas o q => hop_ok o /\ q <> 0 /\ q < u64_bound
    | HUse o h => hop_ok o /\ h <> 0 /\ h_loc s = h
    end;
  hi_log : forall e, e ∈ h_log s -> h_loc s <> 0 /\ hused e (h_loc s);
}.
Lemma hinv_init : HInv hinit.
Proof. constructor; simpl; [done|done|]. intros e H. by apply elem_of_nil in H. Qed.
Lemma hinv_set s t f : HInv s ->
    match f with
    | HLoad o | HAlloc o => hop_ok o
    | HCas o q => hop_ok o /\ q <> 0 /\ q < u64_bound
    | HUse o h => hop_ok o /\ h <> 0 /\ h_loc s = h
    end -> HInv (hset s t f).
Proof.
  intros [Hl Hf Hg] H. constructor; simpl; [done| |done].
  intros u f'. destruct (decide (t = u)) as [<-|].
  - rewrite lookup_insert. by intros [= <-].
  - rewrite lookup_insert_ne by done. apply Hf.
Qed.
Lemma hinv_step s l s' : HInv s -> hstep s l = Next s' -> HInv s'.
Proof.
  intros HI. destruct l as [t o|t stale q]; simpl.
  - destruct (h_threads s !! t); [done|]. destruct (match o with HHeap => _ | _ => _ end) eqn:Ho; [|done].
    intros [= <-]. apply hinv_set; [done|]. destruct o; simpl; [done|lia..].
  - destruct (h_threads s !! t) as [[o|o|o q'|o h]|] eqn:Ht; [| | | |done]; pose proof (hi_frame s HI _ _ Ht) as Hf; simpl in Hf.
    + intros [= <-]. apply hinv_set; [done|]. destruct (N.eqb_spec (if stale then 0 else h_loc s) 0); [done|].
      destruct stale; [done|]. done.
    + destruct (negb (q =? 0) && (q <? u64_bound)) eqn:Hq; [|done]. intros [= <-]. apply hinv_set; [done|]. split; [done|lia].
    + destruct Hf as (Ho&Hq&Hq'). destruct (N.eqb_spec (h_loc s) 0) as [H0|H0]; intros [= <-].
      * constructor; simpl; [done| |].
        -- intros u f'. destruct (decide (t = u)) as [<-|].
           ++ rewrite lookup_insert. by intros [= <-].
           ++ rewrite lookup_insert_ne by done. intros Hu. pose proof (hi_frame s HI _ _ Hu) as Hf.
              destruct f' as [o'|o'|o' q''|o' h']; try done. destruct Hf as (_&?&?). congruence.
        -- intros e He. by destruct (hi_log s HI e He).
      * apply hinv_set; [done|]. done.
    + intros [= <-]. destruct Hf as (Ho&Hh&Hl). constructor; simpl; [apply (hi_loc s HI)| |].
      * intros u f' Hu. apply lookup_delete_Some in Hu as [_ Hu]. by apply (hi_frame s HI u).
      * intros e [->|He]%elem_of_cons; [|by apply (hi_log s HI)]. rewrite Hl. split; [done|]. by destruct o.
Qed.
Lemma hstep_noub s l : hstep s l <> UB.
Proof. destruct l as [t o|t stale q]; simpl; repeat case_match; done. Qed.
Lemma hrun_inv ls s s' : HInv s -> run hstep s ls = Some s' -> HInv s'.
Proof.
  revert s. induction ls as [|l ls IH]; intros s HI; simpl; [by intros [= ->]|].
  unfold exec. destruct (hstep s l) as [s1| | |] eqn:Hs; try done; [|by apply IH..]. apply IH. by eapply hinv_step.
Qed.
Lemma hreach ls s : run hstep hinit ls = Some s -> HInv s.
Proof. apply hrun_inv, hinv_init. Qed.
Lemma heap_never_ub ls : exists s, run hstep hinit ls = Some s.
Proof.
  generalize hinit. induction ls as [|l ls IH]; intros s; simpl; [by exists s|].
  unfold exec. destruct (hstep s l) eqn:Hs; [apply IH..|]. by destruct (hstep_noub s l).
Qed.
Lemma heap_agree ls s t1 h1 t2 h2 : run hstep hinit ls = Some s ->
  HvHeap t1 h1 ∈ h_log s -> HvHeap t2 h2 ∈ h_log s -> h1 = h2 /\ h1 <> 0 /\ h1 < u64_bound.
Proof.
  intros HI%hreach [H0 ->]%(hi_log s HI) [_ ->]%(hi_log s HI). split_and!; [done|done|]. apply (hi_loc s HI).
Qed.
Lemma heap_decodes ls s t1 a p x t2 r : run hstep hinit ls = Some s ->
  HvTo t1 a p x ∈ h_log s -> HvFrom t2 a x r ∈ h_log s -> (a | p) -> r = Some p.
Proof.
  intros HI%hreach [_ (->&Ha&Hp)]%(hi_log s HI) [_ (->&_)]%(hi_log s HI) Hd. by apply code_decodes.
Qed.
Lemma heap_inj ls s t1 a p1 x1 t2 p2 x2 : run hstep hinit ls = Some s ->
  HvTo t1 a p1 x1 ∈ h_log s -> HvTo t2 a p2 x2 ∈ h_log s -> (a | p1) -> (a | p2) ->
  (x1 = x2 <-> p1 = p2) /\ x1 < u64_bound.
Proof.
  intros HI%hreach [_ (->&Ha&Hp)]%(hi_log s HI) [_ (->&_&Hp')]%(hi_log s HI) H1 H2. split; [split|].
  - by apply code_inj.
  - by intros ->.
  - apply code_u64; [done|apply (hi_loc s HI)].
Qed.
Lemma heap_small ls s t a p x t' h k : run hstep hinit ls = Some s ->
  HvTo t a p x ∈ h_log s -> HvHeap t' h ∈ h_log s ->
  (x < 2 ^ k <-> N.shiftr (p / a) k = N.shiftr (h / a) k).
Proof.
  intros HI%hreach [_ (->&_)]%(hi_log s HI) [_ ->]%(hi_log s HI). apply code_small.
Qed.
Lemma heap_waitfree ls s t o q b : run hstep hinit ls = Some s -> h_threads s !! t = None -> hop_ok o ->
  q <> 0 -> q < u64_bound ->
  exists n s', (n <= 4)%nat /\ run hstep s (HCall t o :: replicate n (HStep t b q)) = Some s' /\
    h_threads s' !! t = None /\ length (h_log s') = S (length (h_log s)).
Proof.
  intros HI%hreach Ht Ho Hq Hq'.
  assert (hstep s (HCall t o) = Next (hset s t (HLoad o))) as Hc.
  { simpl. rewrite Ht. destruct o as [|a p|a x]; simpl in Ho; [done|..]; destruct (N.eqb_spec a 0); [lia| |lia|];
      simpl; destruct Ho as [_ Hlt]; by apply N.ltb_lt in Hlt as ->. }
  assert (forall s1 h, h_threads s1 !! t = Some (HUse o h) -> exists s2, hstep s1 (HStep t b q) = Next s2 /\
    h_threads s2 !! t = None /\ length (h_log s2) = S (length (h_log s1))) as Huse.
  { intros s1 h H1. simpl. rewrite H1. eexists. split; [done|]. simpl. by rewrite lookup_delete. }
  destruct (decide ((if b then 0 else h_loc s) = 0)) as [H0|H0].
  - pose (s1 := hset s t (HLoad o)). pose (s2 := hset s1 t (HAlloc o)). pose (s3 := hset s2 t (HCas o q)).
    assert (hstep s1 (HStep t b q) = Next s2) as H2.
    { simpl. rewrite lookup_insert. change (h_loc s1) with (h_loc s). by rewrite H0. }
    assert (hstep s2 (HStep t b q) = Next s3) as H3.
    { simpl. rewrite lookup_insert. destruct (N.eqb_spec q 0); [done|]. by apply N.ltb_lt in Hq' as ->. }
    assert (exists s4 h, hstep s3 (HStep t b q) = Next s4 /\ h_threads s4 !! t = Some (HUse o h) /\ h_log s4 = h_log s) as (s4&h&H4&Hs4&Hl4).
    { simpl. rewrite lookup_insert. destruct (_ =? 0); repeat eexists; simpl; by rewrite lookup_insert. }
    destruct (Huse s4 h Hs4) as (s5&H5&Hn&Hlen). exists 4%nat, s5. split; [lia|]. rewrite <- Hl4. split_and!; [|done|done].
    cbn [replicate run]. unfold exec. rewrite Hc. fold s1. by rewrite H2, H3, H4, H5.
  - pose (s1 := hset s t (HLoad o)).
    assert (hstep s1 (HStep t b q) = Next (hset s1 t (HUse o (h_loc s)))) as H2.
    { simpl. rewrite lookup_insert. change (h_loc s1) with (h_loc s). destruct b; [done|]. by apply N.eqb_neq in H0 as ->. }
    destruct (Huse (hset s1 t (HUse o (h_loc s))) (h_loc s)) as (s5&H5&Hn&Hlen). { simpl. by rewrite lookup_insert. }
    exists 2%nat, s5. split; [lia|]. split_and!; [|done|done].
    cbn [replicate run]. unfold exec. rewrite Hc. fold s1. by rewrite H2, H5.
Qed.

(** Instrumented executions: projection, invariants; and computing happens-before in examples. *)
From stdpp Require Import gmap list numbers.
From Verif Require Import Base InternModel HbSpec HbLib HbModel.
Require Import ZifyBool ZifyNat ZifyN.

Section instrument.
  Context {S L : Type} (step : S -> L -> outcome S) (by_thread : L -> nat -> bool)
    (does : S -> nat -> L -> list act) (looks : S -> nat -> list (mloc * bool)).
  Notation hstep := (hstep step by_thread does looks).
  Notation hevents := (hevents step by_thread does looks).
  Implicit Types (st : S) (s : S * acts) (ls : list (hlabel L)).

  Lemma hstep_grows s l s' : hstep s l = Next s' -> exists x, s'.2 = s.2 ++ x.
  Proof.
    destruct l as [t l|t|t m|t m]; simpl.
    - destruct (by_thread l t); [|done]. destruct (step s.1 l); try done. intros [= <-]. by eexists.
    - intros [= <-]. by eexists.
    - intros [= <-]. by eexists.
    - intros [= <-]. by eexists.
  Qed.
  Lemma hrun_proj ls s s' : run hstep s ls = Some s' -> exists ks, run step s.1 ks = Some s'.1.
  Proof.
    revert s. induction ls as [|l ls IH]; intros s; simpl; [intros [= ->]; by exists []|].
    unfold exec at 1. destruct l as [t l|t|t m|t m]; simpl.
    - destruct (by_thread l t); [|apply IH]. destruct (step s.1 l) as [st| | |] eqn:Hs; try done; [|apply IH..].
      intros (ks&H)%IH. exists (l :: ks). simpl. unfold exec. by rewrite Hs.
    - intros (ks&H)%IH. by exists ks.
    - intros (ks&H)%IH. by exists ks.
    - intros (ks&H)%IH. by exists ks.
  Qed.
  Lemma hrun_none ls s : run hstep s ls = None -> exists ks, run step s.1 ks = None.
  Proof.
    revert s. induction ls as [|l ls IH]; intros s; simpl; [done|].
    unfold exec at 1. destruct l as [t l|t|t m|t m]; simpl; try (intros (ks&H)%IH; by exists ks).
    destruct (by_thread l t); [|apply IH]. destruct (step s.1 l) as [st| | |] eqn:Hs; [|apply IH..|].
    - intros (ks&H)%IH. exists (l :: ks). simpl. unfold exec. by rewrite Hs.
    - intros _. exists [l]. simpl. unfold exec. by rewrite Hs.
  Qed.
  Lemma hrun_lift (th : L -> nat) : (forall l, by_thread l (th l) = true) ->
    forall ks st st' evs, run step st ks = Some st' ->
    exists evs', run hstep (st, evs) ((λ l, HDo (th l) l) <$> ks) = Some (st', evs').
  Proof.
    intros Hth ks. induction ks as [|l ks IH]; intros st st' evs; simpl; [intros [= ->]; by eexists|].
    unfold exec. simpl. rewrite Hth. destruct (step st l); [apply IH|apply IH|apply IH|done].
  Qed.
  Lemma hrun_lift_none (th : L -> nat) : (forall l, by_thread l (th l) = true) ->
    forall ks st evs, run step st ks = None -> run hstep (st, evs) ((λ l, HDo (th l) l) <$> ks) = None.
  Proof.
    intros Hth ks. induction ks as [|l ks IH]; intros st evs; simpl; [done|].
    unfold exec. simpl. rewrite Hth. destruct (step st l); [apply IH|apply IH|apply IH|done].
  Qed.

  (** The states are exactly those of the model. *)
  Lemma hrun_exact (th : L -> nat) st st' : (forall l, by_thread l (th l) = true) ->
    (exists ks, run step st ks = Some st') <-> (exists ls evs, run hstep (st, []) ls = Some (st', evs)).
  Proof.
    intros Hth. split.
    - intros [ls H]. destruct (hrun_lift th Hth ls st st' [] H) as [evs H']. by eexists _, _.
    - intros (ls&evs&H). by apply hrun_proj in H.
  Qed.

  (** Invariants under conditions on the clients that hold of prefixes. *)
  Lemma hrun_inv (C : acts -> Prop) (R : S -> acts -> Prop) st0 :
    (forall evs l, C (evs ++ l) -> C evs) -> R st0 [] ->
    (forall s l s', R s.1 s.2 -> hstep s l = Next s' -> C s'.2 -> R s'.1 s'.2) ->
    forall ls s, run hstep (st0, []) ls = Some s -> C s.2 -> R s.1 s.2.
  Proof.
    intros HC H0 HS ls. induction ls as [|l ls IH] using rev_ind; intros s.
    - intros [= <-]. done.
    - rewrite run_snoc. destruct (run hstep (st0, []) ls) as [s1|]; [|done]. unfold exec.
      destruct (hstep s1 l) as [s2| | |] eqn:Hs; try done; intros [= <-] Hc.
      + pose proof (hstep_grows _ _ _ Hs) as [x Hx]. eapply HS; [|done|done]. apply IH; [done|]. rewrite Hx in Hc. by eapply HC.
      + by apply IH.
      + by apply IH.
  Qed.
  Lemma hrun_events ls st0 s : run hstep (st0, []) ls = Some s -> hevents st0 ls = s.2.
  Proof. intros H. unfold HbModel.hevents. by rewrite H. Qed.
End instrument.

(** ** Happens-before can be computed. *)
Global Instance sobj_eq_dec : EqDecision sobj.
Proof. solve_decision. Defined.
Global Instance mloc_eq_dec : EqDecision mloc.
Proof. solve_decision. Defined.
Definition edgeb (e f : nat * act) : bool :=
  (e.1 =? f.1) || match e.2, f.2 with ARel x, AAcq y => bool_decide (x = y) | _, _ => false end.
Fixpoint reach (R : list (nat * act)) (k : nat) (l : acts) : list nat :=
  match l with
  | [] => []
  | f :: l' => if existsb (λ e, edgeb e f) R then k :: reach (f :: R) (S k) l' else reach R (S k) l'
  end.
Definition hbb (evs : acts) (i j : nat) : bool :=
  match evs !! i with Some e => existsb (Nat.eqb j) (reach [e] (S i) (drop (S i) evs)) | None => false end.

Lemma edgeb_spec e f : edgeb e f = true <-> e.1 = f.1 \/ syncs e.2 f.2.
Proof.
  unfold edgeb. rewrite orb_true_iff, Nat.eqb_eq. destruct e as [t a], f as [u b]. simpl.
  destruct a, b; simpl; rewrite ?bool_decide_eq_true; naive_solver.
Qed.
Lemma hb_inv evs i j : hb evs i j <-> exists m e f, (m = i \/ hb evs i m) /\ m < j /\ evs !! m = Some e /\ evs !! j = Some f /\
  edgeb e f = true.
Proof.
  split.
  - induction 1 as [i j e f Hlt Hi Hj He|i j k H1 IH1 H2 IH2].
    + exists i, e, f. split_and!; try done; [by left|by apply edgeb_spec].
    + destruct IH2 as (m&e&f&[->|Hm]&?&?&?&?); [by exists j, e, f; auto|]. exists m, e, f. split_and!; try done.
      right. by eapply hb_trans.
  - intros (m&e&f&Hm&Hlt&He&Hf&Hx%edgeb_spec). assert (hb evs m j) by (by eapply hb_edge).
    destruct Hm as [->|]; [done|]. by eapply hb_trans.
Qed.
Lemma reach_spec evs i l k R :
  drop k evs = l -> i < k ->
  (forall e, e ∈ R <-> exists n, n < k /\ evs !! n = Some e /\ (n = i \/ hb evs i n)) ->
  forall j, j ∈ reach R k l <-> k <= j /\ hb evs i j.
Proof.
  revert k R. induction l as [|f l IH]; intros k R Hl Hik HR j.
  - simpl. split; [by intros ?%elem_of_nil|]. intros [Hk (m&e&f&_&_&_&Hf&_)%hb_inv]. exfalso.
    apply lookup_lt_Some in Hf. assert (length (drop k evs) = 0) as Hlen by (by rewrite Hl). rewrite drop_length in Hlen. lia.
  - assert (evs !! k = Some f) as Hk.
    { rewrite <- (Nat.add_0_r k), <- lookup_drop, Hl. done. }
    assert (drop (S k) evs = l) as Hl'.
    { rewrite <- Nat.add_1_r, <- drop_drop, Hl. done. }
    assert (existsb (λ e, edgeb e f) R = true <-> hb evs i k) as Hx.
    { rewrite existsb_exists, hb_inv. split.
      - intros (e&He&Hf). apply elem_of_list_In, HR in He as (n&?&?&?). exists n, e, f. naive_solver.
      - intros (m&e&f'&?&?&?&?&?). simplify_eq. exists e. split; [|done]. apply elem_of_list_In, HR. naive_solver. }
    simpl. destruct (existsb _ R).
    + assert (hb evs i k) as Hh by (by apply Hx).
      rewrite elem_of_cons, (IH (S k) (f :: R)); [..|done|lia|].
      * split; [intros [->|[? ?]]; [done|split; [lia|done]]|]. intros [? ?].
        destruct (decide (j = k)) as [->|]; [by left|right; split; [lia|done]].
      * intros e. rewrite elem_of_cons, HR. split.
        -- intros [->|(n&?&?&?)]; [exists k; auto|]. exists n. split; [lia|done].
        -- intros (n&Hn&He&Hor). destruct (decide (n = k)) as [->|]; [left; congruence|]. right. exists n. split; [lia|done].
    + assert (~ hb evs i k) as Hh by (intros H; by apply Hx in H).
      rewrite (IH (S k) R); [..|done|lia|].
      * split; intros [? ?]; (split; [|done]); [lia|]. destruct (decide (j = k)) as [->|]; [done|lia].
      * intros e. rewrite HR. split.
        -- intros (n&?&?&?). exists n. split; [lia|done].
        -- intros (n&Hn&He&Hor). exists n. split; [|done]. destruct (decide (n = k)) as [->|]; [|lia].
           destruct Hor as [->|?]; [lia|done].
Qed.
Lemma hbb_spec evs i j : hbb evs i j = true <-> hb evs i j.
Proof.
  unfold hbb. destruct (evs !! i) as [e|] eqn:He.
  - rewrite existsb_exists.
    assert (forall j, j ∈ reach [e] (S i) (drop (S i) evs) <-> S i <= j /\ hb evs i j) as H.
    { apply reach_spec; [done|lia|]. intros e'. rewrite elem_of_list_singleton. split.
      - intros ->. exists i. split_and!; [lia|done|by left].
      - intros (n&Hn&Hn'&[->|Hh]); [congruence|]. apply hb_lt in Hh. lia. }
    split.
    + intros (n&Hn&->%Nat.eqb_eq). apply elem_of_list_In, H in Hn as [_ ?]. done.
    + intros Hh. exists j. rewrite <- elem_of_list_In, H, Nat.eqb_refl. apply hb_lt in Hh as ?. done.
  - split; [done|]. intros Hh. exfalso. assert (is_Some (evs !! i)) as [? ?]; [|congruence].
    clear He. induction Hh; [by eexists|done].
Qed.
(** Checks for examples. *)
Definition travelb (evs : acts) : bool :=
  forallb (λ j, match evs !! j with
    | Some (_, ARead p) => existsb (λ i, match evs !! i with Some (_, AGot q) => bool_decide (q = p) && hbb evs i j | _ => false end)
                             (seq 0 (length evs))
    | _ => true end) (seq 0 (length evs)).
Lemma travelb_spec evs : travelb evs = true -> handles_travel evs.
Proof.
  intros H j t p Hj. unfold travelb in H. rewrite forallb_forall in H.
  pose proof (lookup_lt_Some _ _ _ Hj) as Hlt. specialize (H j). rewrite in_seq in H. specialize (H ltac:(lia)).
  rewrite Hj in H. apply existsb_exists in H as (i&_&Hi). destruct (evs !! i) as [[u []]|] eqn:Hi'; try done.
  apply andb_true_iff in Hi as [->%bool_decide_eq_true Hh%hbb_spec]. by exists i, u.
Qed.
Definition arenasb (evs : acts) : bool :=
  forallb (λ j, match evs !! j with
    | Some (_, AUse r) => existsb (λ i, match evs !! i with Some (_, AMade r') => (r' =? r) && hbb evs i j | _ => false end)
                             (seq 0 (length evs))
    | _ => true end) (seq 0 (length evs)).
Lemma arenasb_spec evs : arenasb evs = true -> arenas_travel evs.
Proof.
  intros H j t r Hj. unfold arenasb in H. rewrite forallb_forall in H.
  pose proof (lookup_lt_Some _ _ _ Hj) as Hlt. specialize (H j). rewrite in_seq in H. specialize (H ltac:(lia)).
  rewrite Hj in H. apply existsb_exists in H as (i&_&Hi). destruct (evs !! i) as [[u []]|] eqn:Hi'; try done.
  apply andb_true_iff in Hi as [->%Nat.eqb_eq Hh%hbb_spec]. by exists i, u.
Qed.
Definition dropsb (evs : acts) : bool :=
  forallb (λ j, match evs !! j with
    | Some (_, ADrop r) => forallb (λ i, match evs !! i with Some (_, AEnd r') => negb (r' =? r) || hbb evs i j | _ => true end)
                             (seq 0 (length evs))
    | _ => true end) (seq 0 (length evs)).
Lemma dropsb_spec evs : dropsb evs = true -> drops_are_last evs.
Proof.
  intros H i j t u r Hi Hj. unfold dropsb in H. rewrite forallb_forall in H.
  pose proof (lookup_lt_Some _ _ _ Hj) as Hlt. pose proof (lookup_lt_Some _ _ _ Hi) as Hlt'.
  specialize (H j). rewrite in_seq in H. specialize (H ltac:(lia)). rewrite Hj, forallb_forall in H.
  specialize (H i). rewrite in_seq in H. specialize (H ltac:(lia)). rewrite Hi, Nat.eqb_refl in H. by apply hbb_spec.
Qed.
Definition clashb (a b : act) : bool :=
  existsb (λ x, existsb (λ y, bool_decide (x.1 = y.1) && (x.2 || y.2)) (touched b)) (touched a).
Lemma clashb_spec a b : clashb a b = true -> clash a b.
Proof.
  unfold clashb. rewrite existsb_exists. intros ([k w]&Hx&H). apply existsb_exists in H as ([k' w']&Hy&H).
  apply andb_true_iff in H as [H1%bool_decide_eq_true H2]. simpl in *. subst k'. exists k, w, w'.
  by rewrite !elem_of_list_In.
Qed.
Lemma race_at evs i j e f :
  i < j -> evs !! i = Some e -> evs !! j = Some f -> clashb e.2 f.2 = true -> hbb evs i j = false -> data_race evs.
Proof.
  intros Hij He Hf Hc Hh. exists i, j, e, f. split_and!; try done; [by apply clashb_spec|].
  intros H%hbb_spec. congruence.
Qed.

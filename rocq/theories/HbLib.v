(** Happens-before when an action is added. *)
From stdpp Require Import gmap list numbers.
From Verif Require Import Base InternModel HbSpec.
Require Import ZifyBool ZifyNat ZifyN.

Section hb.
  Implicit Types (evs : acts) (e f : nat * act) (P : nat * act -> Prop) (k : mloc).

  Lemma hb_lt evs i j : hb evs i j -> i < j.
  Proof. induction 1; lia. Qed.
  Lemma hb_weaken evs l i j : hb evs i j -> hb (evs ++ l) i j.
  Proof.
    induction 1 as [i j e f Hl Hi Hj He|]; [|by eapply hb_trans].
    eapply hb_edge; [done|by apply lookup_app_l_Some|by apply lookup_app_l_Some|done].
  Qed.
  Lemma hb_strengthen evs l i j : hb (evs ++ l) i j -> j < length evs -> hb evs i j.
  Proof.
    induction 1 as [i j e f Hl Hi Hj He|i j k H1 IH1 H2 IH2]; intros Hlt.
    - rewrite lookup_app_l in Hi by lia. rewrite lookup_app_l in Hj by lia. by eapply hb_edge.
    - pose proof (hb_lt _ _ _ H2). eapply hb_trans; [apply IH1; lia|by apply IH2].
  Qed.

  (** [i] happens before, or is, an event satisfying [P]. *)
  Definition view evs P (i : nat) : Prop :=
    exists j f, (i = j \/ hb evs i j) /\ evs !! j = Some f /\ P f.
  Definition bef e f : Prop := f.1 = e.1 \/ syncs f.2 e.2.
  Definition byt (t : nat) e : Prop := e.1 = t.
  Definition rel (x : sobj) e : Prop := e.2 = ARel x.

  Lemma hb_last evs e i : hb (evs ++ [e]) i (length evs) <-> view evs (bef e) i.
  Proof.
    split.
    - intros H. remember (length evs) as n eqn:Hn. remember (evs ++ [e]) as l eqn:Hl.
      revert Hn. induction H as [i j f g Hlt Hi Hj He|i j k H1 IH1 H2 IH2]; intros ->; subst l.
      + rewrite lookup_app_l in Hi by done. rewrite list_lookup_middle in Hj by done. injection Hj as <-.
        exists i, f. by split; [left|].
      + destruct (IH2 eq_refl) as (j'&f&Hh&Hf&Hb). exists j', f. split; [|done]. right.
        pose proof (lookup_lt_Some _ _ _ Hf) as Hlt. pose proof (hb_lt _ _ _ H2).
        assert (hb evs i j) by (by eapply hb_strengthen).
        destruct Hh as [->|Hh]; [done|]. by eapply hb_trans.
    - intros (j&f&Hh&Hf&Hb).
      assert (hb (evs ++ [e]) j (length evs)) as H1.
      { eapply hb_edge; [by eapply lookup_lt_Some|by apply lookup_app_l_Some|by apply list_lookup_middle|done]. }
      destruct Hh as [->|Hh]; [done|]. eapply hb_trans; [by apply hb_weaken|done].
  Qed.
  Lemma view_app evs l P i : view evs P i -> view (evs ++ l) P i.
  Proof.
    intros (j&f&Hh&Hf&HP). exists j, f. split; [|split; [by apply lookup_app_l_Some|done]].
    destruct Hh as [->|Hh]; [by left|right]. by apply hb_weaken.
  Qed.
  Lemma view_last evs e P i : P e -> i = length evs \/ view evs (bef e) i -> view (evs ++ [e]) P i.
  Proof.
    intros HP Hh. exists (length evs), e. split; [|split; [by apply list_lookup_middle|done]].
    destruct Hh as [->|Hh]; [by left|right]. by apply hb_last.
  Qed.
  Lemma view_imp evs P P' i : (forall e, P e -> P' e) -> view evs P i -> view evs P' i.
  Proof. intros H (j&f&?&?&?). exists j, f. auto. Qed.
  Lemma view_hb evs P i j : hb evs i j -> view evs P j -> view evs P i.
  Proof.
    intros H (j'&f&Hh&Hf&HP). exists j', f. split; [|done]. right. destruct Hh as [<-|Hh]; [done|].
    by eapply hb_trans.
  Qed.

  (** All writes (all accesses) of [k] are in the view [P]. *)
  Definition writes evs k P : Prop := forall i e, evs !! i = Some e -> (k, true) ∈ touched e.2 -> view evs P i.
  Definition accesses evs k P : Prop := forall i e w, evs !! i = Some e -> (k, w) ∈ touched e.2 -> view evs P i.
  (** Nothing has touched [k]. *)
  Definition untouched evs k : Prop := forall i e w, evs !! i = Some e -> (k, w) ∉ touched e.2.

  Lemma accesses_writes evs k P : accesses evs k P -> writes evs k P.
  Proof. intros H i e He Hk. by eapply H. Qed.
  Lemma untouched_accesses evs k P : untouched evs k -> accesses evs k P.
  Proof. intros H i e w He Hk. by edestruct H. Qed.
  Lemma lookup_snoc evs e i f : (evs ++ [e]) !! i = Some f -> evs !! i = Some f \/ i = length evs /\ f = e.
  Proof.
    intros [H|[H1 H2]]%lookup_app_Some; [by left|right]. apply list_lookup_singleton_Some in H2 as [??].
    split; [lia|done].
  Qed.

  (** An action that does not write [k], or one in the view. *)
  Lemma writes_snoc evs e k P :
    writes evs k P -> ((k, true) ∈ touched e.2 -> P e) -> writes (evs ++ [e]) k P.
  Proof.
    intros H He i f [Hf|[-> ->]]%lookup_snoc Hk; [by eapply view_app, H|].
    apply view_last; [by apply He|by left].
  Qed.
  Lemma accesses_snoc evs e k P :
    accesses evs k P -> (forall w, (k, w) ∈ touched e.2 -> P e) -> accesses (evs ++ [e]) k P.
  Proof.
    intros H He i f w [Hf|[-> ->]]%lookup_snoc Hk; [by eapply view_app, H|].
    apply view_last; [by eapply He|by left].
  Qed.
  Lemma untouched_snoc evs e k : untouched evs k -> (forall w, (k, w) ∉ touched e.2) -> untouched (evs ++ [e]) k.
  Proof. intros H He i f w [Hf|[-> ->]]%lookup_snoc; [by eapply H|by apply He]. Qed.
  Lemma view_acq evs t x i : view evs (rel x) i -> view (evs ++ [(t, AAcq x)]) (byt t) i.
  Proof.
    intros H. apply view_last; [done|]. right. eapply view_imp; [|done]. intros [u a] He. right.
    unfold rel in He. simpl in *. by subst.
  Qed.
  Lemma view_rel evs t x i : view evs (byt t) i -> view (evs ++ [(t, ARel x)]) (rel x) i.
  Proof. intros H. apply view_last; [done|]. right. eapply view_imp; [|done]. intros e He. by left. Qed.
  Lemma writes_acq evs t x k : writes evs k (rel x) -> writes (evs ++ [(t, AAcq x)]) k (byt t).
  Proof.
    intros H i f [Hf|[-> ->]]%lookup_snoc Hk; [by eapply view_acq, H|]. by apply elem_of_nil in Hk.
  Qed.
  Lemma accesses_acq evs t x k : accesses evs k (rel x) -> accesses (evs ++ [(t, AAcq x)]) k (byt t).
  Proof.
    intros H i f w [Hf|[-> ->]]%lookup_snoc Hk; [by eapply view_acq, H|]. by apply elem_of_nil in Hk.
  Qed.
  Lemma writes_rel evs t x k : writes evs k (byt t) -> writes (evs ++ [(t, ARel x)]) k (rel x).
  Proof.
    intros H i f [Hf|[-> ->]]%lookup_snoc Hk; [by eapply view_rel, H|]. by apply elem_of_nil in Hk.
  Qed.
  Lemma accesses_rel evs t x k : accesses evs k (byt t) -> accesses (evs ++ [(t, ARel x)]) k (rel x).
  Proof.
    intros H i f w [Hf|[-> ->]]%lookup_snoc Hk; [by eapply view_rel, H|]. by apply elem_of_nil in Hk.
  Qed.

  (** ** Races *)
  Lemma race_free_nil : race_free [].
  Proof. intros i j e f _ H. by rewrite lookup_nil in H. Qed.
  Lemma race_free_snoc evs t a :
    race_free evs ->
    (forall k w, (k, w) ∈ touched a -> accesses evs k (byt t) \/ w = false /\ writes evs k (byt t)) ->
    race_free (evs ++ [(t, a)]).
  Proof.
    intros HR Ha i j e f Hij He Hf Hc.
    apply lookup_snoc in Hf as [Hf|[-> ->]].
    - pose proof (lookup_lt_Some _ _ _ Hf). apply lookup_snoc in He as [He|[-> _]]; [|lia].
      by eapply hb_weaken, HR.
    - apply lookup_snoc in He as [He|[-> _]]; [|lia]. destruct Hc as (k&w&w'&H1&H2&H3). simpl in H2.
      apply hb_last. apply (view_imp _ (byt t)); [intros g Hg; by left|].
      destruct (Ha _ _ H2) as [H|[-> H]]; [by eapply H|]. rewrite orb_false_r in H3. subst w. by eapply H.
  Qed.
  Lemma race_free_quiet evs t a : race_free evs -> touched a = [] -> race_free (evs ++ [(t, a)]).
  Proof. intros HR Ha. apply race_free_snoc; [done|]. rewrite Ha. intros k w H. by apply elem_of_nil in H. Qed.
  Lemma race_free_not evs : race_free evs -> ~ data_race evs.
  Proof. intros H (i&j&e&f&?&?&?&?&Hn). by eapply Hn, H. Qed.

  (** ** Client conditions hold of prefixes *)
  Lemma travel_prefix evs l : handles_travel (evs ++ l) -> handles_travel evs.
  Proof.
    intros H j t p Hj. pose proof (lookup_lt_Some _ _ _ Hj). destruct (H j t p) as (i&u&Hi&Hh); [by apply lookup_app_l_Some|].
    pose proof (hb_lt _ _ _ Hh). rewrite lookup_app_l in Hi by lia. exists i, u. split; [done|]. by eapply hb_strengthen.
  Qed.
  Lemma arenas_prefix evs l : arenas_travel (evs ++ l) -> arenas_travel evs.
  Proof.
    intros H j t r Hj. pose proof (lookup_lt_Some _ _ _ Hj). destruct (H j t r) as (i&u&Hi&Hh); [by apply lookup_app_l_Some|].
    pose proof (hb_lt _ _ _ Hh). rewrite lookup_app_l in Hi by lia. exists i, u. split; [done|]. by eapply hb_strengthen.
  Qed.
  Lemma drops_prefix evs l : drops_are_last (evs ++ l) -> drops_are_last evs.
  Proof.
    intros H i j t u r Hi Hj. pose proof (lookup_lt_Some _ _ _ Hj). eapply hb_strengthen; [|done].
    eapply H; by apply lookup_app_l_Some.
  Qed.
End hb.

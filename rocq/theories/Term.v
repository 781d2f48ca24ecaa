(** Executions in which every step lowers a measure. *)
From stdpp Require Import gmap list numbers.
From Verif Require Import Base InternModel InternInv TermSpec.
Require Import ZifyBool ZifyNat ZifyN.

Lemma lsum_sum {F} (w : F -> nat) k : sum_list (w <$> k) = lsum w k.
Proof. induction k as [|f k IH]; [done|]. rewrite fmap_cons. simpl. by rewrite IH. Qed.
Lemma weigh_msum {F} (w : F -> nat) m : weigh w m = msum (lsum w) m.
Proof.
  unfold weigh, msum. rewrite lsum_sum. unfold map_fold, compose.
  induction (map_to_list m) as [|[t k] l IH]; [done|]. cbn. rewrite lsum_app. cbn in IH. by rewrite <- IH.
Qed.
Lemma lsum_mono {F} (w w' : F -> nat) k : (forall f, w f <= w' f) -> lsum w k <= lsum w' k.
Proof. intros H. induction k as [|f k IH]; simpl; [done|]. specialize (H f). lia. Qed.
Lemma msum_lsum_mono {F} (w w' : F -> nat) m : (forall f, w f <= w' f) -> msum (lsum w) m <= msum (lsum w') m.
Proof.
  intros H. induction m as [|t k m Hm IH] using map_ind; [by rewrite !msum_empty|].
  rewrite !msum_insert_None by done. pose proof (lsum_mono w w' k H). lia.
Qed.
Lemma lsum_const {F} (c : nat) (k : list F) : lsum (λ _, c) k = c * lsum (λ _, 1) k.
Proof. induction k; simpl; lia. Qed.
Lemma msum_const {F} (c : nat) (m : gmap nat (list F)) : msum (lsum (λ _, c)) m = c * msum (lsum (λ _, 1)) m.
Proof.
  induction m as [|t k m Hm IH] using map_ind; [rewrite !msum_empty; lia|].
  rewrite !msum_insert_None, lsum_const by done. lia.
Qed.

(** Replacing the top frame of a stack. *)
Lemma msum_top {F} (w : F -> nat) (m : gmap nat (list F)) t f k fs :
  default [] (m !! t) = f :: k -> lsum w fs < w f -> msum (lsum w) (<[t := fs ++ k]> m) < msum (lsum w) m.
Proof.
  intros Hst Hlt. pose proof (msum_insert_default (lsum w) m t (fs ++ k) [] eq_refl) as Hm.
  rewrite Hst, lsum_app in Hm. change (lsum w (f :: k)) with (w f + lsum w k) in Hm. lia.
Qed.

Section term.
  Context {S L : Type} (step : S -> L -> outcome S) (own : nat -> L -> Prop) (Inv : S -> Prop) (mu : S -> nat).
  Implicit Types (st : S) (s : nat -> L) (x : nat -> S) (t n m : nat) (ls : list L).
  Hypothesis Hinv : forall st t l st', Inv st -> own t l -> step st l = Next st' -> Inv st'.
  Hypothesis Hmu : forall st t l st', Inv st -> own t l -> step st l = Next st' -> mu st' < mu st.

  Lemma taken_le ls st : Inv st -> (forall l, l ∈ ls -> exists t, own t l) -> taken step st ls <= mu st.
  Proof.
    revert st. induction ls as [|l ls IH]; intros st HI Ho; simpl; [lia|].
    assert (forall l', l' ∈ ls -> exists t, own t l') as Ho' by (intros l' Hl; apply Ho; by right).
    destruct (Ho l ltac:(by left)) as [t Ht]. destruct (step st l) as [st'| | |] eqn:Hs; try (by apply IH).
    pose proof (Hmu _ _ _ _ HI Ht Hs). pose proof (IH st' (Hinv _ _ _ _ HI Ht Hs) Ho'). lia.
  Qed.

  Section exec.
    Context (st0 : S) (s : nat -> L) (x : nat -> S).
    Hypothesis Hrun : runs_on step own st0 s x.
    Hypothesis HI0 : Inv st0.

    Lemma on_step n : x (Datatypes.S n) = x n \/ (Inv (x n) -> Inv (x (Datatypes.S n)) /\ mu (x (Datatypes.S n)) < mu (x n)).
    Proof.
      destruct Hrun as [_ Hr]. destruct (Hr n) as [[t Ho] He]. unfold exec in He.
      destruct (step (x n) (s n)) as [st'| | |] eqn:Hs; [|left; congruence..|done].
      injection He as <-. right. intros HI. split; [by eapply Hinv|by eapply Hmu].
    Qed.
    Lemma on_inv n : Inv (x n).
    Proof.
      induction n as [|n IH]; [by destruct Hrun as [-> _]|]. destruct (on_step n) as [->|H]; [done|by apply H].
    Qed.
    Lemma on_mu n m : n <= m -> mu (x m) <= mu (x n).
    Proof.
      induction 1 as [|m Hle IH]; [done|]. destruct (on_step m) as [->|H]; [done|]. pose proof (H (on_inv m)). lia.
    Qed.
    Lemma on_same n m : n <= m -> mu (x m) = mu (x n) -> x m = x n.
    Proof.
      induction 1 as [|m Hle IH]; [done|]. intros Heq. destruct (on_step m) as [He|H].
      - rewrite He in *. by apply IH.
      - pose proof (H (on_inv m)) as [_ ?]. pose proof (on_mu n m Hle). lia.
    Qed.

    Lemma halted n : (forall t, ~ able step own (x n) t) -> forall m, n <= m -> x m = x n.
    Proof.
      intros Hn m Hle. induction Hle as [|m Hle IH]; [done|]. rewrite <- IH. destruct Hrun as [_ Hr].
      destruct (Hr m) as [[t Ho] He]. unfold exec in He.
      destruct (step (x m) (s m)) as [st'| | |] eqn:Hs; try congruence.
      destruct (Hn t). rewrite <- IH. by exists (s m), st'.
    Qed.

    (** A fair execution ends in a state in which nobody can step. *)
    Lemma settles : fair step own s x ->
      (forall st, Inv st -> (exists t, able step own st t) \/ forall t, ~ able step own st t) ->
      exists n, (forall t, ~ able step own (x n) t) /\ forall m, n <= m -> x m = x n.
    Proof.
      intros Hf Hdec. cut (forall b n, mu (x n) = b -> exists n, (forall t, ~ able step own (x n) t)).
      { intros H. destruct (H (mu (x 0)) 0 eq_refl) as [n Hn]. exists n. split; [done|by apply halted]. }
      induction b as [b IH] using lt_wf_ind. intros n Hb.
      destruct (Hdec (x n) (on_inv n)) as [[t Ht]|Hn]; [|by exists n].
      destruct (Hf t n) as (m&Hle&[[Ho Hs]|Hna]).
      - pose proof (Hmu _ _ _ _ (on_inv m) Ho Hs). pose proof (on_mu n m Hle).
        by apply (IH (mu (x (Datatypes.S m))) ltac:(lia) (Datatypes.S m)).
      - destruct (decide (mu (x m) = mu (x n))) as [Heq|Hne].
        + destruct Hna. by rewrite (on_same n m Hle Heq).
        + pose proof (on_mu n m Hle). by apply (IH (mu (x m)) ltac:(lia) m).
    Qed.
    (** What holds of the start and is kept by steps holds at the end. *)
    Lemma kept (P : S -> Prop) n : (forall st t l st', Inv st -> own t l -> step st l = Next st' -> P st -> P st') -> P st0 -> P (x n).
    Proof.
      intros HP H0. induction n as [|n IH]; [by destruct Hrun as [-> _]|]. destruct Hrun as [_ Hr].
      destruct (Hr n) as [[t Ho] He]. unfold exec in He.
      destruct (step (x n) (s n)) as [st'| | |] eqn:Hs; [|congruence..].
      injection He as <-. by eapply HP, IH; [apply on_inv|..].
    Qed.
  End exec.

End term.

Section ended.
  Context {S L : Type} (step : S -> L -> outcome S) (own : nat -> L -> Prop).
  Implicit Types (st : S) (ls : list L).
  (** A list of attempts after which nobody can step is a fair execution. *)
  Definition nth_label (d : L) ls n : L := default d (ls !! n).
  Definition nth_state st ls n : S := default st (run step st (take n ls)).
  Lemma ended st ls d st' : run step st ls = Some st' -> (forall l, l ∈ ls -> exists t, own t l) -> (exists t, own t d) ->
    exec step st' d = Some st' -> (forall t, ~ able step own st' t) ->
    runs_on step own st (nth_label d ls) (nth_state st ls) /\ fair step own (nth_label d ls) (nth_state st ls) /\
    forall n, length ls <= n -> nth_state st ls n = st'.
  Proof.
    intros Hr Ho Hd He Hna.
    assert (forall n, length ls <= n -> nth_state st ls n = st') as Hend.
    { intros n Hn. unfold nth_state. by rewrite take_ge, Hr. }
    split_and!; [|intros t n; exists (n + length ls); split; [lia|right; rewrite Hend by lia; done]|done].
    split; [done|]. intros n. split.
    { unfold nth_label. destruct (ls !! n) as [l|] eqn:Hl; [|done]. apply Ho. by eapply elem_of_list_lookup_2. }
    destruct (ls !! n) as [l|] eqn:Hl.
    - unfold nth_state, nth_label. rewrite Hl. cbn [default from_option id]. rewrite (take_S_r _ _ _ Hl).
      rewrite <- (take_drop_middle _ _ _ Hl) in Hr. rewrite run_app in Hr. rewrite run_app.
      destruct (run step st (take n ls)) as [st1|] eqn:H1; [|done]. cbn in *.
      destruct (exec step st1 l) as [st2|]; [done|]. done.
    - apply lookup_ge_None in Hl as Hge. unfold nth_label. rewrite Hl, !Hend by lia. done.
  Qed.
End ended.

(** What is read through a handle when values have interior mutability. *)
From stdpp Require Import gmap list numbers.
From Verif Require Import Base InternModel InternSpec InternInv InternStep InternLaw InternFinal InternMore
  NewModel NewSpec NewSim NewStep NewFinal MutModel MutSpec MutArc MutIntern MutNew.

Section intern.
  Context {V Q : Type} (E : ienv V Q).
  Implicit Types (st : istate V Q) (v d : V) (p q : iptr).
  Definition holds (objs : gmap nat (iobj V)) p d : Prop :=
    objs !! ip_ser p = Some (IObj (ip_addr p) d true) /\ ip_meta p = ie_meta E d.
  Lemma mi_ret st t o p : MI E st -> EvRet t o (RPtr p) ∈ i_log st -> exists d, holds (i_objs st) p d.
  Proof.
    intros (L&HL&HI&_) Hin. apply HL in Hin. destruct (v_log _ _ HI _ Hin) as (d&Hd&Hm&_). by exists d.
  Qed.
  Lemma holds_read st p d : holds (i_objs st) p d -> iread st p = Some d.
  Proof. intros [H _]. unfold iread. by rewrite H. Qed.
  Lemma holds_same objs p q d d' : holds objs p d -> holds objs q d' -> ip_ser p = ip_ser q -> p = q.
  Proof.
    intros [H1 M1] [H2 M2] Hs. rewrite Hs in H1. rewrite H1 in H2. injection H2 as H3 H4.
    destruct p, q; simpl in *; congruence.
  Qed.
  Lemma mstep_holds st l st' p d : MI E st -> int_mstep E st l = Next st' -> (forall v, l <> MSet (IS p v)) ->
    holds (i_objs st) p d -> holds (i_objs st') p d.
  Proof.
    intros HM Hs Hl Hp. destruct l as [lb|[q w]]; simpl in Hs.
    - destruct HM as (L&HL&HI&_). pose proof (log_step E st L lb HL) as H. rewrite Hs in H. destruct H as (es&_&Hs').
      destruct Hp as [H1 H2].
      destruct (step_points E _ _ _ (ie_ty E d) p d HI Hs') as (G1&G2&_); [by split_and!|]. by split.
    - destruct (returned q (i_log st)) eqn:Hr; [|done]. apply returned_in in Hr as (t&o&Hr).
      destruct (mi_ret _ _ _ _ HM Hr) as [d' Hq].
      destruct (decide (ip_ser p = ip_ser q)) as [He|Hne].
      + destruct (Hl w). by rewrite (holds_same _ _ _ _ _ Hp Hq He).
      + destruct (i_objs st !! ip_ser q) as [x|]; [|done]. destruct (_ && _); [|done]. injection Hs as <-.
        unfold holds. simpl. by rewrite lookup_insert_ne.
  Qed.
  Lemma mrun_holds ls st st' p d : MI E st -> run (int_mstep E) st ls = Some st' -> (forall v, MSet (IS p v) ∉ ls) ->
    holds (i_objs st) p d -> holds (i_objs st') p d.
  Proof.
    revert st. induction ls as [|l ls IH]; intros st HM; simpl; [by intros [= <-]|].
    unfold exec. intros Hr Hl Hp.
    assert (forall v, l <> MSet (IS p v)) as Hl1. { intros v ->. apply (Hl v). by left. }
    assert (forall v, MSet (IS p v) ∉ ls) as Hl2. { intros v Hv. apply (Hl v). by right. }
    destruct (int_mstep E st l) as [st1| | |] eqn:Hs; try done; try (by eapply IH).
    eapply IH; [|done|done|]; [by eapply mstep_ok|by eapply mstep_holds].
  Qed.
  Lemma mreach ls st : run (int_mstep E) iinit ls = Some st -> MI E st.
  Proof. intros Hr. destruct (mrun_ok E ls) as (st'&Hr'&HM). rewrite Hr in Hr'. by injection Hr' as <-. Qed.

  Theorem intern_unstored ls1 ls2 st1 st2 t o p :
    run (int_mstep E) iinit ls1 = Some st1 -> EvRet t o (RPtr p) ∈ i_log st1 ->
    run (int_mstep E) st1 ls2 = Some st2 -> (forall v, MSet (IS p v) ∉ ls2) ->
    exists d, iread st1 p = Some d /\ iread st2 p = Some d.
  Proof.
    intros Hr1 Hin Hr2 Hl. pose proof (mreach _ _ Hr1) as HM. destruct (mi_ret _ _ _ _ HM Hin) as [d Hd].
    exists d. split; apply holds_read; [done|by eapply mrun_holds].
  Qed.
  Theorem intern_last_store ls1 ls2 st1 st2 t o p d v :
    run (int_mstep E) iinit ls1 = Some st1 -> EvRet t o (RPtr p) ∈ i_log st1 ->
    iread st1 p = Some d -> ie_ty E v = ie_ty E d -> ie_meta E v = ie_meta E d ->
    run (int_mstep E) st1 (MSet (IS p v) :: ls2) = Some st2 -> (forall w, MSet (IS p w) ∉ ls2) ->
    iread st2 p = Some v.
  Proof.
    intros Hr1 Hin Hd Ht Hm Hr2 Hl. pose proof (mreach _ _ Hr1) as HM. destruct (mi_ret _ _ _ _ HM Hin) as [d' [Hp Hm']].
    unfold iread in Hd. rewrite Hp in Hd. injection Hd as ->.
    simpl in Hr2. unfold exec in Hr2. destruct (int_mstep E st1 (MSet (IS p v))) as [st'| | |] eqn:Hs.
    2-4: exfalso; simpl in Hs; assert (returned p (i_log st1) = true) as Hret by (apply returned_in; eauto);
      rewrite Hret, Hp in Hs; simpl in Hs; by rewrite Ht, Hm, !Nat.eqb_refl in Hs.
    assert (MI E st') as HM' by (by eapply mstep_ok).
    apply holds_read. eapply mrun_holds; [exact HM'|exact Hr2|done|]. simpl in Hs.
    destruct (returned p (i_log st1)); [|done]. rewrite Hp in Hs. simpl in Hs. destruct (_ && _); [|done]. injection Hs as <-.
    split; [by simpl; rewrite lookup_insert|congruence].
  Qed.
End intern.

Section new.
  Context {V Q : Type} (E : ienv V Q).
  Implicit Types (s : nstate V Q) (v d : V) (p q : iptr).
  Lemma mn_ret s t o p : MN E s -> EvRet t o (RPtr p) ∈ n_log s -> exists d, holds E (n_objs s) p d.
  Proof.
    intros (L&st&HL&HI&_&_&HR) Hin. apply HL in Hin. pose proof (r_base _ _ _ HR) as HR0.
    change L with (n_log (nlogged s L)) in Hin. rewrite <- (r_log _ _ _ HR0) in Hin.
    destruct (v_log _ _ HI _ Hin) as (d&Hd&Hm&_). rewrite (r_objs _ _ _ HR0) in Hd. by exists d.
  Qed.
  Lemma nmstep_holds s l s' p d : MN E s -> new_mstep E s l = Next s' -> (forall v, l <> MSet (IS p v)) ->
    holds E (n_objs s) p d -> holds E (n_objs s') p d.
  Proof.
    intros HM Hs Hl Hp. destruct l as [lb|[q w]]; simpl in Hs.
    - destruct HM as (L&st&HL&HI&_&_&HR). pose proof (nlog_step E s L lb HL) as H. rewrite Hs in H. destruct H as (es&_&Hs').
      destruct (nstep_sim E _ _ _ _ HI HR Hs') as (st'&Hsim&HR'). destruct Hp as [H1 H2].
      pose proof (r_objs _ _ _ (r_base _ _ _ HR)) as O1. pose proof (r_objs _ _ _ (r_base _ _ _ HR')) as O2. simpl in O1, O2.
      destruct (sim_points E _ _ (ie_ty E d) p d HI Hsim) as (G1&G2&_); [split_and!; [by rewrite O1|done|done]|].
      rewrite O2 in G1. by split.
    - destruct (returned q (n_log s)) eqn:Hr; [|done]. apply returned_in in Hr as (t&o&Hr).
      destruct (mn_ret _ _ _ _ HM Hr) as [d' Hq].
      destruct (decide (ip_ser p = ip_ser q)) as [He|Hne].
      + destruct (Hl w). by rewrite (holds_same E _ _ _ _ _ Hp Hq He).
      + destruct (n_objs s !! ip_ser q) as [x|]; [|done]. destruct (_ && _); [|done]. injection Hs as <-.
        unfold holds. simpl. by rewrite lookup_insert_ne.
  Qed.
  Lemma nmrun_holds ls s s' p d : MN E s -> run (new_mstep E) s ls = Some s' -> (forall v, MSet (IS p v) ∉ ls) ->
    holds E (n_objs s) p d -> holds E (n_objs s') p d.
  Proof.
    revert s. induction ls as [|l ls IH]; intros s HM; simpl; [by intros [= <-]|].
    unfold exec. intros Hr Hl Hp.
    assert (forall v, l <> MSet (IS p v)) as Hl1. { intros v ->. apply (Hl v). by left. }
    assert (forall v, MSet (IS p v) ∉ ls) as Hl2. { intros v Hv. apply (Hl v). by right. }
    destruct (new_mstep E s l) as [s1| | |] eqn:Hs; try done; try (by eapply IH).
    eapply IH; [|done|done|]; [by eapply nmstep_ok|by eapply nmstep_holds].
  Qed.
  Lemma nmreach ls s : run (new_mstep E) ninit ls = Some s -> MN E s.
  Proof. intros Hr. destruct (nmrun_ok E ls) as (s'&Hr'&HM). rewrite Hr in Hr'. by injection Hr' as <-. Qed.

  Theorem new_unstored ls1 ls2 s1 s2 t o p :
    run (new_mstep E) ninit ls1 = Some s1 -> EvRet t o (RPtr p) ∈ n_log s1 ->
    run (new_mstep E) s1 ls2 = Some s2 -> (forall v, MSet (IS p v) ∉ ls2) ->
    exists d, iread (nmem s1) p = Some d /\ iread (nmem s2) p = Some d.
  Proof.
    intros Hr1 Hin Hr2 Hl. pose proof (nmreach _ _ Hr1) as HM. destruct (mn_ret _ _ _ _ HM Hin) as [d Hd].
    exists d. split; apply (holds_read E); [done|by eapply nmrun_holds].
  Qed.
  Theorem new_last_store ls1 ls2 s1 s2 t o p d v :
    run (new_mstep E) ninit ls1 = Some s1 -> EvRet t o (RPtr p) ∈ n_log s1 ->
    iread (nmem s1) p = Some d -> ie_ty E v = ie_ty E d -> ie_meta E v = ie_meta E d ->
    run (new_mstep E) s1 (MSet (IS p v) :: ls2) = Some s2 -> (forall w, MSet (IS p w) ∉ ls2) ->
    iread (nmem s2) p = Some v.
  Proof.
    intros Hr1 Hin Hd Ht Hm Hr2 Hl. pose proof (nmreach _ _ Hr1) as HM. destruct (mn_ret _ _ _ _ HM Hin) as [d' [Hp Hm']].
    unfold iread in Hd. simpl in Hd. rewrite Hp in Hd. injection Hd as ->.
    simpl in Hr2. unfold exec in Hr2. destruct (new_mstep E s1 (MSet (IS p v))) as [s'| | |] eqn:Hs.
    2-4: exfalso; simpl in Hs; assert (returned p (n_log s1) = true) as Hret by (apply returned_in; eauto);
      rewrite Hret, Hp in Hs; simpl in Hs; by rewrite Ht, Hm, !Nat.eqb_refl in Hs.
    assert (MN E s') as HM' by (by eapply nmstep_ok).
    apply (holds_read E). eapply nmrun_holds; [exact HM'|exact Hr2|done|]. simpl in Hs.
    destruct (returned p (n_log s1)); [|done]. rewrite Hp in Hs. simpl in Hs. destruct (_ && _); [|done]. injection Hs as <-.
    split; [by simpl; rewrite lookup_insert|congruence].
  Qed.
End new.

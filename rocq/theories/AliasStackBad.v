(** Stacked Borrows, if boxes are retagged on their way into the table: [&*p] is undefined. *)
From stdpp Require Import gmap list numbers.
From Verif Require Import Base InternModel InternSpec InternInv InternStep ArenaModel ArenaSpec ArenaInv ArenaStep ArenaFinal.
From Verif Require Import AliasModel AliasArenaModel AliasTree AliasStack AliasTrack AliasStackArena.
Require Import ZifyBool ZifyNat ZifyN.

(** [i]: the raw pointer is above the Box; [d]: it is not in the stack. *)
Definition bobj_ok (i d : Prop) (x : bobj stacked) : Prop :=
  exists L B, form [] L B x /\ below (bo_next x) (bo_ptr x) /\
    (i -> bo_ptr x ∉ bo_box x :: B) /\ (d -> bo_ptr x ∉ L /\ bo_ptr x ∉ bo_box x :: B).

Lemma s_find_none w t s : (forall y, y ∈ s -> si_tag y <> t) -> s_find w t s = None.
Proof.
  induction s as [|y s IH]; intros H; [done|]. cbn [s_find]. rewrite bool_decide_eq_false_2 by (apply H; by left). simpl.
  rewrite IH; [done|]. intros z Hz. apply H. by right.
Qed.
Lemma new_ne N (t g : tag) : below N g -> g <> N :: t.
Proof. intros Hb ->. specialize (Hb N ltac:(by left)). lia. Qed.

Section ops.
  Context (n m : nat).
  Notation sdo := (b_do stacked n m).
  Lemma bo_new' (i d : Prop) : ~ i -> ~ d -> exists x, b_new stacked = Some x /\ bobj_ok i d x.
  Proof.
    intros Hi Hd. destruct sb_new as (x&Hx&Hf&Hh&Hp). exists x. split; [done|]. exists [], [[]]. split_and!; try done.
    rewrite Hp. eapply form_tags; [done|]. right. by left.
  Qed.
  Lemma bo_look i d x : bobj_ok i d x -> exists x', b_look stacked x = Some x' /\ bobj_ok i d x'.
  Proof.
    intros (L&B&Hf&Hb&Hi&Hd). destruct (sb_look _ _ _ _ Hf) as (x'&Hx&Hf'&(Hbb&Hpp&Hhh&_)&Hn').
    exists x'. split; [done|]. eexists _, _. split_and!; [done| | |].
    - rewrite Hpp, Hn'. eapply below_mono; [|done]. lia.
    - rewrite Hpp, Hbb. done.
    - rewrite Hpp, Hbb. intros HD. destruct (Hd HD) as [H1 H2]. split; [|done].
      rewrite not_elem_of_cons. split; [|done]. by apply new_ne.
  Qed.
  Lemma bo_point i d x : bobj_ok i d x -> exists x', sdo OPoint x = Some x' /\ bobj_ok True False x'.
  Proof.
    intros (L&B&Hf&Hb&_&_). cbn [b_do].
    destruct (sb_pass m L B x Hf) as (x1&x2&B1&H1&H2&Hp2&Hh2&Hn2&_&Hf2&_). rewrite H1, H2.
    destruct (sb_shr _ _ _ x2 (bo_box x2) false Hf2) as (x3&H3&Hf3&(Hb3&Hp3&Hh3&_)&Hn3); [by left|]. rewrite H3.
    eexists. split; [done|]. eexists _, _. split_and!.
    - destruct Hf3 as [(ab&pb&be&Hs&?) ? ?]. split; [by exists ab, pb, be|done|done].
    - simpl. rewrite Hn3. apply below_new. eapply form_tags; [exact Hf2|]. right. by left.
    - intros _. simpl. rewrite Hb3. intros Hin.
      assert (below (bo_next x2) (bo_next x2 :: bo_box x2)) as Hbl.
      { eapply form_tags; [exact Hf2|]. rewrite elem_of_cons in Hin. tauto. }
      specialize (Hbl (bo_next x2) ltac:(by left)). lia.
    - done.
  Qed.
  Lemma bo_insert d x : 1 <= n -> bobj_ok True d x -> exists x', sdo OInsert x = Some x' /\ bobj_ok True True x'.
  Proof.
    intros Hn (L&B&Hf&Hb&Hi&_). cbn [b_do].
    destruct (sb_enter n [] L B x Hf) as (x1&l&B1&H1&Hp1&Hh1&Hn1&Hb1&Hl1&Hf1&Ht1); [by intros t ?%elem_of_nil|].
    rewrite H1. replace (n =? 0) with false in Hf1 by (symmetry; apply Nat.eqb_neq; lia).
    destruct (sb_look _ _ _ _ Hf1) as (x2&H2&Hf2&(Hb2&Hp2&Hh2&_)&Hn2). rewrite H2.
    rewrite <- Hb2 in Hf2. destruct (sb_leave n [] _ _ (bo_box x2) x2 Hf2) as (x3&H3&Hf3&(Hb3&Hp3&Hh3&_)&Hn3). rewrite H3.
    exists x3. split; [done|].
    assert (bo_ptr x3 = bo_ptr x) as Hp by congruence.
    assert (below (bo_next x1) (bo_ptr x)) as Hb' by (eapply below_mono; [|done]; lia).
    assert (bo_ptr x ∉ bo_box x1 :: B1) as Hno.
    { intros Hin. destruct (Ht1 _ Hin) as [Hin'|Hnb]; [|done]. by apply Hi. }
    eexists _, _. split_and!; [done| | |].
    - rewrite Hp. eapply below_mono; [|done]. lia.
    - intros _. by rewrite Hp, Hb3, Hb2.
    - intros _. rewrite Hp, Hb3, Hb2. split; [|done]. rewrite elem_of_list_singleton. by apply new_ne.
  Qed.
  Lemma bo_deref i x : bobj_ok i True x -> sdo ODeref x = None.
  Proof.
    intros (L&B&[(ab&pb&be&Hs&Hro&->&->) _ _]&Hb&_&Hd). destruct (Hd I) as [H1 H2]. cbn [b_do]. unfold b_ref. simpl.
    unfold s_read. rewrite s_find_none; [done|]. rewrite Hs. intros y [Hy|[->|Hy]%elem_of_cons]%elem_of_app He.
    - apply H1. rewrite <- He. apply elem_of_list_fmap. by exists y.
    - apply H2. rewrite <- He. by left.
    - apply H2. right. rewrite <- He. apply elem_of_list_fmap. by exists y.
  Qed.
  Lemma bo_kill i d x : bobj_ok i d x -> exists x', sdo OKill x = Some x'.
  Proof.
    intros (L&B&Hf&_). cbn [b_do]. destruct (sb_pass m L B x Hf) as (x1&x2&B1&H1&H2&Hp2&Hh2&Hn2&_&Hf2&_). rewrite H1, H2.
    destruct (sb_kill _ _ _ Hf2) as (x3&x4&x5&x6&K1&K2&K3&K4). rewrite K1, K2, K3, K4. by exists x6.
  Qed.
End ops.

Section maps.
  Context (n m : nat).
  Implicit Types (g : gmap nat (bobj stacked)) (I D : nat -> Prop).
  Notation app1 := (b_apply stacked n m).
  Notation appn := (b_applys stacked n m).
  Definition ball I D g : Prop := forall s x, g !! s = Some x -> bobj_ok (I s) (D s) x.
  Lemma ok_weak (i d i' d' : Prop) x : bobj_ok i d x -> (i' -> i) -> (d' -> d) -> bobj_ok i' d' x.
  Proof. intros (L&B&?&?&H1&H2) Hi Hd. exists L, B. split_and!; auto. Qed.
  Lemma ball_ext I D I' D' g : ball I D g -> (forall s, is_Some (g !! s) -> (I' s -> I s) /\ (D' s -> D s)) -> ball I' D' g.
  Proof. intros Hg He s x Hx. destruct (He s ltac:(by eexists)). eapply ok_weak; [by apply Hg|done|done]. Qed.
  Lemma ball_put I D I' D' g s x' : ball I D g -> (forall s', s' <> s -> (I' s' -> I s') /\ (D' s' -> D s')) ->
    bobj_ok (I' s) (D' s) x' -> ball I' D' (<[s:=x']> g).
  Proof.
    intros Hg He Hx s1 x1. destruct (decide (s = s1)) as [<-|Hne].
    - rewrite lookup_insert. by intros [= <-].
    - rewrite lookup_insert_ne by done. intros H1. destruct (He s1); [done|]. eapply ok_weak; [by apply Hg|done|done].
  Qed.
  Lemma ba_app ys zs g : appn (ys ++ zs) g = match appn ys g with Some g1 => appn zs g1 | None => None end.
  Proof.
    revert g. induction ys as [|y ys IH]; intros g; [done|]. cbn [app b_applys]. destruct (app1 g y); [apply IH|done].
  Qed.
  Lemma ba_look1 I D g s : ball I D g -> exists g', app1 g (s, OLook) = Some g' /\ ball I D g' /\
    (forall s, is_Some (g' !! s) <-> is_Some (g !! s)).
  Proof.
    intros Hg. unfold b_apply. cbn [fst snd]. destruct (g !! s) as [x|] eqn:Hx; [|by exists g].
    destruct (bo_look _ _ x (Hg s x Hx)) as (x'&Hd&Hx'). cbn [b_do]. rewrite Hd. eexists. split; [done|]. split.
    - eapply ball_put; [done| |done]. done.
    - intros s'. destruct (decide (s = s')) as [<-|]; [|by rewrite lookup_insert_ne].
      rewrite lookup_insert, Hx. split; by eexists.
  Qed.
  Lemma ba_look I D g ps : ball I D g -> exists g', appn (b_at OLook <$> ps) g = Some g' /\ ball I D g' /\
    (forall s, is_Some (g' !! s) <-> is_Some (g !! s)).
  Proof.
    revert g. induction ps as [|p ps IH]; intros g Hg; [by exists g|]. rewrite fmap_cons. cbn [b_applys].
    destruct (ba_look1 I D g (ip_ser p) Hg) as (g1&H1&Hg1&Hd1). unfold b_at at 1. rewrite H1.
    destruct (IH g1 Hg1) as (g2&H2&Hg2&Hd2). exists g2. split_and!; [done|done|]. intros s. by rewrite Hd2.
  Qed.
  Lemma ba_look_opt I D g b : ball I D g -> exists g', appn (b_opt OLook b) g = Some g' /\ ball I D g' /\
    (forall s, is_Some (g' !! s) <-> is_Some (g !! s)).
  Proof.
    intros Hg. destruct b as [p|]; simpl; [|by exists g].
    destruct (ba_look1 I D g (ip_ser p) Hg) as (g1&H1&Hg1). unfold b_at. rewrite H1. by exists g1.
  Qed.
  Lemma ba_point I D I' D' g s : ball I D g -> ~ D' s -> (forall s', s' <> s -> (I' s' -> I s') /\ (D' s' -> D s')) ->
    exists g', app1 g (s, OPoint) = Some g' /\ ball I' D' g'.
  Proof.
    intros Hg Hnd He. unfold b_apply. cbn [fst snd]. destruct (g !! s) as [x|] eqn:Hx.
    - destruct (bo_point n m _ _ x (Hg s x Hx)) as (x'&Hd&Hx'). rewrite Hd.
      eexists. split; [done|]. eapply ball_put; [done|done|]. eapply ok_weak; [done|done|done].
    - eexists. split; [done|]. eapply ball_ext; [done|]. intros s' [x Hx']. apply He. congruence.
  Qed.
  Lemma ba_insert I D I' D' g s : 1 <= n -> ball I D g -> I s -> (forall s', s' <> s -> (I' s' -> I s') /\ (D' s' -> D s')) ->
    exists g', app1 g (s, OInsert) = Some g' /\ ball I' D' g'.
  Proof.
    intros Hn Hg Hi He. unfold b_apply. cbn [fst snd]. destruct (g !! s) as [x|] eqn:Hx.
    - destruct (bo_insert n m (D s) x Hn) as (x'&Hd&Hx').
      { eapply ok_weak; [by apply Hg|done|done]. }
      rewrite Hd. eexists. split; [done|]. eapply ball_put; [done|done|]. eapply ok_weak; [done|done|done].
    - eexists. split; [done|]. eapply ball_ext; [done|]. intros s' [x Hx']. apply He. congruence.
  Qed.
  Lemma ba_alloc I D I' D' g s : ball I D g -> ~ I' s -> ~ D' s -> (forall s', s' <> s -> (I' s' -> I s') /\ (D' s' -> D s')) ->
    exists g', app1 g (s, OAlloc) = Some g' /\ ball I' D' g'.
  Proof.
    intros Hg Hi Hd He. destruct (bo_new' (I' s) (D' s) Hi Hd) as (x&Hx&Ho).
    exists (<[s:=x]> g). split; [|by eapply ball_put]. unfold b_apply. cbn [fst snd]. by rewrite Hx.
  Qed.
  Lemma ba_kill I D I' D' g s : ball I D g -> (forall s', s' <> s -> (I' s' -> I s') /\ (D' s' -> D s')) ->
    exists g', app1 g (s, OKill) = Some g' /\ ball I' D' g'.
  Proof.
    intros Hg He. unfold b_apply. cbn [fst snd]. destruct (g !! s) as [x|] eqn:Hx.
    - destruct (bo_kill n m _ _ x (Hg s x Hx)) as (x'&Hd). rewrite Hd. eexists. split; [done|].
      intros s1 x1. destruct (decide (s = s1)) as [<-|Hne]; [by rewrite lookup_delete|].
      rewrite lookup_delete_ne by done. intros H1. destruct (He s1); [done|]. eapply ok_weak; [by apply Hg|done|done].
    - eexists. split; [done|]. eapply ball_ext; [done|]. intros s' [x Hx']. apply He. congruence.
  Qed.
  Lemma ba_none g s o : o <> OAlloc -> g !! s = None -> app1 g (s, o) = Some g.
  Proof. intros Ho Hx. unfold b_apply. cbn [fst snd]. rewrite Hx. by destruct o. Qed.
  Lemma ba_deref I D g s : ball I D g -> D s -> is_Some (g !! s) -> app1 g (s, ODeref) = None.
  Proof.
    intros Hg Hd [x Hx]. unfold b_apply. cbn [fst snd]. rewrite Hx. rewrite (bo_deref n m (I s)); [done|].
    eapply ok_weak; [by apply Hg|done|done].
  Qed.
End maps.

Section logs.
  Context {V Q : Type} (E : ienv V Q).
  Implicit Types (st : astate V Q) (f : aframe V Q).
  Notation AInv := (AInv E).

  Definition f_ret f : option (nat * iptr) :=
    match f with ARel r _ _ _ (AP p) | AArg r _ _ _ (AP p) => Some (r, p) | _ => None end.
  Definition zsts st r p : Prop := forall t o v, AvIns t r o p v ∈ a_log st -> is_zst E v = true.
  Definition is_ret st r p : Prop :=
    (exists u f, f ∈ a_stack st u /\ f_ret f = Some (r, p)) \/ exists t o b, AvRet t r o b (AP p) ∈ a_log st.
  (** Every box stored that is not zero-sized is still to be dereferenced, and no such one was returned. *)
  Record LI st : Prop := {
    l_stuck : forall t r o p v, AvIns t r o p v ∈ a_log st -> is_zst E v = false ->
      exists u o' b', AMake r o' b' p ∈ a_stack st u;
    l_ret : forall r p, is_ret st r p -> zsts st r p;
  }.
  Lemma li_move st st' t fs fs' k es : LI st -> a_stack st t = fs ++ k ->
    (forall u, a_stack st' u = if decide (t = u) then fs' ++ k else a_stack st u) ->
    a_log st' = es ++ a_log st -> (forall u r o p v, AvIns u r o p v ∉ es) ->
    (forall r o b p, AMake r o b p ∈ fs -> zsts st r p) ->
    (forall r p f, f ∈ fs' -> f_ret f = Some (r, p) -> is_ret st r p \/ zsts st r p) ->
    (forall u r o b p, AvRet u r o b (AP p) ∈ es -> is_ret st r p \/ zsts st r p) -> LI st'.
  Proof.
    intros [H1 H2] Hold Hnew Hlog Hni Hmk Hfs Hes.
    assert (forall u r o p v, AvIns u r o p v ∈ a_log st' -> AvIns u r o p v ∈ a_log st) as Hback.
    { intros u r o p v. rewrite Hlog. intros [Hin|?]%elem_of_app; [by apply Hni in Hin|done]. }
    split.
    - intros u r o p v Hin%Hback Hz. destruct (H1 _ _ _ _ _ Hin Hz) as (u'&o'&b'&Hst). exists u', o', b'. rewrite Hnew.
      destruct (decide (t = u')) as [<-|]; [|done]. rewrite Hold in Hst. apply elem_of_app in Hst as [Hst|Hst].
      + rewrite (Hmk _ _ _ _ Hst _ _ _ Hin) in Hz. done.
      + apply elem_of_app. by right.
    - intros r p Hr. assert (is_ret st r p \/ zsts st r p) as Hr'.
      { destruct Hr as [(u&f&Hf&Hp)|(u&o&b&Hin)].
        - rewrite Hnew in Hf. destruct (decide (t = u)) as [<-|].
          + apply elem_of_app in Hf as [Hf|Hf]; [by eapply Hfs|]. left. left. exists t, f. split; [|done]. rewrite Hold.
            apply elem_of_app. by right.
          + left. left. by exists u, f.
        - rewrite Hlog in Hin. apply elem_of_app in Hin as [Hin|Hin]; [by eapply Hes|]. left. right. by exists u, o, b. }
      assert (zsts st r p) as Hz by (destruct Hr' as [Hr'|?]; [by apply H2|done]).
      intros u o v Hin%Hback. by eapply Hz.
  Qed.
  Lemma ret_set st r p : AInv st -> is_ret st r p -> is_Some (a_arenas st !! r) -> p ∈ a_set st r.
  Proof.
    intros HI [(u&f&Hf&Hp)|(u&o&b&Hin)] [x Hx].
    - pose proof (x_frames _ _ HI u f Hf) as Hok. destruct f as [| | | | | | |r' o b m [q|]|r' o b m [q|]|]; simpl in *; try done;
        simplify_eq; by destruct Hok as (ty&_&_&?&_).
    - apply (x_log _ _ HI) in Hin as (_&Hin&_). rewrite (a_set_some _ _ _ Hx). by apply Hin.
  Qed.
  Lemma owned_not_set st t f k r p : AInv st -> a_stack st t = f :: k -> 1 <= own (ip_ser p) f -> p ∉ a_set st r.
  Proof.
    intros HI Hst Ho Hp. unfold a_set in Hp. destruct (a_arenas st !! r) as [x|] eqn:Hx; [|by apply elem_of_nil in Hp].
    pose proof (x_own _ _ HI (ip_ser p)). pose proof (alive_le st (ip_ser p)). pose proof (asum_ge st r x (ip_ser p) Hx).
    pose proof (cnt_in _ _ Hp). pose proof (msum_astack_ge (own (ip_ser p)) st t) as H'. rewrite Hst in H'. simpl in H'. lia.
  Qed.
  Lemma stuck_no_get st t r o b k u o' b' p : AInv st -> a_stack st t = AGet r o b :: k -> AMake r o' b' p ∈ a_stack st u -> False.
  Proof.
    intros HI Hst Hm. pose proof (x_locks _ _ HI r) as Hl.
    assert (aother st t k (AMake r o' b' p)) as Hoth.
    { destruct (decide (u = t)) as [->|Hne]; [|right; by exists u]. rewrite Hst in Hm. apply elem_of_cons in Hm as [?|?]; [done|by left]. }
    pose proof (aother_sum st t [AGet r o b] k (has_lock r) _ Hst Hoth) as Hs. simpl in Hs. rewrite Nat.eqb_refl in Hs.
    unfold alk in Hl. destruct (a_locks st !! r); lia.
  Qed.
  Lemma set_ins st r p : AInv st -> p ∈ a_set st r -> exists t o v, AvIns t r o p v ∈ a_log st /\ a_read st p = Some v.
  Proof.
    intros HI Hp. unfold a_set in Hp. destruct (a_arenas st !! r) as [x|] eqn:Hx; [|by apply elem_of_nil in Hp].
    destruct (set_pts _ _ _ _ _ HI Hx Hp) as (v&(Hp'&_)&Hs). apply stored_in in Hs as (t&o&Hs). exists t, o, v.
    split; [done|]. unfold a_read. by rewrite Hp'.
  Qed.
  Lemma make_label st l st' t r o b p k r' o' b' m' x' k' : astep E st l = Next st' -> a_stack st t = AMake r o b p :: k ->
    t = default 0 (l_thread l) -> a_stack st' t = ARel r' o' b' m' x' :: k' -> exists a i, l = LStep t a i.
  Proof.
    intros H Hst Ht Hst'. assert (a_ready st t = false) as Hrd by (unfold a_ready; by rewrite Hst).
    destruct l as [t0 ty|t0 r0 o0 a|t0 a i|t0 v|t0|r0 p0|t0 r0]; simpl in *; subst.
    - by rewrite Hrd in H.
    - case_match; [|done]. by rewrite Hrd in H.
    - by eexists _, _.
    - by rewrite Hst in H.
    - unfold a_step_panic in H. by rewrite Hst in H.
    - repeat (case_match; [|done]). simplify_eq. unfold a_stack in *. simpl in Hst'. congruence.
    - case_match; [|done]. by rewrite Hrd in H.
  Qed.
  Lemma li_step st l st' : AInv st -> LI st -> astep E st l = Next st' ->
    (forall t r o b p k v a i, a_stack st t = AMake r o b p :: k -> l = LStep t a i ->
      a_read st p = Some v -> is_zst E v = true) -> LI st'.
  Proof.
    intros HI HL Hs Hz. pose proof Hs as (t&fs&fs'&k&Hst&Hm&(Ht&_)&_)%astep_move_call.
    destruct (amove_ok _ _ _ _ _ _ _ HI Hst Hm) as (es0&Htr&_). pose proof (y_new _ _ _ _ _ _ _ Htr) as Hnew. clear Htr es0.
    assert (forall es, (forall r o b p, AMake r o b p ∈ fs -> zsts st r p) -> a_log st' = es ++ a_log st ->
      (forall u r o p v, AvIns u r o p v ∉ es) ->
      (forall r p f, f ∈ fs' -> f_ret f = Some (r, p) -> is_ret st r p \/ zsts st r p) ->
      (forall u r o b p, AvRet u r o b (AP p) ∈ es -> is_ret st r p \/ zsts st r p) -> LI st') as Hgo.
    { intros es H1 H2 H3 H4 H5. by eapply (li_move st st' t fs fs' k es). }
    clear Hnew.
    assert (forall f r p, f ∈ fs -> f_ret f = Some (r, p) -> is_ret st r p) as Hold.
    { intros f r p Hf Hr. left. exists t, f. split; [|done]. rewrite Hst. apply elem_of_app. by left. }
    destruct Hm.
    all: try match goal with Hf : a_free _ _ _ = Some ?st1 |- _ => pose proof (free_log _ _ _ _ Hf) as Hl1 end.
    all: try match goal with Ha : a_alloc E _ _ _ = Some (?st1, _) |- _ =>
        destruct (a_alloc_spec _ _ _ _ _ _ HI Ha) as (?&_); assert (a_log st1 = a_log st) as Hl1 by (by subst st1) end.
    Local Ltac none Hin := repeat (apply elem_of_cons in Hin as [Hin|Hin]; [try discriminate Hin|]);
      try (by apply elem_of_nil in Hin).
    Local Ltac li Hgo es := apply (Hgo es); clear Hgo;
      [ let Hin := fresh in intros ? ? ? ? Hin; none Hin
      | simpl; try match goal with H : a_log _ = _ |- _ => rewrite H end; done
      | let Hin := fresh in intros ? ? ? ? ? Hin; none Hin
      | let Hin := fresh in let Hr := fresh in intros ? ? ? Hin Hr; none Hin; try (subst; simpl in Hr; discriminate Hr)
      | let Hin := fresh in intros ? ? ? ? ? Hin; none Hin ].
    - li Hgo (@nil (aevent V Q)).
    - li Hgo (@nil (aevent V Q)).
    - li Hgo (@nil (aevent V Q)).
    - (* hit *) li Hgo (@nil (aevent V Q)). subst. simpl in *. simplify_eq. right.
      intros u o' v Hin. destruct (is_zst E v) eqn:Hv; [done|]. exfalso.
      destruct (l_stuck _ HL _ _ _ _ _ Hin Hv) as (u'&o1&b1&Hm). by eapply stuck_no_get.
    - li Hgo (@nil (aevent V Q)).
    - li Hgo (@nil (aevent V Q)).
    - li Hgo (@nil (aevent V Q)).
    - li Hgo (@nil (aevent V Q)).
    - li Hgo [AvFree None q : aevent V Q].
    - li Hgo (@nil (aevent V Q)).
    - (* insert *) clear Hgo. split.
      + intros u r' o' p' v' Hin Hz'. simpl in Hin.
        assert (AMake r o b p ∈ a_stack (a_set_stack (a_event (a_put st (<[r := Ar (ar_ty x) (p :: ar_set x)]> (a_arenas st)))
          (AvIns t r o p v)) t ([AMake r o b p] ++ k)) t) as Htop.
        { rewrite set_stack_get, decide_True by done. by left. }
        apply elem_of_cons in Hin as [[= -> -> -> -> ->]|Hin]; [by eexists t, _, _|].
        destruct (l_stuck _ HL _ _ _ _ _ Hin Hz') as (u'&o1&b1&Hm). exists u', o1, b1.
        rewrite set_stack_get. destruct (decide (t = u')) as [<-|]; [|done]. rewrite Hst in Hm.
        apply elem_of_cons in Hm as [?|Hm]; [done|]. by right.
      + intros r' p' Hr. assert (is_ret st r' p') as Hr'.
        { destruct Hr as [(u&f&Hf&Hp)|(u&o'&b'&Hin)].
          - rewrite set_stack_get in Hf. destruct (decide (t = u)) as [<-|]; [|left; by exists u, f].
            apply elem_of_cons in Hf as [->|Hf]; [done|]. left. exists t, f. split; [|done]. rewrite Hst. by right.
          - simpl in Hin. apply elem_of_cons in Hin as [?|Hin]; [done|]. right. by exists u, o', b'. }
        intros u o' v' Hin. simpl in Hin. apply elem_of_cons in Hin as [[= -> -> -> -> ->]|Hin]; [|by eapply (l_ret _ HL)].
        exfalso. apply (owned_not_set st t (AIns r o b p) k r p HI Hst).
        * simpl. by rewrite Nat.eqb_refl.
        * apply ret_set; [done|done|by eexists].
    - li Hgo (@nil (aevent V Q)).
    - li Hgo [AvFree None p : aevent V Q].
    - li Hgo [AvFree None p : aevent V Q].
    - (* make *)
      assert (zsts st r p) as Hzs.
      { intros u o' v' Hin. pose proof (x_frames _ _ HI t (AMake r o b p)) as Hok. 
        destruct Hok as (ty&(x&Hx&_)&_); [rewrite Hst; by left|].
        apply (x_log _ _ HI) in Hin as (_&_&_&Hin). destruct (Hin x Hx) as (_&Hp&_).
        destruct (make_label _ _ _ t r o b p k r o b false (AP p) k Hs) as (a&i&Hl); [done|done|rewrite set_stack_get; by rewrite decide_True|].
        apply (Hz t r o b p k v' a i); [done|done|]. unfold a_read. by rewrite Hp. }
      apply (Hgo []); clear Hgo.
      + intros r' o' b' p' [= -> -> -> ->]%elem_of_list_singleton. done.
      + done.
      + by intros u r' o' p' v' ?%elem_of_nil.
      + intros r' p' f ->%elem_of_list_singleton [= <- <-]. by right.
      + by intros u r' o' b' p' ?%elem_of_nil.
    - li Hgo (@nil (aevent V Q)). subst. left. apply (Hold (ARel r o b m x)); [by left|]. by destruct x.
    - li Hgo [AvRet t r o (Some p) x; AvFree None p : aevent V Q]. simplify_eq. left.
      by eapply (Hold (AArg r o (Some p) true (AP _))); [left|].
    - li Hgo [AvRet t r o b x : aevent V Q]. simplify_eq. left.
      by eapply (Hold (AArg r o b m (AP _))); [left|].
    - li Hgo [AvFree (Some r) p : aevent V Q].
    - li Hgo [AvGone r : aevent V Q].
    - li Hgo (@nil (aevent V Q)).
    - li Hgo (@nil (aevent V Q)).
    - li Hgo (@nil (aevent V Q)).
    - li Hgo (@nil (aevent V Q)).
    - li Hgo (@nil (aevent V Q)).
    - li Hgo [AvLeak r ps; AvFree (Some r) p : aevent V Q].
    - li Hgo [AvNew (a_nextr st) ty : aevent V Q].
    - li Hgo [AvRead r p v : aevent V Q].
    - li Hgo [AvDrop r : aevent V Q].
  Qed.
End logs.

Section steps.
  Context (n m : nat) (Hn1 : 1 <= n) {V Q : Type} (E : ienv V Q).
  Implicit Types (st : astate V Q) (g : gmap nat (bobj stacked)) (f : aframe V Q).
  Notation AInv := (AInv E).
  Notation appn := (b_applys stacked n m).
  Notation tracks g st := (forall s, there_is stacked g s = tracked E st s).

  Definition inI st s : Prop := exists t r o b p, AIns r o b p ∈ a_stack st t /\ ip_ser p = s.
  Definition inD st s : Prop := exists t r o b p, AMake r o b p ∈ a_stack st t /\ ip_ser p = s.

  Lemma stack_of st st' t k u : a_threads st' = <[t:=k]> (a_threads st) ->
    a_stack st' u = if decide (t = u) then k else a_stack st u.
  Proof.
    intros H. unfold a_stack. rewrite H. destruct (decide (t = u)) as [->|]; [by rewrite lookup_insert|by rewrite lookup_insert_ne].
  Qed.
  Lemma inI_move st st' t fs fs' k s : a_stack st t = fs ++ k -> a_threads st' = <[t:=fs' ++ k]> (a_threads st) ->
    inI st' s -> (exists r o b p, AIns r o b p ∈ fs' /\ ip_ser p = s) \/ inI st s.
  Proof.
    intros Hst Ht (u&r&o&b&p&Hin&Hs). rewrite (stack_of _ _ _ _ _ Ht) in Hin. destruct (decide (t = u)) as [<-|].
    - apply elem_of_app in Hin as [Hin|Hin]; [left; by exists r, o, b, p|]. right. exists t, r, o, b, p. split; [|done].
      rewrite Hst. apply elem_of_app. by right.
    - right. by exists u, r, o, b, p.
  Qed.
  Lemma inD_move st st' t fs fs' k s : a_stack st t = fs ++ k -> a_threads st' = <[t:=fs' ++ k]> (a_threads st) ->
    inD st' s -> (exists r o b p, AMake r o b p ∈ fs' /\ ip_ser p = s) \/ inD st s.
  Proof.
    intros Hst Ht (u&r&o&b&p&Hin&Hs). rewrite (stack_of _ _ _ _ _ Ht) in Hin. destruct (decide (t = u)) as [<-|].
    - apply elem_of_app in Hin as [Hin|Hin]; [left; by exists r, o, b, p|]. right. exists t, r, o, b, p. split; [|done].
      rewrite Hst. apply elem_of_app. by right.
    - right. by exists u, r, o, b, p.
  Qed.
  (** The block a frame is about, if it is in [AIns] or [AMake]. *)
  Definition f_at f : option nat := match f with AIns _ _ _ p | AMake _ _ _ p => Some (ip_ser p) | _ => None end.
  Lemma at_move st st' t fs fs' k s : a_stack st t = fs ++ k -> a_threads st' = <[t:=fs' ++ k]> (a_threads st) ->
    (forall f, f ∈ fs' -> f_at f <> Some s) -> (inI st' s -> inI st s) /\ (inD st' s -> inD st s).
  Proof.
    intros Hst Ht Hf. split; intros Hi.
    - destruct (inI_move _ _ _ _ _ _ _ Hst Ht Hi) as [(r&o&b&p&Hin&<-)|?]; [|done]. by apply Hf in Hin.
    - destruct (inD_move _ _ _ _ _ _ _ Hst Ht Hi) as [(r&o&b&p&Hin&<-)|?]; [|done]. by apply Hf in Hin.
  Qed.
  Lemma next_not_I st s : AInv st -> a_next st <= s -> ~ inI st s.
  Proof.
    intros HI Hs (t&r&o&b&p&Hin&<-). apply (x_frames _ _ HI) in Hin as (ty&v&_&_&(Hp&_)&_). apply (x_fresh _ _ HI) in Hp. lia.
  Qed.
  Lemma next_not_D st s : AInv st -> a_next st <= s -> ~ inD st s.
  Proof. intros HI Hs (t&r&o&b&p&Hin&<-). apply (x_frames _ _ HI) in Hin as (ty&_&_&Hp&_). lia. Qed.
  Lemma own_not_D st t f k s : AInv st -> a_stack st t = f :: k -> 1 <= own s f -> ~ inD st s.
  Proof.
    intros HI Hst Ho (u&r&o&b&p&Hin&<-). apply (x_frames _ _ HI) in Hin as (ty&_&_&_&[[Hp _]|Hp]).
    - by eapply (owned_not_set E st t f k r p).
    - destruct (owned_live _ _ _ _ _ _ HI Hst Ho) as [y Hy]. congruence.
  Qed.
  Lemma hit_absent st g t r o b k p : AInv st -> LI E st -> tracks g st -> a_stack st t = AGet r o b :: k ->
    p ∈ a_set st r -> g !! ip_ser p = None.
  Proof.
    intros HI HL Ht Hst Hp. destruct (g !! ip_ser p) as [x|] eqn:Hx; [|done]. exfalso.
    destruct (set_ins _ _ _ _ HI Hp) as (u&o'&v&Hin&Hr). specialize (Ht (ip_ser p)). unfold there_is, tracked in Ht.
    rewrite Hx in Ht. unfold a_read in Hr. destruct (a_objs st !! ip_ser p) as [y|]; [|done]. simpl in Hr. injection Hr as Hr.
    rewrite Hr in Ht. destruct (l_stuck _ _ HL _ _ _ _ _ Hin) as (u'&o1&b1&Hm); [by destruct (is_zst E v)|].
    by eapply stuck_no_get.
  Qed.
  Lemma read_absent st g r p x : AInv st -> LI E st -> tracks g st -> a_returned r p (a_log st) = true ->
    a_arenas st !! r = Some x -> g !! ip_ser p = None.
  Proof.
    intros HI HL Ht (t&o&b&Hret)%returned_a Hr. destruct (g !! ip_ser p) as [y|] eqn:Hx; [|done]. exfalso.
    assert (is_ret st r p) as Hret' by (right; by exists t, o, b).
    assert (p ∈ a_set st r) as Hp by (apply (ret_set E); [done|done|by eexists]).
    destruct (set_ins _ _ _ _ HI Hp) as (u&o'&v&Hin&Hrd). specialize (Ht (ip_ser p)). unfold there_is, tracked in Ht.
    rewrite Hx in Ht. unfold a_read in Hrd. destruct (a_objs st !! ip_ser p) as [z|]; [|done]. simpl in Hrd. injection Hrd as Hrd.
    rewrite Hrd, (l_ret _ _ HL _ _ Hret' _ _ _ Hin) in Ht. done.
  Qed.
  Lemma absent_zst st g p v : tracks g st -> g !! ip_ser p = None -> a_read st p = Some v -> is_zst E v = true.
  Proof.
    intros Ht Hg Hr. specialize (Ht (ip_ser p)). unfold there_is, tracked in Ht. rewrite Hg in Ht. unfold a_read in Hr.
    destruct (a_objs st !! ip_ser p) as [z|]; [|done]. simpl in Hr. injection Hr as <-. by destruct (is_zst E (ao_val z)).
  Qed.

  (** The step is undefined, or the machines are as they should be; and [&*p] is for zero-sized values only. *)
  Lemma bad_step st g l j st' : AInv st -> LI E st -> tracks g st -> ball (inI st) (inD st) g ->
    astep E st l = Next st' ->
    appn (b_ops E st l j) g = None \/
    (exists g', appn (b_ops E st l j) g = Some g' /\ ball (inI st') (inD st') g') /\
    (forall t r o b p k v a i, a_stack st t = AMake r o b p :: k -> l = LStep t a i ->
      a_read st p = Some v -> is_zst E v = true).
  Proof using Hn1.
    intros HI HL Htr Hg H.
    assert (forall g' st2, ball (inI st) (inD st) g' -> a_threads st2 = a_threads st -> ball (inI st2) (inD st2) g') as Hsame.
    { intros g' st2 Hg' Ht. eapply ball_ext; [done|]. intros s _. unfold inI, inD, a_stack. by rewrite Ht. }
    destruct l as [t ty|t r o a|t a i|t v|t|r p|t r]; cbn [astep b_ops] in *.
    - right. split; [|done]. case_match; [|done]. simplify_eq. exists g. split; [done|]. by apply Hsame.
    - right. split; [|done]. case_match; [|done]. destruct (a_ready st t); [|done].
      assert (forall st2 b, a_threads st2 = <[t:=AWait r o b :: a_stack st t]> (a_threads st) -> ball (inI st2) (inD st2) g) as Hnone.
      { intros st2 b Ht. eapply ball_ext; [done|]. intros s _. apply (at_move st st2 t [] [AWait r o b] (a_stack st t)); [done|done|].
        by intros f ->%elem_of_list_singleton. }
      assert (forall st1 v b p, a_alloc E st a v = Some (st1, p) ->
        exists g', appn (b_alloc E (a_next st) v []) g = Some g' /\
          ball (inI (a_set_stack st1 t (AWait r b (Some p) :: a_stack st t))) (inD (a_set_stack st1 t (AWait r b (Some p) :: a_stack st t))) g') as Hsome.
      { intros st1 v b p Ha. destruct (alloc_threads _ _ _ _ _ _ Ha) as [Ht Hp].
        match goal with |- context [inI ?s2] => set (st2 := s2) end.
        assert (forall s, (inI st2 s -> inI st s) /\ (inD st2 s -> inD st s)) as He.
        { intros s. apply (at_move st st2 t [] [AWait r b (Some p)] (a_stack st t)); [done|unfold st2; simpl; by rewrite Ht|].
          by intros f ->%elem_of_list_singleton. }
        unfold b_alloc. destruct (is_zst E v).
        - exists g. split; [done|]. eapply ball_ext; [done|]. intros s _. apply He.
        - cbn [b_applys]. destruct (ba_alloc n m (inI st) (inD st) (inI st2) (inD st2) g (a_next st) Hg) as (g1&H1&Hg1).
          + intros Hi%He. by apply next_not_I in Hi.
          + intros Hi%He. by apply next_not_D in Hi.
          + intros s _. apply He.
          + rewrite H1. by exists g1. }
      destruct o as [v|w q|v|v].
      + case_match; [|done]. simplify_eq. exists g. split; [done|]. by eapply Hnone.
      + simplify_eq. exists g. split; [done|]. by eapply Hnone.
      + case_match; [|done]. destruct (a_alloc E st a v) as [[st1 p]|] eqn:Ha; [|done]. simplify_eq. by apply (Hsome _ _ _ _ Ha).
      + case_match; [|done]. destruct (a_alloc E st a v) as [[st1 p]|] eqn:Ha; [|done]. simplify_eq. by apply (Hsome _ _ _ _ Ha).
    - unfold a_step_thread in H. destruct (a_stack st t) as [|f k] eqn:Hst; [done|].
      assert (aframe_ok E st f) as Hok by (apply (x_frames _ _ HI t); rewrite Hst; by left).
      assert (forall (A : Prop), A -> (forall r o b p, f <> AMake r o b p) ->
        A /\ (forall t0 r o b p k0 v a0 i0, a_stack st t0 = AMake r o b p :: k0 -> (LStep t a i : alabel V Q) = LStep t0 a0 i0 -> a_read st p = Some v -> is_zst E v = true)) as Hconj.
      { intros A HA Hf. split; [done|]. intros t0 r o b p k0 v a0 i0 Hst' [= -> -> ->] _. rewrite Hst in Hst'. injection Hst' as -> _. by destruct (Hf r o b p). }
      assert (forall g1 fs' st2, ball (inI st) (inD st) g1 -> a_threads st2 = <[t:=fs' ++ k]> (a_threads st) ->
        (forall f', f' ∈ fs' -> f_at f' = None) -> ball (inI st2) (inD st2) g1) as Hplain.
      { intros g1 fs' st2 Hg1 Ht Hfs. eapply ball_ext; [done|]. intros s _. apply (at_move st st2 t [f] fs' k); [done|done|].
        intros f' Hf'. by rewrite (Hfs f' Hf'). }
      assert (forall fs st2 p, a_threads st2 = <[t:=fs ++ k]> (a_threads st) ->
        (forall s f', s <> ip_ser p -> f' ∈ fs -> f_at f' <> Some s) ->
        exists g', appn [b_at OKill p] g = Some g' /\ ball (inI st2) (inD st2) g') as Hkill.
      { intros fs st2 p Ht Hpw. cbn [b_applys]. unfold b_at.
        destruct (ba_kill n m (inI st) (inD st) (inI st2) (inD st2) g (ip_ser p) Hg) as (g1&H1&Hg1).
        - intros s Hne. apply (at_move st st2 t [f] fs k); [done|done|]. intros f' Hf'. by apply Hpw.
        - rewrite H1. by exists g1. }
      destruct f as [r o b|r o b|r w q|r o v b|r o b p|r o b p pn|r o b p|r o b mi x|r o b mi x|r ps].
      + right. apply Hconj; [|done]. case_match; [done|]. simplify_eq. exists g. split; [done|].
        apply (Hplain g [AGet r o b]); [done|done|]. by intros f' ->%elem_of_list_singleton.
      + right. apply Hconj; [|done]. case_match; [|done]. rewrite !ba_app.
        destruct (ba_look n m _ _ _ (a_set st r) Hg) as (g1&H1&Hg1&Hd1). rewrite H1.
        rewrite ba_app. destruct (ba_look_opt n m _ _ _ b Hg1) as (g2&H2&Hg2&Hd2). rewrite H2.
        destruct (ipick _ _) as [p|] eqn:Hpick.
        { simplify_eq. apply ipick_in, a_cands_in in Hpick as [Hp _]. cbn [b_applys]. unfold b_at.
          pose proof (hit_absent _ g _ _ _ _ _ _ HI HL Htr Hst Hp) as Hno.
          rewrite ba_none; [|done|].
          - exists g2. split; [done|]. apply (Hplain g2 [ARel r o b true (AP p)]); [done|done|]. by intros f' ->%elem_of_list_singleton.
          - destruct (g2 !! ip_ser p) eqn:Hx; [|done]. assert (is_Some (g !! ip_ser p)) as Hy.
            { apply Hd1, Hd2. by rewrite Hx. }
            rewrite Hno in Hy. by destruct Hy. }
        destruct o as [v|w q|v|v].
        * simplify_eq. exists g2. split; [done|]. apply (Hplain g2 [AStore r (ANew v) v None]); [done|done|]. by intros f' ->%elem_of_list_singleton.
        * simplify_eq. exists g2. split; [done|]. apply (Hplain g2 [AConv r w q]); [done|done|]. by intros f' ->%elem_of_list_singleton.
        * simplify_eq. exists g2. split; [done|]. apply (Hplain g2 [AStore r (AOwned v) v b]); [done|done|]. by intros f' ->%elem_of_list_singleton.
        * destruct b as [p|]; [|done]. simplify_eq. simpl. unfold b_at.
          match goal with |- context [inI ?s2] => set (st2 := s2) end.
          destruct (ba_point n m (inI st) (inD st) (inI st2) (inD st2) g2 (ip_ser p) Hg2) as (g3&H3&Hg3).
          -- intros Hi. apply (inD_move st st2 t [AGet r (ABox v) (Some p)] [AIns r (ABox v) (Some p) p] k) in Hi; [|done|done].
             destruct Hi as [(?&?&?&?&?%elem_of_list_singleton&_)|Hi]; [done|].
             eapply own_not_D in Hi; [done|done|exact Hst|]. simpl. by rewrite Nat.eqb_refl.
          -- intros s Hne. apply (at_move st st2 t [AGet r (ABox v) (Some p)] [AIns r (ABox v) (Some p) p] k); [done|done|].
             intros f' ->%elem_of_list_singleton. simpl. congruence.
          -- rewrite H3. by exists g3.
      + done.
      + right. apply Hconj; [|done]. destruct b as [q|].
        * destruct (a_free st None q) as [st1|] eqn:Hf; [|done]. simplify_eq. pose proof (free_threads _ _ _ _ Hf) as Ht.
          apply (Hkill [AStore r o v None]); [simpl; by rewrite Ht|]. by intros s f' Hne ->%elem_of_list_singleton.
        * destruct (a_alloc E st a v) as [[st1 p]|] eqn:Ha; [|done]. simplify_eq.
          destruct (alloc_threads _ _ _ _ _ _ Ha) as [Ht Hp].
          match goal with |- context [inI ?s2] => set (st2 := s2) in * end.
          assert (a_threads st2 = <[t:=[AIns r o None p] ++ k]> (a_threads st)) as Ht2 by (unfold st2; simpl; by rewrite Ht).
          assert (forall s, s <> a_next st -> (inI st2 s -> inI st s) /\ (inD st2 s -> inD st s)) as He.
          { intros s Hne. apply (at_move st st2 t [AStore r o v None] [AIns r o None p] k); [done|done|].
            intros f' ->%elem_of_list_singleton. simpl. congruence. }
          unfold b_alloc. destruct (is_zst E v).
          { exists g. split; [done|]. eapply ball_ext; [done|]. intros s Hs. apply He.
            pose proof (tracked_lt E stacked st g s HI Htr Hs). lia. }
          cbn [b_applys].
          destruct (ba_alloc n m (inI st) (inD st) (inI st) (inD st) g (a_next st) Hg) as (g1&H1&Hg1).
          { by apply next_not_I. } { by apply next_not_D. } { done. }
          rewrite H1. destruct (ba_point n m _ _ (inI st2) (inD st2) g1 (a_next st) Hg1) as (g2&H2&Hg2).
          -- intros Hi. apply (inD_move st st2 t [AStore r o v None] [AIns r o None p] k) in Hi; [|done|done].
             destruct Hi as [(?&?&?&?&?%elem_of_list_singleton&_)|Hi]; [done|]. by apply next_not_D in Hi.
          -- done.
          -- rewrite H2. by exists g2.
      + right. apply Hconj; [|done]. rewrite ba_app. destruct (ba_look n m _ _ _ (a_set st r) Hg) as (g1&H1&Hg1&Hd1). rewrite H1.
        cbn [b_applys]. unfold b_at.
        assert (inI st (ip_ser p)) as Hin by (exists t, r, o, b, p; rewrite Hst; split; [by left|done]).
        assert (exists f', a_threads st' = <[t:=[f'] ++ k]> (a_threads st) /\ (f_at f' = Some (ip_ser p) \/ f_at f' = None)) as (f'&Ht2&Hat).
        { repeat case_match; simplify_eq; simpl.
          - eexists. split; [done|]. by left.
          - eexists. split; [done|]. by right. }
        destruct (ba_insert n m (inI st) (inD st) (inI st') (inD st') g1 (ip_ser p) Hn1 Hg1 Hin) as (g2&H2&Hg2).
        { intros s Hne. apply (at_move st st' t [AIns r o b p] [f'] k); [done|done|]. intros f2 ->%elem_of_list_singleton.
          destruct Hat as [->| ->]; congruence. }
        rewrite H2. by exists g2.
      + right. apply Hconj; [|done].
        destruct (a_free st None p) as [st1|] eqn:Hf; [|done]. simplify_eq. pose proof (free_threads _ _ _ _ Hf) as Ht.
        apply (Hkill [if pn then ARel r o b false APanic else AMake r o b p]); [simpl; by rewrite Ht|].
        intros s f' Hne ->%elem_of_list_singleton. destruct pn; simpl; congruence.
      + destruct (a_read st p) as [v|] eqn:Hr; [|done]. simplify_eq. cbn [b_applys]. unfold b_at.
        assert (inD st (ip_ser p)) as Hin by (exists t, r, o, b, p; rewrite Hst; split; [by left|done]).
        destruct (g !! ip_ser p) as [x|] eqn:Hx.
        { left. rewrite (ba_deref n m (inI st) (inD st)); [done|done|done|by eexists]. }
        right. rewrite ba_none by done. split.
        * exists g. split; [done|]. apply (Hplain g [ARel r o b false (AP p)]); [done|done|]. by intros f' ->%elem_of_list_singleton.
        * intros t0 r0 o0 b0 p0 k0 v0 a0 i0 Hst0 [= <- <- <-]. rewrite Hst in Hst0. injection Hst0 as <- <- <- <- <-. intros Hr0.
          by eapply absent_zst.
      + right. apply Hconj; [|done]. simplify_eq. exists g. split; [done|]. apply (Hplain g [AArg r o b mi x]); [done|done|].
        by intros f' ->%elem_of_list_singleton.
      + right. apply Hconj; [|done]. destruct mi; simpl in *.
        * destruct b as [q|]; simpl in *.
          -- destruct (a_free st None q) as [st1|] eqn:Hf; [|done]. simplify_eq. pose proof (free_threads _ _ _ _ Hf) as Ht.
             apply (Hkill []); [simpl; by rewrite Ht|]. by intros s f' Hne ?%elem_of_nil.
          -- simplify_eq. exists g. split; [done|]. apply (Hplain g []); [done|done|]. by intros f' ?%elem_of_nil.
        * simplify_eq. exists g. split; [done|]. apply (Hplain g []); [done|done|]. by intros f' ?%elem_of_nil.
      + right. apply Hconj; [|done]. destruct ps as [|p ps].
        * simplify_eq. exists g. split; [done|]. apply (Hplain g []); [done|done|]. by intros f' ?%elem_of_nil.
        * destruct (a_free st (Some r) p) as [st1|] eqn:Hf; [|done]. simplify_eq. pose proof (free_threads _ _ _ _ Hf) as Ht.
          apply (Hkill [ADead r ps]); [simpl; by rewrite Ht|]. by intros s f' Hne ->%elem_of_list_singleton.
    - right. split; [|done]. destruct (a_stack st t) as [|f k] eqn:Hst; [done|]. destruct f; try done. case_match; [|done]. simplify_eq.
      exists g. split; [done|]. eapply ball_ext; [done|]. intros s _.
      eapply (at_move _ _ t [AConv r w q] [AStore r (ARef w q) v None] k); [done|done|]. by intros f' ->%elem_of_list_singleton.
    - right. split; [|done]. unfold a_step_panic in H. destruct (a_stack st t) as [|f k] eqn:Hst; [done|].
      assert (forall g1 fs' st2, ball (inI st) (inD st) g1 -> a_threads st2 = <[t:=fs' ++ k]> (a_threads st) ->
        (forall f', f' ∈ fs' -> f_at f' = None) -> ball (inI st2) (inD st2) g1) as Hplain.
      { intros g1 fs' st2 Hg1 Ht Hfs. eapply ball_ext; [done|]. intros s _. apply (at_move st st2 t [f] fs' k); [done|done|].
        intros f' Hf'. by rewrite (Hfs f' Hf'). }
      destruct f as [r o b|r o b|r w q|r o v b|r o b p|r o b p pn|r o b p|r o b mi x|r o b mi x|r ps]; try done.
      + rewrite ba_app. destruct (ba_look n m _ _ _ (a_set st r) Hg) as (g1&H1&Hg1&Hd1). rewrite H1.
        destruct (ba_look_opt n m _ _ _ b Hg1) as (g2&H2&Hg2&Hd2). rewrite H2. simplify_eq. exists g2. split; [done|].
        apply (Hplain g2 [ARel r o b true APanic]); [done|done|]. by intros f' ->%elem_of_list_singleton.
      + simplify_eq. exists g. split; [done|].
        apply (Hplain g [ARel r (ARef w q) None false APanic]); [done|done|]. by intros f' ->%elem_of_list_singleton.
      + rewrite ba_app. destruct (ba_look n m _ _ _ (a_set st r) Hg) as (g1&H1&Hg1&Hd1). rewrite H1.
        cbn [b_applys]. unfold b_at.
        assert (inI st (ip_ser p)) as Hin by (exists t, r, o, b, p; rewrite Hst; split; [by left|done]).
        destruct (ba_insert n m (inI st) (inD st) (inI st') (inD st') g1 (ip_ser p) Hn1 Hg1 Hin) as (g2&H2&Hg2).
        { intros s Hne. apply (at_move st st' t [AIns r o b p] [AKill r o b p true] k); [done|by simplify_eq|].
          by intros f2 ->%elem_of_list_singleton. }
        rewrite H2. by exists g2.
      + destruct pn; [done|]. simplify_eq. exists g. split; [done|].
        apply (Hplain g [AKill r o b p true]); [done|done|]. by intros f' ->%elem_of_list_singleton.
      + destruct x; [|done]. case_match; [|done]. simplify_eq. exists g. split; [done|].
        apply (Hplain g [AArg r o b mi APanic]); [done|done|]. by intros f' ->%elem_of_list_singleton.
      + destruct ps as [|p ps]; [done|].
        destruct (a_free st (Some r) p) as [st1|] eqn:Hf; [|done]. simplify_eq. pose proof (free_threads _ _ _ _ Hf) as Ht.
        cbn [b_applys]. unfold b_at.
        match goal with |- context [inI ?s2] => set (st2 := s2) in * end.
        destruct (ba_kill n m (inI st) (inD st) (inI st2) (inD st2) g (ip_ser p) Hg) as (g1&H1&Hg1).
        * intros s Hne. apply (at_move st st2 t [ADead r (p :: ps)] [] k); [done|unfold st2; simpl; by rewrite Ht|]. by intros f' ?%elem_of_nil.
        * rewrite H1. by exists g1.
    - right. split; [|done]. destruct (a_returned r p (a_log st)) eqn:Hret; [|done].
      destruct (a_arenas st !! r) as [x|] eqn:Hx; [|done]. destruct (a_read st p) as [v|] eqn:Hrd; [|done]. simplify_eq.
      cbn [b_applys]. unfold b_at. rewrite ba_none; [|done|by eapply read_absent]. exists g. split; [done|]. by apply Hsame.
    - right. split; [|done]. case_match; [|done]. case_match; [|done]. simplify_eq. exists g. split; [done|].
      eapply ball_ext; [done|]. intros s _. eapply (at_move _ _ t [] [ADead r (ar_set _)] (a_stack st t)); [done|done|].
      by intros f' ->%elem_of_list_singleton.
  Qed.
End steps.

Section runs.
  Context (n m : nat) {V Q : Type} (E : ienv V Q).
  Record binv (bs : bstate stacked (V:=V) (Q:=Q)) : Prop := {
    bi_inv : AInv E (bs_arena bs);
    bi_track : forall s, there_is stacked (bs_objs bs) s = tracked E (bs_arena bs) s;
    bi_all : ball (inI (bs_arena bs)) (inD (bs_arena bs)) (bs_objs bs);
    bi_log : LI E (bs_arena bs);
  }.
  Lemma binv_init : binv binit.
  Proof.
    split; [apply ainv_init|done|by intros s x|]. split.
    - by intros t r o p v ?%elem_of_nil.
    - intros r p _ u o v ?%elem_of_nil. done.
  Qed.
  Lemma binv_step bs l bs' : 1 <= n -> binv bs -> bstep stacked n m E bs l = Next bs' -> binv bs'.
  Proof.
    intros Hn [HI Ht Hg HL] H. pose proof H as H0. unfold bstep in H.
    destruct (astep E (bs_arena bs) l.1) as [st| | |] eqn:Hs; try done.
    destruct (bad_step n m Hn E _ _ l.1 l.2 st HI HL Ht Hg Hs) as [Hb|[(g&Hb&Hg') Hz]]; rewrite Hb in H; [done|].
    simplify_eq. split; simpl.
    - by eapply astep_inv.
    - apply (track_bstep stacked n m E bs (BState st g) l); [done|by apply next_untracked|done].
    - done.
    - by eapply li_step.
  Qed.
  Lemma binv_run ls bs : 1 <= n -> run (bstep stacked n m E) binit ls = Some bs -> binv bs.
  Proof. intros Hn. apply run_inv_weak; [|apply binv_init]. intros s l s'. by apply binv_step. Qed.
  (** A call that is about to execute [&*p] for a stored value that is not zero-sized. *)
  Lemma bad_make ls bs t r o b p k v a i j : 1 <= n -> run (bstep stacked n m E) binit ls = Some bs ->
    a_stack (bs_arena bs) t = AMake r o b p :: k -> a_read (bs_arena bs) p = Some v -> is_zst E v = false ->
    bstep stacked n m E bs (LStep t a i, j) = UB.
  Proof.
    intros Hn [HI Ht Hg HL]%binv_run Hst Hr Hz; [|done]. unfold bstep. cbn [fst snd].
    assert (exists st', astep E (bs_arena bs) (LStep t a i) = Next st') as [st' Hs].
    { simpl. unfold a_step_thread. rewrite Hst, Hr. by eexists. }
    rewrite Hs.
    destruct (bad_step n m Hn E _ _ (LStep t a i) j st' HI HL Ht Hg Hs) as [Hb|[_ Hz']]; [by rewrite Hb|].
    specialize (Hz' t r o b p k v a i Hst eq_refl Hr). congruence.
  Qed.
  Lemma bad_ret ls bs t r o b p t' o' v : 1 <= n -> run (bstep stacked n m E) binit ls = Some bs ->
    AvRet t r o b (AP p) ∈ a_log (bs_arena bs) -> AvIns t' r o' p v ∈ a_log (bs_arena bs) -> is_zst E v = true.
  Proof.
    intros Hn [HI Ht Hg HL]%binv_run Hr Hi; [|done]. eapply (l_ret _ _ HL r p); [|done]. right. by exists t, o, b.
  Qed.
  Lemma arena_run M ls bs : run (bstep M n m E) binit ls = Some bs ->
    run (astep E) ainit (fst <$> ls) = Some (bs_arena bs).
  Proof.
    change (@ainit V Q) with (bs_arena (@binit M V Q)). generalize (@binit M V Q). induction ls as [|l ls IH]; intros bs0 H; simpl in *.
    - congruence.
    - unfold exec, bstep in *. destruct (astep E (bs_arena bs0) l.1) as [st| | |]; try done; [|by apply IH|by apply IH].
      destruct (b_applys _ _ _ _ _) as [g|]; [|done]. by apply IH in H.
  Qed.
  Lemma track_run M ls bs : run (bstep M n m E) binit ls = Some bs ->
    forall s, is_Some (bs_objs bs !! s) <-> exists x, a_objs (bs_arena bs) !! s = Some x /\ is_zst E (ao_val x) = false.
  Proof.
    intros Hr. assert (AInv E (bs_arena bs) /\ forall s, there_is M (bs_objs bs) s = tracked E (bs_arena bs) s) as [_ Ht].
    { revert Hr. apply (run_inv_weak (bstep M n m E) (λ bs, AInv E (bs_arena bs) /\ forall s, there_is M (bs_objs bs) s = tracked E (bs_arena bs) s)).
      - intros s l s' [HI Ht] H. split.
        + unfold bstep in H. destruct (astep E (bs_arena s) l.1) as [st| | |] eqn:Hs; try done. case_match; [|done]. simplify_eq. simpl.
          by eapply astep_inv.
        + apply (track_bstep M n m E s _ l); [done|by apply next_untracked|done].
      - split; [apply ainv_init|done]. }
    intros s. specialize (Ht s). unfold there_is, tracked in Ht. split.
    - intros [x Hx]. rewrite Hx in Ht. destruct (a_objs (bs_arena bs) !! s) as [y|]; [|done]. exists y. split; [done|].
      by destruct (is_zst E (ao_val y)).
    - intros (y&Hy&Hz). rewrite Hy, Hz in Ht. destruct (bs_objs bs !! s); [by eexists|done].
  Qed.
End runs.

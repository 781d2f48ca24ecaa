(** Stacked Borrows, if boxes are not retagged on their way into the table: nothing goes wrong. *)
From stdpp Require Import gmap list numbers.
From Verif Require Import Base InternModel InternSpec InternInv InternStep ArenaModel ArenaSpec ArenaInv ArenaStep ArenaFinal.
From Verif Require Import AliasModel AliasArenaModel AliasTree AliasStack AliasTrack.
Require Import ZifyBool ZifyNat ZifyN.

(** [a]: the raw pointer of the call is still valid. *)
Definition sobj (a : bool) (x : bobj stacked) : Prop :=
  exists L B, form [] L B x /\ (forall h, h ∈ bo_hands x -> h ∈ bo_box x :: L) /\
    (a = true -> bo_ptr x ∈ bo_box x :: L).
Lemma sobj_weak a x : sobj true x -> sobj a x.
Proof. intros (L&B&?&?&H). exists L, B. split_and!; [done..|]. intros _. by apply H. Qed.
(** Before [OPoint] and after it. *)
Definition sgood (pre : bool) (x : bobj stacked) : Prop :=
  if pre then sobj false x /\ bo_hands x = [] else sobj true x.

Section ops.
  Context (m : nat).
  Notation sdo := (b_do stacked 0 m).
  Lemma so_new b : exists x, b_new stacked = Some x /\ sgood b x.
  Proof.
    destruct sb_new as (x&Hx&Hf&Hh&Hp). exists x. split; [done|].
    assert (sobj true x) as Ho.
    { exists [], [[]]. split_and!; [done| |intros _; rewrite Hp; by left]. rewrite Hh. by intros h ?%elem_of_nil. }
    destruct b; [|done]. split; [by apply sobj_weak|done].
  Qed.
  Lemma so_look b x : sgood b x -> exists x', sdo OLook x = Some x' /\ sgood b x'.
  Proof.
    assert (forall a, sobj a x -> exists x', sdo OLook x = Some x' /\ sobj a x' /\ bo_hands x' = bo_hands x) as H.
    { intros a (L&B&Hf&Hh&Hp). destruct (sb_look _ _ _ _ Hf) as (x'&Hx&Hf'&(Hb&Hpp&Hhh&_)&_).
      exists x'. split_and!; [done| |done]. eexists _, _. split_and!; [done| |].
      - rewrite Hb, Hhh. intros h Hin. specialize (Hh h Hin). rewrite !elem_of_cons in *. tauto.
      - rewrite Hb, Hpp. intros Ha. specialize (Hp Ha). rewrite !elem_of_cons in *. tauto. }
    destruct b; simpl.
    - intros [Ho Hh]. destruct (H _ Ho) as (x'&?&?&Hh'). exists x'. split_and!; [done..|congruence].
    - intros Ho. destruct (H _ Ho) as (x'&?&?&Hh'). by exists x'.
  Qed.
  Lemma so_insert b x : sgood b x -> exists x', sdo OInsert x = Some x' /\ sgood b x'.
  Proof.
    intros Ho. destruct (so_look b x Ho) as (x'&Hx&Hg). cbn [b_do b_enter b_leave] in *. rewrite Hx. by exists x'.
  Qed.
  Lemma so_point x : sgood true x -> exists x', sdo OPoint x = Some x' /\ sgood false x'.
  Proof.
    intros [(L&B&Hf&_&_) Hh]. cbn [b_do].
    destruct (sb_pass m L B x Hf) as (x1&x2&B1&H1&H2&Hp2&Hh2&Hn2&_&Hf2&_). rewrite H1, H2.
    destruct (sb_shr _ _ _ x2 (bo_box x2) false Hf2) as (x3&H3&Hf3&(Hb3&Hp3&Hh3&_)&_); [by left|]. rewrite H3.
    eexists. split; [done|]. simpl. eexists _, _. split_and!.
    - destruct Hf3 as [(ab&pb&be&Hs&?) ? ?]. split; [by exists ab, pb, be|done|done].
    - simpl. rewrite Hh3, Hh2, Hh. by intros h ?%elem_of_nil.
    - intros _. simpl. right. by left.
  Qed.
  Lemma so_shr x t : forall a L B, form [] L B x -> (forall h, h ∈ bo_hands x -> h ∈ bo_box x :: L) ->
    (a = true -> bo_ptr x ∈ bo_box x :: L) -> t ∈ bo_box x :: L ->
    exists x' L', b_ref stacked KShr t false x = Some (x', bo_next x :: t) /\ bo_hands x' = bo_hands x /\
      form [] L' B x' /\ (forall h, h ∈ bo_hands x' -> h ∈ bo_box x' :: L') /\
      (a = true -> bo_ptr x' ∈ bo_box x' :: L') /\ bo_next x :: t ∈ bo_box x' :: L'.
  Proof.
    intros a L B Hf Hh Hp Ht. destruct (sb_shr _ _ _ x t false Hf Ht) as (x3&H3&Hf3&(Hb3&Hp3&Hh3&_)&_).
    eexists x3, _. split_and!; [done|done|done| | |right; by left].
    - rewrite Hb3, Hh3. intros h Hin. specialize (Hh h Hin). rewrite !elem_of_cons in *. tauto.
    - rewrite Hb3, Hp3. intros Ha. specialize (Hp Ha). rewrite !elem_of_cons in *. tauto.
  Qed.
  Lemma so_hand a L B x k : form [] L B x -> (forall h, h ∈ bo_hands x -> h ∈ bo_box x :: L) ->
    (a = true -> bo_ptr x ∈ bo_box x :: L) -> k ∈ bo_box x :: L -> sobj a (b_hand stacked x k).
  Proof.
    intros [(ab&pb&be&Hs&?) ? ?] Hh Hp Hk. exists L, B. split_and!.
    - split; [by exists ab, pb, be|done|done].
    - simpl. intros h [Hin| ->%elem_of_list_singleton]%elem_of_app; [by apply Hh|done].
    - done.
  Qed.
  Lemma so_deref x : sgood false x -> exists x', sdo ODeref x = Some x' /\ sgood false x'.
  Proof.
    intros (L&B&Hf&Hh&Hp). cbn [b_do].
    destruct (so_shr x (bo_ptr x) true L B Hf Hh Hp) as (x'&L'&H1&_&Hf'&Hh'&Hp'&Hk); [by apply Hp|]. rewrite H1.
    eexists. split; [done|]. by eapply so_hand.
  Qed.
  Lemma so_hit x : sgood false x -> exists x', sdo OHit x = Some x' /\ sgood false x'.
  Proof.
    intros (L&B&Hf&Hh&Hp). cbn [b_do].
    destruct (so_shr x (bo_box x) true L B Hf Hh Hp) as (x'&L'&H1&_&Hf'&Hh'&Hp'&Hk); [by left|]. rewrite H1.
    destruct (so_shr x' _ true _ _ Hf' Hh' Hp' Hk) as (x2&L2&H2&_&Hf2&Hh2&Hp2&Hk2). rewrite H2.
    eexists. split; [done|]. by eapply so_hand.
  Qed.
  Lemma so_use b j x : sgood b x -> exists x', sdo (OUse j) x = Some x' /\ sgood b x'.
  Proof.
    cbn [b_do]. intros Ho. destruct (bo_hands x !! _) as [k|] eqn:Hk; [|by exists x].
    apply elem_of_list_lookup_2 in Hk. destruct b; simpl in Ho.
    { destruct Ho as [_ Hh]. rewrite Hh in Hk. by apply elem_of_nil in Hk. }
    destruct Ho as (L&B&Hf&Hh&Hp).
    destruct (sb_shr _ _ _ x k true Hf (Hh k Hk)) as (x1&H1&Hf1&Hk1&Hn1). rewrite H1.
    assert (bo_next x :: k ∈ bo_box x1 :: (bo_next x :: k) :: L) as Hin by (right; by left).
    rewrite (sb_read _ _ _ x1 _ Hf1 Hin). destruct (sb_end _ _ _ x1 _ Hf1) as (x2&H2&Hf2&Hk2&Hn2).
    rewrite H2. eexists. split; [done|]. destruct (kept_trans _ _ _ Hk1 Hk2) as (Hb&Hpp&Hhh&_).
    eapply so_hand; [done| | |].
    - rewrite Hb, Hhh. intros h Hi. specialize (Hh h Hi). rewrite !elem_of_cons in *. tauto.
    - rewrite Hb, Hpp. intros Ha. specialize (Hp Ha). rewrite !elem_of_cons in *. tauto.
    - destruct Hk2 as (Hb2&_). by rewrite Hb2.
  Qed.
  Lemma so_kill b x : sgood b x -> exists x', sdo OKill x = Some x'.
  Proof.
    intros Ho. assert (exists L B, form [] L B x) as (L&B&Hf).
    { destruct b; [destruct Ho as [(L&B&Hf&_) _]|destruct Ho as (L&B&Hf&_)]; by exists L, B. }
    cbn [b_do]. destruct (sb_pass m L B x Hf) as (x1&x2&B1&H1&H2&Hp2&Hh2&Hn2&_&Hf2&_). rewrite H1, H2.
    destruct (sb_kill _ _ _ Hf2) as (x3&x4&x5&x6&K1&K2&K3&K4). rewrite K1, K2, K3, K4. by exists x6.
  Qed.
End ops.

Section maps.
  Context (m : nat).
  Implicit Types (g : gmap nat (bobj stacked)).
  Notation app1 := (b_apply stacked 0 m).
  Notation appn := (b_applys stacked 0 m).
  Definition sall (P : nat -> bool) g : Prop := forall s x, g !! s = Some x -> sgood (P s) x.
  Lemma sall_ext P P' g : sall P g -> (forall s, is_Some (g !! s) -> P s = P' s) -> sall P' g.
  Proof. intros Hg He s x Hx. rewrite <- He by by eexists. by apply Hg. Qed.
  Lemma sall_put P P' g s x' : sall P g -> (forall s', s' <> s -> P s' = P' s') -> sgood (P' s) x' -> sall P' (<[s:=x']> g).
  Proof.
    intros Hg He Hx s1 x1. destruct (decide (s = s1)) as [<-|Hne].
    - rewrite lookup_insert. by intros [= <-].
    - rewrite lookup_insert_ne by done. intros H1. rewrite <- He by done. by apply Hg.
  Qed.
  Lemma sa_app ys zs g : appn (ys ++ zs) g = match appn ys g with Some g1 => appn zs g1 | None => None end.
  Proof.
    revert g. induction ys as [|y ys IH]; intros g; [done|]. cbn [app b_applys]. destruct (app1 g y); [apply IH|done].
  Qed.
  Definition keeps (o : bop) (b : bool) : Prop :=
    match o with OLook | OInsert | OUse _ => True | ODeref | OHit => b = false | _ => False end.
  Lemma sa_keep P g s o : sall P g -> keeps o (P s) -> exists g', app1 g (s, o) = Some g' /\ sall P g'.
  Proof.
    intros Hg Hk. unfold b_apply. cbn [fst snd]. destruct (g !! s) as [x|] eqn:Hx.
    2:{ destruct o; try done; by exists g. }
    assert (exists x', b_do stacked 0 m o x = Some x' /\ sgood (P s) x') as (x'&Hd&Hx').
    { specialize (Hg s x Hx). destruct o; simpl in Hk; try done;
        try (rewrite Hk in *); [by apply so_look|by apply so_insert|by apply so_deref|by apply so_hit|by apply so_use]. }
    destruct o; try done; rewrite Hd; eexists; (split; [done|]); by eapply sall_put.
  Qed.
  Lemma sa_look P g ps : sall P g -> exists g', appn (b_at OLook <$> ps) g = Some g' /\ sall P g'.
  Proof.
    revert g. induction ps as [|p ps IH]; intros g Hg; [by exists g|]. rewrite fmap_cons. cbn [b_applys].
    destruct (sa_keep P g (ip_ser p) OLook Hg I) as (g1&H1&Hg1). unfold b_at at 1. rewrite H1. by apply IH.
  Qed.
  Lemma sa_look_opt P g b : sall P g -> exists g', appn (b_opt OLook b) g = Some g' /\ sall P g'.
  Proof.
    intros Hg. destruct b as [p|]; simpl; [|by exists g].
    destruct (sa_keep P g (ip_ser p) OLook Hg I) as (g1&H1&Hg1). unfold b_at. rewrite H1. by exists g1.
  Qed.
  Lemma sa_point P P' g s : sall P g -> P s = true -> P' s = false -> (forall s', s' <> s -> P s' = P' s') ->
    exists g', app1 g (s, OPoint) = Some g' /\ sall P' g'.
  Proof.
    intros Hg Hp Hp' He. unfold b_apply. cbn [fst snd]. destruct (g !! s) as [x|] eqn:Hx.
    - pose proof (Hg s x Hx) as Ho. rewrite Hp in Ho. destruct (so_point m x Ho) as (x'&Hd&Hx'). rewrite Hd.
      eexists. split; [done|]. eapply sall_put; [done..|]. by rewrite Hp'.
    - eexists. split; [done|]. eapply sall_ext; [done|]. intros s' [x Hx']. apply He. congruence.
  Qed.
  Lemma sa_alloc P P' g s : sall P g -> (forall s', s' <> s -> P s' = P' s') ->
    exists g', app1 g (s, OAlloc) = Some g' /\ sall P' g'.
  Proof.
    intros Hg He. destruct (so_new (P' s)) as (x&Hx&Ho). exists (<[s:=x]> g). split; [|by eapply sall_put].
    unfold b_apply. cbn [fst snd]. by rewrite Hx.
  Qed.
  Lemma sa_kill P P' g s : sall P g -> (forall s', s' <> s -> P s' = P' s') ->
    exists g', app1 g (s, OKill) = Some g' /\ sall P' g'.
  Proof.
    intros Hg He. unfold b_apply. cbn [fst snd]. destruct (g !! s) as [x|] eqn:Hx.
    - destruct (so_kill m _ x (Hg s x Hx)) as (x'&Hd). rewrite Hd. eexists. split; [done|].
      intros s1 x1. destruct (decide (s = s1)) as [<-|Hne]; [by rewrite lookup_delete|].
      rewrite lookup_delete_ne by done. rewrite <- He by done. apply Hg.
    - eexists. split; [done|]. eapply sall_ext; [done|]. intros s' [x Hx']. apply He. congruence.
  Qed.
End maps.

Section steps.
  Context (m : nat) {V Q : Type} (E : ienv V Q).
  Implicit Types (st : astate V Q) (g : gmap nat (bobj stacked)) (f : aframe V Q).
  Notation AInv := (AInv E).
  Notation appn := (b_applys stacked 0 m).

  (** Boxes of calls that have not yet taken the raw pointer. *)
  Definition pw (s : nat) f : nat :=
    match f with
    | AWait _ _ b | AGet _ _ b | AStore _ _ _ b => box_is s b
    | ARel _ _ b mi _ | AArg _ _ b mi _ => if mi then box_is s b else 0
    | _ => 0
    end.
  Definition pre st s : bool := 1 <=? msum (lsum (pw s)) (a_threads st).

  Lemma pw_own s f : pw s f <= own s f.
  Proof. destruct f; simpl; lia. Qed.
  Lemma pre_own st s : msum (lsum (pw s)) (a_threads st) <= msum (lsum (own s)) (a_threads st).
  Proof. apply msum_lsum_le. intros f. apply pw_own. Qed.
  Lemma set_not_pre st r p : AInv st -> p ∈ a_set st r -> pre st (ip_ser p) = false.
  Proof.
    intros HI Hp. unfold a_set in Hp. destruct (a_arenas st !! r) as [x|] eqn:Hx; [|by apply elem_of_nil in Hp].
    pose proof (x_own _ _ HI (ip_ser p)). pose proof (alive_le st (ip_ser p)). pose proof (asum_ge st r x (ip_ser p) Hx).
    pose proof (cnt_in _ _ Hp). pose proof (pre_own st (ip_ser p)). unfold pre. lia.
  Qed.
  (** A frame that owns [s] and is not one of those. *)
  Lemma own_not_pre st t f k s : AInv st -> a_stack st t = f :: k -> pw s f = 0 -> 1 <= own s f -> pre st s = false.
  Proof.
    intros HI Hst Hp Ho. pose proof (x_own _ _ HI s). pose proof (alive_le st s).
    unfold pre. enough (msum (lsum (pw s)) (a_threads st) + 1 <= msum (lsum (own s)) (a_threads st)) by lia.
    pose proof (msum_astack (pw s) st t k) as H1. pose proof (msum_astack (own s) st t k) as H2. rewrite Hst in H1, H2. simpl in *.
    pose proof (msum_lsum_le (pw s) (own s) (<[t:=k]> (a_threads st)) (pw_own s)). lia.
  Qed.
  Lemma own_pre st t f k s : a_stack st t = f :: k -> 1 <= pw s f -> pre st s = true.
  Proof.
    intros Hst Hp. pose proof (msum_astack_ge (pw s) st t) as H. rewrite Hst in H. simpl in H. unfold pre. lia.
  Qed.
  (** Only the top frame changes. *)
  Lemma pre_same st st' t fs fs' k s : a_stack st t = fs ++ k -> a_threads st' = <[t:=fs' ++ k]> (a_threads st) ->
    lsum (pw s) fs = lsum (pw s) fs' -> pre st s = pre st' s.
  Proof.
    intros Hst Ht Hs. unfold pre. rewrite Ht. pose proof (msum_astack (pw s) st t (fs' ++ k)) as H. rewrite Hst, !lsum_app in H.
    f_equal. lia.
  Qed.
  Lemma pre_same1 st st' t f f' k s : a_stack st t = f :: k -> a_threads st' = <[t:=f' :: k]> (a_threads st) ->
    pw s f = pw s f' -> pre st s = pre st' s.
  Proof. intros H1 H2 H3. apply (pre_same st st' t [f] [f'] k s H1 H2). simpl. lia. Qed.
  Lemma pre_pop st st' t f k s : a_stack st t = f :: k -> a_threads st' = <[t:=k]> (a_threads st) ->
    pw s f = 0 -> pre st s = pre st' s.
  Proof. intros H1 H2 H3. apply (pre_same st st' t [f] [] k s H1 H2). simpl. lia. Qed.
  Lemma pre_push st st' t f s : a_threads st' = <[t:=f :: a_stack st t]> (a_threads st) ->
    pw s f = 0 -> pre st s = pre st' s.
  Proof. intros H2 H3. apply (pre_same st st' t [] [f] _ s eq_refl H2). simpl. lia. Qed.
  (** [s] leaves the calls. *)
  Lemma pre_gone st st' t f f' k s : AInv st -> a_stack st t = f :: k -> a_threads st' = <[t:=f' :: k]> (a_threads st) ->
    1 <= own s f -> pw s f' = 0 -> pre st' s = false.
  Proof.
    intros HI Hst Ht Ho Hf. pose proof (x_own _ _ HI s). pose proof (alive_le st s).
    pose proof (msum_astack (pw s) st t (f' :: k)) as H1. pose proof (msum_astack (own s) st t k) as H2.
    pose proof (msum_astack (pw s) st t k) as H3. rewrite Hst in H1, H2, H3. simpl in *.
    pose proof (msum_lsum_le (pw s) (own s) (<[t:=k]> (a_threads st)) (pw_own s)). unfold pre. rewrite Ht. lia.
  Qed.
  Lemma free_threads st w p st1 : a_free st w p = Some st1 -> a_threads st1 = a_threads st.
  Proof. unfold a_free. destruct (a_objs st !! ip_ser p); [|done]. by intros [= <-]. Qed.
  Lemma alloc_threads st a v st1 p : a_alloc E st a v = Some (st1, p) -> a_threads st1 = a_threads st /\ ip_ser p = a_next st.
  Proof. unfold a_alloc. case_match; [|done]. by intros [= <- <-]. Qed.

  Lemma sb_step st g l j st' : AInv st -> sall (pre st) g -> (forall s, is_Some (g !! s) -> s < a_next st) ->
    astep E st l = Next st' -> exists g', appn (b_ops E st l j) g = Some g' /\ sall (pre st') g'.
  Proof.
    intros HI Hg Hlt H. destruct l as [t ty|t r o a|t a i|t v|t|r p|t r]; cbn [astep b_ops] in *.
    - case_match; [|done]. simplify_eq. by exists g.
    - case_match; [|done]. destruct (a_ready st t); [|done].
      assert (forall st2 k, a_threads st2 = <[t:=AWait r o None :: a_stack st t]> (a_threads st) -> k = g ->
        sall (pre st2) k) as Hnone.
      { intros st2 ? Ht ->. eapply sall_ext; [done|]. intros s _. by eapply pre_push. }
      assert (forall st1 v b p, a_alloc E st a v = Some (st1, p) ->
        exists g', appn (b_alloc E (a_next st) v []) g = Some g' /\ sall (pre (a_set_stack st1 t (AWait r b (Some p) :: a_stack st t))) g') as Hsome.
      { intros st1 v b p Ha. destruct (alloc_threads _ _ _ _ _ Ha) as [Ht Hp].
        assert (forall s, s <> a_next st -> pre st s = pre (a_set_stack st1 t (AWait r b (Some p) :: a_stack st t)) s) as He.
        { intros s Hne. eapply pre_push; [simpl; by rewrite Ht|]. simpl. rewrite Hp.
          apply Nat.eqb_neq in Hne. rewrite Nat.eqb_sym, Hne. done. }
        unfold b_alloc. destruct (is_zst E v).
        - exists g. split; [done|]. eapply sall_ext; [done|]. intros s Hs. apply He. apply Hlt in Hs. lia.
        - cbn [b_applys]. destruct (sa_alloc m _ _ g (a_next st) Hg He) as (g1&H1&Hg1). rewrite H1. by exists g1. }
      destruct o as [v|w q|v|v].
      + case_match; [|done]. simplify_eq. exists g. split; [done|]. by apply Hnone.
      + simplify_eq. exists g. split; [done|]. by apply Hnone.
      + case_match; [|done]. destruct (a_alloc E st a v) as [[st1 p]|] eqn:Ha; [|done]. simplify_eq. by apply (Hsome _ _ _ _ Ha).
      + case_match; [|done]. destruct (a_alloc E st a v) as [[st1 p]|] eqn:Ha; [|done]. simplify_eq. by apply (Hsome _ _ _ _ Ha).
    - unfold a_step_thread in H. destruct (a_stack st t) as [|f k] eqn:Hst; [done|].
      assert (aframe_ok E st f) as Hok by (apply (x_frames _ _ HI t); rewrite Hst; by left).
      (* a step that only changes the frame *)
      assert (forall g1 f' st2, sall (pre st) g1 -> a_threads st2 = <[t:=f' :: k]> (a_threads st) ->
        (forall s, pw s f = pw s f') -> sall (pre st2) g1) as Hplain.
      { intros g1 f' st2 Hg1 Ht Hpw. eapply sall_ext; [done|]. intros s _. eapply pre_same1; [done|done|].
        simpl. by rewrite Hpw. }
      (* a step that frees p *)
      assert (forall fs st2 p, a_threads st2 = <[t:=fs ++ k]> (a_threads st) ->
        (forall s, s <> ip_ser p -> pw s f = lsum (pw s) fs) ->
        exists g', appn [b_at OKill p] g = Some g' /\ sall (pre st2) g') as Hkill.
      { intros fs st2 p Ht Hpw. cbn [b_applys]. unfold b_at.
        destruct (sa_kill m (pre st) (pre st2) g (ip_ser p) Hg) as (g1&H1&Hg1).
        - intros s Hne. eapply (pre_same _ _ t [f] fs k); [done|done|]. simpl. rewrite (Hpw s) by done. lia.
        - rewrite H1. by exists g1. }
      destruct f as [r o b|r o b|r w q|r o v b|r o b p|r o b p pn|r o b p|r o b mi x|r o b mi x|r ps].
      + case_match; [done|]. simplify_eq. exists g. split; [done|]. by eapply Hplain.
      + case_match; [|done]. rewrite !sa_app. destruct (sa_look m _ _ (a_set st r) Hg) as (g1&H1&Hg1). rewrite H1.
        rewrite sa_app. destruct (sa_look_opt m _ _ b Hg1) as (g2&H2&Hg2). rewrite H2.
        destruct (ipick _ _) as [p|] eqn:Hpick.
        { simplify_eq. apply ipick_in, a_cands_in in Hpick as [Hp _]. cbn [b_applys]. unfold b_at.
          destruct (sa_keep m _ _ (ip_ser p) OHit Hg2) as (g3&H3&Hg3); [by apply (set_not_pre st r)|]. rewrite H3.
          exists g3. split; [done|]. by eapply Hplain. }
        destruct o as [v|w q|v|v].
        * simplify_eq. exists g2. split; [done|]. eapply Hplain; [done|done|]. intros s. simpl.
          destruct Hok as (ty&_&_&Hb). simpl in Hb. by subst b.
        * simplify_eq. exists g2. split; [done|]. eapply Hplain; [done|done|]. intros s. simpl.
          destruct Hok as (ty&_&_&Hb). simpl in Hb. by subst b.
        * simplify_eq. exists g2. split; [done|]. by eapply Hplain.
        * destruct b as [p|]; [|done]. simplify_eq. simpl. unfold b_at.
          match goal with |- context [pre ?s2] => set (st2 := s2) end.
          destruct (sa_point m (pre st) (pre st2) g2 (ip_ser p) Hg2) as (g3&H3&Hg3).
          -- eapply own_pre; [done|]. simpl. by rewrite Nat.eqb_refl.
          -- eapply pre_gone; [done|done|done| |done]. simpl. by rewrite Nat.eqb_refl.
          -- intros s Hne. eapply pre_same1; [done|done|]. simpl. apply Nat.eqb_neq in Hne.
             by rewrite Nat.eqb_sym, Hne.
          -- rewrite H3. by exists g3.
      + done.
      + destruct b as [q|].
        * destruct (a_free st None q) as [st1|] eqn:Hf; [|done]. simplify_eq. pose proof (free_threads _ _ _ _ Hf) as Ht.
          apply (Hkill [AStore r o v None]); [simpl; by rewrite Ht|]. intros s Hne. simpl. apply Nat.eqb_neq in Hne. by rewrite Nat.eqb_sym, Hne.
        * destruct (a_alloc E st a v) as [[st1 p]|] eqn:Ha; [|done]. simplify_eq.
          destruct (alloc_threads _ _ _ _ _ Ha) as [Ht Hp]. 
          assert (sall (pre (a_set_stack st1 t (AIns r o None p :: k))) g) as Hg'.
          { eapply Hplain; [done|simpl; by rewrite Ht|done]. }
          unfold b_alloc. destruct (is_zst E v); [by exists g|]. cbn [b_applys].
          match goal with |- context [pre ?s2] => set (st2 := s2) in * end.
          destruct (sa_alloc m (pre st2) (λ s, if s =? a_next st then true else pre st2 s) g (a_next st) Hg') as (g1&H1&Hg1).
          { intros s Hne. apply Nat.eqb_neq in Hne. by rewrite Hne. }
          rewrite H1. destruct (sa_point m _ (pre st2) g1 (a_next st) Hg1) as (g2&H2&Hg2).
          -- by rewrite Nat.eqb_refl.
          -- assert (pre st2 (a_next st) = pre st (a_next st)) as ->.
             { symmetry. eapply pre_same1; [done|unfold st2; simpl; by rewrite Ht|done]. }
             pose proof (x_own _ _ HI (a_next st)). unfold pre. pose proof (pre_own st (a_next st)).
             assert (alive st (a_next st) = 0) as Ha0; [|lia]. unfold alive.
             destruct (a_objs st !! a_next st) eqn:Ho; [|done]. apply (x_fresh _ _ HI) in Ho. lia.
          -- intros s Hne. simpl. apply Nat.eqb_neq in Hne. by rewrite Hne.
          -- rewrite H2. by exists g2.
      + rewrite sa_app. destruct (sa_look m _ _ (a_set st r) Hg) as (g1&H1&Hg1). rewrite H1. cbn [b_applys]. unfold b_at.
        destruct (sa_keep m _ _ (ip_ser p) OInsert Hg1 I) as (g2&H2&Hg2). rewrite H2. exists g2. split; [done|].
        repeat case_match; simplify_eq; by eapply Hplain.
      + destruct (a_free st None p) as [st1|] eqn:Hf; [|done]. simplify_eq. pose proof (free_threads _ _ _ _ Hf) as Ht.
        apply (Hkill [if pn then ARel r o b false APanic else AMake r o b p]); [simpl; by rewrite Ht|]. intros s Hne. by destruct pn.
      + destruct (a_read st p) eqn:Hr; [|done]. simplify_eq. cbn [b_applys]. unfold b_at.
        destruct (sa_keep m _ _ (ip_ser p) ODeref Hg) as (g1&H1&Hg1).
        { destruct Hok as (ty&_&_&_&[[Hp _]|Hn]); [by apply (set_not_pre st r)|]. unfold a_read in Hr. by rewrite Hn in Hr. }
        rewrite H1. exists g1. split; [done|]. by eapply Hplain.
      + simplify_eq. exists g. split; [done|]. by eapply Hplain.
      + destruct mi; simpl in *.
        * destruct b as [q|]; simpl in *.
          -- destruct (a_free st None q) as [st1|] eqn:Hf; [|done]. simplify_eq. pose proof (free_threads _ _ _ _ Hf) as Ht.
             apply (Hkill []); [simpl; by rewrite Ht|]. intros s Hne. simpl. apply Nat.eqb_neq in Hne. by rewrite Nat.eqb_sym, Hne.
          -- simplify_eq. exists g. split; [done|]. eapply sall_ext; [done|]. intros s _. by eapply pre_pop.
        * simplify_eq. exists g. split; [done|]. eapply sall_ext; [done|]. intros s _. by eapply pre_pop.
      + destruct ps as [|p ps].
        * simplify_eq. exists g. split; [done|]. eapply sall_ext; [done|]. intros s _. by eapply pre_pop.
        * destruct (a_free st (Some r) p) as [st1|] eqn:Hf; [|done]. simplify_eq. pose proof (free_threads _ _ _ _ Hf) as Ht.
          apply (Hkill [ADead r ps]); [simpl; by rewrite Ht|done].
    - destruct (a_stack st t) as [|f k] eqn:Hst; [done|]. destruct f; try done. case_match; [|done]. simplify_eq.
      exists g. split; [done|]. eapply sall_ext; [done|]. intros s _. by eapply pre_same1.
    - unfold a_step_panic in H. destruct (a_stack st t) as [|f k] eqn:Hst; [done|].
      assert (forall g1 f' st2, sall (pre st) g1 -> a_threads st2 = <[t:=f' :: k]> (a_threads st) ->
        (forall s, pw s f = pw s f') -> sall (pre st2) g1) as Hplain.
      { intros g1 f' st2 Hg1 Ht Hpw. eapply sall_ext; [done|]. intros s _. eapply pre_same1; [done|done|].
        simpl. by rewrite Hpw. }
      destruct f as [r o b|r o b|r w q|r o v b|r o b p|r o b p pn|r o b p|r o b mi x|r o b mi x|r ps]; try done.
      + rewrite sa_app. destruct (sa_look m _ _ (a_set st r) Hg) as (g1&H1&Hg1). rewrite H1.
        destruct (sa_look_opt m _ _ b Hg1) as (g2&H2&Hg2). rewrite H2. simplify_eq. exists g2. split; [done|]. by eapply Hplain.
      + simplify_eq. exists g. split; [done|]. by eapply Hplain.
      + rewrite sa_app. destruct (sa_look m _ _ (a_set st r) Hg) as (g1&H1&Hg1). rewrite H1. cbn [b_applys]. unfold b_at.
        destruct (sa_keep m _ _ (ip_ser p) OInsert Hg1 I) as (g2&H2&Hg2). rewrite H2. exists g2. split; [done|].
        simplify_eq. by eapply Hplain.
      + destruct pn; [done|]. simplify_eq. exists g. split; [done|]. by eapply Hplain.
      + destruct x; [|done]. case_match; [|done]. simplify_eq. exists g. split; [done|]. by eapply Hplain.
      + destruct ps as [|p ps]; [done|].
        destruct (a_free st (Some r) p) as [st1|] eqn:Hf; [|done]. simplify_eq. pose proof (free_threads _ _ _ _ Hf) as Ht.
        cbn [b_applys]. unfold b_at.
        match goal with |- context [pre ?s2] => set (st2 := s2) in * end.
        destruct (sa_kill m (pre st) (pre st2) g (ip_ser p) Hg) as (g1&H1&Hg1).
        * intros s Hne. eapply pre_pop; [done|unfold st2; simpl; by rewrite Ht|done].
        * rewrite H1. by exists g1.
    - case_match; [|done]. case_match; [|done]. case_match; [|done]. simplify_eq. cbn [b_applys]. unfold b_at.
      destruct (sa_keep m _ _ (ip_ser p) (OUse j) Hg I) as (g1&Ha1&Hg1). rewrite Ha1. by exists g1.
    - case_match; [|done]. case_match; [|done]. simplify_eq. exists g. split; [done|].
      eapply sall_ext; [done|]. intros s _. by eapply pre_push.
  Qed.
End steps.

Section runs.
  Context (m : nat) {V Q : Type} (E : ienv V Q).
  Record sinv (bs : bstate stacked (V:=V) (Q:=Q)) : Prop := {
    si_inv : AInv E (bs_arena bs);
    si_track : forall s, there_is stacked (bs_objs bs) s = tracked E (bs_arena bs) s;
    si_all : sall (pre (bs_arena bs)) (bs_objs bs);
  }.
  Lemma next_untracked st : AInv E st -> tracked E st (a_next st) = false.
  Proof.
    intros HI. unfold tracked. destruct (a_objs st !! a_next st) eqn:Ho; [|done]. apply (x_fresh _ _ HI) in Ho. lia.
  Qed.
  Lemma tracked_lt (M : machine) st (g : gmap nat (bobj M)) s : AInv E st ->
    (forall s, there_is M g s = tracked E st s) -> is_Some (g !! s) -> s < a_next st.
  Proof.
    intros HI Ht [x Hx]. specialize (Ht s). unfold there_is, tracked in Ht. rewrite Hx in Ht.
    destruct (a_objs st !! s) eqn:Ho; [|done]. by apply (x_fresh _ _ HI) in Ho.
  Qed.
  Lemma stack_run ls : forall bs, sinv bs ->
    match run (bstep stacked 0 m E) bs ls, run (astep E) (bs_arena bs) (fst <$> ls) with
    | Some bs', Some st => bs_arena bs' = st
    | None, None => True
    | _, _ => False
    end.
  Proof.
    induction ls as [|l ls IH]; intros bs Hg; [done|]. cbn [fmap list_fmap run]. unfold exec, bstep.
    destruct (astep E (bs_arena bs) l.1) as [st| | |] eqn:Hs; simpl; try done; try by apply IH.
    destruct Hg as [HI Ht Hg].
    destruct (sb_step m E _ _ l.1 l.2 st HI Hg) as (g&Ha&Hg'); [|done|].
    { intros s. by apply tracked_lt. }
    rewrite Ha. apply (IH (BState st g)). split; [by eapply astep_inv| |done].
    apply (track_bstep stacked 0 m E bs _ l); [|by apply next_untracked|done]. unfold bstep. by rewrite Hs, Ha.
  Qed.
  Lemma stack_init ls :
    match run (bstep stacked 0 m E) binit ls, run (astep E) ainit (fst <$> ls) with
    | Some bs', Some st => bs_arena bs' = st
    | None, None => True
    | _, _ => False
    end.
  Proof. apply (stack_run ls binit). split; [apply ainv_init|done|]. by intros s x. Qed.
End runs.

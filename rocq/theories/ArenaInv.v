(** Invariant of the Arena model, without any law about the user's types. *)
From stdpp Require Import gmap list numbers.
From Verif Require Import Base InternModel InternSpec InternInv ArenaModel ArenaSpec.
Require Import ZifyBool ZifyNat ZifyN.

Definition cnt (s : nat) (ps : list iptr) : nat := lsum (λ p, box_is s (Some p)) ps.
Lemma cnt_cons s p ps : cnt s (p :: ps) = (if ip_ser p =? s then 1 else 0) + cnt s ps.
Proof. done. Qed.
Lemma cnt_in p ps : p ∈ ps -> 1 <= cnt (ip_ser p) ps.
Proof.
  intros H. pose proof (lsum_ge (λ p', box_is (ip_ser p) (Some p')) ps p H) as H'. simpl in H'.
  rewrite Nat.eqb_refl in H'. exact H'.
Qed.

Section inv.
  Context {V Q : Type} (E : ienv V Q).
  Implicit Types (st : astate V Q) (v : V) (p : iptr) (o : aop V Q) (f g : aframe V Q) (t ty s r : nat)
    (e : aevent V Q).

  (** ** Counting *)
  Definition own s f : nat :=
    match f with
    | AWait _ _ b | AGet _ _ b | AStore _ _ _ b => box_is s b
    | AIns _ _ _ p | AKill _ _ _ p _ => box_is s (Some p)
    | ARel _ _ b m _ | AArg _ _ b m _ => if m then box_is s b else 0
    | ADead _ ps => cnt s ps
    | _ => 0
    end.
  Definition has_lock r f : nat :=
    match f with
    | AGet r' _ _ | AConv r' _ _ | AStore r' _ _ _ | AIns r' _ _ _ | AKill r' _ _ _ _ | AMake r' _ _ _
    | ARel r' _ _ _ _ => if r' =? r then 1 else 0
    | _ => 0
    end.
  Definition dead r f : nat := match f with ADead r' _ => if r' =? r then 1 else 0 | _ => 0 end.
  Definition dcnt r s f : nat := match f with ADead r' ps => if r' =? r then cnt s ps else 0 | _ => 0 end.

  Definition freeds s e : nat := match e with AvFree _ p => box_is s (Some p) | _ => 0 end.
  Definition freedby r s e : nat :=
    match e with AvFree (Some r') p => if r' =? r then box_is s (Some p) else 0 | _ => 0 end.
  Definition leak s e : nat := match e with AvLeak _ ps => cnt s ps | _ => 0 end.
  Definition leakr r s e : nat := match e with AvLeak r' ps => if r' =? r then cnt s ps else 0 | _ => 0 end.
  Definition ended r e : nat := match e with AvGone r' | AvLeak r' _ => if r' =? r then 1 else 0 | _ => 0 end.
  Definition ins r s e : nat := match e with AvIns _ r' _ p _ => if r' =? r then box_is s (Some p) else 0 | _ => 0 end.

  Definition alive st s : nat := match a_objs st !! s with Some _ => 1 | None => 0 end.
  Definition asum st s : nat := msum (λ x, cnt s (ar_set x)) (a_arenas st).
  Definition alk st r : nat := match a_locks st !! r with Some _ => 1 | None => 0 end.
  Definition there st r : nat := match a_arenas st !! r with Some _ => 1 | None => 0 end.
  Definition lt1 (n m : nat) : nat := if n <? m then 1 else 0.

  (** ** Pointers *)
  Definition apoints st ty p v : Prop :=
    a_objs st !! ip_ser p = Some (AObj (ip_addr p) v) /\ ip_meta p = ie_meta E v /\ ie_ty E v = ty.
  Definition on st r ty : Prop := exists x, a_arenas st !! r = Some x /\ ar_ty x = ty.

  (** The argument's block while the call owns it. *)
  Definition arg_ok st ty o (b : option iptr) : Prop :=
    match o with
    | AOwned v | ABox v => exists p, b = Some p /\ apoints st ty p v
    | _ => b = None
    end.
  (** The given box was stored. *)
  Definition boxed st r o (b : option iptr) p : Prop :=
    match o with ABox v => b = Some p /\ exists t, AvIns t r o p v ∈ a_log st | _ => True end.
  (** What became of a box that the call does not own any more. *)
  Definition arg_gone st r o (b : option iptr) (x : ares) : Prop :=
    match o with
    | ABox v => exists p, b = Some p /\
        ((x = AP p /\ exists t, AvIns t r o p v ∈ a_log st) \/ (x = APanic /\ AvFree None p ∈ a_log st))
    | _ => True
    end.
  Definition op_typed o ty : Prop :=
    match o with ANew v | AOwned v | ABox v => ie_ty E v = ty | ARef _ _ => True end.
  Definition res_in st r (x : ares) : Prop := match x with AP p => p ∈ a_set st r | APanic => True end.

  Definition aframe_ok st f : Prop :=
    match f with
    | ADead _ _ => True
    | AWait r o b | AGet r o b => exists ty, on st r ty /\ op_typed o ty /\ arg_ok st ty o b
    | AConv r w q => exists ty, on st r ty
    | AStore r o v b => exists ty, on st r ty /\ op_typed o ty /\ a_supplies E o v /\ ie_ty E v = ty /\
        match o with AOwned _ => b = None \/ arg_ok st ty o b | ABox _ => False | _ => b = None end
    | AIns r o b p => exists ty v, on st r ty /\ op_typed o ty /\ apoints st ty p v /\ a_supplies E o v /\
        match o with ABox _ => b = Some p | _ => b = None end
    | AKill r o b p _ => exists ty v, on st r ty /\ op_typed o ty /\ apoints st ty p v /\
        match o with ABox _ => b = Some p | _ => b = None end
    | AMake r o b p => exists ty, on st r ty /\ op_typed o ty /\ ip_ser p < a_next st /\
        ((p ∈ a_set st r /\ boxed st r o b p) \/ a_objs st !! ip_ser p = None)
    | ARel r o b m x | AArg r o b m x => exists ty, on st r ty /\ op_typed o ty /\ res_in st r x /\
        if m then arg_ok st ty o b else arg_gone st r o b x
    end.

  (** What a log entry says while its arena lives. *)
  Definition aev_ok st e : Prop :=
    match e with
    | AvIns _ r o p v => r < a_nextr st /\ a_supplies E o v /\ ip_ser p < a_next st /\
        forall x, a_arenas st !! r = Some x -> p ∈ ar_set x /\ apoints st (ar_ty x) p v
    | AvRet _ r o b y => r < a_nextr st /\ (forall x p, y = AP p -> a_arenas st !! r = Some x -> p ∈ ar_set x) /\
        match o with
        | ABox v => exists p, b = Some p /\
            ((y = AP p /\ exists t, AvIns t r o p v ∈ a_log st) \/ AvFree None p ∈ a_log st)
        | _ => True
        end
    | AvRead r p v => r < a_nextr st /\ exists t o, AvIns t r o p v ∈ a_log st
    | _ => True
    end.

  Record AInv st : Prop := {
    x_fresh : forall s x, a_objs st !! s = Some x -> s < a_next st;
    x_zaddr : forall s x, a_objs st !! s = Some x -> addr_ok E (ao_addr x) (ao_val x);
    x_addr : forall s1 s2 x1 x2, a_objs st !! s1 = Some x1 -> a_objs st !! s2 = Some x2 ->
      is_zst E (ao_val x1) = false -> is_zst E (ao_val x2) = false -> ao_addr x1 = ao_addr x2 -> s1 = s2;
    x_stored : forall r x, a_arenas st !! r = Some x -> ar_set x = (a_stored r (a_log st)).*1;
    x_frames : forall t f, f ∈ a_stack st t -> aframe_ok st f;
    x_log : forall e, e ∈ a_log st -> aev_ok st e;
    x_own : forall s, msum (lsum (own s)) (a_threads st) + asum st s + lsum (leak s) (a_log st) = alive st s;
    x_free : forall s, lsum (freeds s) (a_log st) + alive st s = lt1 s (a_next st);
    x_hold : forall r s, cnt s (a_set st r) + msum (lsum (dcnt r s)) (a_threads st)
      + lsum (leakr r s) (a_log st) + lsum (freedby r s) (a_log st) = lsum (ins r s) (a_log st);
    x_ends : forall r, there st r + msum (lsum (dead r)) (a_threads st) + lsum (ended r) (a_log st) = lt1 r (a_nextr st);
    x_locks : forall r, msum (lsum (has_lock r)) (a_threads st) = alk st r;
  }.

  (** ** Stacks *)
  Lemma msum_astack (w : aframe V Q -> nat) st t k :
    msum (lsum w) (<[t:=k]> (a_threads st)) + lsum w (a_stack st t) = lsum w k + msum (lsum w) (a_threads st).
  Proof. apply (msum_insert_default (lsum w) _ t k []). done. Qed.
  Lemma msum_astack_ge (w : aframe V Q -> nat) st t : lsum w (a_stack st t) <= msum (lsum w) (a_threads st).
  Proof.
    unfold a_stack. destruct (a_threads st !! t) as [k|] eqn:Ht; simpl; [|lia].
    by apply (msum_ge (lsum w)) in Ht.
  Qed.
  Lemma msum_astack_ge2 (w : aframe V Q -> nat) st t u :
    t <> u -> lsum w (a_stack st t) + lsum w (a_stack st u) <= msum (lsum w) (a_threads st).
  Proof.
    intros Hne. unfold a_stack.
    destruct (a_threads st !! t) as [k|] eqn:Ht, (a_threads st !! u) as [k'|] eqn:Hu; simpl.
    - by eapply (msum_ge2 (lsum w)).
    - apply (msum_ge (lsum w)) in Ht. lia.
    - apply (msum_ge (lsum w)) in Hu. lia.
    - lia.
  Qed.
  Lemma asum_ge st r x s : a_arenas st !! r = Some x -> cnt s (ar_set x) <= asum st s.
  Proof. intros H. by apply (msum_ge (λ x, cnt s (ar_set x))) in H. Qed.
  Lemma a_set_some st r x : a_arenas st !! r = Some x -> a_set st r = ar_set x.
  Proof. unfold a_set. by intros ->. Qed.
  Lemma alive_le st s : alive st s <= 1.
  Proof. unfold alive. destruct (a_objs st !! s); lia. Qed.

  Lemma a_idle_spec st r : a_idle st r = true <-> forall t f, f ∈ a_stack st t -> a_arena f <> Some r.
  Proof.
    unfold a_idle. rewrite bool_decide_eq_true. unfold a_stack. split.
    - intros H t f Hf. destruct (a_threads st !! t) as [k|] eqn:Ht; [|by apply elem_of_nil in Hf].
      specialize (H _ _ Ht). simpl in *. rewrite List.Forall_forall in H. apply H. by apply elem_of_list_In.
    - intros H t k Ht. simpl. apply List.Forall_forall. intros f Hf%elem_of_list_In. apply (H t). by rewrite Ht.
  Qed.

  (** Elements of a live arena's set. *)
  Lemma set_pts st r x p : AInv st -> a_arenas st !! r = Some x -> p ∈ ar_set x ->
    exists v, apoints st (ar_ty x) p v /\ (p, v) ∈ a_stored r (a_log st).
  Proof.
    intros HI Hr Hp. rewrite (x_stored _ HI r x Hr) in Hp. apply elem_of_list_fmap in Hp as ([p' v]&Heq&Hin).
    simpl in Heq. subst p'. exists v. split; [|done].
    assert (exists t o, AvIns t r o p v ∈ a_log st) as (t&o&Hl).
    { clear -Hin. induction (a_log st) as [|e l IH]; simpl in Hin; [by apply elem_of_nil in Hin|].
      destruct e as [t r' o p' v'| | | | | | |].
      { destruct (r' =? r) eqn:Hr.
        - apply Nat.eqb_eq in Hr as ->. apply elem_of_cons in Hin as [Heq|Hin].
          + injection Heq as -> ->. exists t, o. by left.
          + destruct (IH Hin) as (t'&o'&?). exists t', o'. by right.
        - destruct (IH Hin) as (t'&o'&?). exists t', o'. by right. }
      all: destruct (IH Hin) as (t'&o'&?); exists t', o'; by right. }
    apply (x_log _ HI) in Hl as (_&_&_&Hx). by apply Hx.
  Qed.

  (** A frame other than the top frames [fs] of thread [t], whose stack is [fs ++ k]. *)
  Definition aother st t (k : list (aframe V Q)) g : Prop := g ∈ k \/ exists u, u <> t /\ g ∈ a_stack st u.
  Lemma aother_in st st' t fs' k :
    (forall u, a_stack st' u = if decide (t = u) then fs' ++ k else a_stack st u) ->
    forall u g, g ∈ a_stack st' u -> (u = t /\ g ∈ fs') \/ aother st t k g.
  Proof.
    intros Hnew u g. rewrite Hnew. destruct (decide (t = u)) as [<-|Hne].
    - intros [?|?]%elem_of_app; [by left|right; by left].
    - intros ?. right. right. by exists u.
  Qed.
  Lemma aother_was st t fs k : a_stack st t = fs ++ k -> forall g, aother st t k g -> exists u, g ∈ a_stack st u.
  Proof.
    intros Hold g [?|(u&?&?)]; [|by exists u]. exists t. rewrite Hold. apply elem_of_app. by right.
  Qed.
  Lemma aother_sum st t fs k (w : aframe V Q -> nat) g : a_stack st t = fs ++ k ->
    aother st t k g -> w g + lsum w fs <= msum (lsum w) (a_threads st).
  Proof.
    intros Hold [Hg|(u&Hne&Hg)].
    - pose proof (msum_astack_ge w st t) as H. rewrite Hold, lsum_app in H.
      pose proof (lsum_ge w _ _ Hg). lia.
    - pose proof (msum_astack_ge2 w st t u ltac:(done)) as H. rewrite Hold, lsum_app in H.
      pose proof (lsum_ge w _ _ Hg). lia.
  Qed.

  (** ** The update lemma *)
  Section update.
    Context (st st' : astate V Q) (t : nat) (fs fs' k : list (aframe V Q)) (es : list (aevent V Q)).
    Context (HI : AInv st).
    Context (Hold : a_stack st t = fs ++ k).
    Context (Hnew : forall u, a_stack st' u = if decide (t = u) then fs' ++ k else a_stack st u).
    Context (Hsum : forall w, msum (lsum w) (a_threads st') + lsum w fs = lsum w fs' + msum (lsum w) (a_threads st)).
    Context (Hlog : a_log st' = es ++ a_log st).
    Context (Hown : forall s, lsum (own s) fs' + asum st' s + lsum (leak s) es + alive st s
                            = lsum (own s) fs + asum st s + alive st' s).
    Context (Hfree : forall s, lsum (freeds s) es + alive st' s + lt1 s (a_next st) = alive st s + lt1 s (a_next st')).
    Context (Hhold : forall r s, cnt s (a_set st' r) + lsum (dcnt r s) fs' + lsum (leakr r s) es + lsum (freedby r s) es
                            = cnt s (a_set st r) + lsum (dcnt r s) fs + lsum (ins r s) es).
    Context (Hends : forall r, there st' r + lsum (dead r) fs' + lsum (ended r) es + lt1 r (a_nextr st)
                            = there st r + lsum (dead r) fs + lt1 r (a_nextr st')).
    Context (Hlocks : forall r, lsum (has_lock r) fs' + alk st r = lsum (has_lock r) fs + alk st' r).
    Context (Hobjs : forall s x, a_objs st !! s = Some x -> lsum (own s) fs = 0 -> a_objs st' !! s = Some x).
    Context (Hback : forall r x', a_arenas st' !! r = Some x' -> r < a_nextr st ->
      exists x, a_arenas st !! r = Some x /\ ar_ty x' = ar_ty x /\ forall p, p ∈ ar_set x -> p ∈ ar_set x').
    Context (Hkeep : forall r x, a_arenas st !! r = Some x -> a_arenas st' !! r = None -> a_idle st r = true).
    Context (Hnext : a_next st <= a_next st') (Hnextr : a_nextr st <= a_nextr st').
    Context (Hnone : forall s, s < a_next st -> a_objs st !! s = None -> a_objs st' !! s = None).

    (** Objects in sets of live arenas, and those owned by other frames, stay. *)
    Lemma set_stays r x p y : a_arenas st !! r = Some x -> p ∈ ar_set x ->
      a_objs st !! ip_ser p = Some y -> a_objs st' !! ip_ser p = Some y.
    Proof.
      intros Hr Hp Hy. apply Hobjs; [done|]. pose proof (x_own _ HI (ip_ser p)) as H.
      pose proof (asum_ge st r x (ip_ser p) Hr). pose proof (cnt_in _ _ Hp).
      pose proof (msum_astack_ge (own (ip_ser p)) st t) as H'. rewrite Hold, lsum_app in H'.
      pose proof (alive_le st (ip_ser p)). lia.
    Qed.
    Lemma own_stays g p y : aother st t k g -> 1 <= own (ip_ser p) g ->
      a_objs st !! ip_ser p = Some y -> a_objs st' !! ip_ser p = Some y.
    Proof.
      intros Hg Ho Hy. apply Hobjs; [done|]. pose proof (x_own _ HI (ip_ser p)) as H.
      pose proof (aother_sum st t fs k (own (ip_ser p)) g Hold Hg). pose proof (alive_le st (ip_ser p)). lia.
    Qed.
    Lemma log_stays e : e ∈ a_log st -> e ∈ a_log st'.
    Proof. intros H. rewrite Hlog. apply elem_of_app. by right. Qed.
    Lemma on_stays g r ty : aother st t k g -> a_arena g = Some r -> on st r ty -> on st' r ty.
    Proof.
      intros Hg Hr (x&Hx&Hty). destruct (a_arenas st' !! r) as [x'|] eqn:Hx'.
      - exists x'. split; [done|]. assert (r < a_nextr st) as Hlt.
        { pose proof (x_ends _ HI r) as H. unfold there, lt1 in H. rewrite Hx in H. destruct (Nat.ltb_spec r (a_nextr st)); lia. }
        destruct (Hback r x' Hx' Hlt) as (y&Hy&Ht&_). congruence.
      - exfalso. pose proof (Hkeep r x Hx Hx') as Hi. rewrite a_idle_spec in Hi.
        destruct (aother_was st t fs k Hold g Hg) as [u Hu]. by apply (Hi u g Hu).
    Qed.
    Lemma in_stays r ty ty' p : on st r ty -> on st' r ty' -> p ∈ a_set st r -> p ∈ a_set st' r.
    Proof.
      intros (x&Hx&_) (x'&Hx'&_). unfold a_set. rewrite Hx, Hx'. assert (r < a_nextr st) as Hlt.
      { pose proof (x_ends _ HI r) as H. unfold there, lt1 in H. rewrite Hx in H. destruct (Nat.ltb_spec r (a_nextr st)); lia. }
      destruct (Hback r x' Hx' Hlt) as (y&Hy&_&Hin). assert (y = x) as -> by congruence. apply Hin.
    Qed.
    Lemma arg_stays g ty o b : aother st t k g -> (forall s, own s g = box_is s b) -> arg_ok st ty o b -> arg_ok st' ty o b.
    Proof.
      intros Hg Hb. destruct o as [v|w q|v|v]; simpl; try done.
      all: intros (p&->&Hp&?&?); exists p; (split; [done|]); split_and!; [|done|done];
        apply (own_stays g); [done| |done]; rewrite Hb; simpl; by rewrite Nat.eqb_refl.
    Qed.
    Lemma pts_stays g ty p v : aother st t k g -> 1 <= own (ip_ser p) g -> apoints st ty p v -> apoints st' ty p v.
    Proof. intros Hg Ho (?&?&?). split_and!; [|done|done]. by apply (own_stays g). Qed.
    Lemma boxed_stays r o b p : boxed st r o b p -> boxed st' r o b p.
    Proof. destruct o; simpl; try done. intros (?&u&?). split; [done|]. exists u. by apply log_stays. Qed.
    Lemma gone_stays r o b x : arg_gone st r o b x -> arg_gone st' r o b x.
    Proof.
      destruct o; simpl; try done. intros (p&?&[(?&u&?)|[? ?]]); exists p; (split; [done|]).
      - left. split; [done|]. exists u. by apply log_stays.
      - right. split; [done|]. by apply log_stays.
    Qed.

    Lemma aupd_frame g : aother st t k g -> aframe_ok st g -> aframe_ok st' g.
    Proof.
      intros Hg. pose proof (on_stays g) as Hon.
      destruct g as [r o b|r o b|r w q|r o v b|r o b p|r o b p pn|r o b p|r o b m x|r o b m x|r ps]; simpl in *.
      - intros (ty&Ho&Ht&Ha). exists ty. split_and!; [by apply Hon|done|]. by eapply (arg_stays _ ty o b Hg).
      - intros (ty&Ho&Ht&Ha). exists ty. split_and!; [by apply Hon|done|]. by eapply (arg_stays _ ty o b Hg).
      - intros (ty&Ho). exists ty. by apply Hon.
      - intros (ty&Ho&Ht&Hs&Hv&Hb). exists ty. split_and!; [by apply Hon|done..|].
        destruct o; try done. destruct Hb as [Hb|Hb]; [by left|right].
        by eapply (arg_stays _ ty (AOwned v0) b Hg).
      - intros (ty&v&Ho&Ht&Hp&Hs). exists ty, v. split_and!; [by apply Hon|done| |apply Hs..].
        apply (pts_stays _ _ _ _ Hg); [|done]. simpl. by rewrite Nat.eqb_refl.
      - intros (ty&v&Ho&Ht&Hp&Hs). exists ty, v. split_and!; [by apply Hon|done| |apply Hs].
        apply (pts_stays _ _ _ _ Hg); [|done]. simpl. by rewrite Nat.eqb_refl.
      - intros (ty&Ho&Ht&Hp&Hs). exists ty. split_and!; [by apply Hon|done|lia|].
        destruct Hs as [[Hin Hb]|Hd]; [left|right; by apply Hnone].
        split; [|by apply boxed_stays]. eapply in_stays; [done|by apply Hon|done].
      - intros (ty&Ho&Ht&Hi&Hm). exists ty. split_and!; [by apply Hon|done| |].
        + destruct x; [|done]. simpl in *. eapply in_stays; [done|by apply Hon|done].
        + destruct m; [|by apply gone_stays]. by eapply (arg_stays _ ty o b Hg).
      - intros (ty&Ho&Ht&Hi&Hm). exists ty. split_and!; [by apply Hon|done| |].
        + destruct x; [|done]. simpl in *. eapply in_stays; [done|by apply Hon|done].
        + destruct m; [|by apply gone_stays]. by eapply (arg_stays _ ty o b Hg).
      - done.
    Qed.

    Lemma aupd_ev e : aev_ok st e -> aev_ok st' e.
    Proof.
      destruct e as [u r o p v|u r o b y|r p v| | | | |]; simpl; try done.
      - intros (Hr&Hs&Hn&Hx). split_and!; [lia|done|lia|]. intros x' Hx'.
        destruct (Hback r x' Hx' Hr) as (x&Hx0&Ht&Hin). destruct (Hx x Hx0) as (Hp&Hpt&?&?).
        split; [by apply Hin|]. rewrite Ht. split_and!; [|done|done]. by eapply set_stays.
      - intros (Hr&Hx&Ho). split_and!; [lia| |].
        + intros x' p -> Hx'. destruct (Hback r x' Hx' Hr) as (x&Hx0&Ht&Hin). apply Hin. by apply (Hx x p).
        + destruct o; try done. destruct Ho as (p&?&[(?&u'&?)|?]); exists p; (split; [done|]).
          * left. split; [done|]. exists u'. by apply log_stays.
          * right. by apply log_stays.
      - intros (Hr&u&o&Hi). split; [lia|]. exists u, o. by apply log_stays.
    Qed.

    Context (Hfresh : forall s x, a_objs st' !! s = Some x -> s < a_next st').
    Context (Hzaddr : forall s x, a_objs st' !! s = Some x -> addr_ok E (ao_addr x) (ao_val x)).
    Context (Haddr : forall s1 s2 x1 x2, a_objs st' !! s1 = Some x1 -> a_objs st' !! s2 = Some x2 ->
      is_zst E (ao_val x1) = false -> is_zst E (ao_val x2) = false -> ao_addr x1 = ao_addr x2 -> s1 = s2).
    Context (Hstored : forall r x, a_arenas st' !! r = Some x -> ar_set x = (a_stored r (a_log st')).*1).
    Context (Hfs : forall f, f ∈ fs' -> aframe_ok st' f).
    Context (Hes : forall e, e ∈ es -> aev_ok st' e).

    Lemma aupd_inv : AInv st'.
    Proof.
      constructor; try done.
      - intros u g Hg. apply (aother_in st st' t fs' k Hnew) in Hg as [[-> Hg]|Hg]; [by apply Hfs|].
        destruct (aother_was st t fs k Hold g Hg) as [u' Hu]. apply aupd_frame; [done|]. by eapply (x_frames _ HI).
      - intros e He. rewrite Hlog in He. apply elem_of_app in He as [He|He]; [by apply Hes|].
        apply aupd_ev. by apply (x_log _ HI).
      - intros s. rewrite Hlog, lsum_app. pose proof (x_own _ HI s). specialize (Hown s). specialize (Hsum (own s)). lia.
      - intros s. rewrite Hlog, lsum_app. pose proof (x_free _ HI s). specialize (Hfree s). lia.
      - intros r s. rewrite Hlog, !lsum_app. pose proof (x_hold _ HI r s). specialize (Hhold r s).
        specialize (Hsum (dcnt r s)). lia.
      - intros r. rewrite Hlog, lsum_app. pose proof (x_ends _ HI r). specialize (Hends r). specialize (Hsum (dead r)). lia.
      - intros r. pose proof (x_locks _ HI r). specialize (Hlocks r). specialize (Hsum (has_lock r)). lia.
    Qed.
  End update.
End inv.

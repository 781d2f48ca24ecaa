(** Invariant of the Intern model: memory, ownership, locks.  No law about the user's
    types is used in this file. *)
From stdpp Require Import gmap list numbers.
From Verif Require Import Base InternModel InternSpec.
Require Import ZifyBool ZifyNat ZifyN.

Fixpoint lsum {A} (f : A -> nat) (l : list A) : nat :=
  match l with [] => 0 | x :: l' => f x + lsum f l' end.
Lemma lsum_app {A} (f : A -> nat) l1 l2 : lsum f (l1 ++ l2) = lsum f l1 + lsum f l2.
Proof. induction l1; simpl; lia. Qed.
Lemma lsum_ge {A} (f : A -> nat) l x : x ∈ l -> f x <= lsum f l.
Proof. induction 1; simpl; lia. Qed.
Lemma lsum_pos {A} (f : A -> nat) l : 0 < lsum f l -> exists x, x ∈ l /\ 0 < f x.
Proof.
  induction l as [|y l IH]; simpl; [lia|]. intros H. destruct (decide (f y = 0)).
  - destruct IH as (x&?&?); [lia|]. exists x. split; [by right|done].
  - exists y. split; [by left|lia].
Qed.

Section inv.
  Context {V Q : Type} (E : ienv V Q).
  Implicit Types (st : istate V Q) (v : V) (p : iptr) (o : iop V Q) (f g : frame V Q) (t ty s : nat).
  Notation slot := (slot E).
  Notation op_ty := (op_ty E).

  (** ** Counting *)
  Definition box_is s (b : option iptr) : nat :=
    match b with Some p => if ip_ser p =? s then 1 else 0 | None => 0 end.
  Definition owned s f : nat :=
    match f with FWait _ b | FGet _ b | FDup _ b _ => box_is s b | _ => 0 end.
  Notation frame_ty := (frame_ty E).
  Definition held s f : nat :=
    match f with FWait _ _ => 0 | _ => if slot (frame_ty f) =? s then 1 else 0 end.
  Definition own_obj st s : nat :=
    match i_objs st !! s with Some x => if io_leaked x then 0 else 1 | None => 0 end.
  Definition lk st s : nat := match i_locks st !! s with Some _ => 1 | None => 0 end.

  (** ** Pointers *)
  Definition addr_ok (a : nat) v : Prop := is_zst E v = true -> a = ie_dangle E (ie_ty E v) (ie_meta E v).
  (** [p] points to a live object of type [ty] holding [v], leaked or not. *)
  Definition points st ty p v (lkd : bool) : Prop :=
    i_objs st !! ip_ser p = Some (IObj (ip_addr p) v lkd) /\ ip_meta p = ie_meta E v /\ ie_ty E v = ty.
  Definition good st ty p : Prop := exists v, points st ty p v true.

  Definition box_ok st o (b : option iptr) : Prop :=
    match o with
    | OBox v => exists p, b = Some p /\ points st (ie_ty E v) p v false
    | _ => b = None
    end.
  Definition res_ok st ty (r : ires) : Prop := match r with RPtr p => good st ty p | _ => True end.
  Definition frame_ok st f : Prop :=
    match f with
    | FWait o b => box_ok st o b
    | FGet o b => box_ok st o b /\ match o with OLen _ | OClear _ => False | _ => True end
    | FConv _ _ _ => True
    | FStore o v => ie_ty E v = op_ty o /\ supplies E o v
    | FIns o p => exists v, points st (op_ty o) p v true /\ supplies E o v
    | FDup o b r => box_ok st o b /\ res_ok st (op_ty o) r
    | FDone o r => res_ok st (op_ty o) r
    end.

  Definition ev_ok st (e : ievent V Q) : Prop :=
    match e with
    | EvIns _ o p v => points st (op_ty o) p v true /\ supplies E o v
    | EvRet _ o (RPtr p) => good st (op_ty o) p
    | EvRead p v => exists ty, points st ty p v true
    | _ => True
    end.

  Record IInv st : Prop := {
    v_fresh : forall s x, i_objs st !! s = Some x -> s < i_next st;
    v_zaddr : forall s x, i_objs st !! s = Some x -> addr_ok (io_addr x) (io_val x);
    v_addr : forall s1 s2 x1 x2, i_objs st !! s1 = Some x1 -> i_objs st !! s2 = Some x2 ->
      is_zst E (io_val x1) = false -> is_zst E (io_val x2) = false -> io_addr x1 = io_addr x2 -> s1 = s2;
    v_slot : forall s ty ps, (ty, ps) ∈ container st s -> slot ty = s;
    v_nodup : forall s, NoDup (container st s).*1;
    v_current : forall ty, set_of E st ty = (inserted E ty (i_log st)).*1;
    v_frames : forall t f, f ∈ get_stack st t -> frame_ok st f;
    v_owned : forall s, msum (lsum (owned s)) (i_threads st) = own_obj st s;
    v_locks : forall s, msum (lsum (held s)) (i_threads st) = lk st s;
    v_log : forall e, e ∈ i_log st -> ev_ok st e;
    v_has : forall t f, f ∈ get_stack st t -> match f with FWait _ _ => True | _ =>
      is_Some (find_set (frame_ty f) (container st (slot (frame_ty f)))) end;
  }.

  (** ** Stacks *)
  Lemma get_stack_set st t u k : get_stack (set_stack st t k) u = if decide (t = u) then k else get_stack st u.
  Proof.
    unfold get_stack. simpl. destruct (decide (t = u)) as [->|].
    - by rewrite lookup_insert.
    - by rewrite lookup_insert_ne.
  Qed.
  Lemma stack_upd st st' t k u :
    i_threads st' = <[t:=k]> (i_threads st) ->
    get_stack st' u = if decide (t = u) then k else get_stack st u.
  Proof. intros H. rewrite <- get_stack_set. unfold get_stack. simpl. by rewrite H. Qed.
  Lemma msum_stack (w : frame V Q -> nat) st st' t k :
    i_threads st' = <[t:=k]> (i_threads st) ->
    msum (lsum w) (i_threads st') + lsum w (get_stack st t) = lsum w k + msum (lsum w) (i_threads st).
  Proof. intros ->. apply (msum_insert_default (lsum w) _ t k []). done. Qed.
  Lemma msum_stack_ge (w : frame V Q -> nat) st t : lsum w (get_stack st t) <= msum (lsum w) (i_threads st).
  Proof.
    unfold get_stack. destruct (i_threads st !! t) as [k|] eqn:Ht; simpl; [|lia].
    by apply (msum_ge (lsum w)) in Ht.
  Qed.
  Lemma msum_stack_ge2 (w : frame V Q -> nat) st t u :
    t <> u -> lsum w (get_stack st t) + lsum w (get_stack st u) <= msum (lsum w) (i_threads st).
  Proof.
    intros Hne. unfold get_stack.
    destruct (i_threads st !! t) as [k|] eqn:Ht, (i_threads st !! u) as [k'|] eqn:Hu; simpl.
    - by eapply (msum_ge2 (lsum w)).
    - apply (msum_ge (lsum w)) in Ht. lia.
    - apply (msum_ge (lsum w)) in Hu. lia.
    - lia.
  Qed.

  (** ** Sets *)
  Lemma find_set_None ty l : find_set ty l = None <-> ty ∉ l.*1.
  Proof.
    induction l as [|[u s] l IH]; csimpl.
    - split; [intros _ H; by apply elem_of_nil in H|done].
    - destruct (Nat.eqb_spec u ty) as [->|].
      + split; [done|]. intros []. by left.
      + rewrite IH, not_elem_of_cons. naive_solver.
  Qed.
  Lemma write_set_keys ty ps l : (write_set ty ps l).*1 = l.*1.
  Proof.
    induction l as [|[u s] l IH]; csimpl; [done|]. destruct (u =? ty); csimpl; [done|]. by rewrite IH.
  Qed.
  Lemma find_write ty ty' ps l :
    find_set ty' (write_set ty ps l)
    = if ty' =? ty then (match find_set ty l with Some _ => Some ps | None => None end) else find_set ty' l.
  Proof.
    induction l as [|[u s] l IH]; simpl.
    - by destruct (ty' =? ty).
    - destruct (Nat.eqb_spec u ty) as [->|]; simpl.
      + destruct (Nat.eqb_spec ty' ty) as [->|]; [by rewrite Nat.eqb_refl|].
        by destruct (Nat.eqb_spec ty ty').
      + rewrite IH. destruct (Nat.eqb_spec u ty') as [->|]; [|done].
        by destruct (Nat.eqb_spec ty' ty).
  Qed.
  Lemma elem_write ty ty' ps ps' l : (ty', ps') ∈ write_set ty ps l -> exists ps'', (ty', ps'') ∈ l.
  Proof.
    intros H. apply (elem_of_list_fmap_1 fst) in H. rewrite write_set_keys in H.
    apply elem_of_list_fmap in H as ([u s]&Heq&H). simpl in Heq. subst ty'. by exists s.
  Qed.
  Lemma gtm_find ty ty' l :
    default [] (find_set ty' (get_type_mut ty l)) = default [] (find_set ty' l)
    /\ (find_set ty' (get_type_mut ty l) = None -> find_set ty' l = None)
    /\ is_Some (find_set ty (get_type_mut ty l)).
  Proof.
    unfold get_type_mut. destruct (find_set ty l) as [ps|] eqn:Hf; [by rewrite Hf|].
    assert (forall l', find_set ty' (l' ++ [(ty, [])]) = match find_set ty' l' with Some x => Some x | None => if ty =? ty' then Some [] else None end) as Happ.
    { induction l' as [|[u s] l' IH]; simpl; [done|]. by destruct (u =? ty'). }
    split_and!.
    - rewrite Happ. destruct (find_set ty' l) eqn:Hf'; [done|]. by destruct (ty =? ty').
    - rewrite Happ. by destruct (find_set ty' l).
    - clear Happ. induction l as [|[u s] l IH]; simpl in *; [by rewrite Nat.eqb_refl|].
      destruct (u =? ty); [done|]. by apply IH.
  Qed.
  Lemma gtm_in ty ty' ps l : (ty', ps) ∈ get_type_mut ty l -> (ty', ps) ∈ l \/ ty' = ty.
  Proof.
    unfold get_type_mut. destruct (find_set ty l); [by left|].
    intros [H|H]%elem_of_app; [by left|]. apply elem_of_list_singleton in H. right. congruence.
  Qed.
  Lemma gtm_nodup ty l : NoDup l.*1 -> NoDup (get_type_mut ty l).*1.
  Proof.
    intros H. unfold get_type_mut. destruct (find_set ty l) eqn:Hf; [done|].
    rewrite fmap_app. apply NoDup_app. split_and!; [done| |by apply NoDup_singleton].
    intros x Hx Hy. apply elem_of_list_singleton in Hy. simpl in Hy. subst x. by apply find_set_None in Hf.
  Qed.

  (** ** The update lemma.  Thread [t]'s stack changes from [fs ++ k] to [fs' ++ k]. *)
  Section update.
    Context (st st' : istate V Q) (t : nat) (fs fs' k : list (frame V Q)).
    Context (HI : IInv st).
    Context (Hold : get_stack st t = fs ++ k).
    Context (Hnew : i_threads st' = <[t:=fs' ++ k]> (i_threads st)).
    Context (Hown : forall s, lsum (owned s) fs' + own_obj st s = lsum (owned s) fs + own_obj st' s).
    Context (Hheld : forall s, lsum (held s) fs' + lk st s = lsum (held s) fs + lk st' s).
    Context (Hobjs : forall s x, i_objs st !! s = Some x -> lsum (owned s) fs = 0 -> i_objs st' !! s = Some x).

    Lemma upd_owned s : msum (lsum (owned s)) (i_threads st') = own_obj st' s.
    Proof.
      pose proof (msum_stack (owned s) st st' t _ Hnew) as H. rewrite Hold, !lsum_app in H.
      pose proof (v_owned _ HI s). specialize (Hown s). lia.
    Qed.
    Lemma upd_locks s : msum (lsum (held s)) (i_threads st') = lk st' s.
    Proof.
      pose proof (msum_stack (held s) st st' t _ Hnew) as H. rewrite Hold, !lsum_app in H.
      pose proof (v_locks _ HI s). specialize (Hheld s). lia.
    Qed.
    Lemma own_le s : own_obj st s <= 1.
    Proof. unfold own_obj. destruct (i_objs st !! s) as [[? ? []]|]; simpl; lia. Qed.
    Lemma upd_leaked s x : i_objs st !! s = Some x -> io_leaked x = true -> i_objs st' !! s = Some x.
    Proof.
      intros Hx Hl. apply Hobjs; [done|]. pose proof (v_owned _ HI s) as H.
      pose proof (msum_stack_ge (owned s) st t) as H'. rewrite Hold, lsum_app in H'.
      unfold own_obj in H. rewrite Hx, Hl in H. lia.
    Qed.
    Lemma upd_points ty p v : points st ty p v true -> points st' ty p v true.
    Proof. intros (Ho&Hm&Ht). split_and!; [|done|done]. by apply upd_leaked. Qed.
    Lemma upd_good ty p : good st ty p -> good st' ty p.
    Proof. intros [v H]. exists v. by apply upd_points. Qed.
    Lemma upd_read p v ty : points st ty p v true -> iread st' p = Some v.
    Proof. intros (Ho&_&_)%upd_points. unfold iread. by rewrite Ho. Qed.
    Lemma upd_ev e : ev_ok st e -> ev_ok st' e.
    Proof.
      destruct e as [u o p v|u|u o r|p v]; simpl; [|done| |].
      - intros [? ?]. split; [by apply upd_points|done].
      - destruct r; try done. apply upd_good.
      - intros [ty H]. exists ty. by apply upd_points.
    Qed.
    Lemma upd_res ty r : res_ok st ty r -> res_ok st' ty r.
    Proof. destruct r; try done. apply upd_good. Qed.

    (** A frame other than the ones replaced. *)
    Definition other g : Prop := g ∈ k \/ exists u, u <> t /\ g ∈ get_stack st u.
    Lemma other_in u g : g ∈ get_stack st' u -> (u = t /\ g ∈ fs') \/ other g.
    Proof.
      rewrite (stack_upd st st' t _ u Hnew). destruct (decide (t = u)) as [<-|Hne].
      - intros [?|?]%elem_of_app; [by left|right; by left].
      - intros ?. right. right. by exists u.
    Qed.
    Lemma other_was g : other g -> exists u, g ∈ get_stack st u.
    Proof.
      intros [?|(u&?&?)]; [|by exists u]. exists t. rewrite Hold. apply elem_of_app. by right.
    Qed.
    Lemma other_sum (w : frame V Q -> nat) g : other g -> w g + lsum w fs <= msum (lsum w) (i_threads st).
    Proof.
      intros [Hg|(u&Hne&Hg)].
      - pose proof (msum_stack_ge w st t) as H. rewrite Hold, lsum_app in H.
        pose proof (lsum_ge w _ _ Hg). lia.
      - pose proof (msum_stack_ge2 w st t u ltac:(done)) as H. rewrite Hold, lsum_app in H.
        pose proof (lsum_ge w _ _ Hg). lia.
    Qed.
    Lemma other_sum' (w : frame V Q -> nat) g : other g -> w g + lsum w fs' <= msum (lsum w) (i_threads st').
    Proof.
      intros Ho. pose proof (msum_stack w st st' t _ Hnew) as H. rewrite Hold, !lsum_app in H.
      destruct Ho as [Hg|(u&Hne&Hg)].
      - pose proof (msum_stack_ge w st t) as H'. rewrite Hold, lsum_app in H'.
        pose proof (lsum_ge w _ _ Hg). lia.
      - pose proof (msum_stack_ge2 w st t u ltac:(done)) as H'. rewrite Hold, lsum_app in H'.
        pose proof (lsum_ge w _ _ Hg). lia.
    Qed.
    Lemma upd_box o b g : other g -> (forall s, owned s g = box_is s b) -> box_ok st o b -> box_ok st' o b.
    Proof.
      intros Hg Hb. destruct o; simpl; try done. intros (p&->&Hp&Hm&Ht). exists p. split; [done|].
      split_and!; [|done|done]. apply Hobjs; [done|].
      pose proof (other_sum (owned (ip_ser p)) g Hg) as H. rewrite (v_owned _ HI), Hb in H. simpl in H.
      rewrite Nat.eqb_refl in H. pose proof (own_le (ip_ser p)). lia.
    Qed.
    Lemma upd_frame g : other g -> frame_ok st g -> frame_ok st' g.
    Proof.
      intros Hg. destruct g as [o b|o b|ty w q|o v|o p|o b r|o r]; simpl; try done.
      - by apply (upd_box o b _ Hg).
      - intros [? ?]. split; [|done]. by apply (upd_box o b _ Hg).
      - intros (v&?&?). exists v. split; [by apply upd_points|done].
      - intros [? ?]. split; [by apply (upd_box o b _ Hg)|by apply upd_res].
      - apply upd_res.
    Qed.

    Context (Hfresh : forall s x, i_objs st' !! s = Some x -> s < i_next st').
    Context (Hzaddr : forall s x, i_objs st' !! s = Some x -> addr_ok (io_addr x) (io_val x)).
    Context (Haddr : forall s1 s2 x1 x2, i_objs st' !! s1 = Some x1 -> i_objs st' !! s2 = Some x2 ->
      is_zst E (io_val x1) = false -> is_zst E (io_val x2) = false -> io_addr x1 = io_addr x2 -> s1 = s2).
    Context (Hslot : forall s ty ps, (ty, ps) ∈ container st' s -> slot ty = s).
    Context (Hnodup : forall s, NoDup (container st' s).*1).
    Context (Hcur : forall ty, set_of E st' ty = (inserted E ty (i_log st')).*1).
    Context (Hfs : forall f, f ∈ fs' -> frame_ok st' f).
    Context (Hlog : forall e, e ∈ i_log st' -> e ∈ i_log st \/ ev_ok st' e).
    Context (Hhas : forall ty, is_Some (find_set ty (container st (slot ty))) -> is_Some (find_set ty (container st' (slot ty)))).
    Context (Hhas' : forall f, f ∈ fs' -> match f with FWait _ _ => True | _ =>
      is_Some (find_set (frame_ty f) (container st' (slot (frame_ty f)))) end).

    Lemma upd_inv : IInv st'.
    Proof.
      constructor; try done.
      - intros u g Hg. apply other_in in Hg as [[-> Hg]|Hg]; [by apply Hfs|].
        destruct (other_was g Hg) as [u' Hu]. apply upd_frame; [done|]. by eapply (v_frames _ HI).
      - apply upd_owned.
      - apply upd_locks.
      - intros e He. destruct (Hlog e He) as [He'|]; [|done]. apply upd_ev. by apply (v_log _ HI).
      - intros u g Hg. apply other_in in Hg as [[-> Hg]|Hg]; [by apply Hhas'|].
        destruct (other_was g Hg) as [u' Hu]. pose proof (v_has _ HI u' g Hu) as H.
        destruct g; try done; by apply Hhas.
    Qed.
  End update.
End inv.

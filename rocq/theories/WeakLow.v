(** WeakModel: [refcount()] is exact if the thread knows of all that changed the count, and never
    returns less than the number of handles the thread itself can use. *)
From stdpp Require Import gmap list numbers.
From Verif Require Import Base ArcModel ArcSpec ArcInv ArcStep ArcSafe ArcReach.
From Verif Require Import RaceModel RaceSpec RaceInv RaceStep RaceSafe RaceFinal RaceHb RaceThm.
From Verif Require Import WeakModel WeakSpec WeakHb WeakInv WeakSafe WeakCoh WeakVal.
Require Import ZifyBool ZifyNat ZifyN.

(** ** Sums *)
Lemma msum_le {A} (f g : A -> nat) (m m' : gmap nat A) :
  (forall k x', m' !! k = Some x' -> exists x, m !! k = Some x /\ g x' <= f x) -> msum g m' <= msum f m.
Proof.
  revert m. induction m' as [|k x' m' Hk IH] using map_ind; intros m H; [rewrite msum_empty; lia|].
  rewrite msum_insert_None by done. destruct (H k x') as (x&Hx&Hle); [apply lookup_insert|].
  rewrite (msum_delete f m k x Hx). assert (msum g m' <= msum f (delete k m)); [|lia].
  apply IH. intros j y' Hy'. assert (k <> j) by congruence.
  destruct (H j y') as (y&Hy&Hle'); [by rewrite lookup_insert_ne|]. exists y. by rewrite lookup_delete_ne.
Qed.
Lemma msum_many {A} (f : A -> nat) (m : gmap nat A) hs : NoDup hs ->
  (forall h, h ∈ hs -> exists y, m !! h = Some y /\ 1 <= f y) -> length hs <= msum f m.
Proof.
  intros Hn. revert m. induction Hn as [|h hs Hh Hn IH]; intros m H; simpl; [lia|].
  destruct (H h) as (y&Hy&Hf); [by left|]. rewrite (msum_delete f m h y Hy).
  assert (length hs <= msum f (delete h m)); [|lia]. apply IH. intros h' Hh'.
  destruct (H h') as (y'&Hy'&Hf'); [by right|]. exists y'. rewrite lookup_delete_ne; [done|]. intros ->. done.
Qed.
Lemma msum_part {A} (f : A -> nat) (g : nat -> nat) (d : A) (m : gmap nat A) T : f d = 0 -> NoDup T ->
  (forall t, t ∈ T -> g t <= f (default d (m !! t))) -> sum_list_with g T <= msum f m.
Proof.
  intros Hd Hn. revert m. induction Hn as [|t T Ht Hn IH]; intros m H; simpl; [lia|].
  pose proof (H t ltac:(by left)) as H1. destruct (m !! t) as [x|] eqn:Hx; simpl in H1.
  - rewrite (msum_delete f m t x Hx). assert (sum_list_with g T <= msum f (delete t m)); [|lia].
    apply IH. intros u Hu. rewrite lookup_delete_ne by (by intros ->). apply H. by right.
  - assert (sum_list_with g T <= msum f m); [|lia]. apply IH. intros u Hu. apply H. by right.
Qed.
Lemma sum_update (f g : nat -> nat) t T : NoDup T -> t ∈ T -> (forall u, u ∈ T -> u <> t -> g u <= f u) ->
  sum_list_with g T + f t <= sum_list_with f T + g t.
Proof.
  intros Hn. induction Hn as [|u T Hu Hn IH]; intros Ht H; [by apply elem_of_nil in Ht|]. simpl.
  apply elem_of_cons in Ht as [->|Ht].
  - assert (sum_list_with g T <= sum_list_with f T); [|lia].
    assert (forall u', u' ∈ T -> g u' <= f u') as H'.
    { intros u' Hu'. apply H; [by right|]. by intros ->. }
    clear -H'. induction T as [|a T IH]; simpl; [lia|]. pose proof (H' a ltac:(by left)).
    assert (sum_list_with g T <= sum_list_with f T); [|lia]. apply IH. intros. apply H'. by right.
  - pose proof (H u ltac:(by left)). assert (u <> t) by (by intros ->).
    assert (sum_list_with g T + f t <= sum_list_with f T + g t); [|lia]. apply IH; [done|].
    intros. apply H; [by right|done].
Qed.

Section low.
  Context {V : Type} (E : tyenv V) (O : orders).
  Context (HL : coherent E) (HW : wide E).
  Context (Hacq : acquires (o_sub O) = true) (Hrel : releases (o_sub O) = true).
  Implicit Types (s : rstate V) (x : wstate V) (p q : ptr).
  Notation hc := (handles_to E).

  Theorem weak_exact ls x t h ks w x' y : wbounded E O ls -> run (wstep E O) winit ls = Some x ->
    r_hands (w_race x) !! h = Some y -> wstep E O x (WRef t h ks w) = Next x' ->
    let p := target (h_ptr y) ks in
    (forall i u o, wevents E O ls !! i = Some (u, Op (MRmw (p_ser p) o)) -> wknown (wevents E O ls) t i) ->
    w_got x' = w_got x ++ [(t, p, N.of_nat (whandles E x p))].
  Proof.
    intros Hb Hr Hy Hs p Hk.
    destruct (weak_possible E O ls x t h ks w y Hr Hy) as [(_&Hle&Hlt&_) _]; [by eauto|]. fold p in Hle, Hlt.
    pose proof (whist E O ls x Hr) as HH.
    pose proof Hs as (y'&n&W&st&Hm&Hst&Hv&_&_&_&Hg)%wref_inv.
    apply may_use_inv in Hm as (_&Hy'&_). assert (y' = y) as -> by congruence. fold p in Hv, Hg.
    destruct (wrun_good E O HL HW Hacq Hrel ls Hb) as (x0&Hr0&HG). assert (x0 = x) as -> by congruence.
    apply lref_inv in Hst as (c&Hbo&_&_). fold p in Hbo.
    destruct (borrow_live E (r_st (w_race x)) (h_ptr y) ks (g_inv _ _ HG)) as [_ Hbl]. specialize (Hbl _ Hbo).
    destruct (val_run E O HL HW Hacq Hrel ls x Hb Hr) as (_&_&HT). destruct (HT p Hbl) as (W'&Hv').
    assert (w = length (writes_of x (p_ser p))) as Hw.
    { pose proof (hi_len _ _ _ _ HH (p_ser p)) as Hlen. change (obj_writes (w_writes x) (p_ser p)) with (writes_of x (p_ser p)) in Hlen.
      destruct (length (writes_of x (p_ser p))) as [|m] eqn:Hm; [lia|].
      destruct (writes_of x (p_ser p) !! m) as [z|] eqn:Hz; [|apply lookup_ge_None in Hz; lia].
      destruct (hi_ev _ _ _ _ HH (p_ser p) m z Hz) as (j&u&o&Hj&_&Hn).
      specialize (Hlt j u o Hj (Hk _ _ _ Hj)). lia. }
    rewrite Hw, Hv' in Hv. injection Hv as <- <-. done.
  Qed.

  (** ** Handles the changes to the count after value [w] are not known to *)
  Definition stale x (k w : nat) : gset nat := list_to_set (w_at <$> drop w (writes_of x k)).
  Definition pend p (g : pc V) : nat :=
    match g with
    | PInc _ _ _ q old => if (old =? 0)%N then 0 else is_p p q
    | PIns _ _ q => is_p p q
    | PRem _ _ _ r | PWork _ r => ret_handles p r
    | _ => 0
    end.
  Lemma pend_le p g : pend p g <= pc_handles E p g.
  Proof. destruct g; simpl; try case_match; lia. Qed.

  Lemma pend_step st l st' p t : Inv E st -> p ∈ st_table st -> step E st l = Next st' ->
    pend p (get_pc st' t) <= pend p (get_pc st t) \/ arc_rmw st l = Some p.
  Proof.
    intros HI Hp Hs.
    assert (forall k v q, get_pc st t = PVac k v q -> is_p p q = 0) as Hv.
    { intros k v q Hpc. apply is_p_ne. intros ->.
      pose proof (table_not_box _ _ HI p t Hp) as Hb. rewrite Hpc in Hb. simpl in Hb. rewrite at_addr_self in Hb. lia. }
    assert (forall q, is_p p q = 0 \/ q = p) as Hq.
    { intros q. unfold is_p. case_bool_decide; auto. }
    destruct l as [t' k v|t' q'|q' ks|q'|q' ks|q' ks|t' ty|t' ty|t' a i|t']; simpl in Hs;
      unfold step_thread, step_panic in Hs;
      repeat (match goal with
              | H : Next _ = Next _ |- _ => injection H as <-
              | H : (match ?x with _ => _ end) = Next _ |- _ => destruct x eqn:?; try done
              end); auto;
      unfold get_pc in *; simpl; (destruct (decide (t = t')) as [->|];
        [rewrite lookup_insert|rewrite lookup_insert_ne by done; by auto]); simpl;
      try (match goal with H : default PFree _ = _ |- _ => rewrite H end); simpl; try (left; lia).
    - destruct (Hq p0) as [H0|Hp0]; [left; rewrite H0; case_match; lia|]. right. unfold get_pc.
      match goal with H : default PFree _ = _ |- _ => rewrite H end. by rewrite Hp0.
    - left. match goal with H : (_ =? _)%N = false |- _ => rewrite H end. done.
    - left. erewrite Hv by done. lia.
  Qed.

  Lemma rstep_pc s l s' u : rstep E O s l = Next s' -> u <> actor l -> get_pc (r_st s') u = get_pc (r_st s) u.
  Proof.
    intros Hs Hu. apply rstep_erase in Hs.
    destruct l as [t k v hs|t h|t h ks h'|t h|t h ks|t h ks|t ty|t ty|t a i h|t|t m|t m]; cbn [erase] in Hs; simpl in Hu;
      try (destruct (r_hands s !! h)); try (by rewrite Hs); simpl in Hs; unfold step_thread, step_panic in Hs;
      repeat (match goal with
              | H : Next _ = Next _ |- _ => injection H as <-
              | H : (match ?x with _ => _ end) = Next _ |- _ => destruct x eqn:?; try done
              end); try done; unfold get_pc; simpl; by rewrite lookup_insert_ne.
  Qed.
  Lemma seen_applies s t ms u : u <> t -> seen (applies s t ms) u = seen s u.
  Proof.
    revert s. induction ms as [|m ms IH]; intros s Hu; [done|].
    change (applies s t (m :: ms)) with (applies (apply s t m) t ms). rewrite IH by done.
    by rewrite seen_apply, decide_False.
  Qed.
  Lemma seen_applies_mono s t ms : seen s t ⊆ seen (applies s t ms) t.
  Proof.
    revert s. induction ms as [|m ms IH]; intros s; [done|].
    change (applies s t (m :: ms)) with (applies (apply s t m) t ms). etrans; [|apply IH].
    rewrite seen_apply, decide_True by done. pose proof (seen_past s t m). set_solver.
  Qed.

  Lemma rstep_hands s l s' h y' : rstep E O s l = Next s' -> r_hands s' !! h = Some y' ->
    (exists y, r_hands s !! h = Some y /\ h_ptr y = h_ptr y' /\ h_made y = h_made y') \/
    r_hands s !! h = None /\
    ((exists t h0 ks y0, l = RClone t h0 ks h /\ r_hands s !! h0 = Some y0 /\ h_ptr y' = target (h_ptr y0) ks /\
        h_made y' = seen s' t) \/
     (exists t a i v q, l = RStep t a i h /\ get_pc (r_st s) t = PWork [] (Some (v, q)) /\ h_ptr y' = q /\ h_made y' = seen s t)).
  Proof.
    intros Hs Hy'. assert (forall t ms s1, r_hands (applies s1 t ms) = r_hands s1) as Happ.
    { intros t ms s1. apply (applies_frame s1 t ms). }
    assert (forall s1 t h0 y0, r_hands s1 = r_hands s -> r_hands s !! h0 = Some y0 ->
      r_hands (used s1 t h0 y0) !! h = Some y' ->
      exists y, r_hands s !! h = Some y /\ h_ptr y = h_ptr y' /\ h_made y = h_made y') as Hused.
    { intros s1 t h0 y0 H1 H2 H3. unfold used in H3. simpl in H3. rewrite H1 in H3. destruct (decide (h0 = h)) as [->|].
      - rewrite lookup_insert in H3. injection H3 as <-. by exists y0.
      - rewrite lookup_insert_ne in H3 by done. by exists y'. }
    destruct l as [t k v hs|t h1|t h1 ks h2|t h1|t h1 ks|t h1 ks|t ty|t ty|t a i h1|t|t m|t m]; cbn [rstep] in Hs.
    - destruct (consume_all s t hs) as [[ps s1]|] eqn:Hc; [|done]. destruct (decide _); [|done].
      apply consume_all_inv in Hc as (hm&->&Hhm&_). apply lift_Next in Hs as (st&Hst&->). left. exists y'.
      simpl in Hy'. by split; [apply Hhm|].
    - destruct (may_consume s t h1) as [x|] eqn:Hm; [|done]. apply lift_Next in Hs as (st&Hst&->).
      simpl in Hy'. apply lookup_delete_Some in Hy' as [_ Hy']. left. by exists y'.
    - destruct (may_use s t h1) as [x|] eqn:Hm; [|done]. destruct (r_hands s !! h2) eqn:Hh2; [done|].
      apply may_use_inv in Hm as (_&Hx&_). apply lift_Next in Hs as (st&Hst&->). cbv zeta in Hy' |- *.
      unfold new_hand in Hy'. cbn [r_hands set_hands] in Hy'. destruct (decide (h2 = h)) as [->|Hne].
      + rewrite lookup_insert in Hy'. injection Hy' as <-. right. split; [done|]. left. by exists t, h1, ks, x.
      + rewrite lookup_insert_ne in Hy' by done. left. eapply Hused; [|exact Hx|exact Hy']. by rewrite Happ.
    - destruct (may_consume s t h1) as [x|] eqn:Hm; [|done]. apply lift_Next in Hs as (st&Hst&->).
      simpl in Hy'. apply lookup_delete_Some in Hy' as [_ Hy']. left. by exists y'.
    - destruct (may_use s t h1) as [x|] eqn:Hm; [|done]. apply may_use_inv in Hm as (_&Hx&_).
      apply lift_Next in Hs as (st&Hst&->). left. eapply Hused; [|exact Hx|exact Hy']. by rewrite Happ.
    - destruct (may_use s t h1) as [x|] eqn:Hm; [|done]. apply may_use_inv in Hm as (_&Hx&_).
      apply lift_Next in Hs as (st&Hst&->). left. eapply Hused; [|exact Hx|exact Hy']. by rewrite Happ.
    - apply lift_Next in Hs as (st&Hst&->). left. by exists y'.
    - apply lift_Next in Hs as (st&Hst&->). left. by exists y'.
    - assert (forall ms, lift E s (LStep t a i) (λ s', applies s' t ms) = Next s' -> r_hands s !! h = Some y') as Hms.
      { intros ms Hl. apply lift_Next in Hl as (st&Hst&->). by rewrite Happ in Hy'. }
      destruct (get_pc (r_st s) t) as [|k v b|k v b q|k v b q old|k v b q|k v b|k v q|k v q|k v q|k v q|l' q w r|w r|ty j acc|ty j] eqn:Hpc;
        try (left; exists y'; split; [by eapply Hms|done]).
      destruct w as [|it w]; [|left; exists y'; split; [by eapply Hms|done]].
      destruct r as [[v q]|]; [|left; exists y'; split; [by eapply Hms|done]].
      destruct (r_hands s !! h1) eqn:Hh1; [done|]. apply lift_Next in Hs as (st&Hst&->).
      unfold new_hand in Hy'. cbn [r_hands set_hands] in Hy'. destruct (decide (h1 = h)) as [->|Hne].
      + rewrite lookup_insert in Hy'. injection Hy' as <-. right. split; [done|]. right. by exists t, a, i, v, q.
      + rewrite lookup_insert_ne in Hy' by done. left. by exists y'.
    - apply lift_Next in Hs as (st&Hst&->). rewrite Happ in Hy'. left. by exists y'.
    - destruct (get_pc (r_st s) t); try done. injection Hs as <-. left. exists y'. done.
    - destruct (get_pc (r_st s) t); try done. injection Hs as <-. left. exists y'. done.
  Qed.

  Definition Uhand F p (y : hand) : nat := if decide (h_made y ## F) then is_p p (h_ptr y) else 0.
  Definition Uthread F p s t : nat := if decide (seen s t ## F) then pend p (get_pc (r_st s) t) else 0.
  Definition U T F p s : nat := msum (Uhand F p) (r_hands s) + sum_list_with (Uthread F p s) T.

  Lemma U_step T p w x l x' : NoDup T -> wactor l ∈ T -> Good E (w_race x) -> p ∈ st_table (r_st (w_race x)) ->
    w <= length (writes_of x (p_ser p)) -> wstep E O x l = Next x' ->
    U T (stale x' (p_ser p) w) p (w_race x') <= U T (stale x (p_ser p) w) p (w_race x) /\
    w <= length (writes_of x' (p_ser p)).
  Proof.
    intros HT Ht HG Hp Hw Hs. pose proof (g_inv _ _ HG) as HI.
    set (k := p_ser p) in *. set (s := w_race x) in *. set (s' := w_race x').
    set (F := stale x k w). set (F' := stale x' k w).
    assert (exists ws, w_writes x' = w_writes x ++ ws) as (ws&Hws).
    { destruct (wstep_writes E O Hacq Hrel x l x' HG Hs) as [->|(q&W&a&->&_)]; [exists []; by rewrite app_nil_r|by eexists]. }
    assert (writes_of x' k = writes_of x k ++ obj_writes ws k) as Hwk.
    { rewrite (writes_of_app _ _ _ Hws). apply obj_writes_app. }
    split; [|rewrite Hwk, app_length; lia].
    assert (F' = F ∪ list_to_set (w_at <$> obj_writes ws k)) as HF.
    { unfold F', F, stale. rewrite Hwk, drop_app_le by done. by rewrite fmap_app, list_to_set_app_L. }
    assert (F ⊆ F') as HFs by (rewrite HF; set_solver).
    destruct l as [l|t h ks w'].
    - (* a step of RaceModel *)
      cbn [wactor] in Ht. set (t := actor l) in *.
      simpl in Hs. destruct (is_ref l) eqn:Hl; [done|]. fold s in Hs.
      destruct (rstep E O s l) as [s1| | |] eqn:Hst; try done. injection Hs as <-. cbn [w_race] in s'.
      pose proof (rstep_clk E O _ _ _ Hst) as Hclk. fold t in Hclk.
      assert (forall u, seen s' u = seen (applies s t (ops E O s l)) u) as Hseen.
      { intros u. unfold seen. by rewrite (proj1 Hclk). }
      assert (seen s t ⊆ seen s' t) as Hmono by (rewrite Hseen; apply seen_applies_mono).
      assert (forall q, rmw_obj s l = Some q -> p_ser q = k -> ~ seen s' t ## F') as Hrm.
      { intros q Hq He. pose proof (ops_rmw E O s l Hl) as Hops. rewrite Hq in Hops. destruct Hops as (pre&o&Hops&_).
        simpl in Hws. unfold record in Hws. rewrite Hq in Hws. apply app_inv_head in Hws. subst ws.
        rewrite obj_writes_one in HF. cbn [w_obj] in HF. rewrite He, Nat.eqb_refl in HF. cbn in HF.
        assert (pred (length (r_trace s1)) ∈ seen s' t) as Hin.
        { rewrite Hseen, Hops, applies_app. change (applies ?a ?b [?m]) with (apply a b m).
          rewrite seen_apply, decide_True by done.
          destruct Hclk as (_&_&_&_&Htr). rewrite <- Htr, Hops, applies_app. change (applies ?a ?b [?m]) with (apply a b m).
          rewrite trace_apply, app_length. simpl. rewrite Nat.add_1_r. simpl. set_solver. }
        rewrite HF. set_solver. }
      assert (forall u, u <> t -> Uthread F' p s' u <= Uthread F p s u) as Hoth.
      { intros u Hu. unfold Uthread. rewrite Hseen, seen_applies by done.
        unfold s'. rewrite (rstep_pc s l s1 u Hst Hu). destruct (decide (seen s u ## F')); [|lia].
        rewrite decide_True by set_solver. lia. }
      assert (forall y y', h_ptr y = h_ptr y' -> h_made y = h_made y' -> Uhand F' p y' <= Uhand F p y) as Hhand.
      { intros y y' H1 H2. unfold Uhand. rewrite H1, H2. destruct (decide (h_made y' ## F')); [|lia].
        rewrite decide_True by set_solver. lia. }
      pose proof (sum_update (Uthread F p s) (Uthread F' p s') t T HT Ht ltac:(auto)) as Hsum.
      assert (Uthread F' p s' t <= Uthread F p s t) as Hown.
      { unfold Uthread. destruct (decide (seen s' t ## F')) as [Hd|]; [|lia]. rewrite decide_True by set_solver.
        pose proof (rstep_erase E O _ _ _ Hst) as He.
        assert (forall l', erase s l = Some l' -> arc_rmw (r_st s) l' = rmw_obj s l) as Ha.
        { intros l' Hl'. destruct l as [u g v hs|u h|u h ks h'|u h|u h ks|u h ks|u ty|u ty|u a i h|u|u m|u m]; try done;
            cbn [erase] in Hl'; cbn [rmw_obj]; try (destruct (r_hands s !! h)); by simplify_eq. }
        destruct (erase s l) as [l'|]; [|unfold s'; rewrite He; lia].
        destruct (pend_step _ _ _ p t HI Hp He) as [|Hr]; [done|]. rewrite (Ha l' eq_refl) in Hr.
        by destruct (Hrm p Hr). }
      unfold U.
      (* a new handle? *)
      assert (msum (Uhand F' p) (r_hands s') <= msum (Uhand F p) (r_hands s) \/
        Uthread F' p s' t = 0 /\ msum (Uhand F' p) (r_hands s') <= msum (Uhand F p) (r_hands s) + Uthread F p s t) as Hh; [|lia].
      assert (forall h, r_hands s !! h = None -> (forall h2 y', h2 <> h -> r_hands s' !! h2 = Some y' ->
          exists y, r_hands s !! h2 = Some y /\ h_ptr y = h_ptr y' /\ h_made y = h_made y') ->
        msum (Uhand F' p) (r_hands s') <= msum (Uhand F p) (r_hands s) +
          match r_hands s' !! h with Some y' => Uhand F' p y' | None => 0 end) as Hcr.
      { intros h Hn Hh. destruct (r_hands s' !! h) as [y'|] eqn:Hy'.
        - rewrite (msum_delete _ _ _ _ Hy').
          assert (msum (Uhand F' p) (delete h (r_hands s')) <= msum (Uhand F p) (r_hands s)); [|lia].
          apply msum_le. intros h2 y2 [Hne H2]%lookup_delete_Some.
          destruct (Hh h2 y2) as (y&Hy&H3&H4); [done..|]. exists y. split; [done|]. by apply Hhand.
        - rewrite Nat.add_0_r. apply msum_le. intros h2 y2 H2. assert (h2 <> h) by congruence.
          destruct (Hh h2 y2) as (y&Hy&H3&H4); [done..|]. exists y. split; [done|]. by apply Hhand. }
      assert ((forall h y', r_hands s' !! h = Some y' -> exists y, r_hands s !! h = Some y /\ h_ptr y = h_ptr y' /\ h_made y = h_made y') \/
        exists h y', r_hands s' !! h = Some y' /\ r_hands s !! h = None /\
        ((exists u h0 ks y0, l = RClone u h0 ks h /\ r_hands s !! h0 = Some y0 /\ h_ptr y' = target (h_ptr y0) ks /\
            h_made y' = seen s' u) \/
         (exists u a i v q, l = RStep u a i h /\ get_pc (r_st s) u = PWork [] (Some (v, q)) /\ h_ptr y' = q /\ h_made y' = seen s u))) as Hcase.
      { pose proof (fun h y' => rstep_hands s l s' h y' Hst) as Hrh.
        destruct l as [u g v hs|u h|u h ks h'|u h|u h ks|u h ks|u ty|u ty|u a i h|u|u m|u m];
          try (left; intros h2 y2 H2; destruct (Hrh h2 y2 H2) as [|[_ [(?&?&?&?&[=]&_)|(?&?&?&?&?&[=]&_)]]]; done).
        - destruct (r_hands s' !! h') as [y'|] eqn:Hy'.
          + destruct (Hrh h' y' Hy') as [(y&Hy&_)|[H1 H2]]; [|right; by exists h', y'].
            exfalso. cbn [rstep] in Hst. rewrite Hy in Hst. by destruct (may_use s u h).
          + left. intros h2 y2 H2. destruct (Hrh h2 y2 H2) as [|[_ [(?&?&?&?&[= -> -> -> ->]&_)|(?&?&?&?&?&[=]&_)]]]; [done|congruence].
        - destruct (r_hands s' !! h) as [y'|] eqn:Hy'.
          + destruct (Hrh h y' Hy') as [(y&Hy&_)|[H1 H2]]; [|right; by exists h, y'].
            left. intros h2 y2 H2. destruct (Hrh h2 y2 H2) as [|[H3 [(?&?&?&?&[=]&_)|(?&?&?&?&?&[= -> -> -> ->]&_)]]]; [done|congruence].
          + left. intros h2 y2 H2. destruct (Hrh h2 y2 H2) as [|[_ [(?&?&?&?&[=]&_)|(?&?&?&?&?&[= -> -> -> ->]&_)]]]; [done|congruence]. }
      destruct Hcase as [Hsame|(h&y'&Hy'&Hn&Hcase)].
      + left. apply msum_le. intros h y' Hy'. destruct (Hsame h y' Hy') as (y&Hy&H1&H2). exists y. split; [done|]. by apply Hhand.
      + assert (forall h2 y2, h2 <> h -> r_hands s' !! h2 = Some y2 ->
          exists y, r_hands s !! h2 = Some y /\ h_ptr y = h_ptr y2 /\ h_made y = h_made y2) as Hothers.
        { intros h2 y2 Hne H2. destruct (rstep_hands s l s' h2 y2 Hst H2) as [|[_ H3]]; [done|]. exfalso.
          destruct Hcase as [(?&?&?&?&->&_)|(?&?&?&?&?&->&_)], H3 as [(?&?&?&?&[=]&_)|(?&?&?&?&?&[=]&_)]; done. }
        specialize (Hcr h Hn Hothers). rewrite Hy' in Hcr.
        destruct Hcase as [(u&h0&ks&y0&->&Hy0&Hptr&Hmade)|(u&a&i&v&q&->&Hpc&Hptr&Hmade)].
        * left. assert (Uhand F' p y' = 0) as H0; [|lia]. unfold Uhand. rewrite Hptr, Hmade.
          destruct (decide _) as [Hd|]; [|done]. apply is_p_ne. intros He.
          eapply (Hrm (target (h_ptr y0) ks)); [|by rewrite He|exact Hd]. cbn [rmw_obj]. by rewrite Hy0.
        * right. assert (Uhand F' p y' <= Uthread F p s t) as Hle.
          { unfold Uhand, Uthread. rewrite Hptr, Hmade. change t with u. destruct (decide (seen s u ## F')) as [Hd|]; [|lia].
            rewrite decide_True by set_solver. rewrite Hpc. simpl. lia. }
          split; [|lia]. unfold Uthread. change t with u. pose proof (rstep_erase E O _ _ _ Hst) as He. simpl in He.
          unfold step_thread in He. rewrite Hpc in He. injection He as He. unfold s'. rewrite <- He.
          unfold get_pc. simpl. rewrite lookup_insert. simpl. by destruct (decide _).
    - (* refcount *)
      cbn [wactor] in Ht. pose proof Hs as (y&n&W&st&Hm&Hstp&_&_&Hrace&Hwr&_)%wref_inv. fold s in Hm, Hstp, Hrace.
      apply may_use_inv in Hm as (_&Hy&_). apply lref_inv in Hstp as (c&_&_&->).
      assert (r_st s' = add_log (r_st s) (EvRef (target (h_ptr y) ks) (c_count c))) as H1.
      { unfold s'. rewrite Hrace. by destruct (acquires (o_load O)). }
      assert (exists y2, r_hands s' = <[h := y2]> (r_hands s) /\ h_ptr y2 = h_ptr y /\ h_made y2 = h_made y) as (y2&H2&H2'&H2'').
      { unfold s'. rewrite Hrace. unfold used. destruct (acquires (o_load O)); eexists; (split; [reflexivity|done]). }
      assert (forall u, seen s u ⊆ seen s' u) as H3.
      { intros u. unfold s'. rewrite Hrace. cbv zeta. change (seen (used ?a _ _ _) u) with (seen a u). rewrite seen_add.
        assert (seen s u ⊆ seen (apply (set_st s (add_log (r_st s) (EvRef (target (h_ptr y) ks) (c_count c)))) t (MTouch ((λ n0, (n0, TRead)) <$> path (h_ptr y) ks))) u) as Hm.
        { rewrite seen_apply. destruct (decide (u = t)) as [->|]; [|done].
          match goal with |- _ ⊆ _ ∪ past ?a ?b ?m => pose proof (seen_past a b m) as Hsp end.
          change (seen (set_st s _) t) with (seen s t) in Hsp. set_solver. }
        destruct (decide (u = t)) as [->|].
        - destruct (acquires (o_load O)); [rewrite seen_set_seen, decide_True by done|]; set_solver.
        - destruct (acquires (o_load O)); [rewrite seen_set_seen, decide_False by done|]; set_solver. }
      unfold U.
      assert (msum (Uhand F' p) (r_hands s') <= msum (Uhand F p) (r_hands s)) as Hh.
      { apply msum_le. rewrite H2. intros h2 y3 H4. destruct (decide (h = h2)) as [<-|].
        - rewrite lookup_insert in H4. injection H4 as <-. exists y. split; [done|]. unfold Uhand. rewrite H2', H2''.
          destruct (decide (h_made y ## F')); [|lia]. rewrite decide_True by set_solver. lia.
        - rewrite lookup_insert_ne in H4 by done. exists y3. split; [done|]. unfold Uhand.
          destruct (decide (h_made y3 ## F')); [|lia]. rewrite decide_True by set_solver. lia. }
      assert (forall u, Uthread F' p s' u <= Uthread F p s u) as Hu.
      { intros u. unfold Uthread. rewrite H1. change (get_pc (add_log (r_st s) ?e) u) with (get_pc (r_st s) u).
        specialize (H3 u). destruct (decide (seen s' u ## F')); [|lia]. rewrite decide_True by set_solver. lia. }
      pose proof (sum_update (Uthread F p s) (Uthread F' p s') t T HT Ht ltac:(auto)). specialize (Hu t). lia.
  Qed.

  (** ** Dead for good *)
  Definition Dead (st : state V) p : Prop :=
    hc st p = 0 /\ p_ser p < st_next st /\ forall t, pc_box (get_pc st t) <> Some p.
  Lemma dead_step st l st' p : Inv E st -> fits E st -> Inv E st' -> step E st l = Next st' -> Dead st p -> Dead st' p.
  Proof.
    intros HI Hf HI' Hs (H1&H2&H3). pose proof (proj1 (step_mono E _ _ _ Hs)). split; [|split; [lia|]].
    - destruct (decide (p ∈ st_table st)) as [Hin|Hn]; [exact (dead_stays E HL st l st' p HI Hf Hs Hin H1)|].
      destruct (decide (hc st' p = 0)) as [|Hpos]; [done|].
      destruct (step_table_new E _ _ _ p Hs Hn) as (t&a&i&k&v&->&Hpc); [apply (inv_hand _ _ HI'); lia|].
      destruct (H3 t). by rewrite Hpc.
    - intros t Hb. destruct (step_box E _ _ _ t p Hs Hb) as [Hb'|He]; [by destruct (H3 t)|lia].
  Qed.
  Lemma dies_step st l st' p : Inv E st -> step E st l = Next st' -> p ∈ st_table st -> hc st' p = 0 -> Dead st' p.
  Proof.
    intros HI Hs Hin H0. pose proof (proj1 (step_mono E _ _ _ Hs)).
    assert (p_ser p < st_next st) as Hlt.
    { destruct (table_deref _ _ HI p Hin) as (c&d&Hc&_). apply deref_Some in Hc as [Hc <-]. by eapply inv_ser. }
    split; [done|]. split; [lia|]. intros t Hb.
    destruct (step_box E _ _ _ t p Hs Hb) as [Hb'|He]; [|lia].
    pose proof (box_oc E _ _ _ HI Hb') as Ho. rewrite (table_not_box _ _ HI) in Ho by done. lia.
  Qed.

  Lemma U_run T p w ls1 x1 ls2 x : NoDup T -> wbounded E O (ls1 ++ ls2) ->
    run (wstep E O) winit ls1 = Some x1 -> run (wstep E O) winit (ls1 ++ ls2) = Some x ->
    (forall l, l ∈ ls2 -> wactor l ∈ T) -> 0 < whandles E x1 p -> length (writes_of x1 (p_ser p)) = w ->
    (0 < whandles E x p /\ w <= length (writes_of x (p_ser p)) /\
      U T (stale x (p_ser p) w) p (w_race x) <= U T ∅ p (w_race x1)) \/
    Dead (r_st (w_race x)) p.
  Proof.
    intros HT Hb Hr1 Hr Hact Hp Hw. revert x Hb Hr Hact. induction ls2 as [|l ls2 IH] using rev_ind; intros x Hb Hr Hact.
    - rewrite app_nil_r in Hr. assert (x1 = x) as <- by congruence. left. split; [done|]. split; [lia|].
      assert (stale x1 (p_ser p) w = ∅) as ->; [|done]. unfold stale. rewrite drop_ge by lia. done.
    - rewrite app_assoc in Hb, Hr. pose proof (wbounded_app E O _ _ Hb) as Hb0.
      destruct (wrun_good E O HL HW Hacq Hrel _ Hb0) as (x0&Hr0&HG0).
      destruct (wrun_good E O HL HW Hacq Hrel _ Hb) as (x'&Hr'&HG'). assert (x' = x) as -> by congruence.
      pose proof (wbounded_fit E O _ _ Hb0 Hr0) as Hf0.
      rewrite run_snoc, Hr0 in Hr. unfold exec in Hr.
      assert (forall l, l ∈ ls2 -> wactor l ∈ T) as Hact'.
      { intros l' Hl'. apply Hact. apply elem_of_app. by left. }
      specialize (IH x0 Hb0 Hr0 Hact').
      destruct (wstep E O x0 l) as [x2| | |] eqn:Hs; [|by injection Hr as <-..|done]. injection Hr as ->.
      pose proof (g_inv _ _ HG0) as HI0. pose proof (g_inv _ _ HG') as HI'.
      destruct IH as [(H1&H2&H3)|HD].
      + pose proof (inv_hand _ _ HI0 p H1) as Hin.
        destruct (decide (whandles E x p = 0)) as [H0|Hpos].
        * right. destruct (wstep_arc E O x0 l x Hs) as [(l'&Hst)|He].
          -- exact (dies_step _ l' _ p HI0 Hst Hin H0).
          -- unfold whandles in *. rewrite He in H0. lia.
        * left. split; [lia|].
          destruct (U_step T p w x0 l x HT) as [H4 H5]; try done.
          { apply Hact. apply elem_of_app. right. by left. }
          split; [done|lia].
      + right. destruct (wstep_arc E O x0 l x Hs) as [(l'&Hst)|He]; [|by rewrite He].
        exact (dead_step (r_st (w_race x0)) l' _ p HI0 Hf0 HI' Hst HD).
  Qed.

  Theorem weak_lower ls x t h ks w x' y n hs : wbounded E O ls -> run (wstep E O) winit ls = Some x ->
    r_hands (w_race x) !! h = Some y -> wstep E O x (WRef t h ks w) = Next x' ->
    let p := target (h_ptr y) ks in
    w_got x' = w_got x ++ [(t, p, n)] ->
    NoDup hs -> (forall h', h' ∈ hs -> exists y', may_use (w_race x) t h' = Some y' /\ h_ptr y' = p) ->
    (N.of_nat (length hs) <= n)%N.
  Proof.
    intros Hb Hr Hy Hs p Hg Hnd Hhs.
    destruct (weak_value E O HL HW Hacq Hrel ls x t h ks w x' y Hb Hr Hy Hs) as (ls1&ls2&x1&->&Hr1&Hg'&Hpos&Hw).
    fold p in Hg', Hpos, Hw. rewrite Hg in Hg'. apply app_inv_head in Hg'. injection Hg' as ->.
    pose proof (hi_len _ _ _ _ (whist E O ls1 x1 Hr1) (p_ser p)) as Hlen.
    change (obj_writes (w_writes x1) (p_ser p)) with (writes_of x1 (p_ser p)) in Hlen.
    set (T := remove_dups (wactor <$> ls2)).
    destruct (wrun_good E O HL HW Hacq Hrel _ Hb) as (x0&Hr0&HG). assert (x0 = x) as -> by congruence.
    destruct (wrun_good E O HL HW Hacq Hrel ls1 (wbounded_app E O _ _ Hb)) as (x0&Hr0'&HG1). assert (x0 = x1) as -> by congruence.
    destruct (U_run T p w ls1 x1 ls2 x) as [(Hp&_&HU)|HD]; try done.
    { apply NoDup_remove_dups. }
    { intros l Hl. apply elem_of_remove_dups, elem_of_list_fmap. by exists l. }
    { lia. }
    - apply wref_inv in Hs as (y'&n'&W&st&Hm&_&_&Hc&_).
      apply may_use_inv in Hm as (_&Hy'&_). assert (y' = y) as -> by congruence. fold p in Hc.
      assert (seen (w_race x) t ## stale x (p_ser p) w) as Hdis.
      { unfold coherent_read in Hc. apply andb_true_iff in Hc as [Hc _]. rewrite forallb_forall in Hc.
        intros a Ha Ha'. unfold stale in Ha'. apply elem_of_list_to_set, elem_of_list_fmap in Ha' as (z&->&Hz).
        apply elem_of_list_In in Hz. specialize (Hc z Hz). by rewrite bool_decide_true in Hc by done. }
      assert (length hs <= U T (stale x (p_ser p) w) p (w_race x)) as H1.
      { unfold U. assert (length hs <= msum (Uhand (stale x (p_ser p) w) p) (r_hands (w_race x))); [|lia].
        apply msum_many; [done|]. intros h' Hh'. destruct (Hhs h' Hh') as (y'&Hm&He).
        apply may_use_inv in Hm as (_&Hy2&Hsub). exists y'. split; [done|]. unfold Uhand.
        rewrite decide_True by set_solver. by rewrite He, is_p_self. }
      assert (U T ∅ p (w_race x1) <= whandles E x1 p) as H2; [|lia].
      unfold U, whandles, handles_to.
      assert (msum (Uhand ∅ p) (r_hands (w_race x1)) <= occ p (st_pool (r_st (w_race x1)))) as H3.
      { rewrite (g_pool _ _ HG1 p). apply msum_le. intros h' y' Hy2. exists y'. split; [done|]. unfold Uhand. by destruct (decide _); lia. }
      assert (sum_list_with (Uthread ∅ p (w_race x1)) T <= msum (pc_handles E p) (st_threads (r_st (w_race x1)))) as H4; [|lia].
      apply (msum_part _ _ PFree); [done|apply NoDup_remove_dups|]. intros u _. unfold Uthread.
      pose proof (pend_le p (get_pc (r_st (w_race x1)) u)) as Hle. unfold get_pc in *. destruct (decide _); lia.
    - exfalso. destruct HD as (H0&_). pose proof Hs as (y'&n'&W&st&Hm&Hst&_)%wref_inv.
      apply may_use_inv in Hm as (_&Hy'&_). assert (y' = y) as -> by congruence.
      apply lref_inv in Hst as (c&Hbo&_&_). fold p in Hbo.
      destruct (borrow_live E (r_st (w_race x)) (h_ptr y) ks (g_inv _ _ HG)) as [_ Hbl]. specialize (Hbl _ Hbo). lia.
  Qed.
End low.

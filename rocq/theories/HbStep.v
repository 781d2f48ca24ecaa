(** The acts of the steps of InternModel account for them (C58). *)
From stdpp Require Import gmap list numbers.
From Verif Require Import Base InternModel InternSpec InternInv InternStep InternFinal HbSpec HbModel HbThm HbStepSpec.

(** To check that something is not accessed. *)
Definition accessb (d : list act) (k : mloc) : bool := existsb (λ a, existsb (λ x : mloc * bool, bool_decide (x.1 = k)) (touched a)) d.
Lemma accessb_no d k : accessb d k = false -> ~ does_access d k.
Proof.
  intros H (a&w&Ha&Hw). assert (accessb d k = true) as H'; [|congruence].
  apply existsb_exists. exists a. split; [by apply elem_of_list_In|]. apply existsb_exists. exists (k, w).
  split; [by apply elem_of_list_In|]. by apply bool_decide_eq_true.
Qed.

Section foot.
  Context {V Q : Type} (E : ienv V Q).
  Implicit Types (st : istate V Q) (o : iop V Q) (p : iptr).

  Lemma not_access d k a w : ~ does_access d k -> a ∈ d -> (k, w) ∉ touched a.
  Proof. intros H ??. apply H. by exists a, w. Qed.
  Lemma access_cons a d k : does_access (a :: d) k <-> (exists w, (k, w) ∈ touched a) \/ does_access d k.
  Proof.
    unfold does_access. split.
    - intros (b&w&[->|H]%elem_of_cons&Hw); [left; by eexists|right; by eauto].
    - intros [[w H]|(b&w&H&Hw)]; [exists a, w|exists b, w]; split; try done; [left|by right].
  Qed.
  Lemma access_nil k : does_access [] k <-> False.
  Proof. split; [|done]. by intros (?&?&?%elem_of_nil&?). Qed.

  Lemma ov_read st s v p : ip_ser p <> s -> iread (i_other_value st s v) p = iread st p.
  Proof. intros H. unfold iread. simpl. by rewrite lookup_alter_ne. Qed.
  Lemma ov_set st s v ty : set_of E (i_other_value st s v) ty = set_of E st ty.
  Proof. done. Qed.
  Lemma ov_readable st s v l : (forall p, p ∈ l -> ip_ser p <> s) -> ireadable (i_other_value st s v) l = ireadable st l.
  Proof.
    intros H. unfold ireadable. induction l as [|p l IH]; [done|]. simpl.
    rewrite ov_read by (apply H; left). f_equal. apply IH. intros q Hq. apply H. by right.
  Qed.
  Lemma ov_cands st s v f l : (forall p, p ∈ l -> ip_ser p <> s) ->
    candidates (i_other_value st s v) f l = candidates st f l.
  Proof.
    intros H. unfold candidates. induction l as [|p l IH]; [done|]. simpl.
    rewrite ov_read by (apply H; left). rewrite IH; [done|]. intros q Hq. apply H. by right.
  Qed.
  Lemma ov_alloc st s v a w b : (forall x, i_objs st !! s = Some x -> is_zst E v = is_zst E (io_val x)) -> s <> i_next st ->
    ialloc E (i_other_value st s v) a w b =
    (λ r, (i_other_value r.1 s v, r.2)) <$> ialloc E st a w b.
  Proof.
    intros Hz Hs. unfold ialloc.
    assert (addr_free E (i_other_value st s v) a = addr_free E st a) as ->.
    { unfold addr_free. apply bool_decide_ext. simpl. split; intros H i x Hx.
      - destruct (decide (i = s)) as [->|Hi].
        + specialize (H s (IObj (io_addr x) v (io_leaked x))). simpl in H. rewrite <- (Hz x Hx). apply H.
          by rewrite lookup_alter, Hx.
        + apply (H i). by rewrite lookup_alter_ne.
      - destruct (decide (i = s)) as [->|Hi].
        + rewrite lookup_alter in Hx. destruct (i_objs st !! s) as [y|] eqn:Hy; [|done]. injection Hx as <-. simpl.
          rewrite (Hz y eq_refl). by apply (H s).
        + rewrite lookup_alter_ne in Hx by done. by apply (H i). }
    simpl. destruct (is_zst E w || addr_free E st a); [|done]. simpl. f_equal. f_equal. unfold i_other_value. simpl. f_equal.
    by rewrite alter_insert_ne.
  Qed.
  Lemma ov_free st s v p : ip_ser p <> s -> ifree (i_other_value st s v) p = (λ r, i_other_value r s v) <$> ifree st p.
  Proof.
    intros H. unfold ifree. simpl. rewrite lookup_alter_ne by done. destruct (i_objs st !! ip_ser p) as [x|]; [|done].
    destruct (io_leaked x); [done|]. simpl. f_equal. unfold i_other_value, set_objs. simpl. f_equal.
    apply map_eq. intros i. destruct (decide (i = ip_ser p)) as [->|Hi].
    - by rewrite lookup_delete, lookup_alter_ne, lookup_delete.
    - rewrite lookup_delete_ne by done. destruct (decide (i = s)) as [->|?].
      + by rewrite !lookup_alter, lookup_delete_ne.
      + by rewrite !lookup_alter_ne, lookup_delete_ne.
  Qed.
  Lemma ov_leak st s v p : ip_ser p <> s -> ileak (i_other_value st s v) p = (λ r, i_other_value r s v) <$> ileak st p.
  Proof.
    intros H. unfold ileak. simpl. rewrite lookup_alter_ne by done. destruct (i_objs st !! ip_ser p) as [x|]; [|done].
    destruct (io_leaked x); [done|]. simpl. f_equal. unfold i_other_value, set_objs. simpl. f_equal.
    by rewrite alter_insert_ne.
  Qed.

  Lemma not_access_cons a d k : ~ does_access (a :: d) k -> (forall w, (k, w) ∉ touched a) /\ ~ does_access d k.
  Proof. rewrite access_cons. intros H. split; [intros w Hw; apply H; left; by eexists|tauto]. Qed.
  Lemma not_set st (l : list iptr) s w : (LVal s, w) ∉ (λ p, (val p, false)) <$> l -> w = false -> forall p, p ∈ l -> ip_ser p <> s.
  Proof. intros H -> p Hp <-. apply H. apply elem_of_list_fmap. by exists p. Qed.

  Theorem i_reads_value st t l st' s v :
    i_by l t = true -> istep E st l = Next st' -> ~ does_access (i_does E st t l) (LVal s) ->
    (forall x, i_value st s = Some x -> is_zst E v = is_zst E x) ->
    istep E (i_other_value st s v) l = Next (i_other_value st' s v).
  Proof.
    intros Hb Hs Hd Hz0.
    assert (forall x, i_objs st !! s = Some x -> is_zst E v = is_zst E (io_val x)) as Hz.
    { intros x Hx. apply Hz0. unfold i_value. by rewrite Hx. } clear Hz0.
    destruct l as [u o a|u a i|u w|u|p]; simpl in Hb, Hs |- *; try apply Nat.eqb_eq in Hb as ->.
    - change (get_stack (i_other_value st s v) t) with (get_stack st t).
      destruct (match get_stack st t with f :: _ => in_user f | [] => true end); [|done].
      destruct o; simpl in Hd; try by injection Hs as <-.
      rewrite ov_alloc; [|done|intros ->; apply Hd; apply access_cons; left; exists true; left].
      destruct (ialloc E st a v0 false) as [[st1 p]|] eqn:Ha; [|done]. simpl. by injection Hs as <-.
    - unfold istep_thread in *. simpl in Hd. change (get_stack (i_other_value st s v) t) with (get_stack st t).
      destruct (get_stack st t) as [|[o b|o b|ty w q|o w|o p|o b r|o r] k] eqn:Hk; try done.
      + simpl. destruct (i_locks st !! slot E (op_ty E o)); [done|]. destruct o; by injection Hs as <-.
      + unfold i_looks in Hd. rewrite Hk in Hd. apply not_access_cons in Hd as [Hd _]. cbn in Hd.
        assert (forall p, p ∈ set_of E st (op_ty E o) -> ip_ser p <> s) as Hset.
        { eapply (not_set st _ _ false); [|done]. specialize (Hd false). intros H. apply Hd. right. apply elem_of_app. by left. }
        assert (forall p, b = Some p -> ip_ser p <> s) as Hbb.
        { intros p ->. specialize (Hd false). intros <-. apply Hd. right. apply elem_of_app. right. left. }
        rewrite ov_set, ov_readable, ov_cands by done. destruct (ireadable _ _); [|done].
        destruct (ipick _ _), o; try done; try by injection Hs as <-.
        destruct b as [p|]; [|done]. rewrite ov_leak by auto. destruct (ileak st p); [|done]. simpl. by injection Hs as <-.
      + rewrite ov_alloc; [|done|intros ->; apply Hd; apply access_cons; left; exists true; left].
        destruct (ialloc E st a w true) as [[st1 p]|] eqn:Ha; [|done]. simpl. by injection Hs as <-.
      + unfold i_looks in Hd. rewrite Hk in Hd. apply not_access_cons in Hd as [Hd _]. cbn in Hd.
        assert (forall p, p ∈ set_of E st (op_ty E o) -> ip_ser p <> s) as Hset.
        { eapply (not_set st _ _ false); [|done]. specialize (Hd false). intros H. apply Hd. right. right. apply elem_of_app. by left. }
        assert (ip_ser p <> s) as Hp.
        { specialize (Hd false). intros <-. apply Hd. right. right. apply elem_of_app. right. left. }
        rewrite ov_read, ov_set by done. destruct (iread st p) as [w|]; [|done]. rewrite ov_readable, ov_cands by done.
        destruct (ireadable _ _); [|done]. destruct (candidates _ _ _); by injection Hs as <-.
      + unfold i_looks in Hd. rewrite Hk in Hd. apply not_access_cons in Hd as [Hd _]. cbn in Hd.
        destruct b as [p|]; [|by injection Hs as <-].
        rewrite ov_free; [|intros <-; apply (Hd true); left].
        destruct (ifree st p); [|done]. simpl. by injection Hs as <-.
      + by injection Hs as <-.
    - change (get_stack (i_other_value st s v) t) with (get_stack st t).
      destruct (get_stack st t) as [|[] k]; try done. destruct (_ && _); [|done]. by injection Hs as <-.
    - unfold istep_panic in *. change (get_stack (i_other_value st s v) t) with (get_stack st t).
      destruct (get_stack st t) as [|[| | | | |? ? []|] k]; try done; by injection Hs as <-.
    - destruct (returned p (i_log st)); [|done]. simpl in Hd. apply not_access_cons in Hd as [Hd _].
      rewrite ov_read; [|intros <-; apply (Hd false); left]. destruct (iread st p); [|done]. by injection Hs as <-.
  Qed.

  Lemma os_set st c l ty : c <> slot E ty -> set_of E (i_other_set st c l) ty = set_of E st ty.
  Proof. intros H. unfold set_of, container. simpl. by rewrite lookup_insert_ne. Qed.
  Lemma os_alloc st c l a w b :
    ialloc E (i_other_set st c l) a w b = (λ r, (i_other_set r.1 c l, r.2)) <$> ialloc E st a w b.
  Proof. unfold ialloc. change (addr_free E (i_other_set st c l) a) with (addr_free E st a). by destruct (_ || _). Qed.
  Lemma os_free st c l p : ifree (i_other_set st c l) p = (λ r, i_other_set r c l) <$> ifree st p.
  Proof. unfold ifree. simpl. destruct (i_objs st !! ip_ser p) as [x|]; [|done]. by destruct (io_leaked x). Qed.
  Lemma os_leak st c l p : ileak (i_other_set st c l) p = (λ r, i_other_set r c l) <$> ileak st p.
  Proof. unfold ileak. simpl. destruct (i_objs st !! ip_ser p) as [x|]; [|done]. by destruct (io_leaked x). Qed.

  Theorem i_reads_set st t l st' c k' :
    i_by l t = true -> istep E st l = Next st' -> ~ does_access (i_does E st t l) (LSet (c, 0)) ->
    istep E (i_other_set st c k') l = Next (i_other_set st' c k').
  Proof.
    intros Hb Hs Hd.
    destruct l as [u o a|u a i|u w|u|p]; simpl in Hb, Hs |- *; try apply Nat.eqb_eq in Hb as ->.
    - change (get_stack (i_other_set st c k') t) with (get_stack st t).
      destruct (match get_stack st t with f :: _ => in_user f | [] => true end); [|done].
      destruct o; simpl in Hd; try by injection Hs as <-.
      rewrite os_alloc. destruct (ialloc E st a v false) as [[st1 p]|] eqn:Ha; [|done]. simpl. by injection Hs as <-.
    - unfold istep_thread in *. simpl in Hd. change (get_stack (i_other_set st c k') t) with (get_stack st t).
      destruct (get_stack st t) as [|[o b|o b|ty w q|o w|o p|o b r|o r] k] eqn:Hk; try done.
      + simpl. destruct (i_locks st !! slot E (op_ty E o)); [done|].
        apply not_access_cons in Hd as [_ Hd]. apply not_access_cons in Hd as [Hd _].
        assert (c <> slot E (op_ty E o)) as Hc by (intros ->; apply (Hd true); left).
        assert (forall ty, ty = op_ty E o -> container (i_other_set st c k') (slot E ty) = container st (slot E ty)) as Hct.
        { intros ty ->. unfold container. simpl. by rewrite lookup_insert_ne. }
        rewrite Hct by done.
        destruct o; injection Hs as <-; try (unfold i_other_set, set_stack; simpl; by rewrite insert_commute).
        * unfold i_other_set, set_stack, set_of, container; simpl in *. rewrite !lookup_insert. by rewrite insert_commute.
        * unfold i_other_set, set_stack, put_set, add_event, set_slots, container; simpl in *.
          rewrite !lookup_insert. simpl. rewrite insert_insert. rewrite insert_commute by done. by rewrite insert_insert.
      + unfold i_looks in Hd. rewrite Hk in Hd. apply not_access_cons in Hd as [Hd _]. cbn in Hd.
        assert (c <> slot E (op_ty E o)) as Hc by (intros ->; apply (Hd false); left).
        rewrite os_set by done. change (ireadable (i_other_set st c k')) with (ireadable st).
        change (candidates (i_other_set st c k')) with (candidates st).
        destruct (ireadable _ _); [|done].
        destruct (ipick _ _), o; try done; try by injection Hs as <-.
        destruct b as [p|]; [|done]. rewrite os_leak by auto. destruct (ileak st p); [|done]. simpl. by injection Hs as <-.
      + rewrite os_alloc. destruct (ialloc E st a w true) as [[st1 p]|] eqn:Ha; [|done]. simpl. by injection Hs as <-.
      + unfold i_looks in Hd. rewrite Hk in Hd. apply not_access_cons in Hd as [Hd _]. cbn in Hd.
        assert (c <> slot E (op_ty E o)) as Hc by (intros ->; apply (Hd true); left).
        rewrite os_set by done. change (iread (i_other_set st c k')) with (iread st).
        destruct (iread st p) as [w|]; [|done]. change (ireadable (i_other_set st c k')) with (ireadable st).
        change (candidates (i_other_set st c k')) with (candidates st).
        destruct (ireadable _ _); [|done]. destruct (candidates _ _ _); injection Hs as <-; [|done].
        unfold i_other_set, set_stack, add_event, put_set, set_slots, container; simpl. rewrite lookup_insert_ne by done.
        by rewrite insert_commute.
      + destruct b as [p|]; [|by injection Hs as <-].
        rewrite os_free. destruct (ifree st p); [|done]. simpl. by injection Hs as <-.
      + by injection Hs as <-.
    - change (get_stack (i_other_set st c k') t) with (get_stack st t).
      destruct (get_stack st t) as [|[] k]; try done. destruct (_ && _); [|done]. by injection Hs as <-.
    - unfold istep_panic in *. change (get_stack (i_other_set st c k') t) with (get_stack st t).
      destruct (get_stack st t) as [|[| | | | |? ? []|] k]; try done; by injection Hs as <-.
    - destruct (returned p (i_log st)); [|done]. change (iread (i_other_set st c k')) with (iread st).
      destruct (iread st p); [|done]. by injection Hs as <-.
  Qed.

  (** ** Who holds a mutex *)
  Notation held := (held E).
  Definition owns st : Prop := forall t f c, f ∈ get_stack st t -> held c f = 1 -> i_locks st !! c = Some t.
  Lemma owns_keep st st' t fs fs' k : owns st -> i_threads st' = <[t := fs' ++ k]> (i_threads st) -> get_stack st t = fs ++ k ->
    i_locks st' = i_locks st -> (forall f c, f ∈ fs' -> held c f = 1 -> exists g, g ∈ fs /\ held c g = 1) -> owns st'.
  Proof.
    intros HO Hth Hk Hl Hf u f c Hu Hh. rewrite Hl. rewrite (stack_upd _ _ _ _ u Hth) in Hu.
    destruct (decide (t = u)) as [<-|]; [|by eapply HO]. apply elem_of_app in Hu as [Hu|Hu].
    - destruct (Hf f c Hu Hh) as (g&Hg&Hh'). eapply HO; [|exact Hh']. rewrite Hk. apply elem_of_app. by left.
    - eapply HO; [|exact Hh]. rewrite Hk. apply elem_of_app. by right.
  Qed.
  Lemma owns_step st l st' : IInv E st -> owns st -> istep E st l = Next st' -> owns st'.
  Proof.
    intros HI HO Hs. destruct l as [t o a|t a i|t w|t|p]; simpl in Hs.
    - destruct (match get_stack st t with f :: _ => in_user f | [] => true end); [|done].
      assert (forall st1 b, i_threads st1 = i_threads st -> i_locks st1 = i_locks st -> owns (set_stack st1 t (FWait o b :: get_stack st t))) as Hgo.
      { intros st1 b H1 H2. apply (owns_keep st _ t [] [FWait o b] (get_stack st t)); [done|simpl; by rewrite H1|done|done|].
        by intros f c ->%elem_of_list_singleton. }
      destruct o; try (injection Hs as <-; by apply Hgo).
      destruct (ialloc E st a v false) as [[st1 p]|] eqn:Ha; [|done]. injection Hs as <-.
      unfold ialloc in Ha. destruct (_ || _); [|done]. injection Ha as <- <-. by apply Hgo.
    - unfold istep_thread in Hs. destruct (get_stack st t) as [|f0 k] eqn:Hk; [done|].
      assert (forall st1 g, (forall c, held c g = 1 -> held c f0 = 1) -> i_threads st1 = i_threads st -> i_locks st1 = i_locks st ->
        owns (set_stack st1 t (g :: k))) as Hgo.
      { intros st1 g Hg H1 H2. apply (owns_keep st _ t [f0] [g] k); [done|simpl; by rewrite H1|done|done|].
        intros f c ->%elem_of_list_singleton. exists f0. split; [left|by apply Hg]. }
      destruct f0 as [o b|o b|ty w q|o w|o p|o b r|o r].
      + destruct (i_locks st !! slot E (op_ty E o)) eqn:Hl; [done|].
        assert (forall u g, g ∈ get_stack st u -> held (slot E (op_ty E o)) g = 0) as H0.
        { intros u g Hg. destruct (decide (held (slot E (op_ty E o)) g = 0)) as [|Hne]; [done|].
          rewrite (HO u g (slot E (op_ty E o))) in Hl; [done|done|]. unfold InternInv.held in *. destruct g; try done; by destruct (_ =? _). }
        assert (forall st1 g, (forall c, held c g = 1 -> c = slot E (op_ty E o)) -> i_threads st1 = i_threads st ->
          i_locks st1 = <[slot E (op_ty E o) := t]> (i_locks st) -> owns (set_stack st1 t (g :: k))) as Hin.
        { intros st1 g Hg Hth Hl1 u f c Hu Hh. simpl. rewrite Hl1.
          assert (i_threads (set_stack st1 t (g :: k)) = <[t := g :: k]> (i_threads st)) as Hth' by (simpl; by rewrite Hth).
          rewrite (stack_upd _ _ _ _ u Hth') in Hu. destruct (decide (t = u)) as [<-|Hne].
          - apply elem_of_cons in Hu as [->|Hu]; [rewrite (Hg c Hh); by rewrite lookup_insert|].
            destruct (decide (c = slot E (op_ty E o))) as [->|]; [by rewrite lookup_insert|]. rewrite lookup_insert_ne by done.
            eapply HO; [rewrite Hk; right; exact Hu|done].
          - destruct (decide (c = slot E (op_ty E o))) as [->|]; [by rewrite (H0 u f Hu) in Hh|]. rewrite lookup_insert_ne by done.
            by eapply HO. }
        assert (forall c g, (forall o' b', g <> FWait o' b') -> frame_ty E g = op_ty E o -> held c g = 1 -> c = slot E (op_ty E o)) as Hc.
        { intros c g Hw Hty Hh. unfold InternInv.held in Hh. rewrite Hty in Hh. destruct g; try done; by destruct (Nat.eqb_spec (slot E (op_ty E o)) c). }
        destruct o; injection Hs as <-; (apply Hin; [intros c; by apply Hc|done|done]).
      + destruct (ireadable _ _); [|done]. destruct (ipick _ _), o; try done; try (injection Hs as <-; by apply Hgo).
        destruct b as [p|]; [|done]. destruct (ileak st p) as [st1|] eqn:Hp; [|done]. injection Hs as <-.
        unfold ileak in Hp. destruct (i_objs st !! ip_ser p) as [x|]; [|done]. destruct (io_leaked x); [done|]. injection Hp as <-. by apply Hgo.
      + done.
      + destruct (ialloc E st a w true) as [[st1 p]|] eqn:Ha; [|done]. injection Hs as <-.
        unfold ialloc in Ha. destruct (_ || _); [|done]. injection Ha as <- <-. by apply Hgo.
      + destruct (iread st p); [|done]. destruct (ireadable _ _); [|done]. destruct (candidates _ _ _); injection Hs as <-; by apply Hgo.
      + destruct b as [p|]; [|injection Hs as <-; by apply Hgo]. destruct (ifree st p) as [st1|] eqn:Hp; [|done]. injection Hs as <-.
        unfold ifree in Hp. destruct (i_objs st !! ip_ser p) as [x|]; [|done]. destruct (io_leaked x); [done|]. injection Hp as <-. by apply Hgo.
      + injection Hs as <-. intros u f c Hu Hh. simpl.
        assert (held (slot E (op_ty E o)) (FDone o r) = 1) as Hh0 by (simpl; by rewrite Nat.eqb_refl).
        pose proof (v_locks _ _ HI (slot E (op_ty E o))) as Hsum. assert (lk st (slot E (op_ty E o)) <= 1) as Hle by (unfold lk; destruct (i_locks st !! slot E (op_ty E o)); lia).
        assert (c <> slot E (op_ty E o) /\ f ∈ get_stack st u) as [Hne Hin].
        { match goal with H : f ∈ get_stack ?s' u |- _ => assert (i_threads s' = <[t := k]> (i_threads st)) as Hth by done end.
          rewrite (stack_upd _ _ _ _ u Hth) in Hu. destruct (decide (t = u)) as [<-|Hne].
          - split; [|rewrite Hk; by right]. intros ->. pose proof (msum_stack_ge (held (slot E (op_ty E o))) st t) as Hge. rewrite Hk in Hge.
            cbn [lsum] in Hge. apply (lsum_ge (held (slot E (op_ty E o)))) in Hu. lia.
          - split; [|done]. intros ->. pose proof (msum_stack_ge2 (held (slot E (op_ty E o))) st t u Hne) as Hge. rewrite Hk in Hge.
            cbn [lsum] in Hge. apply (lsum_ge (held (slot E (op_ty E o)))) in Hu. lia. }
        rewrite lookup_delete_ne by done. by eapply HO.
    - destruct (get_stack st t) as [|[] k] eqn:Hk; try done. destruct (_ && _); [|done]. injection Hs as <-.
      eapply (owns_keep st _ t [_] [_] k); [done|done|done|done|]. intros f c ->%elem_of_list_singleton. eexists. split; [left|done].
    - unfold istep_panic in Hs. destruct (get_stack st t) as [|[| | | | |? ? []|] k] eqn:Hk; try done; injection Hs as <-;
        (eapply (owns_keep st _ t [_] [_] k); [done|done|done|done|]; intros f c ->%elem_of_list_singleton; eexists; split; [left|done]).
    - destruct (returned p (i_log st)); [|done]. destruct (iread st p); [|done]. by injection Hs as <-.
  Qed.
  Lemma owns_run ls st : run (istep E) iinit ls = Some st -> owns st.
  Proof.
    assert (forall ls s0, IInv E s0 -> owns s0 -> forall s1, run (istep E) s0 ls = Some s1 -> owns s1) as H.
    { clear ls st. intros ls. induction ls as [|l ls IH]; intros s0 HI HO s1; simpl; [by intros [= <-]|]. unfold exec.
      destruct (istep E s0 l) as [s2| | |] eqn:Hst; [|by apply IH|by apply IH|done].
      apply IH; [by eapply istep_inv|by eapply owns_step]. }
    apply H; [apply iinv_init|]. intros t f c Hf. by apply elem_of_nil in Hf.
  Qed.

  (** ** What a step changes *)
  Lemma write_cons a d k : (k, true) ∈ touched a \/ does_write d k -> does_write (a :: d) k.
  Proof. intros [H|(b&H&Hb)]; [exists a; split; [left|done]|exists b; split; [by right|done]]. Qed.
  Theorem i_writes st t l st' :
    i_by l t = true -> istep E st l = Next st' ->
    i_written st (i_does E st t l) st'.
  Proof.
    intros Hb Hs.
    assert (forall a w b st1 p, ialloc E st a w b = Some (st1, p) -> i_slots st1 = i_slots st /\ forall s, i_value st1 s <> i_value st s -> s = i_next st) as Hal.
    { intros a w b st1 p Ha. unfold ialloc in Ha. destruct (_ || _); [|done]. injection Ha as <- <-. split; [done|].
      intros s. unfold i_value. simpl. destruct (decide (s = i_next st)); [done|]. by rewrite lookup_insert_ne. }
    destruct l as [u o a|u a i|u w|u|p]; simpl in Hb, Hs |- *; try apply Nat.eqb_eq in Hb as ->.
    - destruct (match get_stack st t with f :: _ => in_user f | [] => true end); [|done].
      destruct o; try (injection Hs as <-; by split).
      destruct (ialloc E st a v false) as [[st1 p]|] eqn:Ha; [|done]. injection Hs as <-. apply Hal in Ha as [Hsl Hv]. split.
      + intros s Hne. rewrite (Hv s Hne). apply write_cons. left. left.
      + intros c. simpl. by rewrite Hsl.
    - unfold istep_thread in Hs. destruct (get_stack st t) as [|[o b|o b|ty w q|o w|o p|o b r|o r] k] eqn:Hk; try done.
      + destruct (i_locks st !! slot E (op_ty E o)); [done|].
        assert (i_objs st' = i_objs st /\ forall c, c <> slot E (op_ty E o) -> i_slots st' !! c = i_slots st !! c) as [Ho Hc].
        { destruct o; injection Hs as <-; (split; [done|]); intros c Hc; simpl; by rewrite !lookup_insert_ne. }
        split; [intros s; unfold i_value; by rewrite Ho|]. intros c Hne. destruct (decide (c = slot E (op_ty E o))) as [->|]; [|by rewrite Hc in Hne].
        apply write_cons. right. apply write_cons. left. left.
      + assert (i_slots st' = i_slots st /\ forall s, i_value st' s = i_value st s) as [H1 H2].
        { destruct (ireadable _ _); [|done]. destruct (ipick _ _), o; try done; try by injection Hs as <-.
          destruct b as [p|]; [|done]. destruct (ileak st p) as [st1|] eqn:Hp; [|done]. injection Hs as <-.
          unfold ileak in Hp. destruct (i_objs st !! ip_ser p) as [x|] eqn:Hx; [|done]. destruct (io_leaked x); [done|]. injection Hp as <-.
          split; [done|]. intros s. unfold i_value. simpl. destruct (decide (s = ip_ser p)) as [->|].
          - by rewrite lookup_insert, Hx.
          - by rewrite lookup_insert_ne. }
        split; [intros s; by rewrite H2|by rewrite H1].
      + destruct (ialloc E st a w true) as [[st1 p]|] eqn:Ha; [|done]. injection Hs as <-. apply Hal in Ha as [Hsl Hv]. split.
        * intros s Hne. rewrite (Hv s Hne). apply write_cons. left. left.
        * intros c. simpl. by rewrite Hsl.
      + destruct (iread st p); [|done]. destruct (ireadable _ _); [|done]. destruct (candidates _ _ _); injection Hs as <-; split; try done.
        intros c. simpl. destruct (decide (c = slot E (op_ty E o))) as [->|]; [|by rewrite lookup_insert_ne].
        intros _. apply write_cons. left. left.
      + destruct b as [p|]; [|injection Hs as <-; by split]. destruct (ifree st p) as [st1|] eqn:Hp; [|done]. injection Hs as <-.
        unfold ifree in Hp. destruct (i_objs st !! ip_ser p) as [x|]; [|done]. destruct (io_leaked x); [done|]. injection Hp as <-.
        split; [|done]. intros s. unfold i_value. simpl. destruct (decide (s = ip_ser p)) as [->|]; [|by rewrite lookup_delete_ne].
        intros _. apply write_cons. left. unfold i_looks. rewrite Hk. left.
      + injection Hs as <-. by split.
    - destruct (get_stack st t) as [|[] k]; try done. destruct (_ && _); [|done]. injection Hs as <-. by split.
    - unfold istep_panic in *. destruct (get_stack st t) as [|[| | | | |? ? []|] k]; try done; injection Hs as <-; by split.
    - destruct (returned p (i_log st)); [|done]. destruct (iread st p); [|done]. injection Hs as <-. by split.
  Qed.

  Definition only_touches (d : list act) : Prop := forall a, a ∈ d -> match a with ATouch _ => True | _ => False end.
  Lemma only_one l : only_touches [ATouch l].
  Proof. by intros a ->%elem_of_list_singleton. Qed.
  Lemma synced_quiet st t d st' :
    i_locks st' = i_locks st -> only_touches d ->
    i_log st' = i_log st \/ (exists u o p v, i_log st' = EvIns u o p v :: i_log st) ->
    (forall x, does_access d (LSet x) -> exists c, x = (c, 0) /\ i_locks st !! c = Some t) -> i_synced st t d st'.
  Proof.
    intros Hl Ht Hg Hx. unfold i_synced. rewrite Hl. split_and!.
    - intros x. split; [intros H; by apply Ht in H|]. intros (c&_&H1&H2). congruence.
    - intros x. split; [intros H; by apply Ht in H|]. intros (c&_&H1&H2). congruence.
    - intros x H. destruct (Hx x H) as (c&->&?). exists c. tauto.
    - intros p. split; [intros H; by apply Ht in H|]. intros [o H]. destruct Hg as [Hg|(?&?&?&?&Hg)]; rewrite Hg in H; [|done].
      apply (f_equal length) in H. simpl in H. lia.
    - intros p. split; [intros H; by apply Ht in H|]. intros [o H]. destruct Hg as [Hg|(?&?&?&?&Hg)]; rewrite Hg in H; [|done].
      apply (f_equal length) in H. simpl in H. lia.
  Qed.
  Lemma synced_silent st t st' : i_locks st' = i_locks st -> i_log st' = i_log st -> i_synced st t [] st'.
  Proof. intros ??. apply synced_quiet; [done|by intros a ?%elem_of_nil|by left|]. by intros x ?%access_nil. Qed.
  Lemma access_one l k : does_access [ATouch l] k -> exists w, (k, w) ∈ l.
  Proof. intros [[w H]|H%access_nil]%access_cons; [by exists w|done]. Qed.
  Lemma i_looks_locked st t : owns st -> forall x w, (LSet x, w) ∈ i_looks E st t -> exists c, x = (c, 0) /\ i_locks st !! c = Some t.
  Proof.
    intros HO x w Hw. unfold i_looks in Hw.
    destruct (get_stack st t) as [|[o b|o b|ty u q|o u|o p|o b r|o r] k] eqn:Hk; try by apply elem_of_nil in Hw.
    - apply elem_of_app in Hw as [[[= -> ->]|(p&[=]&_)%elem_of_list_fmap]%elem_of_cons|Hw].
      + exists (slot E (op_ty E o)). split; [done|]. eapply HO; [rewrite Hk; left|]. simpl. by rewrite Nat.eqb_refl.
      + destruct b as [p|]; [by apply elem_of_list_singleton in Hw|by apply elem_of_nil in Hw].
    - apply elem_of_app in Hw as [[[= -> ->]|(?&[=]&_)%elem_of_list_fmap]%elem_of_cons|Hw%elem_of_list_singleton]; [|done].
      exists (slot E (op_ty E o)). split; [done|]. eapply HO; [rewrite Hk; left|]. simpl. by rewrite Nat.eqb_refl.
    - destruct b as [p|]; [by apply elem_of_list_singleton in Hw|by apply elem_of_nil in Hw].
  Qed.
  Theorem i_syncs ls st t l st' :
    run (istep E) iinit ls = Some st -> i_by l t = true -> istep E st l = Next st' -> i_synced st t (i_does E st t l) st'.
  Proof.
    intros Hr%owns_run Hb Hs.
    assert (forall x, does_access [ATouch (i_looks E st t)] (LSet x) -> exists c, x = (c, 0) /\ i_locks st !! c = Some t) as Hlook.
    { intros x [w Hw]%access_one. by eapply i_looks_locked. }
    assert (forall a w b st1 p, ialloc E st a w b = Some (st1, p) -> i_locks st1 = i_locks st /\ i_log st1 = i_log st) as Hal.
    { intros a w b st1 p Ha. unfold ialloc in Ha. destruct (_ || _); [|done]. by injection Ha as <- <-. }
    assert (forall n x, does_access [ATouch [(LVal n, true)]] (LSet x) -> exists c, x = (c, 0) /\ i_locks st !! c = Some t) as Hval.
    { by intros n x [w Hw%elem_of_list_singleton]%access_one. }
    destruct l as [u o a|u a i|u w|u|p]; simpl in Hb, Hs |- *; try apply Nat.eqb_eq in Hb as ->.
    - destruct (match get_stack st t with f :: _ => in_user f | [] => true end); [|done].
      destruct o; try (injection Hs as <-; by apply synced_silent).
      destruct (ialloc E st a v false) as [[st1 p]|] eqn:Ha; [|done]. injection Hs as <-. apply Hal in Ha as [H1 H2].
      apply synced_quiet; [done|apply only_one|by left|apply Hval].
    - unfold istep_thread in Hs. destruct (get_stack st t) as [|[o b|o b|ty w q|o w|o p|o b r|o r] k] eqn:Hk; try done.
      + destruct (i_locks st !! slot E (op_ty E o)) eqn:Hl; [done|].
        assert (i_locks st' = <[slot E (op_ty E o) := t]> (i_locks st) /\
          (i_log st' = i_log st \/ exists ty, i_log st' = EvClr ty :: i_log st)) as [Ho Hc].
        { destruct o; injection Hs as <-; simpl; eauto. }
        unfold i_synced. rewrite Ho. split_and!.
        * intros x. split.
          -- intros [[= ->]|[=]%elem_of_list_singleton]%elem_of_cons. eexists. split; [done|]. by rewrite lookup_insert.
          -- intros (c&->&H1&H2). destruct (decide (c = slot E (op_ty E o))) as [->|]; [left|]. rewrite lookup_insert_ne in H2 by done. congruence.
        * intros x. split.
          -- by intros [|[=]%elem_of_list_singleton]%elem_of_cons.
          -- intros (c&->&H1&H2). destruct (decide (c = slot E (op_ty E o))) as [->|]; [congruence|]. rewrite lookup_insert_ne in H2 by done. congruence.
        * intros x [[w Hw]|[w Hw]%access_one]%access_cons; [by apply elem_of_nil in Hw|]. apply elem_of_list_singleton in Hw as [= -> ->].
          eexists. split; [done|]. right. by rewrite lookup_insert.
        * intros p. split; [by intros [|[=]%elem_of_list_singleton]%elem_of_cons|]. intros [o' H].
          destruct Hc as [Hc|[ty Hc]]; rewrite Hc in H; [apply (f_equal length) in H; simpl in H; lia|done].
        * intros p. split; [by intros [|[=]%elem_of_list_singleton]%elem_of_cons|]. intros [o' H].
          destruct Hc as [Hc|[ty Hc]]; rewrite Hc in H; [apply (f_equal length) in H; simpl in H; lia|done].
      + apply synced_quiet; [| |left|done]; [|apply only_one|].
        all: destruct (ireadable _ _); [|done]; destruct (ipick _ _), o; try done; try (by injection Hs as <-);
          (destruct b as [p|]; [|done]); (destruct (ileak st p) as [st1|] eqn:Hp; [|done]); injection Hs as <-;
          unfold ileak in Hp; (destruct (i_objs st !! ip_ser p) as [x|]; [|done]); (destruct (io_leaked x); [done|]); by injection Hp as <-.
      + destruct (ialloc E st a w true) as [[st1 p]|] eqn:Ha; [|done]. injection Hs as <-. apply Hal in Ha as [H1 H2].
        apply synced_quiet; [done|apply only_one|by left|apply Hval].
      + destruct (iread st p) as [v|]; [|done]. destruct (ireadable _ _); [|done].
        apply synced_quiet; [|apply only_one| |].
        * destruct (candidates _ _ _); by injection Hs as <-.
        * destruct (candidates _ _ _); injection Hs as <-; [right; simpl; eauto|by left].
        * intros x [w [[= -> ->]|Hw]%elem_of_cons]%access_one; [|by eapply i_looks_locked].
          eexists. split; [done|]. eapply Hr; [rewrite Hk; left|]. simpl. by rewrite Nat.eqb_refl.
      + destruct b as [p|]; [|injection Hs as <-; apply synced_quiet; [done|apply only_one|by left|done]].
        destruct (ifree st p) as [st1|] eqn:Hp; [|done]. injection Hs as <-.
        unfold ifree in Hp. destruct (i_objs st !! ip_ser p) as [x|]; [|done]. destruct (io_leaked x); [done|]. injection Hp as <-.
        apply synced_quiet; [done|apply only_one|by left|done].
      + injection Hs as <-.
        assert (i_locks st !! slot E (op_ty E o) = Some t) as Hl by (eapply Hr; [rewrite Hk; left|]; simpl; by rewrite Nat.eqb_refl).
        assert (forall x, x ∈ match r with RPtr p => [AGot p] | _ => [] end -> exists p, x = AGot p /\ r = RPtr p) as Hgot.
        { intros x Hx. destruct r; try by apply elem_of_nil in Hx. apply elem_of_list_singleton in Hx as ->. eauto. }
        unfold i_synced. simpl. split_and!.
        * intros x. split.
          -- intros [|(?&?&_)%Hgot]%elem_of_cons; done.
          -- intros (c&->&H1&H2). destruct (decide (c = slot E (op_ty E o))) as [->|]; [congruence|]. rewrite lookup_delete_ne in H2 by done. congruence.
        * intros x. split.
          -- intros [[= ->]|(?&?&_)%Hgot]%elem_of_cons; [|done]. eexists. split; [done|]. by rewrite lookup_delete.
          -- intros (c&->&H1&H2). destruct (decide (c = slot E (op_ty E o))) as [->|]; [left|]. rewrite lookup_delete_ne in H2 by done. congruence.
        * intros x [[w Hw]|(y&w&(p&->&_)%Hgot&Hw)]%access_cons; by apply elem_of_nil in Hw.
        * intros p. split.
          -- intros [|(?&[= <-]&->)%Hgot]%elem_of_cons; [done|]. by exists o.
          -- intros [o' [= <- ->]]. right. left.
        * intros p. split; [by intros [|(?&?&_)%Hgot]%elem_of_cons|]. by intros [v [=]].
    - destruct (get_stack st t) as [|[] k]; try done. destruct (_ && _); [|done]. injection Hs as <-. by apply synced_silent.
    - unfold istep_panic in *.
      destruct (get_stack st t) as [|[| | | | |? ? []|] k]; try done; injection Hs as <-; (apply synced_quiet; [done|apply only_one|by left|done]).
    - destruct (returned p (i_log st)); [|done]. destruct (iread st p) as [v|]; [|done]. injection Hs as <-. unfold i_synced. simpl. split_and!.
      + intros x. split; [by intros ?%elem_of_list_singleton|]. intros (c&->&H1&H2). congruence.
      + intros x. split; [by intros ?%elem_of_list_singleton|]. intros (c&->&H1&H2). congruence.
      + intros x [[w Hw]|?%access_nil]%access_cons; [|done]. by apply elem_of_list_singleton in Hw.
      + intros q. split; [by intros ?%elem_of_list_singleton|]. by intros [o [=]].
      + intros q. split; [intros [= ->]%elem_of_list_singleton; by exists v|]. intros [v' [= -> ->]]. left.
  Qed.
End foot.

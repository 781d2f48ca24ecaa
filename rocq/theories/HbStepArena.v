(** The acts of the steps of ArenaModel account for them (C60). *)
From stdpp Require Import gmap list numbers.
From Verif Require Import Base InternModel InternSpec InternInv InternStep ArenaModel ArenaSpec ArenaInv ArenaStep ArenaLaw
  HbSpec HbModel HbArenaModel HbStepSpec HbStep HbArena.
Require Import ZifyBool ZifyNat ZifyN.

Section foot.
  Context {V Q : Type} (E : ienv V Q).
  Implicit Types (st : astate V Q) (o : aop V Q) (p : iptr) (r : nat) (f : aframe V Q).

  (** ** What a step reads *)
  Lemma aov_read st s v p : ip_ser p <> s -> a_read (a_other_value st s v) p = a_read st p.
  Proof. intros H. unfold a_read. simpl. by rewrite lookup_alter_ne. Qed.
  Lemma aov_readable st s v l : (forall p, p ∈ l -> ip_ser p <> s) -> a_readable (a_other_value st s v) l = a_readable st l.
  Proof.
    intros H. unfold a_readable. induction l as [|p l IH]; [done|]. simpl.
    rewrite aov_read by (apply H; left). f_equal. apply IH. intros q Hq. apply H. by right.
  Qed.
  Lemma aov_cands st s v g l : (forall p, p ∈ l -> ip_ser p <> s) -> a_cands (a_other_value st s v) g l = a_cands st g l.
  Proof.
    intros H. unfold a_cands. induction l as [|p l IH]; [done|]. simpl.
    rewrite aov_read by (apply H; left). rewrite IH; [done|]. intros q Hq. apply H. by right.
  Qed.
  Lemma aov_alloc st s v a w : (forall x, a_objs st !! s = Some x -> is_zst E v = is_zst E (ao_val x)) -> s <> a_next st ->
    a_alloc E (a_other_value st s v) a w = (λ z, (a_other_value z.1 s v, z.2)) <$> a_alloc E st a w.
  Proof.
    intros Hz Hs. unfold a_alloc.
    assert (a_free_addr E (a_other_value st s v) a = a_free_addr E st a) as ->.
    { unfold a_free_addr. apply bool_decide_ext. simpl. split; intros H i x Hx.
      - destruct (decide (i = s)) as [->|Hi].
        + specialize (H s (AObj (ao_addr x) v)). simpl in H. rewrite <- (Hz x Hx). apply H. by rewrite lookup_alter, Hx.
        + apply (H i). by rewrite lookup_alter_ne.
      - destruct (decide (i = s)) as [->|Hi].
        + rewrite lookup_alter in Hx. destruct (a_objs st !! s) as [y|] eqn:Hy; [|done]. injection Hx as <-. simpl.
          rewrite (Hz y eq_refl). by apply (H s).
        + rewrite lookup_alter_ne in Hx by done. by apply (H i). }
    simpl. destruct (is_zst E w || a_free_addr E st a); [|done]. simpl. f_equal. f_equal. unfold a_other_value. simpl. f_equal.
    by rewrite alter_insert_ne.
  Qed.
  Lemma aov_free st s v w p : ip_ser p <> s -> a_free (a_other_value st s v) w p = (λ z, a_other_value z s v) <$> a_free st w p.
  Proof.
    intros H. unfold a_free. simpl. rewrite lookup_alter_ne by done. destruct (a_objs st !! ip_ser p) as [x|]; [|done].
    simpl. f_equal. unfold a_other_value. simpl. f_equal.
    apply map_eq. intros i. destruct (decide (i = ip_ser p)) as [->|Hi].
    - by rewrite lookup_delete, lookup_alter_ne, lookup_delete.
    - rewrite lookup_delete_ne by done. destruct (decide (i = s)) as [->|?].
      + by rewrite !lookup_alter, lookup_delete_ne.
      + by rewrite !lookup_alter_ne, lookup_delete_ne.
  Qed.

  Theorem a_reads_value st t l st' s v :
    a_by l t = true -> astep E st l = Next st' -> ~ does_access (a_does st t l) (LVal s) ->
    (forall x, a_value st s = Some x -> is_zst E v = is_zst E x) ->
    astep E (a_other_value st s v) l = Next (a_other_value st' s v).
  Proof.
    intros Hb Hs Hd Hz0.
    assert (forall x, a_objs st !! s = Some x -> is_zst E v = is_zst E (ao_val x)) as Hz.
    { intros x Hx. apply Hz0. unfold a_value. by rewrite Hx. } clear Hz0.
    destruct l as [u ty|u r o a|u a i|u w|u|r p|u r]; simpl in Hb, Hs |- *; try apply Nat.eqb_eq in Hb as ->.
    - change (a_ready (a_other_value st s v) t) with (a_ready st t). destruct (a_ready st t); [|done]. by injection Hs as <-.
    - change (a_ready (a_other_value st s v) t) with (a_ready st t).
      destruct (a_arenas st !! r) as [x|]; [|done]. destruct (a_ready st t); [|done].
      change (a_stack (a_other_value st s v) t) with (a_stack st t).
      destruct o as [w|w q|w|w]; [| |destruct (ie_ty E w =? ar_ty x); [|done]..].
      + destruct (_ =? _); [|done]. by injection Hs as <-.
      + by injection Hs as <-.
      + rewrite aov_alloc; [|done|intros ->; apply Hd; apply access_cons; right; apply access_cons; left; exists true; left].
        destruct (a_alloc E st a w) as [[st1 p]|] eqn:Ha; [|done]. simpl. by injection Hs as <-.
      + rewrite aov_alloc; [|done|intros ->; apply Hd; apply access_cons; right; apply access_cons; left; exists true; left].
        destruct (a_alloc E st a w) as [[st1 p]|] eqn:Ha; [|done]. simpl. by injection Hs as <-.
    - unfold a_step_thread in *. simpl in Hd. change (a_stack (a_other_value st s v) t) with (a_stack st t).
      destruct (a_stack st t) as [|f k] eqn:Hk; [done|]. unfold a_looks in Hd. rewrite Hk in Hd.
      destruct f as [r o b|r o b|r w q|r o w b|r o b p|r o b p pa|r o b p|r o b m x|r o b m x|r [|p ps]]; try done.
      + simpl. destruct (a_locks st !! r); [done|]. by injection Hs as <-.
      + change (a_set (a_other_value st s v) r) with (a_set st r). apply not_access_cons in Hd as [Hd _]. cbn in Hd.
        assert (forall p, p ∈ a_set st r -> ip_ser p <> s) as Hset.
        { intros p Hp <-. apply (Hd false). right. apply elem_of_app. left. apply elem_of_list_fmap. by exists p. }
        rewrite aov_readable, aov_cands by done. destruct (a_readable _ _); [|done].
        destruct (ipick _ _), o; try done; try by injection Hs as <-. destruct b; [|done]. by injection Hs as <-.
      + destruct b as [q|].
        * apply not_access_cons in Hd as [Hd _]. rewrite aov_free; [|intros <-; apply (Hd true); left].
          destruct (a_free st None q); [|done]. simpl. by injection Hs as <-.
        * rewrite aov_alloc; [|done|intros ->; apply Hd; apply access_cons; left; exists true; left].
          destruct (a_alloc E st a w) as [[st1 p]|] eqn:Ha; [|done]. simpl. by injection Hs as <-.
      + apply not_access_cons in Hd as [Hd _]. cbn in Hd.
        assert (ip_ser p <> s) as Hp by (intros <-; apply (Hd false); right; right; apply elem_of_app; right; left).
        rewrite aov_read by done. simpl. destruct (a_read st p) as [w|]; [|done]. destruct (a_arenas st !! r) as [x|] eqn:Hx; [|done].
        assert (forall p, p ∈ ar_set x -> ip_ser p <> s) as Hset.
        { intros p' Hp' <-. apply (Hd false). right. right. apply elem_of_app. left. apply elem_of_list_fmap. exists p'.
          split; [done|]. unfold a_set. by rewrite Hx. }
        rewrite aov_readable, aov_cands by done. destruct (a_readable _ _); [|done]. destruct (a_cands _ _ _); by injection Hs as <-.
      + apply not_access_cons in Hd as [Hd _]. rewrite aov_free; [|intros <-; apply (Hd true); left].
        destruct (a_free st None p); [|done]. simpl. by injection Hs as <-.
      + apply not_access_cons in Hd as [Hd _]. rewrite aov_read; [|intros <-; apply (Hd false); left].
        destruct (a_read st p); [|done]. by injection Hs as <-.
      + by injection Hs as <-.
      + apply not_access_cons in Hd as [Hd _]. destruct m; [destruct b as [p|]|]; simpl in *; try (by injection Hs as <-).
        rewrite aov_free; [|intros <-; apply (Hd true); left]. destruct (a_free st None p); [|done]. simpl. by injection Hs as <-.
      + by injection Hs as <-.
      + apply not_access_cons in Hd as [Hd _]. rewrite aov_free; [|intros <-; apply (Hd true); right; left].
        destruct (a_free st (Some r) p); [|done]. simpl. by injection Hs as <-.
    - change (a_stack (a_other_value st s v) t) with (a_stack st t).
      destruct (a_stack st t) as [|[] k]; try done. destruct (_ && _); [|done]. by injection Hs as <-.
    - unfold a_step_panic in *. simpl in Hd. change (a_stack (a_other_value st s v) t) with (a_stack st t).
      destruct (a_stack st t) as [|f k] eqn:Hk; [done|].
      destruct f as [r o b|r o b|r w q|r o w b|r o b p|r o b p []|r o b p|r o b m x|r o b m []|r [|p ps]]; try done; try by injection Hs as <-.
      + destruct (a_drops o m); [|done]. by injection Hs as <-.
      + apply not_access_cons in Hd as [Hd _]. rewrite aov_free; [|intros <-; apply (Hd true); right; left].
        destruct (a_free st (Some r) p); [|done]. simpl. by injection Hs as <-.
    - destruct (a_returned r p (a_log st)); [|done]. simpl in Hd. apply not_access_cons in Hd as [Hd _].
      rewrite aov_read; [|intros <-; apply (Hd false); left].
      destruct (a_arenas st !! r); [|done]. destruct (a_read st p); [|done]. by injection Hs as <-.
    - change (a_ready (a_other_value st s v) t) with (a_ready st t). change (a_idle (a_other_value st s v) r) with (a_idle st r).
      destruct (a_arenas st !! r); [|done]. destruct (_ && _); [|done]. by injection Hs as <-.
  Qed.

  Lemma aos_set st r l r' : r <> r' -> a_set (a_other_set st r l) r' = a_set st r'.
  Proof. intros H. unfold a_set. simpl. by rewrite lookup_alter_ne. Qed.
  Lemma aos_alloc st r l a w : a_alloc E (a_other_set st r l) a w = (λ z, (a_other_set z.1 r l, z.2)) <$> a_alloc E st a w.
  Proof. unfold a_alloc. change (a_free_addr E (a_other_set st r l) a) with (a_free_addr E st a). by destruct (_ || _). Qed.
  Lemma aos_free st r l w p : a_free (a_other_set st r l) w p = (λ z, a_other_set z r l) <$> a_free st w p.
  Proof. unfold a_free. simpl. by destruct (a_objs st !! ip_ser p). Qed.
  Theorem a_reads_set st t l st' r0 k' :
    a_by l t = true -> astep E st l = Next st' -> ~ does_access (a_does st t l) (LSet (r0, 0)) ->
    astep E (a_other_set st r0 k') l = Next (a_other_set st' r0 k').
  Proof.
    intros Hb Hs Hd.
    assert (forall r, ar_ty <$> alter (λ x, Ar (ar_ty x) k') r0 (a_arenas st) !! r = ar_ty <$> a_arenas st !! r) as Hty.
    { intros r. destruct (decide (r = r0)) as [->|]; [rewrite lookup_alter; by destruct (a_arenas st !! r0)|by rewrite lookup_alter_ne]. }
    destruct l as [u ty|u r o a|u a i|u w|u|r p|u r]; simpl in Hb, Hs |- *; try apply Nat.eqb_eq in Hb as ->.
    - change (a_ready (a_other_set st r0 k') t) with (a_ready st t). destruct (a_ready st t); [|done]. injection Hs as <-.
      apply not_access_cons in Hd as [Hd _]. unfold a_other_set. simpl. f_equal. f_equal.
      rewrite alter_insert_ne; [done|]. intros ->. apply (Hd true). right. left.
    - change (a_ready (a_other_set st r0 k') t) with (a_ready st t). specialize (Hty r).
      destruct (a_arenas st !! r) as [x|]; [|done]. destruct (alter _ _ _ !! r) as [x'|]; [|done]. injection Hty as ->.
      destruct (a_ready st t); [|done].
      change (a_stack (a_other_set st r0 k') t) with (a_stack st t).
      destruct o as [w|w q|w|w]; [| |destruct (ie_ty E w =? ar_ty x); [|done]..].
      + destruct (_ =? _); [|done]. by injection Hs as <-.
      + by injection Hs as <-.
      + rewrite aos_alloc. destruct (a_alloc E st a w) as [[st1 p]|] eqn:Ha; [|done]. simpl. by injection Hs as <-.
      + rewrite aos_alloc. destruct (a_alloc E st a w) as [[st1 p]|] eqn:Ha; [|done]. simpl. by injection Hs as <-.
    - unfold a_step_thread in *. simpl in Hd. change (a_stack (a_other_set st r0 k') t) with (a_stack st t).
      change (a_read (a_other_set st r0 k')) with (a_read st). change (a_readable (a_other_set st r0 k')) with (a_readable st).
      change (a_cands (a_other_set st r0 k')) with (a_cands st).
      destruct (a_stack st t) as [|f k] eqn:Hk; [done|]. unfold a_looks in Hd. rewrite Hk in Hd.
      destruct f as [r o b|r o b|r w q|r o w b|r o b p|r o b p pa|r o b p|r o b m x|r o b m x|r [|p ps]]; try done.
      + simpl. destruct (a_locks st !! r); [done|]. by injection Hs as <-.
      + apply not_access_cons in Hd as [Hd _]. cbn in Hd.
        assert (r0 <> r) as Hr by (intros ->; apply (Hd false); left).
        rewrite aos_set by done. destruct (a_readable _ _); [|done].
        destruct (ipick _ _), o; try done; try by injection Hs as <-. destruct b; [|done]. by injection Hs as <-.
      + destruct b as [q|].
        * rewrite aos_free. destruct (a_free st None q); [|done]. simpl. by injection Hs as <-.
        * rewrite aos_alloc. destruct (a_alloc E st a w) as [[st1 p]|] eqn:Ha; [|done]. simpl. by injection Hs as <-.
      + apply not_access_cons in Hd as [Hd _]. cbn in Hd.
        assert (r0 <> r) as Hr by (intros ->; apply (Hd true); left).
        destruct (a_read st p) as [w|]; [|done]. simpl. rewrite lookup_alter_ne by done. destruct (a_arenas st !! r) as [x|] eqn:Hx; [|done].
        destruct (a_readable _ _); [|done]. destruct (a_cands _ _ _); injection Hs as <-; [|done].
        unfold a_other_set, a_set_stack, a_event, a_put. simpl. by rewrite alter_insert_ne.
      + rewrite aos_free. destruct (a_free st None p); [|done]. simpl. by injection Hs as <-.
      + destruct (a_read st p); [|done]. by injection Hs as <-.
      + by injection Hs as <-.
      + destruct m; [destruct b as [p|]|]; simpl in *; try (by injection Hs as <-).
        rewrite aos_free. destruct (a_free st None p); [|done]. simpl. by injection Hs as <-.
      + by injection Hs as <-.
      + rewrite aos_free. destruct (a_free st (Some r) p); [|done]. simpl. by injection Hs as <-.
    - change (a_stack (a_other_set st r0 k') t) with (a_stack st t).
      destruct (a_stack st t) as [|[] k]; try done. rewrite Hty. destruct (_ && _); [|done]. by injection Hs as <-.
    - unfold a_step_panic in *. simpl in Hd. change (a_stack (a_other_set st r0 k') t) with (a_stack st t).
      destruct (a_stack st t) as [|f k] eqn:Hk; [done|].
      destruct f as [r o b|r o b|r w q|r o w b|r o b p|r o b p []|r o b p|r o b m x|r o b m []|r [|p ps]]; try done; try by injection Hs as <-.
      + destruct (a_drops o m); [|done]. by injection Hs as <-.
      + rewrite aos_free. destruct (a_free st (Some r) p); [|done]. simpl. by injection Hs as <-.
    - destruct (a_returned r p (a_log st)); [|done]. specialize (Hty r). change (a_read (a_other_set st r0 k')) with (a_read st).
      destruct (a_arenas st !! r); [|done]. destruct (alter _ _ _ !! r); [|done]. destruct (a_read st p); [|done]. by injection Hs as <-.
    - change (a_ready (a_other_set st r0 k') t) with (a_ready st t). change (a_idle (a_other_set st r0 k') r) with (a_idle st r).
      apply not_access_cons in Hd as [_ Hd]. apply not_access_cons in Hd as [Hd _].
      assert (r0 <> r) as Hr by (intros ->; apply (Hd false); right; left). rewrite lookup_alter_ne by done.
      destruct (a_arenas st !! r); [|done]. destruct (_ && _); [|done]. injection Hs as <-. f_equal.
      unfold a_other_set, a_set_stack, a_event, a_put. simpl. f_equal. apply map_eq. intros i. destruct (decide (i = r)) as [->|Hi].
      + by rewrite lookup_delete, lookup_alter_ne, lookup_delete.
      + rewrite lookup_delete_ne by done. destruct (decide (i = r0)) as [->|?].
        * by rewrite !lookup_alter, lookup_delete_ne.
        * by rewrite !lookup_alter_ne, lookup_delete_ne.
  Qed.

  (** ** What a step changes *)
  Lemma awritten_quiet st d st' : a_objs st' = a_objs st -> a_arenas st' = a_arenas st ->
    a_log st' = a_log st \/ (exists e l, a_log st' = e :: l /\ match e with AvGone _ | AvLeak _ _ => False | _ => True end) -> a_written st d st'.
  Proof.
    intros H1 H2 H3. unfold a_written, a_value. rewrite H1, H2. split_and!; try done.
    intros r e l He Hne. destruct H3 as [H3|(e'&l'&H3&H4)]; [done|]. rewrite H3 in He. injection He as <- <-.
    intros [->|[ps ->]]; done.
  Qed.
  Lemma awritten_value st d st' : (forall k, a_value st' k <> a_value st k -> does_write d (LVal k)) -> a_arenas st' = a_arenas st ->
    a_log st' = a_log st \/ (exists e l, a_log st' = e :: l /\ match e with AvGone _ | AvLeak _ _ => False | _ => True end) -> a_written st d st'.
  Proof.
    intros H1 H2 H3. unfold a_written. rewrite H2. split_and!; try done.
    intros r e l He Hne. destruct H3 as [H3|(e'&l'&H3&H4)]; [done|]. rewrite H3 in He. injection He as <- <-.
    intros [->|[ps ->]]; done.
  Qed.
  Lemma alloc_value st a v st1 p : a_alloc E st a v = Some (st1, p) ->
    a_arenas st1 = a_arenas st /\ a_locks st1 = a_locks st /\ a_log st1 = a_log st /\ a_nextr st1 = a_nextr st /\
    forall k, a_value st1 k <> a_value st k -> k = a_next st.
  Proof.
    unfold a_alloc. destruct (_ || _); [|done]. intros [= <- <-]. split_and!; try done. intros k. unfold a_value. simpl.
    destruct (decide (k = a_next st)); [done|]. by rewrite lookup_insert_ne.
  Qed.
  Lemma free_value st w p st1 : a_free st w p = Some st1 ->
    a_arenas st1 = a_arenas st /\ a_locks st1 = a_locks st /\ a_log st1 = AvFree w p :: a_log st /\ a_nextr st1 = a_nextr st /\
    forall k, a_value st1 k <> a_value st k -> k = ip_ser p.
  Proof.
    unfold a_free. destruct (a_objs st !! ip_ser p); [|done]. intros [= <-]. split_and!; try done. intros k. unfold a_value. simpl.
    destruct (decide (k = ip_ser p)); [done|]. by rewrite lookup_delete_ne.
  Qed.
  Theorem a_writes st t l st' : a_by l t = true -> astep E st l = Next st' -> a_written st (a_does st t l) st'.
  Proof.
    intros Hb Hs.
    assert (forall w p st1 st2 d, a_free st w p = Some st1 -> a_objs st2 = a_objs st1 -> a_arenas st2 = a_arenas st1 -> a_log st2 = a_log st1 ->
      does_write d (val p) -> a_written st d st2) as Hfree.
    { intros w p st1 st2 d (Ha&_&Hg&_&Hv)%free_value H1 H2 H3 Hd. apply awritten_value; [|congruence|].
      - intros k. unfold a_value. rewrite H1. by intros ->%Hv.
      - right. exists (AvFree w p), (a_log st). split; [congruence|done]. }
    assert (forall a v p st1 st2 d, a_alloc E st a v = Some (st1, p) -> a_objs st2 = a_objs st1 -> a_arenas st2 = a_arenas st1 ->
      a_log st2 = a_log st1 -> does_write d (LVal (a_next st)) -> a_written st d st2) as Halloc.
    { intros a v p st1 st2 d (Ha&_&Hg&_&Hv)%alloc_value H1 H2 H3 Hd. apply awritten_value; [|congruence|].
      - intros k. unfold a_value. rewrite H1. by intros ->%Hv.
      - left. congruence. }
    destruct l as [u ty|u r o a|u a i|u w|u|r p|u r]; simpl in Hb, Hs |- *; try apply Nat.eqb_eq in Hb as ->.
    - destruct (a_ready st t); [|done]. injection Hs as <-. unfold a_written. simpl. split_and!; [done| | |].
      + intros r _ Hr. destruct (decide (r = a_nextr st)) as [->|]; [|by rewrite lookup_insert_ne in Hr].
        apply write_cons. left. right. left.
      + intros r Hr. destruct (decide (r = a_nextr st)) as [->|]; [|by rewrite lookup_insert_ne in Hr].
        apply write_cons. left. left.
      + intros r e l [= <- <-] _ [|[??]]; done.
    - destruct (a_arenas st !! r) as [x|]; [|done]. destruct (a_ready st t); [|done].
      assert (does_write [AUse r; ATouch [(LVal (a_next st), true)]] (LVal (a_next st))) as Hw
        by (apply write_cons; right; apply write_cons; left; left).
      destruct o as [w|w q|w|w]; [| |destruct (ie_ty E w =? ar_ty x); [|done]..].
      + destruct (_ =? _); [|done]. injection Hs as <-. apply awritten_quiet; by auto.
      + injection Hs as <-. apply awritten_quiet; by auto.
      + destruct (a_alloc E st a w) as [[st1 p]|] eqn:Ha; [|done]. injection Hs as <-. by eapply Halloc.
      + destruct (a_alloc E st a w) as [[st1 p]|] eqn:Ha; [|done]. injection Hs as <-. by eapply Halloc.
    - unfold a_step_thread in *. destruct (a_stack st t) as [|f k] eqn:Hk; [done|].
      destruct f as [r o b|r o b|r w q|r o w b|r o b p|r o b p pa|r o b p|r o b m x|r o b m x|r [|p ps]]; try done.
      + destruct (a_locks st !! r); [done|]. injection Hs as <-. apply awritten_quiet; by auto.
      + destruct (a_readable _ _); [|done].
        destruct (ipick _ _), o; try done; try (injection Hs as <-; apply awritten_quiet; by auto).
        destruct b; [|done]. injection Hs as <-; apply awritten_quiet; by auto.
      + destruct b as [q|].
        * destruct (a_free st None q) eqn:Hf; [|done]. injection Hs as <-. eapply Hfree; try done. apply write_cons. left. left.
        * destruct (a_alloc E st a w) as [[st1 p]|] eqn:Ha; [|done]. injection Hs as <-. eapply Halloc; try done. apply write_cons. left. left.
      + destruct (a_read st p) as [w|]; [|done]. destruct (a_arenas st !! r) as [x|] eqn:Hx; [|done].
        destruct (a_readable _ _); [|done]. destruct (a_cands _ _ _); injection Hs as <-; [|apply awritten_quiet; by auto].
        unfold a_written. simpl. split_and!; [done| | |].
        * intros r' _ Hr. destruct (decide (r' = r)) as [->|]; [|by rewrite lookup_insert_ne in Hr].
          apply write_cons. left. left.
        * intros r' Hr. destruct (decide (r' = r)) as [->|]; [|by rewrite lookup_insert_ne in Hr].
          rewrite lookup_insert, Hx in Hr. done.
        * intros r' e l [= <- <-] _ [|[??]]; done.
      + destruct (a_free st None p) eqn:Hf; [|done]. injection Hs as <-. eapply Hfree; try done. apply write_cons. left.
        unfold a_looks. rewrite Hk. left.
      + destruct (a_read st p); [|done]. injection Hs as <-. apply awritten_quiet; by auto.
      + injection Hs as <-. apply awritten_quiet; by auto.
      + destruct (a_free_opt st (if m then b else None)) as [st1|] eqn:Hf; [|done]. injection Hs as <-.
        destruct m; [destruct b as [p|]|]; simpl in Hf.
        * pose proof (free_value _ _ _ _ Hf) as (Ha&_&Hg&_&Hv). apply awritten_value; [|done|right; by eexists _, _].
          intros z Hz. rewrite (Hv z Hz). apply write_cons. left. unfold a_looks. rewrite Hk. left.
        * injection Hf as <-. apply awritten_quiet; [done|done|right; by eexists _, _].
        * injection Hf as <-. apply awritten_quiet; [done|done|right; by eexists _, _].
      + injection Hs as <-. unfold a_written. simpl. split_and!; [done|done|done|].
        intros r' e l [= <- <-] _ [[= ->]|[ps [=]]]. split; apply write_cons; left; [left|right; left].
      + destruct (a_free st (Some r) p) eqn:Hf; [|done]. injection Hs as <-. eapply Hfree; try done. apply write_cons. left.
        unfold a_looks. rewrite Hk. right. left.
    - destruct (a_stack st t) as [|[] k]; try done. destruct (_ && _); [|done]. injection Hs as <-. apply awritten_quiet; by auto.
    - unfold a_step_panic in *. destruct (a_stack st t) as [|f k] eqn:Hk; [done|].
      destruct f as [r o b|r o b|r w q|r o w b|r o b p|r o b p []|r o b p|r o b m x|r o b m []|r [|p ps]]; try done;
        try (injection Hs as <-; apply awritten_quiet; by auto).
      + destruct (a_drops o m); [|done]. injection Hs as <-. apply awritten_quiet; by auto.
      + destruct (a_free st (Some r) p) as [st1|] eqn:Hf; [|done]. injection Hs as <-.
        pose proof (free_value _ _ _ _ Hf) as (Ha&_&Hg&_&Hv). unfold a_written. simpl. rewrite Ha. split_and!; [|done|done|].
        * intros z Hz. rewrite (Hv z Hz). apply write_cons. left. right. left.
        * intros r' e l [= <- <-] _ [|[ps' [= -> ->]]]; [done|].
          split; apply write_cons; left; [left|right; right; left].
    - destruct (a_returned r p (a_log st)); [|done].
      destruct (a_arenas st !! r); [|done]. destruct (a_read st p); [|done]. injection Hs as <-.
      apply awritten_quiet; [done|done|right; by eexists _, _].
    - destruct (a_arenas st !! r) as [x|] eqn:Hx; [|done]. destruct (_ && _); [|done]. injection Hs as <-.
      unfold a_written. simpl. split_and!; [done| | |].
      + intros r' [y Hy]. destruct (decide (r' = r)) as [->|]; [by rewrite lookup_delete in Hy|by rewrite lookup_delete_ne].
      + intros r' Hr. destruct (decide (r' = r)) as [->|]; [|by rewrite lookup_delete_ne in Hr].
        apply write_cons. right. apply write_cons. left. left.
      + intros r' e l [= <- <-] _ [|[??]]; done.
  Qed.

  (** ** Who holds the locks *)
  Definition aowns st : Prop := forall t f r, f ∈ a_stack st t -> has_lock r f = 1 -> a_locks st !! r = Some t.
  Lemma move_lock st t k fs fs' st' r u : amove E st t k fs fs' st' ->
    a_locks st' !! r = Some u -> a_locks st !! r = Some u \/ a_locks st !! r = None /\ u = t.
  Proof.
    destruct 1; simpl; try tauto;
      try (match goal with H : a_alloc _ _ _ _ = Some _ |- _ => apply alloc_value in H as (_&->&_) end; by left);
      try (match goal with H : a_free _ _ _ = Some _ |- _ => apply free_value in H as (_&->&_) end; by left).
    - rename r0 into r1. destruct (decide (r1 = r)) as [->|]; [|rewrite lookup_insert_ne by done; by left].
      rewrite lookup_insert. intros [= <-]. by right.
    - intros [_ H]%lookup_delete_Some. by left.
  Qed.
  Lemma aowns_step st l st' : AInv E st -> aowns st -> astep E st l = Next st' -> aowns st'.
  Proof.
    intros HI HO (t&fs&fs'&k&Hst&Hm&_)%astep_move. destruct (amove_ok _ _ _ _ _ _ _ HI Hst Hm) as (es&Htr&HI').
    intros u f r Hf Hl.
    assert (exists w, a_locks st' !! r = Some w) as [w Hw].
    { pose proof (x_locks _ _ HI' r) as H. pose proof (msum_astack_ge (has_lock r) st' u). pose proof (lsum_ge (has_lock r) _ _ Hf).
      unfold alk in H. destruct (a_locks st' !! r) as [w|]; [by exists w|lia]. }
    rewrite Hw. f_equal. pose proof (y_new _ _ _ _ _ _ _ Htr u) as Hu. rewrite Hu in Hf.
    pose proof (move_lock _ _ _ _ _ _ r w Hm Hw) as Hold.
    assert (f ∈ a_stack st u -> a_locks st !! r = Some u) as Hwas by (intros; by eapply HO).
    assert (f ∈ a_stack st u -> w = u) as Hkeep.
    { intros H%Hwas. destruct Hold as [|[]]; congruence. }
    destruct (decide (t = u)) as [<-|]; [|by apply Hkeep]. apply elem_of_app in Hf as [Hf|Hf].
    - destruct Hold as [Hold|[_ ->]]; [|done].
      pose proof (y_locks _ _ _ _ _ _ _ Htr r) as Hy. unfold alk in Hy. rewrite Hw, Hold in Hy.
      pose proof (lsum_ge (has_lock r) _ _ Hf) as Hge. destruct (lsum_pos (has_lock r) fs) as (g&Hg&Hp); [lia|].
      assert (a_locks st !! r = Some t) as Hg'; [|congruence]. apply (HO t g); [rewrite Hst; apply elem_of_app; by left|].
      destruct g; simpl in Hp |- *; try lia; destruct (_ =? _); lia.
    - apply Hkeep. rewrite Hst. apply elem_of_app. by right.
  Qed.
  Lemma aowns_run ls st : run (astep E) ainit ls = Some st -> AInv E st /\ aowns st.
  Proof.
    assert (forall ls s0, AInv E s0 -> aowns s0 -> forall s1, run (astep E) s0 ls = Some s1 -> AInv E s1 /\ aowns s1) as H.
    { clear ls st. intros ls. induction ls as [|l ls IH]; intros s0 HI HO s1; simpl; [by intros [= <-]|]. unfold exec.
      destruct (astep E s0 l) as [s2| | |] eqn:Hst; [|by apply IH|by apply IH|done].
      apply IH; [by eapply astep_inv|by eapply aowns_step]. }
    apply H; [apply ainv_init|]. intros t i g Hf. by apply elem_of_nil in Hf.
  Qed.

  (** ** Synchronisation *)
  Definition plain (a : act) : Prop := match a with AAcq _ | HbSpec.ARel _ => False | _ => True end.
  Lemma asynced_keep st t l d st' es :
    a_locks st' = a_locks st -> a_log st' = es ++ a_log st ->
    (forall a, a ∈ d -> plain a) ->
    (forall x, does_access d (LSet x) -> exists r, x = (r, 0) /\
      (a_locks st !! r = Some t \/ a_nextr st <= r < a_nextr st' \/ a_arenas st' !! r = None)) ->
    (forall r, AUse r ∈ d <-> exists o a, l = LCall t r o a) ->
    (forall a, a_told a = true -> a ∈ d <-> exists e, e ∈ es /\ a ∈ a_tells t e) -> a_synced st t l d st'.
  Proof.
    intros Hl Hg Hp Ha Hu Ht. unfold a_synced. rewrite Hl. split_and!; [| |done|done|by exists es].
    - intros x. split; [by intros ?%Hp|]. intros (r&_&H1&H2). congruence.
    - intros x. split; [by intros ?%Hp|]. intros (r&_&H1&H2). congruence.
  Qed.
  (** A step that only touches, and logs nothing of interest. *)
  Lemma asynced_touch st t l z st' es :
    a_locks st' = a_locks st -> a_log st' = es ++ a_log st ->
    (forall x w, (LSet x, w) ∈ z -> exists r, x = (r, 0) /\
      (a_locks st !! r = Some t \/ a_nextr st <= r < a_nextr st' \/ a_arenas st' !! r = None)) ->
    (forall r o a, l <> LCall t r o a) -> (forall e, e ∈ es -> a_tells t e = []) -> a_synced st t l [ATouch z] st'.
  Proof.
    intros Hl Hg Ha Hc He. apply (asynced_keep _ _ _ _ _ es); [done|done|by intros a ->%elem_of_list_singleton| | |].
    - intros x [w H]%access_one. by eapply Ha.
    - intros r. split; [by intros ?%elem_of_list_singleton|]. intros (o&a&H). by apply Hc in H.
    - intros a H1. split; [intros ->%elem_of_list_singleton; done|]. intros (e&H&H2). rewrite (He e H) in H2. by apply elem_of_nil in H2.
  Qed.
  Lemma a_looks_locked st t st' : AInv E st -> aowns st -> (forall r, a_arenas st !! r = None -> r < a_nextr st -> a_arenas st' !! r = None) ->
    forall x w, (LSet x, w) ∈ a_looks st t -> exists r, x = (r, 0) /\
      (a_locks st !! r = Some t \/ a_nextr st <= r < a_nextr st' \/ a_arenas st' !! r = None).
  Proof.
    intros HI HO Hn x w Hw. unfold a_looks in Hw.
    assert (forall r b z, (LSet x, w) ∈ a_search st r ++ z -> (forall y, (LSet x, y) ∉ z) -> b = true -> x = (r, 0)) as Hsearch.
    { intros r b z [[[= -> ->]|(p&[=]&_)%elem_of_list_fmap]%elem_of_cons|Hz]%elem_of_app Hno _; [done|]. by apply Hno in Hz. }
    destruct (a_stack st t) as [|f k] eqn:Hk; [by apply elem_of_nil in Hw|].
    destruct f as [r o b|r o b|r v q|r o v b|r o b p|r o b p pa|r o b p|r o b m z|r o b m z|r [|p ps]]; try by apply elem_of_nil in Hw.
    - exists r. split.
      + eapply (Hsearch r true); [exact Hw| |done]. intros y. destruct b; simpl; [by intros ?%elem_of_list_singleton|by intros ?%elem_of_nil].
      + left. eapply HO; [rewrite Hk; left|]. simpl. by rewrite Nat.eqb_refl.
    - exists r. split.
      + eapply (Hsearch r true); [exact Hw| |done]. intros y. by intros ?%elem_of_list_singleton.
      + left. eapply HO; [rewrite Hk; left|]. simpl. by rewrite Nat.eqb_refl.
    - by apply elem_of_list_singleton in Hw.
    - destruct m; [|by apply elem_of_nil in Hw]. destruct b; simpl in Hw; [by apply elem_of_list_singleton in Hw|by apply elem_of_nil in Hw].
    - assert (ADead r (p :: ps) ∈ a_stack st t) as Hd by (rewrite Hk; left). apply (dead_facts E) in Hd as [Hlt [Hno _]]; [|done].
      apply elem_of_cons in Hw as [[= -> ->]|Hw]; [|by apply elem_of_list_singleton in Hw]. exists r. split; [done|]. right. right. by apply Hn.
  Qed.

  Theorem a_syncs ls st t l st' :
    run (astep E) ainit ls = Some st -> a_by l t = true -> astep E st l = Next st' -> a_synced st t l (a_does st t l) st'.
  Proof.
    intros [HI HO]%aowns_run Hb Hs.
    assert (forall (z : astate V Q), a_arenas z = a_arenas st -> forall x w, (LSet x, w) ∈ a_looks st t -> exists r, x = (r, 0) /\
      (a_locks st !! r = Some t \/ a_nextr st <= r < a_nextr z \/ a_arenas z !! r = None)) as Hlook.
    { intros z Hz. apply a_looks_locked; [done|done|]. intros r Hr _. by rewrite Hz. }
    destruct l as [u ty|u r o a|u a i|u w|u|r p|u r]; simpl in Hb, Hs |- *; try apply Nat.eqb_eq in Hb as ->.
    - destruct (a_ready st t); [|done]. injection Hs as <-. apply (asynced_keep _ _ _ _ _ [AvNew (a_nextr st) ty]); try done.
      + by intros a [->|[->| ->%elem_of_list_singleton]%elem_of_cons]%elem_of_cons.
      + intros x (a&w&[->|[->| ->%elem_of_list_singleton]%elem_of_cons]%elem_of_cons&Hw); [|by apply elem_of_nil in Hw..].
        apply elem_of_cons in Hw as [|[= -> ->]%elem_of_list_singleton]; [done|]. exists (a_nextr st). split; [done|]. right. left. simpl. lia.
      + intros r. split; [|by intros (?&?&?)]. by intros [|[|?%elem_of_list_singleton]%elem_of_cons]%elem_of_cons.
      + intros a Ha. split.
        * intros [->|H]%elem_of_cons; [done|]. eexists. split; [left|]. done.
        * intros (e&->%elem_of_list_singleton&H). by right.
    - assert (a_locks st' = a_locks st /\ a_log st' = a_log st) as [H1 H2].
      { destruct (a_arenas st !! r) as [x|]; [|done]. destruct (a_ready st t); [|done].
        destruct o as [w|w q|w|w]; [| |destruct (ie_ty E w =? ar_ty x); [|done]..].
        - destruct (_ =? _); [|done]. by injection Hs as <-.
        - by injection Hs as <-.
        - destruct (a_alloc E st a w) as [[st1 p]|] eqn:Ha; [|done]. injection Hs as <-. simpl. apply alloc_value in Ha. naive_solver.
        - destruct (a_alloc E st a w) as [[st1 p]|] eqn:Ha; [|done]. injection Hs as <-. simpl. apply alloc_value in Ha. naive_solver. }
      assert (forall b, b ∈ AUse r :: match o with AOwned _ | ABox _ => [ATouch [(LVal (a_next st), true)]] | _ => [] end ->
        b = AUse r \/ b = ATouch [(LVal (a_next st), true)]) as Hd.
      { intros b [->|H]%elem_of_cons; [by left|]. destruct o; try (by apply elem_of_nil in H); apply elem_of_list_singleton in H as ->; by right. }
      apply (asynced_keep _ _ _ _ _ []); [done|done| | | |].
      + by intros b [-> | ->]%Hd.
      + intros x (b&w&[-> | ->]%Hd&Hw); [by apply elem_of_nil in Hw|by apply elem_of_list_singleton in Hw].
      + intros r'. split; [|intros (?&?&[= <- <- <-]); left]. intros [[= ->]|[=]]%Hd. by eexists _, _.
      + intros b Ht. split; [|by intros (?&?%elem_of_nil&_)]. by intros [-> | ->]%Hd.
    - unfold a_step_thread in *. destruct (a_stack st t) as [|f k] eqn:Hk; [done|].
      assert (forall r, has_lock r f = 1 -> a_locks st !! r = Some t) as Hlk by (intros r Hr; apply (HO t f r); [rewrite Hk; left|done]).
      assert (forall n x (w : bool), (LSet x, w) ∈ [(LVal n, true)] -> exists r, x = (r, 0) /\
        (a_locks st !! r = Some t \/ a_nextr st <= r < a_nextr st' \/ a_arenas st' !! r = None)) as Hval by (by intros n x w ?%elem_of_list_singleton).
      destruct f as [r o b|r o b|r w q|r o w b|r o b p|r o b p pa|r o b p|r o b m x|r o b m x|r [|p ps]]; try done.
      + destruct (a_locks st !! r) eqn:Hl; [done|]. injection Hs as <-. unfold a_synced. simpl. split_and!.
        * intros x. split.
          -- intros [|[= ->]%elem_of_list_singleton]%elem_of_cons; [done|]. exists r. split_and!; [done|done|apply lookup_insert].
          -- intros (r'&->&H1&H2). destruct (decide (r' = r)) as [->|]; [right; left|]. rewrite lookup_insert_ne in H2 by done. congruence.
        * intros x. split; [by intros [|?%elem_of_list_singleton]%elem_of_cons|].
          intros (r'&->&H1&H2%lookup_insert_None). naive_solver.
        * intros x (a0&w&[->| ->%elem_of_list_singleton]%elem_of_cons&Hw); [by apply elem_of_list_singleton in Hw|by apply elem_of_nil in Hw].
        * intros r'. split; [by intros [|?%elem_of_list_singleton]%elem_of_cons|by intros (?&?&?)].
        * exists []. split; [done|]. intros a0 Ht. split; [by intros [->| ->%elem_of_list_singleton]%elem_of_cons|]. by intros (?&?%elem_of_nil&_).
      + destruct (a_readable _ _); [|done].
        assert (a_locks st' = a_locks st /\ a_log st' = a_log st /\ a_arenas st' = a_arenas st) as (H1&H2&H3).
        { destruct (ipick _ _), o; try done; try (by injection Hs as <-). destruct b; [|done]. by injection Hs as <-. }
        apply (asynced_touch _ _ _ _ _ []); try done; [by apply Hlook|]. by intros ? ?%elem_of_nil.
      + destruct b as [q|].
        * destruct (a_free st None q) as [st1|] eqn:Hf; [|done]. injection Hs as <-. apply free_value in Hf as (H1&H2&H3&H4&_).
          apply (asynced_touch _ _ _ _ _ [AvFree None q]); try done; [apply Hval|]. by intros ? ->%elem_of_list_singleton.
        * destruct (a_alloc E st a w) as [[st1 p]|] eqn:Ha; [|done]. injection Hs as <-. apply alloc_value in Ha as (H1&H2&H3&H4&_).
          apply (asynced_touch _ _ _ _ _ []); try done; [apply Hval|]. by intros ? ?%elem_of_nil.
      + destruct (a_read st p) as [w|]; [|done]. destruct (a_arenas st !! r) as [x|] eqn:Hx; [|done].
        destruct (a_readable _ _); [|done].
        assert (a_locks st' = a_locks st /\ exists es, a_log st' = es ++ a_log st /\ forall e, e ∈ es -> a_tells t e = []) as (H1&es&H2&H3).
        { destruct (a_cands _ _ _); injection Hs as <-.
          - split; [done|]. exists [AvIns t r o p w]. split; [done|]. by intros ? ->%elem_of_list_singleton.
          - split; [done|]. exists []. split; [done|]. by intros ? ?%elem_of_nil. }
        apply (asynced_touch _ _ _ _ _ es); try done. intros y v [[= -> ->]|Hv]%elem_of_cons.
        * exists r. split; [done|]. left. apply Hlk. simpl. by rewrite Nat.eqb_refl.
        * destruct (Hlook st eq_refl y v Hv) as (r'&->&[?|[?|Hn]]); [exists r'; tauto|lia|].
          unfold a_looks in Hv. rewrite Hk in Hv.
          apply elem_of_app in Hv as [[[= -> ->]|(?&[=]&_)%elem_of_list_fmap]%elem_of_cons|Hv%elem_of_list_singleton]; [congruence|done].
      + destruct (a_free st None p) as [st1|] eqn:Hf; [|done]. injection Hs as <-. apply free_value in Hf as (H1&H2&H3&H4&_).
        apply (asynced_touch _ _ _ _ _ [AvFree None p]); try done; [by apply Hlook|]. by intros ? ->%elem_of_list_singleton.
      + destruct (a_read st p); [|done]. injection Hs as <-.
        apply (asynced_touch _ _ _ _ _ []); try done; [by intros ? ? ?%elem_of_list_singleton|]. by intros ? ?%elem_of_nil.
      + assert (a_locks st !! r = Some t) as Hl by (apply Hlk; simpl; by rewrite Nat.eqb_refl).
        injection Hs as <-. unfold a_synced. simpl. split_and!.
        * intros y. split; [by intros [|?%elem_of_list_singleton]%elem_of_cons|].
          intros (r'&->&H1&H2). destruct (decide (r' = r)) as [->|]; [congruence|]. rewrite lookup_delete_ne in H2 by done. congruence.
        * intros y. split.
          -- intros [|[= ->]%elem_of_list_singleton]%elem_of_cons; [done|]. exists r. split_and!; [done|done|apply lookup_delete].
          -- intros (r'&->&H1&H2). destruct (decide (r' = r)) as [->|]; [right; left|]. rewrite lookup_delete_ne in H2 by done. congruence.
        * intros y (a0&w&[->| ->%elem_of_list_singleton]%elem_of_cons&Hw); [by apply elem_of_list_singleton in Hw|by apply elem_of_nil in Hw].
        * intros r'. split; [by intros [|?%elem_of_list_singleton]%elem_of_cons|by intros (?&?&?)].
        * exists []. split; [done|]. intros a0 Ht. split; [by intros [->| ->%elem_of_list_singleton]%elem_of_cons|]. by intros (?&?%elem_of_nil&_).
      + destruct (a_free_opt st (if m then b else None)) as [st1|] eqn:Hf; [|done]. injection Hs as <-.
        assert (a_locks st1 = a_locks st /\ a_arenas st1 = a_arenas st /\ exists es, a_log st1 = es ++ a_log st /\ forall e, e ∈ es -> a_tells t e = []) as (H1&H2&es&H3&H4).
        { destruct (if m then b else None) as [p|]; simpl in Hf.
          - apply free_value in Hf as (?&?&?&_). split_and!; [done|done|]. exists [AvFree None p]. split; [done|]. by intros ? ->%elem_of_list_singleton.
          - injection Hf as <-. split_and!; [done|done|]. exists []. split; [done|]. by intros ? ?%elem_of_nil. }
        set (tail := match x with AP p => [AGot p] | APanic => [] end ++ [AEnd r]) in *.
        assert (a_tells t (AvRet t r o b x) = tail) as Htl by (simpl; by rewrite Nat.eqb_refl).
        assert (forall c, c ∈ tail -> (exists p, c = AGot p) \/ c = AEnd r) as Hin.
        { intros c. unfold tail. destruct x as [p|]; simpl.
          - intros [->| ->%elem_of_list_singleton]%elem_of_cons; [left; by eexists|by right].
          - intros ->%elem_of_list_singleton. by right. }
        clearbody tail.
        apply (asynced_keep _ _ _ _ _ (AvRet t r o b x :: es)); [done|simpl; by rewrite H3| | | |].
        * by intros c [->|[[p ->]| ->]%Hin]%elem_of_cons.
        * intros y (c&w&[->|Hc%Hin]%elem_of_cons&Hw); [by apply (Hlook (a_event (a_set_stack st1 t k) (AvRet t r o b x)) H2 y w)|].
          destruct Hc as [[p ->]| ->]; by apply elem_of_nil in Hw.
        * intros r'. split; [|by intros (?&?&?)]. by intros [|[[p ?]|?]%Hin]%elem_of_cons.
        * intros c Hc. split.
          -- intros [->|H]%elem_of_cons; [done|]. exists (AvRet t r o b x). split; [left|]. by rewrite Htl.
          -- intros (e&[->|He]%elem_of_cons&H); [rewrite Htl in H; by right|]. rewrite (H4 e He) in H. by apply elem_of_nil in H.
      + injection Hs as <-. apply (asynced_touch _ _ _ _ _ [AvGone r]); try done.
        * intros y w [[= -> ->]|?%elem_of_list_singleton]%elem_of_cons; [|done]. exists r. split; [done|]. right. right. simpl.
          assert (ADead r [] ∈ a_stack st t) as Hd by (rewrite Hk; left). by apply (dead_facts E) in Hd as [_ [Hno _]].
        * by intros ? ->%elem_of_list_singleton.
      + destruct (a_free st (Some r) p) as [st1|] eqn:Hf; [|done]. injection Hs as <-. apply free_value in Hf as (H1&H2&H3&H4&_).
        apply (asynced_touch _ _ _ _ _ [AvFree (Some r) p]); try done; [by apply Hlook|]. by intros ? ->%elem_of_list_singleton.
    - destruct (a_stack st t) as [|[] k]; try done. destruct (_ && _); [|done]. injection Hs as <-.
      apply (asynced_keep _ _ _ _ _ []); try done; try (by intros ? ?%elem_of_nil).
      + by intros ? ?%access_nil.
      + intros r'. split; [by intros ?%elem_of_nil|by intros (?&?&?)].
      + intros a _. split; [by intros ?%elem_of_nil|by intros (?&?%elem_of_nil&_)].
    - unfold a_step_panic in *. destruct (a_stack st t) as [|f k] eqn:Hk; [done|].
      assert (forall z k, st' = a_set_stack st t k -> z = [ATouch (a_looks st t)] -> a_synced st t (LPanic t) z st') as Hquiet.
      { intros z k' -> ->. apply (asynced_touch _ _ _ _ _ []); try done; [by apply Hlook|]. by intros ? ?%elem_of_nil. }
      destruct f as [r o b|r o b|r w q|r o w b|r o b p|r o b p []|r o b p|r o b m x|r o b m []|r [|p ps]]; try done;
        try (injection Hs as <-; by eapply Hquiet).
      + destruct (a_drops o m); [|done]. injection Hs as <-. by eapply Hquiet.
      + destruct (a_free st (Some r) p) as [st1|] eqn:Hf; [|done]. injection Hs as <-. apply free_value in Hf as (H1&H2&H3&H4&_).
        apply (asynced_touch _ _ _ _ _ [AvLeak r ps; AvFree (Some r) p]); try done.
        * simpl. by rewrite H3.
        * intros y w [[= -> ->]|[|?%elem_of_list_singleton]%elem_of_cons]%elem_of_cons; [|done..]. exists r. split; [done|]. right. right. simpl. rewrite H1.
          assert (ADead r (p :: ps) ∈ a_stack st t) as Hd by (rewrite Hk; left). by apply (dead_facts E) in Hd as [_ [Hno _]].
        * by intros ? [->| ->%elem_of_list_singleton]%elem_of_cons.
    - destruct (a_returned r p (a_log st)); [|done].
      destruct (a_arenas st !! r); [|done]. destruct (a_read st p) as [w|]; [|done]. injection Hs as <-.
      apply (asynced_keep _ _ _ _ _ [AvRead r p w]); try done.
      + by intros a0 [->| ->%elem_of_list_singleton]%elem_of_cons.
      + intros x (a0&w0&[->| ->%elem_of_list_singleton]%elem_of_cons&Hw); [by apply elem_of_list_singleton in Hw|by apply elem_of_nil in Hw].
      + intros r'. split; [by intros [|?%elem_of_list_singleton]%elem_of_cons|by intros (?&?&?)].
      + intros a0 _. split; [intros H; eexists; split; [left|done]|]. by intros (?&->%elem_of_list_singleton&?).
    - destruct (a_arenas st !! r) as [x|] eqn:Hx; [|done]. destruct (_ && _); [|done]. injection Hs as <-.
      apply (asynced_keep _ _ _ _ _ [AvDrop r]); try done.
      + by intros a0 [->| ->%elem_of_list_singleton]%elem_of_cons.
      + intros y (a0&w0&[->| ->%elem_of_list_singleton]%elem_of_cons&Hw); [by apply elem_of_nil in Hw|].
        apply elem_of_cons in Hw as [|[= -> ->]%elem_of_list_singleton]; [done|]. exists r. split; [done|]. right. right. simpl. apply lookup_delete.
      + intros r'. split; [by intros [|?%elem_of_list_singleton]%elem_of_cons|by intros (?&?&?)].
      + intros a0 Ht. split; [intros [->| ->%elem_of_list_singleton]%elem_of_cons; [|done]; eexists; split; left|].
        intros (?&->%elem_of_list_singleton&->%elem_of_list_singleton). left.
  Qed.
End foot.

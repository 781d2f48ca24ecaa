(** The acts of the steps of NewModel account for them (C59). *)
From stdpp Require Import gmap list numbers.
From Verif Require Import Base InternModel InternSpec InternInv InternStep NewModel NewSpec NewSim NewStep NewFinal
  HbSpec HbModel HbNewModel HbNew HbStepSpec HbStep.

Section foot.
  Context {V Q : Type} (E : ienv V Q).
  Implicit Types (s : nstate V Q) (o : iop V Q) (p : iptr) (x : loc) (g : frame V Q).

  (** ** What a step reads *)
  Theorem n_reads_value s t l s' k v :
    i_by l t = true -> nstep E s l = Next s' -> ~ does_access (n_does E s t l) (LVal k) ->
    (forall w, n_value s k = Some w -> is_zst E v = is_zst E w) ->
    nstep E (n_other_value s k v) l = Next (n_other_value s' k v).
  Proof.
    intros Hb Hs Hd Hz0.
    assert (forall z, i_objs (nmem s) !! k = Some z -> is_zst E v = is_zst E (io_val z)) as Hz.
    { intros z Hx. apply Hz0. unfold n_value. simpl in Hx. by rewrite Hx. } clear Hz0.
    destruct l as [u o a|u a j|u w|u|p]; simpl in Hb, Hs |- *; try apply Nat.eqb_eq in Hb as ->.
    - change (nstack (n_other_value s k v) t) with (nstack s t).
      destruct (match nstack s t with f :: _ => nin_user f | [] => true end); [|done].
      destruct o; simpl in Hd; try done; try by injection Hs as <-.
      change (nmem (n_other_value s k v)) with (i_other_value (nmem s) k v).
      rewrite ov_alloc; [|done|intros ->; apply Hd; apply access_cons; left; exists true; left].
      destruct (ialloc E (nmem s) a v0 false) as [[st1 p]|] eqn:Ha; [|done]. simpl. by injection Hs as <-.
    - unfold nstep_thread in *. simpl in Hd. change (nstack (n_other_value s k v) t) with (nstack s t).
      change (nmem (n_other_value s k v)) with (i_other_value (nmem s) k v).
      change (nset (n_other_value s k v)) with (nset s). change (nvec (n_other_value s k v)) with (nvec s).
      destruct (nstack s t) as [|[o b again|o b|o b i|o b i|o b|i [o b|o b|ty w q|o w|o p|o b r|o r]] kk] eqn:Hk; try done.
      + destruct (find_ty _ _); [destruct (_ || _)|destruct again]; try done; by injection Hs as <-.
      + by injection Hs as <-.
      + destruct (_ =? _); [|done]. by injection Hs as <-.
      + simpl. destruct (n_locks s !! _); [done|]. destruct (bool_decide _); [destruct (existsb _ _); [done|]; by injection Hs as <-|].
        destruct o; by injection Hs as <-.
      + destruct b as [p|]; [|by injection Hs as <-]. unfold n_looks in Hd. rewrite Hk in Hd. apply not_access_cons in Hd as [Hd _].
        rewrite ov_free; [|intros <-; apply (Hd true); left]. destruct (ifree (nmem s) p); [|done]. simpl. by injection Hs as <-.
      + unfold n_looks in Hd. rewrite Hk in Hd. apply not_access_cons in Hd as [Hd _]. cbn in Hd.
        assert (forall p, p ∈ nset s (slot E (op_ty E o), i) -> ip_ser p <> k) as Hset.
        { eapply (not_set (nmem s) _ _ false); [|done]. specialize (Hd false). intros H. apply Hd. right. apply elem_of_app. by left. }
        assert (forall p, b = Some p -> ip_ser p <> k) as Hbb.
        { intros p ->. specialize (Hd false). intros <-. apply Hd. right. apply elem_of_app. right. left. }
        rewrite ov_readable, ov_cands by done. destruct (ireadable _ _); [|done].
        destruct (ipick _ _), o; try done; try by injection Hs as <-.
        destruct b as [p|]; [|done]. rewrite ov_leak by auto. destruct (ileak _ p); [|done]. simpl. by injection Hs as <-.
      + rewrite ov_alloc; [|done|intros ->; apply Hd; apply access_cons; left; exists true; left].
        destruct (ialloc E (nmem s) a w true) as [[st1 p]|] eqn:Ha; [|done]. simpl. by injection Hs as <-.
      + unfold n_looks in Hd. rewrite Hk in Hd. apply not_access_cons in Hd as [Hd _]. cbn in Hd.
        assert (forall p, p ∈ nset s (slot E (op_ty E o), i) -> ip_ser p <> k) as Hset.
        { eapply (not_set (nmem s) _ _ false); [|done]. specialize (Hd false). intros H. apply Hd. right. right. apply elem_of_app. by left. }
        assert (ip_ser p <> k) as Hp.
        { specialize (Hd false). intros <-. apply Hd. right. right. apply elem_of_app. right. left. }
        rewrite ov_read by done. destruct (iread _ p) as [w|]; [|done]. rewrite ov_readable, ov_cands by done.
        destruct (ireadable _ _); [|done]. destruct (candidates _ _ _); by injection Hs as <-.
      + unfold n_looks in Hd. rewrite Hk in Hd. apply not_access_cons in Hd as [Hd _]. cbn in Hd.
        destruct b as [p|]; [|by injection Hs as <-].
        rewrite ov_free; [|intros <-; apply (Hd true); left].
        destruct (ifree _ p); [|done]. simpl. by injection Hs as <-.
      + by injection Hs as <-.
    - change (nstack (n_other_value s k v) t) with (nstack s t).
      destruct (nstack s t) as [|[| | | | |i []] kk]; try done. destruct (_ && _); [|done]. by injection Hs as <-.
    - unfold nstep_panic in *. change (nstack (n_other_value s k v) t) with (nstack s t).
      destruct (nstack s t) as [|f kk]; [done|]. destruct (existsb _ _); [done|]. destruct f as [| | | | |i []]; try done; by injection Hs as <-.
    - change (n_log (n_other_value s k v)) with (n_log s).
      destruct (returned p (n_log s)); [|done]. simpl in Hd. apply not_access_cons in Hd as [Hd _].
      change (nmem (n_other_value s k v)) with (i_other_value (nmem s) k v).
      rewrite ov_read; [|intros <-; apply (Hd false); left]. destruct (iread _ p); [|done]. by injection Hs as <-.
  Qed.

  Lemma nos_set s x l y : x <> y -> nset (n_other_set s x l) y = nset s y.
  Proof. intros H. unfold nset. simpl. by rewrite lookup_insert_ne. Qed.
  Theorem n_reads_set s t l s' x k' :
    i_by l t = true -> nstep E s l = Next s' -> ~ does_access (n_does E s t l) (LSet x) ->
    nstep E (n_other_set s x k') l = Next (n_other_set s' x k').
  Proof.
    intros Hb Hs Hd.
    destruct l as [u o a|u a j|u w|u|p]; simpl in Hb, Hs |- *; try apply Nat.eqb_eq in Hb as ->.
    - change (nstack (n_other_set s x k') t) with (nstack s t).
      destruct (match nstack s t with f :: _ => nin_user f | [] => true end); [|done].
      destruct o; simpl in Hd; try done; try by injection Hs as <-.
      change (nmem (n_other_set s x k')) with (nmem s).
      destruct (ialloc E (nmem s) a v false) as [[st1 p]|] eqn:Ha; [|done]. simpl. by injection Hs as <-.
    - unfold nstep_thread in *. simpl in Hd. change (nstack (n_other_set s x k') t) with (nstack s t).
      change (nmem (n_other_set s x k')) with (nmem s). change (nvec (n_other_set s x k')) with (nvec s).
      destruct (nstack s t) as [|[o b again|o b|o b i|o b i|o b|i [o b|o b|ty w q|o w|o p|o b r|o r]] kk] eqn:Hk; try done.
      + destruct (find_ty _ _); [destruct (_ || _)|destruct again]; try done; by injection Hs as <-.
      + by injection Hs as <-.
      + destruct (_ =? _); [|done]. by injection Hs as <-.
      + simpl. destruct (n_locks s !! _); [done|]. destruct (bool_decide _); [destruct (existsb _ _); [done|]; by injection Hs as <-|].
        do 2 apply not_access_cons in Hd as [_ Hd]. apply not_access_cons in Hd as [Hd _].
        assert (x <> (slot E (op_ty E o), i)) as Hx by (intros ->; apply (Hd true); left).
        destruct o; injection Hs as <-; try done.
        * by rewrite nos_set.
        * unfold nset_stack, nevent, nput, n_other_set. simpl. by rewrite insert_commute.
      + destruct b as [p|]; [|by injection Hs as <-]. destruct (ifree (nmem s) p); [|done]. simpl. by injection Hs as <-.
      + unfold n_looks in Hd. rewrite Hk in Hd. apply not_access_cons in Hd as [Hd _]. cbn in Hd.
        assert (x <> (slot E (op_ty E o), i)) as Hx by (intros ->; apply (Hd false); left).
        rewrite nos_set by done. destruct (ireadable _ _); [|done].
        destruct (ipick _ _), o; try done; try by injection Hs as <-.
        destruct b as [p|]; [|done]. destruct (ileak _ p); [|done]. simpl. by injection Hs as <-.
      + destruct (ialloc E (nmem s) a w true) as [[st1 p]|] eqn:Ha; [|done]. simpl. by injection Hs as <-.
      + unfold n_looks in Hd. rewrite Hk in Hd. apply not_access_cons in Hd as [Hd _]. cbn in Hd.
        assert (x <> (slot E (op_ty E o), i)) as Hx by (intros ->; apply (Hd true); left).
        rewrite nos_set by done. destruct (iread _ p) as [w|]; [|done].
        destruct (ireadable _ _); [|done]. destruct (candidates _ _ _); injection Hs as <-; [|done].
        unfold nset_stack, nevent, nput, n_other_set. simpl. by rewrite insert_commute.
      + destruct b as [p|]; [|by injection Hs as <-]. destruct (ifree _ p); [|done]. simpl. by injection Hs as <-.
      + by injection Hs as <-.
    - change (nstack (n_other_set s x k') t) with (nstack s t).
      destruct (nstack s t) as [|[| | | | |i []] kk]; try done. destruct (_ && _); [|done]. by injection Hs as <-.
    - unfold nstep_panic in *. change (nstack (n_other_set s x k') t) with (nstack s t).
      destruct (nstack s t) as [|f kk]; [done|]. destruct (existsb _ _); [done|]. destruct f as [| | | | |i []]; try done; by injection Hs as <-.
    - change (n_log (n_other_set s x k')) with (n_log s).
      destruct (returned p (n_log s)); [|done]. change (nmem (n_other_set s x k')) with (nmem s).
      destruct (iread _ p); [|done]. by injection Hs as <-.
  Qed.

  (** Elements of the vectors *)
  Lemma noe_vec s c i ty d : nvec (n_other_elt s c i ty) d = if decide (d = c) then <[i := ty]> (nvec s c) else nvec s d.
  Proof.
    unfold nvec. simpl. destruct (decide (d = c)) as [->|].
    - rewrite lookup_alter. by destruct (n_vecs s !! c).
    - by rewrite lookup_alter_ne.
  Qed.
  Lemma noe_len s c i ty d : length (nvec (n_other_elt s c i ty) d) = length (nvec s d).
  Proof. rewrite noe_vec. destruct (decide (d = c)) as [->|]; [by rewrite insert_length|done]. Qed.
  (** Changing an element at or after the one found does not change what is found. *)
  Lemma find_ty_insert_ge ty u l i j : find_ty ty l = Some i -> i < j -> find_ty ty (<[j := u]> l) = Some i.
  Proof.
    revert i j. induction l as [|w l IH]; intros i j; [done|]. simpl. intros H Hij. destruct j as [|j]; [lia|]. simpl.
    destruct (w =? ty); [done|]. destruct (find_ty ty l) as [i'|] eqn:Hf; [|done]. simpl in H. injection H as <-.
    by rewrite (IH i' j) by (done || lia).
  Qed.
  Theorem n_reads_elt s t l s' c i ty :
    i_by l t = true -> nstep E s l = Next s' -> ~ does_access (n_does E s t l) (LElt (c, i)) -> i < length (nvec s c) ->
    nstep E (n_other_elt s c i ty) l = Next (n_other_elt s' c i ty).
  Proof.
    intros Hb Hs Hd Hi.
    destruct l as [u o a|u a j|u w|u|p]; simpl in Hb, Hs |- *; try apply Nat.eqb_eq in Hb as ->.
    - change (nstack (n_other_elt s c i ty) t) with (nstack s t).
      destruct (match nstack s t with f :: _ => nin_user f | [] => true end); [|done].
      destruct o; simpl in Hd; try done; try by injection Hs as <-.
      change (nmem (n_other_elt s c i ty)) with (nmem s).
      destruct (ialloc E (nmem s) a v false) as [[st1 p]|] eqn:Ha; [|done]. simpl. by injection Hs as <-.
    - unfold nstep_thread in *. simpl in Hd. change (nstack (n_other_elt s c i ty) t) with (nstack s t).
      change (nmem (n_other_elt s c i ty)) with (nmem s). change (nset (n_other_elt s c i ty)) with (nset s).
      destruct (nstack s t) as [|[o b again|o b|o b k|o b k|o b|k [o b|o b|ty' w q|o w|o p|o b r|o r]] kk] eqn:Hk; try done.
      + rewrite noe_vec. destruct (decide (slot E (op_ty E o) = c)) as [<-|Hc].
        2: { destruct (find_ty _ _); [destruct (_ || _)|destruct again]; try done; by injection Hs as <-. }
        assert (n_seen E s o again j <= i) as Hseen.
        { destruct (decide (n_seen E s o again j <= i)); [done|]. exfalso. apply Hd. eexists _, false. split; [apply elem_of_app; right; left|].
          simpl. apply elem_of_list_fmap. exists i. split; [done|]. apply elem_of_seq. lia. }
        unfold n_seen in Hseen. destruct (find_ty (op_ty E o) (nvec s (slot E (op_ty E o)))) as [i0|] eqn:Hf.
        * destruct ((j =? 0) || again) eqn:Hj.
          -- rewrite (find_ty_insert_ge _ _ _ i0) by done. by injection Hs as <-.
          -- destruct again; [by rewrite orb_true_r in Hj|]. injection Hs as <-. by destruct (find_ty _ (<[_ := _]> _)).
        * destruct again; [done|]. assert ((j =? 0) || false = false) as ->.
          { destruct (Nat.eqb_spec j 0) as [->|]; [lia|done]. }
          injection Hs as <-. by destruct (find_ty _ (<[_ := _]> _)).
      + by injection Hs as <-.
      + rewrite noe_len. destruct (Nat.eqb_spec (length (nvec s (slot E (op_ty E o)))) k); [|done]. injection Hs as <-. f_equal.
        unfold nset_stack, npublish. rewrite noe_vec. unfold n_other_elt. simpl. f_equal. apply map_eq. intros d.
        destruct (decide (d = slot E (op_ty E o))) as [->|Hd1].
        * rewrite lookup_insert. destruct (decide (slot E (op_ty E o) = c)) as [<-|].
          -- rewrite lookup_alter, lookup_insert. simpl. by rewrite insert_app_l.
          -- by rewrite lookup_alter_ne, lookup_insert.
        * rewrite lookup_insert_ne by done. destruct (decide (d = c)) as [->|].
          -- by rewrite !lookup_alter, lookup_insert_ne.
          -- by rewrite !lookup_alter_ne, lookup_insert_ne.
      + simpl. destruct (n_locks s !! _); [done|]. destruct (bool_decide _); [destruct (existsb _ _); [done|]; by injection Hs as <-|].
        destruct o; by injection Hs as <-.
      + destruct b as [p|]; [|by injection Hs as <-]. destruct (ifree (nmem s) p); [|done]. simpl. by injection Hs as <-.
      + destruct (ireadable _ _); [|done].
        destruct (ipick _ _), o; try done; try by injection Hs as <-.
        destruct b as [p|]; [|done]. destruct (ileak _ p); [|done]. simpl. by injection Hs as <-.
      + destruct (ialloc E (nmem s) a w true) as [[st1 p]|] eqn:Ha; [|done]. simpl. by injection Hs as <-.
      + destruct (iread _ p) as [w|]; [|done].
        destruct (ireadable _ _); [|done]. destruct (candidates _ _ _); by injection Hs as <-.
      + destruct b as [p|]; [|by injection Hs as <-]. destruct (ifree _ p); [|done]. simpl. by injection Hs as <-.
      + by injection Hs as <-.
    - change (nstack (n_other_elt s c i ty) t) with (nstack s t).
      destruct (nstack s t) as [|[| | | | |k []] kk]; try done. destruct (_ && _); [|done]. by injection Hs as <-.
    - unfold nstep_panic in *. change (nstack (n_other_elt s c i ty) t) with (nstack s t).
      destruct (nstack s t) as [|f kk]; [done|]. destruct (existsb _ _); [done|]. destruct f as [| | | | |k []]; try done; by injection Hs as <-.
    - change (n_log (n_other_elt s c i ty)) with (n_log s).
      destruct (returned p (n_log s)); [|done]. change (nmem (n_other_elt s c i ty)) with (nmem s).
      destruct (iread _ p); [|done]. by injection Hs as <-.
  Qed.

  (** ** What a step changes *)
  Lemma mem_alloc s a w b m p : ialloc E (nmem s) a w b = Some (m, p) ->
    forall k, (io_val <$> i_objs m !! k) <> n_value s k -> k = n_next s.
  Proof.
    intros Ha k. unfold ialloc in Ha. destruct (_ || _); [|done]. injection Ha as <- <-. unfold n_value. simpl.
    destruct (decide (k = n_next s)); [done|]. by rewrite lookup_insert_ne.
  Qed.
  Lemma mem_free s p m : ifree (nmem s) p = Some m -> forall k, (io_val <$> i_objs m !! k) <> n_value s k -> k = ip_ser p.
  Proof.
    intros Hp k. unfold ifree in Hp. destruct (_ !! _) as [z|]; [|done]. destruct (io_leaked z); [done|]. injection Hp as <-.
    unfold n_value. simpl. destruct (decide (k = ip_ser p)); [done|]. by rewrite lookup_delete_ne.
  Qed.
  Lemma mem_leak s p m : ileak (nmem s) p = Some m -> forall k, (io_val <$> i_objs m !! k) = n_value s k.
  Proof.
    intros Hp k. unfold ileak in Hp. destruct (_ !! _) as [z|] eqn:Hz; [|done]. destruct (io_leaked z); [done|]. injection Hp as <-.
    unfold n_value. simpl in *. destruct (decide (k = ip_ser p)) as [->|]; [by rewrite lookup_insert, Hz|by rewrite lookup_insert_ne].
  Qed.
  Lemma written_quiet s d s' : n_objs s' = n_objs s -> n_sets s' = n_sets s -> n_resv s' = n_resv s -> n_written s d s'.
  Proof. intros H1 H2 H3. unfold n_written, n_value, nset, nresv. by rewrite H1, H2, H3. Qed.
  Lemma written_value s d s' : (forall k, n_value s' k <> n_value s k -> does_write d (LVal k)) -> n_sets s' = n_sets s -> n_resv s' = n_resv s ->
    n_written s d s'.
  Proof. intros H1 H2 H3. unfold n_written, nset, nresv. by rewrite H2, H3. Qed.
  Theorem n_writes s t l s' : i_by l t = true -> nstep E s l = Next s' -> n_written s (n_does E s t l) s'.
  Proof.
    intros Hb Hs.
    destruct l as [u o a|u a j|u w|u|p]; simpl in Hb, Hs |- *; try apply Nat.eqb_eq in Hb as ->.
    - destruct (match nstack s t with f :: _ => nin_user f | [] => true end); [|done].
      destruct o; try done; try (injection Hs as <-; by apply written_quiet).
      destruct (ialloc E (nmem s) a v false) as [[m p]|] eqn:Ha; [|done]. injection Hs as <-. apply written_value; [|done|done].
      intros k Hk. rewrite (mem_alloc _ _ _ _ _ _ Ha k Hk). apply write_cons. left. left.
    - unfold nstep_thread in *.
      destruct (nstack s t) as [|[o b again|o b|o b i|o b i|o b|i [o b|o b|ty w q|o w|o p|o b r|o r]] kk] eqn:Hk; try done.
      + destruct (find_ty _ _); [destruct (_ || _)|destruct again]; try done; injection Hs as <-; by apply written_quiet.
      + injection Hs as <-. split_and!; [done|done|]. intros c. unfold nresv at 1. simpl.
        destruct (decide (c = slot E (op_ty E o))) as [->|]; [|by rewrite lookup_insert_ne].
        intros _. split; apply write_cons; left; [left|right; left].
      + destruct (_ =? _); [|done]. injection Hs as <-. by apply written_quiet.
      + destruct (n_locks s !! _); [done|]. destruct (bool_decide _); [destruct (existsb _ _); [done|]; injection Hs as <-; by apply written_quiet|].
        destruct o; injection Hs as <-; try (by apply written_quiet). split_and!; [done| |done]. intros x. unfold nset at 1. simpl.
        destruct (decide (x = (slot E ty, i))) as [->|]; [|by rewrite lookup_insert_ne]. intros _. simpl.
        do 2 (apply write_cons; right). apply write_cons. left. left.
      + destruct b as [p|]; [|injection Hs as <-; by apply written_quiet]. destruct (ifree (nmem s) p) as [m|] eqn:Hp; [|done]. injection Hs as <-.
        apply written_value; [|done|done]. intros k Hne. rewrite (mem_free _ _ _ Hp k Hne). apply write_cons. left.
        unfold n_looks. rewrite Hk. left.
      + destruct (ireadable _ _); [|done].
        destruct (ipick _ _), o; try done; try (injection Hs as <-; by apply written_quiet).
        destruct b as [p|]; [|done]. destruct (ileak _ p) as [m|] eqn:Hp; [|done]. injection Hs as <-.
        apply written_value; [|done|done]. intros k Hne. by destruct (Hne (mem_leak _ _ _ Hp k)).
      + destruct (ialloc E (nmem s) a w true) as [[m p]|] eqn:Ha; [|done]. injection Hs as <-. apply written_value; [|done|done].
        intros k Hne. rewrite (mem_alloc _ _ _ _ _ _ Ha k Hne). apply write_cons. left. left.
      + destruct (iread _ p) as [w|]; [|done].
        destruct (ireadable _ _); [|done]. destruct (candidates _ _ _); injection Hs as <-; [|by apply written_quiet].
        split_and!; [done| |done]. intros x. unfold nset at 1. simpl.
        destruct (decide (x = (slot E (op_ty E o), i))) as [->|]; [|by rewrite lookup_insert_ne]. intros _.
        apply write_cons. left. left.
      + destruct b as [p|]; [|injection Hs as <-; by apply written_quiet]. destruct (ifree (nmem s) p) as [m|] eqn:Hp; [|done]. injection Hs as <-.
        apply written_value; [|done|done]. intros k Hne. rewrite (mem_free _ _ _ Hp k Hne). apply write_cons. left.
        unfold n_looks. rewrite Hk. left.
      + injection Hs as <-. by apply written_quiet.
    - destruct (nstack s t) as [|[| | | | |i []] kk]; try done. destruct (_ && _); [|done]. injection Hs as <-. by apply written_quiet.
    - unfold nstep_panic in *.
      destruct (nstack s t) as [|f kk]; [done|]. destruct (existsb _ _); [done|]. destruct f as [| | | | |i []]; try done; injection Hs as <-; by apply written_quiet.
    - destruct (returned p (n_log s)); [|done]. destruct (iread _ p); [|done]. injection Hs as <-. by apply written_quiet.
  Qed.

  (** ** Who holds a mutex *)
  Definition nowns s : Prop := forall t i g, NIn i g ∈ nstack s t -> n_locks s !! (slot E (frame_ty E g), i) = Some t.
  Lemma nstack_upd s s' t kk u : n_threads s' = <[t := kk]> (n_threads s) -> nstack s' u = if decide (t = u) then kk else nstack s u.
  Proof.
    intros H. unfold nstack. rewrite H. destruct (decide (t = u)) as [->|]; [by rewrite lookup_insert|by rewrite lookup_insert_ne].
  Qed.
  Lemma nowns_keep s s' t fs fs' kk : nowns s -> n_threads s' = <[t := fs' ++ kk]> (n_threads s) -> nstack s t = fs ++ kk ->
    n_locks s' = n_locks s ->
    (forall i g, NIn i g ∈ fs' -> exists g', NIn i g' ∈ fs /\ frame_ty E g' = frame_ty E g) -> nowns s'.
  Proof.
    intros HO Hth Hk Hl Hf u i g Hu. rewrite Hl. rewrite (nstack_upd _ _ _ _ u Hth) in Hu.
    destruct (decide (t = u)) as [<-|]; [|by apply HO]. apply elem_of_app in Hu as [Hu|Hu].
    - destruct (Hf i g Hu) as (g'&Hg&<-). apply HO. rewrite Hk. apply elem_of_app. by left.
    - apply HO. rewrite Hk. apply elem_of_app. by right.
  Qed.
  Lemma nowns_step s l s' : NInv E s -> nowns s -> nstep E s l = Next s' -> nowns s'.
  Proof.
    intros HI HO Hs. destruct l as [t o a|t a j|t w|t|p]; simpl in Hs.
    - destruct (match nstack s t with f :: _ => nin_user f | [] => true end); [|done].
      assert (forall s1 b, n_threads s1 = n_threads s -> n_locks s1 = n_locks s -> nowns (nset_stack s1 t (NScan o b false :: nstack s t))) as Hgo.
      { intros s1 b H1 H2. apply (nowns_keep s _ t [] [NScan o b false] (nstack s t)); [done|simpl; by rewrite H1|done|done|].
        by intros i g ?%elem_of_list_singleton. }
      destruct o; try done; try (injection Hs as <-; by apply Hgo).
      destruct (ialloc E (nmem s) a v false) as [[m p]|] eqn:Ha; [|done]. injection Hs as <-. by apply Hgo.
    - unfold nstep_thread in Hs. destruct (nstack s t) as [|f0 kk] eqn:Hk; [done|].
      assert (forall s1 f, (forall i g, f = NIn i g -> exists g', f0 = NIn i g' /\ frame_ty E g' = frame_ty E g) ->
        n_threads s1 = n_threads s -> n_locks s1 = n_locks s -> nowns (nset_stack s1 t (f :: kk))) as Hgo.
      { intros s1 f Hg H1 H2. apply (nowns_keep s _ t [f0] [f] kk); [done|simpl; by rewrite H1|done|done|].
        intros i g <-%elem_of_list_singleton. destruct (Hg i g eq_refl) as (g'&->&?). exists g'. split; [left|done]. }
      assert (forall s1, n_threads s1 = n_threads s -> n_locks s1 = n_locks s -> nowns (nset_stack s1 t kk)) as Hpop.
      { intros s1 H1 H2. apply (nowns_keep s _ t [f0] [] kk); [done|simpl; by rewrite H1|done|done|]. by intros i g ?%elem_of_nil. }
      destruct f0 as [o b again|o b|o b i|o b i|o b|i [o b|o b|ty w q|o w|o p|o b r|o r]]; try done.
      + destruct (find_ty _ _); [destruct (_ || _)|destruct again]; try done; injection Hs as <-; by apply Hgo.
      + injection Hs as <-. by apply Hgo.
      + destruct (_ =? _); [|done]. injection Hs as <-. by apply Hgo.
      + destruct (n_locks s !! _) eqn:Hl; [done|]. destruct (bool_decide _); [destruct (existsb _ _); [done|]; injection Hs as <-; by apply Hgo|].
        set (x := (slot E (op_ty E o), i)) in *.
        assert (forall s1 g, frame_ty E g = op_ty E o -> n_threads s1 = n_threads s -> n_locks s1 = <[x := t]> (n_locks s) ->
          nowns (nset_stack s1 t (NIn i g :: kk))) as Hin.
        { intros s1 g Hg Hth Hl1 u i' g' Hu. simpl. rewrite Hl1.
          assert (n_threads (nset_stack s1 t (NIn i g :: kk)) = <[t := NIn i g :: kk]> (n_threads s)) as Hth' by (simpl; by rewrite Hth).
          rewrite (nstack_upd _ _ _ _ u Hth') in Hu.
          assert (NIn i' g' ∈ nstack s u -> <[x := t]> (n_locks s) !! (slot E (frame_ty E g'), i') = Some u) as Hold.
          { intros H%HO. rewrite lookup_insert_ne; [done|]. intros Hx. rewrite <- Hx in H. congruence. }
          destruct (decide (t = u)) as [<-|]; [|by apply Hold]. apply elem_of_cons in Hu as [[= -> ->]|Hu].
          - rewrite Hg. apply lookup_insert.
          - apply Hold. rewrite Hk. by right. }
        destruct o; injection Hs as <-; by apply Hin.
      + destruct b as [p|]; [|injection Hs as <-; by apply (Hpop s)]. destruct (ifree (nmem s) p) as [m|] eqn:Hp; [|done]. injection Hs as <-.
        by apply (Hpop (with_mem s m)).
      + destruct (ireadable _ _); [|done]. destruct (ipick _ _), o; try done;
          try (injection Hs as <-; apply Hgo; [|done|done]; intros ? ? [= <- <-]; by eexists).
        destruct b as [p|]; [|done]. destruct (ileak _ p) as [m|] eqn:Hp; [|done]. injection Hs as <-.
        apply Hgo; [|done|done]. intros ? ? [= <- <-]. by eexists.
      + destruct (ialloc E (nmem s) a w true) as [[m p]|] eqn:Ha; [|done]. injection Hs as <-.
        apply Hgo; [|done|done]. intros ? ? [= <- <-]. by eexists.
      + destruct (iread _ p) as [w|]; [|done].
        destruct (ireadable _ _); [|done]. destruct (candidates _ _ _); injection Hs as <-; (apply Hgo; [|done|done]; intros ? ? [= <- <-]; by eexists).
      + destruct b as [p|]; [|injection Hs as <-; apply Hgo; [|done|done]; intros ? ? [= <- <-]; by eexists].
        destruct (ifree _ p) as [m|] eqn:Hp; [|done]. injection Hs as <-. apply Hgo; [|done|done]. intros ? ? [= <- <-]. by eexists.
      + injection Hs as <-. intros u i' g' Hu. simpl.
        match goal with H : _ ∈ nstack ?s' u |- _ => assert (n_threads s' = <[t := kk]> (n_threads s)) as Hth by done end.
        rewrite (nstack_upd _ _ _ _ u Hth) in Hu.
        assert (NIn i' g' ∈ nstack s u /\ (NIn i' g' ∈ kk \/ t <> u)) as [Hin Hne].
        { destruct (decide (t = u)) as [<-|Hne]; [|split; [done|by right]]. split; [rewrite Hk; by right|by left]. }
        rewrite lookup_delete_ne; [by apply HO|]. intros Hx.
        assert (NIn i' g' = NIn i (FDone o r) /\ u = t) as [Heq ->].
        { assert (op_ty E o = frame_ty E g') as Hty.
          { destruct HI as (st&HI&_&HR). injection Hx as Hsl Hi. eapply (first_inj E s _ _ i i').
            - apply (frame_first E s st t (NIn i (FDone o r)) i HR); [rewrite Hk; left|done].
            - rewrite <- (call_frame_ty E i' g'). by apply (frame_first E s st u (NIn i' g') i' HR).
            - congruence. }
          destruct (inside_excl E s t (NIn i (FDone o r)) kk u (NIn i' g') HI Hk) as [-> H]; [done|done|done| |done].
          by rewrite !call_frame_ty. }
        destruct Hne as [Hne|]; [|done]. rewrite Heq in Hne.
        destruct HI as (st&HI&_&HR). pose proof (v_locks _ _ HI (InternModel.slot (E1 E) (op_ty E o))) as Hsum.
        assert (held (E1 E) (InternModel.slot (E1 E) (op_ty E o)) (FDone o r) = 1) as Hh.
        { unfold held. simpl. by rewrite Nat.eqb_refl. }
        set (w := held (E1 E) (InternModel.slot (E1 E) (op_ty E o))) in *.  clearbody w.
        pose proof (msum_stack_ge w st t) as Hge.
        rewrite (R_stack E s st t HR), Hk in Hge. csimpl in Hge. rewrite Hh in Hge.
        assert (FDone o r ∈ erase <$> kk) as Hin' by (apply elem_of_list_fmap; by exists (NIn i (FDone o r))).
        pose proof (lsum_ge w _ _ Hin') as H1. rewrite Hh in H1.
        unfold lk in Hsum. destruct (_ !! _); lia.
    - destruct (nstack s t) as [|[| | | | |i []] kk] eqn:Hk; try done. destruct (_ && _); [|done]. injection Hs as <-.
      eapply (nowns_keep s _ t [_] [_] kk); [done|done|done|done|]. intros i' g [= -> ->]%elem_of_list_singleton. eexists. split; [left|done].
    - unfold nstep_panic in *.
      destruct (nstack s t) as [|f kk] eqn:Hk; [done|]. destruct (existsb _ _); [done|].
      destruct f as [| | | | |i []]; try done; injection Hs as <-;
        (eapply (nowns_keep s _ t [_] [_] kk); [done|done|done|done|]; intros i' g [= -> ->]%elem_of_list_singleton; eexists; split; [left|done]).
    - destruct (returned p (n_log s)); [|done]. destruct (iread _ p); [|done]. by injection Hs as <-.
  Qed.
  Lemma nowns_run ls s : run (nstep E) ninit ls = Some s -> nowns s.
  Proof.
    assert (forall ls s0, NInv E s0 -> nowns s0 -> forall s1, run (nstep E) s0 ls = Some s1 -> nowns s1) as H.
    { clear ls s. intros ls. induction ls as [|l ls IH]; intros s0 HI HO s1; simpl; [by intros [= <-]|]. unfold exec.
      destruct (nstep E s0 l) as [s2| | |] eqn:Hst; [|by apply IH|by apply IH|done].
      apply IH; [by eapply nstep_inv|by eapply nowns_step]. }
    apply H; [apply ninv_init|]. intros t i g Hf. by apply elem_of_nil in Hf.
  Qed.

  (** ** Synchronisation *)
  (** A step that only touches, and perhaps acquires elements. *)
  Lemma nsynced_quiet s t d s' :
    n_locks s' = n_locks s -> n_vecs s' = n_vecs s ->
    (forall a, a ∈ d -> match a with ATouch _ => True | AAcq (SElt (c, i)) => i < length (nvec s c) | _ => False end) ->
    n_log s' = n_log s \/ (exists e, n_log s' = e :: n_log s /\ match e with EvIns _ _ _ _ | EvRet _ _ RPanic => True | _ => False end) ->
    (forall x, does_access d (LSet x) -> n_locks s !! x = Some t \/ x.2 = nresv s x.1 /\ nresv s' x.1 = S x.2) -> n_synced s t d s'.
  Proof.
    intros Hl Hv Ht Hg Hx. unfold n_synced. rewrite Hl.
    assert (forall c, nvec s' c = nvec s c) as Hv' by (intros c; unfold nvec; by rewrite Hv).
    assert (forall x, AAcq (SLock x) ∈ d -> False) as H1 by (by intros x H%Ht).
    assert (forall y, ARel y ∈ d -> False) as H2 by (by intros y H%Ht).
    split_and!.
    - intros x. split; [by intros ?%H1|]. intros [H3 [H4|[_ H4%H2]]]; [congruence|done].
    - intros x. split; [by intros ?%H2|]. intros [[H3 H4]|[_ H4%H1]]; [congruence|done].
    - intros c i H. by apply Ht in H.
    - intros c i. split; [by intros ?%H2|]. intros [-> H]. rewrite Hv' in H. lia.
    - intros x H. destruct (Hx x H); tauto.
    - intros p. split; [intros H; by apply Ht in H|]. intros [o H]. destruct Hg as [Hg|(e&Hg&He)]; rewrite Hg in H.
      + apply (f_equal length) in H. simpl in H. lia.
      + injection H as ->. done.
    - intros p. split; [intros H; by apply Ht in H|]. intros [o H]. destruct Hg as [Hg|(e&Hg&He)]; rewrite Hg in H.
      + apply (f_equal length) in H. simpl in H. lia.
      + injection H as ->. done.
  Qed.
  Lemma nsynced_silent s t s' : n_locks s' = n_locks s -> n_vecs s' = n_vecs s -> n_log s' = n_log s -> n_synced s t [] s'.
  Proof. intros ???. apply nsynced_quiet; [done|done|by intros a ?%elem_of_nil|by left|]. by intros x ?%access_nil. Qed.
  Lemma nsynced_one s t l s' : n_locks s' = n_locks s -> n_vecs s' = n_vecs s ->
    n_log s' = n_log s \/ (exists e, n_log s' = e :: n_log s /\ match e with EvIns _ _ _ _ | EvRet _ _ RPanic => True | _ => False end) ->
    (forall x w, (LSet x, w) ∈ l -> n_locks s !! x = Some t) -> n_synced s t [ATouch l] s'.
  Proof.
    intros H1 H2 H3 Hl. apply nsynced_quiet; [done|done|by intros a ->%elem_of_list_singleton|done|].
    intros x [w H]%access_one. left. by eapply Hl.
  Qed.
  Lemma n_looks_locked s t x w : nowns s -> (LSet x, w) ∈ n_looks E s t -> n_locks s !! x = Some t.
  Proof.
    intros HO Hw. unfold n_looks in Hw.
    destruct (nstack s t) as [|[o b again|o b|o b i|o b i|o b|i [o b|o b|ty u q|o u|o p|o b r|o r]] kk] eqn:Hk; try by apply elem_of_nil in Hw.
    - destruct b as [p|]; [by apply elem_of_list_singleton in Hw|by apply elem_of_nil in Hw].
    - apply elem_of_app in Hw as [[[= -> ->]|(p&[=]&_)%elem_of_list_fmap]%elem_of_cons|Hw].
      + apply (HO t i (FGet o b)). rewrite Hk. left.
      + destruct b as [p|]; [by apply elem_of_list_singleton in Hw|by apply elem_of_nil in Hw].
    - apply elem_of_app in Hw as [[[= -> ->]|(?&[=]&_)%elem_of_list_fmap]%elem_of_cons|Hw%elem_of_list_singleton]; [|done].
      apply (HO t i (FIns o p)). rewrite Hk. left.
    - destruct b as [p|]; [by apply elem_of_list_singleton in Hw|by apply elem_of_nil in Hw].
  Qed.
  Lemma find_ty_lt ty l i : find_ty ty l = Some i -> i < length l.
  Proof.
    revert i. induction l as [|u l IH]; intros i; [done|]. simpl. destruct (u =? ty); [intros [= <-]; lia|].
    destruct (find_ty ty l) as [j|]; [|done]. simpl. intros [= <-]. specialize (IH j eq_refl). lia.
  Qed.
  Lemma n_seen_le s o again j : n_seen E s o again j <= length (nvec s (slot E (op_ty E o))).
  Proof.
    unfold n_seen. destruct (find_ty _ _) as [i|] eqn:Hf; [|lia]. apply find_ty_lt in Hf. destruct (_ || _); lia.
  Qed.
  Theorem n_syncs ls s t l s' :
    run (nstep E) ninit ls = Some s -> i_by l t = true -> nstep E s l = Next s' -> n_synced s t (n_does E s t l) s'.
  Proof.
    intros Hr%nowns_run Hb Hs.
    assert (forall x w, (LSet x, w) ∈ n_looks E s t -> n_locks s !! x = Some t) as Hlook by (intros; by eapply n_looks_locked).
    assert (forall n x w, (LSet x, w) ∈ [(LVal n, true)] -> n_locks s !! x = Some t) as Hval by (by intros n x w ?%elem_of_list_singleton).
    destruct l as [u o a|u a j|u w|u|p]; simpl in Hb, Hs |- *; try apply Nat.eqb_eq in Hb as ->.
    - destruct (match nstack s t with f :: _ => nin_user f | [] => true end); [|done].
      destruct o; try done; try (injection Hs as <-; by apply nsynced_silent).
      destruct (ialloc E (nmem s) a v false) as [[m p]|] eqn:Ha; [|done]. injection Hs as <-.
      apply nsynced_one; [done|done|by left|apply Hval].
    - unfold nstep_thread in *.
      destruct (nstack s t) as [|[o b again|o b|o b i|o b i|o b|i [o b|o b|ty w q|o w|o p|o b r|o r]] kk] eqn:Hk; try done.
      + assert (n_locks s' = n_locks s /\ n_vecs s' = n_vecs s /\ n_log s' = n_log s) as (H1&H2&H3).
        { destruct (find_ty _ _); [destruct (_ || _)|destruct again]; try done; by injection Hs as <-. }
        apply nsynced_quiet; [done|done| |by left|].
        * intros z [(i&->&Hi%elem_of_seq)%elem_of_list_fmap|Hz%elem_of_list_singleton]%elem_of_app; [|by subst z].
          pose proof (n_seen_le s o again j). lia.
        * intros x (y&w&[(i&->&Hi%elem_of_seq)%elem_of_list_fmap|Hz%elem_of_list_singleton]%elem_of_app&Hw); [by apply elem_of_nil in Hw|]. subst y.
          by apply elem_of_list_fmap in Hw as (?&?&_).
      + injection Hs as <-. apply nsynced_quiet; [done|done|by intros a0 ->%elem_of_list_singleton|by left|].
        intros x [w Hw]%access_one. apply elem_of_cons in Hw as [|[= -> ->]%elem_of_list_singleton]; [done|].
        right. split; [done|]. unfold nresv at 1. simpl. by rewrite lookup_insert.
      + destruct (Nat.eqb_spec (length (nvec s (slot E (op_ty E o)))) i) as [<-|]; [|done]. injection Hs as <-. unfold n_synced. simpl. split_and!.
        * intros x. split; [by intros ?%elem_of_list_singleton|]. intros [H1 [H2|[_ H2%elem_of_list_singleton]]]; [congruence|done].
        * intros x. split; [by intros ?%elem_of_list_singleton|]. intros [[H1 H2]|[_ H2%elem_of_list_singleton]]; [congruence|done].
        * by intros c i ?%elem_of_list_singleton.
        * intros c i. unfold nvec at 3. simpl. split.
          -- intros [= -> ->]%elem_of_list_singleton. rewrite lookup_insert. simpl. rewrite app_length. simpl. split; [done|lia].
          -- intros [-> H]. destruct (decide (c = slot E (op_ty E o))) as [->|]; [left|]. rewrite lookup_insert_ne in H by done. unfold nvec in H. lia.
        * intros x (y&w&->%elem_of_list_singleton&Hw). by apply elem_of_nil in Hw.
        * intros p. split; [by intros ?%elem_of_list_singleton|]. intros [o' H]. apply (f_equal length) in H. simpl in H. lia.
        * intros p. split; [by intros ?%elem_of_list_singleton|]. intros [o' H]. apply (f_equal length) in H. simpl in H. lia.
      + destruct (n_locks s !! _) eqn:Hl; [done|]. case_bool_decide as Hpo.
        * destruct (existsb _ _); [done|]. injection Hs as <-. unfold n_synced. simpl. split_and!.
          -- intros x. rewrite !elem_of_cons, !elem_of_nil. split.
             ++ intros [[=]|[[= ->]|[[=]|[]]]]. tauto.
             ++ intros [H1 [H2|[_ [[=]|[[=]|[[= ->]|[]]]]]]]; [congruence|tauto].
          -- intros x. rewrite !elem_of_cons, !elem_of_nil. split.
             ++ intros [[=]|[[=]|[[= ->]|[]]]]. tauto.
             ++ intros [[H1 H2]|[_ [[=]|[[= ->]|[[=]|[]]]]]]; [congruence|tauto].
          -- intros c k. rewrite !elem_of_cons, elem_of_nil. naive_solver.
          -- intros c k. rewrite !elem_of_cons, elem_of_nil. split; [naive_solver|]. unfold nvec. simpl. intros [-> H]. lia.
          -- intros x (y&w&Hy&Hw). rewrite !elem_of_cons, elem_of_nil in Hy. destruct Hy as [->|[->|[->|[]]]]; [|by apply elem_of_nil in Hw..].
             by apply elem_of_list_singleton in Hw.
          -- intros p. rewrite !elem_of_cons, elem_of_nil. split; [naive_solver|]. intros [o' H]. apply (f_equal length) in H. simpl in H. lia.
          -- intros p. rewrite !elem_of_cons, elem_of_nil. split; [naive_solver|]. intros [o' H]. apply (f_equal length) in H. simpl in H. lia.
        * set (x0 := (slot E (op_ty E o), i)) in *.
          assert (n_locks s' = <[x0 := t]> (n_locks s) /\ n_vecs s' = n_vecs s /\
            (n_log s' = n_log s \/ exists ty, n_log s' = EvClr ty :: n_log s)) as (H1&H2&H3).
          { destruct o; injection Hs as <-; simpl; eauto. }
          unfold n_synced. rewrite H1. assert (forall c, nvec s' c = nvec s c) as Hv' by (intros c; unfold nvec; by rewrite H2).
          assert (forall z, z ∈ [ATouch [(LElt x0, false)]; AAcq (SLock x0); ATouch [(LSet x0, true)]] ->
            z = ATouch [(LElt x0, false)] \/ z = AAcq (SLock x0) \/ z = ATouch [(LSet x0, true)]) as Hz.
          { intros z. rewrite !elem_of_cons, elem_of_nil. tauto. }
          split_and!.
          -- intros x. split.
             ++ intros H%Hz. destruct H as [[=]|[[= ->]|[=]]]. split; [done|]. left. by rewrite lookup_insert.
             ++ intros [H4 [H5|[_ H5%Hz]]]; [|by destruct H5 as [|[]]]. destruct (decide (x = x0)) as [->|]; [right; left|]. rewrite lookup_insert_ne in H5 by done. congruence.
          -- intros x. split; [by intros H%Hz; destruct H as [|[]]|]. intros [[H4 H5]|[H4 H5%Hz]]; [|destruct H5 as [[=]|[[= ->]|[=]]]; done].
             destruct (decide (x = x0)) as [->|]; [congruence|]. rewrite lookup_insert_ne in H5 by done. congruence.
          -- intros c k H%Hz. by destruct H as [|[]].
          -- intros c k. split; [by intros H%Hz; destruct H as [|[]]|]. intros [-> H]. rewrite Hv' in H. lia.
          -- intros x (y&w&Hy%Hz&Hw). destruct Hy as [-> | [-> | ->]]; [by apply elem_of_list_singleton in Hw|by apply elem_of_nil in Hw|].
             apply elem_of_list_singleton in Hw as [= -> ->]. right. left. by rewrite lookup_insert.
          -- intros p. split; [by intros H%Hz; destruct H as [|[]]|]. intros [o' H].
             destruct H3 as [H3|[ty H3]]; rewrite H3 in H; [apply (f_equal length) in H; simpl in H; lia|done].
          -- intros p. split; [by intros H%Hz; destruct H as [|[]]|]. intros [o' H].
             destruct H3 as [H3|[ty H3]]; rewrite H3 in H; [apply (f_equal length) in H; simpl in H; lia|done].
      + destruct b as [p|].
        * destruct (ifree (nmem s) p) as [m|] eqn:Hp; [|done]. injection Hs as <-. apply nsynced_one; [done|done|right; by eexists|done].
        * injection Hs as <-. apply nsynced_one; [done|done|right; by eexists|done].
      + apply nsynced_one; [| |left|done].
        all: destruct (ireadable _ _); [|done]; destruct (ipick _ _), o; try done; try (by injection Hs as <-);
          (destruct b as [p|]; [|done]); (destruct (ileak _ p) as [m|] eqn:Hp; [|done]); by injection Hs as <-.
      + destruct (ialloc E (nmem s) a w true) as [[m p]|] eqn:Ha; [|done]. injection Hs as <-.
        apply nsynced_one; [done|done|by left|apply Hval].
      + destruct (iread _ p) as [v|]; [|done]. destruct (ireadable _ _); [|done].
        apply nsynced_one; [destruct (candidates _ _ _); by injection Hs as <-..| |].
        * destruct (candidates _ _ _); injection Hs as <-; [right; by eexists|by left].
        * intros x w [[= -> ->]|Hw]%elem_of_cons; [|by eapply Hlook]. apply (Hr t i (FIns o p)). rewrite Hk. left.
      + destruct b as [p|].
        * destruct (ifree (nmem s) p) as [m|] eqn:Hp; [|done]. injection Hs as <-. apply nsynced_one; [done|done|by left|done].
        * injection Hs as <-. apply nsynced_one; [done|done|by left|done].
      + injection Hs as <-. set (x0 := (slot E (op_ty E o), i)) in *.
        assert (n_locks s !! x0 = Some t) as Hl by (apply (Hr t i (FDone o r)); rewrite Hk; left).
        assert (forall z, z ∈ match r with RPtr p => [AGot p] | _ => [] end -> exists p, z = AGot p /\ r = RPtr p) as Hgot.
        { intros z Hx. destruct r; try by apply elem_of_nil in Hx. apply elem_of_list_singleton in Hx as ->. eauto. }
        unfold n_synced. simpl. split_and!.
        * intros x. split.
          -- intros [|(?&?&_)%Hgot]%elem_of_cons; done.
          -- intros [H1 [H2|[_ H2%elem_of_cons]]]; [|destruct H2 as [[= ->]|H2]; [congruence|by apply Hgot in H2 as (?&?&_)]].
             destruct (decide (x = x0)) as [->|]; [congruence|]. rewrite lookup_delete_ne in H2 by done. congruence.
        * intros x. split.
          -- intros [[= ->]|(?&?&_)%Hgot]%elem_of_cons; [|done]. left. split; [done|]. by rewrite lookup_delete.
          -- intros [[H1 H2]|[_ H2%elem_of_cons]]; [|destruct H2 as [|H2]; [done|by apply Hgot in H2 as (?&?&_)]].
             destruct (decide (x = x0)) as [->|]; [left|]. rewrite lookup_delete_ne in H2 by done. congruence.
        * intros c k [|(?&?&_)%Hgot]%elem_of_cons; done.
        * intros c k. split; [intros [|(?&?&_)%Hgot]%elem_of_cons; done|]. unfold nvec. simpl. lia.
        * intros x [[w Hw]|(y&w&(p&->&_)%Hgot&Hw)]%access_cons; by apply elem_of_nil in Hw.
        * intros p. split.
          -- intros [|(?&[= <-]&->)%Hgot]%elem_of_cons; [done|]. by exists o.
          -- intros [o' [= <- ->]]. right. left.
        * intros p. split; [by intros [|(?&?&_)%Hgot]%elem_of_cons|]. by intros [v [=]].
    - destruct (nstack s t) as [|[| | | | |i []] kk]; try done. destruct (_ && _); [|done]. injection Hs as <-. by apply nsynced_silent.
    - unfold nstep_panic in *.
      destruct (nstack s t) as [|f kk]; [done|]. destruct (existsb _ _); [done|].
      destruct f as [| | | | |i []]; try done; injection Hs as <-; (apply nsynced_one; [done|done|by left|done]).
    - destruct (returned p (n_log s)); [|done]. destruct (iread _ p) as [v|]; [|done]. injection Hs as <-. unfold n_synced. simpl. split_and!.
      + intros x. split; [by intros ?%elem_of_list_singleton|]. intros [H1 [H2|[_ H2%elem_of_list_singleton]]]; [congruence|done].
      + intros x. split; [by intros ?%elem_of_list_singleton|]. intros [[H1 H2]|[_ H2%elem_of_list_singleton]]; [congruence|done].
      + by intros c i ?%elem_of_list_singleton.
      + intros c i. split; [by intros ?%elem_of_list_singleton|]. unfold nvec. simpl. lia.
      + intros x [[w Hw]|?%access_nil]%access_cons; [|done]. by apply elem_of_list_singleton in Hw.
      + intros q. split; [by intros ?%elem_of_list_singleton|]. by intros [o [=]].
      + intros q. split; [intros [= ->]%elem_of_list_singleton; by exists v|]. intros [v' [= -> ->]]. left.
  Qed.
End foot.

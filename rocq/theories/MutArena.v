(** Interior mutability of values of [Arena]. *)
From stdpp Require Import gmap list numbers.
From Verif Require Import Base InternModel InternSpec ArenaModel ArenaSpec ArenaInv ArenaMore MutModel MutSpec MutArc MutIntern.
Require Import ZifyBool ZifyNat ZifyN.

(** ** Stores that Eq, Hash and Borrow do not see *)
Section sim.
  Context {V Q : Type} (E : ienv V Q).
  Implicit Types (st : astate V Q) (v d : V) (p : iptr) (o : aop V Q) (f : aframe V Q) (t ty s r : nat).
  Notation alike := (alike E).
  Notation iunseen := (iunseen E).

  Lemma iu_amatch o v w : iunseen v w -> a_match E o v = a_match E o w.
  Proof.
    intros H. destruct o; simpl; try done; unfold seen; rewrite (iu_hash _ _ _ H); f_equal;
      first [apply (iu_eq _ _ _ H)|apply (iu_borrow _ _ _ H)].
  Qed.
  Lemma alike_read st st' p : alike st st' -> option_Forall2 iunseen (a_read st p) (a_read st' p).
  Proof.
    intros H. unfold a_read. pose proof (al_objs _ _ _ H (ip_ser p)) as Ho.
    inversion Ho as [x y (_&?) Hx Hy|]; simpl; by constructor.
  Qed.
  Lemma alike_stack st st' t : alike st st' -> a_stack st t = a_stack st' t.
  Proof. intros H. unfold a_stack. by rewrite (al_threads _ _ _ H). Qed.
  Lemma alike_set st st' r : alike st st' -> a_set st r = a_set st' r.
  Proof. intros H. unfold a_set. by rewrite (al_arenas _ _ _ H). Qed.
  Lemma alike_readable st st' ps : alike st st' -> a_readable st ps = a_readable st' ps.
  Proof.
    intros H. induction ps as [|p ps IH]; [done|]. simpl. rewrite IH. f_equal.
    pose proof (alike_read st st' p H) as Hr. by inversion Hr.
  Qed.
  Lemma alike_cand st st' (f g : V -> bool) ps : alike st st' -> (forall v w, iunseen v w -> f v = g w) ->
    a_cands st f ps = a_cands st' g ps.
  Proof.
    intros H Hf. unfold a_cands. induction ps as [|p ps IH]; [done|]. simpl. rewrite IH.
    pose proof (alike_read st st' p H) as Hr. inversion Hr as [v w Hu|]; [|done]. by rewrite (Hf _ _ Hu).
  Qed.
  Lemma alike_free_addr st st' a : alike st st' -> a_free_addr E st a = a_free_addr E st' a.
  Proof.
    intros H. unfold a_free_addr. apply bool_decide_ext. split; intros Hm s y Hy; pose proof (al_objs _ _ _ H s) as Ho;
      rewrite Hy in Ho; inversion Ho as [x x' (Ha&Hu) Hx Hx'|]; subst.
    - rewrite <- (iu_zst _ _ _ Hu), <- Ha. by apply (Hm s).
    - rewrite (iu_zst _ _ _ Hu), Ha. by apply (Hm s).
  Qed.

  Lemma alike_set_stack st st' t k : alike st st' -> alike (a_set_stack st t k) (a_set_stack st' t k).
  Proof. intros [H1 H2 H3 H4 H5 H6 H7 H8]. constructor; try done. simpl. by rewrite H6. Qed.
  Lemma alike_lock st st' s t : alike st st' -> alike (a_lock st s t) (a_lock st' s t).
  Proof. intros [H1 H2 H3 H4 H5 H6 H7 H8]. constructor; try done. simpl. by rewrite H4. Qed.
  Lemma alike_unlock st st' s b : alike st st' -> alike (a_unlock st s b) (a_unlock st' s b).
  Proof. intros [H1 H2 H3 H4 H5 H6 H7 H8]. constructor; try done; simpl; [by rewrite H4|by rewrite H5]. Qed.
  Lemma alike_put st st' m : alike st st' -> alike (a_put st m) (a_put st' m).
  Proof. intros [H1 H2 H3 H4 H5 H6 H7 H8]. by constructor. Qed.
  Lemma alike_event st st' (e e' : aevent V Q) : alike st st' -> aevent_like E e e' -> alike (a_event st e) (a_event st' e').
  Proof. intros [H1 H2 H3 H4 H5 H6 H7 H8] He. constructor; try done. by constructor. Qed.
  Lemma alike_alloc st st' a v : alike st st' ->
    option_Forall2 (λ x y, alike x.1 y.1 /\ x.2 = y.2) (a_alloc E st a v) (a_alloc E st' a v).
  Proof.
    intros H. unfold a_alloc. rewrite (alike_free_addr _ _ a H). destruct (_ || _); constructor.
    destruct H as [H1 H2 H3 H4 H5 H6 H7 H8]. simpl. rewrite H7. split; [|done]. constructor; try done; simpl.
    intros u. destruct (decide (a_next st' = u)) as [->|]; [|by rewrite !lookup_insert_ne].
    rewrite !lookup_insert. constructor. split_and!; done || apply iu_refl.
  Qed.
  Lemma alike_free st st' w p : alike st st' -> option_Forall2 alike (a_free st w p) (a_free st' w p).
  Proof.
    intros H. unfold a_free. pose proof (al_objs _ _ _ H (ip_ser p)) as Ho. inversion Ho as [x y Hxy Hx Hy|Hx Hy]; constructor. clear Ho Hx Hy.
    destruct H as [H1 H2 H3 H4 H5 H6 H7 H8]. constructor; try done; simpl; [|by constructor].
    intros u. destruct (decide (ip_ser p = u)) as [->|]; [rewrite !lookup_delete; constructor|by rewrite !lookup_delete_ne].
  Qed.
  Lemma alike_ready st st' t : alike st st' -> a_ready st t = a_ready st' t.
  Proof. intros H. unfold a_ready. by rewrite (alike_stack _ _ t H). Qed.
  Lemma alike_idle st st' r : alike st st' -> a_idle st r = a_idle st' r.
  Proof. intros H. unfold a_idle. by rewrite (al_threads _ _ _ H). Qed.

  Lemma athread_like st st' t a i : alike st st' ->
    out_like alike (a_step_thread E st t a i) (a_step_thread E st' t a i).
  Proof.
    intros H. unfold a_step_thread. rewrite (alike_stack _ _ t H).
    destruct (a_stack st' t) as [|[r o b|r o b|r w q|r o v b|r o b p|r o b p panic|r o b p|r o b mine x|r o b mine x|r [|p ps]] k]; [done|..].
    - rewrite (al_locks _ _ _ H). destruct (a_locks st' !! _); [done|]. apply alike_set_stack. by apply alike_lock.
    - rewrite (alike_set _ _ _ H), (alike_readable _ _ _ H). destruct (a_readable st' _); [|done].
      rewrite (alike_cand st st' _ (a_match E o) _ H (iu_amatch o)).
      destruct (ipick i _) as [p|], o; simpl; try (by apply alike_set_stack). destruct b; [|done]. by apply alike_set_stack.
    - done.
    - destruct b as [q|].
      + pose proof (alike_free st st' None q H) as Hf. inversion Hf; [|done]. by apply alike_set_stack.
      + pose proof (alike_alloc st st' a v H) as Ha.
        inversion Ha as [[s1 p1] [s2 p2] [Hs Hp] Hx Hy|]; [|done]. simpl in *. subst. by apply alike_set_stack.
    - pose proof (alike_read st st' p H) as Hr. rewrite (al_arenas _ _ _ H).
      inversion Hr as [v w Hu Hx Hy|]; [|done]. destruct (a_arenas st' !! r) as [x|]; [|done].
      rewrite (alike_readable _ _ _ H). destruct (a_readable st' _); [|done].
      rewrite (alike_cand st st' _ (ins_match E w) _ H (λ x y, iu_ins E v w x y Hu)).
      destruct (a_cands st' _ _); simpl; apply alike_set_stack; [|done].
      apply alike_event; [by apply alike_put|]. by split_and!.
    - pose proof (alike_free st st' None p H) as Hf. inversion Hf; [|done]. by apply alike_set_stack.
    - pose proof (alike_read st st' p H) as Hr. inversion Hr; [|done]. by apply alike_set_stack.
    - apply alike_set_stack. by apply alike_unlock.
    - destruct (if mine then b else None) as [p|]; simpl.
      + pose proof (alike_free st st' None p H) as Hf. inversion Hf; [|done]. apply alike_event; [|done]. by apply alike_set_stack.
      + apply alike_event; [|done]. by apply alike_set_stack.
    - simpl. apply alike_event; [|done]. by apply alike_set_stack.
    - pose proof (alike_free st st' (Some r) p H) as Hf. inversion Hf; [|done]. by apply alike_set_stack.
  Qed.
  Lemma a_returned_like r p L L' : Forall2 (aevent_like E) L L' -> a_returned r p L = a_returned r p L'.
  Proof.
    induction 1 as [|e f L L' He _ IH]; [done|]. simpl. rewrite IH. f_equal.
    destruct e, f; simpl in He; try done; by injection He as -> -> -> -> ->.
  Qed.
  Lemma astep_like st st' l : alike st st' -> out_like alike (astep E st l) (astep E st' l).
  Proof.
    intros H. destruct l as [t ty|t r o a|t a i|t v|t|r p|t r]; cbn [astep].
    - rewrite (alike_ready _ _ t H). destruct (a_ready st' t); [|done].
      destruct H as [H1 H2 H3 H4 H5 H6 H7 H8]. simpl. rewrite H3, H8. constructor; try done. by constructor.
    - rewrite (al_arenas _ _ _ H). destruct (a_arenas st' !! r) as [x|]; [|done]. rewrite (alike_ready _ _ t H).
      destruct (a_ready st' t); [|done]. rewrite (alike_stack _ _ t H). destruct o as [v|w q|v|v].
      + destruct (_ =? _); [|done]. by apply alike_set_stack.
      + by apply alike_set_stack.
      + destruct (_ =? _); [|done]. pose proof (alike_alloc st st' a v H) as Ha.
        inversion Ha as [[s1 p1] [s2 p2] [Hs Hp] Hx Hy|]; [|done]. simpl in *. subst. by apply alike_set_stack.
      + destruct (_ =? _); [|done]. pose proof (alike_alloc st st' a v H) as Ha.
        inversion Ha as [[s1 p1] [s2 p2] [Hs Hp] Hx Hy|]; [|done]. simpl in *. subst. by apply alike_set_stack.
    - by apply athread_like.
    - rewrite (alike_stack _ _ t H), (al_arenas _ _ _ H).
      destruct (a_stack st' t) as [|[r o b|r o b|r w q|r o v' b|r o b p|r o b p panic|r o b p|r o b mine x|r o b mine x|r ps] k]; try done.
      destruct (_ && _); [|done]. by apply alike_set_stack.
    - unfold a_step_panic. rewrite (alike_stack _ _ t H).
      destruct (a_stack st' t) as [|[r o b|r o b|r w q|r o v' b|r o b p|r o b p []|r o b p|r o b mine x|r o b mine [p|]|r [|p ps]] k];
        try done; try (by apply alike_set_stack).
      + destruct (a_drops o mine); [|done]. by apply alike_set_stack.
      + pose proof (alike_free st st' (Some r) p H) as Hf. inversion Hf; [|done]. apply alike_event; [|done]. by apply alike_set_stack.
    - rewrite (a_returned_like _ _ _ _ (al_log _ _ _ H)). destruct (a_returned r p (a_log st')); [|done].
      rewrite (al_arenas _ _ _ H). destruct (a_arenas st' !! r); [|done].
      pose proof (alike_read st st' p H) as Hr. inversion Hr as [v w Hu Hx Hy|]; [|done].
      simpl. apply alike_event; [done|]. by split_and!.
    - rewrite (al_arenas _ _ _ H). destruct (a_arenas st' !! r) as [x|]; [|done].
      rewrite (alike_ready _ _ t H), (alike_idle _ _ r H), (alike_stack _ _ t H). destruct (_ && _); [|done].
      simpl. apply alike_event; [|done]. apply alike_set_stack. by apply alike_put.
  Qed.
  Lemma alike_init : alike ainit ainit.
  Proof. constructor; try done; constructor. Qed.

  Lemma astore_like st st' p x v : alike st st' -> a_objs st !! ip_ser p = Some x -> iunseen (ao_val x) v ->
    alike (astore st p x v) st'.
  Proof.
    intros [H1 H2 H3 H4 H5 H6 H7 H8] Hx Hv. constructor; try done. intros s. simpl.
    destruct (decide (ip_ser p = s)) as [<-|]; [|by rewrite lookup_insert_ne].
    rewrite lookup_insert. specialize (H1 (ip_ser p)). rewrite Hx in H1. inversion H1 as [? y (Ha&Hu) Hy1 Hy2|].
    constructor. split_and!; simpl; [done|]. eapply iu_trans; [by apply iu_sym|done].
  Qed.
  Lemma aquiet_app ls1 ls2 : aquiet E (ls1 ++ ls2) -> aquiet E ls1.
  Proof. intros H l1 r p v l2 st d ->. apply (H l1 r p v (l2 ++ ls2)). by rewrite <- app_assoc. Qed.
  Lemma aquiet_like ls st : aquiet E ls -> run (are_mstep E) ainit ls = Some st ->
    exists st', run (astep E) ainit (plain ls) = Some st' /\ alike st st'.
  Proof.
    revert st. induction ls as [|l ls IH] using rev_ind; intros st1 Hq Hr1.
    { injection Hr1 as <-. exists ainit. split; [done|apply alike_init]. }
    rewrite run_snoc in Hr1. destruct (run (are_mstep E) ainit ls) as [st|] eqn:Hr; [|done].
    destruct (IH st (aquiet_app _ _ Hq) eq_refl) as (st'&Hr'&HL).
    rewrite plain_app, run_app, Hr'. unfold exec in Hr1. destruct l as [l|[r p v]].
    - cbn [plain run]. unfold exec. pose proof (astep_like st st' l HL) as Hs. simpl in Hr1.
      destruct (astep E st l) as [s1| | |], (astep E st' l) as [s2| | |]; simpl in Hs; try done; injection Hr1 as <-; eauto.
    - exists st'. split_and!; [done|]. simpl in Hr1.
      destruct (a_returned r p (a_log st)); [|by injection Hr1 as <-].
      destruct (a_arenas st !! r); [|by injection Hr1 as <-].
      destruct (a_objs st !! ip_ser p) as [x|] eqn:Hx; [|done].
      destruct (_ && _); injection Hr1 as <-; [|done]. eapply astore_like; try done.
      eapply (Hq ls r p v [] st); try done. unfold a_read. by rewrite Hx.
  Qed.
  Lemma aquiet_safe ls : ilawful E -> icoherent E -> aquiet E ls -> run (are_mstep E) ainit ls <> None.
  Proof.
    intros HW HC. induction ls as [|l ls IH] using rev_ind; intros Hq; [done|].
    specialize (IH (aquiet_app _ _ Hq)). rewrite run_snoc.
    destruct (run (are_mstep E) ainit ls) as [st|] eqn:Hr; [|done]. clear IH.
    destruct (aquiet_like ls st (aquiet_app _ _ Hq) Hr) as (st'&Hr'&HL).
    assert (forall l', astep E st' l' <> UB) as Hno.
    { intros l' Hu. destruct (arena_no_ub E (plain ls ++ [l']) HW HC) as (s&Hs). rewrite run_snoc, Hr' in Hs.
      unfold exec in Hs. by rewrite Hu in Hs. }
    unfold exec. destruct (are_mstep E st l) as [s1| | |] eqn:Hs; try done. exfalso.
    destruct l as [l|[r p v]]; simpl in Hs.
    - pose proof (astep_like st st' l HL) as H. rewrite Hs in H. apply (Hno l). by destruct (astep E st' l).
    - pose proof (astep_like st st' (LRead r p) HL) as H. apply (Hno (LRead r p)).
      assert (astep E st (LRead r p) = UB) as Hd.
      { simpl. unfold a_read. destruct (a_returned r p (a_log st)); [|done].
        destruct (a_arenas st !! r); [|done]. destruct (a_objs st !! ip_ser p); [|done]. by destruct (_ && _). }
      rewrite Hd in H. by destruct (astep E st' (LRead r p)).
  Qed.
End sim.

(** ** A store between the search and the insertion *)
Section unsafe.
  Context {V Q : Type} (E : ienv V Q).
  Lemma run_next {S L} (f : S -> L -> outcome S) s l ls s' : f s l = Next s' -> run f s (l :: ls) = run f s' ls.
  Proof. intros H. simpl. unfold exec. by rewrite H. Qed.
  Lemma free_addr_ins (st : astate V Q) a s x m : a_objs st = <[s:=x]> m ->
    ao_addr x <> a -> map_Forall (λ _ y, ao_addr y <> a) m -> a_free_addr E st a = true.
  Proof.
    intros Ho Hx Hm. unfold a_free_addr. rewrite Ho. apply bool_decide_eq_true_2. intros u y [[<- <-]|[_ Hy]]%lookup_insert_Some; right; [done|by apply (Hm u)].
  Qed.

  Lemma set_between_ub ty v w w' :
    ie_ty E v = ty -> ie_ty E w = ty -> ie_ty E w' = ty -> ie_meta E w' = ie_meta E v ->
    is_zst E v = false -> is_zst E w = false ->
    ie_eq E v w = false -> ie_eq E w w' = true -> ie_hash E w' = ie_hash E w ->
    run (are_mstep E) ainit (set_between E ty v w w') = None.
  Proof.
    intros Htv Htw Htw' Hm Hzv Hzw Hne He Hh. unfold set_between. cbn [replicate app].
    set (p0 := IPtr 0 (ie_meta E v) 0). set (p1 := IPtr 1 (ie_meta E w) 1).
    set (s1 := AState (V:=V) (Q:=Q) ∅ {[0 := Ar ty []]} ∅ ∅ ∅ 0 1 [AvNew 0 ty]).
    assert (are_mstep E ainit (MDo (LArena 0 ty)) = Next s1) as H1 by done.
    rewrite (run_next _ _ _ _ _ H1).
    set (s2 := a_set_stack s1 0 [AWait 0 (ANew v) None]).
    assert (are_mstep E s1 (MDo (LCall 0 0 (ANew v) 0)) = Next s2) as H2.
    { cbn. rewrite Htv, lookup_singleton. cbn. by rewrite Nat.eqb_refl. }
    rewrite (run_next _ _ _ _ _ H2).
    set (s3 := a_set_stack (a_lock s2 0 0) 0 [AGet 0 (ANew v) None]).
    rewrite (run_next _ s2 _ _ s3) by done.
    set (s4 := a_set_stack s3 0 [AStore 0 (ANew v) v None]).
    rewrite (run_next _ s3 _ _ s4) by done.
    set (s5 := a_set_stack (AState (V:=V) (Q:=Q) {[0 := AObj 0 v]} {[0 := Ar ty []]} (a_locks s4) ∅ (a_threads s4) 1 1 (a_log s4)) 0 [AIns 0 (ANew v) None p0]).
    rewrite (run_next _ s4 _ _ s5).
    2: { cbn [are_mstep astep]. unfold a_step_thread.
         assert (a_stack s4 0 = [AStore 0 (ANew v) v None]) as -> by done. unfold a_alloc. rewrite Hzv.
         assert (a_free_addr E s4 0 = true) as -> by (apply bool_decide_eq_true_2; apply map_Forall_empty). done. }
    set (s6 := a_set_stack (a_event (a_put s5 (<[0 := Ar ty [p0]]> (a_arenas s5))) (AvIns 0 0 (ANew v) p0 v)) 0 [AMake 0 (ANew v) None p0]).
    rewrite (run_next _ s5 _ _ s6) by done.
    set (s7 := a_set_stack s6 0 [ARel 0 (ANew v) None false (AP p0)]).
    rewrite (run_next _ s6 _ _ s7) by done.
    set (s8 := a_set_stack (a_unlock s7 0 false) 0 [AArg 0 (ANew v) None false (AP p0)]).
    rewrite (run_next _ s7 _ _ s8) by done.
    set (s9 := a_event (a_set_stack s8 0 []) (AvRet 0 0 (ANew v) None (AP p0))).
    rewrite (run_next _ s8 _ _ s9) by done.
    set (u1 := a_set_stack s9 1 [AWait 0 (ANew w) None]).
    rewrite (run_next _ s9 _ _ u1).
    2: { cbn. rewrite Htw, lookup_insert. cbn. by rewrite Nat.eqb_refl. }
    set (u2 := a_set_stack (a_lock u1 0 1) 1 [AGet 0 (ANew w) None]).
    rewrite (run_next _ u1 _ _ u2) by done.
    set (u3 := a_set_stack u2 1 [AStore 0 (ANew w) w None]).
    rewrite (run_next _ u2 _ _ u3).
    2: { cbn [are_mstep astep]. unfold a_step_thread.
         assert (a_stack u2 1 = [AGet 0 (ANew w) None]) as -> by done.
         assert (a_readable u2 (a_set u2 0) = true) as -> by done.
         assert (a_cands u2 (a_match E (ANew w)) (a_set u2 0) = if a_match E (ANew w) v then [p0] else []) as -> by done.
         cbn [a_match]. by rewrite Hne, andb_false_r. }
    set (u4 := a_set_stack (AState (V:=V) (Q:=Q) (<[1 := AObj 1 w]> {[0 := AObj 0 v]}) (a_arenas u3) (a_locks u3) ∅ (a_threads u3) 2 1 (a_log u3)) 1
      [AIns 0 (ANew w) None p1]).
    rewrite (run_next _ u3 _ _ u4).
    2: { cbn [are_mstep astep]. unfold a_step_thread.
         assert (a_stack u3 1 = [AStore 0 (ANew w) w None]) as -> by done. unfold a_alloc. rewrite Hzw.
         rewrite (free_addr_ins u3 1 0 (AObj 0 v) ∅); [done|done|done|apply map_Forall_empty]. }
    set (u5 := astore u4 p0 (AObj 0 v) w').
    rewrite (run_next _ u4 _ _ u5).
    2: { cbn [are_mstep]. assert (a_returned 0 p0 (a_log u4) = true) as ->.
         { cbn. by rewrite bool_decide_eq_true_2. }
         assert (a_arenas u4 !! 0 = Some (Ar ty [p0])) as -> by done.
         assert (a_objs u4 !! ip_ser p0 = Some (AObj 0 v)) as -> by done.
         cbn [ao_val]. by rewrite Htv, Htw', Hm, !Nat.eqb_refl. }
    assert (ins_match E w w' = true) as Hins by (unfold ins_match, seen; by rewrite Hh, Nat.eqb_refl, He).
    set (u6 := a_set_stack u5 1 [AKill 0 (ANew w) None p1 false]).
    rewrite (run_next _ u5 _ _ u6).
    2: { cbn [are_mstep astep]. unfold a_step_thread.
         assert (a_stack u5 1 = [AIns 0 (ANew w) None p1]) as -> by done.
         assert (a_read u5 p1 = Some w) as -> by done.
         assert (a_arenas u5 !! 0 = Some (Ar ty [p0])) as -> by done. cbn [ar_set].
         assert (a_readable u5 [p0] = true) as -> by done.
         assert (a_cands u5 (ins_match E w) [p0] = if ins_match E w w' then [p0] else []) as -> by done.
         by rewrite Hins. }
    assert (exists s, are_mstep E u6 (MDo (LStep 1 1 0)) = Next s /\ a_stack s 1 = [AMake 0 (ANew w) None p1] /\ a_objs s !! 1 = None)
      as (u7&H7&Hst&Hob).
    { eexists. split; [reflexivity|]. done. }
    rewrite (run_next _ u6 _ _ u7) by done.
    cbn. unfold exec. cbn. unfold a_step_thread. rewrite Hst. unfold a_read. cbn. by rewrite Hob.
  Qed.
End unsafe.

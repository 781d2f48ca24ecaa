(** Arena: independence, exactly when it is memory safe, panics. *)
From stdpp Require Import gmap list numbers fin_sets.
From Verif Require Import Base InternModel InternSpec InternInv InternStep ArenaModel ArenaSpec ArenaInv ArenaStep ArenaLaw ArenaLawful ArenaFinal.
Require Import ZifyBool ZifyNat ZifyN.

Section more.
  Context {V Q : Type} (E : ienv V Q).
  Implicit Types (st : astate V Q) (v d : V) (p : iptr) (o : aop V Q) (f g : aframe V Q) (t ty s r : nat)
    (e : aevent V Q) (l : list (aevent V Q)) (lb : alabel V Q) (ls : list (alabel V Q)) (k : list (aframe V Q)).
  Notation AInv := (AInv E).

  (** *** Independence *)
  Definition local r st st' : Prop :=
    a_arenas st' !! r = a_arenas st !! r /\ a_locks st' !! r = a_locks st !! r /\ (r ∈ a_poison st' <-> r ∈ a_poison st).
  Lemma local_free r st w p st1 : a_free st w p = Some st1 -> local r st st1.
  Proof. unfold a_free. destruct (a_objs st !! ip_ser p); [|done]. by intros [= <-]. Qed.
  Lemma local_alloc r st a v st1 p : a_alloc E st a v = Some (st1, p) -> local r st st1.
  Proof. unfold a_alloc. destruct (_ || _); [|done]. by intros [= <- <-]. Qed.
  Lemma astep_local st lb st' r : astep E st lb = Next st' -> l_arena st lb <> Some r -> local r st st'.
  Proof.
    destruct lb as [t ty|t r0 o a|t a i|t v|t|r0 p|t r0]; simpl; intros H Hne.
    - destruct (a_ready st t); [|done]. injection H as <-. split; simpl; [|done]. by rewrite lookup_insert_ne by congruence.
    - destruct (a_arenas st !! r0) as [x|]; [|done]. destruct (a_ready st t); [|done]. destruct o.
      + destruct (_ =? _); [|done]. by injection H as <-.
      + by injection H as <-.
      + destruct (_ =? _); [|done]. destruct (a_alloc E st a v) as [[st1 p]|] eqn:Ha; [|done]. injection H as <-.
        by apply (local_alloc r) in Ha.
      + destruct (_ =? _); [|done]. destruct (a_alloc E st a v) as [[st1 p]|] eqn:Ha; [|done]. injection H as <-.
        by apply (local_alloc r) in Ha.
    - unfold a_step_thread in H.
      destruct (a_stack st t) as [|[r1 o b|r1 o b|r1 w q|r1 o v b|r1 o b p|r1 o b p pn|r1 o b p|r1 o b m x|r1 o b m x|r1 ps] k]; [done|..];
        simpl in Hne.
      + destruct (a_locks st !! r1); [done|]. injection H as <-. split_and!; simpl; try done. by rewrite lookup_insert_ne by congruence.
      + destruct (a_readable st _); [|done]. destruct (ipick i _); [by injection H as <-|].
        destruct o; [by injection H as <-..|]. destruct b; [by injection H as <-|done].
      + done.
      + destruct b as [q|].
        * destruct (a_free st None q) as [st1|] eqn:Ha; [|done]. injection H as <-. by apply (local_free r) in Ha.
        * destruct (a_alloc E st a v) as [[st1 p]|] eqn:Ha; [|done]. injection H as <-. by apply (local_alloc r) in Ha.
      + destruct (a_read st p); [|done]. destruct (a_arenas st !! r1); [|done]. destruct (a_readable st _); [|done].
        destruct (a_cands st _ _); injection H as <-; [|done]. split; simpl; [|done]. by rewrite lookup_insert_ne by congruence.
      + destruct (a_free st None p) as [st1|] eqn:Ha; [|done]. injection H as <-. by apply (local_free r) in Ha.
      + destruct (a_read st p); [|done]. by injection H as <-.
      + injection H as <-. split_and!; simpl; [done|by rewrite lookup_delete_ne by congruence|].
        destruct x; [done|]. assert (r <> r1) by congruence. set_solver.
      + destruct (a_free_opt st _) as [st1|] eqn:Ha; [|done]. injection H as <-. destruct (if m then b else None) as [p|]; simpl in Ha.
        * by apply (local_free r) in Ha.
        * by injection Ha as <-.
      + destruct ps as [|p ps]; [by injection H as <-|].
        destruct (a_free st (Some r1) p) as [st1|] eqn:Ha; [|done]. injection H as <-. by apply (local_free r) in Ha.
    - destruct (a_stack st t) as [|[] ?]; try done. destruct (_ && _); [|done]. by injection H as <-.
    - unfold a_step_panic in H.
      destruct (a_stack st t) as [|[r1 o b|r1 o b|r1 w q|r1 o v b|r1 o b p|r1 o b p pn|r1 o b p|r1 o b m x|r1 o b m x|r1 ps] k]; try done;
        try (by injection H as <-).
      + destruct pn; [done|]. by injection H as <-.
      + destruct x; [|done]. destruct (a_drops o m); [|done]. by injection H as <-.
      + destruct ps as [|p ps]; [done|].
        destruct (a_free st (Some r1) p) as [st1|] eqn:Ha; [|done]. injection H as <-. by apply (local_free r) in Ha.
    - destruct (a_returned r0 p (a_log st)); [|done]. destruct (a_arenas st !! r0); [|done]. destruct (a_read st p); [|done].
      by injection H as <-.
    - destruct (a_arenas st !! r0); [|done]. destruct (_ && _); [|done]. injection H as <-. split; simpl; [|done].
      by rewrite lookup_delete_ne by congruence.
  Qed.
  Theorem arena_independent ls st lb st' r :
    run (astep E) ainit ls = Some st -> astep E st lb = Next st' -> l_arena st lb <> Some r ->
    local r st st' /\ forall x p, a_arenas st !! r = Some x -> p ∈ ar_set x -> a_objs st' !! ip_ser p = a_objs st !! ip_ser p.
  Proof.
    intros Hr Hs Hne. pose proof (areach_inv E _ _ Hr) as HI. pose proof (astep_local _ _ _ _ Hs Hne) as Hl. split; [done|].
    intros x p Hx Hp. destruct Hl as (Ha&_). rewrite Hx in Ha.
    destruct (set_pts _ _ _ _ _ HI Hx Hp) as (v&(Hy&_)&_). rewrite Hy.
    by eapply (stays_step E st lb st' r x p).
  Qed.

  (** *** Solo executions *)
  Lemma run_cons st lb st1 ls : astep E st lb = Next st1 -> run (astep E) st (lb :: ls) = run (astep E) st1 ls.
  Proof. intros H. simpl. unfold exec. by rewrite H. Qed.
  Lemma free_addr_ex st : exists a, a_free_addr E st a = true.
  Proof.
    set (X := list_to_set (ao_addr ∘ snd <$> map_to_list (a_objs st)) : gset nat). exists (fresh X).
    apply a_free_addr_spec. intros s x Hx. right. intros Heq. apply (is_fresh X). rewrite <- Heq.
    apply elem_of_list_to_set, elem_of_list_fmap. exists (s, x). split; [done|]. by apply elem_of_map_to_list.
  Qed.
  Lemma alloc_some st v : exists a st1 p, a_alloc E st a v = Some (st1, p).
  Proof.
    destruct (free_addr_ex st) as [a Ha]. exists a. unfold a_alloc. rewrite Ha.
    rewrite orb_true_r. by eexists _, _.
  Qed.
  Lemma cands_same st st' h ps : (forall p, p ∈ ps -> a_read st' p = a_read st p) -> a_cands st' h ps = a_cands st h ps.
  Proof.
    intros H. unfold a_cands. induction ps as [|p ps IH]; [done|]. simpl. rewrite (H p) by (by left).
    rewrite IH; [done|]. intros p' Hp. apply H. by right.
  Qed.
  Definition quiets t ls : Prop := forall lb, lb ∈ ls -> a_quiet lb /\ l_thread lb = Some t.
  Lemma quiets_nil t : quiets t [].
  Proof. intros lb H. by apply elem_of_nil in H. Qed.
  Lemma quiets_cons t lb ls : a_quiet lb -> l_thread lb = Some t -> quiets t ls -> quiets t (lb :: ls).
  Proof. intros H1 H2 H3 lb' [->|H]%elem_of_cons; [done|by apply H3]. Qed.
  Lemma quiets_app t ls ls' : quiets t ls -> quiets t ls' -> quiets t (ls ++ ls').
  Proof. intros H1 H2 lb [H|H]%elem_of_app; auto. Qed.
  Lemma quiets_step t a i : quiets t [LStep t a i].
  Proof. apply quiets_cons; [done..|apply quiets_nil]. Qed.

  (** Release the mutex and drop the argument. *)
  Lemma solo_end st t r o b m x k : AInv st -> a_stack st t = ARel r o b m x :: k ->
    exists st' l, run (astep E) st [LStep t 0 0; LStep t 0 0] = Some st' /\ a_stack st' t = k /\
      a_arenas st' = a_arenas st /\ a_locks st' = delete r (a_locks st) /\ a_log st' = AvRet t r o b x :: l ++ a_log st /\
      Forall (λ e, exists p, e = AvFree None p) l.
  Proof.
    intros HI Hst. set (st1 := a_set_stack (a_unlock st r (match x with APanic => true | _ => false end)) t (AArg r o b m x :: k)).
    assert (astep E st (LStep t 0 0) = Next st1) as Hs. { simpl. unfold a_step_thread. by rewrite Hst. }
    pose proof (astep_inv _ _ _ _ HI Hs) as HI1.
    assert (a_stack st1 t = AArg r o b m x :: k) as Hst1. { unfold st1. rewrite set_stack_get. by rewrite decide_True. }
    assert (exists st2 l, a_free_opt st1 (if m then b else None) = Some st2 /\ a_log st2 = l ++ a_log st1 /\ a_arenas st2 = a_arenas st1 /\
      a_locks st2 = a_locks st1 /\ a_threads st2 = a_threads st1 /\ Forall (λ e, exists p, e = AvFree None p) l) as (st2&l&Hf&Hl&Ha&Hk&Ht&HF).
    { destruct (if m then b else None) as [p|] eqn:Hm; simpl; [|by exists st1, []].
      destruct (free_some st1 None p) as [st2 Hf].
      { eapply (owned_live E st1 t); [done|done|]. destruct m; [|done]. simpl. rewrite Hm. simpl. by rewrite Nat.eqb_refl. }
      exists st2, [AvFree None p]. split_and!; [done|exact (free_log _ _ _ _ Hf)| | | |constructor; [by eexists|constructor]];
        unfold a_free in Hf; destruct (a_objs st1 !! ip_ser p); try done; by injection Hf as <-. }
    exists (a_event (a_set_stack st2 t k) (AvRet t r o b x)), l. split_and!.
    - rewrite (run_cons _ _ _ _ Hs). simpl. unfold exec. simpl. unfold a_step_thread. rewrite Hst1, Hf. done.
    - unfold a_stack. simpl. by rewrite lookup_insert.
    - simpl. by rewrite Ha.
    - simpl. by rewrite Hk.
    - simpl. by rewrite Hl.
    - done.
  Qed.

  (** From the insertion on. *)
  Lemma solo_ins st t r o b p v k x : AInv st -> a_stack st t = AIns r o b p :: k -> a_arenas st !! r = Some x ->
    a_read st p = Some v ->
    match a_cands st (ins_match E v) (ar_set x) with
    | [] => exists ls st' l, run (astep E) st ls = Some st' /\ quiets t ls /\ a_stack st' t = k /\
        a_arenas st' = <[r := Ar (ar_ty x) (p :: ar_set x)]> (a_arenas st) /\ a_locks st' = delete r (a_locks st) /\
        a_log st' = AvRet t r o b (AP p) :: l /\ a_read st' p = Some v
    | _ => exists ls, run (astep E) st ls = None /\ quiets t ls
    end.
  Proof.
    intros HI Hst Hx Hv. destruct (a_cands st (ins_match E v) (ar_set x)) as [|p' c] eqn:Hc.
    - set (st1 := a_set_stack (a_event (a_put st (<[r := Ar (ar_ty x) (p :: ar_set x)]> (a_arenas st))) (AvIns t r o p v)) t (AMake r o b p :: k)).
      assert (astep E st (LStep t 0 0) = Next st1) as Hs.
      { simpl. unfold a_step_thread. rewrite Hst, Hv, Hx, (set_readable _ _ _ _ HI Hx), Hc. done. }
      pose proof (astep_inv _ _ _ _ HI Hs) as HI1.
      assert (a_stack st1 t = AMake r o b p :: k) as Hst1. { unfold st1. rewrite set_stack_get. by rewrite decide_True. }
      set (st2 := a_set_stack st1 t (ARel r o b false (AP p) :: k)).
      assert (astep E st1 (LStep t 0 0) = Next st2) as Hs2.
      { simpl. unfold a_step_thread. rewrite Hst1. change (a_read st1 p) with (a_read st p). by rewrite Hv. }
      pose proof (astep_inv _ _ _ _ HI1 Hs2) as HI2.
      assert (a_stack st2 t = ARel r o b false (AP p) :: k) as Hst2. { unfold st2. rewrite set_stack_get. by rewrite decide_True. }
      destruct (solo_end _ _ _ _ _ _ _ _ HI2 Hst2) as (st'&l&Hr&?&Ha&Hk&Hl&_).
      exists (LStep t 0 0 :: LStep t 0 0 :: [LStep t 0 0; LStep t 0 0]), st', (l ++ a_log st2). split_and!; try done.
      + by rewrite (run_cons _ _ _ _ Hs), (run_cons _ _ _ _ Hs2).
      + repeat (apply quiets_cons; [done|done|]). apply quiets_nil.
      + unfold a_read in Hv |- *. destruct (a_objs st !! ip_ser p) as [y|] eqn:Hy; [|done].
        destruct (stays_run E _ st2 st' r (Ar (ar_ty x) (p :: ar_set x)) p y HI2 Hr) with (x' := Ar (ar_ty x) (p :: ar_set x)) as [_ ->]; try done.
        * apply lookup_insert.
        * by left.
        * rewrite Ha. apply lookup_insert.
    - set (st1 := a_set_stack st t (AKill r o b p false :: k)).
      assert (astep E st (LStep t 0 0) = Next st1) as Hs.
      { simpl. unfold a_step_thread. rewrite Hst, Hv, Hx, (set_readable _ _ _ _ HI Hx), Hc. done. }
      pose proof (astep_inv _ _ _ _ HI Hs) as HI1.
      assert (a_stack st1 t = AKill r o b p false :: k) as Hst1. { unfold st1. rewrite set_stack_get. by rewrite decide_True. }
      unfold a_read in Hv. destruct (a_objs st !! ip_ser p) as [y|] eqn:Hy; [|done].
      destruct (free_some st1 None p) as [st2 Hf]; [unfold st1; simpl; by rewrite Hy|].
      assert (astep E st1 (LStep t 0 0) = Next (a_set_stack st2 t (AMake r o b p :: k))) as Hs2.
      { simpl. unfold a_step_thread. rewrite Hst1, Hf. done. }
      exists [LStep t 0 0; LStep t 0 0; LStep t 0 0]. split; [|repeat (apply quiets_cons; [done|done|]); apply quiets_nil].
      rewrite (run_cons _ _ _ _ Hs), (run_cons _ _ _ _ Hs2). simpl. unfold exec. simpl. unfold a_step_thread.
      rewrite set_stack_get, decide_True by done. unfold a_read. simpl.
      unfold a_free in Hf. destruct (a_objs st1 !! ip_ser p); [|done]. injection Hf as <-. simpl. by rewrite lookup_delete.
  Qed.

  (** A whole call of [o] on a free arena, by a thread that may call; [v] is what it would store. *)
  Lemma solo_call st t r o v x : AInv st -> a_ready st t = true -> a_arenas st !! r = Some x -> a_locks st !! r = None ->
    a_supplies E o v -> ie_ty E v = ar_ty x ->
    exists a ls, quiets t ls /\
    match a_cands st (a_match E o) (ar_set x), a_cands st (ins_match E v) (ar_set x) with
    | [], _ :: _ => run (astep E) st (LCall t r o a :: ls) = None
    | c, _ => exists st' b p l, run (astep E) st (LCall t r o a :: ls) = Some st' /\ a_stack st' t = a_stack st t /\
        a_locks st' !! r = None /\ a_log st' = AvRet t r o b (AP p) :: l /\
        match c with
        | [] => a_arenas st' = <[r := Ar (ar_ty x) (p :: ar_set x)]> (a_arenas st) /\ a_read st' p = Some v
        | _ => a_arenas st' = a_arenas st /\ p ∈ c
        end
    end.
  Proof.
    intros HI Hrd Hx Hl Hsup Hty. set (k := a_stack st t).
    (* the call *)
    assert (exists a b st1, astep E st (LCall t r o a) = Next (a_set_stack st1 t (AWait r o b :: k)) /\
      a_arenas st1 = a_arenas st /\ a_locks st1 = a_locks st) as (a&b&st1&Hs1&Ha1&Hl1).
    { simpl. rewrite Hx, Hrd. destruct o as [u|w q|u|u]; simpl in Hsup; subst.
      - exists 0, None, st. by rewrite Hty, Nat.eqb_refl.
      - by exists 0, None, st.
      - destruct (alloc_some st u) as (a&st1&p&Ha). exists a, (Some p), st1. rewrite Hty, Nat.eqb_refl, Ha. split; [done|].
        destruct (a_alloc_spec E _ _ _ _ _ HI Ha) as (->&_). done.
      - destruct (alloc_some st u) as (a&st1&p&Ha). exists a, (Some p), st1. rewrite Hty, Nat.eqb_refl, Ha. split; [done|].
        destruct (a_alloc_spec E _ _ _ _ _ HI Ha) as (->&_). done. }
    exists a. pose proof (astep_inv _ _ _ _ HI Hs1) as HI1. set (s1 := a_set_stack st1 t (AWait r o b :: k)) in *.
    (* the mutex *)
    set (s2 := a_set_stack (a_lock s1 r t) t (AGet r o b :: k)).
    assert (astep E s1 (LStep t 0 0) = Next s2) as Hs2.
    { simpl. unfold a_step_thread. unfold s1 at 1. rewrite set_stack_get, decide_True by done. simpl. by rewrite Hl1, Hl. }
    pose proof (astep_inv _ _ _ _ HI1 Hs2) as HI2.
    assert (a_arenas s2 = a_arenas st) as Ha2 by done. assert (a_arenas s2 !! r = Some x) as Hx2 by by rewrite Ha2.
    assert (a_stack s2 t = AGet r o b :: k) as Hst2. { unfold s2. rewrite set_stack_get. by rewrite decide_True. }
    assert (a_locks s2 = <[r:=t]> (a_locks st)) as Hl2. { simpl. by rewrite Hl1. }
    (* reads of the entries do not change *)
    assert (forall ls (s' : astate V Q), run (astep E) s2 ls = Some s' -> is_Some (a_arenas s' !! r) ->
      forall p, p ∈ ar_set x -> a_read s' p = a_read st p) as Hread.
    { intros ls s' Hr [x' Hx'] p Hp. destruct (set_pts _ _ _ _ _ HI Hx Hp) as (d&(Hd&_)&_).
      assert (run (astep E) st (LCall t r o a :: LStep t 0 0 :: ls) = Some s') as Hrr by by rewrite (run_cons _ _ _ _ Hs1), (run_cons _ _ _ _ Hs2).
      unfold a_read. rewrite Hd. destruct (stays_run E _ _ _ r x p _ HI Hrr Hx Hp Hd x' Hx') as [_ ->]. done. }
    assert (forall h, a_cands s2 h (ar_set x) = a_cands st h (ar_set x)) as Hc2.
    { intros h. apply cands_same. apply (Hread [] s2); [done|by eexists]. }
    assert (a_readable s2 (a_set s2 r) = true) as Hrb. { unfold a_set. rewrite Hx2. by eapply set_readable. }
    assert (a_set s2 r = ar_set x) as Hset. { unfold a_set. by rewrite Hx2. }
    destruct (a_cands st (a_match E o) (ar_set x)) as [|p c] eqn:Hc.
    - (* miss: there is a path to AIns *)
      assert (exists ls (s3 : astate V Q) b' p, run (astep E) s2 ls = Some s3 /\ quiets t ls /\ a_stack s3 t = AIns r o b' p :: k /\
        a_arenas s3 = a_arenas st /\ a_locks s3 = <[r:=t]> (a_locks st) /\ a_read s3 p = Some v) as (ls&s3&b'&p&Hr3&Hq&Hst3&Ha3&Hl3&Hv3).
      { assert (forall (s : astate V Q) b0, AInv s -> a_stack s t = AStore r o v b0 :: k -> a_arenas s = a_arenas st -> a_locks s = <[r:=t]> (a_locks st) ->
          b0 = None -> exists ls (s3 : astate V Q) b' p, run (astep E) s ls = Some s3 /\ quiets t ls /\ a_stack s3 t = AIns r o b' p :: k /\
          a_arenas s3 = a_arenas st /\ a_locks s3 = <[r:=t]> (a_locks st) /\ a_read s3 p = Some v) as Hstore.
        { intros s b0 HIs Hsts Has Hls ->. destruct (alloc_some s v) as (a'&s'&p&Hal).
          destruct (a_alloc_spec E _ _ _ _ _ HIs Hal) as (Hs'&Hp&_).
          exists [LStep t a' 0], (a_set_stack s' t (AIns r o None p :: k)), None, p. split_and!.
          - simpl. unfold exec. simpl. unfold a_step_thread. by rewrite Hsts, Hal.
          - apply quiets_step.
          - rewrite set_stack_get. by rewrite decide_True.
          - by rewrite Hs'.
          - by rewrite Hs'.
          - rewrite Hs', Hp. unfold a_read. simpl. by rewrite lookup_insert. }
        assert (forall s' : astate V Q, (astep E s2 (LStep t 0 0) = Next s' -> (exists ls (s3 : astate V Q) b' p, run (astep E) s' ls = Some s3 /\ quiets t ls /\ a_stack s3 t = AIns r o b' p :: k /\
          a_arenas s3 = a_arenas st /\ a_locks s3 = <[r:=t]> (a_locks st) /\ a_read s3 p = Some v) ->
          exists ls (s3 : astate V Q) b' p, run (astep E) s2 ls = Some s3 /\ quiets t ls /\ a_stack s3 t = AIns r o b' p :: k /\
          a_arenas s3 = a_arenas st /\ a_locks s3 = <[r:=t]> (a_locks st) /\ a_read s3 p = Some v)) as Hpre.
        { intros s' Hs' (ls&s3&b'&p&?&?&?). exists (LStep t 0 0 :: ls), s3, b', p. split_and!; try apply H1.
          - by rewrite (run_cons _ _ _ _ Hs').
          - by apply quiets_cons. }
        assert (a_cands s2 (a_match E o) (a_set s2 r) = []) as Hcs by by rewrite Hset, Hc2.
        assert (ipick 0 (a_cands s2 (a_match E o) (a_set s2 r)) = None) as Hpk by by rewrite Hcs.
        destruct o as [u|w q|u|u]; simpl in Hsup; subst.
        - eapply Hpre; [simpl; unfold a_step_thread; by rewrite Hst2, Hrb, Hpk|].
          eapply (Hstore _ None); try done; [|rewrite set_stack_get; by rewrite decide_True].
          eapply astep_inv; [exact HI2|]. simpl; unfold a_step_thread. instantiate (1 := LStep t 0 0). simpl. unfold a_step_thread. by rewrite Hst2, Hrb, Hpk.
        - eapply Hpre; [simpl; unfold a_step_thread; by rewrite Hst2, Hrb, Hpk|].
          set (s' := a_set_stack s2 t (AConv r w q :: k)).
          assert (AInv s') as HI'.
          { eapply (astep_inv _ s2 (LStep t 0 0)); [exact HI2|]. simpl. unfold a_step_thread. by rewrite Hst2, Hrb, Hpk. }
          set (s'' := a_set_stack s' t (AStore r (ARef w q) v None :: k)).
          assert (astep E s' (LConv t v) = Next s'') as Hcv.
          { simpl. unfold s' at 1. rewrite set_stack_get, decide_True by done. rewrite Hsup.
            rewrite Ha1, Hx. simpl. rewrite Hty. by rewrite bool_decide_true. }
          destruct (Hstore s'' None) as (ls&s3&b'&p&?&?&?); try done.
          { by eapply astep_inv. } { unfold s''. rewrite set_stack_get. by rewrite decide_True. }
          exists (LConv t v :: ls), s3, b', p. split_and!; try apply H1.
          + by rewrite (run_cons _ _ _ _ Hcv).
          + by apply quiets_cons.
        - set (s' := a_set_stack s2 t (AStore r (AOwned u) u b :: k)).
          assert (astep E s2 (LStep t 0 0) = Next s') as Hs'. { simpl. unfold a_step_thread. by rewrite Hst2, Hrb, Hpk. }
          pose proof (astep_inv _ _ _ _ HI2 Hs') as HI'.
          assert (a_stack s' t = AStore r (AOwned u) u b :: k) as Hst'. { unfold s'. rewrite set_stack_get. by rewrite decide_True. }
          eapply Hpre; [exact Hs'|]. destruct b as [q|]; [|by eapply (Hstore s' None)].
          destruct (free_some s' None q) as [s4 Hf].
          { eapply (owned_live E s' t); [done|done|]. simpl. by rewrite Nat.eqb_refl. }
          set (s'' := a_set_stack s4 t (AStore r (AOwned u) u None :: k)).
          assert (astep E s' (LStep t 0 0) = Next s'') as Hs''. { simpl. unfold a_step_thread. by rewrite Hst', Hf. }
          assert (a_arenas s4 = a_arenas s' /\ a_locks s4 = a_locks s') as [Ha4 Hl4].
          { unfold a_free in Hf. destruct (a_objs s' !! ip_ser q); [|done]. by injection Hf as <-. }
          destruct (Hstore s'' None) as (ls&s3&b'&p&?&?&?); try done.
          { by eapply astep_inv. } { unfold s''. rewrite set_stack_get. by rewrite decide_True. }
          { unfold s''. simpl. by rewrite Ha4. } { unfold s''. simpl. by rewrite Hl4. }
          exists (LStep t 0 0 :: ls), s3, b', p. split_and!; try apply H1.
          + by rewrite (run_cons _ _ _ _ Hs'').
          + by apply quiets_cons.
        - assert (aframe_ok E s2 (AGet r (ABox u) b)) as Hok. { apply (x_frames _ _ HI2 t). rewrite Hst2. by left. }
          destruct Hok as (ty&_&_&p&->&(Hp&_)).
          exists [LStep t 0 0], (a_set_stack s2 t (AIns r (ABox u) (Some p) p :: k)), (Some p), p. split_and!; try done.
          + simpl. unfold exec. simpl. unfold a_step_thread. by rewrite Hst2, Hrb, Hpk.
          + apply quiets_step.
          + rewrite set_stack_get. by rewrite decide_True.
          + unfold a_read. change (a_objs (a_set_stack s2 t (AIns r (ABox u) (Some p) p :: k))) with (a_objs s2). by rewrite Hp. }
      pose proof (arun_inv _ _ _ _ HI2 Hr3) as HI3. assert (a_arenas s3 !! r = Some x) as Hx3 by by rewrite Ha3.
      pose proof (solo_ins s3 t r o b' p v k x HI3 Hst3 Hx3 Hv3) as Hins.
      rewrite (cands_same st s3) in Hins; [|apply (Hread ls s3 Hr3); by eexists].
      assert (forall ls', run (astep E) st (LCall t r o a :: LStep t 0 0 :: ls ++ ls') = run (astep E) s3 ls') as Happ.
      { intros ls'. by rewrite (run_cons _ _ _ _ Hs1), (run_cons _ _ _ _ Hs2), run_app, Hr3. }
      destruct (a_cands st (ins_match E v) (ar_set x)) as [|p' c'].
      + destruct Hins as (ls'&st'&l&Hr'&Hq'&Hst'&Ha'&Hl'&Hlog&Hrd').
        exists (LStep t 0 0 :: ls ++ ls'). split; [by apply quiets_cons; [..|apply quiets_app]|].
        exists st', b', p, l. split_and!; try done.
        * by rewrite Happ.
        * rewrite Hl'. apply lookup_delete.
        * by rewrite Ha', Ha3.
      + destruct Hins as (ls'&Hr'&Hq'). exists (LStep t 0 0 :: ls ++ ls'). split; [by apply quiets_cons; [..|apply quiets_app]|].
        by rewrite Happ.
    - set (s3 := a_set_stack s2 t (ARel r o b true (AP p) :: k)).
      assert (astep E s2 (LStep t 0 0) = Next s3) as Hs3.
      { simpl. unfold a_step_thread. rewrite Hst2, Hrb, Hset, Hc2, Hc. by destruct o. }
      pose proof (astep_inv _ _ _ _ HI2 Hs3) as HI3.
      assert (a_stack s3 t = ARel r o b true (AP p) :: k) as Hst3. { unfold s3. rewrite set_stack_get. by rewrite decide_True. }
      destruct (solo_end _ _ _ _ _ _ _ _ HI3 Hst3) as (st'&l&Hr&?&Ha&Hk&Hl'&_).
      exists (LStep t 0 0 :: LStep t 0 0 :: [LStep t 0 0; LStep t 0 0]). split; [repeat (apply quiets_cons; [done|done|]); apply quiets_nil|].
      exists st', b, p, (l ++ a_log s3). split_and!; try done.
      + by rewrite (run_cons _ _ _ _ Hs1), (run_cons _ _ _ _ Hs2), (run_cons _ _ _ _ Hs3).
      + rewrite Hk. apply lookup_delete.
      + rewrite Ha. exact Ha2.
      + by left.
  Qed.

  (** *** Exactly when arenas are memory safe *)
  Lemma unsound_ub o v d : a_supplies E o v -> ie_ty E v = ie_ty E d -> ins_match E v d = true -> a_match E o d = false ->
    exists ls, run (astep E) ainit ls = None /\
      forall lb, lb ∈ ls -> lb = LArena 0 (ie_ty E d) \/ (exists a, lb = LCall 0 0 (ANew d) a) \/ (exists a, lb = LCall 0 0 o a) \/ a_quiet lb.
  Proof.
    intros Hs Ht Hi Hm. set (st := AState ∅ (<[0 := Ar (ie_ty E d) []]> ∅) ∅ ∅ ∅ 0 1 [AvNew 0 (ie_ty E d)] : astate V Q).
    assert (astep E ainit (LArena 0 (ie_ty E d)) = Next st) as H0 by done.
    pose proof (astep_inv _ _ _ _ (ainv_init E) H0) as HI.
    destruct (solo_call st 0 0 (ANew d) d (Ar (ie_ty E d) [])) as (a&ls&Hq&Hc); try done.
    { simpl. destruct Hc as (st'&b&p&l&Hr&Hst&Hl&Hlog&Ha&Hrd).
      assert (AInv st') as HI' by by eapply arun_inv.
      destruct (solo_call st' 0 0 o v (Ar (ie_ty E d) [p])) as (a'&ls'&Hq'&Hc'); try done.
      - unfold a_ready. by rewrite Hst.
      - rewrite Ha. simpl. by rewrite insert_insert, lookup_insert.
      - simpl in Hc'. rewrite Hrd, Hm, Hi in Hc'.
        exists (LArena 0 (ie_ty E d) :: (LCall 0 0 (ANew d) a :: ls) ++ LCall 0 0 o a' :: ls'). split.
        + by rewrite (run_cons _ _ _ _ H0), run_app, Hr.
        + intros lb [->|[[->|H]%elem_of_cons|[->|H]%elem_of_cons]%elem_of_app]%elem_of_cons.
          * by left.
          * right. left. by exists a.
          * do 3 right. by apply Hq.
          * do 2 right. left. by exists a'.
          * do 3 right. by apply Hq'. }
  Qed.
  Lemma not_sound_ex (bad : aop V Q -> Prop) :
    (forall ls, (forall t r o a, LCall t r o a ∈ ls -> bad o) -> run (astep E) ainit ls <> None) ->
    (forall d, bad (ANew d)) -> forall o, bad o -> a_sound E o.
  Proof.
    intros H Hn o Hb v d Hs Ht Hi. destruct (a_match E o d) eqn:Hm; [done|exfalso].
    destruct (unsound_ub o v d Hs Ht Hi Hm) as (ls&Hr&Hls). apply (H ls); [|done].
    intros t r o' a Hin. apply Hls in Hin as [?|[[a' ?]|[[a' ?]|?]]]; simplify_eq; done.
  Qed.
  Theorem arena_safe_iff : (forall ls, run (astep E) ainit ls <> None) <-> (forall o, a_sound E o).
  Proof.
    split.
    - intros H o. apply (not_sound_ex (λ _, True)); auto.
    - intros H ls. destruct (sound_run E ls) as [st ->]; [auto|done].
  Qed.
  Lemma no_refs_spec ls : no_refs ls <-> forall t r o a, LCall t r o a ∈ ls -> match o with ARef _ _ => False | _ => True end.
  Proof.
    unfold no_refs. split.
    - intros H t r [] a Hin; try done. by apply H in Hin.
    - intros H t r w q a Hin. by apply H in Hin.
  Qed.
  (** Without conversions only the symmetry of Eq matters, and only among values that a
      search would compare. *)
  Theorem arena_safe_iff_sym :
    (forall ls, no_refs ls -> run (astep E) ainit ls <> None) <->
    (forall u v, ie_ty E u = ie_ty E v -> seen E (ie_hash E u) v = true -> ie_eq E u v = true -> ie_eq E v u = true).
  Proof.
    split.
    - intros H u v Ht Hh He. assert (a_sound E (ANew u)) as Hs.
      { apply (not_sound_ex (λ o, match o with ARef _ _ => False | _ => True end)); try done.
        intros ls Hls. apply H. by apply no_refs_spec. }
      specialize (Hs u v eq_refl Ht). unfold ins_match, a_match in Hs. rewrite Hh, He in Hs. by apply Hs.
    - intros H ls Hls. destruct (sound_run E ls) as [st ->]; [|done].
      intros t r o a Hin. rewrite no_refs_spec in Hls. specialize (Hls _ _ _ _ Hin).
      intros v d Hs Ht Hi. unfold ins_match in Hi. apply andb_true_iff in Hi as [Hh He]. pose proof (H v d Ht Hh He) as He'.
      destruct o; simpl in *; try done; subst; by rewrite Hh, He'.
  Qed.
  (** With lawful types, only coherence of the conversion matters. *)
  Theorem arena_safe_iff_coherent : ilawful E ->
    (forall ls, run (astep E) ainit ls <> None) <-> icoherent E.
  Proof.
    intros HL. split.
    - intros H w q v Hf. destruct (ie_qeq E (ie_borrow E w v) q) eqn:Hq; [done|exfalso].
      assert (a_sound E (ARef w q)) as Hs by by apply arena_safe_iff.
      specialize (Hs v v Hf eq_refl). unfold ins_match, a_match in Hs. rewrite (il_refl _ HL), Hq in Hs.
      unfold seen in Hs at 1. rewrite Nat.eqb_refl, andb_false_r in Hs. by specialize (Hs eq_refl).
    - intros HC. apply arena_safe_iff. intros o. by apply lawful_sound.
  Qed.
  Theorem arena_no_ub ls : ilawful E -> icoherent E -> exists st, run (astep E) ainit ls = Some st.
  Proof. intros HL HC. destruct (arun_law E HL HC ls) as (st&?&_). by exists st. Qed.
  (** Where undefined behaviour arises. *)
  Lemma run_ub_first ls st : run (astep E) st ls = None ->
    exists ls1 lb ls2 st1, ls = ls1 ++ lb :: ls2 /\ run (astep E) st ls1 = Some st1 /\ astep E st1 lb = UB.
  Proof.
    revert st. induction ls as [|lb ls IH]; intros st; simpl; [done|]. unfold exec.
    destruct (astep E st lb) as [st1| | |] eqn:Hs; intros H.
    - destruct (IH _ H) as (ls1&lb'&ls2&st2&->&Hr&?). exists (lb :: ls1), lb', ls2, st2. split_and!; [done| |done].
      simpl. unfold exec. by rewrite Hs.
    - destruct (IH _ H) as (ls1&lb'&ls2&st2&->&Hr&?). exists (lb :: ls1), lb', ls2, st2. split_and!; [done| |done].
      simpl. unfold exec. by rewrite Hs.
    - destruct (IH _ H) as (ls1&lb'&ls2&st2&->&Hr&?). exists (lb :: ls1), lb', ls2, st2. split_and!; [done| |done].
      simpl. unfold exec. by rewrite Hs.
    - exists [], lb, ls, st. done.
  Qed.
  Theorem arena_ub_only ls : run (astep E) ainit ls = None ->
    exists ls1 t a i ls2 st r o b p k, ls = ls1 ++ LStep t a i :: ls2 /\ run (astep E) ainit ls1 = Some st /\
      a_stack st t = AMake r o b p :: k /\ a_objs st !! ip_ser p = None.
  Proof.
    intros (ls1&lb&ls2&st&->&Hr&Hu)%run_ub_first. pose proof (areach_inv E _ _ Hr) as HI.
    destruct (astep_ub _ _ _ HI Hu) as (t&a&i&r&o&b&p&k&->&?&?). by exists ls1, t, a, i, ls2, st, r, o, b, p, k.
  Qed.

  (** *** Panics *)
  Theorem arena_later_call ls0 st t r o x :
    run (astep E) ainit ls0 = Some st -> total_from E -> a_sound E o ->
    match o with ANew v | AOwned v | ABox v => ie_ty E v = ar_ty x | ARef _ _ => True end ->
    a_stack st t = [] -> a_arenas st !! r = Some x -> a_locks st !! r = None ->
    exists a ls st' b p l, run (astep E) st (LCall t r o a :: ls) = Some st' /\
      (forall lb, lb ∈ ls -> a_quiet lb /\ l_thread lb = Some t) /\
      a_stack st' t = [] /\ a_log st' = AvRet t r o b (AP p) :: l.
  Proof.
    intros Hr HT Hs Hty Hst Hx Hl. pose proof (areach_inv E _ _ Hr) as HI.
    assert (exists v, a_supplies E o v /\ ie_ty E v = ar_ty x) as (v&Hv&Hvt).
    { destruct o as [v|w q|v|v]; [by exists v| |by exists v..]. destruct (HT (ar_ty x) w q) as (v&?&?). by exists v. }
    destruct (solo_call st t r o v x HI) as (a&ls&Hq&Hc); try done. { unfold a_ready. by rewrite Hst. }
    destruct (a_cands st (a_match E o) (ar_set x)) as [|p c] eqn:Hc1; [destruct (a_cands st (ins_match E v) (ar_set x)) as [|p c] eqn:Hc2|].
    - destruct Hc as (st'&b&p&l&?&Hst'&_&?&_). rewrite Hst in Hst'. by exists a, ls, st', b, p, l.
    - exfalso. assert (p ∈ a_cands st (ins_match E v) (ar_set x)) as Hp by (rewrite Hc2; by left).
      apply a_cands_in in Hp as (Hp&d&Hd&Hi). destruct (set_pts _ _ _ _ _ HI Hx Hp) as (d'&Hpt&_).
      apply (read_pts E _ _ _ _ _ Hpt) in Hd as Heq. subst d'. destruct Hpt as (_&_&Hdt).
      assert (p ∈ a_cands st (a_match E o) (ar_set x)) as Hin.
      { apply a_cands_in. split; [done|]. exists d. split; [done|]. apply (Hs v); [done|congruence|done]. }
      rewrite Hc1 in Hin. by apply elem_of_nil in Hin.
    - destruct Hc as (st'&b&p'&l&?&Hst'&_&?&_). rewrite Hst in Hst'. by exists a, ls, st', b, p', l.
  Qed.

  Definition frees l : Prop := Forall (λ e, exists p, e = AvFree None p) l.
  Theorem arena_panic ls st t st1 f k :
    run (astep E) ainit ls = Some st -> astep E st (LPanic t) = Next st1 ->
    a_stack st t = f :: k -> (forall r ps, f <> ADead r ps) ->
    exists r o b n st2 es,
      f_arena f = r /\ n <= 3 /\ run (astep E) st1 (replicate n (LStep t 0 0)) = Some st2 /\
      a_log st2 = AvRet t r o b APanic :: es ++ a_log st /\ frees es /\ a_arenas st2 = a_arenas st /\ a_stack st2 t = k /\
      (a_locks st2 !! r = None \/ (a_locks st2 = a_locks st /\ exists p m, f = AArg r o b m (AP p))).
  Proof.
    intros Hr Hs Hst Hnd. pose proof (areach_inv E _ _ Hr) as HI. pose proof (astep_inv _ _ _ _ HI Hs) as HI1.
    simpl in Hs. unfold a_step_panic in Hs. rewrite Hst in Hs.
    assert (forall (s : astate V Q) r o b m, AInv s -> a_stack s t = ARel r o b m APanic :: k -> a_arenas s = a_arenas st ->
      exists st2 es, run (astep E) s (replicate 2 (LStep t 0 0)) = Some st2 /\ a_log st2 = AvRet t r o b APanic :: es ++ a_log s /\ frees es /\
        a_arenas st2 = a_arenas st /\ a_stack st2 t = k /\ a_locks st2 !! r = None) as Hend.
    { intros s r o b m HIs Hsts Has. destruct (solo_end s t r o b m APanic k HIs Hsts) as (st'&l&?&?&Ha&Hk&?&?).
      exists st', l. split_and!; try done; [congruence|]. rewrite Hk. apply lookup_delete. }
    assert (forall (s : astate V Q) r o b p, AInv s -> a_stack s t = AKill r o b p true :: k -> a_arenas s = a_arenas st ->
      exists st2 es, run (astep E) s (replicate 3 (LStep t 0 0)) = Some st2 /\ a_log st2 = AvRet t r o b APanic :: es ++ a_log s /\ frees es /\
        a_arenas st2 = a_arenas st /\ a_stack st2 t = k /\ a_locks st2 !! r = None) as Hkill.
    { intros s r o b p HIs Hsts Has. destruct (free_some s None p) as [s' Hf].
      { eapply (owned_live E s t); [done|done|]. simpl. by rewrite Nat.eqb_refl. }
      assert (astep E s (LStep t 0 0) = Next (a_set_stack s' t (ARel r o b false APanic :: k))) as Hs'.
      { simpl. unfold a_step_thread. by rewrite Hsts, Hf. }
      destruct (Hend (a_set_stack s' t (ARel r o b false APanic :: k)) r o b false) as (st2&es&Hr2&Hl2&?&?&?&?).
      - by eapply astep_inv.
      - rewrite set_stack_get. by rewrite decide_True.
      - unfold a_free in Hf. destruct (a_objs s !! ip_ser p); [|done]. by injection Hf as <-.
      - exists st2, (es ++ [AvFree None p]). split_and!; try done.
        + change (replicate 3 (LStep t 0 0)) with (LStep (V := V) (Q := Q) t 0 0 :: replicate 2 (LStep t 0 0)).
          by rewrite (run_cons _ _ _ _ Hs').
        + rewrite Hl2. simpl. rewrite (free_log _ _ _ _ Hf). by rewrite <- app_assoc.
        + apply Forall_app. split; [done|]. constructor; [by eexists|constructor]. }
    destruct f as [r o b|r o b|r w q|r o v b|r o b p|r o b p pn|r o b p|r o b m x|r o b m x|r ps]; try done.
    - injection Hs as <-. destruct (Hend _ r o b true HI1) as (st2&es&?&?&?&?&?&?); [rewrite set_stack_get; by rewrite decide_True|done|].
      exists r, o, b, 2, st2, es. split_and!; try done; [lia|by left].
    - injection Hs as <-. destruct (Hend _ r (ARef w q) None false HI1) as (st2&es&?&?&?&?&?&?); [rewrite set_stack_get; by rewrite decide_True|done|].
      exists r, (ARef w q), None, 2, st2, es. split_and!; try done; [lia|by left].
    - injection Hs as <-. destruct (Hkill _ r o b p HI1) as (st2&es&?&?&?&?&?&?); [rewrite set_stack_get; by rewrite decide_True|done|].
      exists r, o, b, 3, st2, es. split_and!; try done. by left.
    - destruct pn; [done|]. injection Hs as <-.
      destruct (Hkill _ r o b p HI1) as (st2&es&?&?&?&?&?&?); [rewrite set_stack_get; by rewrite decide_True|done|].
      exists r, o, b, 3, st2, es. split_and!; try done. by left.
    - destruct x as [p|]; [|done]. destruct (a_drops o m) eqn:Hdr; [|done]. injection Hs as <-.
      set (s := a_set_stack st t (AArg r o b m APanic :: k)) in *.
      assert (a_stack s t = AArg r o b m APanic :: k) as Hsts. { unfold s. rewrite set_stack_get. by rewrite decide_True. }
      assert (exists st2 l, a_free_opt s (if m then b else None) = Some st2 /\ a_log st2 = l ++ a_log s /\ a_arenas st2 = a_arenas s /\
        a_locks st2 = a_locks s /\ frees l) as (st2&l&Hf&Hl&Ha&Hk&HF).
      { destruct (if m then b else None) as [q|] eqn:Hm; simpl; [|exists s, []; split_and!; [done..|constructor]].
        destruct (free_some s None q) as [st2 Hf].
        { eapply (owned_live E s t); [done|done|]. destruct m; [|done]. simpl. rewrite Hm. simpl. by rewrite Nat.eqb_refl. }
        exists st2, [AvFree None q]. split_and!; [done|exact (free_log _ _ _ _ Hf)| | |constructor; [by eexists|constructor]];
          unfold a_free in Hf; destruct (a_objs s !! ip_ser q); try done; by injection Hf as <-. }
      exists r, o, b, 1, (a_event (a_set_stack st2 t k) (AvRet t r o b APanic)), l. split_and!; try done; [lia|..].
      + simpl. unfold exec. simpl. unfold a_step_thread. by rewrite Hsts, Hf.
      + simpl. by rewrite Hl.
      + unfold a_stack. simpl. by rewrite lookup_insert.
      + right. split; [done|]. by exists p, m.
    - by destruct (Hnd r ps).
  Qed.

  (** *** Poison *)
  Lemma poison_free st P w p : a_free (a_with_poison st P) w p = (λ x, a_with_poison x P) <$> a_free st w p.
  Proof. unfold a_free. simpl. by destruct (a_objs st !! ip_ser p). Qed.
  Lemma poison_alloc st P a v : a_alloc E (a_with_poison st P) a v = (λ x, (a_with_poison x.1 P, x.2)) <$> a_alloc E st a v.
  Proof.
    unfold a_alloc. change (a_free_addr E (a_with_poison st P) a) with (a_free_addr E st a).
    destruct (is_zst E v || a_free_addr E st a); done.
  Qed.
  Lemma poison_astep st P lb :
    match astep E st lb with
    | Next st' => exists P', astep E (a_with_poison st P) lb = Next (a_with_poison st' P')
    | Blocked => astep E (a_with_poison st P) lb = Blocked
    | Illegal => astep E (a_with_poison st P) lb = Illegal
    | UB => astep E (a_with_poison st P) lb = UB
    end.
  Proof.
    destruct lb as [t ty|t r o a|t a i|t v|t|r p|t r]; simpl;
      change (a_stack (a_with_poison st P)) with (a_stack st); change (a_ready (a_with_poison st P)) with (a_ready st);
      change (a_log (a_with_poison st P)) with (a_log st).
    - destruct (a_ready st t); [by exists P|done].
    - destruct (a_arenas st !! r) as [x|]; [|done]. destruct (a_ready st t); [|done].
      destruct o; [destruct (_ =? _); [by exists P|done]|by exists P| |];
        (destruct (_ =? _); [|done]); rewrite poison_alloc; destruct (a_alloc E st a v) as [[st1 p]|]; [by exists P|done|by exists P|done].
    - unfold a_step_thread. change (a_stack (a_with_poison st P)) with (a_stack st).
      destruct (a_stack st t) as [|[r1 o b|r1 o b|r1 w q|r1 o v b|r1 o b p|r1 o b p pn|r1 o b p|r1 o b m x|r1 o b m x|r1 ps] k]; [done|..].
      + simpl. destruct (a_locks st !! r1); [done|by exists P].
      + change (a_readable (a_with_poison st P)) with (a_readable st). change (a_set (a_with_poison st P)) with (a_set st).
        change (a_cands (a_with_poison st P)) with (a_cands st).
        destruct (a_readable st _); [|done]. destruct (ipick i _); [by exists P|]. destruct o; try (by exists P). destruct b; [by exists P|done].
      + done.
      + destruct b as [q|].
        * rewrite poison_free. destruct (a_free st None q); [by exists P|done].
        * rewrite poison_alloc. destruct (a_alloc E st a v) as [[st1 p]|]; [by exists P|done].
      + change (a_read (a_with_poison st P)) with (a_read st). destruct (a_read st p); [|done].
        change (a_arenas (a_with_poison st P)) with (a_arenas st). destruct (a_arenas st !! r1); [|done].
        change (a_readable (a_with_poison st P)) with (a_readable st). destruct (a_readable st _); [|done].
        change (a_cands (a_with_poison st P)) with (a_cands st). destruct (a_cands st _ _); by exists P.
      + rewrite poison_free. destruct (a_free st None p); [by exists P|done].
      + change (a_read (a_with_poison st P)) with (a_read st). destruct (a_read st p); [by exists P|done].
      + eexists. reflexivity.
      + destruct (if m then b else None) as [p|]; simpl; [|by exists P].
        rewrite poison_free. destruct (a_free st None p); [by exists P|done].
      + destruct ps as [|p ps]; [by exists P|]. rewrite poison_free. destruct (a_free st (Some r1) p); [by exists P|done].
    - destruct (a_stack st t) as [|[] ?]; try done. destruct (_ && _); [by exists P|done].
    - unfold a_step_panic. change (a_stack (a_with_poison st P)) with (a_stack st).
      destruct (a_stack st t) as [|[r1 o b|r1 o b|r1 w q|r1 o v b|r1 o b p|r1 o b p pn|r1 o b p|r1 o b m x|r1 o b m x|r1 ps] k]; try done;
        try (by exists P).
      + destruct pn; [done|by exists P].
      + destruct x; [|done]. destruct (a_drops o m); [by exists P|done].
      + destruct ps as [|p ps]; [done|]. rewrite poison_free. destruct (a_free st (Some r1) p); [by exists P|done].
    - destruct (a_returned r p (a_log st)); [|done]. destruct (a_arenas st !! r); [|done].
      change (a_read (a_with_poison st P)) with (a_read st). destruct (a_read st p); [by exists P|done].
    - destruct (a_arenas st !! r); [|done]. change (a_idle (a_with_poison st P)) with (a_idle st). destruct (_ && _); [by exists P|done].
  Qed.
  Theorem arena_poison_ignored ls st P st' : run (astep E) st ls = Some st' ->
    exists P', run (astep E) (a_with_poison st P) ls = Some (a_with_poison st' P').
  Proof.
    revert st P. induction ls as [|lb ls IH]; intros st P; simpl; [intros [= <-]; by exists P|]. unfold exec.
    pose proof (poison_astep st P lb) as H. destruct (astep E st lb) as [st1| | |] eqn:Hs; intros Hr; [|rewrite H; by apply IH..|done].
    destruct H as [P' ->]. by apply IH.
  Qed.
End more.

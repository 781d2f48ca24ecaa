(** Proofs about Send and Sync. *)
From stdpp Require Import gmap list numbers.
From Verif Require Import Base InternModel InternSpec InternInv InternStep InternFinal NewModel NewSpec NewSim NewFinal.
From Verif Require Import ArcModel InternEx ArenaModel ArenaSpec ArenaInv ArenaStep ArenaFinal ArenaEx TraitModel TraitSpec.

Lemma handles_sound (B : traits) (T : rty) :
  (sends B (RArcIntern T) \/ syncs B (RArcIntern T) -> sends B T /\ syncs B T) /\
  (sends B (RIntern T) \/ syncs B (RIntern T) -> syncs B T) /\
  (sends B (RArenaIntern T) \/ syncs B (RArenaIntern T) -> syncs B T) /\
  (sends B (RArena T) \/ syncs B (RArena T) -> sends B T).
Proof.
  unfold sends, syncs, is_send, is_sync, RIntern, RArenaIntern, RArena. simpl. rewrite andb_true_iff. tauto.
Qed.
Lemma handles_complete (B : traits) (T : rty) : sends B T -> syncs B T ->
  forall H, H ∈ [RArcIntern T; RIntern T; RArenaIntern T; RArena T] -> sends B H /\ syncs B H.
Proof.
  unfold sends, syncs, is_send, is_sync. intros H1 H2 H Hin.
  repeat (apply elem_of_cons in Hin as [->|Hin]; [simpl; by rewrite ?H1, ?H2|]). by apply elem_of_nil in Hin.
Qed.
Lemma meets B x : meets_bounds (tr_send B) (tr_sync B) x = true -> sends B x /\ syncs B x.
Proof. apply andb_true_iff. Qed.

(** ** Intern *)
Section intern.
  Context {V Q : Type} (B : traits) (E : ienv V Q).
  Implicit Types (st : istate V Q) (o : iop V Q) (f : frame V Q).

  Definition call_op f : iop V Q :=
    match f with
    | FWait o _ | FGet o _ | FStore o _ | FIns o _ | FDup o _ _ | FDone o _ => o
    | FConv ty w q => ORef ty w q
    end.
  Lemma ialloc_log st a v b st1 p : ialloc E st a v b = Some (st1, p) -> i_log st1 = i_log st.
  Proof. unfold ialloc. destruct (_ || _); [|done]. by intros [= <- _]. Qed.
  Lemma ileak_log st p st1 : ileak st p = Some st1 -> i_log st1 = i_log st.
  Proof. unfold ileak. destruct (i_objs st !! ip_ser p) as [x|]; [|done]. destruct (io_leaked x); [done|]. by intros [= <-]. Qed.
  Lemma ifree_log st p st1 : ifree st p = Some st1 -> i_log st1 = i_log st.
  Proof. unfold ifree. destruct (i_objs st !! ip_ser p) as [x|]; [|done]. destruct (io_leaked x); [done|]. by intros [= <-]. Qed.

  Definition Calls (P : iop V Q -> Prop) st : Prop :=
    (forall t f, f ∈ get_stack st t -> P (call_op f)) /\ (forall t o r, EvRet t o r ∈ i_log st -> P o).
  Lemma calls_step (P : iop V Q -> Prop) st l st' : IInv E st -> Calls P st -> (forall t o a, l = ICall t o a -> P o) ->
    istep E st l = Next st' -> Calls P st'.
  Proof.
    intros HI [Hfr Hlog] Hc [(p&v&_&_&_&->)|(t&fs&fs'&k&st1&Hst&Hm&->&_&Hn)]%istep_move.
    { split; [done|]. simpl. intros t o r [?|?]%elem_of_cons; [done|by eapply Hlog]. }
    pose proof (move_ok E st t fs fs' k st1 HI Hst Hm) as [Htr _].
    assert (forall f, f ∈ fs -> P (call_op f)) as Hfs.
    { intros f Hf. apply (Hfr t). rewrite Hst. apply elem_of_app. by left. }
    split.
    - intros u f Hf. unfold get_stack in Hf. rewrite (tr_new _ _ _ _ _ _ _ Htr) in Hf.
      destruct (decide (t = u)) as [<-|]; [|rewrite lookup_insert_ne in Hf by done; by apply (Hfr u)].
      rewrite lookup_insert in Hf. simpl in Hf.
      apply elem_of_app in Hf as [Hf|Hf]; [|apply (Hfr t); rewrite Hst; apply elem_of_app; by right].
      destruct Hm; try (apply elem_of_list_singleton in Hf as ->); simpl;
        try (match goal with H : forall f, f ∈ [?g] -> _ |- _ => exact (H g ltac:(by left)) end).
      + destruct (Hn eq_refl) as (o'&b&a&->&[= <- <-]). by eapply Hc.
      + destruct (Hn eq_refl) as (o'&b&a'&->&[= <- <-]). by eapply Hc.
      + by apply elem_of_nil in Hf.
    - intros u o0 r0 He.
      destruct Hm; simpl in He;
        repeat match goal with
        | H : ialloc E _ _ _ _ = Some _ |- _ => apply ialloc_log in H; rewrite H in He
        | H : ileak _ _ = Some _ |- _ => apply ileak_log in H; rewrite H in He
        | H : ifree _ _ = Some _ |- _ => apply ifree_log in H; rewrite H in He
        end;
        try (by eapply Hlog); (apply elem_of_cons in He as [He|He]; [try done|by eapply Hlog]).
      injection He as -> -> ->. exact (Hfs _ ltac:(by left)).
  Qed.
  Lemma calls_run (P : iop V Q -> Prop) ls st : (forall t o a, ICall t o a ∈ ls -> P o) -> run (istep E) iinit ls = Some st -> Calls P st.
  Proof.
    revert st. induction ls as [|l ls IH] using rev_ind; intros st Hc.
    { intros [= <-]. split; [|intros t o r H; by apply elem_of_nil in H].
      intros t f H. unfold get_stack in H. simpl in H. rewrite lookup_empty in H. by apply elem_of_nil in H. }
    rewrite run_snoc. destruct (run (istep E) iinit ls) as [st1|] eqn:Hr; [|done].
    assert (Calls P st1) as H1.
    { apply IH; [|done]. intros t o a Hin. apply (Hc t o a), elem_of_app. by left. }
    unfold exec. destruct (istep E st1 l) eqn:Hs; try done; intros [= <-]; [|done..].
    eapply calls_step; try done; [by eapply reach_inv|]. intros t o a ->. apply (Hc t o a), elem_of_app. right. by left.
  Qed.
  Theorem intern_traits ls st t o p :
    intern_compiles B E ls -> run (istep E) iinit ls = Some st -> EvRet t o (RPtr p) ∈ i_log st ->
    exists v, iread st p = Some v /\ sends B (tr_type B (ie_ty E v)) /\ syncs B (tr_type B (ie_ty E v)).
  Proof.
    intros Hc Hr Hin. pose proof (reach_inv E _ _ Hr) as HI. destruct (v_log _ _ HI _ Hin) as [v Hp].
    exists v. split; [by eapply points_read|].
    destruct (calls_run (λ o, meets_bounds (tr_send B) (tr_sync B) (tr_type B (op_ty E o)) = true) ls st Hc Hr) as [_ H].
    apply H in Hin. assert (ie_ty E v = op_ty E o) as -> by apply Hp. by apply meets.
  Qed.

  Definition NCalls (P : iop V Q -> Prop) (s : nstate V Q) : Prop :=
    (forall t (f : nframe V Q), f ∈ nstack s t -> P (call_of f)) /\ (forall t o r, EvRet t o r ∈ n_log s -> P o).
  Lemma ncalls_step (P : iop V Q -> Prop) s l s' : NCalls P s -> (forall t o a, l = ICall t o a -> P o) ->
    nstep E s l = Next s' -> NCalls P s'.
  Proof.
    intros [Hfr Hlog] Hc Hs%nstep_shape. split.
    - intros u f' Hf. destruct (shape_frame _ _ _ _ _ _ Hs Hf) as [H|[(o&b&a&->&->)|(_&f&k&Hst&->&_)]].
      + by eapply Hfr.
      + by eapply Hc.
      + apply (Hfr u). rewrite Hst. by left.
    - intros u o r He. destruct Hs as [p v -> ->|t o' b a _ _ _ Hl _ _ _|t f fs' k _ _ Hst _ _ Hl _ _].
      + simpl in He. apply elem_of_cons in He as [?|?]; [done|by eapply Hlog].
      + rewrite Hl in He. by eapply Hlog.
      + destruct Hl as [Hl|(e&Hl&Hev)]; rewrite Hl in He; [by eapply Hlog|].
        apply elem_of_cons in He as [<-|He]; [|by eapply Hlog]. destruct Hev as (->&_). apply (Hfr t). rewrite Hst. by left.
  Qed.
  Lemma ncalls_run (P : iop V Q -> Prop) ls s : (forall t o a, ICall t o a ∈ ls -> P o) -> run (nstep E) ninit ls = Some s -> NCalls P s.
  Proof.
    revert s. induction ls as [|l ls IH] using rev_ind; intros s Hc.
    { intros [= <-]. split; [|intros t o r H; by apply elem_of_nil in H].
      intros t f H. unfold nstack in H. simpl in H. rewrite lookup_empty in H. by apply elem_of_nil in H. }
    rewrite run_snoc. destruct (run (nstep E) ninit ls) as [st1|] eqn:Hr; [|done].
    assert (NCalls P st1) as H1.
    { apply IH; [|done]. intros t o a Hin. apply (Hc t o a), elem_of_app. by left. }
    unfold exec. destruct (nstep E st1 l) eqn:Hs; try done; intros [= <-]; [|done..].
    eapply ncalls_step; try done. intros t o a ->. apply (Hc t o a), elem_of_app. right. by left.
  Qed.
  Theorem new_traits ls s t o p :
    intern_compiles B E ls -> run (nstep E) ninit ls = Some s -> EvRet t o (RPtr p) ∈ n_log s ->
    exists x, n_objs s !! ip_ser p = Some x /\ sends B (tr_type B (ie_ty E (io_val x))) /\ syncs B (tr_type B (ie_ty E (io_val x))).
  Proof.
    intros Hc Hr Hin. destruct (n_handle_valid E ls [] s s t o p Hr Hin eq_refl) as (v&Hty&_&Ho&_).
    eexists. split; [done|]. simpl. rewrite Hty.
    destruct (ncalls_run (λ o, meets_bounds (tr_send B) (tr_sync B) (tr_type B (op_ty E o)) = true) ls s Hc Hr) as [_ H].
    apply H in Hin. by apply meets.
  Qed.
End intern.

(** ** Arena *)
Section arena.
  Context {V Q : Type} (B : traits) (E : ienv V Q).
  Implicit Types (st : astate V Q) (o : aop V Q) (f : aframe V Q) (ls : list (alabel V Q)).

  (** Thread [t] started a call on arena [r] while it existed. *)
  Definition called ls t r : Prop := exists l1 l2 o a st x,
    ls = l1 ++ LCall t r o a :: l2 /\ run (astep E) ainit l1 = Some st /\ a_arenas st !! r = Some x.
  Lemma called_app ls l t r : called ls t r -> called (ls ++ l) t r.
  Proof.
    intros (l1&l2&o&a&st&x&->&H). exists l1, (l2 ++ l), o, a, st, x. split; [|done]. by rewrite <- app_assoc.
  Qed.
  Definition ACalls ls st : Prop :=
    (forall t f r, f ∈ a_stack st t -> a_arena f = Some r -> called ls t r) /\
    (forall t r o b x, AvRet t r o b x ∈ a_log st -> called ls t r).
  Lemma acalls_step ls st l st' : run (astep E) ainit ls = Some st -> ACalls ls st -> astep E st l = Next st' -> ACalls (ls ++ [l]) st'.
  Proof.
    intros Hr [Hfr Hlog] Hs. pose proof (areach_inv E _ _ Hr) as HI.
    destruct (astep_move _ _ _ _ Hs) as (t&fs&fs'&k&Hst&Hm&_&Hn).
    destruct (amove_ok _ _ _ _ _ _ _ HI Hst Hm) as (es&Htr&_).
    assert (forall f r, f ∈ fs -> a_arena f = Some r -> called (ls ++ [l]) t r) as Hfs.
    { intros f r Hf Ha. apply called_app, (Hfr t f); [|done]. rewrite Hst. apply elem_of_app. by left. }
    split.
    - intros u f r Hf Ha. rewrite (y_new _ _ _ _ _ _ _ Htr) in Hf. destruct (decide (t = u)) as [<-|]; [|by eapply called_app, Hfr].
      apply elem_of_app in Hf as [Hf|Hf]; [|apply called_app, (Hfr t f); [rewrite Hst; apply elem_of_app; by right|done]].
      destruct Hm; try (by apply elem_of_nil in Hf); apply elem_of_list_singleton in Hf as ->; simpl in Ha; try done;
        injection Ha as <-;
        try (match goal with H : forall f r, f ∈ [?g] -> _ |- _ => exact (H g _ ltac:(by left) eq_refl) end).
      + destruct (Hn _ _ _ eq_refl eq_refl) as [a ->]. by exists ls, [], o, a, st, x.
      + destruct (Hn _ _ _ eq_refl eq_refl) as [a' ->]. by exists ls, [], o, a', st, x.
    - intros u r0 o0 b0 x0 He.
      destruct Hm; simpl in He;
        repeat match goal with
        | H : a_alloc E _ _ _ = Some _ |- _ => unfold a_alloc in H; case_match; [|done]; injection H as <- <-; simpl in He
        | H : a_free _ _ _ = Some _ |- _ => apply free_log in H; rewrite H in He
        end;
        repeat (apply elem_of_cons in He as [He|He]; [try done|]);
        try (by eapply called_app, Hlog).
      all: injection He as -> -> -> -> ->; exact (Hfs _ _ ltac:(by left) eq_refl).
  Qed.
  Lemma acalls_run ls st : run (astep E) ainit ls = Some st -> ACalls ls st.
  Proof.
    revert st. induction ls as [|l ls IH] using rev_ind; intros st.
    { intros [= <-]. split; [|intros t r o b x H; by apply elem_of_nil in H].
      intros t f r H. unfold a_stack in H. simpl in H. rewrite lookup_empty in H. by apply elem_of_nil in H. }
    rewrite run_snoc. destruct (run (astep E) ainit ls) as [st1|] eqn:Hr; [|done]. specialize (IH _ eq_refl).
    assert (ACalls (ls ++ [l]) st1) as H1.
    { destruct IH. split; intros; apply called_app; eauto. }
    unfold exec. destruct (astep E st1 l) eqn:Hs; try done; intros [= <-]; [|done..]. by eapply acalls_step.
  Qed.

  Lemma made_app ls l r t ty : made_by E ls r t ty -> made_by E (ls ++ l) r t ty.
  Proof.
    intros (l1&l2&st&st'&->&H). exists l1, (l2 ++ l), st, st'. split; [|done]. by rewrite <- app_assoc.
  Qed.
  Lemma free_nextr st w p st1 : a_free st w p = Some st1 -> a_nextr st1 = a_nextr st.
  Proof. intros H%free_same. tauto. Qed.
  Lemma alloc_nextr st a v st1 p : a_alloc E st a v = Some (st1, p) -> a_nextr st1 = a_nextr st.
  Proof. unfold a_alloc. destruct (_ || _); [|done]. by intros [= <- _]. Qed.
  Lemma nextr_same st l st' : astep E st l = Next st' -> (forall t ty, l <> LArena t ty) -> a_nextr st' = a_nextr st.
  Proof.
    intros Hs Hl. destruct l as [t ty|t r o a|t a i|t v|t|r p|t r]; simpl in Hs; [by destruct (Hl t ty)|..];
      unfold a_step_thread, a_step_panic, a_free_opt in Hs;
      repeat (case_match; try done); simplify_eq; simpl; eauto using free_nextr, alloc_nextr.
  Qed.
  Lemma made_run ls st r x : run (astep E) ainit ls = Some st -> a_arenas st !! r = Some x -> exists t, made_by E ls r t (ar_ty x).
  Proof.
    revert st x. induction ls as [|l ls IH] using rev_ind; intros st x.
    { intros [= <-]. simpl. by rewrite lookup_empty. }
    rewrite run_snoc. destruct (run (astep E) ainit ls) as [st1|] eqn:Hr; [|done].
    unfold exec. destruct (astep E st1 l) as [st2| | |] eqn:Hs; try done; intros [= <-] Hx.
    2,3: destruct (IH _ _ eq_refl Hx) as [t Ht]; exists t; by apply made_app.
    pose proof (areach_inv E _ _ Hr) as HI. pose proof (astep_inv E _ _ _ HI Hs) as HI2.
    destruct (decide (r < a_nextr st1)) as [Hlt|Hge].
    - destruct (astep_move _ _ _ _ Hs) as (t&fs&fs'&k&Hst&Hm&_&_).
      destruct (amove_ok _ _ _ _ _ _ _ HI Hst Hm) as (es&Htr&_).
      destruct (y_back _ _ _ _ _ _ _ Htr _ _ Hx Hlt) as (x0&Hx0&->&_).
      destruct (IH _ _ eq_refl Hx0) as [u Hu]. exists u. by apply made_app.
    - pose proof (there_lt E _ _ _ HI2 Hx) as Hlt. destruct l as [t ty| | | | | |];
        try (erewrite (nextr_same _ _ _ Hs) in Hlt by done; lia).
      exists t. assert (r = a_nextr st1 /\ ar_ty x = ty) as [-> ->].
      { simpl in Hs. destruct (a_ready st1 t); [|done]. injection Hs as <-. simpl in *.
        assert (r = a_nextr st1) as -> by lia. rewrite lookup_insert in Hx. by injection Hx as <-. }
      by exists ls, [], st1, st2.
  Qed.
  Lemma nextr_run ls st st' : AInv E st -> run (astep E) st ls = Some st' -> a_nextr st <= a_nextr st'.
  Proof.
    revert st. induction ls as [|lb ls IH]; intros st HI; simpl; [by intros [= <-]|].
    unfold exec. destruct (astep E st lb) as [st1| | |] eqn:Hs; try done; [|by apply IH..].
    intros Hr. pose proof (nextr_step E _ _ _ HI Hs). etrans; [done|]. apply IH; [by eapply astep_inv|done].
  Qed.
  Lemma made_later l1 m st st' t ty st1 : run (astep E) ainit l1 = Some st -> astep E st (LArena t ty) = Next st' ->
    run (astep E) ainit (l1 ++ LArena t ty :: m) = Some st1 -> a_nextr st < a_nextr st1.
  Proof.
    intros Hr1 Hs Hr. rewrite run_app, Hr1 in Hr. simpl run in Hr. unfold exec in Hr. rewrite Hs in Hr.
    pose proof (areach_inv E _ _ Hr1) as HI. pose proof (nextr_run _ _ _ (astep_inv E _ _ _ HI Hs) Hr).
    simpl in Hs. destruct (a_ready st t); [|done]. injection Hs as <-. simpl in *. lia.
  Qed.
  Lemma made_unique ls r t ty t' ty' : made_by E ls r t ty -> made_by E ls r t' ty' -> t = t' /\ ty = ty'.
  Proof.
    intros (l1&l2&st&st1&Hl&Hr&Hs&Hn) (l1'&l2'&st'&st1'&Hl'&Hr'&Hs'&Hn').
    rewrite Hl in Hl'. apply app_eq_inv in Hl' as [(m&Hm1&Hm2)|(m&Hm1&Hm2)];
      (destruct m as [|l m]; simpl in Hm2; [by simplify_eq|]); injection Hm2 as <- _; subst.
    - pose proof (made_later _ _ _ _ _ _ _ Hr' Hs' Hr). lia.
    - pose proof (made_later _ _ _ _ _ _ _ Hr Hs Hr'). lia.
  Qed.

  Lemma called_by ls st r u ty t : arena_compiles B E ls -> run (astep E) ainit ls = Some st -> made_by E ls r u ty ->
    called ls t r -> t = u \/ sends B (tr_type B ty).
  Proof.
    intros Hc Hr Hu (l1&l2&o&a&st1&x&Hl&Hr1&Hx). destruct (made_run _ _ _ _ Hr1 Hx) as [u' Hu'].
    assert (made_by E ls r u' (ar_ty x)) as Hu2 by (rewrite Hl; by apply made_app).
    destruct (made_unique _ _ _ _ _ _ Hu Hu2) as [-> ->].
    destruct (Hc _ _ _ _ _ _ Hl _ _ Hu') as [?|H]; [by left|]. right. by destruct H.
  Qed.
  Theorem arena_traits ls st r u ty p t1 t2 :
    arena_compiles B E ls -> run (astep E) ainit ls = Some st -> made_by E ls r u ty ->
    got B (a_log st) r ty p t1 -> got B (a_log st) r ty p t2 -> t1 <> t2 ->
    sends B (tr_type B ty) \/ syncs B (tr_type B ty).
  Proof.
    intros Hc Hr Hu H1 H2 Hne. destruct (acalls_run _ _ Hr) as [_ Hlog].
    destruct H1 as [t1 o1 b1 H1|? ? _ [?|?]]; [|by right..]. destruct H2 as [t2 o2 b2 H2|? ? _ [?|?]]; [|by right..].
    destruct (called_by _ _ _ _ _ _ Hc Hr Hu (Hlog _ _ _ _ _ H1)) as [->|]; [|by left].
    destruct (called_by _ _ _ _ _ _ Hc Hr Hu (Hlog _ _ _ _ _ H2)) as [->|]; [done|by left].
  Qed.
End arena.

(** ** An example *)
Lemma ex_arena_types E l1 l2 l r u ty : ex_arena = l1 ++ l :: l2 -> made_by E l1 r u ty -> ty = 0.
Proof.
  intros Hl (l3&l4&_&_&->&_). assert (LArena u ty ∈ ex_arena) as Hin%elem_of_list_In.
  { rewrite Hl. set_solver. }
  vm_compute in Hin. repeat (destruct Hin as [Hin|Hin]; [by simplify_eq|]). done.
Qed.
Lemma ex_arena_compiles B : sends B (tr_type B 0) -> arena_compiles B toyE ex_arena.
Proof. intros Hs l1 l2 t r o a Hl u ty ->%(ex_arena_types _ _ _ _ _ _ _ Hl). right. by right. Qed.
Lemma ex_arena_made : made_by toyE ex_arena 0 1 0.
Proof. eexists [], _, ainit, _. split; [reflexivity|]. by vm_compute. Qed.
Lemma arena_shares B : sends B (tr_type B 0) -> ~ syncs B (tr_type B 0) ->
  exists ls st r u p t1 t2, arena_compiles B toyE ls /\ run (astep toyE) ainit ls = Some st /\
    made_by toyE ls r u 0 /\ is_Some (a_arenas st !! r) /\ is_Some (a_read st p) /\
    got B (a_log st) r 0 p t1 /\ got B (a_log st) r 0 p t2 /\ t1 <> t2.
Proof.
  intros Hs _. exists ex_arena, (aafter toyE ex_arena), 0, 1, (IPtr 100 0 1), 1, 2.
  split_and!; [by apply ex_arena_compiles|by apply aafter_run; vm_compute|apply ex_arena_made|vm_compute; by eexists
    |vm_compute; by eexists|..|done].
  - apply (got_call _ _ _ _ _ _ (ANew (IV 0 30 0)) None). apply elem_of_list_In; vm_compute; tauto.
  - apply (got_call _ _ _ _ _ _ (ABox (IV 0 31 0)) (Some (IPtr 200 0 0))). apply elem_of_list_In; vm_compute; tauto.
Qed.
Lemma arena_not_sync : exists B ls st r u ty p t1 t2, ~ syncs B (tr_type B ty) /\
  arena_compiles B toyE ls /\ run (astep toyE) ainit ls = Some st /\
  made_by toyE ls r u ty /\ is_Some (a_arenas st !! r) /\ is_Some (a_read st p) /\
  got B (a_log st) r ty p t1 /\ got B (a_log st) r ty p t2 /\ t1 <> t2.
Proof.
  set (B := Traits (λ _, true) (λ _, false) RBase).
  destruct (arena_shares B) as (ls&st&r&u&p&t1&t2&H); [done..|]. by exists B, ls, st, r, u, 0, p, t1, t2.
Qed.

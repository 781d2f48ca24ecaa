(** Interior mutability of values of the [Intern] of typearena.rs. *)
From stdpp Require Import gmap list numbers.
From Verif Require Import Base InternModel InternSpec InternInv InternStep InternLaw InternFinal InternMore
  NewModel NewSpec NewSim NewStep NewFinal MutModel MutSpec MutArc MutIntern.
Require Import ZifyBool ZifyNat ZifyN.

Section moves.
  Context {V Q : Type} (E : ienv V Q).
  Implicit Types (st : istate V Q).
  Lemma ci_move st t fs fs' k st1 : IInv E st -> CI st -> get_stack st t = fs ++ k -> move E st t fs fs' st1 ->
    CI (set_stack st1 t (fs' ++ k)).
  Proof.
    intros HI HC Hst Hm.
    destruct (move_ok E st t fs fs' k st1 HI Hst Hm) as [Htr HI'].
    cut (forall s, lsum (insf s) fs' + inse s (i_log st1) + leaked st s <= lsum (insf s) fs + inse s (i_log st) + leaked st1 s).
    { intros H s. specialize (H s). specialize (HC s).
      pose proof (msum_stack (insf s) st _ t _ (tr_new _ _ _ _ _ _ _ Htr)) as Hms.
      rewrite Hst, !lsum_app in Hms. simpl i_log.
      change (leaked (set_stack st1 t (fs' ++ k)) s) with (leaked st1 s). lia. }
    clear Htr HI'.
    assert (forall f, f ∈ fs -> frame_ok E st f) as Hfr.
    { intros f Hf. apply (v_frames _ _ HI t). rewrite Hst. apply elem_of_app. by left. }
    intros s. destruct Hm; simpl lsum; try (unfold leaked; simpl; lia).
    - destruct (ialloc_spec E _ _ _ _ _ _ HI H) as (->&_&Hn&_). unfold leaked. simpl.
      destruct (decide (i_next st = s)) as [<-|]; [rewrite lookup_insert, Hn; simpl; lia|rewrite lookup_insert_ne by done; lia].
    - destruct (Hfr (FGet (OBox v) (Some p))) as [(p'&[= <-]&Hx&_) ?]; [by left|]. unfold ileak in H0. rewrite Hx in H0.
      simpl in H0. injection H0 as <-. unfold leaked. simpl. destruct (Nat.eqb_spec (ip_ser p) s) as [<-|].
      + rewrite lookup_insert, Hx. simpl. lia.
      + rewrite lookup_insert_ne by done. lia.
    - destruct (ialloc_spec E _ _ _ _ _ _ HI H) as (->&Hp&Hn&_). unfold leaked. rewrite Hp. simpl.
      destruct (Nat.eqb_spec (i_next st) s) as [<-|]; [rewrite lookup_insert, Hn; simpl; lia|rewrite lookup_insert_ne by done; lia].
    - unfold ifree in H. unfold leaked. destruct (i_objs st !! ip_ser p) as [x|] eqn:Hx; [|done].
      destruct (io_leaked x) eqn:Hl; [done|]. injection H as <-. simpl.
      destruct (decide (ip_ser p = s)) as [<-|]; [rewrite lookup_delete, Hx, Hl; lia|rewrite lookup_delete_ne by done; lia].
  Qed.
End moves.

Section any.
  Context {V Q : Type} (E : ienv V Q).
  Implicit Types (s : nstate V Q) (st : istate V Q) (v d : V) (p : iptr) (o : iop V Q) (t ty : nat).
  Implicit Types (L : list (ievent V Q)) (lb : ilabel V Q).
  Notation E1 := (E1 E).

  Definition nlogged s L : nstate V Q :=
    NState (n_objs s) (n_vecs s) (n_resv s) (n_sets s) (n_locks s) (n_poison s) (n_threads s) (n_next s) L.
  Lemma nlog_step s L lb : rets (n_log s) L ->
    match nstep E s lb with
    | Next s' => exists es, n_log s' = es ++ n_log s /\ nstep E (nlogged s L) lb = Next (nlogged s' (es ++ L))
    | Blocked => nstep E (nlogged s L) lb = Blocked
    | Illegal => nstep E (nlogged s L) lb = Illegal
    | UB => nstep E (nlogged s L) lb = UB
    end.
  Proof.
    intros HL.
    destruct lb as [t o a|t a j|t v|t|p]; simpl; change (nstack (nlogged s L)) with (nstack s); change (nmem (nlogged s L)) with (nmem s).
    - destruct (match nstack s t with [] => true | _ => _ end); [|done].
      destruct o; try (by exists []); try done.
      destruct (ialloc E (nmem s) a v false) as [[m p]|]; [|done]. by exists [].
    - unfold nstep_thread. change (nstack (nlogged s L)) with (nstack s). change (nmem (nlogged s L)) with (nmem s).
      change (nvec (nlogged s L)) with (nvec s). change (nresv (nlogged s L)) with (nresv s).
      change (nset (nlogged s L)) with (nset s). change (n_locks (nlogged s L)) with (n_locks s).
      change (n_poison (nlogged s L)) with (n_poison s).
      destruct (nstack s t) as [|[o b again|o b|o b i|o b i|o b|i [o b|o b|ty w q|o v|o p|o b r|o r]] k]; [done|..]; try done.
      + destruct (find_ty _ _); [destruct (_ || _); by exists []|]. destruct again; [done|by exists []].
      + by exists [].
      + destruct (_ =? i); [by exists []|done].
      + destruct (n_locks s !! _); [done|]. destruct (bool_decide _); [destruct (existsb _ _); [done|by exists []]|].
        destruct o; try (by exists []). by exists [EvClr ty].
      + destruct b as [p|]; [|by exists [EvRet t o RPanic]].
        destruct (ifree (nmem s) p); [by exists [EvRet t o RPanic]|done].
      + destruct (ireadable _ _); [|done].
        destruct (ipick j _); destruct o; try done; try (by exists []).
        destruct b as [p|]; [|done]. destruct (ileak (nmem s) p); [by exists []|done].
      + destruct (ialloc E (nmem s) a v true) as [[m p]|]; [by exists []|done].
      + destruct (iread (nmem s) p) as [v|]; [|done]. destruct (ireadable _ _); [|done].
        destruct (candidates _ _ _); [by exists [EvIns t o p v]|by exists []].
      + destruct b as [p|]; [|by exists []]. destruct (ifree (nmem s) p); [by exists []|done].
      + by exists [EvRet t o r].
    - destruct (nstack s t) as [|[o b again|o b|o b i|o b i|o b|i [o b|o b|ty w q|o v'|o p|o b r|o r]] k]; try done.
      destruct (_ && _); [by exists []|done].
    - unfold nstep_panic. change (nstack (nlogged s L)) with (nstack s).
      destruct (nstack s t) as [|f k]; [done|]. destruct (existsb _ _); [done|].
      destruct f as [o b again|o b|o b i|o b i|o b|i [o b|o b|ty w q|o v'|o p|o b r|o r]]; try done; by exists [].
    - change (n_log (nlogged s L)) with L. rewrite <- (rets_returned _ _ _ HL). destruct (returned p (n_log s)); [|done].
      destruct (iread (nmem s) p) as [v|]; [by exists [EvRead p v]|done].
  Qed.

  Lemma sim_ci st st' : IInv E1 st -> CI st -> sim_step E st st' -> CI st'.
  Proof.
    intros HI HC [|t fs fs' k st1 Hst Hm|p v Hr Hv|t st'' Hg]; [done|by eapply ci_move|done|].
    intros s. specialize (HC s). destruct Hg as [o k Hst|o p k st1 Hst Hf].
    - pose proof (msum_stack (insf s) st (set_stack st t k) t k eq_refl) as Hms. rewrite Hst in Hms. simpl in *.
      unfold leaked in *. simpl in *. lia.
    - unfold ifree in Hf. destruct (i_objs st !! ip_ser p) as [x|] eqn:Hx; [|done]. destruct (io_leaked x) eqn:Hl; [done|].
      injection Hf as <-.
      match goal with |- context [set_stack ?z t k] => pose proof (msum_stack (insf s) st (set_stack z t k) t k eq_refl) as Hms end.
      rewrite Hst in Hms. simpl in *. unfold leaked in *. simpl in *.
      destruct (decide (ip_ser p = s)) as [<-|]; [rewrite lookup_delete; rewrite Hx, Hl in HC; lia|rewrite lookup_delete_ne by done; lia].
  Qed.
  Lemma sim_di st st' : IInv E1 st -> CI st -> DI st -> sim_step E st st' -> DI st'.
  Proof.
    intros HI HC HD [|t fs fs' k st1 Hst Hm|p v Hr Hv|t st'' Hg]; [done|by eapply (di_move E1)|by apply di_read|].
    destruct (give_up_trans _ _ _ _ HI Hg) as (o&b&k&Htr&_&Hlog). intros p Hp.
    pose proof (msum_stack (insf (ip_ser p)) st _ t _ (tr_new _ _ _ _ _ _ _ Htr)) as Hms.
    rewrite (tr_old _ _ _ _ _ _ _ Htr) in Hms. simpl in Hms. cut (out st p); [intros Ho%HD; lia|].
    destruct Hp as [(u&f&Hf&Hr)|(u&o'&Hin)].
    - left. exists u, f. split; [|done]. rewrite (stack_upd st _ t _ u (tr_new _ _ _ _ _ _ _ Htr)) in Hf.
      destruct (decide (t = u)) as [<-|]; [|done]. rewrite (tr_old _ _ _ _ _ _ _ Htr). by right.
    - right. exists u, o'. rewrite Hlog in Hin. by apply elem_of_cons in Hin as [|].
  Qed.

  Definition MN s : Prop := exists L st, rets (n_log s) L /\ IInv E1 st /\ CI st /\ DI st /\ R E (nlogged s L) st.
  Lemma nmstep_ok s ml : MN s -> new_mstep E s ml <> UB /\ forall s', new_mstep E s ml = Next s' -> MN s'.
  Proof.
    intros (L&st&HL&HI&HC&HD&HR). destruct ml as [lb|[p v]]; simpl.
    - pose proof (nlog_step s L lb HL) as H. split.
      + intros Hu. rewrite Hu in H. by apply (nstep_safe E _ _ _ HI HR) in H.
      + intros s' Hs. rewrite Hs in H. destruct H as (es&He&Hs').
        destruct (nstep_sim E _ _ _ _ HI HR Hs') as (st'&Hsim&HR').
        exists (es ++ L), st'. split_and!; [rewrite He; by apply rets_app|by eapply sim_inv|by eapply sim_ci|by eapply sim_di|done].
    - destruct (returned p (n_log s)) eqn:Hr; [|done].
      pose proof (r_base _ _ _ HR) as HR0. pose proof (r_log _ _ _ HR0) as Hlog. simpl in Hlog.
      assert (out st p) as Ho.
      { right. rewrite (rets_returned _ _ _ HL) in Hr. rewrite Hlog. by apply returned_in. }
      destruct (out_leaked E1 _ _ HI Ho) as (ty&d&Hd&_). pose proof (r_objs _ _ _ HR0) as Hob. simpl in Hob.
      pose proof Hd as Hd'. rewrite Hob in Hd'. rewrite Hd'. simpl.
      split; [by destruct (_ && _)|]. intros s'. destruct (_ && _) eqn:Hc; [|done]. intros [= <-].
      apply andb_true_iff in Hc as [Ht%Nat.eqb_eq Hm%Nat.eqb_eq].
      destruct (store_inv E1 st p _ v HI HC HD Ho Hd Ht Hm) as (H1&H2&H3). rewrite Hlog in *.
      exists (edit p v <$> L), (with_log (istore st p (IObj (ip_addr p) d true) v) (edit p v <$> L)). split_and!; try done.
      + intros t o r. simpl. rewrite (HL t o r). symmetry. apply edit_rets.
      + destruct HR as [[R1 R2 R3 R4 R5 R6 R7 R8] Hth Hfr]. constructor; [constructor|..]; simpl in *; try done.
        * by rewrite Hob.
        * intros t o H. apply (R8 t o), (edit_rets p v L), H.
  Qed.
  Lemma mn_init : MN ninit.
  Proof.
    exists [], iinit. split_and!; [done|apply iinv_init|apply ci_init| |apply R_init].
    intros p [(t&f&Hf&_)|(t&o&H)]; [|by apply elem_of_nil in H].
    unfold get_stack in Hf. simpl in Hf. by apply elem_of_nil in Hf.
  Qed.
  Lemma nmrun_ok ls : exists s, run (new_mstep E) ninit ls = Some s /\ MN s.
  Proof.
    induction ls as [|l ls IH] using rev_ind; [exists ninit; split; [done|apply mn_init]|].
    destruct IH as (s&Hr&HM). rewrite run_snoc, Hr. unfold exec. destruct (nmstep_ok s l HM) as [H1 H2].
    destruct (new_mstep E s l) as [s'| | |]; eauto. done.
  Qed.
  Theorem new_stores_safe ls : exists s, run (new_mstep E) ninit ls = Some s /\
    (forall t o p, EvRet t o (RPtr p) ∈ n_log s -> exists x, n_objs s !! ip_ser p = Some x /\
       io_addr x = ip_addr p /\ io_leaked x = true /\ ie_ty E (io_val x) = op_ty E o /\ ie_meta E (io_val x) = ip_meta p) /\
    (forall j1 j2 x1 x2, n_objs s !! j1 = Some x1 -> n_objs s !! j2 = Some x2 ->
       is_zst E (io_val x1) = false -> is_zst E (io_val x2) = false -> io_addr x1 = io_addr x2 -> j1 = j2).
  Proof.
    destruct (nmrun_ok ls) as (s&Hr&L&st&HL&HI&_&_&HR). pose proof (r_base _ _ _ HR) as HR0.
    pose proof (r_objs _ _ _ HR0) as Hob. simpl in Hob. exists s. split_and!; [done| |].
    - intros t o p Hin. apply HL in Hin. change L with (n_log (nlogged s L)) in Hin. rewrite <- (r_log _ _ _ HR0) in Hin.
      destruct (v_log _ _ HI _ Hin) as (d&Hd&Hm&Ht). rewrite Hob in Hd.
      eexists. split; [exact Hd|]. by split_and!.
    - rewrite <- Hob. exact (v_addr _ _ HI).
  Qed.
  Theorem new_stores_persist ls2 s1 s2 t o p :
    EvRet t o (RPtr p) ∈ n_log s1 -> run (new_mstep E) s1 ls2 = Some s2 -> EvRet t o (RPtr p) ∈ n_log s2.
  Proof.
    intros Hin. revert s2. induction ls2 as [|l ls2 IH] using rev_ind; intros s2 Hr2; [by injection Hr2 as <-|].
    rewrite run_snoc in Hr2. destruct (run (new_mstep E) s1 ls2) as [s|]; [|done]. specialize (IH _ eq_refl).
    unfold exec in Hr2. destruct (new_mstep E s l) as [s'| | |] eqn:Hs; try done; injection Hr2 as <-; try done.
    destruct l as [lb|[q v]]; simpl in Hs.
    - pose proof (nlog_step s (n_log s) lb) as H. rewrite Hs in H. destruct H as (es&->&_); [done|]. apply elem_of_app. by right.
    - destruct (returned q (n_log s)); [|done]. destruct (n_objs s !! ip_ser q); [|done]. destruct (_ && _); [|done]. by injection Hs as <-.
  Qed.
End any.

(** ** Stores that Eq, Hash and Borrow do not see *)
Section sim.
  Context {V Q : Type} (E : ienv V Q).
  Implicit Types (s : nstate V Q) (v d : V) (p : iptr) (o : iop V Q) (t ty : nat).
  Notation nlike := (nlike E).

  Lemma nl_mem s s' : nlike s s' -> ilike E (nmem s) (nmem s').
  Proof. intros []. constructor; try done. simpl. constructor. Qed.
  Lemma nl_with s s' m m' : nlike s s' -> ilike E m m' -> nlike (with_mem s m) (with_mem s' m').
  Proof. intros [] []. by constructor. Qed.
  Lemma nl_stack s s' t k : nlike s s' -> nlike (nset_stack s t k) (nset_stack s' t k).
  Proof. intros [H1 H2 H3 H4 H5 H6 H7 H8 H9]. constructor; try done. simpl. by rewrite H8. Qed.
  Lemma nl_event s s' e e' : nlike s s' -> ievent_like E e e' -> nlike (nevent s e) (nevent s' e').
  Proof. intros [H1 H2 H3 H4 H5 H6 H7 H8 H9] He. constructor; try done. by constructor. Qed.
  Lemma nl_put s s' x ps : nlike s s' -> nlike (nput s x ps) (nput s' x ps).
  Proof. intros [H1 H2 H3 H4 H5 H6 H7 H8 H9]. constructor; try done. simpl. by rewrite H5. Qed.
  Lemma nl_lock s s' x t : nlike s s' -> nlike (nlock s x t) (nlock s' x t).
  Proof. intros [H1 H2 H3 H4 H5 H6 H7 H8 H9]. constructor; try done. simpl. by rewrite H6. Qed.
  Lemma nl_unlock s s' x b : nlike s s' -> nlike (nunlock s x b) (nunlock s' x b).
  Proof. intros [H1 H2 H3 H4 H5 H6 H7 H8 H9]. constructor; try done; simpl; [by rewrite H6|by rewrite H7]. Qed.
  Lemma nl_reserve s s' c : nlike s s' -> nlike (nreserve s c) (nreserve s' c).
  Proof. intros [H1 H2 H3 H4 H5 H6 H7 H8 H9]. constructor; try done. simpl. unfold nresv. by rewrite H4. Qed.
  Lemma nl_publish s s' c ty : nlike s s' -> nlike (npublish s c ty) (npublish s' c ty).
  Proof. intros [H1 H2 H3 H4 H5 H6 H7 H8 H9]. constructor; try done. simpl. unfold nvec. by rewrite H3. Qed.
  Lemma nl_frames s s' t : nlike s s' -> nstack s t = nstack s' t.
  Proof. intros H. unfold nstack. by rewrite (nl_threads _ _ _ H). Qed.
  Lemma nl_nvec s s' c : nlike s s' -> nvec s c = nvec s' c.
  Proof. intros H. unfold nvec. by rewrite (nl_vecs _ _ _ H). Qed.
  Lemma nl_nset s s' x : nlike s s' -> nset s x = nset s' x.
  Proof. intros H. unfold nset. by rewrite (nl_sets _ _ _ H). Qed.
  Lemma nl_freed s s' p : nlike s s' -> option_Forall2 (ilike E) (ifree (nmem s) p) (ifree (nmem s') p).
  Proof.
    intros H%nl_mem. unfold ifree. pose proof (il_objs _ _ _ H (ip_ser p)) as Ho.
    destruct Ho as [x y (Ha&Hlk&Hu)|]; [|constructor]. rewrite Hlk. destruct (io_leaked y); constructor. by apply ilike_delete.
  Qed.
  Lemma nl_leaked s s' p : nlike s s' -> option_Forall2 (ilike E) (ileak (nmem s) p) (ileak (nmem s') p).
  Proof.
    intros H%nl_mem. unfold ileak. pose proof (il_objs _ _ _ H (ip_ser p)) as Ho.
    destruct Ho as [x y (Ha&Hlk&Hu)|]; [|constructor]. rewrite Hlk. destruct (io_leaked y); constructor.
    apply ilike_insert; [done|]. by split_and!.
  Qed.

  Lemma nthread_like s s' t a j : nlike s s' -> out_like nlike (nstep_thread E s t a j) (nstep_thread E s' t a j).
  Proof.
    intros H. pose proof (nl_mem _ _ H) as HM. unfold nstep_thread. rewrite (nl_frames _ _ t H).
    destruct (nstack s' t) as [|[o b again|o b|o b i|o b i|o b|i [o b|o b|ty w q|o v|o p|o b r|o r]] k]; [done|..]; try done.
    - rewrite (nl_nvec _ _ _ H). destruct (find_ty _ _); [destruct (_ || _); by apply nl_stack|].
      destruct again; [done|by apply nl_stack].
    - unfold nresv. rewrite (nl_resv _ _ _ H). apply nl_stack. by apply nl_reserve.
    - rewrite (nl_nvec _ _ _ H). destruct (_ =? i); [|done]. apply nl_stack. by apply nl_publish.
    - rewrite (nl_locks _ _ _ H), (nl_nset _ _ _ H). destruct (n_locks s' !! _); [done|].
      rewrite (nl_poison _ _ _ H). destruct (bool_decide _); [destruct (existsb _ _); [done|by apply nl_stack]|].
      destruct o; try (apply nl_stack; by apply nl_lock).
      apply nl_stack, nl_event; [|done]. apply nl_put. by apply nl_lock.
    - destruct b as [p|]; [|apply nl_event; [by apply nl_stack|done]].
      pose proof (nl_freed _ _ p H) as Hf. inversion Hf as [m m' Hm Hx Hy|]; [|done].
      apply nl_event; [|done]. apply nl_stack. by apply nl_with.
    - rewrite (nl_nset _ _ _ H), (ilike_readable _ _ _ _ HM). destruct (ireadable _ _); [|done].
      rewrite (ilike_cand E _ _ _ (key_match E o) _ HM (iu_key E o)).
      destruct (ipick j _) as [p|], o; try done; try (by apply nl_stack).
      destruct b as [p|]; [|done]. pose proof (nl_leaked _ _ p H) as Hf. inversion Hf as [m m' Hm Hx Hy|]; [|done].
      apply nl_stack. by apply nl_with.
    - pose proof (ilike_alloc E _ _ a v true HM) as Ha.
      inversion Ha as [[s1 p1] [s2 p2] [Hs Hp] Hx Hy|]; [|done]. simpl in Hs, Hp. subst. apply nl_stack. by apply nl_with.
    - rewrite (nl_nset _ _ _ H), (ilike_readable _ _ _ _ HM). pose proof (ilike_read E _ _ p HM) as Hr.
      inversion Hr as [v w Hu Hx Hy|]; [|done]. destruct (ireadable _ _); [|done].
      rewrite (ilike_cand E _ _ _ (ins_match E w) _ HM (λ x y, iu_ins E v w x y Hu)).
      destruct (candidates _ _ _); apply nl_stack; [|done].
      apply nl_event; [by apply nl_put|]. by split_and!.
    - destruct b as [p|]; [|by apply nl_stack].
      pose proof (nl_freed _ _ p H) as Hf. inversion Hf as [m m' Hm Hx Hy|]; [|done]. apply nl_stack. by apply nl_with.
    - apply nl_event; [|done]. apply nl_stack. by apply nl_unlock.
  Qed.
  Lemma nstep_like s s' l : nlike s s' -> out_like nlike (nstep E s l) (nstep E s' l).
  Proof.
    intros H. pose proof (nl_mem _ _ H) as HM. destruct l as [t o a|t a i|t v|t|p]; cbn [nstep]; try (rewrite (nl_frames _ _ t H)).
    - destruct (match nstack s' t with [] => true | _ => _ end); [|done].
      destruct o; try (by apply nl_stack); try done. pose proof (ilike_alloc E _ _ a v false HM) as Ha.
      inversion Ha as [[s1 p1] [s2 p2] [Hs Hp] Hx Hy|]; [|done]. simpl in Hs, Hp. subst. apply nl_stack. by apply nl_with.
    - by apply nthread_like.
    - destruct (nstack s' t) as [|[o b again|o b|o b i|o b i|o b|i [o b|o b|ty w q|o v'|o p|o b r|o r]] k]; try done.
      destruct (_ && _); [|done]. by apply nl_stack.
    - unfold nstep_panic. rewrite (nl_frames _ _ t H). destruct (nstack s' t) as [|f k]; [done|]. destruct (existsb _ _); [done|].
      destruct f as [o b again|o b|o b i|o b i|o b|i [o b|o b|ty w q|o v'|o p|o b r|o r]]; try done; by apply nl_stack.
    - rewrite (returned_like E _ _ _ (nl_log _ _ _ H)). destruct (returned p (n_log s')); [|done].
      pose proof (ilike_read E _ _ p HM) as Hr. inversion Hr as [v w Hu Hx Hy|]; [|done].
      apply nl_event; [done|]. by split.
  Qed.
  Lemma nlike_init : nlike ninit ninit.
  Proof. constructor; try done; constructor. Qed.
  Lemma nstore_like s s' p x v : nlike s s' -> n_objs s !! ip_ser p = Some x -> iunseen E (io_val x) v ->
    nlike (nstore s p x v) s'.
  Proof.
    intros [H1 H2 H3 H4 H5 H6 H7 H8 H9] Hx Hv. constructor; try done. intros j. simpl.
    destruct (decide (ip_ser p = j)) as [<-|]; [|by rewrite lookup_insert_ne].
    rewrite lookup_insert. specialize (H1 (ip_ser p)). rewrite Hx in H1. inversion H1 as [? y (Ha&Hl&Hu) Hy1 Hy2|].
    constructor. split_and!; simpl; [done|done|]. eapply iu_trans; [by apply iu_sym|done].
  Qed.
  Lemma nquiet_app ls1 ls2 : nquiet E (ls1 ++ ls2) -> nquiet E ls1.
  Proof. intros H l1 p v l2 s d ->. apply (H l1 p v (l2 ++ ls2)). by rewrite <- app_assoc. Qed.
  Lemma nquiet_like ls : nquiet E ls ->
    exists s s', run (new_mstep E) ninit ls = Some s /\ run (nstep E) ninit (plain ls) = Some s' /\ nlike s s'.
  Proof.
    induction ls as [|l ls IH] using rev_ind; intros Hq.
    { exists ninit, ninit. split_and!; [done|done|apply nlike_init]. }
    destruct (IH (nquiet_app _ _ Hq)) as (s&s'&Hr&Hr'&HL).
    destruct (nmrun_ok E (ls ++ [l])) as (s1&Hr1&_). exists s1. rewrite Hr1.
    rewrite plain_app, run_app, Hr'. rewrite run_snoc, Hr in Hr1. unfold exec in Hr1. destruct l as [l|[p v]].
    - cbn [plain run]. unfold exec. pose proof (nstep_like s s' l HL) as Hs. simpl in Hr1.
      destruct (nstep E s l) as [s2| | |], (nstep E s' l) as [s3| | |]; simpl in Hs; try done; injection Hr1 as <-; eauto.
    - exists s'. split_and!; [done|done|]. simpl in Hr1.
      destruct (returned p (n_log s)); [|by injection Hr1 as <-].
      destruct (n_objs s !! ip_ser p) as [x|] eqn:Hx; [|done].
      destruct (_ && _); injection Hr1 as <-; [|done]. eapply nstore_like; try done.
      eapply (Hq ls p v [] s); try done. unfold iread. simpl. by rewrite Hx.
  Qed.
End sim.

(** C76 for Arena: exactly which answers of Eq, Hash and Borrow keep arenas memory safe. *)
From stdpp Require Import gmap list numbers.
From Verif Require Import Base InternModel InternSpec InternInv InternStep ArenaModel ArenaSpec ArenaInv ArenaStep ArenaLaw ArenaFinal ArenaMore
  ArenaLive TermSpec Term TermArena WhimSpec.
Require Import ZifyBool ZifyNat ZifyN.

Section solo.
  Context {V Q : Type} (E : ienv V Q).
  Implicit Types (st : astate V Q) (v d : V) (p : iptr) (o : aop V Q) (f g : aframe V Q) (t ty s r : nat).
  Notation AInv := (AInv E).
  (** A call whose search finds nothing gets to the insertion (as in [solo_call]). *)
  Lemma solo_miss st t r o v x : AInv st -> a_ready st t = true -> a_arenas st !! r = Some x -> a_locks st !! r = None ->
    a_supplies E o v -> ie_ty E v = ar_ty x -> a_cands st (a_match E o) (ar_set x) = [] ->
    exists ls (s3 : astate V Q) b' p, run (astep E) st ls = Some s3 /\ a_stack s3 t = AIns r o b' p :: a_stack st t /\
      a_arenas s3 = a_arenas st /\ a_read s3 p = Some v /\ (forall p, p ∈ ar_set x -> a_read s3 p = a_read st p).
  Proof.
    intros HI Hrd Hx Hl Hsup Hty Hc. set (k := a_stack st t).
    (* the call *)
    assert (exists a b st1, astep E st (LCall t r o a) = Next (a_set_stack st1 t (AWait r o b :: k)) /\
      a_arenas st1 = a_arenas st /\ a_locks st1 = a_locks st) as (a&b&st1&Hs1&Ha1&Hl1).
    { simpl. rewrite Hx, Hrd. destruct o as [u|w q|u|u]; simpl in Hsup; subst.
      - exists 0, None, st. by rewrite Hty, Nat.eqb_refl.
      - by exists 0, None, st.
      - destruct (alloc_some E st u) as (a&st1&p&Ha). exists a, (Some p), st1. rewrite Hty, Nat.eqb_refl, Ha. split; [done|].
        destruct (a_alloc_spec E _ _ _ _ _ HI Ha) as (->&_). done.
      - destruct (alloc_some E st u) as (a&st1&p&Ha). exists a, (Some p), st1. rewrite Hty, Nat.eqb_refl, Ha. split; [done|].
        destruct (a_alloc_spec E _ _ _ _ _ HI Ha) as (->&_). done. }
    pose proof (astep_inv _ _ _ _ HI Hs1) as HI1. set (s1 := a_set_stack st1 t (AWait r o b :: k)) in *.
    (* the mutex *)
    set (s2 := a_set_stack (a_lock s1 r t) t (AGet r o b :: k)).
    assert (astep E s1 (LStep t 0 0) = Next s2) as Hs2.
    { simpl. unfold a_step_thread. unfold s1 at 1. rewrite set_stack_get, decide_True by done. simpl. by rewrite Hl1, Hl. }
    pose proof (astep_inv _ _ _ _ HI1 Hs2) as HI2.
    assert (a_arenas s2 = a_arenas st) as Ha2 by done. assert (a_arenas s2 !! r = Some x) as Hx2 by by rewrite Ha2.
    assert (a_stack s2 t = AGet r o b :: k) as Hst2. { unfold s2. rewrite set_stack_get. by rewrite decide_True. }
    assert (a_locks s2 = <[r:=t]> (a_locks st)) as Hl2. { simpl. by rewrite Hl1. }
    (* reads of the entries do not change *)
    assert (forall ls (s' : astate V Q), run (astep E) s2 ls = Some s' -> is_Some (a_arenas s' !! r) ->
      forall p, p ∈ ar_set x -> a_read s' p = a_read st p) as Hread.
    { intros ls s' Hr [x' Hx'] p Hp. destruct (set_pts _ _ _ _ _ HI Hx Hp) as (d&(Hd&_)&_).
      assert (run (astep E) st (LCall t r o a :: LStep t 0 0 :: ls) = Some s') as Hrr by by rewrite (run_cons E _ _ _ _ Hs1), (run_cons E _ _ _ _ Hs2).
      unfold a_read. rewrite Hd. destruct (stays_run E _ _ _ r x p _ HI Hrr Hx Hp Hd x' Hx') as [_ ->]. done. }
    assert (forall h, a_cands s2 h (ar_set x) = a_cands st h (ar_set x)) as Hc2.
    { intros h. apply cands_same. apply (Hread [] s2); [done|by eexists]. }
    assert (a_readable s2 (a_set s2 r) = true) as Hrb. { unfold a_set. rewrite Hx2. by eapply set_readable. }
    assert (a_set s2 r = ar_set x) as Hset. { unfold a_set. by rewrite Hx2. }
      assert (exists ls (s3 : astate V Q) b' p, run (astep E) s2 ls = Some s3 /\ quiets t ls /\ a_stack s3 t = AIns r o b' p :: k /\
        a_arenas s3 = a_arenas st /\ a_locks s3 = <[r:=t]> (a_locks st) /\ a_read s3 p = Some v) as (ls&s3&b'&p&Hr3&Hq&Hst3&Ha3&Hl3&Hv3).
      { assert (forall (s : astate V Q) b0, AInv s -> a_stack s t = AStore r o v b0 :: k -> a_arenas s = a_arenas st -> a_locks s = <[r:=t]> (a_locks st) ->
          b0 = None -> exists ls (s3 : astate V Q) b' p, run (astep E) s ls = Some s3 /\ quiets t ls /\ a_stack s3 t = AIns r o b' p :: k /\
          a_arenas s3 = a_arenas st /\ a_locks s3 = <[r:=t]> (a_locks st) /\ a_read s3 p = Some v) as Hstore.
        { intros s b0 HIs Hsts Has Hls ->. destruct (alloc_some E s v) as (a'&s'&p&Hal).
          destruct (a_alloc_spec E _ _ _ _ _ HIs Hal) as (Hs'&Hp&_).
          exists [LStep t a' 0], (a_set_stack s' t (AIns r o None p :: k)), None, p. split_and!.
          - simpl. unfold exec. simpl. unfold a_step_thread. by rewrite Hsts, Hal.
          - apply quiets_step.
          - rewrite set_stack_get. by rewrite decide_True.
          - by rewrite Hs'.
          - by rewrite Hs'.
          - rewrite Hs', Hp. unfold a_read. simpl. by rewrite lookup_insert. }
        assert (forall s' : astate V Q, (astep E s2 (LStep t 0 0) = Next s' -> (exists ls (s3 : astate V Q) b' p, run (astep E) s' ls = Some s3 /\ quiets t ls /\ a_stack s3 t = AIns r o b' p :: k /\
          a_arenas s3 = a_arenas st /\ a_locks s3 = <[r:=t]> (a_locks st) /\ a_read s3 p = Some v) ->
          exists ls (s3 : astate V Q) b' p, run (astep E) s2 ls = Some s3 /\ quiets t ls /\ a_stack s3 t = AIns r o b' p :: k /\
          a_arenas s3 = a_arenas st /\ a_locks s3 = <[r:=t]> (a_locks st) /\ a_read s3 p = Some v)) as Hpre.
        { intros s' Hs' (ls&s3&b'&p&?&?&?). exists (LStep t 0 0 :: ls), s3, b', p. split_and!; try apply H1.
          - by rewrite (run_cons E _ _ _ _ Hs').
          - by apply quiets_cons. }
        assert (a_cands s2 (a_match E o) (a_set s2 r) = []) as Hcs by by rewrite Hset, Hc2.
        assert (ipick 0 (a_cands s2 (a_match E o) (a_set s2 r)) = None) as Hpk by by rewrite Hcs.
        destruct o as [u|w q|u|u]; simpl in Hsup; subst.
        - eapply Hpre; [simpl; unfold a_step_thread; by rewrite Hst2, Hrb, Hpk|].
          eapply (Hstore _ None); try done; [|rewrite set_stack_get; by rewrite decide_True].
          eapply astep_inv; [exact HI2|]. simpl; unfold a_step_thread. instantiate (1 := LStep t 0 0). simpl. unfold a_step_thread. by rewrite Hst2, Hrb, Hpk.
        - eapply Hpre; [simpl; unfold a_step_thread; by rewrite Hst2, Hrb, Hpk|].
          set (s' := a_set_stack s2 t (AConv r w q :: k)).
          assert (AInv s') as HI'.
          { eapply (astep_inv _ s2 (LStep t 0 0)); [exact HI2|]. simpl. unfold a_step_thread. by rewrite Hst2, Hrb, Hpk. }
          set (s'' := a_set_stack s' t (AStore r (ARef w q) v None :: k)).
          assert (astep E s' (LConv t v) = Next s'') as Hcv.
          { simpl. unfold s' at 1. rewrite set_stack_get, decide_True by done. rewrite Hsup.
            rewrite Ha1, Hx. simpl. rewrite Hty. by rewrite bool_decide_true. }
          destruct (Hstore s'' None) as (ls&s3&b'&p&?&?&?); try done.
          { by eapply astep_inv. } { unfold s''. rewrite set_stack_get. by rewrite decide_True. }
          exists (LConv t v :: ls), s3, b', p. split_and!; try apply H1.
          + by rewrite (run_cons E _ _ _ _ Hcv).
          + by apply quiets_cons.
        - set (s' := a_set_stack s2 t (AStore r (AOwned u) u b :: k)).
          assert (astep E s2 (LStep t 0 0) = Next s') as Hs'. { simpl. unfold a_step_thread. by rewrite Hst2, Hrb, Hpk. }
          pose proof (astep_inv _ _ _ _ HI2 Hs') as HI'.
          assert (a_stack s' t = AStore r (AOwned u) u b :: k) as Hst'. { unfold s'. rewrite set_stack_get. by rewrite decide_True. }
          eapply Hpre; [exact Hs'|]. destruct b as [q|]; [|by eapply (Hstore s' None)].
          destruct (free_some s' None q) as [s4 Hf].
          { eapply (owned_live E s' t); [done|done|]. simpl. by rewrite Nat.eqb_refl. }
          set (s'' := a_set_stack s4 t (AStore r (AOwned u) u None :: k)).
          assert (astep E s' (LStep t 0 0) = Next s'') as Hs''. { simpl. unfold a_step_thread. by rewrite Hst', Hf. }
          assert (a_arenas s4 = a_arenas s' /\ a_locks s4 = a_locks s') as [Ha4 Hl4].
          { unfold a_free in Hf. destruct (a_objs s' !! ip_ser q); [|done]. by injection Hf as <-. }
          destruct (Hstore s'' None) as (ls&s3&b'&p&?&?&?); try done.
          { by eapply astep_inv. } { unfold s''. rewrite set_stack_get. by rewrite decide_True. }
          { unfold s''. simpl. by rewrite Ha4. } { unfold s''. simpl. by rewrite Hl4. }
          exists (LStep t 0 0 :: ls), s3, b', p. split_and!; try apply H1.
          + by rewrite (run_cons E _ _ _ _ Hs'').
          + by apply quiets_cons.
        - assert (aframe_ok E s2 (AGet r (ABox u) b)) as Hok. { apply (x_frames _ _ HI2 t). rewrite Hst2. by left. }
          destruct Hok as (ty&_&_&p&->&(Hp&_)).
          exists [LStep t 0 0], (a_set_stack s2 t (AIns r (ABox u) (Some p) p :: k)), (Some p), p. split_and!; try done.
          + simpl. unfold exec. simpl. unfold a_step_thread. by rewrite Hst2, Hrb, Hpk.
          + apply quiets_step.
          + rewrite set_stack_get. by rewrite decide_True.
          + unfold a_read. change (a_objs (a_set_stack s2 t (AIns r (ABox u) (Some p) p :: k))) with (a_objs s2). by rewrite Hp. }
    exists (LCall t r o a :: LStep t 0 0 :: ls), s3, b', p. split_and!; try done.
    - by rewrite (run_cons E _ _ _ _ Hs1), (run_cons E _ _ _ _ Hs2).
    - apply (Hread ls s3 Hr3). rewrite Ha3. by eexists.
  Qed.
End solo.

Section whim.
  Context {V Q : Type} (E : ienv V Q) (C : code V Q -> Prop).
  Implicit Types (st : astate V Q) (v d : V) (p : iptr) (o : aop V Q) (f g : aframe V Q) (t ty s r : nat) (c : code V Q).
  Notation AInv := (AInv E).
  Notation W c := (with_code E c).
  Notation wstep := (whim astep E).

  Lemma AInv_to c st : AInv st -> ArenaInv.AInv (W c) st.
  Proof. intros []. by constructor. Qed.
  Lemma AInv_from c st : ArenaInv.AInv (W c) st -> AInv st.
  Proof. intros []. by constructor. Qed.
  Lemma wa_inv st cl st' : AInv st -> wstep st cl = Next st' -> AInv st'.
  Proof. intros HI Hs. eapply AInv_from, astep_inv; [|exact Hs]. by apply AInv_to. Qed.
  Lemma wa_reach ls st st' : AInv st -> run wstep st ls = Some st' -> AInv st'.
  Proof.
    revert st. induction ls as [|l ls IH]; intros st HI; simpl; [by intros [= ->]|].
    unfold exec. destruct (wstep st l) as [st1| | |] eqn:Hs; try done; [|by apply IH..].
    apply IH. by eapply wa_inv.
  Qed.

  (** Whatever an insertion finds, every search finds. *)
  Definition agree : Prop := forall c c' o v d, C c -> C c' -> a_supplies E o v -> ie_ty E v = ie_ty E d ->
    ins_match (W c') v d = true -> a_match (W c) o d = true.

  Definition wmisses st r o : Prop := exists c, C c /\ forall p d, (p, d) ∈ a_stored r (a_log st) -> a_match (W c) o d = false.
  Definition wframe st f : Prop :=
    match f with
    | AConv r w q => wmisses st r (ARef w q)
    | AStore r o _ _ | AIns r o _ _ => wmisses st r o
    | AKill _ _ _ _ pn => pn = true
    | AMake r _ _ p => p ∈ a_set st r
    | _ => True
    end.
  Definition WInv st : Prop := forall t f, f ∈ a_stack st t -> wframe st f.

  Lemma wframe_stays st st' t fs fs' k es g :
    AInv st -> atrans st st' t fs fs' k es -> aother st t k g -> wframe st g -> wframe st' g.
  Proof.
    intros HI Htr Hg. pose proof (aother_same E st st' t fs fs' k es g) as Hsame.
    destruct g as [r o b|r o b|r w q|r o v b|r o b p|r o b p pn|r o b p|r o b m x|r o b m x|r ps]; simpl in *; try done;
      (destruct (Hsame r HI Htr Hg) as [Ha Hs]; [by rewrite Nat.eqb_refl|]);
      unfold wmisses, a_set; rewrite ?Hs, ?Ha; done.
  Qed.

  Section step.
  Context (HA : agree).
  Lemma wmove_inv c st t k fs fs' st' : C c ->
    AInv st -> WInv st -> a_stack st t = fs ++ k -> amove (W c) st t k fs fs' st' -> WInv st'.
  Proof.
    intros Hc HI HS Hst Hm. destruct (amove_ok _ _ _ _ _ _ _ (AInv_to c _ HI) Hst Hm) as (es&Htr&_).
    assert (forall f, f ∈ fs -> aframe_ok E st f) as Hfr.
    { intros f Hf. apply (x_frames _ _ HI t). rewrite Hst. apply elem_of_app. by left. }
    assert (forall f, f ∈ fs -> wframe st f) as Hsf.
    { intros f Hf. apply (HS t). rewrite Hst. apply elem_of_app. by left. }
    assert (forall r o, (exists x, a_arenas st !! r = Some x) -> a_cands st (a_match (W c) o) (a_set st r) = [] -> wmisses st r o) as Hmiss.
    { intros r o Hx Hn. exists c. split; [done|]. intros p d Hpd. by eapply (cands_nil_miss E st r _ p d HI). }
    intros u f Hf. destruct (aother_in st st' t fs' k (y_new _ _ _ _ _ _ _ Htr) u f Hf) as [[-> Hin]|Ho].
    2: { destruct (aother_was st t fs k Hst f Ho) as [u' Hu]. eapply (wframe_stays st); try done. by apply (HS u'). }
    clear Hf. destruct Hm; try (apply elem_of_list_singleton in Hin; subst f); try (by apply elem_of_nil in Hin); simpl; try done.
    - destruct (Hfr (AGet r o b)) as (ty&(x&Hx&_)&_); [by left|]. apply Hmiss; [by exists x|done].
    - destruct (Hfr (AGet r (ARef w q) b)) as (ty&(x&Hx&_)&_); [by left|]. apply Hmiss; [by exists x|done].
    - destruct (Hfr (AGet r (ABox v) (Some p))) as (ty&(x&Hx&_)&_); [by left|]. apply Hmiss; [by exists x|done].
    - apply (Hsf (AConv r w q)). by left.
    - assert (wmisses st r o) as Hmi by (apply (Hsf (AStore r o v (Some q))); by left).
      unfold wmisses. simpl. rewrite (free_log _ _ _ _ H). exact Hmi.
    - assert (wmisses st r o) as Hmi by (apply (Hsf (AStore r o v None)); by left).
      unfold wmisses. simpl. destruct (alloc_log _ _ _ _ _ _ H) as [-> _]. exact Hmi.
    - unfold a_set. simpl. rewrite lookup_insert. by left.
    - exfalso. assert (wmisses st r o) as (c0&Hc0&Hmi) by (apply (Hsf (AIns r o b p)); by left).
      destruct (Hfr (AIns r o b p)) as (ty&v'&(x'&Hx'&Hty)&_&(Hp&_&Hvt)&Hsup&_); [by left|].
      assert (x' = x) as -> by congruence.
      assert (v' = v) as -> by (unfold a_read in H; rewrite Hp in H; simpl in H; congruence).
      destruct (cands_stored E _ _ _ _ _ HI H0 H1) as (d&Hd&Hmt&Hdt). apply Hmi in Hd.
      rewrite (HA c0 c o v d Hc0 Hc Hsup) in Hd; [done| |done]. congruence.
    - specialize (Hsf (AKill r o b p false)). rewrite elem_of_list_singleton in Hsf. by specialize (Hsf eq_refl).
  Qed.
  Lemma wastep_inv st cl st' : C cl.1 -> AInv st -> WInv st -> wstep st cl = Next st' -> WInv st'.
  Proof. intros Hc HI HS H. apply astep_move in H as (t&fs&fs'&k&Hst&Hm&_). by eapply wmove_inv. Qed.
  Lemma wa_safe ls : (forall cl, cl ∈ ls -> C cl.1) -> exists st, run wstep ainit ls = Some st.
  Proof.
    assert (forall ls st, AInv st -> WInv st -> (forall cl, cl ∈ ls -> C cl.1) -> exists st', run wstep st ls = Some st') as H.
    { clear ls. induction ls as [|l ls IH]; intros st HI HS Hl; simpl; [by exists st|].
      assert (forall cl, cl ∈ ls -> C cl.1) as Hl' by (intros cl Hin; apply Hl; by right).
      unfold exec. destruct (wstep st l) as [st1| | |] eqn:Hs.
      - apply IH; [by eapply wa_inv|eapply wastep_inv; try done; apply Hl; by left|done].
      - by apply IH.
      - by apply IH.
      - exfalso. destruct (astep_ub _ _ _ (AInv_to l.1 _ HI) Hs) as (t&a&i&r&o&b&p&k&_&Hst&Hn).
        assert (wframe st (AMake r o b p)) as Hp by (apply (HS t); rewrite Hst; by left). simpl in Hp.
        unfold a_set in Hp. destruct (a_arenas st !! r) as [x|] eqn:Hx; [|by apply elem_of_nil in Hp].
        destruct (set_pts _ _ _ _ _ HI Hx Hp) as (v&(Hp'&_)&_). congruence. }
    intros Hl. apply (H ls ainit); [apply ainv_init| |done].
    intros t f Hf. unfold a_stack in Hf. simpl in Hf. rewrite lookup_empty in Hf. by apply elem_of_nil in Hf.
  Qed.
  End step.

  Lemma whim_run c ls st : run wstep st (pair c <$> ls) = run (astep (W c)) st ls.
  Proof.
    revert st. induction ls as [|l ls IH]; intros st; [done|]. simpl. unfold exec, whim. simpl.
    destruct (astep (W c) st l); try done; apply IH.
  Qed.
  Lemma wa_unsafe c c' o v d : a_supplies E o v -> ie_ty E v = ie_ty E d -> ins_match (W c') v d = true -> a_match (W c) o d = false ->
    exists ls, run wstep ainit ls = None /\ forall cl, cl ∈ ls -> cl.1 = c \/ cl.1 = c'.
  Proof.
    intros Hs Ht Hi Hm. set (st := AState ∅ (<[0 := Ar (ie_ty E d) []]> ∅) ∅ ∅ ∅ 0 1 [AvNew 0 (ie_ty E d)] : astate V Q).
    assert (astep (W c) ainit (LArena 0 (ie_ty E d)) = Next st) as H0 by done.
    pose proof (astep_inv _ _ _ _ (ainv_init (W c)) H0) as HI.
    destruct (solo_call (W c) st 0 0 (ANew d) d (Ar (ie_ty E d) [])) as (a&ls&_&Hc); try done.
    destruct Hc as (st'&b&p&l&Hr&Hst&Hl&Hlog&Ha&Hrd).
    assert (ArenaInv.AInv (W c) st') as HI' by by eapply arun_inv.
    assert (a_arenas st' !! 0 = Some (Ar (ie_ty E d) [p])) as Hx by by (rewrite Ha; simpl; rewrite insert_insert, lookup_insert).
    destruct (solo_miss (W c) st' 0 0 o v (Ar (ie_ty E d) [p])) as (ls2&s3&b'&p2&Hr2&Hst2&Ha2&Hrd2&Hsame); try done.
    { unfold a_ready. by rewrite Hst. }
    { simpl. by rewrite Hrd, Hm. }
    assert (ArenaInv.AInv (W c') s3) as HI3. { apply AInv_to, (AInv_from c). by eapply arun_inv. }
    rewrite <- Ha2 in Hx. pose proof (solo_ins (W c') s3 0 0 o b' p2 v _ _ HI3 Hst2 Hx Hrd2) as Hins.
    simpl in Hins. rewrite (Hsame p) in Hins by by left. rewrite Hrd, Hi in Hins. destruct Hins as (ls3&Hr3&_).
    exists ((pair c <$> (LArena 0 (ie_ty E d) :: (LCall 0 0 (ANew d) a :: ls) ++ ls2)) ++ (pair c' <$> ls3)). split.
    - rewrite run_app, whim_run, (run_cons (W c) _ _ _ _ H0), run_app, Hr, Hr2. by rewrite whim_run.
    - intros cl [(?&->&_)%elem_of_list_fmap|(?&->&_)%elem_of_list_fmap]%elem_of_app; by auto.
  Qed.
  Theorem wa_safe_iff :
    (forall ls, (forall cl, cl ∈ ls -> C cl.1) -> run wstep ainit ls <> None) <-> agree.
  Proof.
    split.
    - intros H c c' o v d Hc Hc' Hs Ht Hi. destruct (a_match (W c) o d) eqn:Hm; [done|exfalso].
      destruct (wa_unsafe c c' o v d Hs Ht Hi Hm) as (ls&Hr&Hls). apply (H ls); [|done].
      intros cl [->| ->]%Hls; done.
    - intros HA ls Hls. by destruct (wa_safe HA ls Hls) as [st ->].
  Qed.
  (** Handles. *)
  Lemma wgone_run ls st st' r : AInv st -> run wstep st ls = Some st' -> r < a_nextr st -> a_arenas st !! r = None -> a_arenas st' !! r = None.
  Proof.
    revert st. induction ls as [|cl ls IH]; intros st HI; simpl; [by intros [= <-]|].
    unfold exec. destruct (wstep st cl) as [st1| | |] eqn:Hs; try done; [|by apply IH..].
    intros Hr Hlt Hn. apply (IH st1); [by eapply wa_inv|done| |].
    - pose proof (nextr_step (W cl.1) _ _ _ (AInv_to cl.1 _ HI) Hs). lia.
    - by eapply (gone_stays (W cl.1)); [apply AInv_to|..].
  Qed.
  Lemma wstays_run ls st st' r x p y : AInv st -> run wstep st ls = Some st' ->
    a_arenas st !! r = Some x -> p ∈ ar_set x -> a_objs st !! ip_ser p = Some y ->
    forall x', a_arenas st' !! r = Some x' -> p ∈ ar_set x' /\ a_objs st' !! ip_ser p = Some y.
  Proof.
    revert st x. induction ls as [|cl ls IH]; intros st x HI; simpl.
    { intros [= <-] Hx Hp Hy x' Hx'. rewrite Hx in Hx'. by injection Hx' as <-. }
    unfold exec. destruct (wstep st cl) as [st1| | |] eqn:Hs; try done; [|by apply IH..].
    intros Hr Hx Hp Hy x' Hx'. destruct (a_arenas st1 !! r) as [x1|] eqn:Hx1.
    - destruct (stays_step (W cl.1) _ _ _ _ _ _ _ (AInv_to cl.1 _ HI) Hs Hx Hp Hy x1 Hx1). apply (IH st1 x1); try done. by eapply wa_inv.
    - rewrite (wgone_run ls st1 st' r) in Hx'; [done|by eapply wa_inv|done| |done].
      pose proof (nextr_step (W cl.1) _ _ _ (AInv_to cl.1 _ HI) Hs). pose proof (there_lt E _ _ _ HI Hx). lia.
  Qed.
  Lemma wa_handle ls1 ls2 st1 st2 t r o b p :
    run wstep ainit ls1 = Some st1 -> AvRet t r o b (AP p) ∈ a_log st1 ->
    run wstep st1 ls2 = Some st2 -> is_Some (a_arenas st2 !! r) ->
    exists v, a_objs st1 !! ip_ser p = Some (AObj (ip_addr p) v) /\ a_objs st2 !! ip_ser p = Some (AObj (ip_addr p) v).
  Proof.
    intros Hr1 Hin Hr2 [x2 Hx2]. pose proof (wa_reach _ _ _ (ainv_init E) Hr1) as HI.
    pose proof (x_log _ _ HI _ Hin) as (Hlt&_&_).
    destruct (a_arenas st1 !! r) as [x|] eqn:Hx; [|by rewrite (wgone_run ls2 st1 st2 r HI) in Hx2].
    destruct (ret_in E _ _ _ _ _ _ _ HI Hin Hx) as (v&Hp&(Hy&_)&_). exists v. split; [done|].
    by eapply (wstays_run ls2 st1 st2 r x p).
  Qed.
  Lemma wa_freed ls st p : run wstep ainit ls = Some st -> freed p (a_log st) <= 1.
  Proof. intros Hr. apply (freed_le E). by eapply wa_reach, Hr; apply ainv_init. Qed.
  (** The bound on steps holds whatever the answers are. *)
  Lemma wa_bounded ls0 st ls : run wstep ainit ls0 = Some st -> (forall cl, cl ∈ ls -> exists t, whim_own a_own t cl) ->
    taken wstep st ls <= weigh a_most (a_threads st).
  Proof.
    intros Hr Ho. rewrite weigh_msum.
    assert (forall st t cl st', AInv st -> whim_own a_own t cl -> wstep st cl = Next st' -> AInv st') as H1.
    { intros st1 t cl st1' HI _ Hs. by eapply wa_inv. }
    assert (forall st t cl st', AInv st -> whim_own a_own t cl -> wstep st cl = Next st' -> amu st' < amu st) as H2.
    { intros st1 t cl st1' HI Hw Hs. by eapply (aown_mu (W cl.1)); [apply AInv_to|..]. }
    pose proof (taken_le wstep (whim_own a_own) AInv amu H1 H2 ls st (wa_reach ls0 _ st (ainv_init E) Hr) Ho) as Hle.
    pose proof (msum_lsum_mono aleft a_most (a_threads st) aleft_le). unfold amu in Hle. lia.
  Qed.
End whim.

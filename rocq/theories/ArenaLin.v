(** The model of [Arena] does what the atomic arenas of ArenaAtom.v do. *)
From stdpp Require Import gmap list numbers.
From Verif Require Import Base InternModel InternSpec InternInv InternStep ArenaModel ArenaSpec ArenaInv ArenaStep
  ArenaLaw ArenaLawful ArenaAtom.
Require Import ZifyBool ZifyNat ZifyN.

Section lin.
  Context {V Q : Type} (E : ienv V Q).
  Context (HL : ilawful E) (HC : icoherent E) (HZ : zst_eq E).
  Implicit Types (st : astate V Q) (a : vstate V Q) (v d : V) (p : iptr) (o : aop V Q) (f g : aframe V Q) (t ty s r : nat)
    (lg : list (aevent V Q)) (c : vact V Q).
  Notation AInv := (AInv E).
  Notation LawInv := (LawInv E).

  (** A frame and the activity it stands for. *)
  Definition absr lg f c : Prop :=
    match f with
    | AWait r o _ | AGet r o _ | AStore r o _ _ | AIns r o _ _ | AKill r o _ _ _ => c = CCall r o None
    | AConv r w q => c = CCall r (ARef w q) None
    | AMake r o _ p => c = CCall r o (Some p)
    | ARel r o _ m x | AArg r o _ m x => c = CCall r o (match x with AP p => if m then None else Some p | APanic => None end)
    | ADead r ps => exists l1 l2, a_stored r lg = l1 ++ l2 /\ l2.*1 = ps /\ c = CDrop r l2
    end.
  Record Sim st a : Prop := {
    m_sets : forall r, v_sets a !! r = (λ y, (ar_ty y, a_stored r (a_log st))) <$> a_arenas st !! r;
    m_next : v_next a = a_nextr st;
    m_acts : forall t, Forall2 (absr (a_log st)) (a_stack st t) (acts a t);
  }.

  Lemma sim_init : Sim ainit vinit.
  Proof.
    constructor; simpl; [intros r; by rewrite !lookup_empty|done|]. intros t. unfold a_stack, acts. simpl.
    rewrite !lookup_empty. constructor.
  Qed.
  Lemma acts_put a t k u : acts (put_acts a t k) u = if decide (t = u) then k else acts a u.
  Proof. unfold acts. simpl. destruct (decide (t = u)) as [->|]; [by rewrite lookup_insert|by rewrite lookup_insert_ne]. Qed.
  Lemma sim_vals st a r : Sim st a -> is_Some (a_arenas st !! r) -> vals a r = a_stored r (a_log st).
  Proof. intros HS [y Hy]. unfold vals. by rewrite (m_sets _ _ HS), Hy. Qed.
  Lemma vals_stored st a r y : Sim st a -> y ∈ vals a r -> is_Some (a_arenas st !! r) /\ y ∈ a_stored r (a_log st).
  Proof.
    intros HS. unfold vals. rewrite (m_sets _ _ HS). destruct (a_arenas st !! r); simpl; [|by intros ?%elem_of_nil]. by eauto.
  Qed.

  Lemma absr_stays st st' t fs fs' k es g c :
    AInv st -> atrans st st' t fs fs' k es -> aother st t k g -> absr (a_log st) g c -> absr (a_log st') g c.
  Proof.
    intros HI Htr Hg. destruct g as [r o b|r o b|r w q|r o v b|r o b p|r o b p pn|r o b p|r o b m y|r o b m y|r ps]; simpl; try done.
    intros (l1&l2&Hl&?&?). exists l1, l2. split; [|done]. rewrite (y_log _ _ _ _ _ _ _ Htr), stored_app.
    destruct (y_ins _ _ _ _ _ _ _ Htr r) as [->|Hk]; [done|]. exfalso.
    apply lsum_pos in Hk as (f&Hf&Hk').
    assert (aframe_ok E st f) as Hok. { apply (x_frames _ _ HI t). rewrite (y_old _ _ _ _ _ _ _ Htr). apply elem_of_app. by left. }
    assert (there st r = 1) as Ht.
    { assert (exists z, a_arenas st !! r = Some z) as [z Hz]; [|unfold there; by rewrite Hz].
      destruct f; simpl in *; try (exfalso; lia);
        (destruct (Nat.eqb_spec r0 r) as [->|]; [|lia]);
        first [destruct Hok as (?&(z&?&?)&?); by exists z|destruct Hok as (?&?&(z&?&?)&?); by exists z|destruct Hok as (?&(z&?&?)); by exists z]. }
    pose proof (x_ends _ _ HI r) as He. pose proof (aother_sum st t fs k (dead r) _ (y_old _ _ _ _ _ _ _ Htr) Hg) as Hd.
    simpl in Hd. rewrite Nat.eqb_refl in Hd. unfold lt1 in He. destruct (r <? a_nextr st); lia.
  Qed.

  Lemma sim_upd st a st' a' t fs fs' k es cs' ck :
    AInv st -> Sim st a -> atrans st st' t fs fs' k es ->
    Forall2 (absr (a_log st)) k ck -> Forall2 (absr (a_log st')) fs' cs' ->
    (forall u, acts a' u = if decide (t = u) then cs' ++ ck else acts a u) ->
    (forall r, v_sets a' !! r = (λ y, (ar_ty y, a_stored r (a_log st'))) <$> a_arenas st' !! r) ->
    v_next a' = a_nextr st' -> Sim st' a'.
  Proof.
    intros HI HS Htr Hk Hfs Ha Hs Hn. constructor; [done|done|]. intros u.
    rewrite Ha, (y_new _ _ _ _ _ _ _ Htr). destruct (decide (t = u)) as [<-|Hne].
    - apply Forall2_app; [done|]. apply Forall2_same_length_lookup_2; [by eapply Forall2_length|].
      intros i g c Hg Hc. pose proof (Forall2_lookup_lr _ _ _ _ _ _ Hk Hg Hc). eapply absr_stays; try done.
      left. by eapply elem_of_list_lookup_2.
    - pose proof (m_acts _ _ HS u) as Hu. apply Forall2_same_length_lookup_2; [by eapply Forall2_length|].
      intros i g c Hg Hc. pose proof (Forall2_lookup_lr _ _ _ _ _ _ Hu Hg Hc). eapply absr_stays; try done.
      right. exists u. split; [done|]. by eapply elem_of_list_lookup_2.
  Qed.

  Definition does a (ys : list (vaction V Q)) st' : Prop :=
    exists zs a', vatoms E a zs a' /\ vshown zs = ys /\ Sim st' a'.
  Definition asight t (fs fs' : list (aframe V Q)) : list (vaction V Q) :=
    match fs, fs' with [], [AWait r o _] => [VCall t r o] | _, _ => [] end.
  Definition news t (es : list (aevent V Q)) : list (vaction V Q) := List.flat_map (vevent t) (rev es).

  (** A pointer about to be stored is new. *)
  Lemma fresh_a st a t r o b p v : AInv st -> Sim st a -> AIns r o b p ∈ a_stack st t -> a_read st p = Some v ->
    forall r' q d, (q, d) ∈ vals a r' -> q <> p /\
      (ie_ty E d = ie_ty E v -> iptr_eqb q p = true -> ie_eq E d v = true).
  Proof.
    intros HI HS Hin Hr r' q d Hq. destruct (vals_stored _ _ _ _ HS Hq) as [[z Hz] Hq'].
    destruct (x_frames _ _ HI _ _ Hin) as (ty&v'&_&_&(Hp&Hpm&Hpt)&_).
    assert (v' = v) as -> by (unfold a_read in Hr; rewrite Hp in Hr; simpl in Hr; congruence).
    apply stored_in in Hq' as (u&o'&Hq'). apply (x_log _ _ HI) in Hq' as (_&_&_&Hq'). destruct (Hq' z Hz) as (Hqz&Hqo&Hqm&Hqt).
    assert (ip_ser q <> ip_ser p) as Hne.
    { intros Heq. pose proof (x_own _ _ HI (ip_ser p)) as Hc. pose proof (alive_le st (ip_ser p)) as H1.
      pose proof (msum_astack_ge (own (ip_ser p)) st t) as H2. pose proof (lsum_ge (own (ip_ser p)) _ _ Hin) as H3. simpl in H3.
      rewrite Nat.eqb_refl in H3. assert (1 <= asum st (ip_ser p)) as H4; [|lia].
      unfold asum. pose proof (msum_ge (λ y, cnt (ip_ser p) (ar_set y)) (a_arenas st) r' z Hz) as H5. simpl in H5.
      pose proof (cnt_in _ _ Hqz) as H6. rewrite Heq in H6. lia. }
    split; [by intros ->|]. intros Hty Heq. unfold iptr_eqb in Heq. apply andb_true_iff in Heq as [H1 H2].
    apply Nat.eqb_eq in H1, H2.
    assert (is_zst E d = is_zst E v) as Hzz. { unfold is_zst. rewrite Hty. congruence. }
    destruct (is_zst E d) eqn:Hd; [by apply HZ; [|done|congruence]|]. exfalso. apply Hne.
    by apply (x_addr _ _ HI _ _ _ _ Hqo Hp).
  Qed.

  Lemma free_keeps st w p st1 : a_free st w p = Some st1 -> a_arenas st1 = a_arenas st /\ a_nextr st1 = a_nextr st.
  Proof. unfold a_free. destruct (a_objs st !! _); [|done]. by intros [= <-]. Qed.
  Lemma alloc_keeps st z v st1 p : a_alloc E st z v = Some (st1, p) -> a_arenas st1 = a_arenas st /\ a_nextr st1 = a_nextr st.
  Proof. unfold a_alloc. destruct (_ || _); [|done]. by intros [= <- <-]. Qed.

  Lemma new_stored st r : AInv st -> a_nextr st <= r -> a_stored r (a_log st) = [].
  Proof.
    intros HI Hr. destruct (a_stored r (a_log st)) as [|[p v] l'] eqn:Hs; [done|].
    assert ((p, v) ∈ a_stored r (a_log st)) as Hin by (rewrite Hs; by left).
    apply stored_in in Hin as (t&o&Hin). apply (x_log _ _ HI) in Hin as (?&_). lia.
  Qed.

  Lemma amove_lin st a t k fs fs' st' :
    AInv st -> LawInv st -> Sim st a -> a_stack st t = fs ++ k -> amove E st t k fs fs' st' ->
    (fs = [] -> fs' <> [] -> a_ready st t = true) ->
    exists es, a_log st' = es ++ a_log st /\ does a (asight t fs fs' ++ news t es) st'.
  Proof.
    intros HI HW HS Hst Hm Hrd. destruct (amove_ok _ _ _ _ _ _ _ HI Hst Hm) as (es&Htr&HI').
    exists es. split; [by apply (y_log _ _ _ _ _ _ _ Htr)|].
    assert (forall f, f ∈ fs -> aframe_ok E st f) as Hfr.
    { intros f Hf. apply (x_frames _ _ HI t). rewrite Hst. apply elem_of_app. by left. }
    assert (forall f, f ∈ fs -> lframe E st f) as Hlf.
    { intros f Hf. apply (z_frames _ _ HW t). rewrite Hst. apply elem_of_app. by left. }
    pose proof (m_acts _ _ HS t) as Hacts. rewrite Hst in Hacts.
    apply Forall2_app_inv_l in Hacts as (cs&ck&Hcs&Hck&Hacts).
    assert (fs = [] -> fs' <> [] -> may_call (acts a t)) as Hmay.
    { intros -> Hne. specialize (Hrd eq_refl Hne). clear Hm Htr. unfold a_ready in Hrd. rewrite Hst in Hrd. simpl in Hrd.
      inversion Hcs; subst cs. rewrite Hacts. simpl. destruct Hck as [|f c k ck Hc Hck]; [done|]. simpl in *.
      destruct f as [r o b|r o b|r w q|r o v b|r o b p|r o b p pn|r o b p|r o b m y|r o b m y|r ps]; simpl in *; try done; subst; try done.
      - destruct m; [|by destruct o]. by destruct y.
      - destruct Hc as (l1&l2&_&<-&->). by destruct l2. }
    (* the state does not change but for the activities of the thread *)
    assert (forall cs' ys a', a_arenas st' = a_arenas st -> a_nextr st' = a_nextr st -> (forall r, a_stored r es = []) ->
      Forall2 (absr (a_log st')) fs' cs' -> vatoms E a ys a' -> vshown ys = asight t fs fs' ++ news t es ->
      v_sets a' = v_sets a -> v_next a' = v_next a ->
      (forall u, acts a' u = if decide (t = u) then cs' ++ ck else acts a u) ->
      does a (asight t fs fs' ++ news t es) st') as Hact.
    { intros cs' ys a' H1 H2 H3 H4 H5 H6 H7 H8 H9. exists ys, a'. split_and!; [done|done|].
      apply (sim_upd st a st' a' t fs fs' k es cs' ck); try done.
      - intros r. rewrite H7, (m_sets _ _ HS), H1, (y_log _ _ _ _ _ _ _ Htr), stored_app, H3. done.
      - rewrite H8, H2. apply (m_next _ _ HS). }
    assert (a_arenas st' = a_arenas st -> a_nextr st' = a_nextr st -> (forall r, a_stored r es = []) ->
      Forall2 (absr (a_log st')) fs' cs -> asight t fs fs' ++ news t es = [] ->
      does a (asight t fs fs' ++ news t es) st') as Hquiet.
    { intros H1 H2 H3 H4 H5. apply (Hact cs [] a); try done; [constructor|].
      intros u. destruct (decide (t = u)) as [<-|]; [|done]. done. }
    assert (forall cs1 x, a_arenas st' = a_arenas st -> a_nextr st' = a_nextr st -> (forall r, a_stored r es = []) ->
      Forall2 (absr (a_log st')) fs' cs1 -> vatom E a x (put_acts a t (cs1 ++ ck)) -> vvisible x = true ->
      [x] = asight t fs fs' ++ news t es -> does a (asight t fs fs' ++ news t es) st') as Hone.
    { intros cs1 x H1 H2 H3 H4 H5 H6 H7. apply (Hact cs1 [x] (put_acts a t (cs1 ++ ck))); try done.
      - by eapply vas_cons; [|constructor].
      - unfold vshown. simpl. by rewrite H6.
      - intros u. apply acts_put. }
    (* the end of a call *)
    assert (forall r o b m x, fs = [AArg r o b m x] -> fs' = [] -> exists ys a', vatoms E a ys a' /\
      vshown ys = [VRet t r o x] /\ v_sets a' = v_sets a /\ v_next a' = v_next a /\
      (forall u, acts a' u = if decide (t = u) then ck else acts a u)) as Hret.
    { intros r o b m y -> ->. inversion Hcs as [|? c ? ? Hc Hnil]; subst. inversion Hnil; subst. clear Hcs Hnil. simpl in Hc, Hacts.
      destruct y as [p|].
      - destruct m.
        + destruct (Hlf (AArg r o b true (AP p))) as (d&Hd&Had); [by left|].
          destruct (Hfr (AArg r o b true (AP p))) as (ty&(z&Hz&_)&_); [by left|].
          exists [VHit t p; VRet t r o (AP p)], (put_acts (put_acts a t (CCall r o (Some p) :: ck)) t ck). split_and!; try done.
          * eapply vas_cons; [eapply (va_hit E a t r o ck p d); [by subst c| |done]|].
            -- by rewrite (sim_vals st) by (try done; by exists z).
            -- eapply vas_cons; [|constructor]. apply va_ret. rewrite acts_put. by rewrite decide_True.
          * intros u. rewrite !acts_put. by destruct (decide (t = u)).
        + exists [VRet t r o (AP p)], (put_acts a t ck). split_and!; try done.
          * eapply vas_cons; [|constructor]. apply va_ret. by subst c.
          * intros u. by rewrite acts_put.
      - exists [VRet t r o APanic], (put_acts a t ck). split_and!; try done.
        + eapply vas_cons; [|constructor]. apply va_panic. by subst c.
        + intros u. by rewrite acts_put. }
    pose proof (y_log _ _ _ _ _ _ _ Htr) as Hlog.
    destruct Hm; simpl in Hlog;
      try (match goal with H : a_free _ _ _ = Some _ |- _ =>
             let Hf := fresh in pose proof (free_log _ _ _ _ H) as Hf; rewrite Hf in Hlog; clear Hf end);
      try (match goal with H : a_alloc _ _ _ _ = Some _ |- _ =>
             let Hf := fresh in destruct (alloc_log E _ _ _ _ _ H) as [Hf _]; rewrite Hf in Hlog; clear Hf end);
      try (apply (app_inv_tail (a_log st) []) in Hlog; subst es);
      try (match type of Hlog with ?e1 :: ?e2 :: _ = _ => apply (app_inv_tail (a_log st) [e1; e2]) in Hlog; subst es end);
      try (match type of Hlog with ?e1 :: _ = _ => apply (app_inv_tail (a_log st) [e1]) in Hlog; subst es end).
    all: match goal with H : Forall2 _ [_] _ |- _ => inversion H as [|? c ? ? Hc Hnil]; inversion Hnil; subst; clear H Hnil | _ => idtac end.
    all: try (match goal with H : a_free _ _ _ = Some _ |- _ =>
      destruct (free_keeps _ _ _ _ H) as [Hka Hkn] end).
    all: try (match goal with H : a_alloc _ _ _ _ = Some (_, _) |- _ =>
      destruct (alloc_keeps _ _ _ _ _ H) as [Hka Hkn] end).
    all: try simpl in Hc.
    (* calls *)
    1,2: eapply (Hone [CCall r o None] (VCall t r o)); try done; [by repeat constructor|].
    1,2: inversion Hcs; subst cs; simpl in Hacts; rewrite <- Hacts; apply va_call; [rewrite (m_sets _ _ HS), H; by eexists|by apply Hmay].
    all: try (apply Hquiet; simpl; try done; by repeat constructor).
    - (* insertion *)
      destruct (Hlf (AIns r o b p)) as (v'&Hr&Habs&Hasks); [by left|]. assert (v' = v) as -> by congruence.
      destruct (Hfr (AIns r o b p)) as (ty&v'&(x'&Hx'&Hty)&_&(Hp&_&Hvt)&Hsup&_); [by left|].
      assert (x' = x) as -> by congruence.
      assert (v' = v) as -> by (unfold a_read in H; rewrite Hp in H; simpl in H; congruence).
      exists [VMiss t p v], (put_acts (VState (<[r := (ar_ty x, (p, v) :: a_stored r (a_log st))]> (v_sets a)) (v_next a) (v_acts a)) t
        (CCall r o (Some p) :: ck)). split_and!; [|done|].
      + eapply vas_cons; [|constructor]. apply (va_miss E a t r o ck p v (ar_ty x) (a_stored r (a_log st))); try done.
        * by subst.
        * by rewrite (m_sets _ _ HS), H0.
        * congruence.
        * intros q d Hq Had. specialize (Habs q d Hq). assert (ie_eq E d v = true) as He; [|congruence].
          destruct o as [u|w q0|u|u]; simpl in *; subst; try done.
          apply stored_in in Hq as (u&o'&Hq). apply (x_log _ _ HI) in Hq as (_&_&_&Hq). destruct (Hq x H0) as (_&_&_&Hdt).
          rewrite <- (il_borrow_eq _ HL w) by congruence.
          eapply (il_qtrans _ HL); [done|]. by apply (il_qsym _ HL).
        * apply (fresh_a st a t r o b p v); try done. rewrite Hst. by left.
      + apply (sim_upd st a _ _ t [AIns r o b p] [AMake r o b p] k _ [CCall r o (Some p)] ck HI HS Htr); try done.
        * by repeat constructor.
        * intros u. by rewrite acts_put.
        * intros r'. simpl. destruct (Nat.eqb_spec r r') as [<-|Hne].
          -- by rewrite !lookup_insert.
          -- rewrite !lookup_insert_ne by done. apply (m_sets _ _ HS).
        * simpl. apply (m_next _ _ HS).
    - exfalso. specialize (Hlf (AKill r o b p false) ltac:(by left)). done.
    - destruct (Hret r o (Some p) true x eq_refl eq_refl) as (ys&a'&Hys&Hsh&?&?&?). by apply (Hact [] ys a').
    - destruct (Hret r o b m x eq_refl eq_refl) as (ys&a'&Hys&Hsh&?&?&?). by apply (Hact [] ys a').
    - (* drop of a value *)
      destruct Hc as (l1&l2&Hl&Hps&->). destruct l2 as [|[p' v] l2]; [done|]. injection Hps as -> <-.
      eapply (Hone [CDrop r l2] (VFree t r p)); simpl; try done.
      + constructor; [|constructor]. exists (l1 ++ [(p, v)]), l2. split_and!; try done.
        rewrite (free_log _ _ _ _ H). simpl. by rewrite <- app_assoc.
      + apply (va_free E a t r [] p v l2 ck). exact Hacts.
    - destruct Hc as (l1&l2&Hl&Hps&->). destruct l2 as [|y l2]; [|done].
      eapply (Hone [] (VGone t r)); try done. apply va_gone. exact Hacts.
    - (* a panic in it *)
      destruct Hc as (l1&l2&Hl&Hps&->). destruct l2 as [|[p' v] l2]; [done|]. injection Hps as -> <-.
      apply (Hact [] [VFree t r p; VLeak t r] (put_acts (put_acts a t (CDrop r l2 :: ck)) t ck)); simpl; try done.
      + eapply vas_cons; [by apply (va_free E a t r [] p v l2 ck)|]. eapply vas_cons; [|constructor].
        eapply (va_leak E _ t r l2). rewrite acts_put. by rewrite decide_True.
      + intros u. rewrite !acts_put. by destruct (decide (t = u)).
    - (* a new arena *)
      eexists [VNew _ ty], _. split_and!; [eapply vas_cons; [apply va_new|constructor]|simpl; by rewrite (m_next _ _ HS)|].
      inversion Hcs; subst cs.
      apply (sim_upd st a _ _ t [] [] k _ [] ck HI HS Htr); try done; simpl.
      + intros u. destruct (decide (t = u)) as [<-|]; [|done]. done.
      + intros r. rewrite (m_next _ _ HS). destruct (decide (a_nextr st = r)) as [<-|Hne].
        * rewrite !lookup_insert. simpl. f_equal. f_equal. symmetry. apply new_stored; [done|lia].
        * rewrite !lookup_insert_ne by done. apply (m_sets _ _ HS).
      + by rewrite (m_next _ _ HS).
    - (* a read *)
      inversion Hcs; subst cs.
      apply (Hact [] [VRead r p v] a); try done.
      + eapply vas_cons; [|constructor]. apply va_read. rewrite (sim_vals st) by (try done; by eexists).
        apply returned_a in H as (u&o&b&Hin). destruct (z_log _ _ HW _ Hin) as (d&Hd&_).
        pose proof Hd as Hd'. apply stored_in in Hd' as (u'&o'&Hd'). apply (x_log _ _ HI) in Hd' as (_&_&_&Hd').
        destruct (Hd' x H0) as (_&Ho&_). unfold a_read in H1. rewrite Ho in H1. simpl in H1. injection H1 as <-. done.
      + intros u. destruct (decide (t = u)) as [<-|]; [|done]. done.
    - (* drop of an arena *)
      inversion Hcs; subst cs. simpl in Hacts.
      eexists [VDrop t r], _. split_and!; [eapply vas_cons; [eapply (va_drop E a t r)|constructor]|done|].
      + by rewrite (m_sets _ _ HS), H.
      + by apply Hmay.
      + intros u c Hin Hon. rewrite a_idle_spec in H0. pose proof (m_acts _ _ HS u) as Hu.
        apply elem_of_list_lookup in Hin as [i Hi]. destruct (Forall2_lookup_r _ _ _ _ _ Hu Hi) as (f&Hf&Hfc).
        apply (H0 u f); [by eapply elem_of_list_lookup_2|].
        destruct f; simpl in *; try (subst c; simpl in Hon; by rewrite Hon). by destruct Hfc as (?&?&_&_&->).
      + apply (sim_upd st a _ _ t [] [ADead r (ar_set x)] k _ [CDrop r (a_stored r (a_log st))] ck HI HS Htr); try done; simpl.
        * constructor; [|constructor]. exists [], (a_stored r (a_log st)). split_and!; try done. symmetry. by apply (x_stored _ _ HI).
        * intros u. rewrite acts_put. destruct (decide (t = u)) as [<-|]; [|done]. by rewrite Hacts.
        * intros r'. destruct (decide (r = r')) as [<-|Hne]; [by rewrite !lookup_delete|].
          rewrite !lookup_delete_ne by done. apply (m_sets _ _ HS).
        * apply (m_next _ _ HS).
  Qed.

  Lemma asight_nil t fs fs' : fs <> [] -> asight t fs fs' = [].
  Proof. by destruct fs. Qed.
  Lemma vsight_app (y : alabel V Q) lg es : vsight y lg (es ++ lg) =
    match y with LCall t r o _ => [VCall t r o] | _ => [] end ++ news (default 0 (l_thread y)) es.
  Proof. unfold vsight, news. rewrite app_length, Nat.add_sub, take_app. done. Qed.
  Lemma astep_lin st a (y : alabel V Q) st' : AInv st -> LawInv st -> Sim st a -> astep E st y = Next st' ->
    does a (vsight y (a_log st) (a_log st')) st'.
  Proof.
    intros HI HW HS (t&fs&fs'&k&Hst&Hm&[Ht Hc]&Hl)%astep_move_call.
    assert (exists es, a_log st' = es ++ a_log st /\ does a (asight t fs fs' ++ news t es) st') as (es&Hes&Hd).
    { eapply amove_lin; try done. intros Hfs. by apply Hl. }
    rewrite Hes, vsight_app, <- Ht.
    assert (asight t fs fs' = match y with LCall u r o _ => [VCall u r o] | _ => [] end) as <-; [|done].
    destruct fs as [|f fs].
    - destruct (Hl eq_refl) as [_ Hl']. destruct y as [|u r o x| | | | |]; simpl in Ht.
      2:{ destruct Hl' as [b ->]. simpl. by subst. }
      all: destruct fs' as [|[] [|? ?]]; try done; by edestruct Hl'.
    - by destruct y.
  Qed.

  Lemma vatoms_app a xs a1 ys a2 : vatoms E a xs a1 -> vatoms E a1 ys a2 -> vatoms E a (xs ++ ys) a2.
  Proof. intros H1 H2. induction H1; simpl; [done|]. eapply vas_cons; [done|]. by apply IHvatoms. Qed.
  Lemma vshown_app (xs ys : list (vaction V Q)) : vshown (xs ++ ys) = vshown xs ++ vshown ys.
  Proof. unfold vshown. by rewrite List.filter_app. Qed.
  Lemma arun_lin st a ls st' : AInv st -> LawInv st -> Sim st a -> run (astep E) st ls = Some st' ->
    does a (vsights E st ls) st'.
  Proof.
    revert st a. induction ls as [|y ls IH]; intros st a HI HW HS; simpl.
    - intros [= ->]. exists [], a. split_and!; [constructor|done|done].
    - unfold exec. destruct (astep E st y) as [st1| | |] eqn:Hs; try done; [|by apply IH..]. intros Hr.
      destruct (astep_lin _ _ _ _ HI HW HS Hs) as (us&a'&H1&<-&HS1).
      destruct (IH st1 a') as (zs&a2&H2&<-&HS2); try done.
      + by eapply astep_inv.
      + apply astep_move in Hs as (t&fs&fs'&k&Hst&Hm&_). by eapply amove_law.
      + exists (us ++ zs), a2. split_and!; [by eapply vatoms_app|by rewrite vshown_app|done].
  Qed.
  Theorem arena_linearizable ls st : run (astep E) ainit ls = Some st ->
    exists ys a, vatoms E vinit ys a /\ vshown ys = vsights E ainit ls /\
      (forall r, vtype a r = ar_ty <$> a_arenas st !! r) /\
      (forall r p, p ∈ a_set st r <-> exists v, (p, v) ∈ vals a r) /\
      (forall r p v, (p, v) ∈ vals a r -> a_read st p = Some v).
  Proof.
    intros Hr. pose proof (areach_inv _ _ _ Hr) as HI.
    destruct (arun_lin ainit vinit ls st) as (ys&a&H1&H2&HS); try done.
    - apply ainv_init.
    - apply lawinv_init.
    - apply sim_init.
    - exists ys, a. split_and!; try done.
      + intros r. unfold vtype. rewrite (m_sets _ _ HS). by destruct (a_arenas st !! r).
      + intros r p. unfold vals, a_set. rewrite (m_sets _ _ HS). destruct (a_arenas st !! r) as [z|] eqn:Hz; simpl.
        * rewrite (x_stored _ _ HI _ _ Hz), elem_of_list_fmap. split.
          -- intros ([q v]&->&Hin). by exists v.
          -- intros [v Hin]. by exists (p, v).
        * split; [by intros ?%elem_of_nil|]. by intros [v ?%elem_of_nil].
      + intros r p v Hin. apply (vals_stored _ _ _ _ HS) in Hin as [[z Hz] Hin].
        apply stored_in in Hin as (t&o&Hin). apply (x_log _ _ HI) in Hin as (_&_&_&Hin).
        destruct (Hin z Hz) as (_&Ho&_). unfold a_read. by rewrite Ho.
  Qed.
End lin.

(** ** The atomic arenas *)
Section atomic.
  Context {V Q : Type} (E : ienv V Q).
  Implicit Types (a : vstate V Q) (v d : V) (p : iptr) (o : aop V Q) (y : vaction V Q) (t r : nat).

  Lemma vatoms_snoc a ys y a' : vatoms E a (ys ++ [y]) a' -> exists a1, vatoms E a ys a1 /\ vatom E a1 y a'.
  Proof.
    revert a. induction ys as [|z ys IH]; intros a H; simpl in *.
    - inversion H as [|? ? ? ? ? H1 H2]; subst. inversion H2; subst. exists a. split; [constructor|done].
    - inversion H as [|? ? ? ? ? H1 H2]; subst. destruct (IH _ H2) as (a1&?&?). exists a1. split; [|done].
      by eapply vas_cons.
  Qed.
  Lemma vatoms_ind_r (P : list (vaction V Q) -> vstate V Q -> Prop) a0 :
    P [] a0 -> (forall ys y a a', vatoms E a0 ys a -> P ys a -> vatom E a y a' -> P (ys ++ [y]) a') ->
    forall ys a, vatoms E a0 ys a -> P ys a.
  Proof.
    intros H0 Hs ys. induction ys as [|y ys IH] using rev_ind; intros a H.
    - by inversion H; subst.
    - apply vatoms_snoc in H as (a1&H1&H2). eapply Hs; [done|by apply IH|done].
  Qed.

  Lemma vcomplete_app t w xs ys : vcomplete t w xs -> vcomplete t w ys -> vcomplete (V:=V) (Q:=Q) t w (xs ++ ys).
  Proof.
    intros H Hy. induction H as [|w y xs ? ? IH|w r o p xs e ys' zs H1 IH1 He Hys Hz IHz|w r o xs zs H1 IH1 Hz IHz|r p xs H IH|w r xs e zs H1 IH1 He Hz IHz]; simpl.
    - done.
    - apply vc_other; auto.
    - rewrite <- app_assoc. simpl. rewrite <- app_assoc. simpl. apply vc_call; auto.
    - rewrite <- app_assoc. simpl. apply vc_panic; auto.
    - apply vc_free; auto.
    - rewrite <- app_assoc. simpl. apply vc_drop; auto.
  Qed.
  Lemma vcomplete_weak t w xs : vcomplete t None xs -> vcomplete (V:=V) (Q:=Q) t w xs.
  Proof.
    intros H. remember (@None nat) as n eqn:Hn. induction H; subst; try done; [constructor|by apply vc_other; auto|by apply vc_call; auto|by apply vc_panic; auto|by apply vc_drop; auto].
  Qed.
  Lemma vcomplete_others t w xs : not_of t xs -> vcomplete (V:=V) (Q:=Q) t w xs.
  Proof. induction 1; [constructor|by apply vc_other]. Qed.

  (** The actions so far, as thread [t]'s stack has them. *)
  Fixpoint vtale t (k : list (vact V Q)) (xs : list (vaction V Q)) : Prop :=
    match k with
    | [] => vcomplete t None xs
    | CCall r o None :: k' => exists ys zs, xs = ys ++ VCall t r o :: zs /\ vcomplete t None zs /\ vtale t k' ys
    | CCall r o (Some p) :: k' => exists ys zs e ws, xs = ys ++ VCall t r o :: zs ++ e :: ws /\ vcomplete t None zs /\
        veffect e = Some (t, p) /\ not_of t ws /\ vtale t k' ys
    | CDrop r _ :: k' => exists ys zs, xs = ys ++ VDrop t r :: zs /\ vcomplete t (Some r) zs /\ vtale t k' ys
    end.
  Definition vwait (k : list (vact V Q)) : Prop := match k with CCall _ _ (Some _) :: _ => False | _ => True end.
  (** Below the top nothing has taken effect. *)
  Definition vstk_ok (k : list (vact V Q)) : Prop :=
    Forall (λ c, match c with CCall _ _ (Some _) => False | _ => True end) (tail k).
  Lemma vwait_tail c k : vstk_ok (c :: k) -> vwait k /\ vstk_ok k.
  Proof. unfold vstk_ok. simpl. destruct k as [|c' k]; [done|]. intros H. inversion H; subst. by destruct c' as [? ? []|]. Qed.

  Lemma vtale_other t k xs y : vtale t k xs -> vthread y <> Some t -> vtale t k (xs ++ [y]).
  Proof.
    destruct k as [|[r o [p|]|r l] k]; simpl.
    - intros H Hx. apply vcomplete_app; [done|]. by apply vcomplete_others, Forall_singleton.
    - intros (ys&zs&e&ws&->&?&?&?&?) Hx. exists ys, zs, e, (ws ++ [y]). split_and!; try done.
      + rewrite <- app_assoc. simpl. by rewrite <- app_assoc.
      + apply Forall_app. split; [done|]. by apply Forall_singleton.
    - intros (ys&zs&->&?&?) Hx. exists ys, (zs ++ [y]). split_and!; try done.
      + by rewrite <- app_assoc.
      + apply vcomplete_app; [done|]. by apply vcomplete_others, Forall_singleton.
    - intros (ys&zs&->&?&?) Hx. exists ys, (zs ++ [y]). split_and!; try done.
      + by rewrite <- app_assoc.
      + apply vcomplete_app; [done|]. by apply vcomplete_others, Forall_singleton.
  Qed.
  (** Completing an activity on top of a waiting stack. *)
  Lemma vtale_done t k ys zs : vwait k -> vtale t k ys -> vcomplete t None zs -> vtale t k (ys ++ zs).
  Proof.
    destruct k as [|[r o [p|]|r l] k]; simpl; [|done|..].
    - intros _. apply vcomplete_app.
    - intros _ (us&ws&->&?&?) Hz. exists us, (ws ++ zs). split_and!; try done; [by rewrite <- app_assoc|by apply vcomplete_app].
    - intros _ (us&ws&->&?&?) Hz. exists us, (ws ++ zs). split_and!; try done; [by rewrite <- app_assoc|].
      apply vcomplete_app; [done|]. by apply vcomplete_weak.
  Qed.

  Lemma vtales ys a : vatoms E vinit ys a -> forall t, vstk_ok (acts a t) /\ vtale t (acts a t) ys.
  Proof.
    revert ys a. apply (vatoms_ind_r (λ ys a, forall t, vstk_ok (acts a t) /\ vtale t (acts a t) ys)).
    - intros t. unfold acts. simpl. rewrite lookup_empty. simpl. split; [by constructor|constructor].
    - intros xs y a a' _ IH Hy u.
      assert (forall t k', vthread y = Some t -> (forall w, acts a' w = if decide (t = w) then k' else acts a w) ->
        (t = u -> vstk_ok k' /\ vtale u k' (xs ++ [y])) ->
        vstk_ok (acts a' u) /\ vtale u (acts a' u) (xs ++ [y])) as Hone.
      { intros t k' Ht Hw Hk. rewrite Hw. destruct (decide (t = u)) as [->|Hne]; [by apply Hk|].
        destruct (IH u) as [? ?]. split; [done|]. apply vtale_other; [done|]. rewrite Ht. congruence. }
      assert (forall t r o k p, veffect y = Some (t, p) -> acts a t = CCall r o None :: k -> t = u ->
        vstk_ok (CCall r o (Some p) :: k) /\ vtale u (CCall r o (Some p) :: k) (xs ++ [y])) as Heff.
      { intros t r o k p He Hc <-. destruct (IH t) as [H1 H2]. rewrite Hc in H1, H2. split; [done|].
        destruct H2 as (ys&zs&->&Hz&Hk). exists ys, zs, y, []. split_and!; try done; [by rewrite <- app_assoc|constructor]. }
      assert (forall k c, may_call k -> vstk_ok k -> vstk_ok (c :: k)) as Hpush.
      { intros k c Hm Hk. unfold vstk_ok. simpl. destruct k as [|[r o [p|]|r l] k]; [constructor|done|by constructor|by constructor]. }
      destruct Hy as [ty|t r o Hr Hw|t r o k p d Hc Hin Ha|t r o k p v ty l Hc Hr Ht Hs Ha Hno Hf|t r o p k Hc|t r o k Hc|r p v Hin
        |t r x Hr Hw Hon|t r l1 p v l2 k Hc|t r k Hc|t r l k Hc].
      + destruct (IH u) as [? ?]. split; [done|]. by apply (vtale_other u (acts a u)).
      + apply (Hone t _ eq_refl (acts_put _ _ _)). intros ->. destruct (IH u) as [H1 H2]. split; [by apply Hpush|].
        exists xs, []. split_and!; [done|constructor|done].
      + apply (Hone t _ eq_refl (acts_put _ _ _)). by apply Heff.
      + apply (Hone t (CCall r o (Some p) :: k) eq_refl); [intros w; by rewrite acts_put|]. by apply Heff.
      + apply (Hone t _ eq_refl (acts_put _ _ _)). intros ->. destruct (IH u) as [H1 H2]. rewrite Hc in H1, H2.
        destruct (vwait_tail _ _ H1) as [Hwt Hok]. split; [done|]. destruct H2 as (ys&zs&e&ws&->&Hz&He&Hws&Hk).
        rewrite <- app_assoc. apply vtale_done; [done|done|]. simpl. rewrite <- app_assoc. simpl.
        apply (vc_call u None r o p zs e ws []); try done. constructor.
      + apply (Hone t _ eq_refl (acts_put _ _ _)). intros ->. destruct (IH u) as [H1 H2]. rewrite Hc in H1, H2.
        destruct (vwait_tail _ _ H1) as [Hwt Hok]. split; [done|]. destruct H2 as (ys&zs&->&Hz&Hk).
        rewrite <- app_assoc. apply vtale_done; [done|done|]. simpl. apply (vc_panic u None r o zs []); try done. constructor.
      + destruct (IH u) as [? ?]. split; [done|]. by apply vtale_other.
      + apply (Hone t (CDrop r x.2 :: acts a t) eq_refl); [intros w; by rewrite acts_put|]. intros ->.
        destruct (IH u) as [H1 H2]. split; [by apply Hpush|]. exists xs, []. split_and!; [done|constructor|done].
      + apply (Hone t _ eq_refl (acts_put _ _ _)). intros ->. destruct (IH u) as [H1 H2]. rewrite Hc in H1, H2.
        split; [done|]. destruct H2 as (ys&zs&->&Hz&Hk). exists ys, (zs ++ [VFree u r p]). split_and!; [by rewrite <- app_assoc| |done].
        apply vcomplete_app; [done|]. apply vc_free. constructor.
      + apply (Hone t _ eq_refl (acts_put _ _ _)). intros ->. destruct (IH u) as [H1 H2]. rewrite Hc in H1, H2.
        destruct (vwait_tail _ _ H1) as [Hwt Hok]. split; [done|]. destruct H2 as (ys&zs&->&Hz&Hk).
        rewrite <- app_assoc. apply vtale_done; [done|done|]. simpl. apply (vc_drop u None r zs _ []); [done|by left|constructor].
      + apply (Hone t _ eq_refl (acts_put _ _ _)). intros ->. destruct (IH u) as [H1 H2]. rewrite Hc in H1, H2.
        destruct (vwait_tail _ _ H1) as [Hwt Hok]. split; [done|]. destruct H2 as (ys&zs&->&Hz&Hk).
        rewrite <- app_assoc. apply vtale_done; [done|done|]. simpl. apply (vc_drop u None r zs _ []); [done|by right|constructor].
  Qed.

  Theorem arena_one_effect ys t r o x a : vatoms E vinit (ys ++ [VRet t r o x]) a ->
    exists ys1 ys2, ys = ys1 ++ VCall t r o :: ys2 /\
      ((x = APanic /\ vcomplete t None ys2) \/
       exists p ys3 e ys4, x = AP p /\ ys2 = ys3 ++ e :: ys4 /\ vcomplete t None ys3 /\ veffect e = Some (t, p) /\ not_of t ys4).
  Proof.
    intros (a1&H1&H2)%vatoms_snoc. destruct (vtales _ _ H1 t) as [_ Ht].
    inversion H2 as [| | | |? ? ? ? k Hc|? ? ? k Hc| | | | |]; subst; rewrite Hc in Ht; simpl in Ht.
    - destruct Ht as (us&zs&e&ws&->&?&?&?&_). exists us, (zs ++ e :: ws). split; [done|]. right. by exists p, zs, e, ws.
    - destruct Ht as (us&zs&->&?&_). exists us, zs. split; [done|]. by left.
  Qed.
  Theorem arena_all_complete ys t a : vatoms E vinit ys a -> acts a t = [] -> vcomplete t None ys.
  Proof. intros H Hc. destruct (vtales _ _ H t) as [_ Ht]. by rewrite Hc in Ht. Qed.

  (** A thread that has done nothing. *)
  Lemma sim_others ys a t : vatoms E vinit ys a -> not_of t ys -> acts a t = [].
  Proof.
    revert ys a. apply (vatoms_ind_r (λ ys a, not_of t ys -> acts a t = [])).
    - intros _. unfold acts. simpl. by rewrite lookup_empty.
    - intros xs y a a' Hxs IH Hy [Hn Hny]%Forall_app. inversion Hny as [|? ? Hv _]; subst. specialize (IH Hn).
      destruct Hy; simpl in Hv; try done; unfold acts in *; simpl; by rewrite lookup_insert_ne by congruence.
  Qed.

  (** ** Drops of arenas *)
  Definition isdrop r (c : vact V Q) : nat := match c with CDrop r' _ => if r' =? r then 1 else 0 | _ => 0 end.
  Definition ndrop a r : nat := msum (lsum (isdrop r)) (v_acts a).
  Definition valive a r : nat := match v_sets a !! r with Some _ => 1 | None => 0 end.
  Definition dropped ys a t r (l : list (iptr * V)) : Prop :=
    exists ys1 ys2 a1, ys = ys1 ++ VDrop t r :: ys2 /\ vatoms E vinit ys1 a1 /\ is_Some (v_sets a1 !! r) /\
      freed_in r ys2 ++ l.*1 ≡ₚ (vals a1 r).*1.
  Record DInv ys a : Prop := {
    d_once : forall r, valive a r + ndrop a r <= (if r <? v_next a then 1 else 0);
    d_acts : forall t r l, CDrop r l ∈ acts a t -> dropped ys a t r l;
  }.
  Lemma acts_sum (w : vact V Q -> nat) a t k : msum (lsum w) (<[t:=k]> (v_acts a)) + lsum w (acts a t) = lsum w k + msum (lsum w) (v_acts a).
  Proof. apply (msum_insert_default (lsum w) _ t k []). done. Qed.
  Lemma acts_ge (w : vact V Q -> nat) a t : lsum w (acts a t) <= msum (lsum w) (v_acts a).
  Proof. pose proof (acts_sum w a t []). simpl in *. lia. Qed.
  Lemma acts_ge2 (w : vact V Q -> nat) a t u : t <> u -> lsum w (acts a t) + lsum w (acts a u) <= msum (lsum w) (v_acts a).
  Proof.
    intros Hne. pose proof (acts_sum w a t []) as H. pose proof (acts_ge w (put_acts a t []) u) as H'.
    rewrite acts_put, decide_False in H' by done. simpl in *. lia.
  Qed.
  Lemma freed_app r (ys zs : list (vaction V Q)) : freed_in r (ys ++ zs) = freed_in r ys ++ freed_in r zs.
  Proof. unfold freed_in. apply List.flat_map_app. Qed.
  Lemma dropped_more ys y a a' t r l : dropped ys a t r l -> freed_in r [y] = [] -> dropped (ys ++ [y]) a' t r l.
  Proof.
    intros (ys1&ys2&a1&->&?&?&Hp) Hy. exists ys1, (ys2 ++ [y]), a1. split_and!; try done; [by rewrite <- app_assoc|].
    by rewrite freed_app, Hy, app_nil_r.
  Qed.

  Lemma dinv ys a : vatoms E vinit ys a -> DInv ys a.
  Proof.
    revert ys a. apply vatoms_ind_r.
    - constructor.
      + intros r. unfold valive, ndrop. simpl. rewrite lookup_empty, msum_empty. lia.
      + intros t r l H. unfold acts in H. simpl in H. rewrite lookup_empty in H. by apply elem_of_nil in H.
    - intros xs y a a' Hxs IH Hy.
      (* a step that neither begins nor ends a drop, nor makes an arena *)
      assert (forall t k, (forall w, acts a' w = if decide (t = w) then k else acts a w) ->
        (forall r l, CDrop r l ∈ k -> CDrop r l ∈ acts a t) -> (forall r, freed_in r [y] = []) ->
        forall u r l, CDrop r l ∈ acts a' u -> dropped (xs ++ [y]) a' u r l) as Hsame.
      { intros t k Hw Hk Hy0 u r l. rewrite Hw. intros Hin. apply (dropped_more xs y a); [|done]. apply (d_acts _ _ IH).
        destruct (decide (t = u)) as [<-|]; [by apply Hk|done]. }
      destruct Hy as [ty|t r o Hr Hw|t r o k p d Hc Hin Ha|t r o k p v ty l Hc Hr Ht Hs Ha Hno Hf|t r o p k Hc|t r o k Hc|r p v Hin
        |t r x Hr Hw Hon|t r l1 p v l2 k Hc|t r k Hc|t r l k Hc].
      + constructor.
        * intros r. pose proof (d_once _ _ IH r) as H. unfold valive, ndrop in *. simpl.
          destruct (decide (v_next a = r)) as [<-|Hne].
          -- rewrite lookup_insert. destruct (Nat.ltb_spec (v_next a) (v_next a)), (Nat.ltb_spec (v_next a) (S (v_next a))); lia.
          -- rewrite lookup_insert_ne by done. destruct (Nat.ltb_spec r (v_next a)), (Nat.ltb_spec r (S (v_next a))); lia.
        * intros u r l Hin. apply (dropped_more xs _ a); [|done]. by apply (d_acts _ _ IH).
      + constructor.
        * intros r'. pose proof (d_once _ _ IH r') as H. pose proof (acts_sum (isdrop r') a t (CCall r o None :: acts a t)) as H'.
          unfold valive, ndrop in *. simpl in *. lia.
        * apply (Hsame t _ (acts_put _ _ _)); [|done]. intros r' l [|]%elem_of_cons; done.
      + constructor.
        * intros r'. pose proof (d_once _ _ IH r') as H. pose proof (acts_sum (isdrop r') a t (CCall r o (Some p) :: k)) as H'.
          rewrite Hc in H'. unfold valive, ndrop in *. simpl in *. lia.
        * apply (Hsame t _ (acts_put _ _ _)); [|done]. rewrite Hc. intros r' l [|]%elem_of_cons; [done|by right].
      + constructor.
        * intros r'. pose proof (d_once _ _ IH r') as H. pose proof (acts_sum (isdrop r') a t (CCall r o (Some p) :: k)) as H'.
          rewrite Hc in H'. unfold valive, ndrop in *. simpl in *. destruct (decide (r = r')) as [<-|].
          -- rewrite lookup_insert. rewrite Hr in H. lia.
          -- rewrite lookup_insert_ne by done. lia.
        * apply (Hsame t (CCall r o (Some p) :: k)); [intros w; by rewrite acts_put| |done].
          rewrite Hc. intros r' l' [|]%elem_of_cons; [done|by right].
      + constructor.
        * intros r'. pose proof (d_once _ _ IH r') as H. pose proof (acts_sum (isdrop r') a t k) as H'.
          rewrite Hc in H'. unfold valive, ndrop in *. simpl in *. lia.
        * apply (Hsame t _ (acts_put _ _ _)); [|done]. rewrite Hc. intros r' l ?. by right.
      + constructor.
        * intros r'. pose proof (d_once _ _ IH r') as H. pose proof (acts_sum (isdrop r') a t k) as H'.
          rewrite Hc in H'. unfold valive, ndrop in *. simpl in *. lia.
        * apply (Hsame t _ (acts_put _ _ _)); [|done]. rewrite Hc. intros r' l ?. by right.
      + constructor; [apply (d_once _ _ IH)|]. intros u r' l Hin'. apply (dropped_more xs _ a); [|done]. by apply (d_acts _ _ IH).
      + constructor.
        * intros r'. pose proof (d_once _ _ IH r') as H. pose proof (acts_sum (isdrop r') a t (CDrop r x.2 :: acts a t)) as H'.
          unfold valive, ndrop in *. simpl in *. destruct (Nat.eqb_spec r r') as [<-|].
          -- rewrite lookup_delete. rewrite Hr in H. lia.
          -- rewrite lookup_delete_ne by done. lia.
        * intros u r' l. rewrite acts_put. destruct (decide (t = u)) as [<-|].
          -- intros [[= -> ->]|Hin]%elem_of_cons.
             ++ exists xs, [], a. split_and!; try done. unfold vals. rewrite Hr. done.
             ++ apply (dropped_more xs _ a); [|done]. by apply (d_acts _ _ IH).
          -- intros Hin. apply (dropped_more xs _ a); [|done]. by apply (d_acts _ _ IH).
      + constructor.
        * intros r'. pose proof (d_once _ _ IH r') as H. pose proof (acts_sum (isdrop r') a t (CDrop r (l1 ++ l2) :: k)) as H'.
          rewrite Hc in H'. unfold valive, ndrop in *. simpl in *. lia.
        * assert (lsum (isdrop r) (acts a t) <= 1 /\ ndrop a r <= 1) as [H1 H2].
          { pose proof (d_once _ _ IH r) as H. pose proof (acts_ge (isdrop r) a t). unfold ndrop in *. destruct (r <? v_next a); lia. }
          rewrite Hc in H1. simpl in H1. rewrite Nat.eqb_refl in H1.
          intros u r' l. rewrite acts_put. destruct (decide (t = u)) as [<-|Hne].
          -- intros [[= -> ->]|Hin]%elem_of_cons.
             ++ destruct (d_acts _ _ IH t r (l1 ++ (p, v) :: l2)) as (ys1&ys2&a1&->&?&?&Hp); [rewrite Hc; by left|].
                exists ys1, (ys2 ++ [VFree t r p]), a1. split_and!; try done; [by rewrite <- app_assoc|].
                rewrite freed_app. simpl. rewrite Nat.eqb_refl. rewrite <- Hp, <- app_assoc, !fmap_app. simpl.
                apply Permutation_app_head. apply Permutation_middle.
             ++ apply (dropped_more xs _ a); [apply (d_acts _ _ IH); rewrite Hc; by right|]. simpl.
                destruct (Nat.eqb_spec r r') as [<-|]; [|done]. pose proof (lsum_ge (isdrop r) _ _ Hin) as H. simpl in H.
                rewrite Nat.eqb_refl in H. lia.
          -- intros Hin. apply (dropped_more xs _ a); [by apply (d_acts _ _ IH)|]. simpl.
             destruct (Nat.eqb_spec r r') as [<-|]; [|done]. pose proof (lsum_ge (isdrop r) _ _ Hin) as H. simpl in H.
             rewrite Nat.eqb_refl in H. pose proof (acts_ge2 (isdrop r) a t u Hne) as H3. rewrite Hc in H3. simpl in H3.
             rewrite Nat.eqb_refl in H3. unfold ndrop in H2. lia.
      + constructor.
        * intros r'. pose proof (d_once _ _ IH r') as H. pose proof (acts_sum (isdrop r') a t k) as H'.
          rewrite Hc in H'. unfold valive, ndrop in *. simpl in *. destruct (r =? r'); lia.
        * apply (Hsame t _ (acts_put _ _ _)); [|done]. rewrite Hc. intros r' l ?. by right.
      + constructor.
        * intros r'. pose proof (d_once _ _ IH r') as H. pose proof (acts_sum (isdrop r') a t k) as H'.
          rewrite Hc in H'. unfold valive, ndrop in *. simpl in *. destruct (r =? r'); lia.
        * apply (Hsame t _ (acts_put _ _ _)); [|done]. rewrite Hc. intros r' l' ?. by right.
  Qed.
  Theorem arena_drop_frees ys t r a : vatoms E vinit (ys ++ [VGone t r]) a ->
    exists ys1 ys2 a1, ys = ys1 ++ VDrop t r :: ys2 /\ vatoms E vinit ys1 a1 /\ is_Some (v_sets a1 !! r) /\
      freed_in r ys2 ≡ₚ (vals a1 r).*1.
  Proof.
    intros (a1&H1&H2)%vatoms_snoc. inversion H2 as [| | | | | | | | |? ? k Hc|]; subst.
    assert (CDrop r [] ∈ acts a1 t) as Hin by (rewrite Hc; by left).
    destruct (d_acts _ _ (dinv _ _ H1) t r [] Hin) as (ys1&ys2&a2&?&?&?&Hp).
    exists ys1, ys2, a2. simpl in Hp. by rewrite app_nil_r in Hp.
  Qed.
  Theorem arena_leak_frees ys t r a : vatoms E vinit (ys ++ [VLeak t r]) a ->
    exists ys1 ys2 a1 l, ys = ys1 ++ VDrop t r :: ys2 /\ vatoms E vinit ys1 a1 /\ is_Some (v_sets a1 !! r) /\
      freed_in r ys2 ++ l ≡ₚ (vals a1 r).*1.
  Proof.
    intros (a1&H1&H2)%vatoms_snoc. inversion H2 as [| | | | | | | | | |? ? l k Hc]; subst.
    destruct (d_acts _ _ (dinv _ _ H1) t r l) as (ys1&ys2&a2&?&?&?&Hp); [rewrite Hc; by left|].
    by exists ys1, ys2, a2, (l.*1).
  Qed.

  (** ** Equal values have one handle *)
  Lemma a_asks_eq o u v : ilawful E -> a_asks E o v -> ie_ty E u = ie_ty E v -> ie_eq E u v = true -> a_asks E o u.
  Proof.
    intros HL Ha Hty He. destruct o as [w|w q|w|w]; simpl in *; [by eapply (il_trans _ HL)| |by eapply (il_trans _ HL)..].
    eapply (il_qtrans _ HL); [|exact Ha]. by rewrite (il_borrow_eq _ HL).
  Qed.
  Definition UInv a : Prop :=
    (forall r ty l, v_sets a !! r = Some (ty, l) -> Forall (λ z, ie_ty E z.2 = ty) l /\ NoDup l.*1) /\
    (forall r p q u v, (p, u) ∈ vals a r -> (q, v) ∈ vals a r -> ie_eq E u v = true \/ iptr_eqb p q = true -> p = q /\ u = v) /\
    (forall r1 r2 p q u v, (p, u) ∈ vals a r1 -> (q, v) ∈ vals a r2 -> ie_ty E u = ie_ty E v -> iptr_eqb p q = true -> ie_eq E u v = true).
  Lemma uinv_less a a' : UInv a -> (forall r z, v_sets a' !! r = Some z -> z.2 = [] \/ v_sets a !! r = Some z) -> UInv a'.
  Proof.
    intros (H1&H2&H3) Hs. assert (forall r z, z ∈ vals a' r -> z ∈ vals a r) as Hv.
    { intros r y. unfold vals. destruct (v_sets a' !! r) as [[ty l]|] eqn:Hr; [|by intros ?%elem_of_nil].
      destruct (Hs _ _ Hr) as [Hn|Hn]; simpl in *; [subst; by intros ?%elem_of_nil|by rewrite Hn]. }
    split_and!.
    - intros r ty l Hr. destruct (Hs _ _ Hr) as [Hn|Hn]; simpl in *; [subst; split; constructor|by eapply H1].
    - intros r p q u v ? ?. apply (H2 r); by apply Hv.
    - intros r1 r2 p q u v ? ?. apply (H3 r1 r2); by apply Hv.
  Qed.
  Lemma iptr_eqb_comm p q : iptr_eqb p q = iptr_eqb q p.
  Proof. unfold iptr_eqb. by rewrite (Nat.eqb_sym (ip_addr p)), (Nat.eqb_sym (ip_meta p)). Qed.
  Lemma uinv ys a : ilawful E -> vatoms E vinit ys a -> UInv a.
  Proof.
    intros HL. revert ys a. apply (vatoms_ind_r (λ _ a, UInv a)).
    - split_and!.
      + intros r ty l H. simpl in H. by rewrite lookup_empty in H.
      + intros r p q u v H. unfold vals in H. simpl in H. rewrite lookup_empty in H. by apply elem_of_nil in H.
      + intros r r2 p q u v H. unfold vals in H. simpl in H. rewrite lookup_empty in H. by apply elem_of_nil in H.
    - intros xs y a a' Hxs IH Hy.
      destruct Hy as [ty|t r o Hr Hw|t r o k p d Hc Hin Ha|t r o k p v ty l Hc Hr Ht Hs Ha Hno Hf|t r o p k Hc|t r o k Hc|r p v Hin
        |t r x Hr Hw Hon|t r l1 p v l2 k Hc|t r k Hc|t r l k Hc]; try (apply (uinv_less a _ IH); simpl; by auto).
      + apply (uinv_less a _ IH). simpl. intros r y. destruct (decide (v_next a = r)) as [<-|].
        * rewrite lookup_insert. intros [= <-]. by left.
        * rewrite lookup_insert_ne by done. by right.
      + destruct IH as (H1&H2&H3). destruct (H1 _ _ _ Hr) as [Hty Hnd].
        assert (vals a r = l) as Hl by (unfold vals; by rewrite Hr).
        assert (forall q d, (q, d) ∈ l -> ie_eq E d v = true \/ iptr_eqb q p = true -> False) as Hnew.
        { intros q d Hq He. assert (ie_ty E d = ie_ty E v) as Hdt. { rewrite List.Forall_forall in Hty. apply elem_of_list_In in Hq. apply Hty in Hq. simpl in Hq. congruence. }
          apply (Hno q d Hq). apply (a_asks_eq o d v HL Ha Hdt). destruct He as [He|He]; [done|].
          destruct (Hf r q d) as [_ Hf']; [by rewrite Hl|]. by apply Hf'. }
        assert (forall r', vals (put_acts (VState (<[r := (ty, (p, v) :: l)]> (v_sets a)) (v_next a) (v_acts a)) t (CCall r o (Some p) :: k)) r'
          = if decide (r = r') then (p, v) :: l else vals a r') as Hv.
        { intros r'. unfold vals. simpl. destruct (decide (r = r')) as [<-|]; [by rewrite lookup_insert|by rewrite lookup_insert_ne]. }
        split_and!.
        * intros r' ty' l'. simpl. destruct (decide (r = r')) as [<-|]; [|rewrite lookup_insert_ne by done; by apply H1].
          rewrite lookup_insert. intros [= <- <-]. split; [by constructor|]. simpl. constructor; [|done].
          intros ([q d]&Hq&Hin)%elem_of_list_fmap. simpl in Hq. subst q. destruct (Hf r p d) as [Hf' _]; [by rewrite Hl|]. done.
        * intros r' p1 q1 u1 v1. rewrite !Hv. destruct (decide (r = r')) as [<-|]; [|by apply H2].
          intros [[= -> ->]|Hi1]%elem_of_cons [[= -> ->]|Hi2]%elem_of_cons Heq.
          -- done.
          -- exfalso. apply (Hnew q1 v1 Hi2). rewrite iptr_eqb_comm. destruct Heq as [He|He]; [left; by apply (il_sym _ HL)|by right].
          -- exfalso. by apply (Hnew p1 u1 Hi1).
          -- apply (H2 r); rewrite ?Hl; done.
        * intros r1 r2 p1 q1 u1 v1. rewrite !Hv.
          assert (forall r' q d, (q, d) ∈ vals a r' -> ie_ty E d = ie_ty E v -> iptr_eqb q p = true -> ie_eq E d v = true) as Hf'.
          { intros r' q d Hq. by apply (Hf r' q d). }
          destruct (decide (r = r1)) as [<-|], (decide (r = r2)) as [<-|].
          -- intros [[= -> ->]|Hi1]%elem_of_cons [[= -> ->]|Hi2]%elem_of_cons Hty' He.
             ++ apply (il_refl _ HL).
             ++ apply (il_sym _ HL). rewrite iptr_eqb_comm in He. apply (Hf' r q1); [by rewrite Hl|done|done].
             ++ apply (Hf' r p1); [by rewrite Hl|done|done].
             ++ apply (H3 r r p1 q1); rewrite ?Hl; done.
          -- intros [[= -> ->]|Hi1]%elem_of_cons Hi2 Hty' He.
             ++ apply (il_sym _ HL). rewrite iptr_eqb_comm in He. by apply (Hf' r2 q1).
             ++ apply (H3 r r2 p1 q1); rewrite ?Hl; done.
          -- intros Hi1 [[= -> ->]|Hi2]%elem_of_cons Hty' He.
             ++ by apply (Hf' r1 p1).
             ++ apply (H3 r1 r p1 q1); rewrite ?Hl; done.
          -- by apply H3.
      + apply (uinv_less a _ IH). simpl. intros r' y. destruct (decide (r = r')) as [<-|].
        * by rewrite lookup_delete.
        * rewrite lookup_delete_ne by done. by right.
  Qed.
  Theorem arena_atomic_unique ys a r p q u v : ilawful E -> vatoms E vinit ys a ->
    (p, u) ∈ vals a r -> (q, v) ∈ vals a r -> ie_eq E u v = true \/ iptr_eqb p q = true -> p = q /\ u = v.
  Proof. intros HL (_&H&_)%uinv; [|done]. apply H. Qed.
  Theorem arena_atomic_apart ys a r1 r2 p q u v : ilawful E -> vatoms E vinit ys a ->
    (p, u) ∈ vals a r1 -> (q, v) ∈ vals a r2 -> ie_ty E u = ie_ty E v -> iptr_eqb p q = true -> ie_eq E u v = true.
  Proof. intros HL (_&_&H)%uinv; [|done]. apply H. Qed.
  Theorem arena_atomic_nodup ys a r : ilawful E -> vatoms E vinit ys a -> NoDup (vals a r).*1.
  Proof.
    intros HL (H&_&_)%uinv; [|done]. unfold vals. destruct (v_sets a !! r) as [[ty l]|] eqn:Hr; [|constructor].
    by apply (H r ty l).
  Qed.
End atomic.

(** ** Panics come from user code *)
Section panics.
  Context {V Q : Type} (E : ienv V Q).
  Implicit Types (st : astate V Q) (t u : nat) (y : alabel V Q) (es : list (aevent V Q)).

  Definition panf (f : aframe V Q) : nat :=
    match f with AKill _ _ _ _ true | ARel _ _ _ _ APanic | AArg _ _ _ _ APanic => 1 | _ => 0 end.
  Lemma vpanics_app u (xs ys : list (vaction V Q)) : vpanics u (xs ++ ys) = vpanics u xs + vpanics u ys.
  Proof.
    induction xs as [|z xs IH]; [done|]. destruct z as [| | | |? ? ? []| | | | |]; simpl; rewrite ?IH; lia.
  Qed.
  Definition is_panic u y : nat := match y with LPanic t => if t =? u then 1 else 0 | _ => 0 end.
  Lemma step_pk u st y st' : astep E st y = Next st' ->
    lsum panf (a_stack st' u) + vpanics u (vsight y (a_log st) (a_log st')) <= lsum panf (a_stack st u) + is_panic u y.
  Proof.
    intros H.
    assert (forall t k es, a_log st' = es ++ a_log st -> default 0 (l_thread y) = t ->
      (forall w, a_stack st' w = if decide (t = w) then k else a_stack st w) ->
      (forall w, t <> w -> vpanics w (news t es) = 0) ->
      lsum panf k + vpanics t (news t es) <= lsum panf (a_stack st t) + is_panic t y ->
      lsum panf (a_stack st' u) + vpanics u (vsight y (a_log st) (a_log st')) <= lsum panf (a_stack st u) + is_panic u y) as Hk.
    { intros t k es Hl Ht Hw Ho Hle. rewrite Hl, vsight_app, vpanics_app, Hw, Ht.
      assert (vpanics u (match y with LCall t r o _ => [VCall t r o] | _ => [] end) = 0) as -> by (by destruct y).
      destruct (decide (t = u)) as [<-|Hne]; [simpl; lia|]. rewrite Ho by done. lia. }
    assert (forall t k w, a_stack (a_set_stack st t k) w = if decide (t = w) then k else a_stack st w) as Hset
      by (intros; apply set_stack_get).
    assert (forall st1 t k w, a_threads st1 = a_threads st ->
      a_stack (a_set_stack st1 t k) w = if decide (t = w) then k else a_stack st w) as Hset1.
    { intros st1 t k w Hth. rewrite set_stack_get. unfold a_stack. by rewrite Hth. }
    assert (forall w p st1, a_free st w p = Some st1 -> a_threads st1 = a_threads st) as Hfree.
    { intros w p st1. unfold a_free. destruct (_ !! _); [|done]. by intros [= <-]. }
    assert (forall a v st1 p, a_alloc E st a v = Some (st1, p) -> a_threads st1 = a_threads st /\ a_log st1 = a_log st) as Halloc.
    { intros a v st1 p. unfold a_alloc. destruct (_ || _); [|done]. by intros [= <- <-]. }
    destruct y as [t ty|t r o a|t a i|t v|t|r p|t r]; simpl in H.
    - destruct (a_ready st t); [|done]. injection H as <-. apply (Hk t (a_stack st t) [AvNew (a_nextr st) ty]); try done.
      intros w. destruct (decide (t = w)) as [<-|]; done.
    - destruct (a_arenas st !! r) as [x|]; [|done]. destruct (a_ready st t); [|done].
      destruct o as [v|w q|v|v]; try (destruct (_ =? _); [|done]).
      1,2: injection H as <-; (eapply (Hk t _ []); [done|done|apply Hset|done|simpl; lia]).
      all: destruct (a_alloc E st a v) as [[st1 p]|] eqn:Ha; [|done]; injection H as <-; apply Halloc in Ha as [? Hl];
        (eapply (Hk t _ []); [by rewrite <- Hl|done|by intros w; apply Hset1|done|simpl; lia]).
    - unfold a_step_thread in H.
      destruct (a_stack st t) as [|[r o b|r o b|r w q|r o v b|r o b p|r o b p pn|r o b p|r o b m x|r o b m x|r ps] k] eqn:Hst; [done|..].
      + destruct (a_locks st !! r); [done|]. injection H as <-.
        eapply (Hk t _ []); [done|done|by intros w; apply Hset1|done|rewrite Hst; simpl; lia].
      + destruct (a_readable st _); [|done]. destruct (ipick i _) as [p|]; [|destruct o; try (destruct b; [|done])].
        all: injection H as <-; (eapply (Hk t _ []); [done|done|apply Hset|done|rewrite Hst; simpl; lia]).
      + done.
      + destruct b as [q|].
        * destruct (a_free st None q) as [st1|] eqn:Hf; [|done]. injection H as <-.
          eapply (Hk t _ [_]); [by apply free_log in Hf|done|by intros w; apply Hset1, (Hfree _ _ _ Hf)|done|rewrite Hst; simpl; lia].
        * destruct (a_alloc E st a v) as [[st1 p]|] eqn:Ha; [|done]. injection H as <-. apply Halloc in Ha as [? Hl].
          eapply (Hk t _ []); [by rewrite <- Hl|done|by intros w; apply Hset1|done|rewrite Hst; simpl; lia].
      + destruct (a_read st p) as [v|]; [|done]. destruct (a_arenas st !! r) as [x|]; [|done].
        destruct (a_readable st _); [|done]. destruct (a_cands st _ _); injection H as <-.
        * eapply (Hk t _ [_]); [done|done|by intros w; apply Hset1|done|rewrite Hst; simpl; lia].
        * eapply (Hk t _ []); [done|done|apply Hset|done|rewrite Hst; simpl; lia].
      + destruct (a_free st None p) as [st1|] eqn:Hf; [|done]. injection H as <-.
        eapply (Hk t _ [_]); [by apply free_log in Hf|done|by intros w; apply Hset1, (Hfree _ _ _ Hf)|done|].
        rewrite Hst. simpl. destruct pn; simpl; lia.
      + destruct (a_read st p) as [v|]; [|done]. injection H as <-.
        eapply (Hk t _ []); [done|done|apply Hset|done|rewrite Hst; simpl; lia].
      + injection H as <-. eapply (Hk t _ []); [done|done|by intros w; apply Hset1|done|]. rewrite Hst. simpl. lia.
      + destruct (a_free_opt st _) as [st1|] eqn:Hf; [|done]. injection H as <-.
        assert (a_threads st1 = a_threads st /\ exists es, a_log st1 = es ++ a_log st /\ news t es = []) as [Hth (es&Hl&Hn)].
        { unfold a_free_opt in Hf. destruct (if m then b else None) as [p|]; [|injection Hf as <-; split; [done|by exists []]].
          split; [by eapply Hfree|]. exists [AvFree None p]. split; [by apply free_log in Hf|done]. }
        assert (news t (AvRet t r o b x :: es) = [VRet t r o x]) as Hr.
        { unfold news in *. simpl. rewrite List.flat_map_app, Hn. done. }
        eapply (Hk t k (AvRet t r o b x :: es)); [simpl; by rewrite Hl|done|by intros w; apply Hset1| |].
        * intros w Hw. rewrite Hr. simpl. apply Nat.eqb_neq in Hw. destruct x; [done|]. by rewrite Hw.
        * rewrite Hr, Hst. simpl. destruct x; rewrite ?Nat.eqb_refl; lia.
      + destruct ps as [|p ps].
        * injection H as <-. eapply (Hk t _ [_]); [done|done|apply Hset|done|rewrite Hst; simpl; lia].
        * destruct (a_free st (Some r) p) as [st1|] eqn:Hf; [|done]. injection H as <-.
          eapply (Hk t _ [_]); [by apply free_log in Hf|done|by intros w; apply Hset1, (Hfree _ _ _ Hf)|done|rewrite Hst; simpl; lia].
    - destruct (a_stack st t) as [|[] k] eqn:Hst; try done. destruct (_ && _); [|done]. injection H as <-.
      eapply (Hk t _ []); [done|done|apply Hset|done|rewrite Hst; simpl; lia].
    - unfold a_step_panic in H.
      destruct (a_stack st t) as [|[r o b|r o b|r w q|r o v b|r o b p|r o b p pn|r o b p|r o b m x|r o b m x|r ps] k] eqn:Hst; try done.
      4: destruct pn; [done|].
      5: destruct x; [|done]; destruct (a_drops o m); [|done].
      1-5: injection H as <-; (eapply (Hk t _ []); [done|done|apply Hset|done|rewrite Hst; simpl; rewrite Nat.eqb_refl; lia]).
      destruct ps as [|p ps]; [done|]. destruct (a_free st (Some r) p) as [st1|] eqn:Hf; [|done]. injection H as <-.
      eapply (Hk t _ [AvLeak r ps; AvFree (Some r) p]);
        [simpl; by rewrite (free_log _ _ _ _ Hf)|done|by intros w; apply Hset1, (Hfree _ _ _ Hf)| |].
      + intros w Hw. simpl. apply Nat.eqb_neq in Hw. by rewrite Hw.
      + rewrite Hst. simpl. rewrite Nat.eqb_refl. lia.
    - destruct (a_returned r p _); [|done]. destruct (a_arenas st !! r); [|done]. destruct (a_read st p) as [v|]; [|done].
      injection H as <-. eapply (Hk 0 (a_stack st 0) [_]); [done|done| |done|simpl; lia].
      intros w. destruct (decide (0 = w)) as [<-|]; done.
    - destruct (a_arenas st !! r) as [x|]; [|done]. destruct (a_ready st t && _); [|done]. injection H as <-.
      eapply (Hk t _ [_]); [done|done|by intros w; apply Hset1|done|simpl; lia].
  Qed.
  Theorem arena_panics_from_user ls st u : run (astep E) ainit ls = Some st ->
    vpanics u (vsights E ainit ls) <= length (List.filter (λ y, match y with LPanic t => t =? u | _ => false end) ls).
  Proof.
    assert (forall ls s st, run (astep E) s ls = Some st -> lsum panf (a_stack st u) + vpanics u (vsights E s ls) <=
      lsum panf (a_stack s u) + length (List.filter (λ y, match y with LPanic t => t =? u | _ => false end) ls)) as Hg.
    { clear ls st. induction ls as [|y ls IH]; intros s st; simpl.
      - intros [= ->]. lia.
      - assert (length (if match y with LPanic t => t =? u | _ => false end then y :: List.filter (λ y, match y with LPanic t => t =? u | _ => false end) ls else List.filter (λ y, match y with LPanic t => t =? u | _ => false end) ls)
          = is_panic u y + length (List.filter (λ y, match y with LPanic t => t =? u | _ => false end) ls)) as ->.
        { destruct y; try done. simpl. by destruct (t =? u). }
        unfold exec. destruct (astep E s y) as [s1| | |] eqn:Hs; try done.
        + intros Hr. apply IH in Hr. rewrite vpanics_app. pose proof (step_pk u _ _ _ Hs). lia.
        + intros Hr. apply IH in Hr. lia.
        + intros Hr. apply IH in Hr. lia. }
    intros H. apply Hg in H. unfold a_stack at 2 in H. simpl in H. rewrite lookup_empty in H. simpl in H. lia.
  Qed.
End panics.

(** The Arena model with sound calls (no undefined behaviour) and with lawful types. *)
From stdpp Require Import gmap list numbers.
From Verif Require Import Base InternModel InternSpec InternInv InternStep ArenaModel ArenaSpec ArenaInv ArenaStep.
Require Import ZifyBool ZifyNat ZifyN.

Section law.
  Context {V Q : Type} (E : ienv V Q).
  Implicit Types (st : astate V Q) (v d : V) (p : iptr) (o : aop V Q) (f g : aframe V Q) (t ty s r : nat)
    (e : aevent V Q).
  Notation AInv := (AInv E).

  Lemma alk_le st r : alk st r <= 1.
  Proof. unfold alk. destruct (a_locks st !! r); lia. Qed.

  (** While another frame has the lock of [r], nothing happens to [r]. *)
  Lemma aother_same st st' t fs fs' k es g r :
    AInv st -> atrans st st' t fs fs' k es -> aother st t k g -> has_lock r g = 1 ->
    a_arenas st' !! r = a_arenas st !! r /\ a_stored r (a_log st') = a_stored r (a_log st).
  Proof.
    intros HI Htr Hg Hl. destruct Htr.
    pose proof (aother_sum st t fs k (has_lock r) g y_old Hg) as Hs. rewrite (x_locks _ _ HI) in Hs.
    pose proof (alk_le st r).
    destruct (aother_was st t fs k y_old g Hg) as [u Hu].
    assert (a_arena g = Some r) as Ha.
    { destruct g; simpl in *; try done; destruct (Nat.eqb_spec r0 r); subst; done. }
    split.
    - destruct (y_sets r) as [?|[?|Hi]]; [done|lia|].
      rewrite a_idle_spec in Hi. by destruct (Hi u g Hu).
    - rewrite y_log, stored_app. destruct (y_ins r) as [->|?]; [done|lia].
  Qed.

  (** ** Sound calls *)
  Definition misses st r o : Prop := forall p d, (p, d) ∈ a_stored r (a_log st) -> a_match E o d = false.
  Definition sframe st f : Prop :=
    match f with
    | AWait _ o _ | AGet _ o _ => a_sound E o
    | AConv r w q => a_sound E (ARef w q) /\ misses st r (ARef w q)
    | AStore r o _ _ | AIns r o _ _ => a_sound E o /\ misses st r o
    | AKill _ _ _ _ pn => pn = true
    | AMake r _ _ p => p ∈ a_set st r
    | _ => True
    end.
  Definition SInv st : Prop := forall t f, f ∈ a_stack st t -> sframe st f.

  Lemma sframe_stays st st' t fs fs' k es g :
    AInv st -> atrans st st' t fs fs' k es -> aother st t k g -> sframe st g -> sframe st' g.
  Proof.
    intros HI Htr Hg. pose proof (aother_same st st' t fs fs' k es g) as Hsame.
    destruct g as [r o b|r o b|r w q|r o v b|r o b p|r o b p pn|r o b p|r o b m x|r o b m x|r ps]; simpl in *; try done;
      (destruct (Hsame r HI Htr Hg) as [Ha Hs]; [by rewrite Nat.eqb_refl|]);
      unfold misses, a_set; rewrite ?Hs, ?Ha; done.
  Qed.

  Lemma cands_nil_miss st r (h : V -> bool) p d :
    AInv st -> (exists x, a_arenas st !! r = Some x) -> a_cands st h (a_set st r) = [] ->
    (p, d) ∈ a_stored r (a_log st) -> h d = false.
  Proof.
    intros HI [x Hx] Hc Hin. destruct (h d) eqn:Hh; [|done].
    assert (p ∈ a_cands st h (a_set st r)) as Hp.
    { apply a_cands_in. split.
      - unfold a_set. rewrite Hx, (x_stored _ _ HI _ _ Hx). apply elem_of_list_fmap. by exists (p, d).
      - exists d. split; [|done]. apply stored_in in Hin as (t&o&Hin). apply (x_log _ _ HI) in Hin as (_&_&_&Hin).
        destruct (Hin x Hx) as (_&Hp&_). unfold a_read. by rewrite Hp. }
    rewrite Hc in Hp. by apply elem_of_nil in Hp.
  Qed.
  Lemma cands_stored st r x (h : V -> bool) p :
    AInv st -> a_arenas st !! r = Some x -> p ∈ a_cands st h (ar_set x) ->
    exists d, (p, d) ∈ a_stored r (a_log st) /\ h d = true /\ ie_ty E d = ar_ty x.
  Proof.
    intros HI Hx (Hp&d&Hr&Hh)%a_cands_in. destruct (set_pts _ _ _ _ _ HI Hx Hp) as (d'&Hpt&Hin).
    unfold a_read in Hr. destruct Hpt as (Ho&_&Ht). rewrite Ho in Hr. injection Hr as <-. by exists d'.
  Qed.
  Lemma alloc_log st a v st1 p : a_alloc E st a v = Some (st1, p) -> a_log st1 = a_log st /\ a_arenas st1 = a_arenas st.
  Proof. unfold a_alloc. destruct (_ || _); [|done]. by intros [= <- <-]. Qed.

  Lemma amove_sinv st t k fs fs' st' :
    AInv st -> SInv st -> a_stack st t = fs ++ k -> amove E st t k fs fs' st' ->
    (forall r o b, fs = [] -> fs' = [AWait r o b] -> a_sound E o) -> SInv st'.
  Proof.
    intros HI HS Hst Hm Hcall. destruct (amove_ok _ _ _ _ _ _ _ HI Hst Hm) as (es&Htr&HI').
    assert (forall f, f ∈ fs -> aframe_ok E st f) as Hfr.
    { intros f Hf. apply (x_frames _ _ HI t). rewrite Hst. apply elem_of_app. by left. }
    assert (forall f, f ∈ fs -> sframe st f) as Hsf.
    { intros f Hf. apply (HS t). rewrite Hst. apply elem_of_app. by left. }
    intros u f Hf. destruct (aother_in st st' t fs' k (y_new _ _ _ _ _ _ _ Htr) u f Hf) as [[-> Hin]|Ho].
    2: { destruct (aother_was st t fs k Hst f Ho) as [u' Hu]. eapply (sframe_stays st); try done. by apply (HS u'). }
    clear Hf. destruct Hm; try (apply elem_of_list_singleton in Hin; subst f); try (by apply elem_of_nil in Hin); simpl.
    - by apply (Hcall r o None).
    - by apply (Hcall r o (Some p)).
    - apply (Hsf (AWait r o b)). by left.
    - done.
    - split; [apply (Hsf (AGet r o b)); by left|]. intros p d Hpd. eapply (cands_nil_miss st r _ p d HI); try done.
      destruct (Hfr (AGet r o b)) as (ty&(x&Hx&_)&_); [by left|]. by exists x.
    - split; [apply (Hsf (AGet r (ARef w q) b)); by left|]. intros p d Hpd. eapply (cands_nil_miss st r _ p d HI); try done.
      destruct (Hfr (AGet r (ARef w q) b)) as (ty&(x&Hx&_)&_); [by left|]. by exists x.
    - split; [apply (Hsf (AGet r (ABox v) (Some p))); by left|]. intros p' d Hpd. eapply (cands_nil_miss st r _ p' d HI); try done.
      destruct (Hfr (AGet r (ABox v) (Some p))) as (ty&(x&Hx&_)&_); [by left|]. by exists x.
    - apply (Hsf (AConv r w q)). by left.
    - destruct (Hsf (AStore r o v (Some q))) as [? Hmi]; [by left|]. split; [done|].
      unfold misses. simpl. rewrite (free_log _ _ _ _ H). exact Hmi.
    - destruct (Hsf (AStore r o v None)) as [? Hmi]; [by left|]. split; [done|].
      unfold misses. simpl. destruct (alloc_log _ _ _ _ _ H) as [-> _]. exact Hmi.
    - unfold a_set. simpl. rewrite lookup_insert. by left.
    - exfalso. destruct (Hsf (AIns r o b p)) as [Hso Hmi]; [by left|].
      destruct (Hfr (AIns r o b p)) as (ty&v'&(x'&Hx'&Hty)&_&(Hp&_&Hvt)&Hsup&_); [by left|].
      assert (x' = x) as -> by congruence.
      assert (v' = v) as -> by (unfold a_read in H; rewrite Hp in H; simpl in H; congruence).
      destruct (cands_stored _ _ _ _ _ HI H0 H1) as (d&Hd&Hmt&Hdt). apply Hmi in Hd.
      rewrite (Hso v d Hsup) in Hd; [done| |done]. congruence.
    - done.
    - specialize (Hsf (AKill r o b p false)). rewrite elem_of_list_singleton in Hsf. by specialize (Hsf eq_refl).
    - done.
    - done.
    - done.
    - done.
    - done.
    - done.
    - done.
    - done.
    - done.
  Qed.

  Lemma astep_sinv st l st' : AInv st -> SInv st -> (forall t r o a, l = LCall t r o a -> a_sound E o) ->
    astep E st l = Next st' -> SInv st'.
  Proof.
    intros HI HS Hl H. pose proof H as H'. apply astep_move in H' as (t&fs&fs'&k&Hst&Hm&Ht&Hl').
    eapply amove_sinv; try done. intros r o b -> ->. destruct (Hl' r o b eq_refl eq_refl) as [a ->]. by eapply Hl.
  Qed.
  Theorem sound_run ls : (forall t r o a, LCall t r o a ∈ ls -> a_sound E o) ->
    exists st, run (astep E) ainit ls = Some st.
  Proof.
    assert (forall ls st, AInv st -> SInv st -> (forall t r o a, LCall t r o a ∈ ls -> a_sound E o) ->
      exists st', run (astep E) st ls = Some st') as H.
    { clear ls. induction ls as [|l ls IH]; intros st HI HS Hl; simpl; [by exists st|].
      unfold exec. destruct (astep E st l) as [st1| | |] eqn:Hs.
      - apply IH; [by eapply astep_inv|eapply astep_sinv; try done; intros t r o a ->; apply (Hl t r o a); by left|].
        intros t r o a Hin. apply (Hl t r o a). by right.
      - apply IH; [done..|]. intros t r o a Hin. apply (Hl t r o a). by right.
      - apply IH; [done..|]. intros t r o a Hin. apply (Hl t r o a). by right.
      - exfalso. destruct (astep_ub _ _ _ HI Hs) as (t&a&i&r&o&b&p&k&->&Hst&Hn).
        assert (sframe st (AMake r o b p)) as Hp by (apply (HS t); rewrite Hst; by left). simpl in Hp.
        unfold a_set in Hp. destruct (a_arenas st !! r) as [x|] eqn:Hx; [|by apply elem_of_nil in Hp].
        destruct (set_pts _ _ _ _ _ HI Hx Hp) as (v&(Hp'&_)&_). congruence. }
    intros Hl. apply (H ls ainit); [apply ainv_init| |done].
    intros t f Hf. unfold a_stack in Hf. simpl in Hf. rewrite lookup_empty in Hf. by apply elem_of_nil in Hf.
  Qed.
End law.

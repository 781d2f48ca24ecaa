(** Consequences of the Arena invariants, in the form used by the property theorems. *)
From stdpp Require Import gmap list numbers.
From Verif Require Import Base InternModel InternSpec InternInv InternStep ArenaModel ArenaSpec ArenaInv ArenaStep ArenaLaw ArenaLawful.
Require Import ZifyBool ZifyNat ZifyN.

Lemma lsum_le {A} (f g : A -> nat) (l : list A) : (forall x, f x <= g x) -> lsum f l <= lsum g l.
Proof. intros H. induction l as [|x l IH]; simpl; [lia|]. pose proof (H x). lia. Qed.
Lemma lsum_zero {A} (f : A -> nat) (l : list A) : (forall x, x ∈ l -> f x = 0) -> lsum f l = 0.
Proof.
  intros H. induction l as [|x l IH]; simpl; [done|]. rewrite (H x) by (by left). apply IH. intros y Hy. apply H. by right.
Qed.
Lemma lsum_plus {A} (f g : A -> nat) (l : list A) : lsum (λ x, f x + g x) l = lsum f l + lsum g l.
Proof. induction l as [|x l IH]; simpl; [done|]. lia. Qed.

Lemma msum_mono {A} (f g : A -> nat) (m : gmap nat A) : (forall x, f x <= g x) -> msum f m <= msum g m.
Proof.
  intros H. rewrite (msum_ext g (λ x, f x + (g x - f x))); [rewrite msum_add; lia|]. intros k x _. pose proof (H x). lia.
Qed.

Section final.
  Context {V Q : Type} (E : ienv V Q).
  Implicit Types (st : astate V Q) (v d : V) (p : iptr) (o : aop V Q) (f g : aframe V Q) (t ty s r : nat)
    (e : aevent V Q) (l : list (aevent V Q)).
  Notation AInv := (AInv E).

  Lemma msum_lsum_le (w w' : aframe V Q -> nat) (m : gmap nat (list (aframe V Q))) :
    (forall f, w f <= w' f) -> msum (lsum w) m <= msum (lsum w') m.
  Proof. intros H. apply msum_mono. intros k. by apply lsum_le. Qed.

  Lemma freed_lsum p l : freed p l = lsum (freeds (ip_ser p)) l.
  Proof. induction l as [|e l IH]; simpl; [done|]. rewrite IH. by destruct e. Qed.

  (** A block is inserted at most once, into one arena. *)
  Lemma ins_once st r s : AInv st -> lsum (ins r s) (a_log st) <= 1.
  Proof.
    intros HI. pose proof (x_hold _ _ HI r s). pose proof (x_own _ _ HI s). pose proof (x_free _ _ HI s).
    assert (cnt s (a_set st r) <= asum st s).
    { unfold a_set. destruct (a_arenas st !! r) as [x|] eqn:Hx; [by apply (asum_ge st r)|unfold cnt; simpl; lia]. }
    assert (msum (lsum (dcnt r s)) (a_threads st) <= msum (lsum (own s)) (a_threads st)).
    { apply msum_lsum_le. intros []; simpl; try lia. destruct (_ =? r); lia. }
    assert (lsum (leakr r s) (a_log st) <= lsum (leak s) (a_log st)).
    { apply lsum_le. intros []; simpl; try lia. destruct (_ =? r); lia. }
    assert (lsum (freedby r s) (a_log st) <= lsum (freeds s) (a_log st)).
    { apply lsum_le. intros [| | |[w|]| | | |]; simpl; try lia. destruct (_ =? r); lia. }
    unfold lt1 in *. destruct (_ <? _); lia.
  Qed.
  Lemma ins_one_arena st r1 r2 s : AInv st -> r1 <> r2 -> lsum (ins r1 s) (a_log st) + lsum (ins r2 s) (a_log st) <= 1.
  Proof.
    intros HI Hne. pose proof (x_hold _ _ HI r1 s). pose proof (x_hold _ _ HI r2 s). pose proof (x_own _ _ HI s). pose proof (x_free _ _ HI s).
    assert (cnt s (a_set st r1) + cnt s (a_set st r2) <= asum st s).
    { unfold a_set. destruct (a_arenas st !! r1) as [x|] eqn:Hx, (a_arenas st !! r2) as [y|] eqn:Hy.
      - by eapply (msum_ge2 (λ x, cnt s (ar_set x))).
      - pose proof (asum_ge st r1 x s Hx). unfold cnt at 2. simpl. lia.
      - pose proof (asum_ge st r2 y s Hy). unfold cnt at 1. simpl. lia.
      - unfold cnt; simpl; lia. }
    assert (msum (lsum (λ f, dcnt r1 s f + dcnt r2 s f)) (a_threads st) <= msum (lsum (own s)) (a_threads st)).
    { apply msum_lsum_le. intros []; simpl; try lia. destruct (Nat.eqb_spec r r1), (Nat.eqb_spec r r2); lia. }
    assert (msum (lsum (λ f, dcnt r1 s f + dcnt r2 s f)) (a_threads st) =
      msum (lsum (dcnt r1 s)) (a_threads st) + msum (lsum (dcnt r2 s)) (a_threads st)).
    { rewrite <- msum_add. apply msum_ext. intros t k _. apply lsum_plus. }
    assert (lsum (λ e, leakr r1 s e + leakr r2 s e) (a_log st) <= lsum (leak s) (a_log st)).
    { apply lsum_le. intros []; simpl; try lia. destruct (Nat.eqb_spec r r1), (Nat.eqb_spec r r2); lia. }
    assert (lsum (λ e, freedby r1 s e + freedby r2 s e) (a_log st) <= lsum (freeds s) (a_log st)).
    { apply lsum_le. intros [| | |[w|]| | | |]; simpl; try lia. destruct (Nat.eqb_spec w r1), (Nat.eqb_spec w r2); lia. }
    rewrite lsum_plus in *. unfold lt1 in *. destruct (_ <? _); lia.
  Qed.
  Lemma ins_ge t r o p v l : AvIns t r o p v ∈ l -> 1 <= lsum (ins r (ip_ser p)) l.
  Proof. intros H. pose proof (lsum_ge (ins r (ip_ser p)) l _ H) as H'. simpl in H'. rewrite !Nat.eqb_refl in H'. exact H'. Qed.

  (** *** Handles *)
  (** A returned handle of a live arena is in its set. *)
  Lemma ret_in st t r o b p x : AInv st -> AvRet t r o b (AP p) ∈ a_log st -> a_arenas st !! r = Some x ->
    exists v, p ∈ ar_set x /\ apoints E st (ar_ty x) p v /\ (p, v) ∈ a_stored r (a_log st).
  Proof.
    intros HI Hin Hx. apply (x_log _ _ HI) in Hin as (_&Hin&_). pose proof (Hin x p eq_refl Hx) as Hp.
    destruct (set_pts _ _ _ _ _ HI Hx Hp) as (v&?&?). by exists v.
  Qed.
  Lemma read_pts st ty p v d : apoints E st ty p v -> a_read st p = Some d -> d = v.
  Proof. intros (Hp&_). unfold a_read. rewrite Hp. simpl. by intros [= <-]. Qed.
  Lemma stored_pts st r x p v : AInv st -> a_arenas st !! r = Some x -> (p, v) ∈ a_stored r (a_log st) ->
    apoints E st (ar_ty x) p v.
  Proof. intros HI Hx (t&o&Hin)%stored_in. apply (x_log _ _ HI) in Hin as (_&_&_&Hin). by apply Hin. Qed.

  Lemma pts_eq st r1 x1 r2 x2 p1 p2 v1 v2 : AInv st -> a_arenas st !! r1 = Some x1 -> a_arenas st !! r2 = Some x2 ->
    apoints E st (ar_ty x1) p1 v1 -> apoints E st (ar_ty x2) p2 v2 -> ar_ty x1 = ar_ty x2 ->
    iptr_eqb p1 p2 = true -> ip_meta p1 = ip_meta p2 /\
      ((is_zst E v1 = true /\ is_zst E v2 = true) \/ (is_zst E v1 = false /\ ip_ser p1 = ip_ser p2)).
  Proof.
    intros HI Hx1 Hx2 (Hp1&Hm1&Ht1) (Hp2&Hm2&Ht2) Hty He. unfold iptr_eqb in He.
    apply andb_true_iff in He as [Ha%Nat.eqb_eq Hm%Nat.eqb_eq]. split; [done|].
    assert (is_zst E v1 = is_zst E v2) as Hz by (unfold is_zst; congruence).
    destruct (is_zst E v1) eqn:Hz1; [left; by rewrite <- Hz|right]. split; [done|].
    by eapply (x_addr _ _ HI); [exact Hp1|exact Hp2|done|done|simpl].
  Qed.

  Lemma fop_in {A} (R : A -> A -> Prop) (l : list A) x y :
    ForallOrdPairs R l -> x ∈ l -> y ∈ l -> x = y \/ R x y \/ R y x.
  Proof. intros H Hx%elem_of_list_In Hy%elem_of_list_In. by apply ForallOrdPairs_In with (l := l). Qed.

  Lemma uniq_entry st r p1 p2 v1 v2 : ilawful E -> LawInv E st ->
    (p1, v1) ∈ a_stored r (a_log st) -> (p2, v2) ∈ a_stored r (a_log st) -> ie_eq E v1 v2 = true -> p1 = p2 /\ v1 = v2.
  Proof.
    intros HL HW H1 H2 He. pose proof (il_sym _ HL _ _ He) as He'.
    destruct (fop_in _ _ _ _ (z_uniq _ _ HW r) H1 H2) as [Heq|[H|H]]; [by injection Heq as -> ->|simpl in H; congruence..].
  Qed.

  Theorem arena_handles_eq_ty ls st r x t1 o1 b1 p1 t2 o2 b2 p2 v1 v2 :
    ilawful E -> icoherent E -> zst_eq_at E (ar_ty x) -> run (astep E) ainit ls = Some st ->
    AvRet t1 r o1 b1 (AP p1) ∈ a_log st -> AvRet t2 r o2 b2 (AP p2) ∈ a_log st -> a_arenas st !! r = Some x ->
    a_read st p1 = Some v1 -> a_read st p2 = Some v2 ->
    iptr_eqb p1 p2 = ie_eq E v1 v2.
  Proof.
    intros HL HC HZ Hr H1 H2 Hx Hv1 Hv2. destruct (arun_law E HL HC ls) as (st'&Hr'&HI&HW).
    rewrite Hr in Hr'. injection Hr' as <-.
    destruct (ret_in _ _ _ _ _ _ _ HI H1 Hx) as (d1&_&Hp1&Hs1). destruct (ret_in _ _ _ _ _ _ _ HI H2 Hx) as (d2&_&Hp2&Hs2).
    apply (read_pts _ _ _ _ _ Hp1) in Hv1 as ->. apply (read_pts _ _ _ _ _ Hp2) in Hv2 as ->.
    destruct (ie_eq E d1 d2) eqn:He.
    - destruct (uniq_entry _ _ _ _ _ _ HL HW Hs1 Hs2 He) as [-> ->]. unfold iptr_eqb. by rewrite !Nat.eqb_refl.
    - destruct (iptr_eqb p1 p2) eqn:Hpe; [|done]. exfalso.
      destruct (pts_eq _ _ _ _ _ _ _ _ _ HI Hx Hx Hp1 Hp2 eq_refl Hpe) as [Hm [[Hz _]|[_ Hs]]].
      + destruct Hp1 as (_&Hm1&Ht1), Hp2 as (_&Hm2&Ht2). rewrite (HZ d1 d2) in He; [done|congruence..].
      + destruct Hp1 as (Hp1&_), Hp2 as (Hp2&_). rewrite Hs, Hp2 in Hp1. injection Hp1 as _ ->. by rewrite (il_refl _ HL) in He.
  Qed.

  Theorem arena_handles_eq ls st r t1 o1 b1 p1 t2 o2 b2 p2 v1 v2 :
    ilawful E -> icoherent E -> zst_eq E -> run (astep E) ainit ls = Some st ->
    AvRet t1 r o1 b1 (AP p1) ∈ a_log st -> AvRet t2 r o2 b2 (AP p2) ∈ a_log st -> is_Some (a_arenas st !! r) ->
    a_read st p1 = Some v1 -> a_read st p2 = Some v2 ->
    iptr_eqb p1 p2 = ie_eq E v1 v2.
  Proof.
    intros HL HC HZ Hr H1 H2 [x Hx]. eapply arena_handles_eq_ty; try done. intros u v Hu Hv Hz Hm. apply HZ; [done|congruence|done].
  Qed.

  Theorem arena_result_asked ls st r t o b p :
    ilawful E -> icoherent E -> run (astep E) ainit ls = Some st ->
    AvRet t r o b (AP p) ∈ a_log st -> is_Some (a_arenas st !! r) -> exists d, a_read st p = Some d /\ a_asks E o d.
  Proof.
    intros HL HC Hr H1 [x Hx]. destruct (arun_law E HL HC ls) as (st'&Hr'&HI&HW). rewrite Hr in Hr'. injection Hr' as <-.
    destruct (z_log _ _ HW _ H1) as (d&Hd&Ha). exists d. split; [|done].
    destruct (stored_pts _ _ _ _ _ HI Hx Hd) as (Hp&_). unfold a_read. by rewrite Hp.
  Qed.

  Lemma asks_both o d1 d2 : ilawful E -> ie_ty E d1 = ie_ty E d2 -> a_asks E o d1 -> a_asks E o d2 -> ie_eq E d1 d2 = true.
  Proof.
    intros HL Ht. destruct o as [v|w q|v|v]; simpl; intros H1 H2.
    1,3,4: eapply (il_trans _ HL); [exact H1|by apply (il_sym _ HL)].
    rewrite <- (il_borrow_eq _ HL w) by done. eapply (il_qtrans _ HL); [exact H1|by apply (il_qsym _ HL)].
  Qed.

  Theorem arena_same_handle ls st r x t1 o1 b1 p1 t2 o2 b2 p2 d :
    ilawful E -> icoherent E -> run (astep E) ainit ls = Some st -> a_arenas st !! r = Some x ->
    AvRet t1 r o1 b1 (AP p1) ∈ a_log st -> AvRet t2 r o2 b2 (AP p2) ∈ a_log st ->
    ie_ty E d = ar_ty x -> a_asks E o1 d -> a_asks E o2 d -> p1 = p2.
  Proof.
    intros HL HC Hr Hx H1 H2 Ht Ha1 Ha2. destruct (arun_law E HL HC ls) as (st'&Hr'&HI&HW). rewrite Hr in Hr'. injection Hr' as <-.
    destruct (z_log _ _ HW _ H1) as (d1&Hd1&Hk1), (z_log _ _ HW _ H2) as (d2&Hd2&Hk2).
    destruct (stored_pts _ _ _ _ _ HI Hx Hd1) as (_&_&Ht1), (stored_pts _ _ _ _ _ HI Hx Hd2) as (_&_&Ht2).
    eapply (uniq_entry st r p1 p2 d1 d2); try done. eapply (il_trans _ HL _ d).
    - apply (asks_both o1); congruence.
    - apply (asks_both o2); congruence.
  Qed.

  (** *** Validity *)
  (** Entries of an arena stay where they are while it lives. *)
  Lemma stays_step st lb st' r x p y : AInv st -> astep E st lb = Next st' ->
    a_arenas st !! r = Some x -> p ∈ ar_set x -> a_objs st !! ip_ser p = Some y ->
    forall x', a_arenas st' !! r = Some x' -> p ∈ ar_set x' /\ a_objs st' !! ip_ser p = Some y.
  Proof.
    intros HI Hs Hx Hp Hy x' Hx'. apply astep_move in Hs as (t&fs&fs'&k&Hst&Hm&_).
    destruct (amove_ok _ _ _ _ _ _ _ HI Hst Hm) as (es&Htr&HI'). split.
    - destruct (y_back _ _ _ _ _ _ _ Htr r x' Hx') as (x0&Hx0&_&Hin); [by eapply there_lt|].
      rewrite Hx in Hx0. injection Hx0 as <-. by apply Hin.
    - eapply (set_stays E st st' t fs fs' k es); try done; try apply Htr.
  Qed.
  Lemma gone_stays st lb st' r : AInv st -> astep E st lb = Next st' -> r < a_nextr st -> a_arenas st !! r = None -> a_arenas st' !! r = None.
  Proof.
    intros HI Hs Hr Hx. apply astep_move in Hs as (t&fs&fs'&k&Hst&Hm&_).
    destruct (amove_ok _ _ _ _ _ _ _ HI Hst Hm) as (es&Htr&HI').
    destruct (a_arenas st' !! r) as [x'|] eqn:Hx'; [|done].
    destruct (y_back _ _ _ _ _ _ _ Htr r x' Hx' Hr) as (x0&Hx0&_). congruence.
  Qed.
  Lemma nextr_step st lb st' : AInv st -> astep E st lb = Next st' -> a_nextr st <= a_nextr st'.
  Proof.
    intros HI Hs. apply astep_move in Hs as (t&fs&fs'&k&Hst&Hm&_).
    destruct (amove_ok _ _ _ _ _ _ _ HI Hst Hm) as (es&Htr&HI'). apply (y_nextr _ _ _ _ _ _ _ Htr).
  Qed.
  Lemma gone_run ls st st' r : AInv st -> run (astep E) st ls = Some st' -> r < a_nextr st -> a_arenas st !! r = None -> a_arenas st' !! r = None.
  Proof.
    revert st. induction ls as [|lb ls IH]; intros st HI; simpl; [by intros [= <-]|].
    unfold exec. destruct (astep E st lb) as [st1| | |] eqn:Hs; try done; [|by apply IH..].
    intros Hr Hlt Hx. apply (IH st1); [by eapply astep_inv|done| |by eapply gone_stays].
    pose proof (nextr_step _ _ _ HI Hs). lia.
  Qed.
  Lemma stays_run ls st st' r x p y : AInv st -> run (astep E) st ls = Some st' ->
    a_arenas st !! r = Some x -> p ∈ ar_set x -> a_objs st !! ip_ser p = Some y ->
    forall x', a_arenas st' !! r = Some x' -> p ∈ ar_set x' /\ a_objs st' !! ip_ser p = Some y.
  Proof.
    revert st x. induction ls as [|lb ls IH]; intros st x HI; simpl.
    { intros [= <-] Hx Hp Hy x' Hx'. rewrite Hx in Hx'. by injection Hx' as <-. }
    unfold exec. destruct (astep E st lb) as [st1| | |] eqn:Hs; try done; [|by apply IH..].
    intros Hr Hx Hp Hy x' Hx'. destruct (a_arenas st1 !! r) as [x1|] eqn:Hx1.
    - destruct (stays_step _ _ _ _ _ _ _ HI Hs Hx Hp Hy x1 Hx1). apply (IH st1 x1); try done. by eapply astep_inv.
    - rewrite (gone_run ls st1 st' r) in Hx'; [done|by eapply astep_inv|done| |done].
      pose proof (nextr_step _ _ _ HI Hs). pose proof (there_lt _ _ _ _ HI Hx). lia.
  Qed.
  Theorem arena_handle_valid ls1 ls2 st1 st2 t r o b p :
    run (astep E) ainit ls1 = Some st1 -> AvRet t r o b (AP p) ∈ a_log st1 ->
    run (astep E) st1 ls2 = Some st2 -> is_Some (a_arenas st2 !! r) ->
    exists v, a_objs st1 !! ip_ser p = Some (AObj (ip_addr p) v) /\ a_objs st2 !! ip_ser p = Some (AObj (ip_addr p) v).
  Proof.
    intros Hr1 Hin Hr2 [x2 Hx2]. pose proof (areach_inv E _ _ Hr1) as HI.
    pose proof (x_log _ _ HI _ Hin) as (Hlt&_&_).
    destruct (a_arenas st1 !! r) as [x|] eqn:Hx; [|by rewrite (gone_run ls2 st1 st2 r HI) in Hx2].
    destruct (ret_in _ _ _ _ _ _ _ HI Hin Hx) as (v&Hp&(Hy&_)&_). exists v. split; [done|].
    by eapply (stays_run ls2 st1 st2 r x p).
  Qed.

  (** *** Dropping *)
  Lemma ended_gone st r : AInv st -> 1 <= lsum (ended r) (a_log st) ->
    a_arenas st !! r = None /\ msum (lsum (dead r)) (a_threads st) = 0 /\ lsum (ended r) (a_log st) = 1.
  Proof.
    intros HI He. pose proof (x_ends _ _ HI r) as H. unfold there, lt1 in H. destruct (a_arenas st !! r), (_ <? _); try lia.
    split_and!; [done|lia..].
  Qed.
  Lemma dcnt_zero st r s : msum (lsum (dead r)) (a_threads st) = 0 -> msum (lsum (dcnt r s)) (a_threads st) = 0.
  Proof.
    intros H. apply msum_zero. intros t k Hk. apply lsum_zero. intros f Hf.
    pose proof (msum_ge (lsum (dead r)) _ _ _ Hk). pose proof (lsum_ge (dead r) k f Hf).
    destruct f as [| | | | | | | | |r' ps]; try done. simpl in *. destruct (r' =? r); lia.
  Qed.
  Lemma ended_ge r l e : e ∈ l -> ended r e = 1 -> 1 <= lsum (ended r) l.
  Proof. intros H He. pose proof (lsum_ge (ended r) l e H). lia. Qed.
  Lemma freed_le st p : AInv st -> freed p (a_log st) <= 1.
  Proof. intros HI. rewrite freed_lsum. pose proof (x_free _ _ HI (ip_ser p)) as H. unfold lt1 in H. destruct (_ <? _); lia. Qed.
  Lemma leak_split r s (l1 l2 : list (aevent V Q)) ps : lsum (ended r) (l1 ++ AvLeak r ps :: l2) <= 1 ->
    lsum (leakr r s) (l1 ++ AvLeak r ps :: l2) = cnt s ps.
  Proof.
    assert (forall l : list (aevent V Q), lsum (ended r) l = 0 -> lsum (leakr r s) l = 0) as Hz.
    { intros l H. apply lsum_zero. intros e He. pose proof (lsum_ge (ended r) l e He).
      destruct e; simpl in *; try done. destruct (_ =? r); lia. }
    rewrite !lsum_app. simpl. rewrite Nat.eqb_refl. intros H. rewrite (Hz l1), (Hz l2) by lia. lia.
  Qed.
  Theorem arena_drop_frees ls st t r o p v :
    run (astep E) ainit ls = Some st -> AvGone r ∈ a_log st -> AvIns t r o p v ∈ a_log st ->
    freed p (a_log st) = 1 /\ a_objs st !! ip_ser p = None.
  Proof.
    intros Hr Hg Hi. pose proof (areach_inv E _ _ Hr) as HI.
    destruct (ended_gone st r HI) as (Hx&Hd&He). { eapply ended_ge; [exact Hg|]. simpl. by rewrite Nat.eqb_refl. }
    pose proof (x_hold _ _ HI r (ip_ser p)) as H. rewrite (dcnt_zero st r) in H by done.
    pose proof (ins_ge _ _ _ _ _ _ Hi). unfold a_set in H. rewrite Hx in H. change (cnt (ip_ser p) []) with 0 in H.
    assert (lsum (leakr r (ip_ser p)) (a_log st) = 0) as Hl.
    { apply lsum_zero. intros e Hin. destruct e as [| | | | | | |r' ps]; simpl; try done.
      destruct (Nat.eqb_spec r' r) as [->|]; [|done]. exfalso.
      apply elem_of_list_split in Hin as (l1&l2&Hl). rewrite Hl in Hg, He. rewrite lsum_app in He. simpl in He.
      rewrite Nat.eqb_refl in He. apply elem_of_app in Hg as [Hg|[Hg|Hg]%elem_of_cons]; [|done|];
        (eapply (ended_ge r) in Hg; [|simpl; by rewrite Nat.eqb_refl]); lia. }
    assert (lsum (freedby r (ip_ser p)) (a_log st) <= lsum (freeds (ip_ser p)) (a_log st)).
    { apply lsum_le. intros [| | |[w|]| | | |]; simpl; try lia. destruct (_ =? r); lia. }
    pose proof (x_free _ _ HI (ip_ser p)) as Hf. rewrite freed_lsum. unfold lt1, alive in Hf.
    destruct (_ <? _), (a_objs st !! _); try lia. split; [lia|done].
  Qed.
  Theorem arena_drop_leaks ls st t r o p v ps :
    run (astep E) ainit ls = Some st -> AvLeak r ps ∈ a_log st -> AvIns t r o p v ∈ a_log st ->
    freed p (a_log st) = if bool_decide (ip_ser p ∈ ip_ser <$> ps) then 0 else 1.
  Proof.
    intros Hr Hg Hi. pose proof (areach_inv E _ _ Hr) as HI.
    destruct (ended_gone st r HI) as (Hx&Hd&He). { eapply ended_ge; [exact Hg|]. simpl. by rewrite Nat.eqb_refl. }
    pose proof (x_hold _ _ HI r (ip_ser p)) as H. rewrite (dcnt_zero st r) in H by done.
    pose proof (ins_ge _ _ _ _ _ _ Hi). pose proof (ins_once st r (ip_ser p) HI).
    unfold a_set in H. rewrite Hx in H. change (cnt (ip_ser p) []) with 0 in H.
    apply elem_of_list_split in Hg as (l1&l2&Hl).
    assert (lsum (leakr r (ip_ser p)) (a_log st) = cnt (ip_ser p) ps) as Hc. { rewrite Hl. apply leak_split. rewrite <- Hl. lia. }
    assert (lsum (freedby r (ip_ser p)) (a_log st) <= lsum (freeds (ip_ser p)) (a_log st)).
    { apply lsum_le. intros [| | |[w|]| | | |]; simpl; try lia. destruct (_ =? r); lia. }
    pose proof (freed_le st p HI) as Hf. rewrite freed_lsum in Hf |- *.
    assert (lsum (leakr r (ip_ser p)) (a_log st) <= lsum (leak (ip_ser p)) (a_log st)).
    { apply lsum_le. intros []; simpl; try lia. destruct (_ =? r); lia. }
    pose proof (x_own _ _ HI (ip_ser p)). pose proof (x_free _ _ HI (ip_ser p)) as Hf'.
    assert (lt1 (ip_ser p) (a_next st) <= 1) by (unfold lt1; destruct (_ <? _); lia).
    destruct (bool_decide_reflect (ip_ser p ∈ ip_ser <$> ps)) as [Hin|Hin].
    - apply elem_of_list_fmap in Hin as (p'&Hs&Hin). apply cnt_in in Hin. rewrite <- Hs in Hin. lia.
    - assert (cnt (ip_ser p) ps = 0); [|lia]. apply lsum_zero. intros p' Hp'. simpl.
      destruct (Nat.eqb_spec (ip_ser p') (ip_ser p)) as [Heq|]; [|done]. destruct Hin. apply elem_of_list_fmap. by exists p'.
  Qed.
  (** Every free of an arena's block is by the drop of that arena... *)
  Theorem arena_freed_by ls st t r o p v w p' :
    run (astep E) ainit ls = Some st -> AvIns t r o p v ∈ a_log st -> AvFree w p' ∈ a_log st -> ip_ser p' = ip_ser p ->
    w = Some r.
  Proof.
    intros Hr Hi Hf Hs. pose proof (areach_inv E _ _ Hr) as HI. pose proof (ins_ge _ _ _ _ _ _ Hi).
    pose proof (x_hold _ _ HI r (ip_ser p)) as H'. pose proof (x_own _ _ HI (ip_ser p)). pose proof (x_free _ _ HI (ip_ser p)).
    assert (cnt (ip_ser p) (a_set st r) <= asum st (ip_ser p)).
    { unfold a_set. destruct (a_arenas st !! r) as [x|] eqn:Hx; [by apply (asum_ge st r)|unfold cnt; simpl; lia]. }
    assert (msum (lsum (dcnt r (ip_ser p))) (a_threads st) <= msum (lsum (own (ip_ser p))) (a_threads st)).
    { apply msum_lsum_le. intros []; simpl; try lia. destruct (_ =? r); lia. }
    assert (lsum (leakr r (ip_ser p)) (a_log st) <= lsum (leak (ip_ser p)) (a_log st)).
    { apply lsum_le. intros []; simpl; try lia. destruct (_ =? r); lia. }
    assert (lt1 (ip_ser p) (a_next st) <= 1) by (unfold lt1; destruct (_ <? _); lia).
    destruct (decide (w = Some r)) as [|Hne]; [done|exfalso].
    apply elem_of_list_split in Hf as (l1&l2&Hl).
    assert (lsum (freedby r (ip_ser p)) (a_log st) + 1 <= lsum (freeds (ip_ser p)) (a_log st)).
    { assert (forall l : list (aevent V Q), lsum (freedby r (ip_ser p)) l <= lsum (freeds (ip_ser p)) l) as Hle.
      { intros l. apply lsum_le. intros [| | |[w'|]| | | |]; simpl; try lia. destruct (_ =? r); lia. }
      rewrite Hl, !lsum_app. simpl. rewrite Hs, Nat.eqb_refl. pose proof (Hle l1). pose proof (Hle l2).
      destruct w as [w|]; [|lia]. destruct (Nat.eqb_spec w r); [congruence|lia]. }
    lia.
  Qed.
  (** ... and the drop of an arena frees nothing else. *)
  Theorem arena_frees_own ls st r p :
    run (astep E) ainit ls = Some st -> AvFree (Some r) p ∈ a_log st ->
    exists t o p' v, AvIns t r o p' v ∈ a_log st /\ ip_ser p' = ip_ser p.
  Proof.
    intros Hr Hf. pose proof (areach_inv E _ _ Hr) as HI. pose proof (x_hold _ _ HI r (ip_ser p)).
    pose proof (lsum_ge (freedby r (ip_ser p)) _ _ Hf) as Hge. simpl in Hge. rewrite !Nat.eqb_refl in Hge.
    assert (1 <= lsum (ins r (ip_ser p)) (a_log st)) as Hi by lia. clear -Hi.
    induction (a_log st) as [|e l IH]; simpl in Hi; [lia|].
    destruct (decide (1 <= lsum (ins r (ip_ser p)) l)) as [Hl|Hl].
    { destruct (IH Hl) as (t&o&p'&v&?&?). exists t, o, p', v. split; [by right|done]. }
    destruct e as [t r' o p' v| | | | | | |]; simpl in Hi; try lia.
    destruct (Nat.eqb_spec r' r) as [->|]; [|lia]. destruct (Nat.eqb_spec (ip_ser p') (ip_ser p)); [|lia].
    exists t, o, p', v. split; [by left|done].
  Qed.
  (** Nothing is freed before the drop starts. *)
  Lemma drop_logged ls st r : run (astep E) ainit ls = Some st -> r < a_nextr st -> a_arenas st !! r = None -> AvDrop r ∈ a_log st.
  Proof.
    intros Hr. assert (AInv st /\ forall r, r < a_nextr st -> a_arenas st !! r = None -> AvDrop r ∈ a_log st) as [_ H]; [|by apply H].
    revert Hr. apply (run_inv_weak (astep E) (λ st, AInv st /\ forall r, r < a_nextr st -> a_arenas st !! r = None -> AvDrop r ∈ a_log st)).
    2: { split; [apply ainv_init|]. simpl. intros. lia. }
    clear. intros st lb st' [HI IH] Hs. split; [by eapply astep_inv|]. intros r Hlt Hx.
    apply astep_move in Hs as (t&fs&fs'&k&Hst&Hm&_).
    destruct (amove_ok _ _ _ _ _ _ _ HI Hst Hm) as (es&Htr&HI'). pose proof (y_log _ _ _ _ _ _ _ Htr) as Hlog.
    assert (r < a_nextr st -> a_arenas st !! r = None -> AvDrop r ∈ a_log st') as Hold.
    { intros H1 H2. rewrite Hlog. apply elem_of_app. right. by apply IH. }
    destruct (a_arenas st !! r) as [x|] eqn:Hx0.
    - clear Hlog Htr. destruct Hm; simpl in Hx; try congruence.
      + destruct (a_alloc_spec E _ _ _ _ _ HI H2) as (->&_). simpl in Hx. congruence.
      + pose proof (free_same _ _ _ _ H) as Hsame. intuition congruence.
      + destruct (a_alloc_spec E _ _ _ _ _ HI H) as (->&_). simpl in Hx. congruence.
      + apply lookup_insert_None in Hx as [Hx _]. congruence.
      + pose proof (free_same _ _ _ _ H) as Hsame. intuition congruence.
      + pose proof (free_same _ _ _ _ H) as Hsame. intuition congruence.
      + pose proof (free_same _ _ _ _ H) as Hsame. intuition congruence.
      + pose proof (free_same _ _ _ _ H) as Hsame. intuition congruence.
      + pose proof (free_same _ _ _ _ H) as Hsame. intuition congruence.
      + apply lookup_insert_None in Hx as [Hx _]. congruence.
      + apply lookup_delete_None in Hx as [->|Hx]; [by left|congruence].
    - destruct (decide (r < a_nextr st)) as [Hlt'|Hge]; [by apply Hold|]. exfalso.
      pose proof (y_ends _ _ _ _ _ _ _ Htr r) as He. unfold there, lt1 in He. rewrite Hx0, Hx in He.
      clear Hlog Htr. destruct Hm; simpl in Hlt, Hx; try lia.
      + destruct (a_alloc_spec E _ _ _ _ _ HI H2) as (->&_). simpl in Hlt. lia.
      + pose proof (free_same _ _ _ _ H) as Hsame. intuition lia.
      + destruct (a_alloc_spec E _ _ _ _ _ HI H) as (->&_). simpl in Hlt. lia.
      + pose proof (free_same _ _ _ _ H) as Hsame. intuition lia.
      + pose proof (free_same _ _ _ _ H) as Hsame. intuition lia.
      + pose proof (free_same _ _ _ _ H) as Hsame. intuition lia.
      + pose proof (free_same _ _ _ _ H) as Hsame. intuition lia.
      + pose proof (free_same _ _ _ _ H) as Hsame. intuition lia.
      + assert (r = a_nextr st) as -> by lia. by rewrite lookup_insert in Hx.
  Qed.
  Theorem arena_not_before ls st t r o p v :
    run (astep E) ainit ls = Some st -> AvIns t r o p v ∈ a_log st -> AvDrop r ∉ a_log st ->
    freed p (a_log st) = 0 /\ a_read st p = Some v.
  Proof.
    intros Hr Hi Hd. pose proof (areach_inv E _ _ Hr) as HI. pose proof (x_log _ _ HI _ Hi) as (Hlt&_&_&Hin).
    destruct (a_arenas st !! r) as [x|] eqn:Hx; [|by destruct Hd; eapply drop_logged].
    destruct (Hin x eq_refl) as (_&Hp&_). unfold a_read. rewrite Hp. split; [|done].
    rewrite freed_lsum. pose proof (x_free _ _ HI (ip_ser p)) as Hf. unfold alive, lt1 in Hf. rewrite Hp in Hf.
    destruct (_ <? _); lia.
  Qed.
  Theorem arena_no_leak ls st :
    run (astep E) ainit ls = Some st -> (forall t, a_stack st t = []) -> a_arenas st = ∅ ->
    (forall r ps, AvLeak r ps ∉ a_log st) -> a_objs st = ∅.
  Proof.
    intros Hr Hst Ha Hl. pose proof (areach_inv E _ _ Hr) as HI. apply map_empty. intros s.
    pose proof (x_own _ _ HI s) as H. unfold asum in H. rewrite Ha, msum_empty in H.
    assert (msum (lsum (own s)) (a_threads st) = 0) as H1.
    { apply msum_zero. intros t k Hk. specialize (Hst t). unfold a_stack in Hst. rewrite Hk in Hst. simpl in Hst. by subst k. }
    assert (lsum (leak s) (a_log st) = 0) as H2.
    { apply lsum_zero. intros e He. destruct e; try done. by destruct (Hl r ps). }
    unfold alive in H. destruct (a_objs st !! s); [lia|done].
  Qed.

  (** *** Boxes *)
  Theorem arena_box ls st t r v b x :
    run (astep E) ainit ls = Some st -> AvRet t r (ABox v) b x ∈ a_log st ->
    exists p, b = Some p /\
      ((x = AP p /\ exists t', AvIns t' r (ABox v) p v ∈ a_log st) \/
       (freed p (a_log st) = 1 /\ forall t' r' o' p' v', AvIns t' r' o' p' v' ∈ a_log st -> ip_ser p' <> ip_ser p)).
  Proof.
    intros Hr Hin. pose proof (areach_inv E _ _ Hr) as HI. pose proof (x_log _ _ HI _ Hin) as (_&_&p&->&[[-> Hi]|Hf]).
    - exists p. split; [done|]. by left.
    - exists p. split; [done|]. right. split.
      + pose proof (freed_le st p HI). rewrite freed_lsum in *. pose proof (lsum_ge (freeds (ip_ser p)) _ _ Hf) as Hge.
        simpl in Hge. rewrite Nat.eqb_refl in Hge. lia.
      + intros t' r' o' p' v' Hi Hs. symmetry in Hs. pose proof (arena_freed_by _ _ _ _ _ _ _ _ _ Hr Hi Hf Hs). done.
  Qed.

  (** *** Several arenas *)
  Theorem arenas_differ ls st r1 r2 x1 x2 t1 o1 b1 p1 t2 o2 b2 p2 v1 :
    run (astep E) ainit ls = Some st -> r1 <> r2 -> a_arenas st !! r1 = Some x1 -> a_arenas st !! r2 = Some x2 ->
    ar_ty x1 = ar_ty x2 -> AvRet t1 r1 o1 b1 (AP p1) ∈ a_log st -> AvRet t2 r2 o2 b2 (AP p2) ∈ a_log st ->
    a_read st p1 = Some v1 -> is_zst E v1 = false -> iptr_eqb p1 p2 = false.
  Proof.
    intros Hr Hne Hx1 Hx2 Hty H1 H2 Hv Hz. pose proof (areach_inv E _ _ Hr) as HI.
    destruct (ret_in _ _ _ _ _ _ _ HI H1 Hx1) as (d1&_&Hp1&Hs1). destruct (ret_in _ _ _ _ _ _ _ HI H2 Hx2) as (d2&_&Hp2&Hs2).
    apply (read_pts _ _ _ _ _ Hp1) in Hv as ->. destruct (iptr_eqb p1 p2) eqn:He; [|done]. exfalso.
    destruct (pts_eq _ _ _ _ _ _ _ _ _ HI Hx1 Hx2 Hp1 Hp2 Hty He) as [_ [[? _]|[_ Hs]]]; [congruence|].
    apply stored_in in Hs1 as (?&?&Hi1), Hs2 as (?&?&Hi2). apply ins_ge in Hi1, Hi2.
    pose proof (ins_one_arena st r1 r2 (ip_ser p1) HI Hne). rewrite <- Hs in Hi2. lia.
  Qed.
  Theorem arenas_zst_equal ls st r1 r2 x1 x2 t1 o1 b1 p1 t2 o2 b2 p2 v1 v2 :
    run (astep E) ainit ls = Some st -> a_arenas st !! r1 = Some x1 -> a_arenas st !! r2 = Some x2 ->
    ar_ty x1 = ar_ty x2 -> AvRet t1 r1 o1 b1 (AP p1) ∈ a_log st -> AvRet t2 r2 o2 b2 (AP p2) ∈ a_log st ->
    a_read st p1 = Some v1 -> a_read st p2 = Some v2 -> is_zst E v1 = true -> ie_meta E v1 = ie_meta E v2 -> iptr_eqb p1 p2 = true.
  Proof.
    intros Hr Hx1 Hx2 Hty H1 H2 Hv1 Hv2 Hz Hm. pose proof (areach_inv E _ _ Hr) as HI.
    destruct (ret_in _ _ _ _ _ _ _ HI H1 Hx1) as (d1&_&Hp1&Hs1). destruct (ret_in _ _ _ _ _ _ _ HI H2 Hx2) as (d2&_&Hp2&Hs2).
    apply (read_pts _ _ _ _ _ Hp1) in Hv1 as ->. apply (read_pts _ _ _ _ _ Hp2) in Hv2 as ->.
    destruct Hp1 as (Hp1&Hm1&Ht1), Hp2 as (Hp2&Hm2&Ht2). unfold iptr_eqb.
    assert (is_zst E d2 = true) as Hz2. { unfold is_zst in *. congruence. }
    pose proof (x_zaddr _ _ HI _ _ Hp1 Hz) as Ha1. pose proof (x_zaddr _ _ HI _ _ Hp2 Hz2) as Ha2. simpl in *.
    rewrite Hm1, Hm2, Hm, Nat.eqb_refl, andb_true_r. apply Nat.eqb_eq. congruence.
  Qed.
End final.

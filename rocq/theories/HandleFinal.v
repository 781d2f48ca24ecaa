(** Proofs for C49. *)
From stdpp Require Import gmap list numbers.
From Verif Require Import Base ArcModel ArcSpec ArcInv ArcFinal InternModel InternSpec InternInv InternFinal
  NewModel NewFinal HandleModel HandleSpec.
From Verif Require ArcProps ArenaModel ArenaInv ArenaStep ArenaFinal.

Lemma handle_same {P V} (rd : P -> option V) (O : ops V) p q u v :
  rd p = Some u -> rd q = Some v -> same_results (handle_ops rd O) O p q u v.
Proof. intros Hp Hq. unfold same_results, handle_ops, via. simpl. by rewrite Hp, Hq. Qed.
Lemma handle_order {P V} (rd : P -> option V) (O : ops V) (H : P -> Prop) (HV : V -> Prop) eqb eqv :
  (forall p, H p -> exists u, rd p = Some u /\ HV u) ->
  (forall p q u v, H p -> H q -> rd p = Some u -> rd q = Some v -> eqb p q = eqv u v) ->
  total_order HV eqv O -> total_order H eqb (handle_ops rd O).
Proof.
  intros Hrd Heq [HO HT]. split.
  - intros p q Hp Hq. destruct (Hrd p Hp) as (u&Hu&Hu'), (Hrd q Hq) as (v&Hv&Hv').
    destruct (HO u v Hu' Hv') as (c&H1&H2&H3&H4&H5&H6&H7&H8). exists c. simpl. unfold via. rewrite Hu, Hv.
    split_and!; try done; rewrite (Heq p q u v) by done; by apply H8.
  - intros p q r c Hp Hq Hr. destruct (Hrd p Hp) as (u&Hu&Hu'), (Hrd q Hq) as (v&Hv&Hv'), (Hrd r Hr) as (w&Hw&Hw').
    simpl. unfold via. rewrite Hu, Hv, Hw. by apply HT.
Qed.
Lemma words_eq fat p q : iptr_eqb p q = true -> hash_words fat p = hash_words fat q.
Proof.
  unfold iptr_eqb, hash_words. rewrite andb_true_iff, !Nat.eqb_eq. intros [-> ->]. done.
Qed.
Lemma words_inj fat p q : (fat = false -> ip_meta p = ip_meta q) -> hash_words fat p = hash_words fat q -> iptr_eqb p q = true.
Proof.
  unfold iptr_eqb, hash_words. rewrite andb_true_iff, !Nat.eqb_eq. destruct fat; [by intros _ [= -> ->]|].
  intros H [= ->]. by rewrite H.
Qed.

Section arc.
  Context {V : Type} (E : tyenv V) (HL : lawful E) (HW : wide E).
  Theorem arc_same (O : ops V) ls st p q :
    bounded E ls -> run (step E) init ls = Some st -> alive E st p -> alive E st q ->
    exists u v, data st p = Some u /\ data st q = Some v /\ same_results (handle_ops (data st) O) O p q u v.
  Proof.
    intros Hb Hr Hp Hq. destruct (handles_eq_iff E HL HW ls st p q Hb Hr Hp Hq) as (u&v&Hu&Hv&_).
    exists u, v. split_and!; [done|done|]. by apply handle_same.
  Qed.
  Theorem arc_order (O : ops V) ls st ty :
    bounded E ls -> run (step E) init ls = Some st ->
    total_order (λ v, te_ty E v = ty) (te_eq E) O ->
    total_order (live_object E st ty) handle_eqb (handle_ops (data st) O).
  Proof.
    intros Hb Hr. apply handle_order.
    - intros p (_&u&?&?). by exists u.
    - intros p q u v [Hp _] [Hq _] Hu Hv. destruct (handles_eq_iff E HL HW ls st p q Hb Hr Hp Hq) as (u'&v'&Hu'&Hv'&->).
      by simplify_eq.
  Qed.
  Theorem arc_hash_iff meta ls st p q :
    bounded E ls -> run (step E) init ls = Some st -> alive E st p -> alive E st q ->
    is_Some (arc_hash_words meta st p) /\
    (handle_eqb p q = true <-> arc_hash_words meta st p = arc_hash_words meta st q) /\
    arc_ptr_eq meta st p q = Some (handle_eqb p q).
  Proof.
    intros Hb Hr Hp Hq. destruct (handles_eq_iff E HL HW ls st p q Hb Hr Hp Hq) as (u&v&Hu&Hv&_).
    assert (handle_eqb p q = true -> u = v) as Hs.
    { intros He. assert (p = q) as -> by (eapply (ArcProps.addr_inj E (lawful_coherent E HL) HW); done). congruence. }
    unfold arc_hash_words, arc_ptr_eq, via. rewrite Hu, Hv. simpl. split_and!; [by eexists| |].
    - split.
      + intros He. rewrite (Hs He). unfold handle_eqb in He. apply Nat.eqb_eq in He. by rewrite He.
      + intros [= He _]. unfold handle_eqb. by apply Nat.eqb_eq.
    - f_equal. destruct (handle_eqb p q) eqn:He; [|done]. rewrite (Hs eq_refl). by rewrite bool_decide_true.
  Qed.
End arc.

Section intern.
  Context {V Q : Type} (E : ienv V Q).
  Theorem intern_same (O : ops V) ls1 ls2 st1 st2 t1 o1 p1 t2 o2 p2 :
    run (istep E) iinit ls1 = Some st1 -> EvRet t1 o1 (RPtr p1) ∈ i_log st1 -> EvRet t2 o2 (RPtr p2) ∈ i_log st1 ->
    run (istep E) st1 ls2 = Some st2 ->
    exists v1 v2, iread st1 p1 = Some v1 /\ iread st1 p2 = Some v2 /\
      same_results (handle_ops (iread st2) O) O p1 p2 v1 v2.
  Proof.
    intros Hr1 H1 H2 Hr2.
    destruct (handle_valid E _ _ _ _ _ _ _ Hr1 H1 Hr2) as (v1&_&_&A1&A2&_).
    destruct (handle_valid E _ _ _ _ _ _ _ Hr1 H2 Hr2) as (v2&_&_&B1&B2&_).
    exists v1, v2. split_and!; [by unfold iread; rewrite A1|by unfold iread; rewrite B1|].
    apply handle_same; [by unfold iread; rewrite A2|by unfold iread; rewrite B2].
  Qed.
  Theorem intern_order (O : ops V) ls st ty :
    ilawful E -> icoherent E -> zst_eq E -> no_clear ls -> run (istep E) iinit ls = Some st ->
    total_order (λ v, ie_ty E v = ty) (ie_eq E) O ->
    total_order (λ p, exists t o, EvRet t o (RPtr p) ∈ i_log st /\ op_ty E o = ty) iptr_eqb (handle_ops (iread st) O).
  Proof.
    intros HL HC HZ Hn Hr. apply handle_order.
    - intros p (t&o&Hin&Hty). destruct (handle_valid E ls [] st st t o p Hr Hin eq_refl) as (v&Hv&_&Ho&_).
      exists v. split; [by unfold iread; rewrite Ho|congruence].
    - intros p q u v (t1&o1&H1&<-) (t2&o2&H2&Ht) Hu Hv. by apply (handles_eq E ls st t1 o1 p t2 o2 q).
  Qed.
  Theorem intern_hash fat ls st t1 o1 p1 t2 o2 p2 :
    (fat = false -> forall u v, ie_ty E u = op_ty E o1 -> ie_ty E v = op_ty E o1 -> ie_meta E u = ie_meta E v) ->
    run (istep E) iinit ls = Some st -> EvRet t1 o1 (RPtr p1) ∈ i_log st -> EvRet t2 o2 (RPtr p2) ∈ i_log st ->
    op_ty E o1 = op_ty E o2 ->
    (iptr_eqb p1 p2 = true <-> hash_words fat p1 = hash_words fat p2).
  Proof.
    intros Hf Hr H1 H2 Ht.
    destruct (handle_valid E ls [] st st _ _ _ Hr H1 eq_refl) as (v1&A1&A2&_).
    destruct (handle_valid E ls [] st st _ _ _ Hr H2 eq_refl) as (v2&B1&B2&_).
    split; [apply words_eq|]. apply words_inj. intros Hfat. rewrite A2, B2. apply (Hf Hfat); congruence.
  Qed.

  Theorem new_same (O : ops V) ls1 ls2 s1 s2 t1 o1 p1 t2 o2 p2 :
    run (nstep E) ninit ls1 = Some s1 -> EvRet t1 o1 (RPtr p1) ∈ n_log s1 -> EvRet t2 o2 (RPtr p2) ∈ n_log s1 ->
    run (nstep E) s1 ls2 = Some s2 ->
    exists v1 v2, iread (nmem s1) p1 = Some v1 /\ iread (nmem s1) p2 = Some v2 /\
      same_results (handle_ops (iread (nmem s2)) O) O p1 p2 v1 v2.
  Proof.
    intros Hr1 H1 H2 Hr2.
    destruct (n_handle_valid E _ _ _ _ _ _ _ Hr1 H1 Hr2) as (v1&_&_&A1&A2&_).
    destruct (n_handle_valid E _ _ _ _ _ _ _ Hr1 H2 Hr2) as (v2&_&_&B1&B2&_).
    unfold iread. change (i_objs (nmem s1)) with (n_objs s1). change (i_objs (nmem s2)) with (n_objs s2).
    exists v1, v2. split_and!; [by rewrite A1|by rewrite B1|].
    apply handle_same; [by rewrite A2|by rewrite B2].
  Qed.
  Theorem new_order (O : ops V) ls s ty :
    ilawful E -> icoherent E -> zst_eq E -> no_clear ls -> run (nstep E) ninit ls = Some s ->
    total_order (λ v, ie_ty E v = ty) (ie_eq E) O ->
    total_order (λ p, exists t o, EvRet t o (RPtr p) ∈ n_log s /\ op_ty E o = ty) iptr_eqb (handle_ops (iread (nmem s)) O).
  Proof.
    intros HL HC HZ Hn Hr. apply handle_order.
    - intros p (t&o&Hin&Hty). destruct (n_handle_valid E ls [] s s t o p Hr Hin eq_refl) as (v&Hv&_&Ho&_).
      exists v. split; [|congruence]. unfold iread. change (i_objs (nmem s)) with (n_objs s). by rewrite Ho.
    - intros p q u v (t1&o1&H1&<-) (t2&o2&H2&Ht) Hu Hv. by apply (n_unique E ls s t1 o1 p t2 o2 q).
  Qed.
  Theorem new_hash fat ls s t1 o1 p1 t2 o2 p2 :
    (fat = false -> forall u v, ie_ty E u = op_ty E o1 -> ie_ty E v = op_ty E o1 -> ie_meta E u = ie_meta E v) ->
    run (nstep E) ninit ls = Some s -> EvRet t1 o1 (RPtr p1) ∈ n_log s -> EvRet t2 o2 (RPtr p2) ∈ n_log s ->
    op_ty E o1 = op_ty E o2 ->
    (iptr_eqb p1 p2 = true <-> hash_words fat p1 = hash_words fat p2).
  Proof.
    intros Hf Hr H1 H2 Ht.
    destruct (n_handle_valid E ls [] s s _ _ _ Hr H1 eq_refl) as (v1&A1&A2&_).
    destruct (n_handle_valid E ls [] s s _ _ _ Hr H2 eq_refl) as (v2&B1&B2&_).
    split; [apply words_eq|]. apply words_inj. intros Hfat. rewrite A2, B2. apply (Hf Hfat); congruence.
  Qed.

  Import ArenaModel ArenaInv ArenaFinal.
  Theorem arena_hash fat ls st r x t1 o1 b1 p1 t2 o2 b2 p2 :
    (fat = false -> forall u v, ie_ty E u = ar_ty x -> ie_ty E v = ar_ty x -> ie_meta E u = ie_meta E v) ->
    run (astep E) ainit ls = Some st -> a_arenas st !! r = Some x ->
    AvRet t1 r o1 b1 (AP p1) ∈ a_log st -> AvRet t2 r o2 b2 (AP p2) ∈ a_log st ->
    (iptr_eqb p1 p2 = true <-> hash_words fat p1 = hash_words fat p2).
  Proof.
    intros Hf Hr Hx H1 H2. pose proof (ArenaStep.areach_inv E ls st Hr) as HI.
    destruct (ret_in E st _ _ _ _ _ x HI H1 Hx) as (v1&_&(_&A2&A1)&_).
    destruct (ret_in E st _ _ _ _ _ x HI H2 Hx) as (v2&_&(_&B2&B1)&_).
    split; [apply words_eq|]. apply words_inj. intros Hfat. rewrite A2, B2. apply (Hf Hfat); congruence.
  Qed.
End intern.

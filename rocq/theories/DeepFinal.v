(** Proofs for C47, C48. *)
From stdpp Require Import gmap list numbers.
From Verif Require DstModel.
From Verif Require Import Base ArcModel ArcSpec ArcInv ArcReach ArcLen ArcProps InternModel InternSpec InternInv InternFinal
  ArenaModel ArenaSpec ArenaInv ArenaStep ArenaFinal DeepModel DeepSpec.
Local Open Scope N_scope.

Lemma nsum_app {A} (f : A -> N) l1 l2 : nsum f (l1 ++ l2) = nsum f l1 + nsum f l2.
Proof. induction l1; simpl; lia. Qed.
Lemma nsum_perm {A} (f : A -> N) l1 l2 : l1 ≡ₚ l2 -> nsum f l1 = nsum f l2.
Proof. induction 1; simpl; lia. Qed.
Lemma nsum_add {A} (f g : A -> N) l : nsum (λ x, f x + g x) l = nsum f l + nsum g l.
Proof. induction l; simpl; lia. Qed.
Lemma nsum_ext {A} (f g : A -> N) l : (forall x, x ∈ l -> f x = g x) -> nsum f l = nsum g l.
Proof.
  induction l as [|x l IH]; simpl; intros H; [done|].
  rewrite (H x) by left. rewrite IH; [done|]. intros y Hy. apply H. by right.
Qed.
Lemma nsum_0 {A} (f : A -> N) l : (forall x, x ∈ l -> f x = 0) -> nsum f l = 0.
Proof.
  intros H. induction l as [|x l IH]; simpl; [done|]. rewrite (H x) by left.
  rewrite IH; [done|]. intros y Hy. apply H. by right.
Qed.

Section deep.
  Context {V : Type} (D : denv V).
  (** What is reported per field, all in all. *)
  Definition rep (x : piece) : N := owned_bytes x + surplus D x.
  Definition srep (a : nat) : N := shared_size D a + shared_surplus D a.
  Definition ssum (f : nat -> N) (X : gset nat) : N := nsum f (elements X).

  Lemma ssum_empty f : ssum f ∅ = 0.
  Proof. unfold ssum. by rewrite elements_empty. Qed.
  Lemma ssum_insert f a X : a ∉ X -> ssum f ({[a]} ∪ X) = f a + ssum f X.
  Proof. intros H. unfold ssum. by rewrite (nsum_perm _ _ _ (elements_union_singleton X a H)). Qed.
  Lemma ssum_diff f a c c' : a ∉ c -> {[a]} ∪ c ⊆ c' ->
    ssum f (c' ∖ c) = f a + ssum f (c' ∖ ({[a]} ∪ c)).
  Proof.
    intros Ha Hc. rewrite <- ssum_insert by set_solver. f_equal. apply set_eq. intros x.
    destruct (decide (x = a)); set_solver.
  Qed.

  (** What the traversal does, from any context. *)
  Record done (c : gset nat) (w : list piece) (c' : gset nat) (n : N) : Prop := {
    dn_sub : c ⊆ c';
    dn_sum : n = nsum rep w + ssum srep (c' ∖ c);
    dn_from : forall a, a ∈ c' -> a ∉ c -> leads D w a;
    dn_all : forall a, PShared a ∈ w -> a ∈ c';
    dn_closed : forall a m k b, a ∈ c' -> a ∉ c -> d_shared D !! a = Some (m, k) -> PShared b ∈ k -> b ∈ c';
  }.
  Lemma leads_mono w w' a : (forall b, PShared b ∈ w -> leads D w' b) -> leads D w a -> leads D w' a.
  Proof. intros H. induction 1; [by apply H|]. by eapply leads_through. Qed.
  Lemma fields_done fuel c w c' n : fields_size D fuel c w = Some (c', n) -> done c w c' n.
  Proof.
    revert c w c' n. induction fuel as [|fuel IH]; intros c w c' n; [done|]. simpl.
    assert (forall x w' m, (forall a, x <> PShared a) -> rep x = m ->
      prod_map id (N.add m) <$> fields_size D fuel c w' = Some (c', n) -> done c (x :: w') c' n) as Hplain.
    { intros x w' m Hx Hm. destruct (fields_size D fuel c w') as [[c1 n1]|] eqn:He; [|done]. simpl.
      intros [= <- <-]. apply IH in He as []. split; try done.
      - simpl. rewrite Hm. lia.
      - intros a H1 H2. eapply leads_mono, dn_from0; try done. intros b Hb. apply leads_direct. by right.
      - intros a. rewrite elem_of_cons. intros [H|H]; [by destruct (Hx a)|by apply dn_all0]. }
    destruct w as [|[m|a| | |fat] w'].
    - intros [= <- <-]. split; [done| |by intros|by intros a ?%elem_of_nil|by intros].
      simpl. by replace (c ∖ c) with (∅ : gset nat) by set_solver.
    - apply Hplain; [done|]. unfold rep. simpl. lia.
    - destruct (decide (a ∈ c)) as [Ha|Ha].
      + intros He. apply IH in He as []. split; try done.
        * intros b H1 H2. eapply leads_mono, dn_from0; try done. intros x Hx. apply leads_direct. by right.
        * intros b. rewrite elem_of_cons. intros [[= ->]|H]; [by apply dn_sub0|by apply dn_all0].
      + destruct (d_shared D !! a) as [[m k]|] eqn:Hk; [|done].
        destruct (fields_size D fuel _ _) as [[c1 n1]|] eqn:He; [|done]. simpl. intros [= <- <-].
        apply IH in He as []. split.
        * set_solver.
        * rewrite (ssum_diff _ a) by done. simpl. rewrite dn_sum0, nsum_app.
          assert (srep a = m + nsum rep k) as ->; [|unfold rep; simpl; lia].
          unfold srep, shared_size, shared_surplus. rewrite Hk. unfold rep. rewrite nsum_add. lia.
        * intros b H1 H2. destruct (decide (b = a)) as [->|]; [apply leads_direct; by left|].
          eapply leads_mono, dn_from0; [|done|set_solver]. intros x [Hx|Hx]%elem_of_app.
          -- eapply leads_through; [apply leads_direct; by left|done|done].
          -- apply leads_direct. by right.
        * intros b. rewrite elem_of_cons. intros [[= ->]|H]; [set_solver|]. apply dn_all0. apply elem_of_app. by right.
        * intros b m' k' x H1 H2 Hb Hx. destruct (decide (b = a)) as [->|].
          -- rewrite Hk in Hb. injection Hb as -> ->. apply dn_all0. apply elem_of_app. by left.
          -- eapply dn_closed0; [exact H1|set_solver|done|done].
    - apply Hplain; [done|]. unfold rep. simpl. lia.
    - apply Hplain; [done|]. unfold rep. simpl. lia.
    - apply Hplain; [done|]. unfold rep. simpl. unfold ptr_size, ref_bytes. destruct fat; lia.
  Qed.

  (** The fuel suffices. *)
  Definition left_over (c : gset nat) (m : gmap nat (N * list piece)) : nat :=
    map_fold (λ a x s, (if decide (a ∈ c) then O else length x.2) + s)%nat O m.
  Lemma left_over_insert c m a x : m !! a = None ->
    left_over c (<[a:=x]> m) = ((if decide (a ∈ c) then O else length x.2) + left_over c m)%nat.
  Proof. intros H. unfold left_over. rewrite map_fold_insert_L; [done| |done]. intros. lia. Qed.
  Lemma left_over_none c : left_over c ∅ = O.
  Proof. apply map_fold_empty. Qed.
  Lemma left_over_le c m : (left_over c m <= map_fold (λ _ x s, length x.2 + s)%nat O m)%nat.
  Proof.
    induction m as [|a x m Ha IH] using map_ind; [by rewrite left_over_none|].
    rewrite left_over_insert by done. rewrite map_fold_insert_L; [|intros; lia|done].
    destruct (decide (a ∈ c)); lia.
  Qed.
  Lemma left_over_out c m a : m !! a = None -> left_over ({[a]} ∪ c) m = left_over c m.
  Proof.
    induction m as [|b x m Hb IH] using map_ind; [by rewrite !left_over_none|].
    intros [Hm Hab]%lookup_insert_None. rewrite !left_over_insert by done. rewrite IH by done.
    destruct (decide (b ∈ c)), (decide (b ∈ {[a]} ∪ c)); set_solver.
  Qed.
  Lemma left_over_visit c a n k : d_shared D !! a = Some (n, k) -> a ∉ c ->
    (left_over ({[a]} ∪ c) (d_shared D) + length k = left_over c (d_shared D))%nat.
  Proof.
    intros Hk Ha. rewrite <- (insert_delete (d_shared D) a (n, k)) by done.
    rewrite !left_over_insert by apply lookup_delete.
    rewrite left_over_out by apply lookup_delete.
    rewrite decide_True by set_solver. rewrite decide_False by done. simpl. lia.
  Qed.
  Lemma fields_total fuel c w : heap_valid D -> valid D w ->
    (length w + left_over c (d_shared D) < fuel)%nat -> is_Some (fields_size D fuel c w).
  Proof.
    intros Hh. revert c w. induction fuel as [|fuel IH]; intros c w Hw Hf; [lia|].
    assert (forall x w', w = x :: w' -> is_Some (fields_size D fuel c w')) as Hrest.
    { intros x w' ->. apply IH; [|simpl in Hf; lia]. intros b Hb. apply Hw. by right. }
    simpl. destruct w as [|[m|a| | |fat] w']; [by eexists| |..].
    - destruct (Hrest _ _ eq_refl) as [? ->]. by eexists.
    - destruct (decide (a ∈ c)) as [Ha|Ha]; [by eapply Hrest|].
      destruct (Hw a) as [[n k] Hk]; [by left|]. rewrite Hk.
      destruct (IH ({[a]} ∪ c) (k ++ w')) as [? ->]; [| |by eexists].
      + intros b [Hb|Hb]%elem_of_app; [by eapply Hh|]. apply Hw. by right.
      + rewrite app_length. pose proof (left_over_visit _ _ _ _ Hk Ha). simpl in Hf. lia.
    - destruct (Hrest _ _ eq_refl) as [? ->]. by eexists.
    - destruct (Hrest _ _ eq_refl) as [? ->]. by eexists.
    - destruct (Hrest _ _ eq_refl) as [? ->]. by eexists.
  Qed.
  Lemma children_done c w : heap_valid D -> valid D w -> exists c' n, children D c w = Some (c', n) /\ done c w c' n.
  Proof.
    intros Hh Hw. unfold children. destruct (fields_total (enough D w) c w Hh Hw) as [[c' n] He].
    { unfold enough. pose proof (left_over_le c (d_shared D)). lia. }
    exists c', n. split; [done|]. by eapply fields_done.
  Qed.

  (** From the empty context: exactly what is reachable. *)
  Lemma done_exact w c' n : done ∅ w c' n -> forall a, a ∈ c' <-> leads D w a.
  Proof.
    intros [] a. split; [intros H; by apply dn_from0|]. induction 1; [by apply dn_all0|].
    by eapply dn_closed0.
  Qed.

  (** One after the other is like all at once. *)
  Lemma done_app c w1 c1 n1 w2 c2 n2 : done c w1 c1 n1 -> done c1 w2 c2 n2 -> done c (w1 ++ w2) c2 (n1 + n2).
  Proof.
    intros H1 H2. destruct H1 as [s1 m1 f1 a1 k1], H2 as [s2 m2 f2 a2 k2]. split.
    - set_solver.
    - rewrite m1, m2, nsum_app. unfold ssum.
      rewrite (nsum_perm _ (elements (c2 ∖ c)) (elements (c1 ∖ c) ++ elements (c2 ∖ c1))).
      { rewrite nsum_app. lia. }
      rewrite <- elements_disj_union by set_solver. apply elements_proper. intros x.
      rewrite elem_of_union, !elem_of_difference. destruct (decide (x ∈ c1)); set_solver.
    - intros a H H'. destruct (decide (a ∈ c1)).
      + eapply leads_mono, f1; try done. intros b Hb. apply leads_direct. apply elem_of_app. by left.
      + eapply leads_mono, f2; try done. intros b Hb. apply leads_direct. apply elem_of_app. by right.
    - intros a [H|H]%elem_of_app; [by apply s2, a1|by apply a2].
    - intros a m k b H H' Hk Hb. destruct (decide (a ∈ c1)); [apply s2; by eapply k1|by eapply k2].
  Qed.

  Definition all_fields (vs : list V) : list piece := vs ≫= d_fields D.
  Lemma keys_done c vs : heap_valid D -> values_valid D vs ->
    exists c' n, keys_size D c vs = Some (c', n + nsum (d_size D) vs) /\ done c (all_fields vs) c' n.
  Proof.
    intros Hh. revert c. induction vs as [|v vs IH]; intros c Hv.
    - exists c, 0. split; [done|]. split; [done| |done|by intros a ?%elem_of_nil|done].
      simpl. by replace (c ∖ c) with (∅ : gset nat) by set_solver.
    - destruct (children_done c (d_fields D v) Hh) as (c1&n1&He1&H1); [apply Hv; by left|].
      destruct (IH c1) as (c2&n2&He2&H2); [intros x Hx; apply Hv; by right|].
      exists c2, (n1 + n2). simpl. rewrite He1, He2. simpl. split; [do 2 f_equal; lia|]. by eapply done_app.
  Qed.

  Lemma nsum_bind (f : piece -> N) vs : nsum f (all_fields vs) = nsum (λ v, nsum f (d_fields D v)) vs.
  Proof. induction vs as [|v vs IH]; [done|]. unfold all_fields in *. csimpl. by rewrite nsum_app, IH. Qed.
  Lemma leads_all vs a : leads D (all_fields vs) a <-> exists v, v ∈ vs /\ leads D (d_fields D v) a.
  Proof.
    split.
    - induction 1 as [a H|a n k b H (v&Hv&IH) Hk Hb].
      + unfold all_fields in H. apply elem_of_list_bind in H as (v&H&Hv). exists v. split; [done|]. by apply leads_direct.
      + exists v. split; [done|]. by eapply leads_through.
    - intros (v&Hv&H). eapply leads_mono; [|done]. intros b Hb. apply leads_direct.
      apply elem_of_list_bind. by exists v.
  Qed.

  (** ** A set with one context *)
  Lemma set_once cap psz vs : heap_valid D -> values_valid D vs ->
    exists c R, set_children D cap psz ∅ vs =
      Some (c, cap * psz + nsum (own_size D) vs + nsum (shared_size D) R + (nsum (own_surplus D) vs + nsum (shared_surplus D) R)) /\
      arcs_of_all D vs R.
  Proof.
    intros Hh Hv. destruct (keys_done ∅ vs Hh Hv) as (c&n&He&Hd). exists c, (elements c). unfold set_children. rewrite He. simpl.
    split; [|split].
    - do 2 f_equal. pose proof (dn_sum _ _ _ _ Hd) as Hn.
      replace (c ∖ ∅) with c in Hn by set_solver. unfold ssum, srep, rep in Hn.
      rewrite !nsum_add, !nsum_bind in Hn. unfold own_size, own_surplus. rewrite nsum_add. lia.
    - apply NoDup_elements.
    - intros a. rewrite elem_of_elements, (done_exact _ _ _ Hd). apply leads_all.
  Qed.
  Lemma no_surplus vs R : no_arena_handles D vs -> nsum (own_surplus D) vs + nsum (shared_surplus D) R = 0.
  Proof.
    assert (forall w, (forall fat, PArenaIntern fat ∉ w) -> nsum (surplus D) w = 0) as Hz.
    { intros w Hw. apply nsum_0. intros [] Hx; try done. by destruct (Hw fat). }
    intros [H1 H2]. rewrite (nsum_0 (own_surplus D)), (nsum_0 (shared_surplus D)); [done| |].
    - intros a _. unfold shared_surplus. destruct (d_shared D !! a) as [[n k]|] eqn:Hk; [|done]. apply Hz. by eauto.
    - intros v Hx. apply Hz. by eauto.
  Qed.

  (** ** Fresh contexts *)
  Lemma arc_each vs : heap_valid D -> values_valid D vs ->
    exists Rs, Forall2 (arcs_of D) vs Rs /\
      arc_keys_size D vs = Some (nsum (λ v, d_word D + own_size D v) vs + nsum (own_surplus D) vs + nsum (nsum srep) Rs).
  Proof.
    intros Hh. induction vs as [|v vs IH]; intros Hv; [exists []; by split|].
    destruct IH as (Rs&HF&He); [intros x Hx; apply Hv; by right|].
    destruct (children_done ∅ (d_fields D v) Hh) as (c&n&Hc&Hd); [apply Hv; by left|].
    exists (elements c :: Rs). split.
    { constructor; [|done]. split; [apply NoDup_elements|]. intros a. rewrite elem_of_elements. by apply (done_exact _ _ _ Hd). }
    simpl. unfold deep_size_of. rewrite Hc, He. simpl. f_equal.
    pose proof (dn_sum _ _ _ _ Hd) as Hn. replace (c ∖ ∅) with c in Hn by set_solver.
    unfold ssum, rep in Hn. rewrite nsum_add in Hn.
    replace (own_size D v) with (d_size D v + nsum owned_bytes (d_fields D v)) by done.
    replace (own_surplus D v) with (nsum (surplus D) (d_fields D v)) by done. lia.
  Qed.

  (** Summing over the lists is summing over their union with multiplicities. *)
  Lemma nsum_restrict (f : nat -> N) R Y : NoDup R -> NoDup Y -> R ⊆ Y -> nsum f R = nsum (λ a, if decide (a ∈ R) then f a else 0) Y.
  Proof.
    intros HR HY HRY.
    assert (Y ≡ₚ R ++ filter (λ a, a ∉ R) Y) as HP.
    { apply NoDup_Permutation; [done| |].
      - apply NoDup_app. split_and!; [done| |by apply stdpp.list.NoDup_filter]. intros a Ha [H _]%elem_of_list_filter. done.
      - intros a. rewrite elem_of_app, elem_of_list_filter. destruct (decide (a ∈ R)); [|tauto]. split; [tauto|].
        intros _. by apply HRY. }
    rewrite (nsum_perm _ _ _ HP), nsum_app. rewrite (nsum_0 _ (filter _ Y)).
    - rewrite N.add_0_r. apply nsum_ext. intros a Ha. by rewrite decide_True.
    - intros a [Ha _]%elem_of_list_filter. by rewrite decide_False.
  Qed.
  Lemma sum_times (f : nat -> N) Rs Y : (forall R, R ∈ Rs -> NoDup R /\ R ⊆ Y) -> NoDup Y -> nsum (nsum f) Rs = nsum (λ a, times Rs a * f a) Y.
  Proof.
    intros HR HY. induction Rs as [|R Rs IH].
    - simpl. symmetry. by apply nsum_0.
    - simpl. rewrite IH by (intros X HX; apply HR; by right).
      destruct (HR R) as [? ?]; [by left|]. rewrite (nsum_restrict f R Y) by done. rewrite <- nsum_add. apply nsum_ext.
      intros a _. change (times (R :: Rs) a) with ((if decide (a ∈ R) then 1 else 0) + times Rs a).
      rewrite N.mul_add_distr_r. destruct (decide (a ∈ R)); lia.
  Qed.
  Lemma arcs_union vs Rs : Forall2 (arcs_of D) vs Rs -> exists R, arcs_of_all D vs R /\
    (forall X, X ∈ Rs -> NoDup X /\ X ⊆ R) /\ (forall a, a ∈ R -> 1 <= times Rs a).
  Proof.
    intros HF. exists (remove_dups (concat Rs)).
    assert (forall a, a ∈ concat Rs <-> exists v, v ∈ vs /\ leads D (d_fields D v) a) as Ha.
    { intros a. induction HF as [|v R vs Rs [_ HR] HF IH]; simpl.
      - split; [by intros ?%elem_of_nil|]. by intros (v&?%elem_of_nil&_).
      - rewrite elem_of_app, HR, IH. split.
        + intros [H|(w&Hw&H)]; [exists v; split; [by left|done]|exists w; split; [by right|done]].
        + intros (w&[->|Hw]%elem_of_cons&H); [by left|right; by exists w]. }
    split_and!.
    - split; [apply NoDup_remove_dups|]. intros a. by rewrite elem_of_remove_dups.
    - intros X HX. split.
      + apply elem_of_list_lookup in HX as [i HX]. destruct (Forall2_lookup_r _ _ _ _ _ HF HX) as (v&_&[? _]). done.
      + intros a H. apply elem_of_remove_dups. apply elem_of_list_In, in_concat. exists X.
        split; by apply elem_of_list_In.
    - intros a. rewrite elem_of_remove_dups. intros H. clear Ha HF. induction Rs as [|R Rs IH]; simpl in *; [by apply elem_of_nil in H|].
      change (times (R :: Rs) a) with ((if decide (a ∈ R) then 1 else 0) + times Rs a).
      apply elem_of_app in H as [H|H]; [rewrite decide_True by done; lia|]. specialize (IH H). lia.
  Qed.
  Lemma arc_total vs : heap_valid D -> values_valid D vs ->
    exists Rs R, Forall2 (arcs_of D) vs Rs /\ arcs_of_all D vs R /\ (forall a, a ∈ R -> 1 <= times Rs a) /\
      arc_keys_size D vs = Some (nsum (λ v, d_word D + own_size D v + own_surplus D v) vs
        + nsum (λ a, times Rs a * (shared_size D a + shared_surplus D a)) R).
  Proof.
    intros Hh Hv. destruct (arc_each vs Hh Hv) as (Rs&HF&He). destruct (arcs_union vs Rs HF) as (R&HR&Hall&Hone).
    exists Rs, R. split_and!; [done|done|done|]. rewrite He. f_equal. rewrite (sum_times srep Rs R) by (done || apply HR).
    rewrite <- nsum_add. done.
  Qed.

  Lemma values_cons {P} (rd : P -> option V) p ps : values rd (p :: ps) =
    match rd p with Some v => match values rd ps with Some vs => Some (v :: vs) | None => None end | None => None end.
  Proof. unfold values. csimpl. destruct (rd p); [|done]. simpl. by destruct (mapM rd ps). Qed.
  (** Values do not depend on the order of iteration. *)
  Lemma values_perm {P} (rd : P -> option V) ps ks vs : ks ≡ₚ ps -> values rd ps = Some vs ->
    exists vs', values rd ks = Some vs' /\ vs' ≡ₚ vs.
  Proof.
    intros HP. revert vs. induction HP as [|x l l' HP IH|x y l|l l' l'' H1 IH1 H2 IH2]; intros vs.
    - intros [= <-]. by exists [].
    - rewrite !values_cons. destruct (rd x) as [v|]; [|done]. destruct (values rd l') as [ws|]; [|done]. intros [= <-].
      destruct (IH ws eq_refl) as (ws'&->&Hp). eexists. split; [done|]. by rewrite Hp.
    - rewrite !values_cons. destruct (rd x) as [v|], (rd y) as [w|]; try done. destruct (values rd l) as [ws|]; [|done].
      intros [= <-]. eexists. split; [done|]. constructor.
    - intros H. destruct (IH2 _ H) as (v1&Hv1&Hp1). destruct (IH1 _ Hv1) as (v2&Hv2&Hp2). exists v2. split; [done|].
      by rewrite Hp2.
  Qed.
  Lemma values_some {P} (rd : P -> option V) (l : list (P * V)) :
    (forall p v, (p, v) ∈ l -> rd p = Some v) -> values rd l.*1 = Some l.*2.
  Proof.
    induction l as [|[p v] l IH]; intros H; [done|]. rewrite !fmap_cons, values_cons. simpl fst. rewrite (H p v) by left.
    rewrite IH; [done|]. intros q w Hq. apply H. by right.
  Qed.
  Lemma arcs_of_all_perm vs vs' R : vs ≡ₚ vs' -> arcs_of_all D vs R -> arcs_of_all D vs' R.
  Proof.
    intros HP [H1 H2]. split; [done|]. intros a. rewrite H2. split; intros (v&Hv&H); exists v; split; try done.
    - by rewrite <- HP. - by rewrite HP.
  Qed.
  Lemma valid_perm vs vs' : vs ≡ₚ vs' -> values_valid D vs -> values_valid D vs'.
  Proof. intros HP H v Hv. apply H. by rewrite HP. Qed.

  (** ** The theorems *)
  Theorem intern_once {Q} (E : ienv V Q) ls st ty ks hdr cap :
    run (istep E) iinit ls = Some st -> ks ≡ₚ set_of E st ty ->
    let vs := (inserted E ty (i_log st)).*2 in
    heap_valid D -> values_valid D vs ->
    exists R, arcs_of_all D vs R /\
      deep_size_of_interned D st ks hdr cap = Some (hdr + cap * d_word D + nsum (own_size D) vs + nsum (shared_size D) R
        + (nsum (own_surplus D) vs + nsum (shared_surplus D) R)).
  Proof.
    intros Hr HP vs Hh Hv. pose proof (InternFinal.reach_inv E ls st Hr) as HI.
    rewrite (v_current _ _ HI) in HP. unfold deep_size_of_interned.
    destruct (values_perm (iread st) _ ks vs HP) as (ws&->&Hw).
    { apply values_some. intros p v Hp. eapply InternStep.points_read. by eapply InternLaw.key_ty. }
    destruct (set_once cap (d_word D) ws Hh) as (c&R&->&HR); [by eapply valid_perm|].
    exists R. split; [by eapply arcs_of_all_perm|]. simpl. f_equal.
    rewrite (nsum_perm (own_size D) _ _ Hw), (nsum_perm (own_surplus D) _ _ Hw). lia.
  Qed.
  Theorem arena_once {Q} (E : ienv V Q) ls st r x ks fat hdr cap :
    run (astep E) ainit ls = Some st -> a_arenas st !! r = Some x -> ks ≡ₚ ar_set x ->
    let vs := (a_stored r (a_log st)).*2 in
    heap_valid D -> values_valid D vs ->
    exists R, arcs_of_all D vs R /\
      deep_size_of_arena D st ks fat hdr cap = Some (hdr + cap * ptr_size D fat + nsum (own_size D) vs + nsum (shared_size D) R
        + (nsum (own_surplus D) vs + nsum (shared_surplus D) R)).
  Proof.
    intros Hr Hx HP vs Hh Hv. pose proof (ArenaStep.areach_inv E ls st Hr) as HI.
    rewrite (x_stored _ _ HI _ _ Hx) in HP. unfold deep_size_of_arena.
    destruct (values_perm (a_read st) _ ks vs HP) as (ws&->&Hw).
    { apply values_some. intros p v Hp. destruct (ArenaFinal.stored_pts E _ _ _ _ _ HI Hx Hp) as (Ho&_).
      unfold a_read. by rewrite Ho. }
    destruct (set_once cap (ptr_size D fat) ws Hh) as (c&R&->&HR); [by eapply valid_perm|].
    exists R. split; [by eapply arcs_of_all_perm|]. simpl. f_equal.
    rewrite (nsum_perm (own_size D) _ _ Hw), (nsum_perm (own_surplus D) _ _ Hw). lia.
  Qed.
  Theorem arc_times (E : tyenv V) ls st ty ks fat cap :
    coherent E -> wide E -> bounded E ls -> run (step E) init ls = Some st ->
    ks ≡ₚ List.filter (key_of_type E st ty) (st_table st) ->
    exists vs, values (data st) ks = Some vs /\ (forall v, v ∈ vs -> te_ty E v = ty) /\
      (heap_valid D -> values_valid D vs -> exists Rs R,
        Forall2 (arcs_of D) vs Rs /\ arcs_of_all D vs R /\ (forall a, a ∈ R -> 1 <= times Rs a) /\
        deep_size_of_arc_interned D st ks fat cap = Some (cap * ptr_size D fat
          + nsum (λ v, d_word D + own_size D v + own_surplus D v) vs
          + nsum (λ a, times Rs a * (shared_size D a + shared_surplus D a)) R)).
  Proof.
    intros HC HW Hb Hr HP. pose proof (run_Inv E HC HW ls st Hb Hr) as HI.
    assert (forall p, p ∈ ks -> exists d, data st p = Some d /\ te_ty E d = ty) as Hk.
    { intros p. rewrite HP, elem_of_list_In, filter_In. unfold key_of_type. intros [_ Hp].
      destruct (data st p) as [d|]; [|done]. exists d. split; [done|]. by apply Nat.eqb_eq. }
    clear HP. assert (exists vs, values (data st) ks = Some vs /\ (forall v, v ∈ vs -> te_ty E v = ty)) as (vs&Hm&Ht).
    { induction ks as [|p ks IH]; [exists []; split; [done|]; by intros ? ?%elem_of_nil|].
      destruct IH as (vs&Hm&Ht); [intros q Hq; apply Hk; by right|].
      destruct (Hk p) as (d&Hd&Hty); [by left|]. exists (d :: vs). rewrite values_cons, Hd, Hm. split; [done|].
      intros v [->|Hv]%elem_of_cons; [done|by apply Ht]. }
    exists vs. split_and!; [done|done|]. intros Hh Hv.
    destruct (arc_total vs Hh Hv) as (Rs&R&HF&HR&Hone&He). exists Rs, R. split_and!; [done|done|done|].
    unfold deep_size_of_arc_interned. rewrite Hm, He. simpl. f_equal. lia.
  Qed.
  Theorem arc_keys_live (E : tyenv V) ls st ty ks :
    coherent E -> wide E -> bounded E ls -> run (step E) init ls = Some st -> quiescent st -> st_zombies st = [] ->
    ks ≡ₚ List.filter (key_of_type E st ty) (st_table st) ->
    NoDup ks /\ forall p, p ∈ ks <-> live_object E st ty p.
  Proof.
    intros HC HW Hb Hr Hq Hz HP. pose proof (run_Inv E HC HW ls st Hb Hr) as HI.
    split.
    - rewrite HP. apply filter_NoDup. by apply (table_NoDup E).
    - intros p. rewrite HP. by apply (filter_live E st ty p).
  Qed.
End deep.

Section handles.
  Context {V : Type} (D : denv V).
  Theorem intern_plain {Q} (E : ienv V Q) ls st ty ks hdr cap :
    run (istep E) iinit ls = Some st -> ks ≡ₚ set_of E st ty ->
    let vs := (inserted E ty (i_log st)).*2 in
    heap_valid D -> values_valid D vs -> no_arena_handles D vs ->
    exists R, arcs_of_all D vs R /\
      deep_size_of_interned D st ks hdr cap = Some (hdr + cap * d_word D + nsum (own_size D) vs + nsum (shared_size D) R).
  Proof.
    intros Hr HP vs Hh Hv Hn. destruct (intern_once D E ls st ty ks hdr cap Hr HP Hh Hv) as (R&HR&->). exists R. split; [done|].
    fold vs. rewrite (no_surplus D vs R Hn). f_equal. lia.
  Qed.
  Theorem arena_plain {Q} (E : ienv V Q) ls st r x ks fat hdr cap :
    run (astep E) ainit ls = Some st -> a_arenas st !! r = Some x -> ks ≡ₚ ar_set x ->
    let vs := (a_stored r (a_log st)).*2 in
    heap_valid D -> values_valid D vs -> no_arena_handles D vs ->
    exists R, arcs_of_all D vs R /\
      deep_size_of_arena D st ks fat hdr cap
      = Some (hdr + cap * ptr_size D fat + nsum (own_size D) vs + nsum (shared_size D) R).
  Proof.
    intros Hr Hx HP vs Hh Hv Hn. destruct (arena_once D E ls st r x ks fat hdr cap Hr Hx HP Hh Hv) as (R&HR&->).
    exists R. split; [done|]. fold vs. rewrite (no_surplus D vs R Hn). f_equal. lia.
  Qed.
  Theorem handles_nothing fat : handle_size D PIntern fat = Some (ptr_size D fat) /\
    handle_size D PArcIntern fat = Some (ptr_size D fat).
  Proof. by split. Qed.
  Theorem arena_handle_twice fat : handle_size D (PArenaIntern fat) fat = Some (2 * ptr_size D fat).
  Proof. unfold handle_size, children, enough. simpl length. cbn [fields_size Nat.add].
    change (Some (ptr_size D fat + 0 + ptr_size D fat) = Some (2 * ptr_size D fat)). f_equal. lia. Qed.
End handles.

(** ** The block of an ArcIntern object *)
Lemma next_multiple_bounds x a : 0 < a -> x <= DstModel.next_multiple x a < x + a.
Proof.
  intros Ha. unfold DstModel.next_multiple. pose proof (N.div_mod' (x + (a - 1)) a) as H.
  pose proof (N.mod_lt (x + (a - 1)) a ltac:(lia)) as Hm.
  set (q := (x + (a - 1)) / a) in *. set (r := (x + (a - 1)) mod a) in *.
  assert (a * q = q * a) by lia. lia.
Qed.
Theorem block_bounds j esz k n :
  DstModel.word j + esz * n <= DstModel.dst_size j esz k n
    < DstModel.word j + esz * n + 2 ^ k + N.max (DstModel.word j) (2 ^ k).
Proof.
  unfold DstModel.dst_size, DstModel.data_offset, DstModel.dst_align.
  assert (0 < 2 ^ k) as Hk by (apply N.neq_0_lt_0, N.pow_nonzero; lia).
  assert (0 < DstModel.word j) as Hj by (apply N.neq_0_lt_0, N.pow_nonzero; lia).
  remember (2 ^ k) as a. remember (DstModel.word j) as w. remember (esz * n) as m.
  pose proof (next_multiple_bounds w a Hk). pose proof (next_multiple_bounds (DstModel.next_multiple w a + m) (N.max w a) ltac:(lia)).
  lia.
Qed.

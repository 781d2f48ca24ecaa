(** One location of a block of [ArcIntern]: what an aliasing machine has to provide. *)
From stdpp Require Import gmap list numbers.
From Verif Require Import Base AliasModel AliasTree ArcAliasModel.

(** A location: the count ([cnt = true]) or the data.  [N]: the next number; [B]: the Box; [A]: the Box
    before it was passed to the functions which have not returned yet; [H]: shared references that may be
    used; [P]: the tags that may be protected.  [tb]: references survive a retag of the Box. *)
Record lspec (M : machine) (tb : bool)
    (G : bool -> nat -> tag -> tag -> list tag -> list tag -> mst M -> Prop) : Prop := {
  l_new : forall cnt im w, exists s s', m_do M (m_new M) (BRef (KUni im) [] [0] false) = Some s /\
    (if w : bool then m_do M s (BWrite [0]) else Some s) = Some s' /\ G cnt 1 [0] [0] [] [] s';
  l_mono : forall cnt N N' A B H P s, G cnt N A B H P s -> N <= N' -> G cnt N' A B H P s;
  l_weak : forall cnt N A B H H' s, G cnt N A B H [] s -> (forall t, t ∈ H' -> t ∈ H) -> G cnt N A B H' [] s;
  l_reset : forall cnt N A B H s, G cnt N A B H [] s -> G cnt N B B [] [] s;
  l_ref : forall cnt N A B H P s t prot, G cnt N A B H P s -> t ∈ B :: H ->
    exists s', m_do M s (BRef (if cnt then KCell else KShr) t (N :: t) (negb cnt && prot)) = Some s' /\
      G cnt (S N) A B ((N :: t) :: H) (if negb cnt && prot then (N :: t) :: P else P) s';
  l_read : forall cnt N A B H P s t, G cnt N A B H P s -> t ∈ B :: H ->
    exists s', m_do M s (BRead t) = Some s' /\ G cnt N A B H P s';
  l_write : forall N B H s t, G true N B B H [] s -> t ∈ H ->
    exists s', m_do M s (BWrite t) = Some s' /\ G true N B B H [] s';
  l_end : forall cnt N A B H P s t, G cnt N A B H (t :: P) s ->
    t ∈ H \/ (A `suffix_of` t /\ t <> A /\ t `suffix_of` B) ->
    exists s', m_do M s (BEnd t) = Some s' /\ G cnt N A B H P s';
  l_uni : forall cnt im N A B H P s prot, G cnt N A B H P s -> (tb = true \/ forall t, t ∈ P -> t ∉ H) ->
    exists s', m_do M s (BRef (KUni im) B (N :: B) prot) = Some s' /\
      G cnt (S N) A (N :: B) (if tb then H else []) (if prot then (N :: B) :: P else P) s';
  l_free : forall cnt N B H s, G cnt N B B H [] s -> is_Some (m_do M s (BFree B));
  l_kill : forall cnt im N B H s, G cnt N B B H [] s ->
    exists s1 s2 s3, m_do M s (BRef (KUni im) B (N :: B) true) = Some s1 /\
      (if cnt : bool then Some s1 else m_do M s1 (BWrite (N :: B))) = Some s2 /\
      m_do M s2 (BEnd (N :: B)) = Some s3 /\ is_Some (m_do M s3 (BFree B));
}.

(** ** Stacked Borrows *)
Record SG (cnt : bool) (N : nat) (A B : tag) (H P : list tag) (s : list sitem) : Prop := {
  sg_form : exists xs pb rest, s = xs ++ SItem B SUniq pb :: rest /\
    (forall y, y ∈ xs -> si_perm y = (if cnt then SRW else SRO) /\ si_tag y <> B /\ (si_prot y = true -> si_tag y ∈ H)) /\
    (forall t, t ∈ H -> t ∈ si_tag <$> xs);
  sg_prot : forall y, y ∈ s -> si_prot y = true -> si_tag y ∈ P;
  sg_old : forall y, y ∈ s -> below N (si_tag y);
}.

Section sb.
  Context (cnt : bool) (B : tag) (pb : bool) (rest : list sitem).
  Let p := if cnt then SRW else SRO.

  Lemma sg_find w t xs : (w = true -> cnt = true) ->
    (forall y, y ∈ xs -> si_perm y = p) -> t ∈ si_tag <$> xs ->
    exists a1 y a2, s_find w t (xs ++ SItem B SUniq pb :: rest) = Some (a1, y, a2 ++ SItem B SUniq pb :: rest) /\
      xs = a1 ++ y :: a2 /\ si_tag y = t.
  Proof.
    intros Hw. induction xs as [|x xs IH]; intros Hp Ht; [by apply elem_of_nil in Ht|]. cbn [app s_find].
    assert (s_grants w (si_perm x) = true) as Hg.
    { rewrite (Hp x) by (by left). unfold p. destruct w; [by rewrite Hw|]. by destruct cnt. }
    rewrite Hg, andb_true_r. case_bool_decide as He.
    - by exists [], x, xs.
    - destruct IH as (a1&y&a2&H1&->&H3).
      + intros y Hy. apply Hp. by right.
      + rewrite fmap_cons in Ht. by apply elem_of_cons in Ht as [->|?].
      + rewrite H1. by exists (x :: a1), y, a2.
  Qed.
  Lemma sg_find_box w xs : (forall y, y ∈ xs -> si_tag y <> B) ->
    s_find w B (xs ++ SItem B SUniq pb :: rest) = Some (xs, SItem B SUniq pb, rest).
  Proof.
    induction xs as [|x xs IH]; intros Hb; cbn [app s_find].
    - by rewrite bool_decide_eq_true_2.
    - rewrite bool_decide_eq_false_2 by (apply Hb; by left). simpl. rewrite IH; [done|]. intros y Hy. apply Hb. by right.
  Qed.
  Lemma sg_read t xs : (forall y, y ∈ xs -> si_perm y = p) -> (forall y, y ∈ xs -> si_tag y <> B) ->
    t ∈ B :: (si_tag <$> xs) ->
    s_read t (xs ++ SItem B SUniq pb :: rest) = Some (xs ++ SItem B SUniq pb :: rest).
  Proof.
    intros Hp Hb Ht.
    assert (exists a1 y a2, s_find false t (xs ++ SItem B SUniq pb :: rest) = Some (a1, y, a2) /\
      xs ++ SItem B SUniq pb :: rest = a1 ++ y :: a2 /\ forall z, z ∈ a1 -> z ∈ xs) as (a1&y&a2&H1&H2&H3).
    { apply elem_of_cons in Ht as [->|Ht].
      - exists xs, (SItem B SUniq pb), rest. by rewrite sg_find_box.
      - destruct (sg_find false t xs) as (a1&y&a2&H1&->&_); [done..|]. eexists _, _, _. split; [exact H1|].
        split; [by rewrite <- app_assoc|]. intros z Hz. apply elem_of_app. by left. }
    unfold s_read. rewrite H1, H2.
    assert (forall z, z ∈ a1 -> s_is_uniq z = false) as Hu.
    { intros z Hz. unfold s_is_uniq. rewrite (Hp z) by auto. unfold p. by destruct cnt. }
    replace (existsb _ a1) with false.
    - f_equal. f_equal. clear -Hu. induction a1 as [|z a1 IH]; [done|]. rewrite fmap_cons. f_equal.
      + unfold s_disable. by rewrite Hu by (by left).
      + apply IH. intros w Hw. apply Hu. by right.
    - symmetry. apply not_true_iff_false. intros (z&Hz%elem_of_list_In&Ha)%existsb_exists.
      rewrite (Hu z Hz) in Ha. by rewrite andb_false_r in Ha.
  Qed.
  Lemma sg_write_box xs : (forall y, y ∈ xs -> si_tag y <> B) -> (forall y, y ∈ xs -> si_prot y = false) ->
    s_write B (xs ++ SItem B SUniq pb :: rest) = Some (SItem B SUniq pb :: rest).
  Proof.
    intros Hb Hp. unfold s_write. rewrite sg_find_box by done. simpl. rewrite Nat.sub_0_r, firstn_all.
    replace (existsb si_prot xs) with false; [done|]. symmetry. apply not_true_iff_false.
    intros (z&Hz%elem_of_list_In&Ha)%existsb_exists. by rewrite (Hp z Hz) in Ha.
  Qed.
End sb.

Lemma s_keep_rw l : forallb s_is_rw l = true -> s_keep l = l.
Proof. destruct l as [|x l]; [done|]. intros Hl. cbn [s_keep]. by rewrite Hl. Qed.

Lemma stacked_spec : lspec stacked false SG.
Proof.
  split.
  - intros cnt im w. exists [SItem [0] SUniq false; SItem [] SRW false], [SItem [0] SUniq false; SItem [] SRW false].
    split; [by destruct im|]. split; [by destruct w|]. split.
    + exists [], false, [SItem [] SRW false]. split_and!; [done|by intros y ?%elem_of_nil..].
    + intros y. rewrite !elem_of_cons, elem_of_nil. by intros [->|[->|?]].
    + intros y. rewrite !elem_of_cons, elem_of_nil. intros [->|[->|[]]] i Hi; simpl in Hi; [|by apply elem_of_nil in Hi].
      apply elem_of_list_singleton in Hi. lia.
  - intros cnt N N' A B H P s [H1 H2 H3] Hle. split; [done..|]. intros y Hy. eapply below_mono, H3; done.
  - intros cnt N A B H H' s [(xs&pb&rest&->&H1&H1') H2 H3] Hs. split; [|done..]. exists xs, pb, rest. split_and!; [done| |auto].
    intros y Hy. destruct (H1 y Hy) as (?&?&_). split_and!; [done..|]. intros Hp.
    apply H2 in Hp; [by apply elem_of_nil in Hp|]. apply elem_of_app. by left.
  - intros cnt N A B H s [(xs&pb&rest&->&H1&H1') H2 H3]. split; [|done..]. exists xs, pb, rest. split_and!; [done| |].
    + intros y Hy. destruct (H1 y Hy) as (?&?&_). split_and!; [done..|]. intros Hp.
      apply H2 in Hp; [by apply elem_of_nil in Hp|]. apply elem_of_app. by left.
    + by intros t ?%elem_of_nil.
  - intros cnt N A B H P s t prot [(xs&pb&rest&->&H1&H1') H2 H3] Ht.
    assert (t ∈ B :: (si_tag <$> xs)) as Ht'.
    { apply elem_of_cons in Ht as [->|Ht]; [by left|]. right. auto. }
    assert (below N t) as Hbt.
    { apply elem_of_cons in Ht' as [->|(y&->&Hy)%elem_of_list_fmap].
      - apply (H3 (SItem B SUniq pb)). apply elem_of_app. right. by left.
      - apply H3. apply elem_of_app. by left. }
    assert (below N B) as HbB.
    { apply (H3 (SItem B SUniq pb)). apply elem_of_app. right. by left. }
    assert (N :: t <> B) as Hne.
    { intros <-. specialize (HbB N ltac:(by left)). lia. }
    destruct cnt.
    + assert (exists a1 a2, s_do (xs ++ SItem B SUniq pb :: rest) (BRef KCell t (N :: t) (negb true && prot)) =
        Some ((a1 ++ SItem (N :: t) SRW false :: a2) ++ SItem B SUniq pb :: rest) /\ xs = a1 ++ a2) as (a1&a2&Hd&Hx).
      { cbn [s_do]. apply elem_of_cons in Ht' as [->|Ht'].
        - rewrite sg_find_box by (intros y Hy; apply H1, Hy). exists xs, []. rewrite app_nil_r. split; [|done]. by rewrite <- app_assoc.
        - destruct (sg_find true B pb rest true t xs) as (a1&y&a2&Hf&->&<-); [done| |done|].
          { intros y Hy. apply H1, Hy. }
          rewrite Hf. exists a1, (y :: a2). split; [|done]. by rewrite <- app_assoc. }
      exists ((a1 ++ SItem (N :: t) SRW false :: a2) ++ SItem B SUniq pb :: rest). split; [exact Hd|].
      subst xs. assert (forall y, y ∈ (a1 ++ SItem (N :: t) SRW false :: a2) ++ SItem B SUniq pb :: rest ->
        y = SItem (N :: t) SRW false \/ y ∈ (a1 ++ a2) ++ SItem B SUniq pb :: rest) as Hin.
      { intros y. rewrite !elem_of_app, !elem_of_cons. tauto. }
      split.
      * eexists _, pb, rest. split; [done|]. split.
        -- intros y Hy. rewrite elem_of_app, elem_of_cons in Hy.
           assert (y = SItem (N :: t) SRW false \/ y ∈ a1 ++ a2) as [->|Hy'] by (rewrite elem_of_app; tauto); [done|].
           destruct (H1 y Hy') as (?&?&?). split_and!; [done..|]. intros ?. right. auto.
        -- intros t' [->|Ht'']%elem_of_cons.
           ++ rewrite fmap_app, fmap_cons, elem_of_app. right. by left.
           ++ apply H1' in Ht''. rewrite fmap_app, elem_of_app in *. rewrite fmap_cons, elem_of_cons. tauto.
      * intros y [->|Hy]%Hin Hp; [done|]. simpl. by apply H2.
      * intros y [->|Hy]%Hin; [by apply below_new|]. eapply below_mono, H3; [lia|done].
    + cbn [negb andb]. assert (s_do (xs ++ SItem B SUniq pb :: rest) (BRef KShr t (N :: t) prot) =
        Some (SItem (N :: t) SRO prot :: xs ++ SItem B SUniq pb :: rest)) as Hd.
      { cbn [s_do]. rewrite (sg_read false); [done| | |done]; intros y Hy; apply H1, Hy. }
      eexists. split; [exact Hd|]. split.
      * exists (SItem (N :: t) SRO prot :: xs), pb, rest. split; [done|]. split.
        -- intros y [->|Hy]%elem_of_cons; [split_and!; [done..|]; intros _; by left|].
           destruct (H1 y Hy) as (?&?&?). split_and!; [done..|]. intros ?. right. auto.
        -- intros t' [->|Ht'']%elem_of_cons; rewrite fmap_cons; [by left|]. right. auto.
      * intros y [->|Hy]%elem_of_cons; simpl; [intros ->; by left|]. intros Hp. destruct prot; [right|]; by apply H2.
      * intros y [->|Hy]%elem_of_cons; [by apply below_new|]. eapply below_mono, H3; [lia|done].
  - intros cnt N A B H P s t [(xs&pb&rest&->&H1&H1') H2 H3] Ht. eexists. split.
    + cbn [m_do stacked s_do]. apply (sg_read cnt); [intros y Hy; apply H1, Hy..|].
      apply elem_of_cons in Ht as [->|Ht]; [by left|]. right. auto.
    + split; [|done..]. by exists xs, pb, rest.
  - intros N B H s t [(xs&pb&rest&->&H1&H1') H2 H3] Ht.
    destruct (sg_find true B pb rest true t xs) as (a1&y&a2&Hf&->&<-); [done|intros y Hy; apply H1, Hy|auto|].
    eexists. split.
    + cbn [m_do stacked s_do]. unfold s_write. rewrite Hf.
      assert (s_is_rw y = true) as Hy. { unfold s_is_rw. by rewrite (proj1 (H1 y ltac:(apply elem_of_app; right; by left))). }
      rewrite Hy, s_keep_rw.
      * rewrite Nat.sub_diag. cbn [take existsb]. replace (a1 ++ y :: a2 ++ SItem B SUniq pb :: rest)
          with ((a1 ++ y :: a2) ++ SItem B SUniq pb :: rest) by (by rewrite <- app_assoc). reflexivity.
      * apply forallb_forall. intros z Hz%elem_of_list_In. unfold s_is_rw.
        by rewrite (proj1 (H1 z ltac:(apply elem_of_app; by left))).
    + split; [|done..]. by eexists _, pb, rest.
  - intros cnt N A B H P s t [(xs&pb&rest&->&H1&H1') H2 H3] _.
    set (u := λ y : sitem, if bool_decide (si_tag y = t) then SItem t (si_perm y) false else y).
    assert (Hut : forall y, si_tag (u y) = si_tag y) by (intros y; unfold u; by case_bool_decide).
    assert (Hup : forall y, si_perm (u y) = si_perm y) by (intros y; unfold u; by case_bool_decide).
    assert (Hur : forall y, si_prot (u y) = true -> si_prot y = true) by (intros y; unfold u; by case_bool_decide).
    exists (u <$> (xs ++ SItem B SUniq pb :: rest)). split; [done|]. split.
    + rewrite fmap_app, fmap_cons. exists (u <$> xs), (si_prot (u (SItem B SUniq pb))), (u <$> rest). split_and!.
      * f_equal. f_equal. pose proof (Hut (SItem B SUniq pb)) as E1. pose proof (Hup (SItem B SUniq pb)) as E2.
        destruct (u (SItem B SUniq pb)); simpl in *. by subst.
      * intros y (z&->&Hz)%elem_of_list_fmap. rewrite Hup, Hut. destruct (H1 z Hz) as (?&?&?). split_and!; auto.
      * intros t' Ht'. apply H1' in Ht'. apply elem_of_list_fmap in Ht' as (z&->&Hz).
        apply elem_of_list_fmap. exists (u z). split; [by rewrite Hut|]. by apply elem_of_list_fmap_1.
    + intros y (z&->&Hz)%elem_of_list_fmap Hp. rewrite Hut. pose proof (H2 z Hz (Hur z Hp)) as Hi.
      apply elem_of_cons in Hi as [Hi|Hi]; [|done]. exfalso. unfold u in Hp. by rewrite bool_decide_eq_true_2 in Hp.
    + intros y (z&->&Hz)%elem_of_list_fmap. rewrite Hut. by apply H3.
  - intros cnt im N A B H P s prot [(xs&pb&rest&->&H1&H1') H2 H3] [?|Hd]; [done|].
    assert (s_do (xs ++ SItem B SUniq pb :: rest) (BRef (KUni im) B (N :: B) prot) =
      Some (SItem (N :: B) SUniq prot :: SItem B SUniq pb :: rest)) as Hs.
    { cbn [s_do]. rewrite sg_write_box; [done|intros y Hy; apply H1, Hy|]. intros y Hy. destruct (si_prot y) eqn:Ey; [|done].
      exfalso. apply (Hd (si_tag y)); [|by apply H1]. apply H2; [|done]. apply elem_of_app. by left. }
    eexists. split; [exact Hs|]. split.
    + exists [], prot, (SItem B SUniq pb :: rest). split_and!; [done|by intros y ?%elem_of_nil..].
    + intros y [->|Hy]%elem_of_cons; simpl; [intros ->; by left|]. intros Hp.
      assert (si_tag y ∈ P) by (apply H2; [apply elem_of_app; by right|done]). destruct prot; [by right|done].
    + intros y [->|Hy]%elem_of_cons.
      * apply below_new. apply (H3 (SItem B SUniq pb)). apply elem_of_app. right. by left.
      * eapply below_mono, H3; [lia|]. apply elem_of_app. by right.
  - intros cnt N B H s [(xs&pb&rest&->&H1&H1') H2 H3]. cbn [m_do stacked s_do].
    assert (forall y, y ∈ xs ++ SItem B SUniq pb :: rest -> si_prot y = false) as Hn.
    { intros y Hy. destruct (si_prot y) eqn:Ey; [|done]. by apply H2, elem_of_nil in Ey. }
    rewrite sg_write_box; [|intros y Hy; apply H1, Hy|intros y Hy; apply Hn; apply elem_of_app; by left].
    cbn [mbind option_bind]. replace (existsb si_prot _) with false; [by eexists|]. symmetry. apply not_true_iff_false.
    intros (z&Hz%elem_of_list_In&Ha)%existsb_exists. rewrite Hn in Ha; [done|]. apply elem_of_app. by right.
  - intros cnt im N B H s [(xs&pb&rest&->&H1&H1') H2 H3].
    assert (forall y, y ∈ xs ++ SItem B SUniq pb :: rest -> si_prot y = false) as Hn.
    { intros y Hy. destruct (si_prot y) eqn:Ey; [|done]. by apply H2, elem_of_nil in Ey. }
    assert (below N B) as HbB. { apply (H3 (SItem B SUniq pb)). apply elem_of_app. right. by left. }
    assert (N :: B <> B) as Hne. { intros E%(f_equal length). simpl in E. lia. }
    assert (s_do (xs ++ SItem B SUniq pb :: rest) (BRef (KUni im) B (N :: B) true) =
      Some (SItem (N :: B) SUniq true :: SItem B SUniq pb :: rest)) as Hs.
    { cbn [s_do]. rewrite sg_write_box; [done|intros y Hy; apply H1, Hy|]. intros y Hy. apply Hn, elem_of_app. by left. }
    eexists _, (SItem (N :: B) SUniq true :: SItem B SUniq pb :: rest), _. split; [exact Hs|]. split.
    { destruct cnt; [done|]. cbn [m_do stacked s_do]. unfold s_write. cbn [s_find si_tag si_perm s_grants].
      by rewrite bool_decide_eq_true_2. }
    split; [reflexivity|]. cbn [m_do stacked s_do]. rewrite fmap_cons, fmap_cons. cbn [si_tag si_perm].
    rewrite bool_decide_eq_true_2 by done. rewrite bool_decide_eq_false_2 by congruence.
    set (u := λ y : sitem, if bool_decide (si_tag y = N :: B) then SItem (N :: B) (si_perm y) false else y).
    assert (s_write B (SItem (N :: B) SUniq false :: SItem B SUniq pb :: (u <$> rest)) = Some (SItem B SUniq pb :: (u <$> rest))) as Hw.
    { apply (sg_write_box B pb (u <$> rest) [SItem (N :: B) SUniq false]).
      - intros y ->%elem_of_list_singleton. done.
      - by intros y ->%elem_of_list_singleton. }
    rewrite Hw. cbn [mbind option_bind]. replace (existsb si_prot _) with false; [by eexists|]. symmetry. apply not_true_iff_false.
    intros (z&Hz%elem_of_list_In&Ha)%existsb_exists. apply elem_of_cons in Hz as [->|(y&->&Hy)%elem_of_list_fmap].
    + simpl in Ha. subst pb. specialize (Hn (SItem B SUniq true) ltac:(apply elem_of_app; right; by left)). done.
    + unfold u in Ha. case_bool_decide; [done|]. rewrite Hn in Ha; [done|]. apply elem_of_app. right. by right.
Qed.

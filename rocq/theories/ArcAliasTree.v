(** One location of a block of [ArcIntern] under Tree Borrows. *)
From stdpp Require Import gmap list numbers.
From Verif Require Import Base AliasModel AliasTree ArcAliasModel ArcAliasLoc.

Definition can_own (x : tperm) : Prop := match x with TRes _ | TResIM | TAct => True | _ => False end.
Definition reserved (x : tperm) : Prop := match x with TRes _ | TResIM => True | _ => False end.
(** The Box before ([A]) and what it is made from; what was made from it since ([B]); the others. *)
Definition tn_ok (cnt : bool) (A B : tag) (x : tnode) : Prop :=
  (tn_tag x `suffix_of` A -> can_own (tn_perm x) /\ tn_prot x = false) /\
  (~ tn_tag x `suffix_of` A -> tn_tag x `suffix_of` B -> reserved (tn_perm x)) /\
  (~ tn_tag x `suffix_of` B -> tn_perm x = if cnt then TCell else TFro).
Record TG (cnt : bool) (N : nat) (A B : tag) (H P : list tag) (s : list tnode) : Prop := {
  tg_suf : A `suffix_of` B;
  tg_mid : forall t, A `suffix_of` t -> t `suffix_of` B -> has t s;
  tg_hand : forall t, t ∈ H -> has t s /\ A `suffix_of` t /\ ~ t `suffix_of` B;
  tg_old : forall t, has t s -> below N t;
  tg_prot : prot_in P s;
  tg_ok : forall x, x ∈ s -> tn_ok cnt A B x;
}.

Definition like (x y : tnode) : Prop := tn_tag x = tn_tag y /\ tn_prot x = tn_prot y.
Lemma access_like w t s s' : t_access w t s = Some s' -> Forall2 (λ x y, t_touch w t x = Some y) s s'.
Proof.
  unfold t_access. destruct (existsb _ s); [|done]. revert s'. induction s as [|x s IH]; intros s'; simpl; [by intros [= <-]|].
  destruct (t_touch w t x) as [y|] eqn:E; [|done]. destruct (t_all _ s) as [r|] eqn:E2; [|done]. intros [= <-].
  constructor; [done|by apply IH].
Qed.
Lemma touch_like w t x y : t_touch w t x = Some y -> like x y.
Proof. unfold t_touch. destruct (if bool_decide _ then _ else _); simpl; [intros [= <-]; done|done]. Qed.
Lemma access_in w t s s' y : t_access w t s = Some s' -> y ∈ s' -> exists x, x ∈ s /\ t_touch w t x = Some y.
Proof.
  intros Ha%access_like Hy. apply elem_of_list_lookup in Hy as [i Hi].
  destruct (Forall2_lookup_r _ _ _ _ _ Ha Hi) as (x&Hx&Hs). exists x. split; [by eapply elem_of_list_lookup_2|done].
Qed.
Lemma access_has w t s s' g : t_access w t s = Some s' -> has g s <-> has g s'.
Proof.
  intros Ha%access_like. unfold has. rewrite !elem_of_list_fmap. split.
  - intros (x&->&Hx). apply elem_of_list_lookup in Hx as [i Hi].
    destruct (Forall2_lookup_l _ _ _ _ _ Ha Hi) as (y&Hy&Hs). exists y. split; [by apply touch_like in Hs as [? _]|].
    by eapply elem_of_list_lookup_2.
  - intros (x&->&Hx). apply elem_of_list_lookup in Hx as [i Hi].
    destruct (Forall2_lookup_r _ _ _ _ _ Ha Hi) as (y&Hy&Hs). exists y. split; [by apply touch_like in Hs as [? _]|].
    by eapply elem_of_list_lookup_2.
Qed.
Lemma access_some w t s : has t s -> (forall x, x ∈ s -> is_Some (t_touch w t x)) -> is_Some (t_access w t s).
Proof.
  intros Ht Hf. unfold t_access. apply existsb_has in Ht. rewrite Ht.
  destruct (t_all_some (t_touch w t) s Hf) as (s'&->&_). by eexists.
Qed.

Lemma tg_access cnt N A B H P s w t s' : TG cnt N A B H P s -> t_access w t s = Some s' ->
  (forall x y, x ∈ s -> t_touch w t x = Some y -> tn_ok cnt A B y) -> TG cnt N A B H P s'.
Proof.
  intros [H1 H2 H3 H4 H5 H6] Ha Hk. split.
  - done.
  - intros g Hg1 Hg2. apply (access_has _ _ _ _ _ Ha). auto.
  - intros g Hg. destruct (H3 g Hg) as (?&?&?). split_and!; [|done..]. by apply (access_has _ _ _ _ _ Ha).
  - intros g Hg. apply H4. by apply (access_has _ _ _ _ _ Ha).
  - intros y Hy Hp. destruct (access_in _ _ _ _ _ Ha Hy) as (x&Hx&Ht). apply touch_like in Ht as [<- E].
    apply H5; [done|congruence].
  - intros y Hy. destruct (access_in _ _ _ _ _ Ha Hy) as (x&Hx&Ht). by eapply Hk.
Qed.
Lemma tg_read cnt N A B H P s t : TG cnt N A B H P s -> has t s -> A `suffix_of` t ->
  exists s', t_access false t s = Some s' /\ TG cnt N A B H P s'.
Proof.
  intros HG Ht Hs.
  assert (forall x, x ∈ s -> exists y, t_touch false t x = Some y /\ tn_ok cnt A B y) as Hx.
  { intros [g p b] Hx. destruct (tg_ok _ _ _ _ _ _ _ HG _ Hx) as (H1&H2&H3). unfold t_touch, t_local, t_foreign, tn_ok in *. simpl in *.
    destruct (decide (g `suffix_of` A)) as [HA|HA].
    - rewrite bool_decide_eq_true_2 by (by etrans). destruct (H1 HA) as [? ->].
      destruct p; try done; simpl; (eexists; split; [reflexivity|]); simpl; split_and!; try done;
        intros Hn; exfalso; apply Hn; first [exact HA|transitivity A; [exact HA|apply HG]].
    - destruct (decide (g `suffix_of` B)) as [HB|HB].
      + specialize (H2 HA HB). destruct (bool_decide _); destruct p; try done; simpl; (eexists; split; [reflexivity|]); simpl; split_and!; done.
      + specialize (H3 HB). subst p. destruct cnt; case_bool_decide; simpl; (eexists; split; [reflexivity|]); simpl; split_and!; done. }
  destruct (access_some false t s Ht) as [s' Ha]. { intros x Hi. destruct (Hx x Hi) as (y&?&_). by exists y. }
  exists s'. split; [done|]. eapply tg_access; [done..|]. intros x y Hi Hy. destruct (Hx x Hi) as (z&?&?). congruence.
Qed.
Lemma release_in w t s s' y : t_release w t s = Some s' -> y ∈ s' -> exists x, x ∈ s /\ (y = x \/ t_touch w t x = Some y).
Proof.
  intros Ha%release_inv Hy. apply elem_of_list_lookup in Hy as [i Hi].
  destruct (Forall2_lookup_r _ _ _ _ _ Ha Hi) as (x&Hx&Hs). exists x. split; [by eapply elem_of_list_lookup_2|done].
Qed.
Lemma release_has w t s s' g : t_release w t s = Some s' -> has g s <-> has g s'.
Proof.
  intros Ha%release_inv. unfold has.
  replace (tn_tag <$> s') with (tn_tag <$> s); [done|]. induction Ha as [|x y s s' Hy HF IH]; [done|]. rewrite !fmap_cons, IH. f_equal.
  destruct Hy as [->|[? _]%touch_like]; done.
Qed.
Lemma tg_release cnt N A B H P s t : TG cnt N A B H P s -> has t s -> A `suffix_of` t ->
  exists s', t_release false t s = Some s' /\ TG cnt N A B H P s'.
Proof.
  intros HG Ht Hs. destruct (tg_read _ _ _ _ _ _ _ _ HG Ht Hs) as (s1&Ha&HG1). destruct (release_of _ _ _ _ Ha) as (s2&Hr&_).
  exists s2. split; [done|]. destruct HG as [H1 H2 H3 H4 H5 H6]. split.
  - done.
  - intros g Hg1 Hg2. apply (release_has _ _ _ _ _ Hr). auto.
  - intros g Hg. destruct (H3 g Hg) as (?&?&?). split_and!; [|done..]. by apply (release_has _ _ _ _ _ Hr).
  - intros g Hg. apply H4. by apply (release_has _ _ _ _ _ Hr).
  - intros y Hy Hp. destruct (release_in _ _ _ _ _ Hr Hy) as (x&Hx&[->|Ht']); [by apply H5|]. apply touch_like in Ht' as [<- E].
    apply H5; [done|congruence].
  - intros y Hy. destruct (release_in _ _ _ _ _ Hr Hy) as (x&Hx&[->|Ht']); [by apply H6|].
    apply access_like in Ha. apply elem_of_list_lookup in Hx as [i Hi].
    destruct (Forall2_lookup_l _ _ _ _ _ Ha Hi) as (z&Hz&Hzt). simplify_eq. apply (tg_ok _ _ _ _ _ _ _ HG1).
    by eapply elem_of_list_lookup_2.
Qed.
Lemma tg_has cnt N A B H P s t : TG cnt N A B H P s -> t ∈ B :: H -> has t s /\ A `suffix_of` t.
Proof.
  intros HG [->|Ht]%elem_of_cons.
  - split; [apply (tg_mid _ _ _ _ _ _ _ HG); [apply HG|done]|apply HG].
  - by destruct (tg_hand _ _ _ _ _ _ _ HG t Ht) as (?&?&_).
Qed.

Lemma suffix_snoc (g B : tag) N : g `suffix_of` N :: B -> g = N :: B \/ g `suffix_of` B.
Proof. intros [[|x l] E]; [by left|]. right. exists l. by injection E. Qed.

(** What is left when the Box is being dropped; [pr]: the destructor runs. *)
Record TK (B t : tag) (pr : bool) (s : list tnode) : Prop := {
  tk_box : has B s;
  tk_has : has t s;
  tk_ok : forall x, x ∈ s -> (tn_tag x `suffix_of` B /\ can_own (tn_perm x) /\ tn_prot x = false)
    \/ (tn_tag x = t /\ (tn_perm x = TRes false \/ tn_perm x = TAct) /\ tn_prot x = pr)
    \/ (~ tn_tag x `suffix_of` t /\ tn_prot x = false /\ match tn_perm x with TCell | TFro | TDis => True | _ => False end);
}.
Lemma tk_access w B N pr s : TK B (N :: B) pr s -> exists s', t_access w (N :: B) s = Some s' /\ TK B (N :: B) pr s'.
Proof.
  intros HK.
  assert (forall x, x ∈ s -> exists y, t_touch w (N :: B) x = Some y /\
    ((tn_tag y `suffix_of` B /\ can_own (tn_perm y) /\ tn_prot y = false)
    \/ (tn_tag y = N :: B /\ (tn_perm y = TRes false \/ tn_perm y = TAct) /\ tn_prot y = pr)
    \/ (~ tn_tag y `suffix_of` N :: B /\ tn_prot y = false /\ match tn_perm y with TCell | TFro | TDis => True | _ => False end))) as Hx.
  { intros [g p b] Hx. destruct (tk_ok _ _ _ _ HK _ Hx) as [(H1&H2&H3)|[(H1&H2&H3)|(H1&H2&H3)]];
      unfold t_touch, t_local, t_foreign; simpl in *; subst b.
    - rewrite bool_decide_eq_true_2 by (by apply suffix_cons_r). destruct p; try done; destruct w; simpl; rewrite ?andb_false_r;
        (eexists; split; [reflexivity|]); left; done.
    - subst g. rewrite bool_decide_eq_true_2 by done. destruct H2 as [->| ->]; destruct w; simpl;
        (eexists; split; [reflexivity|]); right; left; simpl; eauto.
    - rewrite bool_decide_eq_false_2 by done. destruct p; try done; destruct w; simpl;
        (eexists; split; [reflexivity|]); right; right; done. }
  destruct (access_some w (N :: B) s) as [s' Ha]; [apply HK| |].
  { intros x Hi. destruct (Hx x Hi) as (y&?&_). by exists y. }
  exists s'. split; [done|]. split.
  - apply (access_has _ _ _ _ _ Ha), HK.
  - apply (access_has _ _ _ _ _ Ha), HK.
  - intros y Hy. destruct (access_in _ _ _ _ _ Ha Hy) as (x&Hi&Ht). destruct (Hx x Hi) as (z&?&?). by simplify_eq.
Qed.
Lemma tk_release w B N pr s : TK B (N :: B) pr s -> exists s', t_release w (N :: B) s = Some s' /\ TK B (N :: B) pr s'.
Proof.
  intros HK. destruct (tk_access w _ _ _ _ HK) as (s1&Ha&HK1). destruct (release_of _ _ _ _ Ha) as (s2&Hr&_).
  exists s2. split; [done|]. split.
  - apply (release_has _ _ _ _ _ Hr), HK.
  - apply (release_has _ _ _ _ _ Hr), HK.
  - intros y Hy. destruct (release_in _ _ _ _ _ Hr Hy) as (x&Hx&[->|Ht']); [by apply HK|].
    apply access_like in Ha. apply elem_of_list_lookup in Hx as [i Hi].
    destruct (Forall2_lookup_l _ _ _ _ _ Ha Hi) as (z&Hz&Hzt). simplify_eq. apply (tk_ok _ _ _ _ HK1).
    by eapply elem_of_list_lookup_2.
Qed.
Lemma tk_free B N s : TK B (N :: B) false s -> t_do s (BFree B) = Some [].
Proof.
  intros HK. assert (~ (N :: B) `suffix_of` B) as Hn. { intros E%suffix_length. simpl in E. lia. }
  assert (forall x, x ∈ s -> tn_prot x = false) as Hp.
  { intros x Hx. destruct (tk_ok _ _ _ _ HK x Hx) as [(_&_&?)|[(_&_&?)|(_&?&_)]]; done. }
  destruct (access_some true B s) as [s' Ha]; [apply HK| |].
  - intros [g p b] Hx. pose proof (Hp _ Hx) as Hb. simpl in Hb. subst b.
    destruct (tk_ok _ _ _ _ HK _ Hx) as [(H1&H2&_)|[(H1&H2&_)|(H1&_&H3)]];
      unfold t_touch, t_local, t_foreign; simpl in *.
    + rewrite bool_decide_eq_true_2 by done. destruct p; try done; simpl; rewrite ?andb_false_r; by eexists.
    + subst g. rewrite bool_decide_eq_false_2 by done. destruct H2 as [->| ->]; by eexists.
    + rewrite bool_decide_eq_false_2 by (intros ?; apply H1; by apply suffix_cons_r). destruct p; try done; by eexists.
  - cbn [t_do]. rewrite Ha. cbn [mbind option_bind]. replace (existsb tn_prot s') with false; [done|]. symmetry. apply not_true_iff_false.
    intros (z&Hz%elem_of_list_In&Hb)%existsb_exists. destruct (access_in _ _ _ _ _ Ha Hz) as (x&Hi&Ht).
    apply touch_like in Ht as [_ E]. rewrite <- E, Hp in Hb; done.
Qed.

Lemma trees_spec : lspec trees true TG.
Proof.
  assert (forall N (B : tag), ~ (N :: B) `suffix_of` B) as Hself. { intros N B E%suffix_length. simpl in E. lia. }
  split.
  - intros cnt im w. set (p := if im then TResIM else TRes false).
    exists [TNode [0] p false; TNode [] TAct false], [TNode [0] (if w then TAct else p) false; TNode [] TAct false].
    split; [by destruct im|]. split; [by destruct im, w|]. split.
    + done.
    + intros t Ht1 Ht2. replace t with [0]; [by left|]. destruct Ht1 as [l ->]. destruct l as [|x l]; [done|].
      apply suffix_length in Ht2. rewrite app_length in Ht2. simpl in Ht2. lia.
    + by intros t ?%elem_of_nil.
    + intros t [->|[->|[]%elem_of_nil]%elem_of_cons]%elem_of_cons i Hi; simpl in Hi; [|by apply elem_of_nil in Hi].
      apply elem_of_list_singleton in Hi. lia.
    + intros x [->|[->|[]%elem_of_nil]%elem_of_cons]%elem_of_cons; done.
    + assert ([] `suffix_of` [0]) by apply suffix_nil.
      intros x [->|[->|[]%elem_of_nil]%elem_of_cons]%elem_of_cons; unfold tn_ok; simpl; split_and!; try done.
      intros _. unfold p. by destruct w, im.
  - intros cnt N N' A B H P s [H1 H2 H3 H4 H5 H6] Hle. split; try done. intros t Ht. eapply below_mono, H4; done.
  - intros cnt N A B H H' s [H1 H2 H3 H4 H5 H6] Hs. split; try done. auto.
  - intros cnt N A B H s [H1 H2 H3 H4 H5 H6]. split; try done.
    + intros t Ht1 Ht2. apply H2; [by etrans|done].
    + by intros t ?%elem_of_nil.
    + intros x Hx. destruct (H6 x Hx) as (K1&K2&K3). split_and!; [|done|done]. intros Hs.
      destruct (decide (tn_tag x `suffix_of` A)) as [HA|HA]; [auto|]. split.
      * specialize (K2 HA Hs). by destruct (tn_perm x).
      * destruct (tn_prot x) eqn:E; [|done]. by apply H5, elem_of_nil in E.
  - intros cnt N A B H P s t prot HG Ht. destruct (tg_has _ _ _ _ _ _ _ _ HG Ht) as [Hh Hs].
    assert (below N B) as HbB. { apply (tg_old _ _ _ _ _ _ _ HG). by apply (tg_has _ _ _ _ _ _ _ B HG ltac:(by left)). }
    assert (exists s1, TG cnt N A B H P s1 /\ (forall g, has g s <-> has g s1) /\
      t_do s (BRef (if cnt then KCell else KShr) t (N :: t) (negb cnt && prot)) =
      Some (TNode (N :: t) (if cnt then TCell else TFro) (negb cnt && prot) :: s1)) as (s1&HG1&Hhs&Hd).
    { destruct cnt.
      - exists s. cbn [t_do negb andb]. apply existsb_has in Hh. by rewrite Hh.
      - destruct (tg_read _ _ _ _ _ _ _ _ HG Hh Hs) as (s1&Ha&HG1). exists s1. split_and!; [done|intros g; by apply (access_has _ _ _ _ _ Ha)|].
        cbn [t_do negb andb]. by rewrite Ha. }
    eexists. split; [exact Hd|]. destruct HG1 as [H1 H2 H3 H4 H5 H6]. split.
    + done.
    + intros g Hg1 Hg2. right. by apply H2.
    + intros g [->|Hg]%elem_of_cons.
      * split_and!; [by left|by apply suffix_cons_r|by apply new_no_suffix].
      * destruct (H3 g Hg) as (?&?&?). split_and!; [by right|done|done].
    + intros g [->|Hg]%elem_of_cons; simpl; [apply below_new; by apply (tg_old _ _ _ _ _ _ _ HG)|]. eapply below_mono, H4; [lia|done].
    + intros x [->|Hx]%elem_of_cons Hp; simpl in *; [rewrite Hp; by left|]. specialize (H5 x Hx Hp). destruct (negb cnt && prot); [by right|done].
    + intros x [->|Hx]%elem_of_cons; [|by apply H6]. unfold tn_ok. simpl. split_and!; [| |done].
      * intros HA. exfalso. eapply new_no_suffix; [|by etrans]. done.
      * intros _ HB. exfalso. by eapply new_no_suffix.
  - intros cnt N A B H P s t HG Ht. destruct (tg_has _ _ _ _ _ _ _ _ HG Ht) as [Hh Hs].
    destruct (tg_read _ _ _ _ _ _ _ _ HG Hh Hs) as (s1&Ha&HG1). by exists s1.
  - intros N B H s t HG Ht. destruct (tg_hand _ _ _ _ _ _ _ HG t Ht) as (Hh&Hs&Hn).
    assert (forall x, x ∈ s -> exists y, t_touch true t x = Some y /\ tn_ok true B B y) as Hx.
    { intros [g p b] Hx. destruct (tg_ok _ _ _ _ _ _ _ HG _ Hx) as (H1&_&H3). unfold t_touch, t_local, t_foreign, tn_ok in *. simpl in *.
      destruct (decide (g `suffix_of` B)) as [HB|HB].
      - rewrite bool_decide_eq_true_2 by (by etrans). destruct (H1 HB) as [? ->].
        destruct p; try done; rewrite ?andb_false_r; (eexists; split; [reflexivity|]); simpl; split_and!; done.
      - specialize (H3 HB). subst p. case_bool_decide; (eexists; split; [reflexivity|]); simpl; split_and!; done. }
    destruct (access_some true t s Hh) as [s' Ha]. { intros x Hi. destruct (Hx x Hi) as (y&?&_). by exists y. }
    exists s'. split; [done|]. eapply tg_access; [done..|]. intros x y Hi Hy. destruct (Hx x Hi) as (z&?&?). congruence.
  - intros cnt N A B H P s t HG Ht.
    assert (has t s /\ A `suffix_of` t /\ ~ t `suffix_of` A) as (Hh&Hs&Hne).
    { destruct Ht as [Ht|(Ht1&Hne&Ht2)].
      - destruct (tg_hand _ _ _ _ _ _ _ HG t Ht) as (?&?&Hn). split_and!; [done..|]. intros ?. apply Hn. etrans; [done|apply HG].
      - split_and!; [by apply HG|done|]. intros Hx. apply Hne. destruct Ht1 as [l ->]. destruct l as [|i l]; [done|].
        apply suffix_length in Hx. rewrite app_length in Hx. simpl in Hx. lia. }
    destruct (tg_release _ _ _ _ _ _ _ _ HG Hh Hs) as (s1&Ha&[H1 H2 H3 H4 H5 H6]).
    exists (t_unprot t <$> s1). cbn [m_do trees t_do]. replace (existsb (t_active t) s) with false.
    2:{ symmetry. apply not_true_iff_false. intros (z&Hz%elem_of_list_In&Hb)%existsb_exists. unfold t_active in Hb.
        apply andb_true_iff in Hb as [<-%bool_decide_eq_true Hb]. destruct (tg_ok _ _ _ _ _ _ _ HG z Hz) as (_&K2&K3).
        destruct (decide (tn_tag z `suffix_of` B)) as [HB|HB].
        - specialize (K2 Hne HB). by destruct (tn_perm z).
        - rewrite (K3 HB) in Hb. by destruct cnt. }
    rewrite Ha. split; [done|].
    assert (Hut : forall y, tn_tag (t_unprot t y) = tn_tag y) by (intros y; unfold t_unprot; by case_bool_decide).
    assert (Hup : forall y, tn_perm (t_unprot t y) = tn_perm y) by (intros y; unfold t_unprot; by case_bool_decide).
    assert (Hur : forall y, tn_prot y = false -> tn_prot (t_unprot t y) = false) by (intros y; unfold t_unprot; by case_bool_decide).
    assert (Huh : forall g, has g (t_unprot t <$> s1) <-> has g s1).
    { intros g. unfold has. rewrite <- list_fmap_compose. replace ((tn_tag ∘ t_unprot t) <$> s1) with (tn_tag <$> s1); [done|].
      apply list_fmap_ext. intros i y _. simpl. done. }
    split.
    + done.
    + intros g ??. apply Huh. auto.
    + intros g Hg. destruct (H3 g Hg) as (?&?&?). split_and!; [|done..]. by apply Huh.
    + intros g Hg%Huh. auto.
    + intros y (z&->&Hz)%elem_of_list_fmap Hp. rewrite Hut. unfold t_unprot in Hp. case_bool_decide; [done|].
      specialize (H5 z Hz Hp). by apply elem_of_cons in H5 as [?|?].
    + intros y (z&->&Hz)%elem_of_list_fmap. destruct (H6 z Hz) as (K1&K2&K3). unfold tn_ok. rewrite Hut, Hup.
      split_and!; [|done|done]. intros HA. destruct (K1 HA). auto.
  - intros cnt im N A B H P s prot HG _.
    destruct (tg_has _ _ _ _ _ _ _ B HG ltac:(by left)) as [Hh Hs].
    assert (below N B) as HbB. { by apply (tg_old _ _ _ _ _ _ _ HG). }
    destruct (tg_read _ _ _ _ _ _ _ _ HG Hh Hs) as (s1&Ha&[H1 H2 H3 H4 H5 H6]).
    exists (TNode (N :: B) (t_init (KUni im) prot) prot :: s1). split; [cbn [m_do trees t_do]; by rewrite Ha|]. split.
    + by apply suffix_cons_r.
    + intros g Hg1 Hg2. apply suffix_snoc in Hg2 as [->|Hg2]; [by left|]. right. by apply H2.
    + intros g Hg. destruct (H3 g Hg) as (Hg1&Hg2&Hg3). split_and!; [by right|done|].
      intros Hg4%suffix_snoc. destruct Hg4 as [->|?]; [|done]. specialize (H4 _ Hg1 N ltac:(by left)). lia.
    + intros g [->|Hg]%elem_of_cons; simpl; [by apply below_new|]. eapply below_mono, H4; [lia|done].
    + intros x [->|Hx]%elem_of_cons Hp; simpl in *; [rewrite Hp; by left|]. specialize (H5 x Hx Hp). destruct prot; [by right|done].
    + intros x [->|Hx]%elem_of_cons.
      * unfold tn_ok. simpl. split_and!.
        -- intros HA. exfalso. eapply new_no_suffix; [exact HbB|by etrans].
        -- intros _ _. by destruct (im && negb prot).
        -- done.
      * destruct (H6 x Hx) as (K1&K2&K3). split_and!; [done| |].
        -- intros HA HB. apply suffix_snoc in HB as [E|HB]; [|auto]. exfalso.
           assert (has (N :: B) s1) as Hb. { rewrite <- E. by apply elem_of_list_fmap_1. }
           specialize (H4 _ Hb N ltac:(by left)). lia.
        -- intros HB. apply K3. intros ?. apply HB. by apply suffix_cons_r.
  - intros cnt N B H s HG. cbn [m_do trees t_do].
    assert (forall x, x ∈ s -> tn_prot x = false) as Hp.
    { intros x Hx. destruct (tn_prot x) eqn:E; [|done]. by apply (tg_prot _ _ _ _ _ _ _ HG), elem_of_nil in E. }
    destruct (tg_has _ _ _ _ _ _ _ B HG ltac:(by left)) as [Hh _].
    destruct (access_some true B s Hh) as [s' Ha].
    { intros [g p b] Hx. pose proof (Hp _ Hx) as Hb. simpl in Hb. subst b.
      destruct (tg_ok _ _ _ _ _ _ _ HG _ Hx) as (H1&_&H3). unfold t_touch, t_local, t_foreign in *. simpl in *.
      case_bool_decide as Hs.
      - destruct (H1 Hs) as [? _]. destruct p; try done; simpl; rewrite ?andb_false_r; by eexists.
      - rewrite (H3 Hs). destruct cnt; by eexists. }
    rewrite Ha. cbn [mbind option_bind]. replace (existsb tn_prot s') with false; [by eexists|]. symmetry. apply not_true_iff_false.
    intros (z&Hz%elem_of_list_In&Hb)%existsb_exists. destruct (access_in _ _ _ _ _ Ha Hz) as (x&Hi&Ht).
    apply touch_like in Ht as [_ E]. rewrite <- E, Hp in Hb; done.
  - intros cnt im N B H s HG.
    destruct (tg_has _ _ _ _ _ _ _ B HG ltac:(by left)) as [Hh Hs].
    assert (below N B) as HbB. { by apply (tg_old _ _ _ _ _ _ _ HG). }
    destruct (tg_read _ _ _ _ _ _ _ _ HG Hh Hs) as (s1&Ha&[H1 H2 H3 H4 H5 H6]).
    assert (TK B (N :: B) true (TNode (N :: B) (TRes false) true :: s1)) as HK.
    { split.
      - right. apply H2; done.
      - by left.
      - intros x [->|Hx]%elem_of_cons; [right; left; simpl; eauto|]. destruct (H6 x Hx) as (K1&_&K3).
        destruct (decide (tn_tag x `suffix_of` B)) as [HB|HB]; [left; split; [done|by apply K1]|]. right. right.
        rewrite (K3 HB). split_and!; [| |by destruct cnt].
        + intros [E|?]%suffix_snoc; [|done]. assert (has (N :: B) s1) as Hb. { rewrite <- E. by apply elem_of_list_fmap_1. }
          specialize (H4 _ Hb N ltac:(by left)). lia.
        + destruct (tn_prot x) eqn:E; [|done]. by apply H5, elem_of_nil in E. }
    assert (exists s2, (if cnt then Some (TNode (N :: B) (TRes false) true :: s1)
      else t_do (TNode (N :: B) (TRes false) true :: s1) (BWrite (N :: B))) = Some s2 /\ TK B (N :: B) true s2) as (s2&E2&HK2).
    { destruct cnt; [by eexists|]. apply tk_access. done. }
    destruct (tk_release (existsb (t_active (N :: B)) s2) _ _ _ _ HK2) as (s3&E3&HK3).
    eexists _, s2, (t_unprot (N :: B) <$> s3). split; [cbn [m_do trees t_do]; rewrite Ha; cbn [mbind option_bind t_init negb]; rewrite andb_false_r; reflexivity|].
    split; [exact E2|]. split; [cbn [m_do trees t_do]; by rewrite E3|].
    assert (Hut : forall y, tn_tag (t_unprot (N :: B) y) = tn_tag y) by (intros y; unfold t_unprot; by case_bool_decide).
    assert (Huh : forall g, has g (t_unprot (N :: B) <$> s3) <-> has g s3).
    { intros g. unfold has. rewrite <- list_fmap_compose. replace ((tn_tag ∘ t_unprot (N :: B)) <$> s3) with (tn_tag <$> s3); [done|].
      apply list_fmap_ext. intros i y _. simpl. done. }
    eexists. eapply tk_free. split.
    + apply Huh, HK3.
    + apply Huh, HK3.
    + intros y (z&->&Hz)%elem_of_list_fmap. unfold t_unprot. destruct (tk_ok _ _ _ _ HK3 z Hz) as [(K1&K2&K3)|[(K1&K2&K3)|(K1&K2&K3)]].
      * rewrite bool_decide_eq_false_2; [by left|]. intros E. rewrite E in K1. by apply Hself in K1.
      * rewrite bool_decide_eq_true_2 by done. right. left. simpl. by rewrite <- K1.
      * rewrite bool_decide_eq_false_2; [by right; right|]. intros E. by rewrite E in K1.
Qed.

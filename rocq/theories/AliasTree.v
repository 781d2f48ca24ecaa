(** Tree Borrows: reading and reborrowing never go wrong. *)
From stdpp Require Import gmap list numbers.
From Verif Require Import Base InternModel ArenaModel AliasModel AliasArenaModel.

Definition same_node (x y : tnode) : Prop :=
  tn_tag x = tn_tag y /\ tn_prot x = tn_prot y /\
  match tn_perm x, tn_perm y with TRes _, TRes _ => True | a, b => a = b end.
Definition calm1 (x : tnode) : Prop :=
  match tn_perm x with TRes _ | TFro => True | TAct => tn_tag x = [] | _ => False end.
Definition calm (s : list tnode) : Prop := forall x, x ∈ s -> calm1 x.
Definition has (t : tag) (s : list tnode) : Prop := t ∈ tn_tag <$> s.
Definition open_path (t : tag) (s : list tnode) : Prop :=
  forall x, x ∈ s -> tn_tag x `suffix_of` t -> tn_perm x <> TFro.
Definition prot_in (T : list tag) (s : list tnode) : Prop := forall x, x ∈ s -> tn_prot x = true -> tn_tag x ∈ T.
Definition below (N : nat) (t : tag) : Prop := forall k, k ∈ t -> k < N.

Lemma existsb_has t s : existsb (λ x, bool_decide (tn_tag x = t)) s = true <-> has t s.
Proof.
  unfold has. rewrite existsb_exists, elem_of_list_fmap. split.
  - intros (x&Hx&He). apply bool_decide_eq_true in He. exists x. split; [done|]. by apply elem_of_list_In.
  - intros (x&->&Hx). exists x. split; [by apply elem_of_list_In|]. by apply bool_decide_eq_true.
Qed.

Lemma t_all_some f s : (forall x, x ∈ s -> is_Some (f x)) -> exists s', t_all f s = Some s' /\ Forall2 (λ x y, f x = Some y) s s'.
Proof.
  induction s as [|x s IH]; intros Hf; [by exists []|]. simpl.
  destruct (Hf x) as [y Hy]; [by left|]. destruct IH as (s'&Hs&H2); [intros z Hz; apply Hf; by right|].
  rewrite Hy, Hs. exists (y :: s'). split; [done|]. by constructor.
Qed.

Lemma read_calm t s : calm s -> has t s ->
  exists s', t_access false t s = Some s' /\ Forall2 same_node s s'.
Proof.
  intros Hc Ht. unfold t_access. apply existsb_has in Ht. rewrite Ht.
  destruct (t_all_some (t_touch false t) s) as (s'&Hs&H2).
  - intros [g p b] Hx. specialize (Hc _ Hx). unfold calm1 in Hc. unfold t_touch, t_local, t_foreign. simpl in *.
    case_bool_decide as Hsuf; destruct p; simpl; try done; try eauto.
    subst g. exfalso. apply Hsuf. apply suffix_nil.
  - exists s'. split; [done|]. rewrite Forall2_same_length_lookup in H2. destruct H2 as [Hl H2].
    apply Forall2_same_length_lookup. split; [done|]. intros i x y Hx Hy. specialize (H2 i x y Hx Hy).
    assert (calm1 x) as Hcx by (apply Hc; by eapply elem_of_list_lookup_2).
    destruct x as [g p b]. unfold calm1 in Hcx. unfold t_touch, t_local, t_foreign in H2. simpl in *.
    case_bool_decide as Hsuf; destruct p; simpl in *; try done; simplify_eq; unfold same_node; simpl; try done.
    exfalso. apply Hsuf. apply suffix_nil.
Qed.

Lemma release_of w t s s1 : t_access w t s = Some s1 ->
  exists s2, t_release w t s = Some s2 /\ Forall2 (λ x y, y = x \/ t_touch w t x = Some y) s s2.
Proof.
  unfold t_access, t_release. destruct (existsb _ s); [|done]. revert s1. induction s as [|x s IH]; intros s1; simpl; [intros _; by exists []|].
  destruct (t_touch w t x) as [y|] eqn:E; [|done]. destruct (t_all _ s) as [r|]; [|done]. intros _.
  destruct (IH r eq_refl) as (s2&->&HF). case_bool_decide.
  - exists (x :: s2). split; [done|]. constructor; [by left|done].
  - exists (y :: s2). split; [done|]. constructor; [by right|done].
Qed.
Lemma release_inv w t s s2 : t_release w t s = Some s2 -> Forall2 (λ x y, y = x \/ t_touch w t x = Some y) s s2.
Proof.
  unfold t_release. destruct (existsb _ s); [|done]. revert s2. induction s as [|x s IH]; intros s2; simpl; [by intros [= <-]|].
  destruct (if bool_decide _ then _ else _) as [y|] eqn:E; [|done]. destruct (t_all _ s) as [r|]; [|done]. intros [= <-].
  constructor; [|by apply IH]. case_bool_decide; [left; by injection E|by right].
Qed.
Lemma same_node_refl x : same_node x x.
Proof. unfold same_node. by destruct (tn_perm x). Qed.
Lemma end_calm t s : calm s -> has t s ->
  exists s', t_release false t s = Some s' /\ Forall2 same_node s s'.
Proof.
  intros Hc Ht. destruct (read_calm t s Hc Ht) as (s1&Ha&HF). destruct (release_of _ _ _ _ Ha) as (s2&Hr&HF2).
  exists s2. split; [done|]. unfold t_access in Ha. destruct (existsb _ s); [|done].
  clear Hc Ht Hr. revert s1 s2 Ha HF HF2. induction s as [|x s IH]; intros s1 s2 Ha HF HF2.
  - inversion HF2. constructor.
  - inversion HF2 as [|? y ? s2' Hy HF2' ]; subst. simpl in Ha. destruct (t_touch false t x) as [z|] eqn:Ez; [|done].
    destruct (t_all _ s) as [r|]; [|done]. injection Ha as <-. inversion HF; subst. constructor; [|by eapply IH].
    destruct Hy as [->|Hy]; [apply same_node_refl|]. by simplify_eq.
Qed.

Section same.
  Context (s s' : list tnode) (HF : Forall2 same_node s s').
  Lemma same_in y : y ∈ s' -> exists x, x ∈ s /\ same_node x y.
  Proof.
    intros Hy. apply elem_of_list_lookup in Hy as [i Hi].
    destruct (Forall2_lookup_r _ _ _ _ _ HF Hi) as (x&Hx&Hs). exists x. split; [by eapply elem_of_list_lookup_2|done].
  Qed.
  Lemma same_in_l x : x ∈ s -> exists y, y ∈ s' /\ same_node x y.
  Proof.
    intros Hx. apply elem_of_list_lookup in Hx as [i Hi].
    destruct (Forall2_lookup_l _ _ _ _ _ HF Hi) as (y&Hy&Hs). exists y. split; [by eapply elem_of_list_lookup_2|done].
  Qed.
  Lemma same_calm : calm s -> calm s'.
  Proof.
    intros Hc y Hy. destruct (same_in y Hy) as (x&Hx&Ht&Hp&Hq). specialize (Hc x Hx). unfold calm1 in *.
    rewrite <- Ht. by destruct (tn_perm x), (tn_perm y); try done; simplify_eq.
  Qed.
  Lemma same_has t : has t s -> has t s'.
  Proof.
    unfold has. rewrite !elem_of_list_fmap. intros (x&->&Hx). destruct (same_in_l x Hx) as (y&Hy&Ht&_). by exists y.
  Qed.
  Lemma same_open t : open_path t s -> open_path t s'.
  Proof.
    intros Ho y Hy Hs Hf. destruct (same_in y Hy) as (x&Hx&Ht&Hp&Hq). rewrite <- Ht in Hs.
    specialize (Ho x Hx Hs). rewrite Hf in Hq. by destruct (tn_perm x).
  Qed.
  Lemma same_prot T : prot_in T s -> prot_in T s'.
  Proof.
    intros Hp y Hy Hb. destruct (same_in y Hy) as (x&Hx&Ht&Hpp&_). rewrite <- Ht. apply Hp; [done|congruence].
  Qed.
End same.

(** What stays true of the nodes: [T] are the tags that may be protected; [N]: the next number. *)
Record fine (box : tag) (T : list tag) (N : nat) (s : list tnode) : Prop := {
  f_calm : calm s;
  f_box : has box s;
  f_open : open_path box s;
  f_prot : prot_in T s;
  f_old : forall g, has g s -> below N g;
}.
Lemma same_has_r s s' t : Forall2 same_node s s' -> has t s' -> has t s.
Proof.
  intros HF. unfold has. rewrite !elem_of_list_fmap. intros (x&->&Hx).
  destruct (same_in _ _ HF x Hx) as (y&Hy&Ht&_). by exists y.
Qed.
Lemma fine_same box T N s s' : Forall2 same_node s s' -> fine box T N s -> fine box T N s'.
Proof.
  intros HF [H1 H2 H3 H4 H5]. split; [by eapply same_calm|by eapply same_has|by eapply same_open|by eapply same_prot|].
  intros g Hg. apply H5. by eapply same_has_r.
Qed.

Lemma t_read box T N s t : fine box T N s -> has t s ->
  exists s', t_do s (BRead t) = Some s' /\ fine box T N s' /\ (forall g, has g s -> has g s').
Proof.
  intros Hf Ht. destruct (read_calm t s) as (s'&Hs&HF); [by apply Hf|done|]. exists s'.
  split_and!; [done|by eapply fine_same|]. intros g. by eapply same_has.
Qed.
Lemma below_mono N N' t : N <= N' -> below N t -> below N' t.
Proof. intros Hle Hb k Hk. specialize (Hb k Hk). lia. Qed.
Lemma below_new N t : below N t -> below (S N) (N :: t).
Proof. intros Hb k [->|Hk]%elem_of_cons; [lia|]. specialize (Hb k Hk). lia. Qed.
Lemma new_no_suffix N t g : below N g -> ~ (N :: t) `suffix_of` g.
Proof.
  intros Hb Hs. assert (N ∈ g) as Hi; [|specialize (Hb N Hi); lia].
  destruct Hs as [l ->]. apply elem_of_app. right. by left.
Qed.
Lemma new_not_has box T N s t : fine box T N s -> ~ has (N :: t) s.
Proof. intros Hf Hh. apply (f_old _ _ _ _ Hf) in Hh. specialize (Hh N ltac:(by left)). lia. Qed.

Lemma t_shr box T N s t prot : fine box T N s -> has t s ->
  exists s', t_do s (BRef KShr t (N :: t) prot) = Some s' /\
    fine box (if prot then (N :: t) :: T else T) (S N) s' /\
    has (N :: t) s' /\ (forall g, has g s -> has g s').
Proof.
  intros Hf Ht. destruct (read_calm t s) as (s1&Hs&HF); [by apply Hf|done|].
  pose proof (fine_same _ _ _ _ _ HF Hf) as [H1 H2 H3 H4 H5].
  exists (TNode (N :: t) TFro prot :: s1). split_and!.
  - simpl. by rewrite Hs.
  - split.
    + intros x [->|Hx]%elem_of_cons; [done|by apply H1].
    + by right.
    + intros x [->|Hx]%elem_of_cons; [|by apply H3]. simpl. intros Hsu. exfalso. eapply new_no_suffix; [|done].
      by apply H5.
    + intros x [->|Hx]%elem_of_cons Hp; simpl in *; [subst prot; by left|].
      destruct prot; [right|]; by apply H4.
    + intros g [->|Hg]%elem_of_cons; simpl.
      * apply below_new. by apply (f_old _ _ _ _ Hf).
      * eapply below_mono, H5; [lia|done].
  - by left.
  - intros g Hg. right. by eapply same_has.
Qed.
Lemma t_uni box T N s prot : fine box T N s ->
  exists s', t_do s (BRef (KUni false) box (N :: box) prot) = Some s' /\
    fine (N :: box) (if prot then (N :: box) :: T else T) (S N) s' /\
    (forall g, has g s -> has g s').
Proof.
  intros Hf. destruct (read_calm box s) as (s1&Hs&HF); [by apply Hf|by apply Hf|].
  pose proof (fine_same _ _ _ _ _ HF Hf) as Hf1. pose proof Hf1 as [H1 H2 H3 H4 H5].
  exists (TNode (N :: box) (TRes false) prot :: s1). split_and!.
  - simpl. by rewrite Hs.
  - split.
    + intros x [->|Hx]%elem_of_cons; [done|by apply H1].
    + by left.
    + intros x [->|Hx]%elem_of_cons Hg; [done|].
      assert (tn_tag x `suffix_of` box) as Hb.
      { destruct Hg as [[|k l] Hg]; simpl in Hg.
        - exfalso. apply (new_not_has _ _ _ _ box Hf1). unfold has. rewrite Hg. apply elem_of_list_fmap. by exists x.
        - injection Hg as -> ->. by exists l. }
      by apply H3.
    + intros x [->|Hx]%elem_of_cons Hp; simpl in *; [subst prot; by left|].
      destruct prot; [right|]; by apply H4.
    + intros g [->|Hg]%elem_of_cons; simpl.
      * by apply below_new, H5.
      * eapply below_mono, H5; [lia|done].
  - intros g Hg. right. by eapply same_has.
Qed.
(** The end of a call: the protector goes. *)
Lemma unprot_tag t x : tn_tag (t_unprot t x) = tn_tag x.
Proof. unfold t_unprot. by case_bool_decide. Qed.
Lemma unprot_perm t x : tn_perm (t_unprot t x) = tn_perm x.
Proof. unfold t_unprot. by case_bool_decide. Qed.
Lemma unprot_has t g s : has g (t_unprot t <$> s) <-> has g s.
Proof.
  unfold has. rewrite <- list_fmap_compose. erewrite list_fmap_ext; [done|].
  intros i x _. apply unprot_tag.
Qed.
Lemma t_end box t T N s : fine box (t :: T) N s -> has t s -> t <> [] ->
  exists s', t_do s (BEnd t) = Some s' /\ fine box T N s' /\ (forall g, has g s -> has g s').
Proof.
  intros Hf Ht Hne. simpl. replace (existsb (t_active t) s) with false.
  2:{ symmetry. apply not_true_iff_false. intros (x&Hx%elem_of_list_In&Ha)%existsb_exists.
      unfold t_active in Ha. apply andb_true_iff in Ha as [He Ha]. apply bool_decide_eq_true in He.
      pose proof (f_calm _ _ _ _ Hf x Hx) as Hc. unfold calm1 in Hc. destruct (tn_perm x); try done. by rewrite He in Hc. }
  destruct (end_calm t s) as (s1&Hs&HF); [by apply Hf|done|]. rewrite Hs. eexists. split; [done|].
  pose proof (fine_same _ _ _ _ _ HF Hf) as [H1 H2 H3 H4 H5]. split.
  - split.
    + intros x (y&->&Hy)%elem_of_list_fmap. unfold calm1. rewrite unprot_tag, unprot_perm. by apply H1.
    + by apply unprot_has.
    + intros x (y&->&Hy)%elem_of_list_fmap. rewrite unprot_tag, unprot_perm. by apply H3.
    + intros x (y&->&Hy)%elem_of_list_fmap. unfold t_unprot. case_bool_decide as He; [done|]. intros Hp.
      specialize (H4 y Hy Hp). by apply elem_of_cons in H4 as [?|?].
    + intros g Hg%unprot_has. by apply H5.
  - intros g Hg. apply unprot_has. by eapply same_has.
Qed.

(** Writing. *)
Definition writable (t : tag) (s : list tnode) : Prop :=
  forall x, x ∈ s ->
    if bool_decide (tn_tag x `suffix_of` t)
    then tn_perm x = TAct \/ exists c, tn_perm x = TRes c /\ c && tn_prot x = false
    else tn_prot x = false.
Definition written (t : tag) (x y : tnode) : Prop :=
  tn_tag x = tn_tag y /\ tn_prot x = tn_prot y /\ (tn_tag x `suffix_of` t -> tn_perm y = TAct).
Lemma t_write t s : writable t s -> has t s ->
  exists s', t_access true t s = Some s' /\ Forall2 (written t) s s'.
Proof.
  intros Hw Ht. unfold t_access. apply existsb_has in Ht. rewrite Ht.
  destruct (t_all_some (t_touch true t) s) as (s'&Hs&H2).
  - intros [g p b] Hx. specialize (Hw _ Hx). unfold t_touch, t_local, t_foreign. simpl in *.
    case_bool_decide as Hsuf.
    + destruct Hw as [->|(c&->&Hc)]; [by eexists|]. rewrite Hc. by eexists.
    + subst b. destruct p; simpl; by eexists.
  - exists s'. split; [done|]. rewrite Forall2_same_length_lookup in H2. destruct H2 as [Hl H2].
    apply Forall2_same_length_lookup. split; [done|]. intros i x y Hx Hy. specialize (H2 i x y Hx Hy).
    assert (x ∈ s) as Hxs by (by eapply elem_of_list_lookup_2). specialize (Hw x Hxs).
    destruct x as [g p b]. unfold t_touch, t_local, t_foreign in H2. simpl in *. unfold written. simpl.
    case_bool_decide as Hsuf.
    + destruct Hw as [->|(c&->&Hc)]; [|rewrite Hc in H2]; simpl in H2; by simplify_eq.
    + destruct p, b; simpl in H2; by simplify_eq.
Qed.
Lemma written_in t s s' y : Forall2 (written t) s s' -> y ∈ s' -> exists x, x ∈ s /\ written t x y.
Proof.
  intros HF Hy. apply elem_of_list_lookup in Hy as [i Hi].
  destruct (Forall2_lookup_r _ _ _ _ _ HF Hi) as (x&Hx&Hs). exists x. split; [by eapply elem_of_list_lookup_2|done].
Qed.
Lemma written_has t s s' g : Forall2 (written t) s s' -> has g s -> has g s'.
Proof.
  intros HF. unfold has. rewrite !elem_of_list_fmap. intros (x&->&Hx).
  apply elem_of_list_lookup in Hx as [i Hi]. destruct (Forall2_lookup_l _ _ _ _ _ HF Hi) as (y&Hy&Hs&_).
  exists y. split; [done|]. by eapply elem_of_list_lookup_2.
Qed.
Lemma t_release_write t s : writable t s -> has t s -> (forall x, x ∈ s -> tn_tag x `suffix_of` t -> tn_perm x = TAct) ->
  exists s', t_release true t s = Some s' /\ Forall2 (written t) s s'.
Proof.
  intros Hw Ht Hact. destruct (t_write t s Hw Ht) as (s1&Ha&HF). cbn [t_do] in Ha. destruct (release_of _ _ _ _ Ha) as (s2&Hr&HF2).
  exists s2. split; [done|]. unfold t_access in Ha. destruct (existsb _ s); [|done].
  clear Hw Ht Hr. revert s1 s2 Ha HF HF2. induction s as [|x s IH]; intros s1 s2 Ha HF HF2.
  - inversion HF2. constructor.
  - inversion HF2 as [|? y ? s2' Hy HF2' ]; subst. simpl in Ha. destruct (t_touch true t x) as [z|] eqn:Ez; [|done].
    destruct (t_all _ s) as [r|]; [|done]. injection Ha as <-. inversion HF as [|? ? ? ? HW]; subst.
    constructor; [|eapply IH; [intros w Hw; apply Hact; by right|done..]].
    destruct Hy as [->|Hy]; [|by simplify_eq]. split_and!; [done..|]. apply Hact. by left.
Qed.
(** Dropping: a protected borrow of the box, a write through it, the end of it, and the dealloc. *)
Lemma t_kill box N s : fine box [] N s ->
  exists s1 s2 s3 s4, t_do s (BRef (KUni false) box (N :: box) true) = Some s1 /\
    t_do s1 (BWrite (N :: box)) = Some s2 /\ t_do s2 (BEnd (N :: box)) = Some s3 /\
    t_do s3 (BFree box) = Some s4.
Proof.
  intros Hf. destruct (read_calm box s) as (s0&Hs0&HF0); [by apply Hf|by apply Hf|].
  pose proof (fine_same _ _ _ _ _ HF0 Hf) as Hf0. pose proof Hf0 as [H1 H2 H3 H4 H5].
  set (k := N :: box). set (s1 := TNode k (TRes false) true :: s0).
  assert (Hpath : forall x, x ∈ s0 -> tn_tag x `suffix_of` k -> tn_tag x `suffix_of` box).
  { intros x Hx [[|j l] Hg]; simpl in Hg.
    - exfalso. apply (new_not_has _ _ _ _ box Hf0). unfold has. fold k. rewrite Hg. apply elem_of_list_fmap. by exists x.
    - unfold k in Hg. injection Hg as _ ->. by exists l. }
  assert (Hnp : forall x, x ∈ s0 -> tn_prot x = false).
  { intros x Hx. destruct (tn_prot x) eqn:E; [|done]. apply (H4 x Hx), elem_of_nil in E as []. }
  assert (writable k s1) as Hw1.
  { intros x [->|Hx]%elem_of_cons; simpl.
    - rewrite bool_decide_eq_true_2 by done. right. by exists false.
    - case_bool_decide as Hsu; [|by apply Hnp]. specialize (Hpath x Hx Hsu). specialize (H3 x Hx Hpath).
      specialize (H1 x Hx). unfold calm1 in H1. rewrite (Hnp x Hx).
      destruct (tn_perm x) as [c| | | | |]; try done; [right; exists c; by rewrite andb_false_r|by left]. }
  assert (has k s1) as Hk1 by by left.
  destruct (t_write k s1 Hw1 Hk1) as (s2&Hs2&HF2).
  assert (writable k s2) as Hw2.
  { intros y Hy. destruct (written_in _ _ _ _ HF2 Hy) as (x&Hx&Ht&Hp&Ha). specialize (Hw1 x Hx).
    rewrite <- Ht, <- Hp. case_bool_decide as Hsu; [|done]. left. by apply Ha. }
  assert (has k s2) as Hk2 by by eapply written_has.
  assert (existsb (t_active k) s2 = true) as Hact.
  { unfold has in Hk2. apply elem_of_list_fmap in Hk2 as (y&Hyk&Hy). apply existsb_exists. exists y.
    split; [by apply elem_of_list_In|]. unfold t_active. rewrite <- Hyk, bool_decide_eq_true_2 by done.
    destruct (written_in _ _ _ _ HF2 Hy) as (x&Hx&Ht&Hp&Ha). rewrite Ha; [done|]. by rewrite Ht, <- Hyk. }
  destruct (t_release_write k s2 Hw2 Hk2) as (s3&Hs3&HF3).
  { intros y Hy Hsu. destruct (written_in _ _ _ _ HF2 Hy) as (x&Hx&Ht&Hp&Ha). apply Ha. by rewrite Ht. }
  assert (Hnp3 : forall x, x ∈ t_unprot k <$> s3 -> tn_prot x = false).
  { intros x (y&->&Hy)%elem_of_list_fmap. unfold t_unprot. case_bool_decide as He; [done|].
    destruct (written_in _ _ _ _ HF3 Hy) as (z&Hz&Ht&Hp&Ha).
    destruct (written_in _ _ _ _ HF2 Hz) as (w&Hw&Htw&Hpw&_). rewrite <- Hp, <- Hpw.
    apply elem_of_cons in Hw as [->|Hw]; [|by apply Hnp]. exfalso. apply He. by rewrite <- Ht, <- Htw. }
  assert (writable box (t_unprot k <$> s3)) as Hw3.
  { intros x Hx. case_bool_decide as Hsu; [|by apply Hnp3]. left.
    apply elem_of_list_fmap in Hx as (y&->&Hy). rewrite unprot_tag in Hsu. rewrite unprot_perm.
    destruct (written_in _ _ _ _ HF3 Hy) as (z&Hz&Ht&Hp&Ha). apply Ha. rewrite Ht. by apply suffix_cons_r. }
  assert (has box (t_unprot k <$> s3)) as Hb3.
  { apply unprot_has. eapply written_has; [done|]. eapply written_has; [done|]. by right. }
  destruct (t_write box _ Hw3 Hb3) as (s4&Hs4&HF4).
  exists s1, s2, (t_unprot k <$> s3), []. split_and!.
  - simpl. by rewrite Hs0.
  - done.
  - simpl. by rewrite Hact, Hs3.
  - simpl. rewrite Hs4. simpl. replace (existsb tn_prot s4) with false; [done|]. symmetry.
    apply not_true_iff_false. intros (x&Hx%elem_of_list_In&Ha)%existsb_exists.
    destruct (written_in _ _ _ _ HF4 Hx) as (y&Hy&Ht&Hp&_). rewrite <- Hp, Hnp3 in Ha; done.
Qed.

(** ** A block *)
Record tok (T : list tag) (x : bobj trees) : Prop := {
  o_fine : fine (bo_box x) T (bo_next x) (bo_m x);
  o_ptr : has (bo_ptr x) (bo_m x);
  o_hands : forall t, t ∈ bo_hands x -> has t (bo_m x);
}.
Definition more (x x' : bobj trees) : Prop :=
  bo_ptr x' = bo_ptr x /\ bo_hands x' = bo_hands x /\ (forall g, has g (bo_m x) -> has g (bo_m x')).
Lemma more_refl x : more x x.
Proof. done. Qed.
Lemma more_trans x y z : more x y -> more y z -> more x z.
Proof. intros (H1&H2&H3) (H4&H5&H6). split_and!; [congruence..|]. intros g Hg. by apply H6, H3. Qed.
Lemma tok_more T x T' x' : tok T x -> more x x' -> fine (bo_box x') T' (bo_next x') (bo_m x') -> tok T' x'.
Proof.
  intros [H1 H2 H3] (M1&M2&M3) Hf. split; [done|rewrite M1; by apply M3|]. intros t. rewrite M2. intros Ht. by apply M3, H3.
Qed.

Lemma ob_read T x t : tok T x -> has t (bo_m x) ->
  exists x', b_ev trees (BRead t) x = Some x' /\ tok T x' /\ more x x' /\ bo_box x' = bo_box x.
Proof.
  intros Ho Ht. destruct (t_read _ _ _ _ t (o_fine _ _ Ho) Ht) as (s'&Hs&Hf&Hm).
  unfold b_ev. change (m_do trees) with t_do. rewrite Hs. eexists. split; [done|].
  assert (more x (BObj (M:=trees) s' (bo_next x) (bo_box x) (bo_ptr x) (bo_hands x))) as Hmm by done.
  split_and!; [by eapply tok_more|done|done].
Qed.
Lemma ob_end T x t : tok (t :: T) x -> has t (bo_m x) -> t <> [] ->
  exists x', b_ev trees (BEnd t) x = Some x' /\ tok T x' /\ more x x' /\ bo_box x' = bo_box x.
Proof.
  intros Ho Ht Hne. destruct (t_end _ t _ _ _ (o_fine _ _ Ho) Ht Hne) as (s'&Hs&Hf&Hm).
  unfold b_ev. change (m_do trees) with t_do. rewrite Hs. eexists. split; [done|].
  assert (more x (BObj (M:=trees) s' (bo_next x) (bo_box x) (bo_ptr x) (bo_hands x))) as Hmm by done.
  split_and!; [by eapply tok_more|done|done].
Qed.
Lemma ob_shr T x t prot : tok T x -> has t (bo_m x) ->
  exists x' k, b_ref trees KShr t prot x = Some (x', k) /\ tok (if prot then k :: T else T) x' /\ more x x' /\
    bo_box x' = bo_box x /\ has k (bo_m x') /\ k <> [].
Proof.
  intros Ho Ht. destruct (t_shr _ _ _ _ t prot (o_fine _ _ Ho) Ht) as (s'&Hs&Hf&Hk&Hm).
  unfold b_ref. change (m_do trees) with t_do. rewrite Hs. eexists _, _. split; [done|].
  assert (more x (BObj (M:=trees) s' (S (bo_next x)) (bo_box x) (bo_ptr x) (bo_hands x))) as Hmm by done.
  split_and!; [by eapply tok_more|done|done|done|done].
Qed.
Lemma ob_uni T x prot : tok T x ->
  exists x', b_ref trees (KUni false) (bo_box x) prot x = Some (x', bo_next x :: bo_box x) /\
    let y := b_set_box trees x' (bo_next x :: bo_box x) in
    tok (if prot then bo_box y :: T else T) y /\ more x y.
Proof.
  intros Ho. destruct (t_uni _ _ _ _ prot (o_fine _ _ Ho)) as (s'&Hs&Hf&Hm).
  unfold b_ref. change (m_do trees) with t_do. rewrite Hs. eexists. split; [done|].
  cbv zeta. match goal with |- tok _ ?y /\ _ => assert (more x y) as Hmm by done end.
  split; [|done]. by eapply tok_more.
Qed.

(** The tags of the [i] uppermost calls. *)
Definition prots (i : nat) (t : tag) : list tag := (λ j, drop j t) <$> seq 0 i.
Lemma prots_S_last i t : prots (S i) t = prots i t ++ [drop i t].
Proof. unfold prots. by rewrite seq_S, fmap_app. Qed.
Lemma prots_S_head i t : prots (S i) t = t :: prots i (tail t).
Proof.
  unfold prots. change (seq 0 (S i)) with (0 :: seq 1 i). rewrite fmap_cons. f_equal.
  rewrite <- seq_shift. change (map S (seq 0 i)) with (S <$> seq 0 i). rewrite <- list_fmap_compose.
  apply list_fmap_ext. intros j y _. destruct t as [|a t]; simpl; [by destruct y|done].
Qed.
Lemma ob_enter i : forall T x, tok T x -> exists x1 l, b_enter trees i x = Some x1 /\ more x x1 /\
  bo_box x1 = l ++ bo_box x /\ length l = i /\ tok (prots i (bo_box x1) ++ T) x1 /\
  (forall j, j < i -> has (drop j (bo_box x1)) (bo_m x1)).
Proof.
  induction i as [|i IH]; intros T x Ho; cbn [b_enter].
  - exists x, []. split_and!; try done. intros j Hj. lia.
  - destruct (ob_uni T x true Ho) as (x'&Hr&Hy&Hm). rewrite Hr.
    destruct (IH _ _ Hy) as (x1&l&He&Hm1&Hb&Hl&Hx1&Hd). rewrite He.
    assert (drop i (bo_box x1) = bo_next x :: bo_box x) as Hdi by (rewrite Hb, drop_app_alt by done; done).
    exists x1, (l ++ [bo_next x]). split_and!; [done|by eapply more_trans| |rewrite app_length; simpl; lia| |].
    + rewrite Hb. simpl. by rewrite <- app_assoc.
    + rewrite prots_S_last, <- app_assoc, Hdi. done.
    + intros j Hj. destruct (decide (j = i)) as [->|]; [|apply Hd; lia]. rewrite Hdi.
      apply Hm1. apply (f_box _ _ _ _ (o_fine _ _ Hy)).
Qed.
Lemma ob_leave i : forall T t x, tok (prots i t ++ T) x -> (forall j, j < i -> has (drop j t) (bo_m x)) -> i <= length t ->
  exists x1, b_leave trees i t x = Some x1 /\ more x x1 /\ bo_box x1 = bo_box x /\ tok T x1.
Proof.
  induction i as [|i IH]; intros T t x Ho Hd Hl; cbn [b_leave]; [by exists x|].
  rewrite prots_S_head in Ho. destruct t as [|k t]; [simpl in *; lia|].
  destruct (ob_end _ x (k :: t) Ho) as (x1&He&Hx1&Hm1&Hb1); [apply (Hd 0); lia|done|]. rewrite He.
  destruct (IH T t x1) as (x2&He2&Hm2&Hb2&Hx2); [done| |simpl in *; lia|].
  - intros j Hj. apply Hm1. apply (Hd (S j)). lia.
  - simpl. rewrite He2. exists x2. split_and!; [done|by eapply more_trans|congruence|done].
Qed.
Lemma ob_look T x : tok T x -> exists x1, b_look trees x = Some x1 /\ more x x1 /\ bo_box x1 = bo_box x /\ tok T x1.
Proof.
  intros Ho. unfold b_look.
  destruct (ob_shr T x (bo_box x) true Ho) as (x1&k&H1&Ho1&Hm1&Hb1&Hk&Hne); [apply (f_box _ _ _ _ (o_fine _ _ Ho))|].
  rewrite H1. destruct (ob_read _ x1 k Ho1 Hk) as (x2&H2&Ho2&Hm2&Hb2). rewrite H2.
  destruct (ob_end _ x2 k Ho2) as (x3&H3&Ho3&Hm3&Hb3); [by apply Hm2|done|]. rewrite H3.
  exists x3. split_and!; [done|by eapply more_trans, more_trans|congruence|done].
Qed.
Lemma ob_pass m x : tok [] x -> exists x1 x2, b_enter trees m x = Some x1 /\
  b_leave trees m (bo_box x1) x1 = Some x2 /\ tok [] x2 /\ more x x2.
Proof.
  intros Ho. destruct (ob_enter m [] x Ho) as (x1&l&H1&Hm1&Hb1&Hl1&Ho1&Hd1).
  destruct (ob_leave m [] (bo_box x1) x1 Ho1 Hd1) as (x2&H2&Hm2&_&Ho2); [rewrite Hb1, app_length; lia|].
  exists x1, x2. split_and!; [done..|]. by eapply more_trans.
Qed.
Lemma ob_new : exists x, b_new trees = Some x /\ tok [] x.
Proof.
  eexists. split; [reflexivity|]. split; simpl.
  - split.
    + intros x [->|[->|[]%elem_of_nil]%elem_of_cons]%elem_of_cons; done.
    + by left.
    + intros x [->|[->|[]%elem_of_nil]%elem_of_cons]%elem_of_cons; done.
    + intros x [->|[->|[]%elem_of_nil]%elem_of_cons]%elem_of_cons; done.
    + intros g Hg. unfold has in Hg. simpl in Hg. apply elem_of_cons in Hg as [->|Hg].
      * intros k Hk%elem_of_list_singleton. subst. lia.
      * apply elem_of_list_singleton in Hg as ->. by intros k ?%elem_of_nil.
  - by left.
  - by intros t ?%elem_of_nil.
Qed.
Lemma ob_hand T x k : tok T x -> has k (bo_m x) -> tok T (b_hand trees x k).
Proof.
  intros [H1 H2 H3] Hk. split; [done..|]. simpl. intros t [Ht| ->%elem_of_list_singleton]%elem_of_app; [by apply H3|done].
Qed.
Lemma ob_do n m o x : tok [] x ->
  exists x', b_do trees n m o x = Some x' /\ (o = OKill \/ tok [] x').
Proof.
  intros Ho. pose proof (f_box _ _ _ _ (o_fine _ _ Ho)) as Hbox. destruct o; cbn [b_do].
  - destruct ob_new as (y&Hy&Hoy). eauto.
  - destruct (ob_look _ _ Ho) as (y&Hy&_&_&Hoy). eauto.
  - destruct (ob_pass m x Ho) as (x1&x2&H1&H2&Ho2&Hm2). rewrite H1, H2.
    destruct (ob_shr [] x2 (bo_box x2) false Ho2) as (x3&k&H3&Ho3&Hm3&Hb3&Hk&Hne); [apply (f_box _ _ _ _ (o_fine _ _ Ho2))|].
    rewrite H3. eexists. split; [done|]. right. destruct Ho3. by split.
  - destruct (ob_enter n [] x Ho) as (x1&l&H1&Hm1&Hb1&Hl1&Ho1&Hd1). rewrite H1.
    destruct (ob_look _ _ Ho1) as (x2&H2&Hm2&Hb2&Ho2). rewrite H2.
    destruct (ob_leave n [] (bo_box x2) x2) as (x3&H3&Hm3&_&Ho3).
    + by rewrite Hb2.
    + rewrite Hb2. intros j Hj. by apply Hm2, Hd1.
    + rewrite Hb2, Hb1, app_length. lia.
    + rewrite H3. eauto.
  - destruct (ob_shr [] x (bo_ptr x) false Ho) as (x3&k&H3&Ho3&Hm3&Hb3&Hk&Hne); [apply Ho|].
    rewrite H3. eexists. split; [done|]. right. by apply ob_hand.
  - destruct (ob_shr [] x (bo_box x) false Ho) as (x3&k&H3&Ho3&Hm3&Hb3&Hk&Hne); [done|]. rewrite H3.
    destruct (ob_shr [] x3 k false Ho3) as (x4&k'&H4&Ho4&Hm4&Hb4&Hk'&Hne'); [done|]. rewrite H4.
    eexists. split; [done|]. right. by apply ob_hand.
  - case_match eqn:Hj; [|eauto]. apply elem_of_list_lookup_2 in Hj.
    destruct (ob_shr [] x t true Ho) as (x1&k&H1&Ho1&Hm1&Hb1&Hk&Hne); [by apply Ho|]. rewrite H1.
    destruct (ob_read _ x1 k Ho1 Hk) as (x2&H2&Ho2&Hm2&Hb2). rewrite H2.
    destruct (ob_end _ x2 k Ho2) as (x3&H3&Ho3&Hm3&Hb3); [by apply Hm2|done|]. rewrite H3.
    eexists. split; [done|]. right. apply ob_hand; [done|]. by apply Hm3, Hm2.
  - destruct (ob_pass m x Ho) as (x1&x2&H1&H2&Ho2&Hm2). rewrite H1, H2.
    destruct (t_kill _ _ _ (o_fine _ _ Ho2)) as (s1&s2&s3&s4&K1&K2&K3&K4).
    unfold b_ref, b_ev. change (m_do trees) with t_do. rewrite K1. cbn [bo_m bo_next bo_box]. rewrite K2.
    cbn [bo_m bo_next bo_box]. rewrite K3. cbn [bo_m bo_next bo_box]. rewrite K4. eauto.
Qed.

(** ** All blocks *)
Definition tmap (g : gmap nat (bobj trees)) : Prop := map_Forall (λ _ x, tok [] x) g.
Lemma tm_apply n m g y : tmap g -> exists g', b_apply trees n m g y = Some g' /\ tmap g'.
Proof.
  intros Hg. destruct y as [s o].
  assert (o = OAlloc \/ o <> OAlloc) as [->|Hne] by (destruct o; (by left) || (by right)).
  { destruct ob_new as (y&Hy&Hoy). exists (<[s:=y]> g). split; [|by apply map_Forall_insert_2].
    unfold b_apply. cbn [fst snd]. by rewrite Hy. }
  unfold b_apply. cbn [fst snd]. destruct (g !! s) as [x|] eqn:Hx.
  - destruct (ob_do n m o x (Hg _ _ Hx)) as (x'&Hd&Ho).
    destruct o; try done; rewrite Hd;
      try (destruct Ho as [?|Ho]; [done|]; eexists; split; [done|]; by apply map_Forall_insert_2).
    eexists. split; [done|]. by apply map_Forall_delete.
  - destruct o; try done; by eauto.
Qed.
Lemma tm_applys n m ys : forall g, tmap g -> exists g', b_applys trees n m ys g = Some g' /\ tmap g'.
Proof.
  induction ys as [|y ys IH]; intros g Hg; simpl; [by eauto|].
  destruct (tm_apply n m g y Hg) as (g1&H1&Hg1). rewrite H1. by apply IH.
Qed.

Section run.
  Context {V Q : Type} (n m : nat) (E : ienv V Q).
  (** The run with the machines is the run without. *)
  Lemma tree_run ls : forall bs, tmap (bs_objs bs) ->
    match run (bstep trees n m E) bs ls, run (astep E) (bs_arena bs) (fst <$> ls) with
    | Some bs', Some st => bs_arena bs' = st
    | None, None => True
    | _, _ => False
    end.
  Proof.
    induction ls as [|l ls IH]; intros bs Hg; [done|]. cbn [fmap list_fmap run]. unfold exec, bstep.
    destruct (astep E (bs_arena bs) l.1) as [st| | |] eqn:Hs; simpl; try done; try by apply IH.
    destruct (tm_applys n m (b_ops E (bs_arena bs) l.1 l.2) _ Hg) as (g&Ha&Hg'). rewrite Ha.
    by apply (IH (BState st g)).
  Qed.
  Lemma tree_init ls :
    match run (bstep trees n m E) binit ls, run (astep E) ainit (fst <$> ls) with
    | Some bs', Some st => bs_arena bs' = st
    | None, None => True
    | _, _ => False
    end.
  Proof. apply (tree_run ls binit). apply map_Forall_empty. Qed.
End run.

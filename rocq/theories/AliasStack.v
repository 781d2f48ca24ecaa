(** Stacked Borrows: a block whose Box is the uppermost Unique, with only shared references above. *)
From stdpp Require Import gmap list numbers.
From Verif Require Import Base InternModel ArenaModel AliasModel AliasArenaModel AliasTree.

(** [L]: the tags above the Box's; [B]: the tags below; [T]: the tags that may be protected. *)
Record form (T L B : list tag) (x : bobj stacked) : Prop := {
  fm_stack : exists ab pb be, bo_m x = ab ++ SItem (bo_box x) SUniq pb :: be /\
    (forall y, y ∈ ab -> si_perm y = SRO) /\ L = si_tag <$> ab /\ B = si_tag <$> be;
  fm_prot : forall y : sitem, y ∈ (bo_m x : list sitem) -> si_prot y = true -> si_tag y ∈ T;
  fm_old : forall y : sitem, y ∈ (bo_m x : list sitem) -> below (bo_next x) (si_tag y);
}.

Lemma s_find_live box t ab pb be : (forall y, y ∈ ab -> si_perm y = SRO) -> t ∈ box :: (si_tag <$> ab) ->
  exists a1 y rest, s_find false t (ab ++ SItem box SUniq pb :: be) = Some (a1, y, rest) /\
    ab ++ SItem box SUniq pb :: be = a1 ++ y :: rest /\ forall z, z ∈ a1 -> si_perm z = SRO.
Proof.
  induction ab as [|x ab IH]; intros Hro Ht; cbn [app s_find].
  - simpl in *. apply elem_of_list_singleton in Ht as ->. rewrite bool_decide_eq_true_2 by done. simpl.
    eexists [], _, _. split_and!; [done..|]. by intros z ?%elem_of_nil.
  - rewrite (Hro x) by (by left). simpl.
    case_bool_decide as He; simpl.
    + eexists [], _, _. split_and!; [done..|]. by intros z ?%elem_of_nil.
    + destruct IH as (a1&y&rest&H1&H2&H3).
      * intros y Hy. apply Hro. by right.
      * rewrite fmap_cons, !elem_of_cons in Ht. apply elem_of_cons. destruct Ht as [?|[?|?]]; [by left|congruence|by right].
      * rewrite H1. eexists (x :: a1), y, rest. split_and!; [done|simpl; by rewrite H2|].
        intros z [->|Hz]%elem_of_cons; [apply Hro; by left|by apply H3].
Qed.
Lemma s_read_live box t ab pb be : (forall y, y ∈ ab -> si_perm y = SRO) -> t ∈ box :: (si_tag <$> ab) ->
  s_read t (ab ++ SItem box SUniq pb :: be) = Some (ab ++ SItem box SUniq pb :: be).
Proof.
  intros Hro Ht. destruct (s_find_live box t ab pb be Hro Ht) as (a1&y&rest&H1&H2&H3).
  unfold s_read. rewrite H1, H2. replace (existsb _ a1) with false.
  - f_equal. f_equal. clear -H3. induction a1 as [|z a1 IH]; [done|]. rewrite fmap_cons. f_equal.
    + unfold s_disable, s_is_uniq. by rewrite H3 by (by left).
    + apply IH. intros w Hw. apply H3. by right.
  - symmetry. apply not_true_iff_false. intros (z&Hz%elem_of_list_In&Ha)%existsb_exists.
    unfold s_is_uniq in Ha. rewrite (H3 z Hz) in Ha. by rewrite andb_false_r in Ha.
Qed.
Lemma s_find_box box ab pb be : (forall y, y ∈ ab -> si_perm y = SRO) ->
  s_find true box (ab ++ SItem box SUniq pb :: be) = Some (ab, SItem box SUniq pb, be).
Proof.
  induction ab as [|x ab IH]; intros Hro; cbn [app s_find].
  - simpl. by rewrite bool_decide_eq_true_2 by done.
  - rewrite (Hro x) by (by left). simpl. rewrite andb_false_r, IH; [done|]. intros y Hy. apply Hro. by right.
Qed.
Lemma s_write_box box ab pb be : (forall y, y ∈ ab -> si_perm y = SRO) -> (forall y, y ∈ ab -> si_prot y = false) ->
  s_write box (ab ++ SItem box SUniq pb :: be) = Some (SItem box SUniq pb :: be).
Proof.
  intros Hro Hp. unfold s_write. rewrite s_find_box by done. simpl. rewrite Nat.sub_0_r, firstn_all.
  replace (existsb si_prot ab) with false; [done|]. symmetry. apply not_true_iff_false.
  intros (z&Hz%elem_of_list_In&Ha)%existsb_exists. by rewrite (Hp z Hz) in Ha.
Qed.

Definition kept (x x' : bobj stacked) : Prop :=
  bo_box x' = bo_box x /\ bo_ptr x' = bo_ptr x /\ bo_hands x' = bo_hands x /\ bo_next x <= bo_next x'.
Lemma kept_trans x y z : kept x y -> kept y z -> kept x z.
Proof. intros (?&?&?&?) (?&?&?&?). split_and!; try congruence. lia. Qed.

Lemma sb_read T L B x t : form T L B x -> t ∈ bo_box x :: L -> b_ev stacked (BRead t) x = Some x.
Proof.
  intros [(ab&pb&be&Hs&Hro&->&->) _ _] Ht. unfold b_ev. simpl. rewrite Hs, s_read_live by done.
  rewrite <- Hs. by destruct x.
Qed.
Lemma sb_shr T L B x t prot : form T L B x -> t ∈ bo_box x :: L ->
  exists x', b_ref stacked KShr t prot x = Some (x', bo_next x :: t) /\
    form (if prot then (bo_next x :: t) :: T else T) ((bo_next x :: t) :: L) B x' /\ kept x x' /\
    bo_next x' = S (bo_next x).
Proof.
  intros [(ab&pb&be&Hs&Hro&->&->) Hp Ho] Ht. unfold b_ref. simpl. rewrite Hs, s_read_live by done. simpl.
  eexists. split; [done|]. split_and!; [|split_and!; simpl; [done..|lia]|done]. split; simpl.
  - eexists (_ :: ab), pb, be. split_and!; [done| |done|done].
    intros y [->|Hy]%elem_of_cons; [done|by apply Hro].
  - rewrite <- Hs. intros y [->|Hy]%elem_of_cons; simpl; [intros ->; by left|].
    intros Hy'. specialize (Hp y Hy Hy'). destruct prot; [by right|done].
  - rewrite <- Hs. intros y [->|Hy]%elem_of_cons; simpl; [|eapply below_mono, Ho; [lia|done]].
    apply below_new. rewrite elem_of_cons, elem_of_list_fmap in Ht. destruct Ht as [->|(z&->&Hz)].
    + apply (Ho (SItem (bo_box x) SUniq pb)). rewrite Hs. apply elem_of_app. right. by left.
    + apply Ho. rewrite Hs. apply elem_of_app. by left.
Qed.
Lemma sb_uni T L B x prot : form T L B x -> (forall t, t ∈ T -> t ∉ L) ->
  exists x', b_ref stacked (KUni false) (bo_box x) prot x = Some (x', bo_next x :: bo_box x) /\
    kept x x' /\ bo_next x' = S (bo_next x) /\
    form (if prot then (bo_next x :: bo_box x) :: T else T) [] (bo_box x :: B)
      (b_set_box stacked x' (bo_next x :: bo_box x)).
Proof.
  intros [(ab&pb&be&Hs&Hro&->&->) Hp Ho] Hd. unfold b_ref. simpl. rewrite Hs, s_write_box; simpl.
  - eexists. split; [done|]. split_and!; [split_and!; simpl; [done..|lia]|done|]. split; simpl.
    + eexists [], _, _. split_and!; [done| |done|done]. by intros y ?%elem_of_nil.
    + intros y [->|Hy]%elem_of_cons; simpl; [intros ->; by left|]. intros Hy'.
      assert (si_tag y ∈ T) by (apply Hp; [rewrite Hs; apply elem_of_app; by right|done]). destruct prot; [by right|done].
    + intros y [->|Hy]%elem_of_cons; simpl.
      * apply below_new. apply (Ho (SItem (bo_box x) SUniq pb)). rewrite Hs. apply elem_of_app. right. by left.
      * eapply below_mono, Ho; [lia|]. rewrite Hs. apply elem_of_app. by right.
  - done.
  - intros y Hy. destruct (si_prot y) eqn:E; [|done]. exfalso. apply (Hd (si_tag y)).
    + apply Hp; [rewrite Hs; apply elem_of_app; by left|done].
    + apply elem_of_list_fmap. by exists y.
Qed.
Lemma sb_end T L B x t : form (t :: T) L B x ->
  exists x', b_ev stacked (BEnd t) x = Some x' /\ form T L B x' /\ kept x x' /\ bo_next x' = bo_next x.
Proof.
  intros [(ab&pb&be&Hs&Hro&->&->) Hp Ho]. unfold b_ev. simpl.
  set (u := λ y : sitem, if bool_decide (si_tag y = t) then SItem t (si_perm y) false else y).
  assert (Hut : forall y, si_tag (u y) = si_tag y) by (intros y; unfold u; by case_bool_decide).
  assert (Hup : forall y, si_perm (u y) = si_perm y) by (intros y; unfold u; by case_bool_decide).
  eexists. split; [done|]. split_and!; [|split_and!; simpl; [done..|lia]|done]. split; simpl.
  - rewrite Hs, fmap_app, fmap_cons.
    exists (u <$> ab), (si_prot (u (SItem (bo_box x) SUniq pb))), (u <$> be). split_and!.
    + f_equal. f_equal. pose proof (Hut (SItem (bo_box x) SUniq pb)) as H1. pose proof (Hup (SItem (bo_box x) SUniq pb)) as H2.
      destruct (u (SItem (bo_box x) SUniq pb)); simpl in *. by subst.
    + intros y (z&->&Hz)%elem_of_list_fmap. rewrite Hup. by apply Hro.
    + rewrite <- list_fmap_compose. apply list_fmap_ext. intros i y _. by simpl.
    + rewrite <- list_fmap_compose. apply list_fmap_ext. intros i y _. by simpl.
  - intros y (z&->&Hz)%elem_of_list_fmap. unfold u. case_bool_decide as He; [done|]. intros Hy.
    specialize (Hp z Hz Hy). by apply elem_of_cons in Hp as [?|?].
  - intros y (z&->&Hz)%elem_of_list_fmap. rewrite Hut. by apply Ho.
Qed.
Lemma form_tags T L B x t : form T L B x -> t ∈ L \/ t = bo_box x \/ t ∈ B -> below (bo_next x) t.
Proof.
  intros [(ab&pb&be&Hs&Hro&->&->) _ Ho] Ht. rewrite !elem_of_list_fmap in Ht.
  destruct Ht as [(y&->&Hy)|[->|(y&->&Hy)]].
  - apply Ho. rewrite Hs. apply elem_of_app. by left.
  - apply (Ho (SItem (bo_box x) SUniq pb)). rewrite Hs. apply elem_of_app. right. by left.
  - apply Ho. rewrite Hs. apply elem_of_app. right. by right.
Qed.

(** ** What the operations do *)
Lemma sb_look T L B x : form T L B x ->
  exists x', b_look stacked x = Some x' /\ form T ((bo_next x :: bo_box x) :: L) B x' /\ kept x x' /\
    bo_next x' = S (bo_next x).
Proof.
  intros Hf. unfold b_look. destruct (sb_shr T L B x (bo_box x) true Hf) as (x1&H1&Hf1&Hk1&Hn1); [by left|].
  rewrite H1. assert (bo_next x :: bo_box x ∈ bo_box x1 :: (bo_next x :: bo_box x) :: L) as Hin by (right; by left).
  rewrite (sb_read _ _ _ x1 _ Hf1 Hin). destruct (sb_end _ _ _ x1 _ Hf1) as (x2&H2&Hf2&Hk2&Hn2).
  rewrite H2. exists x2. split_and!; [done|done|by eapply kept_trans|congruence].
Qed.
Lemma sb_enter i : forall T L B x, form T L B x -> (forall t, t ∈ T -> t ∉ L) ->
  exists x1 l B1, b_enter stacked i x = Some x1 /\ bo_ptr x1 = bo_ptr x /\ bo_hands x1 = bo_hands x /\
    bo_next x <= bo_next x1 /\ bo_box x1 = l ++ bo_box x /\ length l = i /\
    form (prots i (bo_box x1) ++ T) (if i =? 0 then L else []) B1 x1 /\
    (forall t, t ∈ bo_box x1 :: B1 -> t ∈ bo_box x :: B \/ ~ below (bo_next x) t).
Proof.
  induction i as [|i IH]; intros T L B x Hf Hd; cbn [b_enter].
  - exists x, [], B. split_and!; try done. intros t Ht. by left.
  - destruct (sb_uni T L B x true Hf Hd) as (x'&Hr&(Hb&Hp&Hh&Hn)&Hn'&Hf'). rewrite Hr.
    destruct (IH _ _ _ _ Hf') as (x1&l&B1&He&Hp1&Hh1&Hn1&Hb1&Hl1&Hf1&Ht1); [by intros t _ ?%elem_of_nil|].
    rewrite He. cbn [b_set_box bo_ptr bo_hands bo_next bo_box] in *. exists x1, (l ++ [bo_next x]), B1.
    assert (drop i (bo_box x1) = bo_next x :: bo_box x) as Hdi by (rewrite Hb1, drop_app_alt by done; done).
    split_and!; [done|congruence|congruence|lia| |rewrite app_length; simpl; lia| |].
    + rewrite Hb1. by rewrite <- app_assoc.
    + rewrite prots_S_last, <- app_assoc, Hdi. destruct i; done.
    + intros t Ht. destruct (Ht1 t Ht) as [[->|Hin]%elem_of_cons|Hnb].
      * right. intros Hbl. specialize (Hbl (bo_next x) ltac:(by left)). lia.
      * by left.
      * right. intros Hbl. apply Hnb. eapply below_mono; [|done]. lia.
Qed.
Lemma sb_leave i : forall T L B t x, form (prots i t ++ T) L B x -> 
  exists x1, b_leave stacked i t x = Some x1 /\ form T L B x1 /\ kept x x1 /\ bo_next x1 = bo_next x.
Proof.
  induction i as [|i IH]; intros T L B t x Hf; cbn [b_leave].
  - exists x. split_and!; [done|done|done|done].
  - rewrite prots_S_head in Hf. destruct (sb_end _ _ _ x t Hf) as (x1&H1&Hf1&Hk1&Hn1). rewrite H1.
    destruct (IH T L B (tail t) x1 Hf1) as (x2&H2&Hf2&Hk2&Hn2). exists x2.
    split_and!; [done|done|by eapply kept_trans|congruence].
Qed.
Lemma sb_pass i L B x : form [] L B x ->
  exists x1 x2 B1, b_enter stacked i x = Some x1 /\ b_leave stacked i (bo_box x1) x1 = Some x2 /\
    bo_ptr x2 = bo_ptr x /\ bo_hands x2 = bo_hands x /\ bo_next x <= bo_next x2 /\ (i = 0 -> bo_box x2 = bo_box x) /\
    form [] (if i =? 0 then L else []) B1 x2 /\
    (forall t, t ∈ bo_box x2 :: B1 -> t ∈ bo_box x :: B \/ ~ below (bo_next x) t).
Proof.
  intros Hf. destruct (sb_enter i [] L B x Hf) as (x1&l&B1&H1&Hp1&Hh1&Hn1&Hb1&Hl1&Hf1&Ht1); [by intros t ?%elem_of_nil|].
  destruct (sb_leave i [] _ _ (bo_box x1) x1 Hf1) as (x2&H2&Hf2&(Hb2&Hp2&Hh2&_)&Hn2).
  exists x1, x2, B1. split_and!; [done|done|congruence|congruence|lia| |done|by rewrite Hb2].
  intros ->. rewrite Hb2, Hb1. by destruct l.
Qed.
Lemma sb_kill L B x : form [] L B x ->
  exists x3 x4 x5 x6, b_ref stacked (KUni false) (bo_box x) true x = Some (x3, bo_next x :: bo_box x) /\
    b_ev stacked (BWrite (bo_next x :: bo_box x)) x3 = Some x4 /\
    b_ev stacked (BEnd (bo_next x :: bo_box x)) x4 = Some x5 /\
    b_ev stacked (BFree (bo_box x5)) x5 = Some x6.
Proof.
  intros Hf. pose proof Hf as [(ab&pb&be&Hs&Hro&->&->) Hp Ho].
  assert (Hnp : forall y, y ∈ (bo_m x : list sitem) -> si_prot y = false).
  { intros y Hy. destruct (si_prot y) eqn:E; [|done]. by apply (Hp y Hy), elem_of_nil in E. }
  assert (Hk : bo_next x :: bo_box x <> bo_box x).
  { intros He. apply (f_equal length) in He. simpl in He. lia. }
  unfold b_ref. simpl. rewrite Hs, s_write_box.
  2: done.
  2: { intros y Hy. apply Hnp. rewrite Hs. apply elem_of_app. by left. }
  simpl. eexists _, _, _, _. split; [done|]. split.
  { unfold b_ev. simpl. unfold s_write. simpl. rewrite bool_decide_eq_true_2 by done. simpl. done. }
  split; [unfold b_ev; simpl; done|]. unfold b_ev. simpl.
  rewrite bool_decide_eq_true_2 by done. rewrite bool_decide_eq_false_2 by done.
  match goal with |- context [s_write _ (?k :: ?b :: ?r)] => set (rest := r) end.
  pose proof (s_write_box (bo_box x) [] pb rest) as Hw. 
  unfold s_write. simpl. rewrite bool_decide_eq_false_2 by done. simpl. rewrite bool_decide_eq_true_2 by done. simpl.
  assert (pb = false) as -> by (apply (Hnp (SItem (bo_box x) SUniq pb)); rewrite Hs; apply elem_of_app; right; by left).
  replace (existsb si_prot rest) with false; [done|]. symmetry. apply not_true_iff_false.
  intros (z&Hz%elem_of_list_In&Ha)%existsb_exists. unfold rest in Hz. apply elem_of_list_fmap in Hz as (y&->&Hy).
  case_bool_decide; [done|]. rewrite (Hnp y) in Ha; [done|]. rewrite Hs. apply elem_of_app. right. by right.
Qed.
Lemma sb_new : exists x, b_new stacked = Some x /\ form [] [] [[]] x /\ bo_hands x = [] /\ bo_ptr x = bo_box x.
Proof.
  eexists. split; [reflexivity|]. split_and!; [|done|done]. split; simpl.
  - eexists [], false, [_]. split_and!; [reflexivity| |done|done]. by intros y ?%elem_of_nil.
  - intros y [->|[->|[]%elem_of_nil]%elem_of_cons]%elem_of_cons; done.
  - intros y [->|[->|[]%elem_of_nil]%elem_of_cons]%elem_of_cons; intros k; simpl.
    + intros ->%elem_of_list_singleton. lia.
    + by intros ?%elem_of_nil.
Qed.

(** Tree Borrows, if the Box is retagged by [e.insert(())]: the count written through the pointer of the
    first handle disables the Box. *)
From stdpp Require Import gmap list numbers.
From Verif Require Import Base ArcModel ArcSpec ArcInv ArcStep ArcSafe ArcReach.
From Verif Require Import AliasModel AliasTree ArcAliasModel ArcAliasLoc ArcAliasTree ArcAliasOps ArcAliasSafe ArcAliasBad.
Require Import ZifyBool ZifyNat ZifyN.

(** [warm]: a node a Box may have.  [hot]: it does not survive a foreign write. *)
Definition warm (p : tperm) : Prop := p <> TCell.
Definition hot (p : tperm) : Prop := p <> TCell /\ p <> TResIM.
Definition dis (p : tperm) : Prop := p = TDis.
Definition closed (S : tperm -> Prop) : Prop :=
  forall w x p', S (tn_perm x) -> t_local w x = Some p' \/ t_foreign w x = Some p' -> S p'.
Lemma closed_warm : closed warm.
Proof. intros w [g p b] p'. unfold warm, t_local, t_foreign. simpl. intros Hp [H|H]; destruct p as [[]| | | | |], w, b; simplify_eq/=; done. Qed.
Lemma closed_hot : closed hot.
Proof. intros w [g p b] p'. unfold hot, t_local, t_foreign. simpl. intros [Hx1 Hx2] [H|H]; destruct p as [[]| | | | |], w, b; simplify_eq/=; done. Qed.
Lemma closed_dis : closed dis.
Proof. intros w [g p b] p'. unfold dis, t_local, t_foreign. simpl. intros -> [H|H]; simplify_eq/=; done. Qed.

(** [pr = false]: and it is not protected. *)
Definition tnod (S : tperm -> Prop) (pr : bool) (d : tag) (s : list tnode) : Prop :=
  exists x, x ∈ s /\ tn_tag x = d /\ S (tn_perm x) /\ (pr = false -> tn_prot x = false).

Lemma access_fwd w t s s' x : t_access w t s = Some s' -> x ∈ s -> exists y, y ∈ s' /\ t_touch w t x = Some y.
Proof.
  intros Ha%access_like Hx. apply elem_of_list_lookup in Hx as [i Hi].
  destruct (Forall2_lookup_l _ _ _ _ _ Ha Hi) as (y&Hy&Hs). exists y. split; [by eapply elem_of_list_lookup_2|done].
Qed.
Lemma touch_inv w t x y : t_touch w t x = Some y -> tn_tag y = tn_tag x /\ tn_prot y = tn_prot x /\
  (if bool_decide (tn_tag x `suffix_of` t) then t_local w x else t_foreign w x) = Some (tn_perm y).
Proof.
  unfold t_touch. destruct (if bool_decide _ then _ else _) as [p|]; [|done]. by intros [= <-].
Qed.
Lemma access_node S pr d w t s s' : closed S -> t_access w t s = Some s' -> tnod S pr d s -> tnod S pr d s'.
Proof.
  intros HS Ha (x&Hx&Hd&HP&Hpr). destruct (access_fwd _ _ _ _ _ Ha Hx) as (y&Hy&(E1&E2&E3)%touch_inv).
  exists y. split_and!; [done|congruence| |by rewrite E2]. eapply (HS w x); [done|]. case_bool_decide; [by left|by right].
Qed.
Lemma release_node S pr d w t s s' : closed S -> t_release w t s = Some s' -> tnod S pr d s -> tnod S pr d s'.
Proof.
  intros HS Ha%release_inv (x&Hx&Hd&HP&Hpr). apply elem_of_list_lookup in Hx as [i Hi].
  destruct (Forall2_lookup_l _ _ _ _ _ Ha Hi) as (y&Hy%elem_of_list_lookup_2&[->|(E1&E2&E3)%touch_inv]); [by exists x|].
  exists y. split_and!; [done|congruence| |by rewrite E2]. eapply (HS w x); [done|]. case_bool_decide; [by left|by right].
Qed.
Lemma cons_node S pr d x s : tnod S pr d s -> tnod S pr d (x :: s).
Proof. intros (y&Hy&?). exists y. split; [by right|done]. Qed.
Lemma do_node S pr d s e s' : closed S -> (forall t, e <> BFree t) -> t_do s e = Some s' -> tnod S pr d s -> tnod S pr d s'.
Proof.
  intros HS He Hd Hn. destruct e as [t|t|kd t t' b|t|t]; cbn [t_do] in Hd; [by eapply access_node..| | |by destruct (He t)].
  - destruct kd.
    + destruct (t_access false t s) as [s1|] eqn:H1; [|done]. injection Hd as <-. by eapply cons_node, access_node.
    + destruct (t_access false t s) as [s1|] eqn:H1; [|done]. injection Hd as <-. by eapply cons_node, access_node.
    + destruct (existsb _ s); [|done]. injection Hd as <-. by apply cons_node.
  - destruct (t_release _ t s) as [s1|] eqn:H1; [|done]. injection Hd as <-.
    eapply release_node in H1 as (x&Hx&Ht&HP&Hpr); [|done..]. exists (t_unprot t x). unfold t_unprot. split_and!.
    + apply elem_of_list_fmap. by exists x.
    + case_bool_decide; simpl; congruence.
    + by case_bool_decide.
    + case_bool_decide; [done|exact Hpr].
Qed.

Section tb.
  Context (im : bool) (n m k : list bool).
  Notation cdo := (c_do trees im n m k).
  Notation arun := (a_run trees im true).

  Lemma run_node S pr d xs : closed S -> (forall x, x ∈ xs -> frees x = false) -> forall s s', arun xs s = Some s' ->
    tnod S pr d s -> tnod S pr d s'.
  Proof.
    intros HS. induction xs as [|x xs IH]; intros Hf s s'; cbn [a_run]; [by intros [= <-]|]. cbn [x_loc].
    destruct (m_opt trees (x_cnt x) s) as [s1|] eqn:H1; [|done]. intros Hr Hn.
    eapply IH; [intros y Hy; apply Hf; by right|exact Hr|]. destruct (x_cnt x) as [e|] eqn:He; [|by injection H1 as <-].
    eapply do_node; [done| |exact H1|done]. intros t ->. specialize (Hf x ltac:(by left)). by destruct x.
  Qed.
  Lemma run_endbox S d s s' : closed S -> arun [XEndBox d] s = Some s' -> tnod S true d s -> tnod S false d s'.
  Proof.
    intros HS Hr Hn. cbn [a_run x_loc x_cnt m_opt] in Hr. destruct (m_do trees s (BEnd d)) as [s2|] eqn:H1; [|done].
    injection Hr as <-. cbn in H1. destruct (t_release _ d s) as [s1|] eqn:H2; [|done]. injection H1 as <-.
    eapply release_node in H2 as (x&Hx&Ht&HP&Hpr); [|done..]. exists (t_unprot d x). unfold t_unprot.
    rewrite bool_decide_eq_true_2 by done. split_and!; [|done..]. apply elem_of_list_fmap. exists x. by rewrite bool_decide_eq_true_2.
  Qed.

  (** After the retags there is an unprotected node between the Box as it was and as it is now. *)
  Lemma pass_node l : forall N B s s', arun (x_enter l N B ++ x_leave l N B) s = Some s' -> l <> [] ->
    exists d, (N :: B) `suffix_of` d /\ d `suffix_of` x_top l N B /\ tnod warm false d s' /\ (true ∈ l -> tnod hot false d s').
  Proof.
    induction l as [|b l IH]; intros N B s s' Hr Hl; [done|]. cbn [x_enter x_leave x_top app] in *.
    cbn [a_run x_loc x_cnt m_opt] in Hr. destruct (m_do trees s _) as [s1|] eqn:H1; [|done].
    cbn in H1. destruct (t_access false B s) as [s0|] eqn:H0; [|done]. injection H1 as <-.
    rewrite app_assoc, a_run_app in Hr. destruct (arun (x_enter l _ _ ++ _) _) as [s2|] eqn:H2; [|done].
    destruct b.
    - exists (N :: B). assert (tnod hot false (N :: B) s') as Hh.
      { eapply run_endbox; [exact closed_hot|exact Hr|]. eapply run_node; [exact closed_hot|by apply pass_frees|exact H2|].
        eexists. split_and!; [by left|done|done|done]. }
      split_and!; [done|apply x_top_suffix| |done].
      destruct Hh as (x&Hx&Hd&[Hp _]&Hpr). by exists x.
    - injection Hr as <-. destruct (decide (true ∈ l)) as [Ht|Ht].
      + destruct (IH _ _ _ _ H2) as (d&D1&D2&D3&D4); [by destruct l; [apply elem_of_nil in Ht|]|].
        exists d. split_and!; [|done|done|by intros _; apply D4]. etrans; [|exact D1]. apply suffix_cons_r. done.
      + exists (N :: B). split_and!; [done|apply x_top_suffix| |by intros [?|?]%elem_of_cons].
        eapply run_node; [exact closed_warm|by apply pass_frees|exact H2|]. eexists. split_and!; [by left|done|done|done].
  Qed.

  (** [d] is the Box's; the first handle is not made from it. *)
  Definition apart (S : tperm -> Prop) (x : cobj trees) : Prop :=
    exists h hs d, co_hands x = h :: hs /\ d `suffix_of` co_box x /\ ~ d `suffix_of` h /\ ~ h `suffix_of` d /\ tnod S false d (co_c x).
  Lemma apart_keep S o x x' : closed S -> keeps o = true -> apart S x -> cdo o x = Some x' -> apart S x'.
  Proof.
    intros HS Ho (h&hs&d&Hh&Hd&H1&H2&Hn) (xs&Ha&Hr)%do_inv. destruct (acts_keep _ _ _ _ _ _ _ _ _ _ Ho Ha) as (_&Hf&_&Hb&hs'&Hh').
    exists h, (hs ++ hs'), d. split_and!; [by rewrite Hh', Hh|by etrans|done|done|by eapply run_node].
  Qed.
  Lemma suffix_chain (a b c : tag) : a `suffix_of` c -> b `suffix_of` c -> a `suffix_of` b \/ b `suffix_of` a.
  Proof.
    intros [l ->] [l' E]. revert l' b E. induction l as [|x l IH]; intros l' b E; simpl in E.
    - right. by exists l'.
    - destruct l' as [|y l']; simpl in E; [left; exists (x :: l); by rewrite <- E|]. injection E as <- E. by eapply IH.
  Qed.
  (** A write of the count through the first handle. *)
  Lemma apart_use x x' : apart hot x -> cdo (CUse 0 true) x = Some x' -> apart dis x'.
  Proof.
    intros (h&hs&d&Hh&Hd&H1&H2&Hn) (xs&Ha&Hr)%do_inv. cbn [c_acts] in Ha. rewrite Hh in Ha. cbn in Ha. injection Ha as <- En Eb Eh.
    cbn [a_run x_loc x_cnt m_opt] in Hr.
    destruct (m_do trees (co_c x) _) as [s1|] eqn:E1; [|done]. destruct (m_do trees s1 _) as [s2|] eqn:E2; [|done].
    destruct (m_do trees s2 _) as [s3|] eqn:E3; [|done]. injection Hr as Hr.
    eapply do_node in E1; [|exact closed_hot|done|exact Hn]. eapply do_node in E2; [|exact closed_hot|done|exact E1].
    exists h, hs, d. split_and!; [by rewrite <- Eh|by rewrite <- Eb|done|done|]. rewrite <- Hr. cbn in E3.
    destruct E2 as (y&Hy&Hyd&[Hp1 Hp2]&Hpr). destruct (access_fwd _ _ _ _ _ E3 Hy) as (z&Hz&(F1&F2&F3)%touch_inv).
    exists z. split_and!; [done|congruence| |rewrite F2; done]. rewrite bool_decide_eq_false_2 in F3.
    - unfold t_foreign in F3. rewrite Hpr in F3 by done. unfold dis. destruct (tn_perm y); simplify_eq/=; done.
    - rewrite Hyd. intros Hs. destruct (suffix_chain d h _ Hs) as [?|?]; [|done|done].
      exists [S (co_next x); co_next x]. done.
  Qed.
  (** A write of the count through the Box. *)
  Lemma apart_bump x x' : apart warm x -> cdo CBump x = Some x' -> apart hot x'.
  Proof.
    intros (h&hs&d&Hh&Hd&H1&H2&Hn) (xs&Ha&Hr)%do_inv. cbn [c_acts] in Ha. injection Ha as <- En Eb Eh.
    cbn [a_run x_loc x_cnt m_opt] in Hr.
    destruct (m_do trees (co_c x) _) as [s1|] eqn:E1; [|done]. destruct (m_do trees s1 _) as [s2|] eqn:E2; [|done]. injection Hr as Hr.
    eapply do_node in E1; [|exact closed_warm|done|exact Hn].
    exists h, hs, d. split_and!; [by rewrite <- Eh|by rewrite <- Eb|done|done|]. rewrite <- Hr. cbn in E2.
    destruct E1 as (y&Hy&Hyd&Hp&Hpr). destruct (access_fwd _ _ _ _ _ E2 Hy) as (z&Hz&(F1&F2&F3)%touch_inv).
    exists z. split_and!; [done|congruence| |rewrite F2; done]. rewrite bool_decide_eq_true_2 in F3.
    - unfold warm in Hp. unfold t_local in F3. unfold hot. destruct (tn_perm y) as [[]| | | | |], (tn_prot y); simplify_eq/=; try done; rewrite <- F3; done.
    - rewrite Hyd. by apply suffix_cons_r.
  Qed.
  Lemma dis_access w d t s : tnod dis false d s -> d `suffix_of` t -> t_access w t s = None.
  Proof.
    intros (y&Hy&Hyd&Hp&Hpr) Hs. destruct (t_access w t s) as [s'|] eqn:Ha; [|done].
    destruct (access_fwd _ _ _ _ _ Ha Hy) as (z&Hz&(F1&F2&F3)%touch_inv). rewrite bool_decide_eq_true_2 in F3 by (by rewrite Hyd).
    unfold dis in Hp. unfold t_local in F3. by rewrite Hp in F3.
  Qed.
  (** The Box cannot be used any more. *)
  Lemma dis_box x o : apart dis x -> o = CBump \/ o = CMove \/ o = CKill -> cdo o x = None.
  Proof.
    intros (h&hs&d&Hh&Hd&H1&H2&Hn) Ho. destruct (cdo o x) as [x'|] eqn:Hc; [|done]. apply do_inv in Hc as (xs&Ha&Hr).
    destruct Ho as [->|Ho].
    - cbn [c_acts] in Ha. injection Ha as <- En Eb Eh. cbn [a_run x_loc x_cnt m_opt] in Hr.
      destruct (m_do trees (co_c x) _) as [s1|] eqn:E1; [|done]. eapply do_node in E1; [|exact closed_dis|done|exact Hn]. cbn in Hr.
      erewrite dis_access in Hr; [done|done|]. by apply suffix_cons_r.
    - set (t := x_top m (co_next x) (co_box x)). assert (d `suffix_of` t) as Hdt by (etrans; [exact Hd|apply x_top_suffix]).
      assert (exists ys, xs = (x_enter m (co_next x) (co_box x) ++ x_leave m (co_next x) (co_box x)) ++ ys ++ [XFree t] /\
        forall y, y ∈ ys -> frees y = false) as (ys&->&Hys).
      { destruct Ho as [->| ->]; cbn [c_acts] in Ha; injection Ha as <- En Eb Eh.
        - exists [XRead t]. split; [by rewrite <- app_assoc|]. by intros y ->%elem_of_list_singleton.
        - exists [XBox t (length m + co_next x :: t) true; XDrop (length m + co_next x :: t); XEndBox (length m + co_next x :: t)].
          split; [by rewrite <- app_assoc|]. intros y [->|[->|[->|[]%elem_of_nil]%elem_of_cons]%elem_of_cons]%elem_of_cons; done. }
      rewrite a_run_app in Hr. destruct (arun _ (co_c x)) as [s1|] eqn:E1; [|done].
      eapply run_node in E1; [|exact closed_dis|by apply pass_frees|exact Hn]. rewrite a_run_app in Hr.
      destruct (arun ys s1) as [s2|] eqn:E2; [|done]. eapply run_node in E2; [|exact closed_dis|done|exact E1].
      cbn in Hr. by erewrite dis_access in Hr.
  Qed.

  Definition tbad (S : tperm -> Prop) (b : bstat) (x : cobj trees) : Prop :=
    match b with Loose => co_hands x = [] | Tabled => apart S x | Dead => True end.
  Lemma insert_apart x x1 x2 : n <> [] -> co_hands x = [] -> cdo CPoint x = Some x1 -> cdo CInsert x1 = Some x2 ->
    apart warm x2 /\ (true ∈ n -> apart hot x2).
  Proof.
    intros Hn Hh (a1&Ha1&Hr1)%do_inv (a2&Ha2&Hr2)%do_inv.
    cbn [c_acts] in Ha1, Ha2. injection Ha1 as <- Hn1 Hb1 Hh1. injection Ha2 as <- Hn2 Hb2 Hh2.
    destruct (pass_node _ _ _ _ _ Hr2 Hn) as (d&D1&D2&D3&D4).
    assert (forall S : tperm -> Prop, tnod S false d (co_c x2) -> apart S x2) as Hall; [|by split; auto].
    intros S HS. exists (co_next x :: co_box x), [], d.
    assert (forall t : tag, (co_next x1 :: co_box x1) `suffix_of` t -> (co_next x :: co_box x) `suffix_of` t -> False) as Hno.
    { intros t Ht1 Ht2. destruct (suffix_chain _ _ _ Ht1 Ht2) as [[l El]|[l El]]; rewrite <- Hn1, <- Hb1 in El;
        (destruct l; [injection El; lia|apply (f_equal length) in El; rewrite app_length in El; simpl in El; lia]). }
    split_and!; [by rewrite <- Hh2, <- Hh1, Hh|by rewrite <- Hb2| | |done].
    - intros Hd. by eapply (Hno (co_next x :: co_box x)); [etrans|].
    - intros Hd. by eapply (Hno d).
  Qed.
  Lemma tbad_spec S : n <> [] -> S = warm \/ (S = hot /\ true ∈ n) -> bspec trees im n m k false false (tbad S).
  Proof.
    intros Hn HS. assert (closed S) as HC. { destruct HS as [->|[-> _]]; [exact closed_warm|exact closed_hot]. }
    split.
    - intros b o x Hc Hb. destruct (cdo o x) as [x'|] eqn:Hd; [|done]. cbn [wp].
      destruct b; [|eapply apart_keep; [done|by eapply calm_keeps|done..]|done]. cbn [tbad] in *.
      apply do_inv in Hd as (xs&Ha&_). destruct o; try done; cbn [c_acts] in Ha; injection Ha as _ _ _ Hh; congruence.
    - intros w. destruct (cdo _ _) as [x'|] eqn:Hd; [|done]. apply do_inv in Hd as (xs&Ha&_). cbn [c_acts] in Ha.
      injection Ha as _ _ _ Hh. by cbn [wp tbad].
    - intros x Hh. cbn [ins_ops fst snd]. destruct (cdo CPoint x) as [x1|] eqn:H1; [|done]. cbn [wp].
      destruct (cdo CInsert x1) as [x2|] eqn:H2; [|done]. destruct (insert_apart _ _ _ Hn Hh H1 H2) as [A1 A2].
      destruct HS as [->|[-> Ht]]; [done|by apply A2].
    - intros x j _. by destruct (cdo _ x).
    - intros b o x _ _. by destruct (cdo _ x).
    - done.
  Qed.

  (** ** A block, all the time *)
  Notation gmap_ := (gmap nat (cobj trees)).
  Definition ball (S : tperm -> Prop) (s : nat) (g : gmap_) : Prop := forall x, g !! s = Some x -> apart S x.
  Lemma apply_ball S s g y g' : closed S -> (forall w, y <> (s, CAlloc w)) -> c_apply trees im n m k g y = Some g' -> ball S s g -> ball S s g'.
  Proof.
    intros HS Hy Ha Hb. destruct y as [s' o]. unfold c_apply in Ha. cbn [fst snd] in Ha.
    destruct (decide (s' = s)) as [->|Hne].
    - assert (match g !! s with Some x => match cdo o x with Some x' => Some (match o with CMove | CKill => delete s g | _ => <[s:=x']> g end) | None => None end | None => None end = Some g') as Ha'.
      { destruct o; try done. by destruct (Hy w). }
      clear Ha. destruct (g !! s) as [x|] eqn:Hx; [|done]. specialize (Hb x Hx). destruct (cdo o x) as [x'|] eqn:Hd; [|done]. injection Ha' as <-.
      intros x2. destruct (keeps o) eqn:Hk.
      + replace (match o with CMove | CKill => delete s g | _ => <[s:=x']> g end) with (<[s:=x']> g) by (by destruct o).
        rewrite lookup_insert. intros [= <-]. by eapply apart_keep.
      + destruct o; try done; [by destruct (Hy w)|by rewrite lookup_delete..].
    - assert (g' !! s = g !! s) as Hg; [|by intros x; rewrite Hg; apply Hb].
      destruct o; (destruct (g !! s') as [x|]; [|try done]);
        (destruct (cdo _ _) as [x'|]; [|done]); injection Ha as <-; by rewrite ?lookup_insert_ne, ?lookup_delete_ne.
  Qed.
  Lemma applys_ball S s ys : closed S -> (forall w, (s, CAlloc w) ∉ ys) -> forall g g', c_applys trees im n m k ys g = Some g' -> ball S s g -> ball S s g'.
  Proof.
    intros HS. induction ys as [|y ys IH]; intros Hy g g'; cbn [c_applys]; [by intros [= <-]|].
    destruct (c_apply trees im n m k g y) as [g1|] eqn:H1; [|done]. intros Hr Hb.
    eapply IH; [|exact Hr|].
    - intros w Hin. apply (Hy w). by right.
    - eapply apply_ball; [done| |exact H1|done]. intros w ->. apply (Hy w). by left.
  Qed.

  Context (late : bool) {V : Type} (E : tyenv V).
  Lemma ops_alloc st l j s w : s < st_next st -> (s, CAlloc w) ∉ c_ops late E st l j.
  Proof.
    intros Hs Hin.
    assert (forall o ps, (s, CAlloc w) ∈ (c_at o <$> ps : list (nat * cop)) -> o <> CAlloc w -> False) as Hf.
    { intros o ps (q&Hq&_)%elem_of_list_fmap Ho. unfold c_at in Hq. congruence. }
    assert (forall o p ks, (forall i, o i <> CAlloc w) -> (s, CAlloc w) ∉ c_path j o p ks) as Hp.
    { intros o p ks Ho. revert p. induction ks as [|q ks IH]; intros p; cbn [c_path].
      - intros Hi%elem_of_list_singleton. unfold c_at in Hi. injection Hi as _ Hi. by apply (Ho (j (p_ser p))).
      - intros [Hi|Hi]%elem_of_cons; [done|by apply IH in Hi]. }
    assert (forall p q, (s, CAlloc w) ∈ (c_at CPass p :: c_looks st ++ [c_at CLook q]) -> False) as Hen.
    { intros p q [?|[Hi|?%elem_of_list_singleton]%elem_of_app]%elem_of_cons; [done| |done]. by eapply Hf. }
    destruct l as [t kd v|t p|p ks|p|p ks|p ks|t ty|t ty|t a i|t]; cbn [c_ops] in Hin; try by apply elem_of_nil in Hin.
    - by eapply Hp in Hin.
    - by eapply Hp in Hin.
    - by eapply Hp in Hin.
    - destruct (get_pc st t) as [|kd v b|kd v b p|kd v b p old|kd v b p|kd v b|kd v q|kd v q|kd v q|kd v q|lk q w' r|w' r|ty i0 acc|ty i0];
        try by apply elem_of_nil in Hin.
      + by eapply Hf.
      + by apply elem_of_list_singleton in Hin.
      + destruct (old =? 0)%N; by apply elem_of_list_singleton in Hin.
      + destruct kd; [|destruct b; [by apply elem_of_nil in Hin|]]; apply elem_of_list_singleton in Hin; injection Hin; lia.
      + by eapply Hen.
      + destruct late; by apply elem_of_cons in Hin as [?|?%elem_of_list_singleton].
      + destruct kd; by apply elem_of_list_singleton in Hin.
      + by apply elem_of_list_singleton in Hin.
      + destruct w' as [|[p|p|q] w']; [by apply elem_of_nil in Hin|by apply elem_of_list_singleton in Hin| |by apply elem_of_list_singleton in Hin].
        apply elem_of_cons in Hin as [?|Hi]; [done|by eapply Hf].
      + destruct (_ <? _); [by eapply Hf|by apply elem_of_nil in Hin].
    - destruct (get_pc st t) as [|kd v b|kd v b p|kd v b p old|kd v b p|kd v b|kd v q|kd v q|kd v q|kd v q|lk q w' r|w' r|ty i0 acc|ty i0];
        try by apply elem_of_nil in Hin.
      + by eapply Hf.
      + by eapply Hen.
      + destruct w' as [|[p|p|q] w']; try by apply elem_of_nil in Hin.
        apply elem_of_cons in Hin as [?|Hi]; [done|by eapply Hf].
  Qed.

  Notation cst := (cstep trees im n m k late E).
  Lemma run_ball S s ls : closed S -> forall cs cs', run cst cs ls = Some cs' -> s < st_next (cs_arc cs) -> ball S s (cs_objs cs) ->
    s < st_next (cs_arc cs') /\ ball S s (cs_objs cs').
  Proof.
    intros HS. induction ls as [|l ls IH]; intros cs cs' Hr Hs Hb; [by injection Hr as <-|]. cbn [run] in Hr. unfold exec in Hr.
    destruct (cst cs l) as [cs1| | |] eqn:Hc; [| | |done].
    - unfold cstep in Hc. destruct (step E (cs_arc cs) l.1) as [st'| | |] eqn:Hst; try done.
      destruct (c_applys trees im n m k _ (cs_objs cs)) as [g'|] eqn:Hg; [|done]. injection Hc as <-.
      eapply IH; [exact Hr| |].
      + destruct (step_mono _ _ _ _ Hst) as [? _]. simpl. lia.
      + eapply applys_ball; [done| |exact Hg|done]. intros w. by apply ops_alloc.
    - by eapply IH.
    - by eapply IH.
  Qed.
End tb.

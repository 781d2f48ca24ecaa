(** [ArcIntern] under the two aliasing models, if the Box is retagged by [e.insert(())], or by [m.remove]
    while the key is protected: where there is undefined behaviour. *)
From stdpp Require Import gmap list numbers.
From Verif Require Import Base ArcModel ArcSpec ArcInv ArcStep ArcSafe ArcReach.
From Verif Require Import AliasModel AliasTree ArcAliasModel ArcAliasLoc ArcAliasTree ArcAliasOps ArcAliasSafe.
Require Import ZifyBool ZifyNat ZifyN.

(** ** What an operation does to the count *)
Definition makes (x : act) : option tag :=
  match x with XRef _ t' _ | XCnt _ t' | XBox _ t' _ => Some t' | _ => None end.
Definition frees (x : act) : bool := match x with XFree _ => true | _ => false end.
Definition young (N : nat) (xs : list act) : Prop :=
  forall x t', x ∈ xs -> makes x = Some t' -> exists N' t, t' = N' :: t /\ N <= N'.

Lemma enter_in l : forall N t x, x ∈ x_enter l N t -> exists N' u b, x = XBox u (N' :: u) b /\ N <= N'.
Proof.
  induction l as [|b l IH]; intros N t x; cbn [x_enter]; [by intros ?%elem_of_nil|]. intros [->|Hx]%elem_of_cons.
  - by exists N, t, b.
  - destruct (IH _ _ _ Hx) as (N'&u&b'&->&?). exists N', u, b'. split; [done|lia].
Qed.
Lemma leave_in l N t x : x ∈ x_leave l N t -> exists u, x = XEndBox u.
Proof. rewrite x_leave_prots. intros (u&->&_)%elem_of_list_fmap. by exists u. Qed.
Lemma pass_young l N N' t : N' <= N -> young N' (x_enter l N t ++ x_leave l N t).
Proof.
  intros HN x t' [Hx|Hx]%elem_of_app Hm.
  - destruct (enter_in _ _ _ _ Hx) as (M&u&b&->&?). injection Hm as <-. exists M, u. split; [done|lia].
  - by destruct (leave_in _ _ _ _ Hx) as [u ->].
Qed.
Lemma pass_frees l N t x : x ∈ x_enter l N t ++ x_leave l N t -> frees x = false.
Proof.
  intros [Hx|Hx]%elem_of_app.
  - by destruct (enter_in _ _ _ _ Hx) as (M&u&b&->&?).
  - by destruct (leave_in _ _ _ _ Hx) as [u ->].
Qed.

Section machine.
  Context (M : machine) (im : bool) (n m k : list bool).
  Notation cdo := (c_do M im n m k).
  Notation acts := (c_acts M n m k).
  Notation arun := (a_run M im true).

  Lemma c_run_cnt xs : forall c d c' d', c_run M im xs (c, d) = Some (c', d') -> arun xs c = Some c'.
  Proof.
    induction xs as [|x xs IH]; intros c d c' d'; cbn [c_run a_run fst snd]; [by intros [= -> ->]|]. cbn [x_loc].
    destruct (m_opt M (x_cnt x) c) as [c1|]; [|done]. destruct (m_opt M (x_dat im x) d) as [d1|]; [|done]. apply IH.
  Qed.
  Lemma do_inv o x x' : cdo o x = Some x' ->
    exists xs, acts o x = Some (xs, (co_next x', co_box x', co_hands x')) /\ arun xs (co_c x) = Some (co_c x').
  Proof.
    unfold c_do. destruct (acts o x) as [[xs [[nx b] hs]]|]; [|done].
    destruct (c_run M im xs (co_c x, co_d x)) as [[c d]|] eqn:Hr; [|done]. intros [= <-]. exists xs. split; [done|].
    by eapply c_run_cnt.
  Qed.
  Lemma acts_keep o x xs nx b hs : keeps o = true -> acts o x = Some (xs, (nx, b, hs)) ->
    young (co_next x) xs /\ (forall y, y ∈ xs -> frees y = false) /\ co_next x <= nx /\ co_box x `suffix_of` b /\
    (exists hs', hs = co_hands x ++ hs').
  Proof.
    intros Ho Ha.
    assert (exists hs', co_hands x = co_hands x ++ hs') as Hh by (exists []; by rewrite app_nil_r).
    assert (forall xs : list act, Forall (λ y, frees y = false) xs -> forall y, y ∈ xs -> frees y = false) as Hfr.
    { intros xs' HF y Hin. rewrite list.Forall_forall in HF. by apply HF. }
    assert (forall xs : list act, Forall (λ y, forall t', makes y = Some t' -> exists N' t, t' = N' :: t /\ co_next x <= N') xs ->
      young (co_next x) xs) as Hyo.
    { intros xs' HF y t' Hin. rewrite list.Forall_forall in HF. by apply HF. }
    destruct o; try done; cbn [c_acts] in Ha.
    - injection Ha as <- <- <- <-. split_and!; [|by apply Hfr; repeat constructor|lia|done|done].
      apply Hyo. repeat constructor; intros t' [= <-]; eauto with lia.
    - injection Ha as <- <- <- <-. split_and!; [by apply pass_young|apply pass_frees|lia|apply x_top_suffix|done].
    - injection Ha as <- <- <- <-. split_and!; [|by apply Hfr; repeat constructor|lia|done|by eexists].
      apply Hyo. repeat constructor; intros t' [= <-]; eauto with lia.
    - injection Ha as <- <- <- <-. split_and!; [by apply pass_young|apply pass_frees|lia|apply x_top_suffix|done].
    - injection Ha as <- <- <- <-. split_and!; [|by apply Hfr; repeat constructor|lia|done|done].
      apply Hyo. repeat constructor; intros t' [= <-]; eauto with lia.
    - destruct (c_hand (co_hands x) j) as [h|]; [|done]. injection Ha as <- <- <- <-.
      split_and!; [|apply Hfr; destruct w; by repeat constructor|lia|done|done].
      apply Hyo. constructor; [intros t' [= <-]; eauto with lia|]. constructor; [intros t' [= <-]; eauto with lia|].
      destruct w; by repeat constructor.
    - destruct (c_hand (co_hands x) j) as [h|]; [|done]. injection Ha as <- <- <- <-.
      split_and!; [|by apply Hfr; repeat constructor|lia|done|done].
      apply Hyo. repeat constructor; intros t' [= <-]; eauto with lia.
    - destruct (c_hand (co_hands x) j) as [h|]; [|done]. injection Ha as <- <- <- <-. rewrite app_assoc.
      split_and!; [| |lia|apply x_top_suffix|done].
      + intros y t' [->|[Hi|[->|[]%elem_of_nil]%elem_of_cons]%elem_of_app]%elem_of_cons Hm; [|by eapply pass_young; [|done..]; lia|done].
        injection Hm as <-. eauto.
      + intros y [->|[Hi|[->|[]%elem_of_nil]%elem_of_cons]%elem_of_app]%elem_of_cons; [done|by eapply pass_frees|done].
  Qed.
End machine.

(** ** Stacked Borrows: the pointer of the first handle is gone *)
Definition gone (h : tag) (s : list sitem) : Prop := forall y, y ∈ s -> si_tag y <> h.

Lemma find_split w t s ab y be : s_find w t s = Some (ab, y, be) -> s = ab ++ y :: be /\ si_tag y = t.
Proof.
  revert ab. induction s as [|x s IH]; intros ab; cbn [s_find]; [done|]. case_bool_decide as Ht; cbn [andb].
  - destruct (s_grants w (si_perm x)); [by intros [= <- <- <-]|].
    destruct (s_find w t s) as [[[ab' y'] be']|]; [|done]. intros [= <- <- <-]. by destruct (IH ab' eq_refl) as [-> ?].
  - destruct (s_find w t s) as [[[ab' y'] be']|]; [|done]. intros [= <- <- <-]. by destruct (IH ab' eq_refl) as [-> ?].
Qed.
Lemma find_gone w t s : gone t s -> s_find w t s = None.
Proof.
  intros Hg. destruct (s_find w t s) as [[[ab y] be]|] eqn:Hf; [|done]. apply find_split in Hf as [-> Ht].
  exfalso. eapply Hg; [|exact Ht]. apply elem_of_app. right. by left.
Qed.
Lemma keep_in ab y : y ∈ s_keep ab -> y ∈ ab.
Proof. induction ab as [|x ab IH]; [done|]. cbn [s_keep]. destruct (forallb _ _); [done|]. intros Hy. right. by apply IH. Qed.
Lemma write_gone t s s' h : s_write t s = Some s' -> gone h s -> gone h s'.
Proof.
  unfold s_write. destruct (s_find true t s) as [[[ab y] be]|] eqn:Hf; [|done]. apply find_split in Hf as [-> Ht].
  destruct (existsb _ _); [done|]. intros [= <-] Hg z Hz. apply Hg. apply elem_of_app in Hz as [Hz|Hz]; apply elem_of_app; [left|by right].
  destruct (s_is_rw y); [by apply keep_in|by apply elem_of_nil in Hz].
Qed.
Lemma read_gone t s s' h : s_read t s = Some s' -> gone h s -> gone h s'.
Proof.
  unfold s_read. destruct (s_find false t s) as [[[ab y] be]|] eqn:Hf; [|done]. apply find_split in Hf as [-> Ht].
  destruct (existsb _ _); [done|]. intros [= <-] Hg z. rewrite elem_of_app, elem_of_list_fmap. intros [(z'&->&Hz)|Hz].
  - assert (si_tag (s_disable z') = si_tag z') as -> by (unfold s_disable; by destruct (s_is_uniq z')).
    apply Hg, elem_of_app. by left.
  - apply Hg, elem_of_app. by right.
Qed.
Lemma cons_gone h x s : si_tag x <> h -> gone h s -> gone h (x :: s).
Proof. intros Hx Hg y [->|Hy]%elem_of_cons; [done|by apply Hg]. Qed.
Lemma do_gone s e s' h : s_do s e = Some s' -> (forall k t t' b, e = BRef k t t' b -> t' <> h) -> gone h s -> gone h s'.
Proof.
  intros Hd Ht Hg. destruct e as [t|t|kd t t' b|t|t]; cbn [s_do] in Hd.
  - by eapply read_gone.
  - by eapply write_gone.
  - specialize (Ht _ _ _ _ eq_refl). destruct kd.
    + destruct (s_read t s) as [s1|] eqn:H1; [|done]. injection Hd as <-. apply cons_gone; [done|by eapply read_gone].
    + destruct (s_write t s) as [s1|] eqn:H1; [|done]. injection Hd as <-. apply cons_gone; [done|by eapply write_gone].
    + destruct (s_find true t s) as [[[ab y] be]|] eqn:Hf; [|done]. apply find_split in Hf as [-> _]. injection Hd as <-.
      intros z. rewrite elem_of_app, elem_of_cons. intros [Hz|[->|Hz]]; [apply Hg, elem_of_app; by left|done|apply Hg, elem_of_app; by right].
  - injection Hd as <-. intros y (z&->&Hz)%elem_of_list_fmap. case_bool_decide as He; [|by apply Hg]. simpl. rewrite <- He. by apply Hg.
  - destruct (s_write t s) as [s1|] eqn:H1; [|done]. cbn in Hd. destruct (existsb _ s1); [done|]. injection Hd as <-.
    by intros y ?%elem_of_nil.
Qed.

Section sb.
  Context (im : bool) (n m k : list bool).
  Notation cdo := (c_do stacked im n m k).
  Lemma run_gone xs : forall N s s' h, a_run stacked im true xs s = Some s' -> young N xs -> below N h -> gone h s -> gone h s'.
  Proof.
    induction xs as [|x xs IH]; intros N s s' h; cbn [a_run]; [by intros [= <-]|]. cbn [x_loc].
    destruct (m_opt stacked (x_cnt x) s) as [s1|] eqn:H1; [|done]. intros Hr Hy Hb Hg.
    eapply (IH N); [done|intros y t' Hin; apply Hy; by right|done|].
    destruct (x_cnt x) as [e|] eqn:He; [|by injection H1 as <-]. eapply do_gone; [exact H1| |done].
    intros kd t t' b ->. assert (makes x = Some t') as Hm by (destruct x; simplify_eq/=; done).
    destruct (Hy x t') as (N'&u&->&HN); [by left|done|]. intros <-. specialize (Hb N' ltac:(by left)). lia.
  Qed.

  Definition lost (x : cobj stacked) : Prop :=
    exists h hs, co_hands x = h :: hs /\ below (co_next x) h /\ gone h (co_c x).
  Lemma lost_keep o x x' : keeps o = true -> lost x -> cdo o x = Some x' -> lost x'.
  Proof.
    intros Ho (h&hs&Hh&Hb&Hg) (xs&Ha&Hr)%do_inv. destruct (acts_keep _ _ _ _ _ _ _ _ _ _ Ho Ha) as (Hy&_&Hn&_&hs'&Hh').
    exists h, (hs ++ hs'). split_and!; [by rewrite Hh', Hh|by eapply below_mono|by eapply run_gone].
  Qed.
  (** Every use of it is undefined. *)
  Lemma lost_use x o : lost x -> (exists w, o = CUse 0 w) \/ o = CRead 0 \/ o = CTake 0 -> cdo o x = None.
  Proof.
    intros (h&hs&Hh&Hb&Hg) Ho. destruct (cdo o x) as [x'|] eqn:Hd; [|done]. apply do_inv in Hd as (xs&Ha&Hr).
    assert (exists t b xs', xs = XRef h t b :: xs') as (t&b&xs'&->).
    { destruct Ho as [[w ->]|[->| ->]]; cbn [c_acts] in Ha; rewrite Hh in Ha; cbn in Ha; injection Ha as <- _; eauto. }
    cbn [a_run x_loc x_cnt m_opt] in Hr. cbn in Hr. by rewrite find_gone in Hr.
  Qed.

  Definition sbad (b : bstat) (x : cobj stacked) : Prop :=
    match b with
    | Loose => Bk stacked SG [] x /\ co_hands x = []
    | Tabled => lost x
    | Dead => True
    end.
  Lemma find_box B pb (xs rest : list sitem) : gone B xs ->
    s_find true B (xs ++ SItem B SUniq pb :: rest) = Some (xs, SItem B SUniq pb, rest).
  Proof.
    induction xs as [|x xs IH]; intros Hg; cbn [app s_find].
    - by rewrite bool_decide_eq_true_2.
    - rewrite bool_decide_eq_false_2 by (apply Hg; by left). cbn [andb]. rewrite IH; [done|]. intros y Hy. apply Hg. by right.
  Qed.
  Lemma insert_lost x x1 x2 : n <> [] -> Bk stacked SG [] x -> co_hands x = [] -> cdo CPoint x = Some x1 -> cdo CInsert x1 = Some x2 -> lost x2.
  Proof.
    intros Hn [[(xs&pb&rest&Hs&Hxs&_) _ Ho] _] Hh H1 H2. apply do_inv in H1 as (a1&Ha1&Hr1). apply do_inv in H2 as (a2&Ha2&Hr2).
    cbn [c_acts] in Ha1, Ha2. injection Ha1 as <- Hn1 Hb1 Hh1. injection Ha2 as <- Hn2 Hb2 Hh2.
    assert (gone (co_box x) xs) as HgB by (intros y Hy; by apply Hxs).
    assert (below (co_next x) (co_box x)) as HB.
    { apply (Ho (SItem (co_box x) SUniq pb)). rewrite Hs. apply elem_of_app. right. by left. }
    cbn [a_run x_loc x_cnt m_opt] in Hr1. cbn in Hr1. rewrite Hs in Hr1. rewrite find_box in Hr1 by done. injection Hr1 as Hr1.
    set (h := co_next x :: co_box x) in *. assert (h <> co_box x) as Hne.
    { intros He. specialize (HB (co_next x)). rewrite <- He in HB. specialize (HB ltac:(by left)). lia. }
    exists h, []. split_and!.
    - by rewrite <- Hh2, <- Hh1, Hh.
    - rewrite <- Hn2. eapply below_mono; [|exact (below_new _ _ HB)]. lia.
    - destruct n as [|b n']; [done|]. cbn [x_enter app a_run x_loc x_cnt m_opt] in Hr2. cbn in Hr2. unfold s_write in Hr2.
      rewrite <- Hr1, <- Hb1 in Hr2.
      replace (xs ++ SItem h SRW false :: SItem (co_box x) SUniq pb :: rest) with ((xs ++ [SItem h SRW false]) ++ SItem (co_box x) SUniq pb :: rest) in Hr2
        by (by rewrite <- app_assoc).
      rewrite find_box in Hr2.
      2:{ intros y [Hy| ->%elem_of_list_singleton]%elem_of_app; [by apply HgB|done]. }
      cbn [s_is_rw si_perm] in Hr2. destruct (existsb _ _); [done|]. cbn in Hr2.
      eapply (run_gone _ (co_next x1)); [exact Hr2| | |].
      + intros y t' Hy Hm. destruct (pass_young (b :: n') (co_next x1) (co_next x1) (co_box x) ltac:(lia) y t') as (N'&t&?&?); [|done|by eauto].
        cbn [x_enter x_leave app]. by right.
      + rewrite <- Hn1. by apply below_new.
      + apply cons_gone; [simpl; intros He; injection He; lia|].
        intros y Hy. assert (below (co_next x) (si_tag y)) as Hby by (apply Ho; rewrite Hs; apply elem_of_app; by right).
        intros He. rewrite He in Hby. specialize (Hby (co_next x) ltac:(by left)). lia.
  Qed.
  Lemma sbad_spec : n <> [] -> bspec stacked im n m k false false sbad.
  Proof.
    intros Hn. split.
    - intros b o x Hc Hb. destruct (cdo o x) as [x'|] eqn:Hd; [|done]. cbn [wp].
      destruct b; [|eapply lost_keep; [by eapply calm_keeps|done..]|done]. destruct Hb as [HB Hh]. destruct o; try done.
      + destruct (do_look _ _ _ stacked_spec im n m k _ x HB) as (x1&H1&HB'&Hh'). rewrite Hd in H1. injection H1 as <-. split; [done|congruence].
      + destruct (do_pass _ _ _ stacked_spec im n m k x HB) as (x1&H1&HB'&Hh'). rewrite Hd in H1. injection H1 as <-. split; [done|congruence].
    - intros w. destruct (do_alloc _ _ _ stacked_spec im n m k w) as (x&->&HB&Hh). done.
    - intros x [HB Hh]. cbn [ins_ops fst snd]. destruct (cdo CPoint x) as [x1|] eqn:H1; [|done]. cbn [wp].
      destruct (cdo CInsert x1) as [x2|] eqn:H2; [|done]. by eapply insert_lost.
    - intros x j _. by destruct (cdo _ x).
    - intros b o x _ _. by destruct (cdo _ x).
    - done.
  Qed.

  (** A protected key does not survive that the Box is retagged. *)
  Lemma take_none j x : k <> [] -> cdo (CTake j) x = None.
  Proof.
    intros Hk. unfold c_do. cbn [c_acts]. destruct (c_hand (co_hands x) j) as [h|]; [|done]. cbn [mbind option_bind].
    destruct k as [|b k']; [done|]. cbn [x_enter app c_run]. cbn [x_cnt x_dat m_opt fst snd].
    destruct (m_do stacked (co_c x) _) as [c1|]; [|done].
    destruct (m_do stacked (co_d x) _) as [d1|] eqn:Hd; [|done].
    destruct (m_do stacked c1 _) as [c2|]; [|done].
    replace (m_do stacked d1 (BRef (KUni im) (co_box x) (S (co_next x) :: co_box x) b)) with (@None (mst stacked)); [done|].
    cbn in Hd |- *. destruct (s_read h (co_d x)) as [s1|]; [|done]. injection Hd as <-. unfold s_write. cbn [s_find si_perm s_grants negb].
    rewrite andb_false_r. destruct (s_find true (co_box x) s1) as [[[ab y] be]|]; [|done].
    assert (length (if s_is_rw y then s_keep (SItem (co_next x :: h) SRO true :: ab) else []) <= length ab) as Hle.
    { destruct (s_is_rw y); [|simpl; lia]. cbn [s_keep forallb s_is_rw si_perm andb]. clear. induction ab as [|z ab IH]; [done|].
      cbn [s_keep]. destruct (forallb _ _); cbn [length]; lia. }
    destruct (length (SItem (co_next x :: h) SRO true :: ab) - _) as [|i] eqn:Hi; [cbn [length] in Hi; lia|]. done.
  Qed.
End sb.

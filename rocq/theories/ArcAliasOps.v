(** What the operations of [ArcIntern] do to a block, given what a machine provides for a location. *)
From stdpp Require Import gmap list numbers.
From Verif Require Import Base AliasModel AliasTree ArcModel ArcAliasModel ArcAliasLoc.

Section ops.
  Context (M : machine) (tb : bool) (G : bool -> nat -> tag -> tag -> list tag -> list tag -> mst M -> Prop).
  Context (HS : lspec M tb G) (im : bool).

  Definition x_loc (cnt : bool) (x : act) : option bev := if cnt then x_cnt x else x_dat im x.
  Fixpoint a_run (cnt : bool) (xs : list act) (s : mst M) : option (mst M) :=
    match xs with
    | [] => Some s
    | x :: xs' => match m_opt M (x_loc cnt x) s with Some s' => a_run cnt xs' s' | None => None end
    end.
  Lemma a_run_app cnt xs ys s : a_run cnt (xs ++ ys) s = match a_run cnt xs s with Some s' => a_run cnt ys s' | None => None end.
  Proof. revert s. induction xs as [|x xs IH]; intros s; [done|]. simpl. destruct (m_opt M (x_loc cnt x) s); [apply IH|done]. Qed.
  Lemma c_run_split xs c d c' d' : a_run true xs c = Some c' -> a_run false xs d = Some d' -> c_run M im xs (c, d) = Some (c', d').
  Proof.
    revert c d. induction xs as [|x xs IH]; intros c d; simpl; [by intros [= ->] [= ->]|].
    destruct (m_opt M (x_cnt x) c); [|done]. destruct (m_opt M (x_dat im x) d); [|done]. apply IH.
  Qed.

  (** ** Passing a Box *)
  Fixpoint x_prots (l : list bool) (nx : nat) (t : tag) : list tag :=
    match l with [] => [] | b :: l' => x_prots l' (S nx) (nx :: t) ++ (if b then [nx :: t] else []) end.
  Lemma x_leave_prots l : forall N t, x_leave l N t = XEndBox <$> x_prots l N t.
  Proof. induction l as [|b l IH]; intros N t; [done|]. simpl. rewrite IH, fmap_app. by destruct b. Qed.
  Lemma x_top_suffix l : forall N t, t `suffix_of` x_top l N t.
  Proof. induction l as [|b l IH]; intros N t; simpl; [done|]. etrans; [|apply IH]. by apply suffix_cons_r. Qed.
  Lemma x_prots_suffix l : forall N t g, g ∈ x_prots l N t -> t `suffix_of` g /\ g <> t /\ g `suffix_of` x_top l N t.
  Proof.
    induction l as [|b l IH]; intros N t g; simpl; [by intros ?%elem_of_nil|].
    intros [Hg|Hg]%elem_of_app.
    - destruct (IH _ _ _ Hg) as (H1&H2&H3). split_and!; [etrans; [|exact H1]; by apply suffix_cons_r| |done].
      intros ->. apply suffix_length in H1. simpl in H1. lia.
    - destruct b; [|by apply elem_of_nil in Hg]. apply elem_of_list_singleton in Hg as ->. split_and!; [by apply suffix_cons_r| |apply x_top_suffix].
      intros E%(f_equal length). simpl in E. lia.
  Qed.
  Lemma run_enter cnt l : forall N A B H P s, G cnt N A B H P s -> (tb = true \/ forall t, t ∈ P -> t ∉ H) ->
    exists s', a_run cnt (x_enter l N B) s = Some s' /\
      G cnt (length l + N) A (x_top l N B) (if tb then H else match l with [] => H | _ => [] end) (x_prots l N B ++ P) s'.
  Proof.
    induction l as [|b l IH]; intros N A B H P s HG Hd; cbn [x_enter a_run].
    - exists s. split; [done|]. simpl. by destruct tb.
    - destruct (l_uni _ _ _ HS cnt (if cnt then true else im) N A B H P s b HG Hd) as (s1&E1&HG1).
      replace (m_opt M (x_loc cnt (XBox B (N :: B) b)) s) with (Some s1) by (by destruct cnt).
      destruct (IH _ _ _ _ _ _ HG1) as (s2&E2&HG2).
      { destruct tb; [by left|]. right. intros t _ ?%elem_of_nil. done. }
      exists s2. split; [done|]. cbn [length x_top x_prots]. rewrite <- app_assoc.
      replace (S (length l) + N) with (length l + S N) by lia.
      revert HG2. destruct tb, b, l; done.
  Qed.
  Lemma run_leave cnt N A B H P Q : forall s, G cnt N A B H (Q ++ P) s ->
    (forall t, t ∈ Q -> A `suffix_of` t /\ t <> A /\ t `suffix_of` B) ->
    exists s', a_run cnt (XEndBox <$> Q) s = Some s' /\ G cnt N A B H P s'.
  Proof.
    induction Q as [|t Q IH]; intros s HG HQ; [by exists s|]. rewrite fmap_cons. cbn [a_run].
    destruct (l_end _ _ _ HS cnt N A B H (Q ++ P) s t HG) as (s1&E1&HG1); [right; apply HQ; by left|].
    replace (m_opt M (x_loc cnt (XEndBox t)) s) with (Some s1) by (by destruct cnt).
    apply IH; [done|]. intros g Hg. apply HQ. by right.
  Qed.
  Lemma run_pass cnt l N B H P s : G cnt N B B H P s -> (tb = true \/ forall t, t ∈ P -> t ∉ H) ->
    exists s', a_run cnt (x_enter l N B ++ x_leave l N B) s = Some s' /\
      G cnt (length l + N) B (x_top l N B) (if tb then H else match l with [] => H | _ => [] end) P s'.
  Proof.
    intros HG Hd. destruct (run_enter cnt l _ _ _ _ _ _ HG Hd) as (s1&E1&HG1).
    destruct (run_leave _ _ _ _ _ _ _ _ HG1) as (s2&E2&HG2); [apply x_prots_suffix|].
    exists s2. rewrite a_run_app, E1, x_leave_prots. done.
  Qed.

  (** ** The steps of the operations *)
  Lemma run_ref cnt N A B H P s t prot : G cnt N A B H P s -> t ∈ B :: H ->
    exists s', m_opt M (x_loc cnt (XRef t (N :: t) prot)) s = Some s' /\
      G cnt (S N) A B ((N :: t) :: H) (if negb cnt && prot then (N :: t) :: P else P) s'.
  Proof.
    intros HG Ht. destruct (l_ref _ _ _ HS cnt N A B H P s t prot HG Ht) as (s'&E&HG'). exists s'.
    split; [|done]. by destruct cnt.
  Qed.
  Lemma run_cnt cnt N A B H P s t : G cnt N A B H P s -> t ∈ B :: H ->
    exists s', m_opt M (x_loc cnt (XCnt t (N :: t))) s = Some s' /\
      G cnt (S N) A B (if cnt then (N :: t) :: H else H) P s'.
  Proof.
    intros HG Ht. destruct cnt.
    - destruct (l_ref _ _ _ HS true N A B H P s t false HG Ht) as (s'&E&HG'). exists s'. split; done.
    - exists s. split; [done|]. eapply (l_mono _ _ _ HS); [done|lia].
  Qed.

  Definition Bk (H : list tag) (x : cobj M) : Prop :=
    G true (co_next x) (co_box x) (co_box x) H [] (co_c x) /\
    G false (co_next x) (co_box x) (co_box x) H [] (co_d x).
  Context (n m k : list bool).
  Local Notation cdo := (c_do M im n m k).

  (** An operation whose actions do the same to the count and to the data. *)
  Lemma do_both (Hs Hs' : list tag) (x : cobj M) o xs nx b hs :
    c_acts M n m k o x = Some (xs, (nx, b, hs)) -> Bk Hs x ->
    (forall cnt s, G cnt (co_next x) (co_box x) (co_box x) Hs [] s ->
      exists s', a_run cnt xs s = Some s' /\ G cnt nx b b Hs' [] s') ->
    exists x', cdo o x = Some x' /\ Bk Hs' x' /\ co_hands x' = hs.
  Proof.
    intros Ha [HG1 HG2] Hr. destruct (Hr true _ HG1) as (c&E1&HG1'). destruct (Hr false _ HG2) as (d&E2&HG2').
    unfold c_do. rewrite Ha, (c_run_split _ _ _ _ _ E1 E2). by eexists.
  Qed.

  Lemma do_look H x : Bk H x -> exists x', cdo CLook x = Some x' /\ Bk H x' /\ co_hands x' = co_hands x.
  Proof.
    intros HB. eapply do_both; [done|exact HB|]. intros cnt s HG. cbn [a_run].
    destruct (run_ref _ _ _ _ _ _ _ (co_box x) true HG ltac:(by left)) as (s1&->&HG1).
    destruct cnt; cbn [negb andb] in *.
    - exists s1. split; [done|]. eapply (l_weak _ _ _ HS); [done|]. intros t Ht. by right.
    - destruct (l_read _ _ _ HS _ _ _ _ _ _ _ (co_next x :: co_box x) HG1 ltac:(right; by left)) as (s2&E2&HG2).
      cbn [x_loc x_dat m_opt]. rewrite E2.
      destruct (l_end _ _ _ HS _ _ _ _ _ _ _ _ HG2 ltac:(left; by left)) as (s3&E3&HG3). rewrite E3.
      exists s3. split; [done|]. eapply (l_weak _ _ _ HS); [done|]. intros t Ht. by right.
  Qed.
  Lemma do_bump H x : Bk H x -> exists x', cdo CBump x = Some x' /\ Bk H x' /\ co_hands x' = co_hands x.
  Proof.
    intros HB. eapply do_both; [done|exact HB|]. intros cnt s HG. cbn [a_run].
    destruct (run_cnt _ _ _ _ _ _ _ (co_box x) HG ltac:(by left)) as (s1&->&HG1). destruct cnt.
    - destruct (l_write _ _ _ HS _ _ _ _ _ HG1 ltac:(by left)) as (s2&E2&HG2). cbn [x_loc x_cnt m_opt]. rewrite E2.
      exists s2. split; [done|]. eapply (l_weak _ _ _ HS); [done|]. intros t Ht. by right.
    - by exists s1.
  Qed.
  Lemma do_point x : Bk (co_hands x) x ->
    exists x', cdo CPoint x = Some x' /\ Bk (co_hands x') x' /\ co_hands x' = co_hands x ++ [co_next x :: co_box x].
  Proof.
    intros HB. edestruct (do_both (co_hands x) (co_hands x ++ [co_next x :: co_box x]) x CPoint) as (x'&H1&H2&H3); [reflexivity|exact HB| |].
    - intros cnt s HG. cbn [a_run].
      destruct (run_ref _ _ _ _ _ _ _ (co_box x) false HG ltac:(by left)) as (s1&->&HG1). exists s1. split; [done|].
      rewrite andb_false_r in HG1. eapply (l_weak _ _ _ HS); [done|]. intros t.
      rewrite elem_of_app, elem_of_list_singleton, elem_of_cons. tauto.
    - exists x'. by rewrite H3.
  Qed.
  Lemma hand_in (hs : list tag) j : hs <> [] -> exists h, c_hand hs j = Some h /\ h ∈ hs.
  Proof.
    intros Hn. destruct (lookup_lt_is_Some_2 hs (Nat.min j (pred (length hs)))) as [h Hh].
    - destruct hs; [done|]. simpl. lia.
    - exists h. split; [done|]. by eapply elem_of_list_lookup_2.
  Qed.
  Lemma do_use j w x : Bk (co_hands x) x -> co_hands x <> [] ->
    exists x', cdo (CUse j w) x = Some x' /\ Bk (co_hands x') x' /\ co_hands x' = co_hands x.
  Proof.
    intros HB Hn. destruct (hand_in _ j Hn) as (h&Hh&Hin).
    edestruct (do_both (co_hands x) (co_hands x) x (CUse j w)) as (x'&H1&H2&H3).
    - unfold c_acts. cbv zeta. rewrite Hh. reflexivity.
    - done.
    - intros cnt s HG. cbn [a_run].
      destruct (run_ref _ _ _ _ _ _ _ h false HG ltac:(by right)) as (s1&->&HG1). rewrite andb_false_r in HG1.
      destruct (run_cnt _ _ _ _ _ _ _ (co_next x :: h) HG1 ltac:(right; by left)) as (s2&->&HG2).
      destruct cnt.
      + assert (exists s3, m_opt M (x_loc true (if w then XRmw (S (co_next x) :: co_next x :: h) else XLoad (S (co_next x) :: co_next x :: h))) s2 = Some s3 /\
          G true (S (S (co_next x))) (co_box x) (co_box x) ((S (co_next x) :: co_next x :: h) :: (co_next x :: h) :: co_hands x) [] s3) as (s3&->&HG3).
        { destruct w.
          - apply (l_write _ _ _ HS); [done|by left].
          - apply (l_read _ _ _ HS _ _ _ _ _ _ _ _ HG2). right. by left. }
        exists s3. split; [done|]. eapply (l_weak _ _ _ HS); [done|]. intros t Ht. right. by right.
      + exists s2. split; [by destruct w|]. eapply (l_weak _ _ _ HS); [done|]. intros t Ht. by right.
    - exists x'. by rewrite H3.
  Qed.
  Lemma do_read j x : Bk (co_hands x) x -> co_hands x <> [] ->
    exists x', cdo (CRead j) x = Some x' /\ Bk (co_hands x') x' /\ co_hands x' = co_hands x.
  Proof.
    intros HB Hn. destruct (hand_in _ j Hn) as (h&Hh&Hin).
    edestruct (do_both (co_hands x) (co_hands x) x (CRead j)) as (x'&H1&H2&H3).
    - unfold c_acts. cbv zeta. rewrite Hh. reflexivity.
    - done.
    - intros cnt s HG. cbn [a_run].
      destruct (run_ref _ _ _ _ _ _ _ h false HG ltac:(by right)) as (s1&->&HG1). rewrite andb_false_r in HG1.
      destruct (run_ref _ _ _ _ _ _ _ (co_next x :: h) true HG1 ltac:(right; by left)) as (s2&->&HG2).
      destruct cnt; cbn [negb andb] in *.
      + exists s2. split; [done|]. eapply (l_weak _ _ _ HS); [done|]. intros t Ht. right. by right.
      + destruct (l_read _ _ _ HS _ _ _ _ _ _ _ (S (co_next x) :: co_next x :: h) HG2 ltac:(right; by left)) as (s3&E3&HG3).
        cbn [x_loc x_dat m_opt]. rewrite E3.
        destruct (l_end _ _ _ HS _ _ _ _ _ _ _ _ HG3 ltac:(left; by left)) as (s4&E4&HG4). rewrite E4.
        exists s4. split; [done|]. eapply (l_weak _ _ _ HS); [done|]. intros t Ht. right. by right.
    - exists x'. by rewrite H3.
  Qed.
  Lemma run_pass_nil cnt l N B s : G cnt N B B [] [] s ->
    exists s', a_run cnt (x_enter l N B ++ x_leave l N B) s = Some s' /\
      G cnt (length l + N) (x_top l N B) (x_top l N B) [] [] s'.
  Proof.
    intros HG. destruct (run_pass cnt l _ _ _ _ _ HG) as (s'&E&HG'). { right. by intros t ?%elem_of_nil. }
    exists s'. split; [done|]. by eapply (l_reset _ _ _ HS).
  Qed.
  Lemma do_pass x : Bk [] x -> exists x', cdo CPass x = Some x' /\ Bk [] x' /\ co_hands x' = co_hands x.
  Proof. intros HB. eapply do_both; [done|exact HB|]. intros cnt s HG. by apply run_pass_nil. Qed.
  Lemma do_insert x : Bk [] x -> exists x', cdo CInsert x = Some x' /\ Bk [] x' /\ co_hands x' = co_hands x.
  Proof. intros HB. eapply do_both; [done|exact HB|]. intros cnt s HG. by apply run_pass_nil. Qed.
  Lemma do_insert_nil H x : n = [] -> Bk H x -> exists x', cdo CInsert x = Some x' /\ Bk H x' /\ co_hands x' = co_hands x.
  Proof. intros Hn HB. eapply do_both; [done|exact HB|]. intros cnt s HG. rewrite Hn. by exists s. Qed.
  Lemma do_take j x : tb = true \/ k = [] -> Bk (co_hands x) x -> co_hands x <> [] ->
    exists x', cdo (CTake j) x = Some x' /\ Bk [] x' /\ co_hands x' = co_hands x.
  Proof.
    intros Hk HB Hn. destruct (hand_in _ j Hn) as (h&Hh&Hin).
    eapply (do_both (co_hands x) [] x (CTake j)).
    - unfold c_acts. cbv zeta. rewrite Hh. reflexivity.
    - done.
    - intros cnt s HG. cbn [a_run].
      destruct (run_ref _ _ _ _ _ _ _ h true HG ltac:(by right)) as (s1&->&HG1).
      rewrite app_assoc, a_run_app.
      assert (exists s2, a_run cnt (x_enter k (S (co_next x)) (co_box x) ++ x_leave k (S (co_next x)) (co_box x)) s1 = Some s2 /\
        G cnt (length k + S (co_next x)) (co_box x) (x_top k (S (co_next x)) (co_box x)) ((co_next x :: h) :: co_hands x)
          (if negb cnt && true then [co_next x :: h] else []) s2) as (s2&->&HG2).
      { destruct Hk as [Ht|Hk].
        - destruct (run_pass cnt k _ _ _ _ _ HG1) as (s2&E2&HG2); [by left|]. exists s2. rewrite Ht in HG2. split; [done|].
          done.
        - rewrite Hk. by exists s1. }
      destruct cnt; cbn [negb andb] in *.
      + exists s2. split; [done|]. by eapply (l_reset _ _ _ HS).
      + destruct (l_end _ _ _ HS _ _ _ _ _ _ _ _ HG2 ltac:(left; by left)) as (s3&E3&HG3). cbn [a_run x_loc x_dat m_opt].
        rewrite E3. exists s3. split; [done|]. by eapply (l_reset _ _ _ HS).
  Qed.
  Lemma do_end (o : cop) x xs r : c_acts M n m k o x = Some (xs, r) -> Bk [] x ->
    (forall cnt s, G cnt (co_next x) (co_box x) (co_box x) [] [] s -> is_Some (a_run cnt xs s)) ->
    is_Some (cdo o x).
  Proof.
    intros Ha [HG1 HG2] Hr. destruct (Hr true _ HG1) as (c&E1). destruct (Hr false _ HG2) as (d&E2).
    unfold c_do. rewrite Ha, (c_run_split _ _ _ _ _ E1 E2). destruct r as [[??]?]. by eexists.
  Qed.
  Lemma do_move x : Bk [] x -> is_Some (cdo CMove x).
  Proof.
    intros HB. eapply do_end; [done|exact HB|]. intros cnt s HG.
    rewrite app_assoc, a_run_app. destruct (run_pass_nil cnt m _ _ _ HG) as (s1&->&HG1). cbn [a_run].
    assert (exists s2, m_opt M (x_loc cnt (XRead (x_top m (co_next x) (co_box x)))) s1 = Some s2 /\
      G cnt (length m + co_next x) (x_top m (co_next x) (co_box x)) (x_top m (co_next x) (co_box x)) [] [] s2) as (s2&->&HG2).
    { destruct cnt; [by exists s1|]. apply (l_read _ _ _ HS _ _ _ _ _ _ _ _ HG1). by left. }
    destruct (l_free _ _ _ HS _ _ _ _ _ HG2) as (s3&E3).
    replace (m_opt M (x_loc cnt (XFree (x_top m (co_next x) (co_box x)))) s2) with (Some s3) by (by destruct cnt). by eexists.
  Qed.
  Lemma do_kill x : Bk [] x -> is_Some (cdo CKill x).
  Proof.
    intros HB. eapply do_end; [done|exact HB|]. intros cnt s HG.
    rewrite app_assoc, a_run_app. destruct (run_pass_nil cnt m _ _ _ HG) as (s1&->&HG1).
    set (t := x_top m (co_next x) (co_box x)) in *. set (N := length m + co_next x) in *.
    destruct (l_kill _ _ _ HS cnt (if cnt then true else im) _ _ _ _ HG1) as (s2&s3&s4&E2&E3&E4&s5&E5). cbn [a_run].
    replace (m_opt M (x_loc cnt (XBox t (N :: t) true)) s1) with (Some s2) by (by destruct cnt).
    replace (m_opt M (x_loc cnt (XDrop (N :: t))) s2) with (Some s3) by (by destruct cnt).
    replace (m_opt M (x_loc cnt (XEndBox (N :: t))) s3) with (Some s4) by (by destruct cnt).
    replace (m_opt M (x_loc cnt (XFree t)) s4) with (Some s5) by (by destruct cnt). by eexists.
  Qed.
  Lemma do_alloc w : exists x, cdo (CAlloc w) (c_new M) = Some x /\ Bk [] x /\ co_hands x = [].
  Proof.
    assert (forall cnt, exists s, a_run cnt (XBox [] [0] false :: (if w then [XInit [0]] else [])) (m_new M) = Some s /\
      G cnt 1 [0] [0] [] [] s) as Hr.
    { intros cnt. destruct (l_new _ _ _ HS cnt (if cnt then true else im) w) as (s&s'&E1&E2&HG). exists s'. split; [|done]. cbn [a_run].
      replace (m_opt M (x_loc cnt (XBox [] [0] false)) (m_new M)) with (Some s) by (by destruct cnt).
      destruct w; [|done]. cbn [a_run]. replace (m_opt M (x_loc cnt (XInit [0])) s) with (Some s') by (by destruct cnt). done. }
    destruct (Hr true) as (c&E1&HG1). destruct (Hr false) as (d&E2&HG2).
    unfold c_do. cbn [c_acts c_new co_c co_d]. rewrite (c_run_split _ _ _ _ _ E1 E2). by eexists.
  Qed.
End ops.

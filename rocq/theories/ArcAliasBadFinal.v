(** [ArcIntern] under the two aliasing models: executions with undefined behaviour. *)
From stdpp Require Import gmap list numbers.
From Verif Require Import Base ArcModel ArcSpec ArcInv ArcStep ArcSafe ArcReach ArcEx ArcFinal RaceModel RaceInv RaceStep RaceSafe RaceFinal.
From Verif Require Import AliasModel AliasTree ArcAliasModel ArcAliasLoc ArcAliasTree ArcAliasOps ArcAliasSafe ArcAliasFinal.
From Verif Require Import ArcAliasSpec ArcAliasBad ArcAliasTreeBad.
Require Import ZifyBool ZifyNat ZifyN.

Section bad.
  Context (im : bool) (n m k : list bool) {V : Type} (E : tyenv V).
  Context (HL : coherent E) (HW : wide E).
  Implicit Types (p : ptr).

  Lemma hand_stat st p : Inv E st -> 0 < handles_to E st p -> stat (st_heap st) (st_table st) (p_ser p) Tabled.
  Proof. intros HI Hp. eapply stat_tab; [done|]. by apply (inv_hand _ _ HI). Qed.
  Lemma borrow_pool st p ks q : borrow E st p ks = Next q -> p ∈ st_pool st.
  Proof. unfold borrow. by destruct (decide _). Qed.

  (** The first operation of such a step. *)
  Lemma begins_ops late st st' l j p : Inv E st -> step E st l = Next st' -> begins_with st l p ->
    stat (st_heap st) (st_table st) (p_ser p) Tabled /\
    exists o ys, c_ops late E st l j = c_at o p :: ys /\
      ((exists w, o = CUse (j (p_ser p)) w) \/ o = CRead (j (p_ser p)) \/ o = CTake (j (p_ser p))).
  Proof.
    intros HI Hs Hb. assert (forall o ks, exists o' ys, c_path j o p ks = c_at o' p :: ys /\ (o' = o (j (p_ser p)) \/ o' = CRead (j (p_ser p)))) as Hpath.
    { intros o [|q ks]; cbn [c_path]; eauto 10. }
    destruct l as [t kd v|t q|q ks|q|q ks|q ks|t ty|t ty|t a i|t]; try done; cbn [begins_with] in Hb; cbn [step c_ops] in *.
    - subst q. destruct (borrow E st p ks) as [q| | |] eqn:Hq; try done. apply borrow_pool in Hq. split; [by apply hand_stat, hc_ge_pool|].
      destruct (Hpath (λ i, CUse i true) ks) as (o&ys&->&[->| ->]); eauto 10.
    - subst q. destruct (borrow E st p ks) as [q| | |] eqn:Hq; try done. apply borrow_pool in Hq. split; [by apply hand_stat, hc_ge_pool|].
      destruct (Hpath (λ i, CUse i false) ks) as (o&ys&->&[->| ->]); eauto 10.
    - subst q. destruct (borrow E st p ks) as [q| | |] eqn:Hq; try done. apply borrow_pool in Hq. split; [by apply hand_stat, hc_ge_pool|].
      destruct (Hpath CRead ks) as (o&ys&->&[->| ->]); eauto 10.
    - pose proof (inv_pc _ _ HI t) as Hok. pose proof (hc_ge_pc E st t p) as Hge. pose proof (rem_hand E st t p HI) as Hrh.
      destruct (get_pc st t) as [|kd v b|kd v b q|kd v b q old|kd v b q|kd v b|kd v q|kd v q|kd v q|kd v q|lk q w r|w r|ty i0 acc|ty i0] eqn:Hpc; try done.
      + subst q. destruct Hok as (Hq&_). split; [by eapply stat_tab|]. eauto 10.
      + destruct w as [|[q|q|q] w]; try done; subst q.
        * split; [|by eauto 10]. apply hand_stat; [done|]. simpl in Hge. rewrite is_p_self in Hge. lia.
        * split; [|by eauto 10]. eapply stat_tab; [done|]. apply Hrh. simpl. rewrite is_p_self. lia.
  Qed.

  (** ** Stacked Borrows *)
  Lemma bad_stacked ls cs l j p st' : n <> [] -> bounded E (fst <$> ls) ->
    run (cstep stacked im n m k false E) cinit ls = Some cs -> step E (cs_arc cs) l = Next st' ->
    begins_with (cs_arc cs) l p -> j (p_ser p) = 0 -> cstep stacked im n m k false E cs (l, j) = UB.
  Proof.
    intros Hn Hb Hr Hs Hl Hj. pose proof (good_run stacked im n m k false E HL HW false _ (sbad_spec im n m k Hn) ls Hb) as Hg.
    rewrite Hr in Hg. destruct Hg as [(HI&HSI&HG) _]. destruct (begins_ops false _ _ _ j _ HI Hs Hl) as (Hst&o&ys&Ho&Hoo).
    destruct (HG _ _ Hst) as (x&Hx&Hlost). unfold cstep. cbn [fst snd]. rewrite Hs, Ho. cbn [c_applys].
    replace (c_apply stacked im n m k (cs_objs cs) (c_at o p)) with (@None (gmap nat (cobj stacked))); [done|].
    rewrite Hj in Hoo. unfold c_apply, c_at. cbn [fst snd]. rewrite Hx, (lost_use im n m k x o Hlost Hoo).
    by destruct Hoo as [[w ->]|[->| ->]].
  Qed.
  Lemma bad_remove late cs t lk q w r a i j : k <> [] -> get_pc (cs_arc cs) t = PRem lk q w r ->
    cstep stacked im n m k late E cs (LStep t a i, j) = UB.
  Proof.
    intros Hk Hpc. unfold cstep. cbn [fst snd c_ops]. rewrite Hpc.
    replace (c_applys stacked im n m k _ _) with (@None (gmap nat (cobj stacked))).
    - cbn [step]. unfold step_thread. rewrite Hpc. destruct (deref _ q) as [c|]; [|done]. by destruct (c_data c).
    - cbn [c_applys]. unfold c_apply, c_at. cbn [fst snd]. destruct (cs_objs cs !! p_ser q); [|done]. by rewrite take_none.
  Qed.

  (** ** Tree Borrows *)
  Notation tst := (cstep trees im n m k false E).
  Lemma writes_ops st l j p : writes_count st l p -> c_ops false E st l j = [c_at (CUse (j (p_ser p)) true) p].
  Proof.
    destruct l as [t kd v|t q|q ks|q|q ks|q ks|t ty|t ty|t a i|t]; try done; cbn [writes_count c_ops].
    - destruct ks; [|done]. by intros ->.
    - destruct (get_pc st t) as [|kd v b|kd v b q|kd v b q old|kd v b q|kd v b|kd v q|kd v q|kd v q|kd v q|lk q w r|w r|ty i0 acc|ty i0] eqn:Hpc; try done.
      destruct w as [|[q|q|q] w]; try done. by intros ->.
  Qed.
  Lemma begins_writes (st : state V) l p : writes_count st l p -> begins_with st l p.
  Proof.
    destruct l as [t kd v|t q|q ks|q|q ks|q ks|t ty|t ty|t a i|t]; try done; cbn [writes_count begins_with].
    - by destruct ks.
    - destruct (get_pc st t) as [|kd v b|kd v b q|kd v b q old|kd v b q|kd v b|kd v q|kd v q|kd v q|kd v q|lk q w r|w r|ty i0 acc|ty i0] eqn:Hpc; try done.
      destruct w as [|[q|q|q] w]; try done.
  Qed.
  Lemma tstep_one cs l j cs' p o : tst cs (l, j) = Next cs' -> c_ops false E (cs_arc cs) l j = [c_at o p] -> keeps o = true ->
    exists x x', cs_objs cs !! p_ser p = Some x /\ c_do trees im n m k o x = Some x' /\ cs_objs cs' !! p_ser p = Some x'.
  Proof.
    unfold cstep. cbn [fst snd]. intros Hc Ho Hk. destruct (step E (cs_arc cs) l) as [st'| | |]; try done. rewrite Ho in Hc. cbn [c_applys] in Hc.
    unfold c_apply, c_at in Hc. cbn [fst snd] in Hc.
    assert (exists x x', cs_objs cs !! p_ser p = Some x /\ c_do trees im n m k o x = Some x' /\ cs' = CState st' (<[p_ser p:=x']> (cs_objs cs)))
      as (x&x'&H1&H2&->).
    { destruct o; try done; (destruct (cs_objs cs !! p_ser p) as [x|]; [|done]);
        (destruct (c_do trees im n m k _ x) as [x'|] eqn:Hd; [|done]); injection Hc as <-; by exists x, x'. }
    exists x, x'. split_and!; [done..|]. cbn [cs_objs]. by rewrite lookup_insert.
  Qed.
  Lemma tstep_ser cs l cs' s : tst cs l = Next cs' -> s < st_next (cs_arc cs) -> s < st_next (cs_arc cs').
  Proof. intros Hs%cstep_arc. destruct (step_mono _ _ _ _ Hs) as [? _]. lia. Qed.
  Lemma stat_ser st s b : Inv E st -> stat (st_heap st) (st_table st) s b -> s < st_next st.
  Proof. intros HI (a&c&Ha&<-&_). by apply (inv_ser _ _ HI a). Qed.

  (** The box is no use to anybody. *)
  Lemma bad_box cs p t a i j : Inv E (cs_arc cs) -> ball dis (p_ser p) (cs_objs cs) -> finds (cs_arc cs) t p \/ drops_box (cs_arc cs) t p ->
    tst cs (LStep t a i, j) = UB.
  Proof.
    intros HI Hb Ht.
    assert (exists o, c_ops false E (cs_arc cs) (LStep t a i) j = [c_at o p] /\ (o = CBump \/ o = CMove \/ o = CKill) /\
      (step E (cs_arc cs) (LStep t a i) = UB \/ exists st', step E (cs_arc cs) (LStep t a i) = Next st')) as (o&Ho&Hoo&Hs).
    { unfold finds, drops_box in Ht. cbn [c_ops step]. unfold step_thread.
      destruct (get_pc (cs_arc cs) t) as [|kd v b|kd v b q|kd v b q old|kd v b q|kd v b|kd v q|kd v q|kd v q|kd v q|lk q w r|w r|ty i0 acc|ty i0] eqn:Hpc;
        try (destruct Ht; done).
      - destruct Ht as [->|?]; [|done]. exists CBump. split; [done|]. split; [by left|]. destruct (deref _ p); eauto.
      - destruct Ht as [?|Ht]; [done|]. destruct w as [|[q|q|q] w]; try done. subst q. exists CKill. split; [done|]. split; [by right; right|].
        destruct (deref _ p); eauto. }
    unfold cstep. cbn [fst snd]. destruct Hs as [->|[st' ->]]; [done|]. rewrite Ho. cbn [c_applys].
    replace (c_apply trees im n m k (cs_objs cs) (c_at o p)) with (@None (gmap nat (cobj trees))); [done|].
    unfold c_apply, c_at. cbn [fst snd]. destruct (cs_objs cs !! p_ser p) as [x|] eqn:Hx.
    - rewrite (dis_box im n m k x o (Hb x Hx) Hoo). by destruct Hoo as [->|[->| ->]].
    - by destruct Hoo as [->|[->| ->]].
  Qed.
  Lemma run_cat ls1 ls2 cs cs' : run tst cs (ls1 ++ ls2) = Some cs' -> exists cs1, run tst cs ls1 = Some cs1 /\ run tst cs1 ls2 = Some cs'.
  Proof. rewrite run_app. destruct (run tst cs ls1) as [cs1|]; [|done]. eauto. Qed.
  Lemma good_cut S ls ls' cs : n <> [] -> S = warm \/ (S = hot /\ true ∈ n) -> bounded E (fst <$> ls ++ ls') -> run tst cinit ls = Some cs ->
    good trees (tbad S) E cs.
  Proof.
    intros Hn HS Hb Hr. rewrite fmap_app in Hb. apply bounded_app in Hb.
    pose proof (good_run trees im n m k false E HL HW false _ (tbad_spec im n m k S Hn HS) ls Hb) as Hg. rewrite Hr in Hg. by destruct Hg.
  Qed.

  (** The count of [p] is written through the first handle's pointer; later the box is used. *)
  Lemma bad_after S ls cs l j cs1 ls' cs2 p t a i j' : n <> [] -> S = warm \/ (S = hot /\ true ∈ n) -> bounded E (fst <$> ls ++ (l, j) :: ls') ->
    run tst cinit ls = Some cs -> ball hot (p_ser p) (cs_objs cs) -> writes_count (cs_arc cs) l p -> j (p_ser p) = 0 ->
    tst cs (l, j) = Next cs1 -> run tst cs1 ls' = Some cs2 -> finds (cs_arc cs2) t p \/ drops_box (cs_arc cs2) t p ->
    tst cs2 (LStep t a i, j') = UB.
  Proof.
    intros Hn HS Hb Hr Hhot Hl Hj Hs Hr' Ht. pose proof (good_cut S ls _ cs Hn HS Hb Hr) as (HI&HSI&HG).
    pose proof (cstep_arc _ _ _ _ _ _ _ _ _ _ Hs) as Hst. cbn [fst] in Hst.
    destruct (begins_ops false _ _ _ j _ HI Hst (begins_writes _ _ _ Hl)) as [Hp _].
    destruct (tstep_one _ _ _ _ _ _ Hs (writes_ops _ _ j _ Hl) eq_refl) as (x&x'&Hx&Hd&Hx'). rewrite Hj in Hd.
    assert (ball dis (p_ser p) (cs_objs cs1)) as Hdis.
    { intros y Hy. rewrite Hx' in Hy. injection Hy as <-. eapply apart_use; [|exact Hd]. by apply Hhot. }
    eapply run_ball in Hdis as [_ Hdis]; [|exact closed_dis|exact Hr'|].
    2:{ eapply tstep_ser; [exact Hs|]. by eapply stat_ser. }
    assert (run tst cinit (ls ++ (l, j) :: ls') = Some cs2) as Hall.
    { rewrite run_app, Hr. cbn [run]. unfold exec. by rewrite Hs. }
    apply bad_box with p; [|done|done].
    pose proof (good_cut S (ls ++ (l, j) :: ls') [] cs2 Hn HS) as Hg. rewrite app_nil_r in Hg. by destruct (Hg Hb Hall).
  Qed.
  Lemma bad_trees_protected ls cs l j cs1 ls' cs2 p t a i j' : true ∈ n -> bounded E (fst <$> ls ++ (l, j) :: ls') ->
    run tst cinit ls = Some cs -> writes_count (cs_arc cs) l p -> j (p_ser p) = 0 ->
    tst cs (l, j) = Next cs1 -> run tst cs1 ls' = Some cs2 -> finds (cs_arc cs2) t p \/ drops_box (cs_arc cs2) t p ->
    tst cs2 (LStep t a i, j') = UB.
  Proof.
    intros Ht Hb Hr Hl Hj Hs. assert (n <> []) as Hn by (intros H; rewrite H in Ht; by apply elem_of_nil in Ht).
    pose proof (good_cut hot ls _ cs Hn ltac:(by right) Hb Hr) as (HI&HSI&HG).
    pose proof (cstep_arc _ _ _ _ _ _ _ _ _ _ Hs) as Hst. cbn [fst] in Hst.
    destruct (begins_ops false _ _ _ j _ HI Hst (begins_writes _ _ _ Hl)) as [Hp _].
    eapply bad_after; [done|by right|done..| |done|done|done].
    intros x Hx. destruct (HG _ _ Hp) as (y&Hy&Hb'). rewrite Hx in Hy. by injection Hy as <-.
  Qed.
  Lemma bad_trees ls0 cs0 t0 a0 i0 j0 cs1 ls1 cs2 l j cs3 ls2 cs4 p t a i j' : n <> [] ->
    bounded E (fst <$> (ls0 ++ (LStep t0 a0 i0, j0) :: ls1) ++ (l, j) :: ls2) ->
    run tst cinit ls0 = Some cs0 -> finds (cs_arc cs0) t0 p -> tst cs0 (LStep t0 a0 i0, j0) = Next cs1 ->
    run tst cs1 ls1 = Some cs2 -> writes_count (cs_arc cs2) l p -> j (p_ser p) = 0 -> tst cs2 (l, j) = Next cs3 ->
    run tst cs3 ls2 = Some cs4 -> finds (cs_arc cs4) t p \/ drops_box (cs_arc cs4) t p ->
    tst cs4 (LStep t a i, j') = UB.
  Proof.
    intros Hn Hb Hr0 Hf Hs0 Hr1 Hl Hj Hs Hr2. rewrite <- app_assoc in Hb.
    pose proof (good_cut warm ls0 _ cs0 Hn ltac:(by left) Hb Hr0) as (HI&HSI&HG).
    assert (c_ops false E (cs_arc cs0) (LStep t0 a0 i0) j0 = [c_at CBump p] /\ p ∈ st_table (cs_arc cs0)) as [Ho Htab].
    { pose proof (inv_pc _ _ HI t0) as Hok. unfold finds in Hf. cbn [c_ops].
      destruct (get_pc (cs_arc cs0) t0) as [|kd v b|kd v b q|kd v b q old|kd v b q|kd v b|kd v q|kd v q|kd v q|kd v q|lk q w r|w r|ty ii acc|ty ii] eqn:Hpc; try done.
      subst q. destruct Hok as [_ [Hok _]]. done. }
    assert (stat (st_heap (cs_arc cs0)) (st_table (cs_arc cs0)) (p_ser p) Tabled) as Hst by (by eapply stat_tab).
    destruct (tstep_one _ _ _ _ _ _ Hs0 Ho eq_refl) as (x&x'&Hx&Hd&Hx').
    assert (ball hot (p_ser p) (cs_objs cs1)) as Hhot.
    { intros y Hy. rewrite Hx' in Hy. injection Hy as <-. eapply apart_bump; [|exact Hd].
      destruct (HG _ _ Hst) as (z&Hz&Hb'). rewrite Hx in Hz. injection Hz as <-. done. }
    eapply run_ball in Hhot as [_ Hhot]; [|exact closed_hot|exact Hr1|].
    2:{ eapply tstep_ser; [exact Hs0|]. by eapply stat_ser. }
    eapply (bad_after warm (ls0 ++ (LStep t0 a0 i0, j0) :: ls1)); [done|by left| | |done..].
    - rewrite <- app_assoc. exact Hb.
    - rewrite run_app, Hr0. cbn [run]. unfold exec. by rewrite Hs0.
  Qed.
End bad.

(** ** [new] twice, [drop] twice *)
Section two.
  Context (M : machine) (im : bool) (n m k : list bool) (late : bool) {V : Type} (E : tyenv V).
  Notation cst := (cstep M im n m k late E).
  Definition nexts (st : state V) (l : label V) : bool := match step E st l with Next _ => true | _ => false end.
  Lemma run_part ls1 ls2 cs cs' : run cst cs (ls1 ++ ls2) = Some cs' -> exists cs1, run cst cs ls1 = Some cs1 /\ run cst cs1 ls2 = Some cs'.
  Proof. rewrite run_app. destruct (run cst cs ls1) as [cs1|]; [|done]. eauto. Qed.
  Lemma run_one l ls cs cs' : run cst cs (l :: ls) = Some cs' -> nexts (cs_arc cs) l.1 = true ->
    exists cs1, cst cs l = Next cs1 /\ run cst cs1 ls = Some cs'.
  Proof.
    cbn [run]. unfold exec. intros Hr Hn. destruct (cst cs l) as [cs1| | |] eqn:Hs; [by exists cs1| | |done];
      unfold cstep in Hs; unfold nexts in Hn; destruct (step E (cs_arc cs) l.1); try done; by destruct (c_applys _ _ _ _ _ _ _).
  Qed.
  Lemma run_ub l ls cs cs' : run cst cs (l :: ls) = Some cs' -> cst cs l = UB -> False.
  Proof. cbn [run]. unfold exec. intros Hr Hs. by rewrite Hs in Hr. Qed.
End two.

Definition at0 (ls : list (label node)) : list (label node * (nat -> nat)) := (λ l, (l, λ _, 0)) <$> ls.
Lemma at0_fst ls : (at0 ls).*1 = ls.
Proof. induction ls as [|l ls IH]; [done|]. unfold at0. rewrite !fmap_cons. cbn [fst]. f_equal. exact IH. Qed.
Lemma at0_app l1 l2 : at0 (l1 ++ l2) = at0 l1 ++ at0 l2.
Proof. apply fmap_app. Qed.
Lemma at0_after M im n m k late ls cs : run (cstep M im n m k late exE) cinit (at0 ls) = Some cs ->
  cs_arc cs = after exE ls.
Proof. intros Hr%run_arc_from. rewrite at0_fst in Hr. unfold after. change (cs_arc cinit) with (@init node) in Hr. by rewrite Hr. Qed.

Definition two_new : list (label node) := intern 1 10 KSized leaf4 ++ [LNew 1 KSized leaf4; LStep 1 11 0].
Definition two_drop : list (label node) := [LStep 1 11 0; LStep 1 11 0; LDrop 1 exA].
Definition two_last : list (label node) := [LStep 1 0 0; LDrop 1 exA; LStep 1 0 0; LStep 1 0 0; LStep 1 0 0].
Definition ex_two : list (label node) :=
  two_new ++ LStep 1 11 0 :: two_drop ++ LStep 1 0 0 :: two_last ++ [LStep 1 0 0].
Lemma ex_two_lawful : lawful exE /\ wide exE /\ bounded exE ex_two /\ is_Some (run (step exE) init ex_two).
Proof.
  split_and!; [apply nodes_lawful|done|by apply ex_bounded|].
  destruct (run (step exE) init ex_two) as [st|] eqn:Hr; [by eexists|]. exfalso. revert Hr. by vm_compute.
Qed.
Lemma two_stacked im n m k : n <> [] -> run (cstep stacked im n m k false exE) cinit (at0 ex_two) = None.
Proof.
  intros Hn. destruct (run _ cinit (at0 ex_two)) as [cs|] eqn:Hr; [|done]. exfalso.
  assert (ex_two = (two_new ++ LStep 1 11 0 :: two_drop) ++ LStep 1 0 0 :: two_last ++ [LStep 1 0 0]) as Heq.
  { unfold ex_two. by rewrite <- app_assoc. }
  rewrite Heq, at0_app in Hr. apply run_part in Hr as (cs1&Hr1&Hr). pose proof (at0_after _ _ _ _ _ _ _ _ Hr1) as Ha.
  set (ls := two_new ++ LStep 1 11 0 :: two_drop) in *. change (at0 (LStep 1 0 0 :: ?a)) with ((LStep 1 0 0, λ _ : nat, 0) :: at0 a) in Hr.
  destruct (step exE (cs_arc cs1) (LStep 1 0 0)) as [st'| | |] eqn:Hs.
  - eapply run_ub; [exact Hr|]. eapply (bad_stacked im n m k exE) with (ls := at0 ls) (p := exA); [apply lawful_coherent, nodes_lawful|done|done| |exact Hr1|exact Hs| |done].
    + rewrite at0_fst. by apply ex_bounded.
    + rewrite Ha. by vm_compute.
  - rewrite Ha in Hs. revert Hs. by vm_compute.
  - rewrite Ha in Hs. revert Hs. by vm_compute.
  - rewrite Ha in Hs. revert Hs. by vm_compute.
Qed.
Lemma two_trees im n m k : n <> [] -> run (cstep trees im n m k false exE) cinit (at0 ex_two) = None.
Proof.
  intros Hn. destruct (run _ cinit (at0 ex_two)) as [cs|] eqn:Hr; [|done]. exfalso.
  unfold ex_two in Hr. rewrite at0_app in Hr. apply run_part in Hr as (cs0&Hr0&Hr). pose proof (at0_after _ _ _ _ _ _ _ _ Hr0) as Ha0.
  change (at0 (?l :: ?a)) with ((l, λ _ : nat, 0) :: at0 a) in Hr.
  apply run_one in Hr as (cs1&Hs0&Hr); [|rewrite Ha0; by vm_compute].
  rewrite at0_app in Hr. apply run_part in Hr as (cs2&Hr1&Hr).
  assert (run (cstep trees im n m k false exE) cinit (at0 (two_new ++ LStep 1 11 0 :: two_drop)) = Some cs2) as Hr01.
  { rewrite at0_app, run_app, Hr0. change (at0 (?l :: ?a)) with ((l, λ _ : nat, 0) :: at0 a). cbn [run]. unfold exec. by rewrite Hs0. }
  pose proof (at0_after _ _ _ _ _ _ _ _ Hr01) as Ha2.
  change (at0 (?l :: ?a)) with ((l, λ _ : nat, 0) :: at0 a) in Hr.
  apply run_one in Hr as (cs3&Hs2&Hr); [|rewrite Ha2; by vm_compute].
  rewrite at0_app in Hr. apply run_part in Hr as (cs4&Hr2&Hr).
  assert (run (cstep trees im n m k false exE) cinit (at0 ((two_new ++ LStep 1 11 0 :: two_drop) ++ LStep 1 0 0 :: two_last)) = Some cs4) as Hr04.
  { rewrite at0_app, run_app, Hr01. change (at0 (?l :: ?a)) with ((l, λ _ : nat, 0) :: at0 a). cbn [run]. unfold exec. by rewrite Hs2. }
  pose proof (at0_after _ _ _ _ _ _ _ _ Hr04) as Ha4.
  change (at0 (?l :: ?a)) with ((l, λ _ : nat, 0) :: at0 a) in Hr. eapply run_ub; [exact Hr|].
  eapply (bad_trees im n m k exE) with (ls0 := at0 two_new) (ls1 := at0 two_drop) (ls2 := at0 two_last) (p := exA) (l := LStep 1 0 0) (j := λ _, 0);
    [apply lawful_coherent, nodes_lawful|done|done| |exact Hr0| |exact Hs0|exact Hr1| |done|exact Hs2|exact Hr2|].
  - by apply ex_bounded.
  - rewrite Ha0. by vm_compute.
  - rewrite Ha2. by vm_compute.
  - right. rewrite Ha4. by vm_compute.
Qed.
Lemma arc_refuted : exists (E : tyenv node) ls, lawful E /\ wide E /\ bounded E (fst <$> ls) /\ is_Some (run (step E) init (fst <$> ls)) /\
  forall im n m k, n <> [] ->
    run (cstep stacked im n m k false E) cinit ls = None /\ run (cstep trees im n m k false E) cinit ls = None.
Proof.
  exists exE, (at0 ex_two). rewrite at0_fst. destruct ex_two_lawful as (H1&H2&H3&H4). split_and!; [done..|].
  intros im n m k Hn. split; [by apply two_stacked|by apply two_trees].
Qed.

(** ** The blocks of the program and those of the machines *)
Section shown.
  Context (M : machine) (im : bool) (n m k : list bool) (late : bool).
  Definition shown (b : bstat) (x : cobj M) : Prop := b = Tabled -> co_hands x <> [].
  Lemma shown_spec : bspec M im n m k late false shown.
  Proof.
    split.
    - intros b o x Hc Hb. destruct (c_do M im n m k o x) as [x'|] eqn:Hd; [|done]. cbn [wp]. intros ->.
      apply do_inv in Hd as (xs&Ha&_). destruct (acts_keep _ _ _ _ _ _ _ _ _ _ (calm_keeps _ _ Hc) Ha) as (_&_&_&_&hs'&->).
      intros [H _]%app_eq_nil. by apply Hb.
    - intros w. by destruct (c_do M im n m k _ _).
    - intros x _.
      assert (forall o1 o2, o1 = CInsert /\ o2 = CPoint \/ o1 = CPoint /\ o2 = CInsert ->
        wp false (c_do M im n m k o1 x) (λ x1, wp false (c_do M im n m k o2 x1) (shown Tabled))) as H;
        [|unfold ins_ops; destruct late; apply H; [by left|by right]].
      intros o1 o2 Ho. destruct (c_do M im n m k o1 x) as [x1|] eqn:H1; [|done]. cbn [wp].
      destruct (c_do M im n m k o2 x1) as [x2|] eqn:H2; [|done]. cbn [wp]. intros _.
      apply do_inv in H1 as (xs1&Ha1&_). apply do_inv in H2 as (xs2&Ha2&_).
      destruct Ho as [[-> ->]|[-> ->]]; cbn [c_acts] in Ha1, Ha2; injection Ha1 as _ _ _ Hh1; injection Ha2 as _ _ _ Hh2.
      + rewrite <- Hh2. by intros [_ ?]%app_eq_nil.
      + rewrite <- Hh2, <- Hh1. by intros [_ ?]%app_eq_nil.
    - intros x j _. by destruct (c_do M im n m k _ _).
    - intros b o x _ _. by destruct (c_do M im n m k _ _).
    - done.
  Qed.
  Lemma shown_run {V : Type} (E : tyenv V) ls cs : coherent E -> wide E -> bounded E (fst <$> ls) ->
    run (cstep M im n m k late E) cinit ls = Some cs ->
    (forall a c, st_heap (cs_arc cs) !! a = Some c -> is_Some (cs_objs cs !! c_ser c)) /\
    (forall p, p ∈ st_table (cs_arc cs) -> exists x h, cs_objs cs !! p_ser p = Some x /\ h ∈ co_hands x).
  Proof.
    intros HL HW Hb Hr. pose proof (good_run M im n m k late E HL HW false _ shown_spec ls Hb) as Hg. rewrite Hr in Hg.
    destruct Hg as [(HI&HSI&HG) _]. split.
    - intros a c Ha. destruct (HG (c_ser c) (match c_data c with None => Dead | Some _ => if decide (Ptr a (c_ser c) ∈ st_table (cs_arc cs)) then Tabled else Loose end))
        as (x&Hx&_); [by exists a, c|by eexists].
    - intros p Hp. destruct (HG (p_ser p) Tabled) as (x&Hx&Hh); [by eapply stat_tab|]. specialize (Hh eq_refl).
      destruct (co_hands x) as [|h hs] eqn:E1; [done|]. exists x, h. split; [done|]. rewrite E1. by left.
  Qed.
  Lemma arc_same {V : Type} (E : tyenv V) ls cs : run (cstep M im n m k late E) cinit ls = Some cs ->
    run (step E) init (fst <$> ls) = Some (cs_arc cs).
  Proof. apply run_arc_from. Qed.
End shown.
Definition cafter {V} (M : machine) im n m k late (E : tyenv V) ls : cstate M (V:=V) := default cinit (run (cstep M im n m k late E) cinit ls).
Lemma cafter_run {V} (M : machine) im n m k late (E : tyenv V) ls :
  (if run (cstep M im n m k late E) cinit ls then true else false) = true ->
  run (cstep M im n m k late E) cinit ls = Some (cafter M im n m k late E ls).
Proof. unfold cafter. by destruct (run (cstep M im n m k late E) cinit ls). Qed.

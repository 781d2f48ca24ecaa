(** WeakModel: the recorded writes and loads are those of the execution, and no data race. *)
From stdpp Require Import gmap list numbers.
From Verif Require Import Base ArcModel ArcSpec ArcInv ArcStep ArcSafe ArcReach.
From Verif Require Import RaceModel RaceSpec RaceInv RaceStep RaceSafe RaceFinal RaceHb RaceThm.
From Verif Require Import WeakModel WeakSpec WeakHb.
Require Import ZifyBool ZifyNat ZifyN.

Lemma wrep_ext evs W (P Q : nat -> wevent -> Prop) :
  (forall j e, evs !! j = Some e -> P j e <-> Q j e) -> wrep evs W P -> wrep evs W Q.
Proof.
  intros H HR a. rewrite (HR a). split; intros (i&Ha&Hp&(j&f&Hh&Hf&HP)); exists i;
    (split; [done|]); (split; [done|]); exists j, f; (split; [done|]); (split; [done|]); by apply (H j f).
Qed.

Definition obj_writes (ws : list write) (k : nat) : list write := List.filter (λ z, w_obj z =? k) ws.
Lemma obj_writes_app ws ws' k : obj_writes (ws ++ ws') k = obj_writes ws k ++ obj_writes ws' k.
Proof. apply List.filter_app. Qed.
Lemma obj_writes_one z k : obj_writes [z] k = if w_obj z =? k then [z] else [].
Proof. unfold obj_writes. simpl. by destruct (w_obj z =? k). Qed.

Section hist.
  Context {V : Type} (E : tyenv V) (O : orders).
  Implicit Types (evs : list wevent) (s : rstate V) (ws : list write) (rs : list rread).

  Definition upto k n evs (j : nat) (e : wevent) : Prop :=
    exists o, e.2 = Op (MRmw k o) /\ releases o = true /\ rmws k (take j evs) < n.

  Record Hist evs s ws rs : Prop := MkHist {
    hi_clk : WClk evs s;
    hi_len : forall k, length (obj_writes ws k) = rmws k evs;
    hi_of : forall j t k o, evs !! j = Some (t, Op (MRmw k o)) ->
      exists z, obj_writes ws k !! rmws k (take j evs) = Some z /\ w_at z = wpos evs j;
    hi_ev : forall k i z, obj_writes ws k !! i = Some z ->
      exists j t o, evs !! j = Some (t, Op (MRmw k o)) /\ w_at z = wpos evs j /\ rmws k (take j evs) = i;
    hi_pub : forall k i z, obj_writes ws k !! i = Some z -> wrep evs (w_pub z) (upto k (S i) evs);
    hi_read : forall z, z ∈ rs ->
      exists j t o, evs !! j = Some (t, ReadCount (e_obj z) o (e_no z)) /\ e_at z = wpos evs j;
    hi_reads : forall j t k o w, evs !! j = Some (t, ReadCount k o w) -> Read k w (wpos evs j) ∈ rs;
  }.

  Lemma hist_init : Hist [] rinit [] [].
  Proof.
    constructor; try done.
    - apply wclk_init.
    - intros z Hz. by apply elem_of_nil in Hz.
  Qed.
  Lemma hist_same evs s s' ws rs : same_clk s s' -> Hist evs s ws rs -> Hist evs s' ws rs.
  Proof. intros Hs HH. destruct HH. constructor; try done. by eapply wclk_same. Qed.

  Definition no_rmw (o : wop) : Prop := match o with Op (MRmw _ _) => False | _ => True end.
  Lemma no_rmw_rmws k t o : no_rmw o -> rmws k [(t, o)] = 0.
  Proof. destruct o as [[]|]; done. Qed.
  Lemma take_snoc_le {A} (l : list A) y j : j <= length l -> take j (l ++ [y]) = take j l.
  Proof. intros. by rewrite take_app_le. Qed.

  Lemma upto_snoc k n evs e j f : j < length evs -> upto k n (evs ++ [e]) j f <-> upto k n evs j f.
  Proof. intros Hj. unfold upto. by rewrite take_snoc_le by lia. Qed.

  (** An operation that is no write of a count. *)
  Lemma hist_snoc evs s s' ws rs rs' t o : Hist evs s ws rs -> no_rmw o -> WClk (evs ++ [(t, o)]) s' ->
    (forall z, z ∈ rs' <-> z ∈ rs \/ match o with ReadCount k _ w => z = Read k w (length (r_trace s)) | _ => False end) ->
    Hist (evs ++ [(t, o)]) s' ws rs'.
  Proof.
    intros HH Hn HC Hrs. constructor.
    - done.
    - intros k. rewrite rmws_app, no_rmw_rmws by done. rewrite (hi_len _ _ _ _ HH). lia.
    - intros j u k o' Hj. apply lookup_app_Some in Hj as [Hj|[Hl Hj]].
      + pose proof (lookup_lt_Some _ _ _ Hj). rewrite take_snoc_le, wpos_app_l by lia. by eapply (hi_of _ _ _ _ HH).
      + apply list_lookup_singleton_Some in Hj as [_ [= <- ->]]. done.
    - intros k i z Hz. destruct (hi_ev _ _ _ _ HH k i z Hz) as (j&u&o'&Hj&Ha&Hr).
      pose proof (lookup_lt_Some _ _ _ Hj). exists j, u, o'. split; [by apply lookup_app_l_Some|].
      by rewrite take_snoc_le, wpos_app_l by lia.
    - intros k i z Hz. apply (wrep_ext _ _ (λ j f, j < length evs /\ upto k (S i) evs j f)).
      + intros j f Hf. apply lookup_app_Some in Hf as [Hf|[Hl Hf]].
        * pose proof (lookup_lt_Some _ _ _ Hf). rewrite upto_snoc by lia. tauto.
        * apply list_lookup_singleton_Some in Hf as [Hj <-]. split; [intros [? _]; lia|].
          intros (o'&Ho&_). simpl in Ho. subst o. done.
      + apply wrep_old; [intros [? _]; lia|].
        eapply wrep_ext; [|by apply (hi_pub _ _ _ _ HH)]. intros j f Hf. apply lookup_lt_Some in Hf. tauto.
    - intros z [Hz|Hz]%Hrs.
      + destruct (hi_read _ _ _ _ HH z Hz) as (j&u&o'&Hj&Ha). pose proof (lookup_lt_Some _ _ _ Hj).
        exists j, u, o'. split; [by apply lookup_app_l_Some|]. by rewrite wpos_app_l by lia.
      + destruct o as [|k o w]; [done|]. subst z. exists (length evs), t, o.
        split; [by apply list_lookup_middle|]. simpl. rewrite wpos_app_l by done. by apply wk_len, (hi_clk _ _ _ _ HH).
    - intros j u k o' w Hj. apply Hrs. apply lookup_app_Some in Hj as [Hj|[Hl Hj]].
      + left. pose proof (lookup_lt_Some _ _ _ Hj). rewrite wpos_app_l by lia. by eapply (hi_reads _ _ _ _ HH).
      + right. apply list_lookup_singleton_Some in Hj as [Hj [= <- ->]]. simpl.
        assert (j = length evs) as -> by lia. rewrite wpos_app_l by done.
        by rewrite (wk_len _ _ (hi_clk _ _ _ _ HH)).
  Qed.

  Lemma hist_op evs s ws rs t m : Hist evs s ws rs -> not_load m -> no_rmw (Op m) ->
    Hist (evs ++ [(t, Op m)]) (apply s t m) ws rs.
  Proof.
    intros HH Hl Hn. eapply hist_snoc; [done|done|by apply wclk_apply, HH|]. intros z. tauto.
  Qed.

  Lemma hist_rmw evs s ws rs t k o n : Hist evs s ws rs ->
    let s' := apply s t (MRmw k o) in
    Hist (evs ++ [(t, Op (MRmw k o))]) s' (ws ++ [Write k n (countv s' k) (length (r_trace s))]) rs.
  Proof.
    intros HH s'. pose proof (wclk_apply evs s t (MRmw k o) I (hi_clk _ _ _ _ HH)) as HC. fold s' in HC.
    pose proof (wk_len _ _ (hi_clk _ _ _ _ HH)) as Hlen.
    set (z0 := Write _ _ _ _).
    assert (forall k', obj_writes (ws ++ [z0]) k' = obj_writes ws k' ++ if k =? k' then [z0] else []) as Hw.
    { intros k'. rewrite obj_writes_app, obj_writes_one. done. }
    assert (forall k', rmws k' [(t, Op (MRmw k o))] = if k =? k' then 1 else 0) as Hr1.
    { intros k'. unfold rmws. simpl. unfold is_rmw. simpl. by destruct (k =? k'). }
    constructor.
    - done.
    - intros k'. rewrite Hw, rmws_app, app_length, (hi_len _ _ _ _ HH), Hr1. by destruct (k =? k').
    - intros j u k' o' Hj. rewrite Hw. apply lookup_app_Some in Hj as [Hj|[Hl Hj]].
      + pose proof (lookup_lt_Some _ _ _ Hj). rewrite take_snoc_le, wpos_app_l by lia.
        destruct (hi_of _ _ _ _ HH j u k' o' Hj) as (z&Hz&Ha). exists z. split; [by apply lookup_app_l_Some|done].
      + apply list_lookup_singleton_Some in Hj as [Hj [= <- -> ->]].
        assert (j = length evs) as -> by lia. rewrite take_app, wpos_app_l by done. rewrite Nat.eqb_refl.
        exists z0. split; [apply list_lookup_middle, eq_sym, (hi_len _ _ _ _ HH)|]. done.
    - intros k' i z Hz. rewrite Hw in Hz. apply lookup_app_Some in Hz as [Hz|[Hl Hz]].
      + destruct (hi_ev _ _ _ _ HH k' i z Hz) as (j&u&o'&Hj&Ha&Hr).
        pose proof (lookup_lt_Some _ _ _ Hj). exists j, u, o'. split; [by apply lookup_app_l_Some|].
        by rewrite take_snoc_le, wpos_app_l by lia.
      + destruct (k =? k') eqn:Hk; [|by rewrite lookup_nil in Hz]. assert (k = k') as <- by lia.
        apply list_lookup_singleton_Some in Hz as [Hi <-].
        exists (length evs), t, o. split; [by apply list_lookup_middle|]. rewrite wpos_app_l by done.
        split; [done|]. rewrite take_app. rewrite (hi_len _ _ _ _ HH) in *. lia.
    - intros k' i z Hz. rewrite Hw in Hz. apply lookup_app_Some in Hz as [Hz|[Hl Hz]].
      + pose proof (lookup_lt_Some _ _ _ Hz) as Hi. rewrite (hi_len _ _ _ _ HH) in Hi.
        apply (wrep_ext _ _ (λ j f, j < length evs /\ upto k' (S i) evs j f)).
        * intros j f Hf. apply lookup_app_Some in Hf as [Hf|[Hl Hf]].
          -- pose proof (lookup_lt_Some _ _ _ Hf). rewrite upto_snoc by lia. tauto.
          -- apply list_lookup_singleton_Some in Hf as [Hj <-]. split; [intros [? _]; lia|].
             intros (o'&[= -> ->]&_&Hlt). assert (j = length evs) as -> by lia. rewrite take_app in Hlt. lia.
        * apply wrep_old; [intros [? _]; lia|].
          eapply wrep_ext; [|by apply (hi_pub _ _ _ _ HH)]. intros j f Hf. apply lookup_lt_Some in Hf. tauto.
      + destruct (k =? k') eqn:Hk; [|by rewrite lookup_nil in Hz]. assert (k = k') as <- by lia.
        apply list_lookup_singleton_Some in Hz as [Hi <-]. cbn [w_pub z0].
        eapply wrep_ext; [|apply (wk_count _ _ HC)]. intros j [u f] Hf. simpl. unfold upto. simpl.
        split; [intros (o'&->&Ho)|intros (o'&->&Ho&_); eauto]. exists o'. split; [done|]. split; [done|].
        pose proof (rmws_take_lt k _ _ _ Hf) as Hlt. simpl in Hlt. unfold is_rmw in Hlt. simpl in Hlt.
        rewrite Nat.eqb_refl in Hlt. specialize (Hlt eq_refl). rewrite rmws_app, Hr1, Nat.eqb_refl in Hlt.
        rewrite (hi_len _ _ _ _ HH) in *. lia.
    - intros z Hz. destruct (hi_read _ _ _ _ HH z Hz) as (j&u&o'&Hj&Ha). pose proof (lookup_lt_Some _ _ _ Hj).
      exists j, u, o'. split; [by apply lookup_app_l_Some|]. by rewrite wpos_app_l by lia.
    - intros j u k' o' w Hj. apply lookup_app_Some in Hj as [Hj|[Hl Hj]].
      + pose proof (lookup_lt_Some _ _ _ Hj). rewrite wpos_app_l by lia. by eapply (hi_reads _ _ _ _ HH).
      + by apply list_lookup_singleton_Some in Hj as [Hj [=]].
  Qed.

  Lemma hist_ops evs s ws rs t ms : Hist evs s ws rs -> Forall (λ m, not_load m /\ no_rmw (Op m)) ms ->
    Hist (evs ++ ((λ m, (t, Op m)) <$> ms)) (applies s t ms) ws rs.
  Proof.
    revert evs s. induction ms as [|m ms IH]; intros evs s HH Hm; csimpl; [by rewrite app_nil_r|].
    change (applies s t (m :: ms)) with (applies (apply s t m) t ms). inversion Hm; subst.
    rewrite (cons_middle _ evs), app_assoc. apply IH; [|done]. by apply hist_op; [|naive_solver..].
  Qed.

  (** The writes recorded by a step are the read-modify-writes it performs. *)
  Definition quiet (m : mop) : Prop := not_load m /\ no_rmw (Op m).
  Lemma searched_quiet st l : Forall quiet (searched E st l).
  Proof. unfold searched. case_match; repeat constructor. Qed.
  Lemma ops_rmw s l : is_ref l = false ->
    match rmw_obj s l with
    | Some p => exists pre o, ops E O s l = pre ++ [MRmw (p_ser p) o] /\ Forall quiet pre
    | None => Forall quiet (ops E O s l)
    end.
  Proof.
    destruct l as [t k v hs|t h|t h ks h'|t h|t h ks|t h ks|t ty|t ty|t a i h|t|t m|t m]; intros Hl; try done;
      cbn [rmw_obj ops]; try by repeat constructor.
    - destruct (r_hands s !! h) as [y|]; [|done].
      eexists [_], _. split; [done|]. by repeat constructor.
    - destruct (r_hands s !! h) as [y|]; by repeat constructor.
    - unfold mops. destruct (get_pc (r_st s) t) as [|k v b|k v b q|k v b q old|k v b q|k v b|k v q|k v q|k v q|k v q|l' q w r|w r|ty j acc|ty j];
        try by repeat constructor.
      + destruct (pick _ _); by repeat constructor.
      + eexists [], _. by split.
      + destruct (old =? 0)%N; [eexists [], _; by split|by repeat constructor].
      + destruct k, b; by repeat constructor.
      + destruct k; by repeat constructor.
      + destruct w as [|[q|q|q] w]; try by repeat constructor.
        * eexists [], _. by split.
        * destruct (data _ _); [|done]. destruct (pick _ _); by repeat constructor.
      + destruct (j <? te_shards E); by repeat constructor.
    - unfold panic_mops. destruct (get_pc (r_st s) t) as [|k v b|k v b q|k v b q old|k v b q|k v b|k v q|k v q|k v q|k v q|l' q w r|w r|ty j acc|ty j];
        try by repeat constructor.
      + apply searched_quiet.
      + constructor; [done|]. apply Forall_app. split; [apply searched_quiet|by repeat constructor].
      + destruct w as [|[q|q|q] w]; try by repeat constructor.
        destruct (data _ _); [|done]. constructor; [done|]. apply searched_quiet.
  Qed.

  Lemma applies_app s t ms ms' : applies s t (ms ++ ms') = applies (applies s t ms) t ms'.
  Proof. apply fold_left_app. Qed.

  (** All of it for a state of WeakModel. *)
  Definition WHist evs (x : wstate V) : Prop := Hist evs (w_race x) (w_writes x) (w_reads x).

  Lemma countv_same s s' k : same_clk s s' -> countv s k = countv s' k.
  Proof. intros (_&_&H&_). unfold countv. by rewrite H. Qed.

  Lemma whist_WL evs x l x' : WHist evs x -> wstep E O x (WL l) = Next x' ->
    WHist (evs ++ ((λ o, (wactor (WL l), o)) <$> wops E O x (WL l))) x'.
  Proof.
    intros HH Hs. simpl in Hs. destruct (is_ref l) eqn:Hl; [done|].
    destruct (rstep E O (w_race x) l) as [s'| | |] eqn:Hst; try done. injection Hs as <-.
    unfold WHist. cbn [w_race w_writes w_reads]. pose proof (rstep_clk E O _ _ _ Hst) as Hclk.
    pose proof (ops_rmw (w_race x) l Hl) as Hops. unfold record. cbn [wactor wops].
    assert (forall ms : list mop, (λ o, (actor l, o)) <$> (Op <$> ms) = (λ m, (actor l, Op m)) <$> ms) as Hf.
    { intros ms. by rewrite <- list_fmap_compose. }
    rewrite Hf. destruct (rmw_obj (w_race x) l) as [p|].
    - destruct Hops as (pre&o&Ho&Hpre). rewrite Ho in Hclk |- *.
      rewrite applies_app in Hclk. change (applies ?a ?t [?m]) with (apply a t m) in Hclk.
      pose proof (hist_ops evs _ _ _ (actor l) pre HH Hpre) as H1.
      pose proof (hist_rmw _ _ _ _ (actor l) (p_ser p) o (new_count s' p) H1) as H2. cbv zeta in H2.
      rewrite fmap_app, app_assoc. csimpl. apply (hist_same _ _ s') in H2; [|exact Hclk].
      assert (countv s' (p_ser p) = countv (apply (applies (w_race x) (actor l) pre) (actor l) (MRmw (p_ser p) o)) (p_ser p)) as ->.
      { symmetry. by apply countv_same. }
      assert (pred (length (r_trace s')) = length (r_trace (applies (w_race x) (actor l) pre))) as ->; [|done].
      destruct Hclk as (_&_&_&_&<-). rewrite trace_apply, app_length. simpl. lia.
    - rewrite app_nil_r. eapply hist_same; [exact Hclk|]. by apply hist_ops.
  Qed.

  Lemma value_pub evs x k w n W : WHist evs x -> value x k w = Some (n, W) -> wrep evs W (upto k w evs).
  Proof.
    intros HH. destruct w as [|w]; simpl.
    - intros [= <- <-]. apply wrep_none. intros j e _ (o&_&_&?). lia.
    - destruct (writes_of x k !! w) as [z|] eqn:Hz; [|done]. intros [= <- <-].
      by eapply (hi_pub _ _ _ _ HH).
  Qed.

  Lemma whist_WRef evs x t h ks w x' : WHist evs x -> wstep E O x (WRef t h ks w) = Next x' ->
    WHist (evs ++ ((λ o, (wactor (@WRef V t h ks w), o)) <$> wops E O x (WRef t h ks w))) x'.
  Proof.
    intros HH Hs. cbn [wstep] in Hs. destruct (may_use (w_race x) t h) as [y|] eqn:Hm; [|done].
    destruct (step E (r_st (w_race x)) (LRef (h_ptr y) ks)) as [st| | |] eqn:Hst; try done.
    destruct (value x (p_ser (target (h_ptr y) ks)) w) as [[n W]|] eqn:Hv; [|done].
    destruct (coherent_read _ _ _ _); [|done]. injection Hs as <-.
    apply may_use_inv in Hm as (_&Hy&_). cbn [wops wactor]. rewrite Hy. csimpl.
    set (k := p_ser (target (h_ptr y) ks)) in *. set (ms := (λ n0, (n0, TRead)) <$> path (h_ptr y) ks).
    rewrite (cons_middle _ evs), app_assoc.
    pose proof (hist_op evs _ _ _ t (MTouch ms) HH I I) as H1.
    eapply hist_snoc; [exact H1|done| |].
    - assert (wrep (evs ++ [(t, Op (MTouch ms))]) W (upto k w (evs ++ [(t, Op (MTouch ms))]))) as HW'.
      { pose proof (value_pub evs x k w n W HH Hv) as HW.
        apply (wrep_ext _ _ (λ j f, j < length evs /\ upto k w evs j f)).
        - intros j f Hf. apply lookup_app_Some in Hf as [Hf|[Hl Hf]].
          + pose proof (lookup_lt_Some _ _ _ Hf). rewrite upto_snoc by lia. tauto.
          + apply list_lookup_singleton_Some in Hf as [Hj <-]. split; [intros [? _]; lia|]. by intros (o'&?&_).
        - apply wrep_old; [intros [? _]; lia|].
          eapply wrep_ext; [|exact HW]. intros j f Hf. apply lookup_lt_Some in Hf. tauto. }
      pose proof (wclk_load _ _ t k (o_load O) w W (hi_clk _ _ _ _ H1) HW') as H2.
      eapply wclk_same; [|exact H2]. by destruct (acquires (o_load O)).
    - intros z. cbn [w_reads]. rewrite elem_of_app, elem_of_list_singleton.
      destruct (acquires (o_load O)); done.
  Qed.

  Lemma whist_run ls : forall x x' evs, WHist evs x -> run (wstep E O) x ls = Some x' ->
    WHist (evs ++ wevents_from E O x ls) x'.
  Proof.
    induction ls as [|l ls IH]; intros x x' evs HH Hr; simpl in Hr |- *.
    - injection Hr as <-. by rewrite app_nil_r.
    - unfold exec in Hr. destruct (wstep E O x l) as [x1| | |] eqn:Hs; [|by apply IH..|done].
      rewrite app_assoc. apply IH; [|done]. destruct l as [l|t h ks w]; [by apply whist_WL|by apply whist_WRef].
  Qed.
  Lemma whist ls x : run (wstep E O) winit ls = Some x -> WHist (wevents E O ls) x.
  Proof. intros Hr. apply (whist_run ls winit x [] hist_init Hr). Qed.
End hist.

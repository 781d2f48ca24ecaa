(** The sets of accesses carried around by WeakModel are happens-before: as RaceHb.v, with loads
    of counts that return old values. *)
From stdpp Require Import gmap list numbers.
From Verif Require Import Base ArcModel ArcSpec RaceModel RaceSpec RaceInv RaceHb WeakModel WeakSpec.
Require Import ZifyBool ZifyNat ZifyN.

Lemma rmws_app k evs l : rmws k (evs ++ l) = rmws k evs + rmws k l.
Proof. unfold rmws. by rewrite List.filter_app, app_length. Qed.
Lemma rmws_take k evs i : rmws k (take i evs) <= rmws k evs.
Proof. rewrite <- (take_drop i evs) at 2. rewrite rmws_app. lia. Qed.
Lemma rmws_take_lt k evs i e : evs !! i = Some e -> is_rmw k e = true -> rmws k (take i evs) < rmws k evs.
Proof.
  intros He Hr. rewrite <- (take_drop_middle _ _ _ He) at 2. rewrite rmws_app.
  unfold rmws at 3. simpl. rewrite Hr. simpl. lia.
Qed.

(** ** Happens-before when an event is added *)
Section hb.
  Implicit Types (evs : list wevent) (e f : wevent) (P Q : nat -> wevent -> Prop) (W B : gset nat).

  Lemma whb_lt evs i j : whb evs i j -> i < j.
  Proof. induction 1; lia. Qed.
  Lemma whb_range evs i j : whb evs i j -> j < length evs.
  Proof. induction 1 as [i j e f _ _ Hj|]; [|done]. by eapply lookup_lt_Some. Qed.
  Lemma wsyncs_app evs l i e f : i <= length evs -> wsyncs (evs ++ l) i e f <-> wsyncs evs i e f.
  Proof. intros Hi. unfold wsyncs. by rewrite take_app_le. Qed.
  Lemma whb_weaken evs l i j : whb evs i j -> whb (evs ++ l) i j.
  Proof.
    induction 1 as [i j e f Hl Hi Hj He|]; [|by eapply whb_trans].
    eapply whb_edge; [done|by apply lookup_app_l_Some|by apply lookup_app_l_Some|].
    apply lookup_lt_Some in Hi. by rewrite wsyncs_app by lia.
  Qed.
  Lemma whb_strengthen evs l i j : whb (evs ++ l) i j -> j < length evs -> whb evs i j.
  Proof.
    induction 1 as [i j e f Hl Hi Hj He|i j k H1 IH1 H2 IH2]; intros Hlt.
    - rewrite lookup_app_l in Hi by lia. rewrite lookup_app_l in Hj by lia.
      rewrite wsyncs_app in He by lia. by eapply whb_edge.
    - pose proof (whb_lt _ _ _ H2). eapply whb_trans; [apply IH1; lia|by apply IH2].
  Qed.

  (** [i] happens before, or is, an event satisfying [P]. *)
  Definition wview evs P (i : nat) : Prop :=
    exists j f, (i = j \/ whb evs i j) /\ evs !! j = Some f /\ P j f.
  Definition wbef evs e (j : nat) f : Prop := f.1 = e.1 \/ wsyncs evs j f e.

  Lemma whb_last evs e i : whb (evs ++ [e]) i (length evs) <-> wview evs (wbef evs e) i.
  Proof.
    split.
    - intros H. remember (length evs) as n eqn:Hn. remember (evs ++ [e]) as l eqn:Hl.
      revert Hn. induction H as [i j f g Hlt Hi Hj He|i j k H1 IH1 H2 IH2]; intros ->; subst l.
      + rewrite lookup_app_l in Hi by done. rewrite list_lookup_middle in Hj by done. injection Hj as <-.
        rewrite wsyncs_app in He by lia. exists i, f. by split; [left|].
      + destruct (IH2 eq_refl) as (j'&f&Hh&Hf&Hb). exists j', f. split; [|done]. right.
        pose proof (lookup_lt_Some _ _ _ Hf) as Hlt. pose proof (whb_lt _ _ _ H2).
        assert (whb evs i j) by (by eapply whb_strengthen).
        destruct Hh as [->|Hh]; [done|]. by eapply whb_trans.
    - intros (j&f&Hh&Hf&Hb). pose proof (lookup_lt_Some _ _ _ Hf) as Hlt.
      assert (whb (evs ++ [e]) j (length evs)) as H1.
      { eapply whb_edge; [done|by apply lookup_app_l_Some|by apply list_lookup_middle|].
        rewrite wsyncs_app by lia. exact Hb. }
      destruct Hh as [->|Hh]; [done|]. eapply whb_trans; [by apply whb_weaken|done].
  Qed.

  Lemma wview_range evs P i : wview evs P i -> i < length evs.
  Proof.
    intros (j&f&Hh&Hf&_). apply lookup_lt_Some in Hf. destruct Hh as [->|Hh]; [done|].
    apply whb_lt in Hh. lia.
  Qed.
  Lemma wview_snoc evs e P i :
    wview (evs ++ [e]) P i <-> wview evs P i \/ P (length evs) e /\ (i = length evs \/ wview evs (wbef evs e) i).
  Proof.
    split.
    - intros (j&f&Hh&Hf&HP). apply lookup_app_Some in Hf as [Hf|[Hl Hf]].
      + left. exists j, f. split; [|done]. destruct Hh as [->|Hh]; [by left|right].
        eapply whb_strengthen; [done|]. by eapply lookup_lt_Some.
      + apply list_lookup_singleton_Some in Hf as [Hj <-].
        assert (j = length evs) as -> by lia. right. split; [done|].
        destruct Hh as [->|Hh]; [by left|right]. by apply whb_last.
    - intros [(j&f&Hh&Hf&HP)|[HP Hh]].
      + exists j, f. split; [|split; [by apply lookup_app_l_Some|done]].
        destruct Hh as [->|Hh]; [by left|right]. by apply whb_weaken.
      + exists (length evs), e. split; [|split; [by apply list_lookup_middle|done]].
        destruct Hh as [->|Hh]; [by left|right]. by apply whb_last.
  Qed.
  Lemma wview_or evs P Q i : wview evs (λ j e, P j e \/ Q j e) i <-> wview evs P i \/ wview evs Q i.
  Proof.
    split.
    - intros (j&f&Hh&Hf&[HP|HP]); [left|right]; by exists j, f.
    - intros [(j&f&Hh&Hf&HP)|(j&f&Hh&Hf&HP)]; exists j, f; tauto.
  Qed.
  Lemma wview_iff evs P Q i : (forall j e, P j e <-> Q j e) -> wview evs P i <-> wview evs Q i.
  Proof. intros H. split; intros (j&f&Hh&Hf&HP); exists j, f; (split; [done|]); (split; [done|]); by apply H. Qed.

  (** ** Numbering of the accesses *)
  Definition wacc (o : wop) : bool := match o with Op m => acc m | ReadCount _ _ _ => true end.
  Fixpoint wpos evs (i : nat) : nat :=
    match evs, i with
    | e :: evs', S i' => (if wacc e.2 then 1 else 0) + wpos evs' i'
    | _, _ => 0
    end.
  Definition waccs evs (i : nat) : Prop := exists e, evs !! i = Some e /\ wacc e.2 = true.

  Lemma wpos_app_l evs l i : i <= length evs -> wpos (evs ++ l) i = wpos evs i.
  Proof.
    revert i. induction evs as [|e evs IH]; intros [|i] Hi; simpl in *; try done; try lia.
    - by destruct l.
    - rewrite IH by lia. done.
  Qed.
  Lemma wpos_lt evs i j : waccs evs i -> i < j -> wpos evs i < wpos evs j.
  Proof.
    revert i j. induction evs as [|e evs IH]; intros i j (f&Hf&Ha) Hij; [done|].
    destruct j as [|j]; [lia|]. destruct i as [|i]; simpl in *.
    - injection Hf as ->. rewrite Ha. lia.
    - assert (wpos evs i < wpos evs j); [|lia]. apply IH; [by exists f|lia].
  Qed.
  Lemma wpos_inj evs i j : waccs evs i -> waccs evs j -> wpos evs i = wpos evs j -> i = j.
  Proof.
    intros Hi Hj He. destruct (lt_eq_lt_dec i j) as [[H| ->]|H]; [|done|].
    - pose proof (wpos_lt _ _ _ Hi H). lia.
    - pose proof (wpos_lt _ _ _ Hj H). lia.
  Qed.
  Lemma wpos_last evs e : wpos (evs ++ [e]) (length (evs ++ [e])) =
    (if wacc e.2 then 1 else 0) + wpos evs (length evs).
  Proof. induction evs as [|f evs IH]; simpl; [lia|]. rewrite IH. lia. Qed.
  Lemma waccs_app evs l i : i < length evs -> waccs (evs ++ l) i <-> waccs evs i.
  Proof. intros Hi. unfold waccs. by rewrite lookup_app_l. Qed.
  Lemma waccs_last evs e : waccs (evs ++ [e]) (length evs) <-> wacc e.2 = true.
  Proof.
    unfold waccs. rewrite list_lookup_middle by done. split; [by intros (f&[= <-]&H)|by exists e].
  Qed.

  (** [W] contains the numbers of the accesses in the view [P]. *)
  Definition wrep evs (W : gset nat) P : Prop :=
    forall a, a ∈ W <-> exists i, waccs evs i /\ wpos evs i = a /\ wview evs P i.

  Lemma wrep_none evs P : (forall j e, evs !! j = Some e -> ~ P j e) -> wrep evs ∅ P.
  Proof.
    intros H a. split; [set_solver|]. intros (i&_&_&(j&f&_&Hf&HP)). by destruct (H j f).
  Qed.
  Lemma wrep_nil P : wrep [] ∅ P.
  Proof. apply wrep_none. intros j e He. by rewrite lookup_nil in He. Qed.
  Lemma wrep_iff evs W P Q : (forall j e, P j e <-> Q j e) -> wrep evs W P -> wrep evs W Q.
  Proof.
    intros H HR a. rewrite (HR a). split; intros (i&Ha&Hp&Hv); exists i; (split; [done|]); (split; [done|]).
    - by apply (wview_iff evs P Q).
    - by apply (wview_iff evs P Q).
  Qed.
  Lemma wrep_or evs W1 W2 P Q : wrep evs W1 P -> wrep evs W2 Q -> wrep evs (W1 ∪ W2) (λ j e, P j e \/ Q j e).
  Proof.
    intros H1 H2 a. rewrite elem_of_union, (H1 a), (H2 a). split.
    - intros [(i&Ha&Hp&Hv)|(i&Ha&Hp&Hv)]; exists i; (split; [done|]); (split; [done|]);
        apply wview_or; auto.
    - intros (i&Ha&Hp&[Hv|Hv]%wview_or); [left|right]; by exists i.
  Qed.
  Lemma wrep_old evs e W P : ~ P (length evs) e -> wrep evs W P -> wrep (evs ++ [e]) W P.
  Proof.
    intros Hn HR a. rewrite (HR a). split.
    - intros (i&Ha&Hp&Hv). pose proof (wview_range _ _ _ Hv). exists i.
      split; [by apply waccs_app|]. split; [rewrite wpos_app_l by lia; done|]. apply wview_snoc. by left.
    - intros (i&Ha&Hp&Hv). apply wview_snoc in Hv as [Hv|[? _]]; [|done].
      pose proof (wview_range _ _ _ Hv). exists i. rewrite waccs_app in Ha by done.
      rewrite wpos_app_l in Hp by lia. done.
  Qed.
  Lemma wrep_new evs e W B P : P (length evs) e -> wrep evs W P -> wrep evs B (wbef evs e) ->
    wrep (evs ++ [e]) ((if wacc e.2 then {[wpos evs (length evs)]} else ∅) ∪ (W ∪ B)) P.
  Proof.
    intros HP HR HB a. rewrite !elem_of_union, (HR a), (HB a). split.
    - intros [Ha|[(i&Ha&Hp&Hv)|(i&Ha&Hp&Hv)]].
      + destruct (wacc e.2) eqn:He; [|set_solver]. apply elem_of_singleton in Ha as ->.
        exists (length evs). split; [by apply waccs_last|]. split; [by rewrite wpos_app_l|].
        apply wview_snoc. right. split; [done|]. by left.
      + pose proof (wview_range _ _ _ Hv). exists i.
        split; [by apply waccs_app|]. split; [rewrite wpos_app_l by lia; done|]. apply wview_snoc. by left.
      + pose proof (wview_range _ _ _ Hv). exists i.
        split; [by apply waccs_app|]. split; [rewrite wpos_app_l by lia; done|]. apply wview_snoc. right. auto.
    - intros (i&Ha&Hp&Hv). apply wview_snoc in Hv as [Hv|[_ [->|Hv]]].
      + right. left. pose proof (wview_range _ _ _ Hv). exists i. rewrite waccs_app in Ha by done.
        rewrite wpos_app_l in Hp by lia. done.
      + left. apply waccs_last in Ha as ->. rewrite wpos_app_l in Hp by done. set_solver.
      + right. right. pose proof (wview_range _ _ _ Hv). exists i. rewrite waccs_app in Ha by done.
        rewrite wpos_app_l in Hp by lia. done.
  Qed.
End hb.

(** ** The sets of the model *)
Local Instance how_eq : EqDecision how.
Proof. solve_decision. Defined.
Local Instance ordering_eq : EqDecision ordering.
Proof. solve_decision. Defined.
Local Instance mop_eq : EqDecision mop.
Proof. solve_decision. Defined.
Section clock.
  Context {V : Type} (E : tyenv V) (O : orders).
  Implicit Types (evs : list wevent) (s : rstate V).

  Record WClk evs s : Prop := MkWClk {
    wk_len : length (r_trace s) = wpos evs (length evs);
    wk_seen : forall t, wrep evs (seen s t) (λ _ e, e.1 = t);
    wk_lock : forall l, wrep evs (lockv s l) (λ _ e, e.2 = Op (MRel l));
    wk_count : forall k, wrep evs (countv s k) (λ _ e, exists o, e.2 = Op (MRmw k o) /\ releases o = true);
    wk_msg : forall m, wrep evs (msgv s m) (λ _ e, e.2 = Op (MSend m));
    wk_trace : forall j e, evs !! j = Some e -> wacc e.2 = true ->
      exists y, r_trace s !! wpos evs j = Some y /\ a_thread y = e.1 /\ a_touch y = wtouched e.2 /\
        forall a, a ∈ a_past y <-> exists i, waccs evs i /\ wpos evs i = a /\ whb evs i j;
  }.

  Definition not_load (m : mop) : Prop := match m with MLoad _ _ => False | _ => True end.
  Definition plain evs : Prop := forall j t m, evs !! j = Some (t, Op m) -> not_load m.

  Lemma wrep_past evs s t m : not_load m -> WClk evs s -> wrep evs (past s t m) (wbef evs (t, Op m)).
  Proof.
    intros Hm HC.
    assert (forall W P, wrep evs W P -> wrep evs (W ∪ seen s t) (λ j e, P j e \/ e.1 = t)) as Hor.
    { intros W P HW. apply wrep_or; [done|apply HC]. }
    assert ((forall x, syncs x m -> False) -> wrep evs (seen s t) (wbef evs (t, Op m))) as Hno.
    { intros H. eapply wrep_iff; [|apply (wk_seen _ _ HC)]. intros j [u x]. unfold wbef, wsyncs. simpl.
      destruct x as [m'|? ? ?]; [specialize (H m'); destruct m'; tauto|tauto]. }
    destruct m as [l|l|l|k o|k o|m|m]; simpl.
    - apply Hno. by intros [].
    - eapply wrep_iff; [|apply Hor, (wk_lock _ _ HC)]. intros j [u x]. unfold wbef, wsyncs. simpl.
      destruct x as [[]|]; simpl; (split; [intros [Hx|Hx]|intros [Hx|Hx]]); naive_solver.
    - apply Hno. by intros [].
    - destruct (acquires o) eqn:Ho.
      + eapply wrep_iff; [|apply Hor, (wk_count _ _ HC)]. intros j [u x]. unfold wbef, wsyncs. simpl.
        destruct x as [[]|]; simpl; (split; [intros [Hx|Hx]|intros [Hx|Hx]]); naive_solver.
      + apply Hno. intros []; simpl; try done. intros (_&_&Hx). congruence.
    - done.
    - apply Hno. by intros [].
    - eapply wrep_iff; [|apply Hor, (wk_msg _ _ HC)]. intros j [u x]. unfold wbef, wsyncs. simpl.
      destruct x as [[]|]; simpl; (split; [intros [Hx|Hx]|intros [Hx|Hx]]); naive_solver.
  Qed.

  Lemma wrep_eq evs W W' P : wrep evs W P -> W = W' -> wrep evs W' P.
  Proof. by intros ? <-. Qed.

  (** What a trace entry means is not changed by later events; the new one is as it should be. *)
  Lemma wk_trace_snoc evs s s' t o B :
    WClk evs s -> wrep evs B (wbef evs (t, o)) ->
    r_trace s' = r_trace s ++ (if wacc o then [Access t (wtouched o) B] else []) ->
    forall j e, (evs ++ [(t, o)]) !! j = Some e -> wacc e.2 = true ->
      exists y, r_trace s' !! wpos (evs ++ [(t, o)]) j = Some y /\ a_thread y = e.1 /\ a_touch y = wtouched e.2 /\
        forall a, a ∈ a_past y <->
          exists i, waccs (evs ++ [(t, o)]) i /\ wpos (evs ++ [(t, o)]) i = a /\ whb (evs ++ [(t, o)]) i j.
  Proof.
    intros HC HB -> j e Hj Ha. apply lookup_app_Some in Hj as [Hj|[Hl Hj]].
    - pose proof (lookup_lt_Some _ _ _ Hj) as Hlt.
      destruct (wk_trace _ _ HC j e Hj Ha) as (y&Hy&Ht&Hto&Hp). exists y.
      rewrite wpos_app_l by lia. split; [by apply lookup_app_l_Some|]. split; [done|]. split; [done|].
      intros a. rewrite (Hp a). split.
      + intros (i&Hi&Hpi&Hh). pose proof (whb_lt _ _ _ Hh). exists i.
        split; [by apply waccs_app; [lia|]|]. split; [by rewrite wpos_app_l by lia|]. by apply whb_weaken.
      + intros (i&Hi&Hpi&Hh). pose proof (whb_lt _ _ _ Hh). exists i.
        rewrite waccs_app in Hi by lia. rewrite wpos_app_l in Hpi by lia.
        split; [done|]. split; [done|]. by eapply whb_strengthen.
    - apply list_lookup_singleton_Some in Hj as [Hj <-]. assert (j = length evs) as -> by lia.
      simpl in Ha. rewrite Ha. rewrite wpos_app_l by done. rewrite <- (wk_len _ _ HC).
      exists (Access t (wtouched o) B). split; [by apply list_lookup_middle|].
      split; [done|]. split; [done|]. intros a. simpl. rewrite (HB a). split.
      + intros (i&Hi&Hpi&Hv). pose proof (wview_range _ _ _ Hv). exists i.
        split; [by apply waccs_app|]. split; [by rewrite wpos_app_l by lia|]. by apply whb_last.
      + intros (i&Hi&Hpi&Hh). pose proof (whb_lt _ _ _ Hh). exists i.
        rewrite waccs_app in Hi by lia. rewrite wpos_app_l in Hpi by lia.
        split; [done|]. split; [done|]. by apply whb_last.
  Qed.

  Lemma wclk_apply evs s t m : not_load m -> WClk evs s -> WClk (evs ++ [(t, Op m)]) (apply s t m).
  Proof.
    intros Hm HC. pose proof (wrep_past evs s t m Hm HC) as HB. pose proof (seen_past s t m) as Hsub.
    assert (self s m = if acc m then {[wpos evs (length evs)]} else ∅) as Hself.
    { unfold self. by rewrite (wk_len _ _ HC). }
    constructor.
    - rewrite trace_apply, app_length, wpos_last, (wk_len _ _ HC). simpl. destruct (acc m); simpl; lia.
    - intros u. rewrite seen_apply. destruct (decide (u = t)) as [->|Hne].
      + eapply wrep_eq; [apply wrep_new; [done|apply (wk_seen _ _ HC)|exact HB]|].
        simpl. rewrite Hself. clear -Hsub. set_solver.
      + apply wrep_old; [by simpl; congruence|]. apply HC.
    - intros l. rewrite lockv_apply. destruct (decide (m = MRel l)) as [->|Hne].
      + eapply wrep_eq; [apply wrep_new; [done|apply (wk_lock _ _ HC)|exact HB]|]. simpl. clear. set_solver.
      + apply wrep_old; [simpl; congruence|]. apply HC.
    - intros k. destruct (countv_apply s t m k) as [(o&->&Hr& ->)|[Hn ->]].
      + eapply wrep_eq; [apply wrep_new; [|apply (wk_count _ _ HC)|exact HB]|].
        * simpl. by exists o.
        * rewrite Hself. cbn [acc wacc snd]. clear. set_solver.
      + apply wrep_old; [|apply HC]. intros (o&[= ->]&Ho). apply Hn. by exists o.
    - intros x. rewrite msgv_apply. destruct (decide (m = MSend x)) as [->|Hne].
      + eapply wrep_eq; [apply wrep_new; [done|apply (wk_msg _ _ HC)|exact HB]|]. simpl. clear. set_solver.
      + apply wrep_old; [simpl; congruence|]. apply HC.
    - eapply (wk_trace_snoc evs s); [done|exact HB|]. apply trace_apply.
  Qed.

  (** A load that reads value number [w], and synchronises with what [B] stands for. *)
  Lemma wclk_load evs s t k o w B : WClk evs s ->
    wrep evs B (λ j e, exists o', e.2 = Op (MRmw k o') /\ releases o' = true /\ rmws k (take j evs) < w) ->
    WClk (evs ++ [(t, ReadCount k o w)])
      (add_access (if acquires o then set_seen s t (B ∪ seen s t) else s) t [(k, TAtomic)]).
  Proof.
    intros HC HW. set (s2 := if acquires o then _ else _).
    assert (seen s t ⊆ seen s2 t) as Hsub.
    { unfold s2. destruct (acquires o); [|done]. unfold seen at 2. simpl. rewrite lookup_insert. simpl. set_solver. }
    assert (wrep evs (seen s2 t) (wbef evs (t, ReadCount k o w))) as HB.
    { unfold s2. destruct (acquires o) eqn:Ho.
      - unfold seen at 1. simpl. rewrite lookup_insert. simpl.
        eapply wrep_iff; [|apply wrep_or; [exact HW|apply (wk_seen _ _ HC)]].
        intros j [u x]. unfold wbef, wsyncs. simpl.
        destruct x as [[]|]; simpl; (split; [intros [Hx|Hx]|intros [Hx|Hx]]); naive_solver.
      - eapply wrep_iff; [|apply (wk_seen _ _ HC)]. intros j [u x]. unfold wbef, wsyncs. simpl.
        destruct x as [[]|]; simpl; rewrite ?Ho; naive_solver. }
    assert (forall u, u <> t -> seen (add_access s2 t [(k, TAtomic)]) u = seen s u) as Hother.
    { intros u Hu. unfold seen at 1. simpl. rewrite lookup_insert_ne by done.
      unfold s2. destruct (acquires o); [|done]. simpl. by rewrite lookup_insert_ne. }
    assert (r_trace s2 = r_trace s /\ r_lock s2 = r_lock s /\ r_count s2 = r_count s /\ r_msgs s2 = r_msgs s) as (E1&E2&E3&E4).
    { unfold s2. by destruct (acquires o). }
    constructor.
    - rewrite wpos_last. simpl. rewrite E1, app_length, (wk_len _ _ HC). simpl. lia.
    - intros u. destruct (decide (u = t)) as [->|Hne].
      + unfold seen at 1. simpl. rewrite lookup_insert. simpl. rewrite E1.
        eapply wrep_eq; [apply wrep_new; [done|apply (wk_seen _ _ HC)|exact HB]|].
        simpl. rewrite (wk_len _ _ HC). clear -Hsub. set_solver.
      + rewrite Hother by done. apply wrep_old; [by simpl; congruence|]. apply HC.
    - intros l. unfold lockv. simpl. rewrite E2. apply wrep_old; [done|]. apply HC.
    - intros k'. unfold countv. simpl. rewrite E3. apply wrep_old; [by intros (?&?&_)|]. apply HC.
    - intros m. unfold msgv. simpl. rewrite E4. apply wrep_old; [done|]. apply HC.
    - eapply (wk_trace_snoc evs s); [done|exact HB|]. simpl. by rewrite E1.
  Qed.

  Lemma wclk_init : WClk [] rinit.
  Proof. constructor; try done; intros; try apply wrep_nil. Qed.

  Lemma wclk_same evs s s' : same_clk s s' -> WClk evs s -> WClk evs s'.
  Proof.
    intros (H1&H2&H3&H4&H5) HC. destruct HC as [C1 C2 C3 C4 C5 C6].
    constructor; unfold seen, lockv, countv, msgv in *.
    - by rewrite <- H5.
    - by rewrite <- H1.
    - by rewrite <- H2.
    - by rewrite <- H3.
    - by rewrite <- H4.
    - by rewrite <- H5.
  Qed.
  Lemma wclk_applies evs s t ms : Forall not_load ms -> WClk evs s ->
    WClk (evs ++ ((λ m, (t, Op m)) <$> ms)) (applies s t ms).
  Proof.
    revert evs s. induction ms as [|m ms IH]; intros evs s Hm HC; csimpl; [by rewrite app_nil_r|].
    change (applies s t (m :: ms)) with (applies (apply s t m) t ms). inversion Hm; subst.
    rewrite (cons_middle _ evs), app_assoc. apply IH; [done|]. by apply wclk_apply.
  Qed.

  Lemma wtrace_race_free evs s : WClk evs s -> RaceInv.trace_ok (r_trace s) -> wrace_free evs.
  Proof.
    intros HC HT i j e f k w w' Hij Hi Hj Hk Hk' Hw.
    assert (forall o k w, (k, w) ∈ wtouched o -> wacc o = true) as Hta.
    { intros [m|? ? ?] k1 w1; [|done]. destruct m; simpl; try done; by intros ?%elem_of_nil. }
    pose proof (Hta _ _ _ Hk) as Hai. pose proof (Hta _ _ _ Hk') as Haj.
    destruct (wk_trace _ _ HC i e Hi Hai) as (x&Hx&_&Hxt&_).
    destruct (wk_trace _ _ HC j f Hj Haj) as (y&Hy&_&Hyt&Hp).
    assert (waccs evs i) as Hacc by (by exists e).
    pose proof (wpos_lt evs i j Hacc Hij) as Hlt.
    rewrite <- Hxt in Hk. rewrite <- Hyt in Hk'.
    destruct (HT _ _ _ _ _ Hlt Hy Hk') as [H1 H2].
    assert (wpos evs i ∈ a_past y) as Hin.
    { destruct Hw as [->| ->].
      - apply H2. by exists x.
      - apply H1; [done|]. by exists x, w. }
    apply Hp in Hin as (i'&Hi'&He&Hh). by rewrite (wpos_inj _ _ _ Hi' Hacc He) in Hh.
  Qed.
End clock.

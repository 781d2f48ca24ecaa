(** The sets of accesses carried around by RaceModel are happens-before. *)
From stdpp Require Import gmap list numbers.
From Verif Require Import Base ArcModel ArcSpec RaceModel RaceSpec.
Require Import ZifyBool ZifyNat ZifyN.

(** ** Happens-before when an event is added *)
Section hb.
  Implicit Types (evs : list event) (e f : event) (P Q : event -> Prop) (W B : gset nat).

  Lemma hb_lt evs i j : hb evs i j -> i < j.
  Proof. induction 1; lia. Qed.
  Lemma hb_range evs i j : hb evs i j -> j < length evs.
  Proof. induction 1 as [i j e f _ _ Hj|]; [|done]. by eapply lookup_lt_Some. Qed.
  Lemma hb_weaken evs l i j : hb evs i j -> hb (evs ++ l) i j.
  Proof.
    induction 1 as [i j e f Hl Hi Hj He|]; [|by eapply hb_trans].
    eapply hb_edge; [done|by apply lookup_app_l_Some|by apply lookup_app_l_Some|done].
  Qed.
  Lemma hb_strengthen evs l i j : hb (evs ++ l) i j -> j < length evs -> hb evs i j.
  Proof.
    induction 1 as [i j e f Hl Hi Hj He|i j k H1 IH1 H2 IH2]; intros Hlt.
    - rewrite lookup_app_l in Hi by lia. rewrite lookup_app_l in Hj by lia. by eapply hb_edge.
    - pose proof (hb_lt _ _ _ H2). eapply hb_trans; [apply IH1; lia|by apply IH2].
  Qed.

  (** [i] happens before, or is, an event satisfying [P]. *)
  Definition view evs (P : event -> Prop) (i : nat) : Prop :=
    exists j f, (i = j \/ hb evs i j) /\ evs !! j = Some f /\ P f.
  Definition bef e f : Prop := f.1 = e.1 \/ syncs f.2 e.2.

  Lemma hb_last evs e i : hb (evs ++ [e]) i (length evs) <-> view evs (bef e) i.
  Proof.
    split.
    - intros H. remember (length evs) as n eqn:Hn. remember (evs ++ [e]) as l eqn:Hl.
      revert Hn. induction H as [i j f g Hlt Hi Hj He|i j k H1 IH1 H2 IH2]; intros ->; subst l.
      + rewrite lookup_app_l in Hi by done. rewrite list_lookup_middle in Hj by done. injection Hj as <-.
        exists i, f. by split; [left|].
      + destruct (IH2 eq_refl) as (j'&f&Hh&Hf&Hb). exists j', f. split; [|done]. right.
        pose proof (lookup_lt_Some _ _ _ Hf) as Hlt. pose proof (hb_lt _ _ _ H2).
        assert (hb evs i j) by (by eapply hb_strengthen).
        destruct Hh as [->|Hh]; [done|]. by eapply hb_trans.
    - intros (j&f&Hh&Hf&Hb).
      assert (hb (evs ++ [e]) j (length evs)) as H1.
      { eapply hb_edge; [by eapply lookup_lt_Some|by apply lookup_app_l_Some|by apply list_lookup_middle|done]. }
      destruct Hh as [->|Hh]; [done|]. eapply hb_trans; [by apply hb_weaken|done].
  Qed.

  Lemma view_range evs P i : view evs P i -> i < length evs.
  Proof.
    intros (j&f&Hh&Hf&_). apply lookup_lt_Some in Hf. destruct Hh as [->|Hh]; [done|].
    apply hb_lt in Hh. lia.
  Qed.
  Lemma view_snoc evs e P i :
    view (evs ++ [e]) P i <-> view evs P i \/ P e /\ (i = length evs \/ view evs (bef e) i).
  Proof.
    split.
    - intros (j&f&Hh&Hf&HP). apply lookup_app_Some in Hf as [Hf|[Hl Hf]].
      + left. exists j, f. split; [|done]. destruct Hh as [->|Hh]; [by left|right].
        eapply hb_strengthen; [done|]. by eapply lookup_lt_Some.
      + apply list_lookup_singleton_Some in Hf as [Hj <-]. right. split; [done|].
        assert (j = length evs) as -> by lia. destruct Hh as [->|Hh]; [by left|right]. by apply hb_last.
    - intros [(j&f&Hh&Hf&HP)|[HP Hh]].
      + exists j, f. split; [|split; [by apply lookup_app_l_Some|done]].
        destruct Hh as [->|Hh]; [by left|right]. by apply hb_weaken.
      + exists (length evs), e. split; [|split; [by apply list_lookup_middle|done]].
        destruct Hh as [->|Hh]; [by left|right]. by apply hb_last.
  Qed.
  Lemma view_or evs P Q i : view evs (λ e, P e \/ Q e) i <-> view evs P i \/ view evs Q i.
  Proof.
    split.
    - intros (j&f&Hh&Hf&[HP|HP]); [left|right]; by exists j, f.
    - intros [(j&f&Hh&Hf&HP)|(j&f&Hh&Hf&HP)]; exists j, f; tauto.
  Qed.
  Lemma view_iff evs P Q i : (forall e, P e <-> Q e) -> view evs P i <-> view evs Q i.
  Proof. intros H. split; intros (j&f&Hh&Hf&HP); exists j, f; (split; [done|]); (split; [done|]); by apply H. Qed.

  (** ** Numbering of the accesses *)
  Definition acc (m : mop) : bool :=
    match m with MTouch _ | MRmw _ _ | MLoad _ _ => true | _ => false end.
  Fixpoint pos evs (i : nat) : nat :=
    match evs, i with
    | e :: evs', S i' => (if acc e.2 then 1 else 0) + pos evs' i'
    | _, _ => 0
    end.
  Definition accs evs (i : nat) : Prop := exists e, evs !! i = Some e /\ acc e.2 = true.

  Lemma pos_app_l evs l i : i <= length evs -> pos (evs ++ l) i = pos evs i.
  Proof.
    revert i. induction evs as [|e evs IH]; intros [|i] Hi; simpl in *; try done; try lia.
    - by destruct l.
    - rewrite IH by lia. done.
  Qed.
  Lemma pos_lt evs i j : accs evs i -> i < j -> pos evs i < pos evs j.
  Proof.
    revert i j. induction evs as [|e evs IH]; intros i j (f&Hf&Ha) Hij; [done|].
    destruct j as [|j]; [lia|]. destruct i as [|i]; simpl in *.
    - injection Hf as ->. rewrite Ha. lia.
    - assert (pos evs i < pos evs j); [|lia]. apply IH; [by exists f|lia].
  Qed.
  Lemma pos_inj evs i j : accs evs i -> accs evs j -> pos evs i = pos evs j -> i = j.
  Proof.
    intros Hi Hj He. destruct (lt_eq_lt_dec i j) as [[H| ->]|H]; [|done|].
    - pose proof (pos_lt _ _ _ Hi H). lia.
    - pose proof (pos_lt _ _ _ Hj H). lia.
  Qed.
  Lemma pos_last evs e : pos (evs ++ [e]) (length (evs ++ [e])) =
    (if acc e.2 then 1 else 0) + pos evs (length evs).
  Proof. induction evs as [|f evs IH]; simpl; [lia|]. rewrite IH. lia. Qed.
  Lemma accs_app evs l i : i < length evs -> accs (evs ++ l) i <-> accs evs i.
  Proof. intros Hi. unfold accs. by rewrite lookup_app_l. Qed.
  Lemma accs_last evs e : accs (evs ++ [e]) (length evs) <-> acc e.2 = true.
  Proof.
    unfold accs. rewrite list_lookup_middle by done. split; [by intros (f&[= <-]&H)|by exists e].
  Qed.

  (** [W] contains the numbers of the accesses in the view [P]. *)
  Definition rep evs (W : gset nat) (P : event -> Prop) : Prop :=
    forall a, a ∈ W <-> exists i, accs evs i /\ pos evs i = a /\ view evs P i.

  Lemma rep_nil P : rep [] ∅ P.
  Proof.
    intros a. split; [set_solver|]. intros (i&(e&He&_)&_). by rewrite lookup_nil in He.
  Qed.
  Lemma rep_iff evs W P Q : (forall e, P e <-> Q e) -> rep evs W P -> rep evs W Q.
  Proof.
    intros H HR a. rewrite (HR a). split; intros (i&Ha&Hp&Hv); exists i; (split; [done|]); (split; [done|]).
    - by apply (view_iff evs P Q).
    - by apply (view_iff evs P Q).
  Qed.
  Lemma rep_or evs W1 W2 P Q : rep evs W1 P -> rep evs W2 Q -> rep evs (W1 ∪ W2) (λ e, P e \/ Q e).
  Proof.
    intros H1 H2 a. rewrite elem_of_union, (H1 a), (H2 a). split.
    - intros [(i&Ha&Hp&Hv)|(i&Ha&Hp&Hv)]; exists i; (split; [done|]); (split; [done|]);
        apply view_or; auto.
    - intros (i&Ha&Hp&[Hv|Hv]%view_or); [left|right]; by exists i.
  Qed.
  Lemma rep_old evs e W P : ~ P e -> rep evs W P -> rep (evs ++ [e]) W P.
  Proof.
    intros Hn HR a. rewrite (HR a). split.
    - intros (i&Ha&Hp&Hv). pose proof (view_range _ _ _ Hv). exists i.
      split; [by apply accs_app|]. split; [rewrite pos_app_l by lia; done|]. apply view_snoc. by left.
    - intros (i&Ha&Hp&Hv). apply view_snoc in Hv as [Hv|[? _]]; [|done].
      pose proof (view_range _ _ _ Hv). exists i. rewrite accs_app in Ha by done.
      rewrite pos_app_l in Hp by lia. done.
  Qed.
  Lemma rep_new evs e W B P : P e -> rep evs W P -> rep evs B (bef e) ->
    rep (evs ++ [e]) ((if acc e.2 then {[pos evs (length evs)]} else ∅) ∪ (W ∪ B)) P.
  Proof.
    intros HP HR HB a. rewrite !elem_of_union, (HR a), (HB a). split.
    - intros [Ha|[(i&Ha&Hp&Hv)|(i&Ha&Hp&Hv)]].
      + destruct (acc e.2) eqn:He; [|set_solver]. apply elem_of_singleton in Ha as ->.
        exists (length evs). split; [by apply accs_last|]. split; [by rewrite pos_app_l|].
        apply view_snoc. right. split; [done|]. by left.
      + pose proof (view_range _ _ _ Hv). exists i.
        split; [by apply accs_app|]. split; [rewrite pos_app_l by lia; done|]. apply view_snoc. by left.
      + pose proof (view_range _ _ _ Hv). exists i.
        split; [by apply accs_app|]. split; [rewrite pos_app_l by lia; done|]. apply view_snoc. right. auto.
    - intros (i&Ha&Hp&Hv). apply view_snoc in Hv as [Hv|[_ [->|Hv]]].
      + right. left. pose proof (view_range _ _ _ Hv). exists i. rewrite accs_app in Ha by done.
        rewrite pos_app_l in Hp by lia. done.
      + left. apply accs_last in Ha as ->. rewrite pos_app_l in Hp by done. set_solver.
      + right. right. pose proof (view_range _ _ _ Hv). exists i. rewrite accs_app in Ha by done.
        rewrite pos_app_l in Hp by lia. done.
  Qed.
End hb.

(** ** The sets of RaceModel *)
Local Instance how_eq : EqDecision how.
Proof. solve_decision. Defined.
Local Instance ordering_eq : EqDecision ordering.
Proof. solve_decision. Defined.
Local Instance mop_eq : EqDecision mop.
Proof. solve_decision. Defined.
Section clock.
  Context {V : Type} (E : tyenv V) (O : orders).
  Implicit Types (evs : list event) (s : rstate V).

  Record Clk evs s : Prop := MkClk {
    ck_len : length (r_trace s) = pos evs (length evs);
    ck_seen : forall t, rep evs (seen s t) (λ e, e.1 = t);
    ck_lock : forall l, rep evs (lockv s l) (λ e, e.2 = MRel l);
    ck_count : forall k, rep evs (countv s k) (λ e, exists o, e.2 = MRmw k o /\ releases o = true);
    ck_msg : forall m, rep evs (msgv s m) (λ e, e.2 = MSend m);
    ck_trace : forall j e, evs !! j = Some e -> acc e.2 = true ->
      exists x, r_trace s !! pos evs j = Some x /\ a_thread x = e.1 /\ a_touch x = touched e.2 /\
        forall a, a ∈ a_past x <-> exists i, accs evs i /\ pos evs i = a /\ hb evs i j;
  }.

  (** What happens before the operation [m] of thread [t]. *)
  Definition past s t (m : mop) : gset nat :=
    match m with
    | MAcq l => lockv s l ∪ seen s t
    | MRmw k o | MLoad k o => if acquires o then countv s k ∪ seen s t else seen s t
    | MRecv x => msgv s x ∪ seen s t
    | _ => seen s t
    end.
  Lemma rep_past evs s t m : Clk evs s -> rep evs (past s t m) (bef (t, m)).
  Proof.
    intros HC.
    assert (forall W P, rep evs W P -> rep evs (W ∪ seen s t) (λ e, P e \/ e.1 = t)) as Hor.
    { intros W P HW. apply rep_or; [done|apply HC]. }
    assert ((forall x, syncs x m -> False) -> rep evs (seen s t) (bef (t, m))) as Hno.
    { intros H. eapply rep_iff; [|apply (ck_seen _ _ HC)]. intros [u x]. unfold bef. simpl.
      specialize (H x). tauto. }
    destruct m as [l|l|l|k o|k o|m|m]; simpl.
    - apply Hno. by intros [].
    - eapply rep_iff; [|apply Hor, (ck_lock _ _ HC)]. intros [u x]. unfold bef. simpl.
      destruct x; simpl; (split; [intros [Hx|Hx]|intros [Hx|Hx]]); naive_solver.
    - apply Hno. by intros [].
    - destruct (acquires o) eqn:Ho.
      + eapply rep_iff; [|apply Hor, (ck_count _ _ HC)]. intros [u x]. unfold bef. simpl.
        destruct x; simpl; (split; [intros [Hx|Hx]|intros [Hx|Hx]]); naive_solver.
      + apply Hno. intros []; simpl; try done. intros (_&_&Hx). congruence.
    - destruct (acquires o) eqn:Ho.
      + eapply rep_iff; [|apply Hor, (ck_count _ _ HC)]. intros [u x]. unfold bef. simpl.
        destruct x; simpl; (split; [intros [Hx|Hx]|intros [Hx|Hx]]); naive_solver.
      + apply Hno. intros []; simpl; try done. intros (_&_&Hx). congruence.
    - apply Hno. by intros [].
    - eapply rep_iff; [|apply Hor, (ck_msg _ _ HC)]. intros [u x]. unfold bef. simpl.
      destruct x; simpl; (split; [intros [Hx|Hx]|intros [Hx|Hx]]); naive_solver.
  Qed.

  Definition self s (m : mop) : gset nat := if acc m then {[length (r_trace s)]} else ∅.

  Lemma seen_apply s t m u : seen (apply s t m) u =
    if decide (u = t) then self s m ∪ past s t m else seen s u.
  Proof.
    unfold seen at 1. destruct m as [l|l|l|k o|k o|m|m]; simpl; unfold self; simpl;
      try destruct (acquires o) eqn:Ha; try destruct (releases o); simpl;
      destruct (decide (u = t)) as [->|Hne]; rewrite ?lookup_insert, ?lookup_insert_ne by done;
      simpl; try done; unfold seen; simpl; rewrite ?lookup_insert; simpl; try done; set_solver.
  Qed.
  Lemma trace_apply s t m : r_trace (apply s t m) =
    r_trace s ++ if acc m then [Access t (touched m) (past s t m)] else [].
  Proof.
    destruct m as [l|l|l|k o|k o|m|m]; simpl; try destruct (acquires o); try destruct (releases o);
      simpl; rewrite ?app_nil_r; try done; do 3 f_equal; unfold seen; simpl; by rewrite lookup_insert.
  Qed.
  Lemma lockv_apply s t m l : lockv (apply s t m) l =
    if decide (m = MRel l) then seen s t ∪ lockv s l else lockv s l.
  Proof.
    unfold lockv at 1. destruct m as [l'|l'|l'|k o|k o|m|m]; simpl;
      try destruct (acquires o); try destruct (releases o); simpl; try done.
    destruct (decide (l' = l)) as [->|Hne].
    - rewrite decide_True by done. by rewrite lookup_insert.
    - rewrite decide_False by congruence. by rewrite lookup_insert_ne.
  Qed.
  Lemma msgv_apply s t m x : msgv (apply s t m) x =
    if decide (m = MSend x) then seen s t ∪ msgv s x else msgv s x.
  Proof.
    unfold msgv at 1. destruct m as [l'|l'|l'|k o|k o|m|m]; simpl;
      try destruct (acquires o); try destruct (releases o); simpl; try done.
    destruct (decide (m = x)) as [->|Hne].
    - rewrite decide_True by done. by rewrite lookup_insert.
    - rewrite decide_False by congruence. by rewrite lookup_insert_ne.
  Qed.
  Lemma countv_apply s t m k :
    (exists o, m = MRmw k o /\ releases o = true /\
       countv (apply s t m) k = self s m ∪ past s t m ∪ countv s k) \/
    ~ (exists o, m = MRmw k o /\ releases o = true) /\ countv (apply s t m) k = countv s k.
  Proof.
    destruct m as [l'|l'|l'|k' o|k' o|m|m]; try (right; split; [intros (o'&?&?); congruence|done]).
    - destruct (releases o) eqn:Hr; [|right; split; [intros (o'&?&?); congruence|]].
      + destruct (decide (k' = k)) as [->|Hne]; [left|right; split; [intros (o'&?&?); congruence|]].
        * exists o. split; [done|]. split; [done|]. simpl. rewrite Hr. unfold countv at 1. simpl.
          rewrite lookup_insert. simpl. unfold self. simpl.
          destruct (acquires o); unfold seen, countv; simpl; rewrite ?lookup_insert; simpl; unfold seen; simpl; rewrite ?lookup_insert; done.
        * simpl. rewrite Hr. unfold countv at 1. simpl. rewrite lookup_insert_ne by done.
          by destruct (acquires o).
      + simpl. rewrite Hr. by destruct (acquires o).
    - right. split; [intros (o'&?&?); congruence|]. simpl. by destruct (acquires o).
  Qed.

  Lemma seen_past s t m : seen s t ⊆ past s t m.
  Proof. destruct m as [l|l|l|k o|k o|m|m]; simpl; try destruct (acquires o); set_solver. Qed.
  Lemma clk_apply evs s t m : Clk evs s -> Clk (evs ++ [(t, m)]) (apply s t m).
  Proof.
    intros HC. pose proof (rep_past evs s t m HC) as HB. pose proof (seen_past s t m) as Hsub.
    assert (self s m = if acc m then {[pos evs (length evs)]} else ∅) as Hself.
    { unfold self. by rewrite (ck_len _ _ HC). }
    assert (forall W W' P, rep (evs ++ [(t, m)]) W P -> W = W' -> rep (evs ++ [(t, m)]) W' P) as Heq
      by (intros; by subst).
    constructor.
    - rewrite trace_apply, app_length, pos_last, (ck_len _ _ HC). simpl. destruct (acc m); simpl; lia.
    - intros u. rewrite seen_apply. destruct (decide (u = t)) as [->|Hne].
      + eapply Heq; [apply rep_new; [done|apply (ck_seen _ _ HC)|exact HB]|].
        simpl. rewrite Hself. clear -Hsub. set_solver.
      + apply rep_old; [by simpl; congruence|]. apply HC.
    - intros l. rewrite lockv_apply. destruct (decide (m = MRel l)) as [->|Hne].
      + eapply Heq; [apply rep_new; [done|apply (ck_lock _ _ HC)|exact HB]|]. simpl. clear. set_solver.
      + apply rep_old; [done|]. apply HC.
    - intros k. destruct (countv_apply s t m k) as [(o&->&Hr& ->)|[Hn ->]].
      + eapply Heq; [apply rep_new; [|apply (ck_count _ _ HC)|exact HB]|].
        * simpl. by exists o.
        * rewrite Hself. cbn [acc snd]. clear. set_solver.
      + apply rep_old; [done|]. apply HC.
    - intros x. rewrite msgv_apply. destruct (decide (m = MSend x)) as [->|Hne].
      + eapply Heq; [apply rep_new; [done|apply (ck_msg _ _ HC)|exact HB]|]. simpl. clear. set_solver.
      + apply rep_old; [done|]. apply HC.
    - intros j e Hj Ha. rewrite trace_apply. apply lookup_app_Some in Hj as [Hj|[Hl Hj]].
      + pose proof (lookup_lt_Some _ _ _ Hj) as Hlt.
        destruct (ck_trace _ _ HC j e Hj Ha) as (x&Hx&Ht&Hto&Hp). exists x.
        rewrite pos_app_l by lia. split; [by apply lookup_app_l_Some|]. split; [done|]. split; [done|].
        intros a. rewrite (Hp a). split.
        * intros (i&Hi&Hpi&Hh). pose proof (hb_lt _ _ _ Hh). exists i.
          split; [by apply accs_app; [lia|]|]. split; [by rewrite pos_app_l by lia|]. by apply hb_weaken.
        * intros (i&Hi&Hpi&Hh). pose proof (hb_lt _ _ _ Hh). exists i.
          rewrite accs_app in Hi by lia. rewrite pos_app_l in Hpi by lia.
          split; [done|]. split; [done|]. by eapply hb_strengthen.
      + apply list_lookup_singleton_Some in Hj as [Hj <-]. assert (j = length evs) as -> by lia.
        simpl in Ha. rewrite Ha. rewrite pos_app_l by done. rewrite <- (ck_len _ _ HC).
        exists (Access t (touched m) (past s t m)). split; [by apply list_lookup_middle|].
        split; [done|]. split; [done|]. intros a. simpl. rewrite (HB a). split.
        * intros (i&Hi&Hpi&Hv). pose proof (view_range _ _ _ Hv). exists i.
          split; [by apply accs_app|]. split; [by rewrite pos_app_l by lia|]. by apply hb_last.
        * intros (i&Hi&Hpi&Hh). pose proof (hb_lt _ _ _ Hh). exists i.
          rewrite accs_app in Hi by lia. rewrite pos_app_l in Hpi by lia.
          split; [done|]. split; [done|]. by apply hb_last.
  Qed.

  Lemma clk_init : Clk [] rinit.
  Proof.
    constructor; try done; intros; try apply rep_nil.
  Qed.

  (** ** All executions *)
  Definition same_clk s s' : Prop :=
    r_seen s = r_seen s' /\ r_lock s = r_lock s' /\ r_count s = r_count s' /\
    r_msgs s = r_msgs s' /\ r_trace s = r_trace s'.
  Lemma clk_same evs s s' : same_clk s s' -> Clk evs s -> Clk evs s'.
  Proof.
    intros (H1&H2&H3&H4&H5) HC. destruct HC as [C1 C2 C3 C4 C5 C6].
    constructor; unfold seen, lockv, countv, msgv in *.
    - by rewrite <- H5.
    - by rewrite <- H1.
    - by rewrite <- H2.
    - by rewrite <- H3.
    - by rewrite <- H4.
    - by rewrite <- H5.
  Qed.
  Lemma clk_applies evs s t ms : Clk evs s -> Clk (evs ++ ((λ m, (t, m)) <$> ms)) (applies s t ms).
  Proof.
    revert evs s. induction ms as [|m ms IH]; intros evs s HC; csimpl; [by rewrite app_nil_r|].
    change (applies s t (m :: ms)) with (applies (apply s t m) t ms).
    rewrite (cons_middle _ evs), app_assoc. apply IH. by apply clk_apply.
  Qed.
End clock.

(** Proofs for C78. *)
From stdpp Require Import gmap list numbers.
From Verif Require Import Base InternModel InternSpec InternFinal NewModel NewSpec NewFinal FmtModel FmtFinal
  ViewModel ViewSpec.
From Verif Require ArcModel ArcSpec ArcFinal.

(** ** Paths *)
Notation sep := 47%N.
Lemma split_app a b : split_at_sep (a ++ sep :: b) = split_at_sep a ++ split_at_sep b.
Proof.
  induction a as [|x a IH]; [done|]. cbn [app split_at_sep]. destruct (N.eqb_spec x sep); [by rewrite IH|].
  rewrite IH. by destruct (split_at_sep a) eqn:Ha; [destruct a as [|y a']; simpl in Ha; [|destruct (y =? sep)%N, (split_at_sep a')]|].
Qed.
Lemma split_some b : exists c cs, split_at_sep b = c :: cs.
Proof. destruct b as [|x b]; simpl; [eauto|]. destruct (x =? sep)%N; [eauto|]. destruct (split_at_sep b); eauto. Qed.
Definition segs (l : list (list N)) : list (list N) :=
  match l with c :: cs => (if bool_decide (c = []) then [] else [c]) ++ List.filter counts cs | [] => [] end.
Definition rooted (b : list N) : bool := match b with x :: _ => (x =? sep)%N | [] => false end.
Lemma comps_eq b : comps b = (rooted b, segs (split_at_sep b)).
Proof. done. Qed.
Lemma segs_app a b : segs (split_at_sep a ++ b) = segs (split_at_sep a) ++ List.filter counts b.
Proof. destruct (split_some a) as (c&cs&->). simpl. by rewrite List.filter_app, app_assoc. Qed.
Lemma comps_sep a b : comps (a ++ sep :: b) = (rooted (a ++ [sep]), segs (split_at_sep a) ++ List.filter counts (split_at_sep b)).
Proof. rewrite comps_eq, split_app, segs_app. f_equal. by destruct a. Qed.
Lemma same_comps a b : same_path a b -> comps a = comps b.
Proof.
  induction 1 as [a|a b _ IH|a b c _ IH1 _ IH2|a b|a b|a|a Ha]; [done|done|congruence|..]; cbn [app].
  - by rewrite !comps_sep.
  - by rewrite !comps_sep.
  - by rewrite !comps_sep.
  - rewrite comps_sep, comps_eq. simpl. rewrite app_nil_r. f_equal. by destruct a.
Qed.

Definition tails (cs : list (list N)) : list N := concat (map (cons sep) cs).
Lemma split_tails b : exists c cs, split_at_sep b = c :: cs /\ b = c ++ tails cs.
Proof.
  induction b as [|x b (c&cs&Hs&Hb)]; [by exists [], []|]. cbn [split_at_sep].
  destruct (N.eqb_spec x sep) as [->|].
  - exists [], (split_at_sep b). split; [done|]. rewrite Hs. unfold tails. simpl. by rewrite Hb at 1.
  - rewrite Hs. exists (x :: c), cs. split; [done|]. simpl. by rewrite Hb at 1.
Qed.
Lemma counts_not c : counts c = false -> c = [] \/ c = [46%N].
Proof. unfold counts. rewrite andb_false_iff, !bool_decide_eq_false. intros [H|H]; apply dec_stable in H; auto. Qed.
Lemma tails_cons c cs : tails (c :: cs) = sep :: c ++ tails cs.
Proof. done. Qed.
Lemma tails_same a cs : a <> [] -> same_path (a ++ tails cs) (a ++ tails (List.filter counts cs)).
Proof.
  revert a. induction cs as [|c cs IH]; intros a Ha; [constructor|]. cbn [List.filter]. rewrite tails_cons.
  destruct (counts c) eqn:Hc.
  - rewrite tails_cons. change (sep :: c ++ tails cs) with ((sep :: c) ++ tails cs).
    change (sep :: c ++ tails (List.filter counts cs)) with ((sep :: c) ++ tails (List.filter counts cs)).
    rewrite !app_assoc. apply IH. by destruct a.
  - refine (sp_trans _ _ _ _ (IH a Ha)). destruct (counts_not _ Hc) as [->| ->]; destruct cs as [|c' cs]; simpl.
    + rewrite app_nil_r. by apply (sp_end a).
    + rewrite tails_cons. apply (sp_twice a).
    + rewrite app_nil_r. eapply sp_trans; [apply sp_dot_end|by apply sp_end].
    + rewrite tails_cons. apply (sp_dot a).
Qed.
Definition from_root (f : list (list N)) : list N := match f with [] => [sep] | _ => tails f end.
Lemma tails_root cs : cs <> [] -> same_path (tails cs) (from_root (List.filter counts cs)).
Proof.
  induction cs as [|c cs IH]; [done|]. intros _. cbn [List.filter]. rewrite tails_cons. destruct (counts c) eqn:Hc.
  - cbn [from_root]. rewrite tails_cons. by apply (tails_same (sep :: c)).
  - destruct cs as [|c' cs].
    + destruct (counts_not _ Hc) as [->| ->]; [apply sp_refl|apply (sp_dot_end [])].
    + refine (sp_trans _ _ _ _ (IH _)); [|done].
      destruct (counts_not _ Hc) as [->| ->]; rewrite tails_cons; [apply (sp_twice [])|apply (sp_dot [])].
Qed.
Definition canon (x : bool * list (list N)) : list N :=
  if x.1 then from_root x.2 else match x.2 with [] => [] | c :: cs => c ++ tails cs end.
Lemma no_sep b c cs : split_at_sep b = c :: cs -> rooted c = false.
Proof.
  revert c cs. induction b as [|x b IH]; intros c cs; cbn [split_at_sep]; [by intros [= <- _]|].
  destruct (N.eqb_spec x sep); [by intros [= <- _]|]. destruct (split_at_sep b) as [|c' cs']; intros [= <- _]; simpl; by apply N.eqb_neq.
Qed.
Lemma canon_same b : same_path b (canon (comps b)).
Proof.
  destruct (split_tails b) as (c&cs&Hs&Hb). rewrite comps_eq, Hs. unfold canon. cbn [fst snd segs].
  destruct c as [|x c].
  - rewrite bool_decide_eq_true_2 by done. simpl in Hb. destruct cs as [|c' cs].
    + rewrite Hb. apply sp_refl.
    + rewrite Hb. rewrite tails_cons at 2. cbn [rooted]. rewrite N.eqb_refl. by apply tails_root.
  - rewrite bool_decide_eq_false_2 by done. pose proof (no_sep _ _ _ Hs) as Hr.
    rewrite Hb. simpl in Hr. change (rooted ((x :: c) ++ tails cs)) with (x =? sep)%N. rewrite Hr.
    cbn [app]. by apply (tails_same (x :: c)).
Qed.
Theorem comps_iff a b : comps a = comps b <-> same_path a b.
Proof.
  split; [|apply same_comps]. intros H. eapply sp_trans; [apply canon_same|]. rewrite H. apply sp_sym, canon_same.
Qed.

(** ** The environments *)
Lemma str_eqb_spec u v : str_eqb u v = true <->
  s_ty u = s_ty v /\ (if decide (s_ty u = TPath) then comps (s_bytes u) = comps (s_bytes v) else s_bytes u = s_bytes v).
Proof.
  unfold str_eqb. destruct (decide (s_ty u = TPath)) as [He|Hn].
  - rewrite He. destruct (s_ty v); rewrite ?andb_true_iff, ?bool_decide_eq_true; first [tauto|split; by intros [? _]].
  - destruct (s_ty u), (s_ty v); rewrite ?andb_true_iff, ?bool_decide_eq_true; first [tauto|split; by intros [? _]].
Qed.
Lemma str_refl v : str_eqb v v = true.
Proof. rewrite str_eqb_spec. by destruct (decide _). Qed.
Lemma str_sym u v : str_eqb u v = true -> str_eqb v u = true.
Proof. rewrite !str_eqb_spec. intros [-> H]. split; [done|]. by destruct (decide _). Qed.
Lemma str_trans u v w : str_eqb u v = true -> str_eqb v w = true -> str_eqb u w = true.
Proof. rewrite !str_eqb_spec. intros [-> H] [Hw H']. split; [done|]. case_decide; congruence. Qed.
Lemma str_hash_eq x u v : str_eqb u v = true -> str_hash x u = str_hash x v.
Proof.
  rewrite str_eqb_spec. unfold str_hash. intros [-> H]. case_decide as Hd; destruct (s_ty v); congruence.
Qed.
Lemma str_lawful x : ilawful (str_env x).
Proof.
  constructor; simpl; eauto using str_refl, str_sym, str_trans, str_hash_eq.
Qed.
Lemma str_coherent x : icoherent (str_env x).
Proof. intros w q v H. simpl in *. apply bool_decide_eq_true in H as [H1 H2]. destruct q, v; simpl in *; subst. apply str_refl. Qed.
Lemma str_zst x : zst_eq (str_env x).
Proof.
  intros u v Hz Ht Hm. unfold is_zst in Hz. simpl in *. apply Nat.eqb_eq in Hz. rewrite Hz in Hm.
  apply str_eqb_spec. split; [by destruct (s_ty u), (s_ty v)|].
  destruct (s_bytes u); [|done]. destruct (s_bytes v); [|done]. by destruct (decide _).
Qed.
Lemma str_tlawful x : ArcSpec.lawful (str_tyenv x).
Proof.
  constructor; simpl; eauto using str_refl, str_sym, str_trans, str_hash_eq.
  intros u v [-> _]%str_eqb_spec. done.
Qed.
Definition gives (v : str) (o : iop str str) : Prop := o = ONew v \/ o = OVia v \/ o = OBox v.
Lemma gives_asks x v o d : gives v o -> asks (str_env x) o d -> str_eqb d v = true.
Proof. intros [->|[->| ->]] [_ H]; done. Qed.
Lemma eq_bytes u v : str_eqb u v = true -> s_ty v <> TPath -> s_bytes u = s_bytes v.
Proof. rewrite str_eqb_spec. intros [-> H] Hn. by rewrite decide_False in H. Qed.
Lemma eq_path u v : str_eqb u v = true -> s_ty v = TPath -> same_path (s_bytes u) (s_bytes v).
Proof. rewrite str_eqb_spec. intros [-> H] Hn. rewrite decide_True in H by done. by apply comps_iff. Qed.

Notation dummy := (FOpts 32 FNone false false false None).
Lemma view_spell {P} (rd : P -> option str) to p b :
  fmt_value rd (λ _ d, comps (s_bytes d)) dummy p = Some (comps b) ->
  exists c, view rd to p = Some (Str to c) /\ same_path c b.
Proof.
  unfold fmt_value, view. destruct (rd p) as [d|]; [|done]. cbn [fmap option_fmap option_map]. intros H. exists (s_bytes d). split; [done|].
  apply comps_iff. by apply (inj Some).
Qed.
Lemma view_eq {P} (rd : P -> option str) to p q u v : rd p = Some u -> rd q = Some v -> s_ty u = s_ty v -> s_ty v <> TPath ->
  (str_eqb u v = true <-> view rd to p = view rd to q).
Proof.
  unfold view. intros -> -> Ht Hn. simpl. rewrite str_eqb_spec. rewrite decide_False by congruence.
  split; [by intros [_ ->]|]. by intros [= H].
Qed.
Lemma view_same {P} (rd : P -> option str) to p q u v : rd p = Some u -> rd q = Some v -> s_ty u = TPath -> s_ty v = TPath ->
  (str_eqb u v = true <-> exists b c, view rd to p = Some (Str to b) /\ view rd to q = Some (Str to c) /\ same_path b c).
Proof.
  unfold view. intros -> -> Hu Hv. simpl. rewrite str_eqb_spec. rewrite decide_True by done. rewrite comps_iff. split.
  - intros [_ H]. eauto.
  - intros (b&c&[= <-]&[= <-]&H). split; [congruence|done].
Qed.
Lemma gives_ty x v o : gives v o -> op_ty (str_env x) o = text_no (s_ty v).
Proof. by intros [->|[->| ->]]. Qed.

Theorem path_eq a b : str_eqb (Str TPath a) (Str TPath b) = true <-> same_path a b.
Proof. rewrite str_eqb_spec. simpl. rewrite comps_iff. tauto. Qed.

Lemma supplied x o d : supplies (str_env x) o d -> o = ONew d \/ o = OVia d \/ o = OBox d \/ exists ty w, o = ORef ty w d.
Proof.
  destruct o as [v|v|v|ty w q| | |]; simpl; intros H; subst; auto; [|done..].
  destruct H as [_ H]. apply bool_decide_eq_true in H as [H1 H2]. destruct d, q; simpl in *; subst. eauto 6.
Qed.

Section intern.
  Context (x : os).
  Notation E := (str_env x).
  Theorem intern_text ls1 ls2 st1 st2 t o p v to : run (istep E) iinit ls1 = Some st1 -> EvRet t o (RPtr p) ∈ i_log st1 ->
    gives v o -> s_ty v <> TPath -> run (istep E) st1 ls2 = Some st2 -> view (iread st2) to p = Some (Str to (s_bytes v)).
  Proof.
    intros Hr1 Hin Hg Hn Hr2.
    apply (intern_shows E (λ _ d, Str to (s_bytes d)) dummy (Str to (s_bytes v)) ls1 ls2 st1 st2 t o p (str_lawful x) (str_coherent x) Hr1 Hin Hr2).
    intros d Hd. f_equal. by apply eq_bytes; [by eapply gives_asks|].
  Qed.
  Theorem intern_path ls1 ls2 st1 st2 t o p v to : run (istep E) iinit ls1 = Some st1 -> EvRet t o (RPtr p) ∈ i_log st1 ->
    gives v o -> s_ty v = TPath -> run (istep E) st1 ls2 = Some st2 ->
    exists b, view (iread st2) to p = Some (Str to b) /\ same_path b (s_bytes v).
  Proof.
    intros Hr1 Hin Hg Hn Hr2. apply view_spell.
    apply (intern_shows E (λ _ d, comps (s_bytes d)) dummy (comps (s_bytes v)) ls1 ls2 st1 st2 t o p (str_lawful x) (str_coherent x) Hr1 Hin Hr2).
    intros d Hd. apply comps_iff. by apply eq_path; [by eapply gives_asks|].
  Qed.
  Lemma intern_kind ls st t o p v : run (istep E) iinit ls = Some st -> EvRet t o (RPtr p) ∈ i_log st -> gives v o ->
    exists d, iread st p = Some d /\ s_ty d = s_ty v.
  Proof.
    intros Hr Hin Hg. destruct (handle_valid E ls [] st st t o p Hr Hin eq_refl) as (d&Ht&_&Hd&_).
    exists d. unfold iread. rewrite Hd. split; [done|]. rewrite (gives_ty x v o Hg) in Ht. simpl in Ht.
    by destruct (s_ty d), (s_ty v).
  Qed.
  Theorem intern_views ls st t1 o1 p1 v1 t2 o2 p2 v2 to : no_clear ls -> run (istep E) iinit ls = Some st ->
    EvRet t1 o1 (RPtr p1) ∈ i_log st -> gives v1 o1 -> EvRet t2 o2 (RPtr p2) ∈ i_log st -> gives v2 o2 -> s_ty v1 = s_ty v2 ->
    (s_ty v1 <> TPath -> (iptr_eqb p1 p2 = true <-> view (iread st) to p1 = view (iread st) to p2)) /\
    (s_ty v1 = TPath -> (iptr_eqb p1 p2 = true <->
       exists b c, view (iread st) to p1 = Some (Str to b) /\ view (iread st) to p2 = Some (Str to c) /\ same_path b c)).
  Proof.
    intros Hnc Hr H1 G1 H2 G2 Ht.
    destruct (intern_kind _ _ _ _ _ _ Hr H1 G1) as (d1&R1&T1). destruct (intern_kind _ _ _ _ _ _ Hr H2 G2) as (d2&R2&T2).
    assert (op_ty E o1 = op_ty E o2) as Hty. { rewrite (gives_ty x _ _ G1), (gives_ty x _ _ G2). by rewrite Ht. }
    rewrite (handles_eq E ls st t1 o1 p1 t2 o2 p2 d1 d2 (str_lawful x) (str_coherent x) (str_zst x) Hnc Hr H1 H2 Hty R1 R2).
    split; intros Hk; [apply view_eq|apply view_same]; congruence.
  Qed.
  Theorem intern_fixed ls1 ls2 st1 st2 t o p to : run (istep E) iinit ls1 = Some st1 -> EvRet t o (RPtr p) ∈ i_log st1 ->
    run (istep E) st1 ls2 = Some st2 -> exists w, view (iread st1) to p = Some w /\ view (iread st2) to p = Some w.
  Proof.
    intros Hr1 Hin Hr2. destruct (intern_shows_always E (λ _ d, Str to (s_bytes d)) dummy ls1 ls2 st1 st2 t o p Hr1 Hin Hr2) as (v&H1&H2).
    exists (Str to (s_bytes v)). split; [unfold view; by rewrite H1|exact H2].
  Qed.
  Theorem intern_first ls st t o p to : no_clear ls -> run (istep E) iinit ls = Some st -> EvRet t o (RPtr p) ∈ i_log st ->
    exists t0 o0 d l1 l2, i_log st = l1 ++ EvIns t0 o0 p d :: l2 /\
      (o0 = ONew d \/ o0 = OVia d \/ o0 = OBox d \/ exists ty w, o0 = ORef ty w d) /\
      view (iread st) to p = Some (Str to (s_bytes d)) /\
      forall t' o' p' d', EvIns t' o' p' d' ∈ l1 ++ l2 -> op_ty E o' = op_ty E o -> str_eqb d' d = false.
  Proof.
    intros Hnc Hr Hin. destruct (intern_shows_always E (λ _ d, Str to (s_bytes d)) dummy ls [] st st t o p Hr Hin eq_refl) as (d&Hd&H2).
    destruct (one_insertion E ls st t o p d (str_lawful x) (str_coherent x) Hnc Hr Hin Hd) as (t0&o0&l1&l2&Hl&_&Hs&Hu).
    exists t0, o0, d, l1, l2. split_and!; [done| |exact H2|exact Hu]. by apply (supplied x).
  Qed.
  Theorem intern_same ls st t1 o1 p1 v1 t2 o2 p2 v2 : no_clear ls -> run (istep E) iinit ls = Some st ->
    EvRet t1 o1 (RPtr p1) ∈ i_log st -> gives v1 o1 -> EvRet t2 o2 (RPtr p2) ∈ i_log st -> gives v2 o2 -> s_ty v1 = s_ty v2 ->
    (s_ty v1 <> TPath -> (iptr_eqb p1 p2 = true <-> s_bytes v1 = s_bytes v2)) /\
    (s_ty v1 = TPath -> (iptr_eqb p1 p2 = true <-> same_path (s_bytes v1) (s_bytes v2))).
  Proof.
    intros Hnc Hr H1 G1 H2 G2 Ht. destruct (intern_views ls st t1 o1 p1 v1 t2 o2 p2 v2 TOs Hnc Hr H1 G1 H2 G2 Ht) as [A B].
    split; intros Hk.
    - rewrite (A Hk), (intern_text ls [] st st t1 o1 p1 v1 TOs Hr H1 G1 Hk eq_refl),
        (intern_text ls [] st st t2 o2 p2 v2 TOs Hr H2 G2 ltac:(congruence) eq_refl).
      split; [by intros [= ->]|by intros ->].
    - rewrite (B Hk).
      destruct (intern_path ls [] st st t1 o1 p1 v1 TOs Hr H1 G1 Hk eq_refl) as (b1&V1&S1).
      destruct (intern_path ls [] st st t2 o2 p2 v2 TOs Hr H2 G2 ltac:(congruence) eq_refl) as (b2&V2&S2).
      rewrite V1, V2. split.
      + intros (b&c&[= <-]&[= <-]&H). exact (sp_trans _ _ _ (sp_sym _ _ S1) (sp_trans _ _ _ H S2)).
      + intros H. exists b1, b2. split_and!; [done|done|]. exact (sp_trans _ _ _ S1 (sp_trans _ _ _ H (sp_sym _ _ S2))).
  Qed.
End intern.

Section new.
  Context (x : os).
  Notation E := (str_env x).
  Theorem new_text ls1 ls2 s1 s2 t o p v to : run (nstep E) ninit ls1 = Some s1 -> EvRet t o (RPtr p) ∈ n_log s1 ->
    gives v o -> s_ty v <> TPath -> run (nstep E) s1 ls2 = Some s2 -> view (iread (nmem s2)) to p = Some (Str to (s_bytes v)).
  Proof.
    intros Hr1 Hin Hg Hn Hr2.
    apply (new_shows E (λ _ d, Str to (s_bytes d)) dummy (Str to (s_bytes v)) ls1 ls2 s1 s2 t o p (str_lawful x) (str_coherent x) Hr1 Hin Hr2).
    intros d Hd. f_equal. by apply eq_bytes; [by eapply gives_asks|].
  Qed.
  Theorem new_path ls1 ls2 s1 s2 t o p v to : run (nstep E) ninit ls1 = Some s1 -> EvRet t o (RPtr p) ∈ n_log s1 ->
    gives v o -> s_ty v = TPath -> run (nstep E) s1 ls2 = Some s2 ->
    exists b, view (iread (nmem s2)) to p = Some (Str to b) /\ same_path b (s_bytes v).
  Proof.
    intros Hr1 Hin Hg Hn Hr2. apply view_spell.
    apply (new_shows E (λ _ d, comps (s_bytes d)) dummy (comps (s_bytes v)) ls1 ls2 s1 s2 t o p (str_lawful x) (str_coherent x) Hr1 Hin Hr2).
    intros d Hd. apply comps_iff. by apply eq_path; [by eapply gives_asks|].
  Qed.
  Lemma new_kind ls s t o p v : run (nstep E) ninit ls = Some s -> EvRet t o (RPtr p) ∈ n_log s -> gives v o ->
    exists d, iread (nmem s) p = Some d /\ s_ty d = s_ty v.
  Proof.
    intros Hr Hin Hg. destruct (n_handle_valid E ls [] s s t o p Hr Hin eq_refl) as (d&Ht&_&Hd&_).
    exists d. unfold iread. simpl. rewrite Hd. split; [done|]. rewrite (gives_ty x v o Hg) in Ht. simpl in Ht.
    by destruct (s_ty d), (s_ty v).
  Qed.
  Theorem new_views ls s t1 o1 p1 v1 t2 o2 p2 v2 to : no_clear ls -> run (nstep E) ninit ls = Some s ->
    EvRet t1 o1 (RPtr p1) ∈ n_log s -> gives v1 o1 -> EvRet t2 o2 (RPtr p2) ∈ n_log s -> gives v2 o2 -> s_ty v1 = s_ty v2 ->
    (s_ty v1 <> TPath -> (iptr_eqb p1 p2 = true <-> view (iread (nmem s)) to p1 = view (iread (nmem s)) to p2)) /\
    (s_ty v1 = TPath -> (iptr_eqb p1 p2 = true <->
       exists b c, view (iread (nmem s)) to p1 = Some (Str to b) /\ view (iread (nmem s)) to p2 = Some (Str to c) /\ same_path b c)).
  Proof.
    intros Hnc Hr H1 G1 H2 G2 Ht.
    destruct (new_kind _ _ _ _ _ _ Hr H1 G1) as (d1&R1&T1). destruct (new_kind _ _ _ _ _ _ Hr H2 G2) as (d2&R2&T2).
    assert (op_ty E o1 = op_ty E o2) as Hty. { rewrite (gives_ty x _ _ G1), (gives_ty x _ _ G2). by rewrite Ht. }
    rewrite (n_unique E ls s t1 o1 p1 t2 o2 p2 d1 d2 (str_lawful x) (str_coherent x) (str_zst x) Hnc Hr H1 H2 Hty R1 R2).
    split; intros Hk; [apply view_eq|apply view_same]; congruence.
  Qed.
  Theorem new_fixed ls1 ls2 s1 s2 t o p to : run (nstep E) ninit ls1 = Some s1 -> EvRet t o (RPtr p) ∈ n_log s1 ->
    run (nstep E) s1 ls2 = Some s2 -> exists w, view (iread (nmem s1)) to p = Some w /\ view (iread (nmem s2)) to p = Some w.
  Proof.
    intros Hr1 Hin Hr2. destruct (new_shows_always E (λ _ d, Str to (s_bytes d)) dummy ls1 ls2 s1 s2 t o p Hr1 Hin Hr2) as (v&H1&H2).
    exists (Str to (s_bytes v)). split; [unfold view; by rewrite H1|exact H2].
  Qed.
  Theorem new_first ls s t o p to : no_clear ls -> run (nstep E) ninit ls = Some s -> EvRet t o (RPtr p) ∈ n_log s ->
    exists t0 o0 d l1 l2, n_log s = l1 ++ EvIns t0 o0 p d :: l2 /\
      (o0 = ONew d \/ o0 = OVia d \/ o0 = OBox d \/ exists ty w, o0 = ORef ty w d) /\
      view (iread (nmem s)) to p = Some (Str to (s_bytes d)) /\
      forall t' o' p' d', EvIns t' o' p' d' ∈ l1 ++ l2 -> op_ty E o' = op_ty E o -> str_eqb d' d = false.
  Proof.
    intros Hnc Hr Hin. destruct (new_shows_always E (λ _ d, Str to (s_bytes d)) dummy ls [] s s t o p Hr Hin eq_refl) as (d&Hd&H2).
    destruct (n_one_insertion E ls s t o p d (str_lawful x) (str_coherent x) Hnc Hr Hin Hd) as (t0&o0&l1&l2&Hl&_&Hs&Hu).
    exists t0, o0, d, l1, l2. split_and!; [done| |exact H2|exact Hu]. by apply (supplied x).
  Qed.
  Theorem new_same ls s t1 o1 p1 v1 t2 o2 p2 v2 : no_clear ls -> run (nstep E) ninit ls = Some s ->
    EvRet t1 o1 (RPtr p1) ∈ n_log s -> gives v1 o1 -> EvRet t2 o2 (RPtr p2) ∈ n_log s -> gives v2 o2 -> s_ty v1 = s_ty v2 ->
    (s_ty v1 <> TPath -> (iptr_eqb p1 p2 = true <-> s_bytes v1 = s_bytes v2)) /\
    (s_ty v1 = TPath -> (iptr_eqb p1 p2 = true <-> same_path (s_bytes v1) (s_bytes v2))).
  Proof.
    intros Hnc Hr H1 G1 H2 G2 Ht. destruct (new_views ls s t1 o1 p1 v1 t2 o2 p2 v2 TOs Hnc Hr H1 G1 H2 G2 Ht) as [A B].
    split; intros Hk.
    - rewrite (A Hk), (new_text ls [] s s t1 o1 p1 v1 TOs Hr H1 G1 Hk eq_refl),
        (new_text ls [] s s t2 o2 p2 v2 TOs Hr H2 G2 ltac:(congruence) eq_refl).
      split; [by intros [= ->]|by intros ->].
    - rewrite (B Hk).
      destruct (new_path ls [] s s t1 o1 p1 v1 TOs Hr H1 G1 Hk eq_refl) as (b1&V1&S1).
      destruct (new_path ls [] s s t2 o2 p2 v2 TOs Hr H2 G2 ltac:(congruence) eq_refl) as (b2&V2&S2).
      rewrite V1, V2. split.
      + intros (b&c&[= <-]&[= <-]&H). exact (sp_trans _ _ _ (sp_sym _ _ S1) (sp_trans _ _ _ H S2)).
      + intros H. exists b1, b2. split_and!; [done|done|]. exact (sp_trans _ _ _ S1 (sp_trans _ _ _ H (sp_sym _ _ S2))).
  Qed.
End new.

Section arc.
  Import ArcModel ArcSpec ArcFinal.
  Context (x : os) (Hw : (2 <= os_usize x)%N).
  Notation E := (str_tyenv x).
  Theorem arc_text ls st t v p to : bounded E ls -> run (step E) init ls = Some st -> EvNew t v p ∈ st_log st -> alive E st p ->
    s_ty v <> TPath -> view (data st) to p = Some (Str to (s_bytes v)).
  Proof.
    intros Hb Hr Hin Hp Hn.
    apply (arc_shows E (str_tlawful x) Hw (λ _ d, Str to (s_bytes d)) dummy (Str to (s_bytes v)) ls st t v p Hb Hr Hin Hp).
    intros d Hd%str_sym. f_equal. by apply eq_bytes.
  Qed.
  Theorem arc_path ls st t v p to : bounded E ls -> run (step E) init ls = Some st -> EvNew t v p ∈ st_log st -> alive E st p ->
    s_ty v = TPath -> exists b, view (data st) to p = Some (Str to b) /\ same_path b (s_bytes v).
  Proof.
    intros Hb Hr Hin Hp Hn. apply view_spell.
    apply (arc_shows E (str_tlawful x) Hw (λ _ d, comps (s_bytes d)) dummy (comps (s_bytes v)) ls st t v p Hb Hr Hin Hp).
    intros d Hd%str_sym. apply comps_iff. by apply eq_path.
  Qed.
  Theorem arc_views ls st t1 v1 p1 t2 v2 p2 to : bounded E ls -> run (step E) init ls = Some st ->
    EvNew t1 v1 p1 ∈ st_log st -> alive E st p1 -> EvNew t2 v2 p2 ∈ st_log st -> alive E st p2 -> s_ty v1 = s_ty v2 ->
    (s_ty v1 <> TPath -> (handle_eqb p1 p2 = true <-> view (data st) to p1 = view (data st) to p2)) /\
    (s_ty v1 = TPath -> (handle_eqb p1 p2 = true <->
       exists b c, view (data st) to p1 = Some (Str to b) /\ view (data st) to p2 = Some (Str to c) /\ same_path b c)).
  Proof.
    intros Hb Hr H1 A1 H2 A2 Ht.
    destruct (new_reads E (str_tlawful x) Hw ls st t1 _ p1 Hb Hr H1 A1) as (d1&R1&T1).
    destruct (new_reads E (str_tlawful x) Hw ls st t2 _ p2 Hb Hr H2 A2) as (d2&R2&T2).
    destruct (handles_eq_iff E (str_tlawful x) Hw ls st p1 p2 Hb Hr A1 A2) as (u&v&Hu&Hv&He).
    assert (handle_eqb p1 p2 = true <-> str_eqb d1 d2 = true) as ->.
    { rewrite R1 in Hu. rewrite R2 in Hv. injection Hu as <-. injection Hv as <-. by rewrite He. }
    apply str_eqb_spec in T1 as [T1 _], T2 as [T2 _].
    split; intros Hk; [apply view_eq|apply view_same]; congruence.
  Qed.
  Theorem arc_fixed ls1 ls2 st1 st2 p to : bounded E (ls1 ++ ls2) -> run (step E) init ls1 = Some st1 -> run (step E) st1 ls2 = Some st2 ->
    alive E st1 p -> alive E st2 p -> exists w, view (data st1) to p = Some w /\ view (data st2) to p = Some w.
  Proof.
    intros Hb Hr1 Hr2 H1 H2.
    destruct (arc_shows_always E (str_tlawful x) Hw (λ _ d, Str to (s_bytes d)) dummy ls1 ls2 st1 st2 p Hb Hr1 Hr2 H1 H2) as (v&D1&D2).
    exists (Str to (s_bytes v)). split; [unfold view; by rewrite D1|exact D2].
  Qed.
End arc.

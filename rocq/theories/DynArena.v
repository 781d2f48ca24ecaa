(** The same for [Arena]; the values come from [intern_ref], the only call there is for trait objects. *)
From stdpp Require Import gmap list numbers.
From Verif Require Import Base InternModel InternSpec ArenaModel DynIntern.

Section dyn.
  Context {V Q : Type} (E : ienv V Q).
  Implicit Types (st : astate V Q) (p : iptr) (q : Q).

  (** No entry is equal to [u], nor to the key [q] of form [w]. *)
  Definition afar st u w (q : Q) (s : list iptr) : Prop :=
    Forall (λ p, exists d, a_read st p = Some d /\ ie_qeq E (ie_borrow E w d) q = false /\ ie_eq E u d = false) s.
  Lemma afar_readable st u w q s : afar st u w q s -> a_readable st s = true.
  Proof. induction 1 as [|p s (d&Hd&_) _ IH]; [done|]. cbn [a_readable forallb]. by rewrite Hd. Qed.
  Lemma afar_key st u w q s : afar st u w q s -> a_cands st (a_match E (ARef w q)) s = [].
  Proof.
    induction 1 as [|p s (d&Hd&H1&H2) _ IH]; [done|]. unfold a_cands in *. cbn [List.filter]. rewrite Hd. cbn [a_match].
    by rewrite H1, andb_false_r.
  Qed.
  Lemma afar_ins st u w q s : afar st u w q s -> a_cands st (ins_match E u) s = [].
  Proof.
    induction 1 as [|p s (d&Hd&H1&H2) _ IH]; [done|]. unfold a_cands in *. cbn [List.filter]. rewrite Hd. unfold ins_match at 1.
    by rewrite H2, andb_false_r.
  Qed.

  Definition aref t r w q u : list (alabel V Q) :=
    [LCall t r (ARef w q) 0; LStep t 0 0; LStep t 0 0; LConv t u] ++ replicate 5 (LStep t 0 0).
  Lemma aref_run st t r w q u x :
    is_zst E u = true -> ie_from E w q u = true ->
    a_stack st t = [] -> a_locks st !! r = None -> a_arenas st !! r = Some x -> ar_ty x = ie_ty E u ->
    afar st u w q (ar_set x) -> (forall p, p ∈ ar_set x -> ip_ser p <> a_next st) ->
    let p := zptr E u (a_next st) in
    exists st', run (astep E) st (aref t r w q u) = Some st' /\ a_next st' = S (a_next st) /\ a_stack st' t = [] /\
      a_locks st' !! r = None /\ a_arenas st' !! r = Some (Ar (ar_ty x) (p :: ar_set x)) /\
      a_objs st' = <[a_next st := AObj (ie_dangle E (ie_ty E u) (ie_meta E u)) u]> (a_objs st) /\
      a_log st' = AvRet t r (ARef w q) None (AP p) :: AvIns t r (ARef w q) p u :: a_log st.
  Proof.
    intros Hz Hfr Hk Hl Hx Hxt Hf Hn p. set (b := AObj (ie_dangle E (ie_ty E u) (ie_meta E u)) u).
    set (objs := <[a_next st := b]> (a_objs st)). set (o := ARef w q : aop V Q).
    set (A := a_set_stack st t [AWait r o None]).
    set (B := a_set_stack (a_lock A r t) t [AGet r o None]).
    set (B1 := a_set_stack B t [AConv r w q]).
    set (B2 := a_set_stack B1 t [AStore r o u None]).
    set (C := AState objs (a_arenas st) (a_locks B) (a_poison st) (<[t:=[AIns r o None p]]> (a_threads B2)) (S (a_next st)) (a_nextr st) (a_log st)).
    set (D := a_set_stack (a_event (a_put C (<[r := Ar (ar_ty x) (p :: ar_set x)]> (a_arenas st))) (AvIns t r o p u)) t [AMake r o None p]).
    set (F := a_set_stack D t [ARel r o None false (AP p)]).
    set (G := a_set_stack (a_unlock F r false) t [AArg r o None false (AP p)]).
    set (H := a_event (a_set_stack G t []) (AvRet t r o None (AP p))).
    assert (forall (s : astate V Q) k, a_stack (a_set_stack s t k) t = k) as Hst.
    { intros s k. unfold a_stack. cbn [a_threads a_set_stack]. by rewrite lookup_insert. }
    assert (forall s1 : astate V Q, a_objs s1 = objs -> afar s1 u w q (ar_set x)) as Hrd.
    { intros s1 H1. apply list.Forall_forall. intros q' Hq. pose proof (proj1 (list.Forall_forall _ _) Hf q' Hq) as (d&Hd&H3). exists d.
      split; [|done]. unfold a_read in *. rewrite H1. unfold objs. by rewrite lookup_insert_ne by (pose proof (Hn q' Hq); done). }
    assert (forall s1 : astate V Q, a_objs s1 = objs -> a_read s1 p = Some u) as Hp.
    { intros s1 H1. unfold a_read. rewrite H1. unfold objs. cbn [ip_ser p zptr]. by rewrite lookup_insert. }
    exists H. split.
    { unfold aref. cbn [replicate app].
      eapply (run_step _ _ _ A).
      { cbn [astep]. rewrite Hx. unfold a_ready. rewrite Hk. done. }
      eapply (run_step _ _ _ B).
      { cbn [astep]. unfold a_step_thread. unfold A at 1. rewrite Hst. cbn [a_locks A a_set_stack]. by rewrite Hl. }
      eapply (run_step _ _ _ B1).
      { cbn [astep]. unfold a_step_thread. unfold B at 1. rewrite Hst. unfold a_set. change (a_arenas B) with (a_arenas st). rewrite Hx.
        assert (afar B u w q (ar_set x)) as HB by exact Hf.
        rewrite (afar_readable B u w q (ar_set x)) by done. unfold o at 1. rewrite (afar_key B u w q (ar_set x)) by done. done. }
      eapply (run_step _ _ _ B2).
      { cbn [astep]. unfold B1 at 1. rewrite Hst. change (a_arenas B1) with (a_arenas st). rewrite Hx, Hfr. cbn [fmap option_fmap option_map].
        rewrite bool_decide_eq_true_2 by congruence. done. }
      eapply (run_step _ _ _ C).
      { cbn [astep]. unfold a_step_thread. unfold B2 at 1. rewrite Hst. unfold a_alloc. rewrite Hz. done. }
      eapply (run_step _ _ _ D).
      { cbn [astep]. unfold a_step_thread, a_stack at 1. cbn [a_threads C]. rewrite lookup_insert. cbn [default from_option id].
        rewrite Hp by done. change (a_arenas C) with (a_arenas st). rewrite Hx.
        rewrite (afar_readable C u w q (ar_set x)), (afar_ins C u w q (ar_set x)) by (by apply Hrd). done. }
      eapply (run_step _ _ _ F).
      { cbn [astep]. unfold a_step_thread. unfold D at 1. rewrite Hst. by rewrite Hp by done. }
      eapply (run_step _ _ _ G).
      { cbn [astep]. unfold a_step_thread. unfold F at 1. by rewrite Hst. }
      eapply (run_step _ _ _ H); [|done].
      cbn [astep]. unfold a_step_thread. unfold G at 1. by rewrite Hst. }
    split_and!.
    - done.
    - apply (Hst G []).
    - cbn [H G a_locks a_event a_set_stack a_unlock]. apply lookup_delete.
    - cbn [H G F D a_arenas a_event a_set_stack a_unlock a_put]. apply lookup_insert.
    - done.
    - done.
  Qed.

  Lemma aref_two u v w q w' q' :
    ilawful E -> icoherent E -> ie_ty E u = ie_ty E v -> ie_meta E u = ie_meta E v -> is_zst E u = true -> ie_eq E u v = false ->
    ie_from E w q u = true -> ie_from E w' q' v = true ->
    exists st p p' x, run (astep E) ainit (LArena 0 (ie_ty E u) :: aref 0 0 w q u ++ aref 0 0 w' q' v) = Some st /\
      AvRet 0 0 (ARef w q) None (AP p) ∈ a_log st /\ AvRet 0 0 (ARef w' q') None (AP p') ∈ a_log st /\
      a_arenas st !! 0 = Some x /\ ar_ty x = ie_ty E u /\
      a_read st p = Some u /\ a_read st p' = Some v /\ iptr_eqb p p' = true.
  Proof.
    intros HL HC Hty Hm Hz He Hf Hf'.
    set (s0 := AState ∅ (<[0 := Ar (ie_ty E u) []]> ∅) ∅ ∅ ∅ 0 1 [AvNew 0 (ie_ty E u)] : astate V Q).
    destruct (aref_run s0 0 0 w q u (Ar (ie_ty E u) [])) as (s1&Hr1&Hn1&Hk1&Hl1&Hs1&Ho1&Hg1);
      [done|done|done|done|apply lookup_insert|done|by apply Forall_nil|by intros ? ?%elem_of_nil|].
    cbn [ar_ty ar_set] in Hs1.
    destruct (aref_run s1 0 0 w' q' v (Ar (ie_ty E u) [zptr E u 0])) as (s2&Hr2&Hn2&Hk2&Hl2&Hs2&Ho2&Hg2).
    - unfold is_zst in *. by rewrite <- Hty, <- Hm.
    - done.
    - done.
    - done.
    - exact Hs1.
    - done.
    - cbn [ar_set]. constructor; [|constructor]. exists u. unfold a_read. rewrite Ho1. cbn [ip_ser zptr]. rewrite lookup_insert.
      split_and!; [done| |].
      + destruct (ie_qeq E (ie_borrow E w' u) q') eqn:H; [|done]. exfalso. pose proof (HC _ _ _ Hf') as Hq. apply (il_qsym _ HL) in Hq.
        pose proof (il_qtrans _ HL _ _ _ H Hq) as H1. rewrite (il_borrow_eq _ HL) in H1 by done. congruence.
      + destruct (ie_eq E v u) eqn:H; [|done]. apply (il_sym _ HL) in H. congruence.
    - cbn [ar_set]. rewrite Hn1. intros p ->%elem_of_list_singleton. cbn [ip_ser zptr]. done.
    - rewrite Hn1 in *. cbn [a_next s0] in *. eexists s2, (zptr E u 0), (zptr E v 1), _. split_and!.
      + eapply (run_step _ _ _ s0); [done|]. by rewrite run_app, Hr1.
      + rewrite Hg2, Hg1. do 2 right. left.
      + rewrite Hg2. left.
      + exact Hs2.
      + done.
      + unfold a_read. rewrite Ho2, Ho1. cbn [ip_ser zptr]. rewrite lookup_insert_ne by done. by rewrite lookup_insert.
      + unfold a_read. rewrite Ho2. cbn [ip_ser zptr]. by rewrite lookup_insert.
      + unfold iptr_eqb, zptr. cbn [ip_addr ip_meta]. by rewrite Hty, Hm, !Nat.eqb_refl.
  Qed.
End dyn.

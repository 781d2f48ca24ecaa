(** The same for the experimental [Intern] of typearena.rs. *)
From stdpp Require Import gmap list numbers.
From Verif Require Import Base InternModel InternSpec NewModel DynIntern.

Section dyn.
  Context {V Q : Type} (E : ienv V Q).
  Implicit Types (s : nstate V Q) (p q : iptr).

  Definition nbox t u : list (ilabel V Q) := ICall t (OBox u) 0 :: replicate 5 (IStep t 0 0).

  Lemma nbox_run s t u i :
    let ty := ie_ty E u in let x := (slot E ty, i) in
    is_zst E u = true -> nstack s t = [] -> find_ty ty (nvec s (slot E ty)) = Some i ->
    n_locks s !! x = None -> x ∉ n_poison s ->
    far E (nmem s) u (nset s x) -> (forall q, q ∈ nset s x -> ip_ser q <> n_next s) ->
    exists s', run (nstep E) s (nbox t u) = Some s' /\ n_next s' = S (n_next s) /\ nstack s' t = [] /\
      n_vecs s' = n_vecs s /\ n_poison s' = n_poison s /\ n_locks s' !! x = None /\
      nset s' x = zptr E u (n_next s) :: nset s x /\
      n_objs s' = <[n_next s := IObj (ie_dangle E ty (ie_meta E u)) u true]> (n_objs s) /\
      n_log s' = EvRet t (OBox u) (RPtr (zptr E u (n_next s))) :: EvIns t (OBox u) (zptr E u (n_next s)) u :: n_log s.
  Proof.
    intros ty x Hz Hk Hi Hl Hp Hf Hn. set (p := zptr E u (n_next s)).
    set (b := IObj (ie_dangle E ty (ie_meta E u)) u). set (objs := n_objs s). set (ps := nset s x).
    set (A := NState (<[n_next s := b false]> objs) (n_vecs s) (n_resv s) (n_sets s) (n_locks s) (n_poison s)
                (<[t:=[NScan (OBox u) (Some p) false]]> (n_threads s)) (S (n_next s)) (n_log s)).
    set (B := nset_stack A t [NLock (OBox u) (Some p) i]).
    set (C := nset_stack (nlock B x t) t [NIn i (FGet (OBox u) (Some p))]).
    set (D := NState (<[n_next s := b true]> (n_objs A)) (n_vecs s) (n_resv s) (n_sets s) (n_locks C) (n_poison s)
                (<[t:=[NIn i (FIns (OBox u) p)]]> (n_threads C)) (S (n_next s)) (n_log s)).
    set (F := nset_stack (nevent (nput D x (p :: ps)) (EvIns t (OBox u) p u)) t [NIn i (FDone (OBox u) (RPtr p))]).
    set (G := nevent (nset_stack (nunlock F x false) t []) (EvRet t (OBox u) (RPtr p))).
    assert (forall s1 b', n_objs s1 = <[n_next s := b b']> objs \/ n_objs s1 = <[n_next s := b b']> (<[n_next s := b false]> objs) ->
      far E (nmem s1) u ps) as Hrd.
    { intros s1 b' H1. eapply far_mono; [exact Hf|]. intros q Hq. pose proof (Hn q Hq). unfold iread. cbn [i_objs nmem].
      destruct H1 as [-> | ->]; by rewrite ?lookup_insert_ne by done. }
    exists G. split.
    { unfold nbox. cbn [replicate].
      eapply (run_step _ _ _ A).
      { cbn [nstep]. rewrite Hk. unfold ialloc. rewrite Hz. done. }
      eapply (run_step _ _ _ B).
      { cbn [nstep]. unfold nstep_thread, nstack at 1. cbn [n_threads A]. rewrite lookup_insert. cbn [default from_option id op_ty].
        change (nvec A (slot E (ie_ty E u))) with (nvec s (slot E ty)). fold ty. rewrite Hi. done. }
      eapply (run_step _ _ _ C).
      { cbn [nstep]. unfold nstep_thread, nstack at 1. cbn [n_threads B nset_stack]. rewrite lookup_insert. cbn [default from_option id op_ty].
        fold ty. fold x. change (n_locks B) with (n_locks s). rewrite Hl. change (n_poison B) with (n_poison s).
        rewrite bool_decide_eq_false_2 by done. done. }
      eapply (run_step _ _ _ D).
      { cbn [nstep]. unfold nstep_thread, nstack at 1. cbn [n_threads C nset_stack]. rewrite lookup_insert. cbn [default from_option id op_ty].
        fold ty. fold x. change (nset C x) with ps. assert (far E (nmem C) u ps) as HC by (apply (Hrd C false); by left).
        rewrite (far_readable E _ _ _ HC), (far_key E _ _ _ HC). cbn [ipick nth_error head].
        unfold ileak. cbn [i_objs nmem n_objs C B A ip_ser p zptr nset_stack nlock]. rewrite lookup_insert. done. }
      eapply (run_step _ _ _ F).
      { cbn [nstep]. unfold nstep_thread, nstack at 1. cbn [n_threads D]. rewrite lookup_insert. cbn [default from_option id op_ty].
        fold ty. fold x. change (nset D x) with ps. assert (far E (nmem D) u ps) as HD by (apply (Hrd D true); by right).
        unfold iread at 1. cbn [i_objs nmem n_objs D ip_ser p zptr]. rewrite lookup_insert. cbn [fmap option_fmap option_map io_val b].
        rewrite (far_readable E _ _ _ HD), (far_ins E _ _ _ HD). done. }
      eapply (run_step _ _ _ G); [|done].
      cbn [nstep]. unfold nstep_thread, nstack at 1. cbn [n_threads F nset_stack]. rewrite lookup_insert. done. }
    split_and!.
    - done.
    - unfold nstack. cbn [G n_threads nevent nset_stack]. by rewrite lookup_insert.
    - done.
    - done.
    - cbn [G n_locks nevent nset_stack nunlock]. apply lookup_delete.
    - unfold nset. cbn [G F n_sets nevent nset_stack nunlock nput]. by rewrite lookup_insert.
    - cbn [G F D A n_objs nevent nset_stack nunlock nput]. by rewrite insert_insert.
    - done.
  Qed.

  (** The first call for a type creates its set. *)
  Definition nmake ty : list (ilabel V Q) := ICall 0 (OLen ty) 0 :: replicate 6 (IStep 0 0 0).
  Lemma nmake_run ty :
    exists s, run (nstep E) ninit (nmake ty) = Some s /\ nstack s 0 = [] /\ find_ty ty (nvec s (slot E ty)) = Some 0 /\
      n_locks s !! (slot E ty, 0) = None /\ n_poison s = ∅ /\ nset s (slot E ty, 0) = [] /\ n_next s = 0.
  Proof.
    set (c := slot E ty). set (o := OLen ty : iop V Q).
    set (A := nset_stack ninit 0 [NScan o None false]). set (B := nset_stack A 0 [NPush o None]).
    set (C := nset_stack (nreserve B c) 0 [NPub o None 0]). set (D := nset_stack (npublish C c ty) 0 [NScan o None true]).
    set (F := nset_stack D 0 [NLock o None 0]). set (G := nset_stack (nlock F (c, 0) 0) 0 [NIn 0 (FDone o (RNum 0))]).
    set (H := nevent (nset_stack (nunlock G (c, 0) false) 0 []) (EvRet 0 o (RNum 0))).
    assert (forall s k, nstack (nset_stack s 0 k) 0 = k) as Hst.
    { intros s k. unfold nstack. cbn [n_threads nset_stack]. by rewrite lookup_insert. }
    assert (nvec A c = []) as HA. { unfold nvec. cbn [n_vecs A nset_stack ninit]. by rewrite lookup_empty. }
    assert (nvec D c = [ty]) as HD.
    { unfold nvec. cbn [n_vecs D nset_stack npublish]. rewrite lookup_insert. cbn [default from_option id].
      change (nvec C c) with (nvec A c). by rewrite HA. }
    exists H. split.
    { unfold nmake. cbn [replicate].
      eapply (run_step _ _ _ A). { cbn [nstep]. done. }
      eapply (run_step _ _ _ B). { cbn [nstep]. unfold nstep_thread. unfold A at 1. rewrite Hst. cbn [op_ty o]. fold c. by rewrite HA. }
      eapply (run_step _ _ _ C). { cbn [nstep]. unfold nstep_thread. unfold B at 1. rewrite Hst. cbn [op_ty o]. fold c.
        assert (nresv B c = 0) as ->. { unfold nresv. cbn [n_resv B A nset_stack ninit]. by rewrite lookup_empty. } done. }
      eapply (run_step _ _ _ D). { cbn [nstep]. unfold nstep_thread. unfold C at 1. rewrite Hst. cbn [op_ty o]. fold c.
        change (nvec C c) with (nvec A c). by rewrite HA. }
      eapply (run_step _ _ _ F). { cbn [nstep]. unfold nstep_thread. unfold D at 1. rewrite Hst. cbn [op_ty o]. fold c.
        rewrite HD. cbn [find_ty]. by rewrite Nat.eqb_refl. }
      eapply (run_step _ _ _ G). { cbn [nstep]. unfold nstep_thread. unfold F at 1. rewrite Hst. cbn [op_ty o]. fold c.
        change (n_locks F) with (∅ : gmap loc nat). rewrite lookup_empty. change (n_poison F) with (∅ : gset loc).
        rewrite bool_decide_eq_false_2 by set_solver. change (nset F (c, 0)) with (default [] ((∅ : gmap loc (list iptr)) !! (c, 0))).
        by rewrite lookup_empty. }
      eapply (run_step _ _ _ H); [|done]. cbn [nstep]. unfold nstep_thread. unfold G at 1. by rewrite Hst. }
    split_and!.
    - apply Hst.
    - change (nvec H c) with (nvec D c). rewrite HD. cbn [find_ty]. by rewrite Nat.eqb_refl.
    - cbn [H n_locks nevent nset_stack nunlock]. apply lookup_delete.
    - done.
    - change (nset H (c, 0)) with (default [] ((∅ : gmap loc (list iptr)) !! (c, 0))). by rewrite lookup_empty.
    - done.
  Qed.

  Lemma nbox_two u v :
    ilawful E -> ie_ty E u = ie_ty E v -> ie_meta E u = ie_meta E v -> is_zst E u = true -> ie_eq E u v = false ->
    exists s p q, run (nstep E) ninit (nmake (ie_ty E u) ++ nbox 0 u ++ nbox 0 v) = Some s /\
      EvRet 0 (OBox u) (RPtr p) ∈ n_log s /\ EvRet 0 (OBox v) (RPtr q) ∈ n_log s /\
      iread (nmem s) p = Some u /\ iread (nmem s) q = Some v /\ iptr_eqb p q = true.
  Proof.
    intros HL Hty Hm Hz He.
    destruct (nmake_run (ie_ty E u)) as (s0&Hr0&Hk0&Hi0&Hl0&Hp0&Hs0&Hn0).
    destruct (nbox_run s0 0 u 0) as (s1&Hr1&Hn1&Hk1&Hv1&Hp1&Hl1&Hs1&Ho1&Hg1);
      [done|done|done|done|rewrite Hp0; set_solver|rewrite Hs0; by apply Forall_nil|rewrite Hs0; by intros ? ?%elem_of_nil|].
    rewrite Hs0, Hn0 in *.
    destruct (nbox_run s1 0 v 0) as (s2&Hr2&Hn2&Hk2&Hv2&Hp2&Hl2&Hs2&Ho2&Hg2).
    - unfold is_zst in *. by rewrite <- Hty, <- Hm.
    - done.
    - rewrite <- Hty. unfold nvec. by rewrite Hv1.
    - by rewrite <- Hty.
    - rewrite Hp1, Hp0. set_solver.
    - rewrite <- Hty, Hs1. constructor; [|constructor]. exists u. unfold iread. cbn [i_objs nmem]. rewrite Ho1. cbn [ip_ser zptr]. rewrite lookup_insert.
      split_and!; [done|done|]. destruct (ie_eq E v u) eqn:H; [|done]. apply (il_sym _ HL) in H. congruence.
    - rewrite <- Hty, Hs1, Hn1. intros q ->%elem_of_list_singleton. cbn [ip_ser zptr]. done.
    - exists s2, (zptr E u 0), (zptr E v 1). rewrite Hn1 in *. split_and!.
      + by rewrite run_app, Hr0, run_app, Hr1.
      + rewrite Hg2, Hg1. do 2 right. left.
      + rewrite Hg2. left.
      + unfold iread. cbn [i_objs nmem]. rewrite Ho2, Ho1. cbn [ip_ser zptr]. rewrite lookup_insert_ne by done. by rewrite lookup_insert.
      + unfold iread. cbn [i_objs nmem]. rewrite Ho2. cbn [ip_ser zptr]. by rewrite lookup_insert.
      + unfold iptr_eqb, zptr. cbn [ip_addr ip_meta]. by rewrite Hty, Hm, !Nat.eqb_refl.
  Qed.
End dyn.

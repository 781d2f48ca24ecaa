(** Interning two boxes of zero-sized values, in any environment. *)
From stdpp Require Import gmap list numbers.
From Verif Require Import Base InternModel InternSpec InternInv InternFinal.

Section dyn.
  Context {V Q : Type} (E : ienv V Q).
  Implicit Types (st : istate V Q) (p q : iptr).

  Lemma run_step {S L} (step : S -> L -> outcome S) s l s1 ls r : step s l = Next s1 -> run step s1 ls = r -> run step s (l :: ls) = r.
  Proof. intros H1 H2. cbn [run]. unfold exec. by rewrite H1. Qed.

  Definition far st u (s : list iptr) : Prop :=
    Forall (λ q, exists d, iread st q = Some d /\ ie_eq E d u = false /\ ie_eq E u d = false) s.
  Lemma far_readable st u s : far st u s -> ireadable st s = true.
  Proof. induction 1 as [|q s (d&Hd&_) _ IH]; [done|]. cbn [ireadable forallb]. by rewrite Hd. Qed.
  Lemma far_key st u s : far st u s -> candidates st (key_match E (OBox u)) s = [].
  Proof.
    induction 1 as [|q s (d&Hd&H1&H2) _ IH]; [done|]. unfold candidates in *. cbn [List.filter]. rewrite Hd. cbn [key_match].
    by rewrite H1, andb_false_r.
  Qed.
  Lemma far_ins st u s : far st u s -> candidates st (ins_match E u) s = [].
  Proof.
    induction 1 as [|q s (d&Hd&H1&H2) _ IH]; [done|]. unfold candidates in *. cbn [List.filter]. rewrite Hd. unfold ins_match at 1.
    by rewrite H2, andb_false_r.
  Qed.
  Lemma far_mono st st' u s : far st u s -> (forall q, q ∈ s -> iread st' q = iread st q) -> far st' u s.
  Proof.
    intros H1 H2. apply list.Forall_forall. intros q Hq. pose proof (proj1 (list.Forall_forall _ _) H1 q Hq) as (d&Hd&H3).
    exists d. by rewrite H2.
  Qed.

  Definition zptr (u : V) (n : nat) : iptr := IPtr (ie_dangle E (ie_ty E u) (ie_meta E u)) (ie_meta E u) n.
  Definition ibox t u : list (ilabel V Q) := ICall t (OBox u) 0 :: replicate 4 (IStep t 0 0).

  Lemma ibox_run st t u :
    is_zst E u = true -> get_stack st t = [] -> i_locks st !! slot E (ie_ty E u) = None ->
    far st u (set_of E st (ie_ty E u)) -> (forall q, q ∈ set_of E st (ie_ty E u) -> ip_ser q <> i_next st) ->
    exists st', run (istep E) st (ibox t u) = Some st' /\ i_next st' = S (i_next st) /\ get_stack st' t = [] /\
      i_locks st' !! slot E (ie_ty E u) = None /\ set_of E st' (ie_ty E u) = zptr u (i_next st) :: set_of E st (ie_ty E u) /\
      i_objs st' = <[i_next st := IObj (ie_dangle E (ie_ty E u) (ie_meta E u)) u true]> (i_objs st) /\
      i_log st' = EvRet t (OBox u) (RPtr (zptr u (i_next st))) :: EvIns t (OBox u) (zptr u (i_next st)) u :: i_log st.
  Proof.
    intros Hz Hk Hl Hf Hn. set (ty := ie_ty E u) in *. set (p := zptr u (i_next st)).
    set (b := IObj (ie_dangle E ty (ie_meta E u)) u).
    set (objs := i_objs st). set (th := i_threads st).
    set (c1 := get_type_mut ty (container st (slot E ty))).
    set (s := set_of E st ty).
    (* after the call *)
    set (A := IState (<[i_next st := b false]> objs) (i_slots st) (i_locks st) (i_poison st) (<[t:=[FWait (OBox u) (Some p)]]> th) (S (i_next st)) (i_log st)).
    set (B := IState (i_objs A) (<[slot E ty := c1]> (i_slots st)) (<[slot E ty := t]> (i_locks st)) (i_poison st)
                (<[t:=[FGet (OBox u) (Some p)]]> (i_threads A)) (S (i_next st)) (i_log st)).
    set (C := IState (<[i_next st := b true]> (i_objs A)) (i_slots B) (i_locks B) (i_poison st)
                (<[t:=[FIns (OBox u) p]]> (i_threads B)) (S (i_next st)) (i_log st)).
    set (D := set_stack (add_event (put_set E C ty (p :: s)) (EvIns t (OBox u) p u)) t [FDone (OBox u) (RPtr p)]).
    set (F := add_event (set_stack (iunlock D (slot E ty) false) t []) (EvRet t (OBox u) (RPtr p))).
    assert (forall st1, i_slots st1 = i_slots B -> set_of E st1 ty = s) as Hset.
    { intros st1 H1. unfold set_of, container. rewrite H1. cbn [i_slots B]. rewrite lookup_insert. cbn [default from_option id].
      unfold c1, s, get_type_mut, set_of. destruct (find_set ty (container st (slot E ty))) as [x|] eqn:Hx; [by rewrite Hx|].
      clear -Hx. induction (container st (slot E ty)) as [|[k ps] l IH]; simpl in *; [by rewrite Nat.eqb_refl|].
      destruct (k =? ty); [done|]. by apply IH. }
    assert (forall st1 b', i_objs st1 = <[i_next st := b b']> objs \/ i_objs st1 = <[i_next st := b b']> (<[i_next st := b false]> objs) -> forall q, q ∈ s -> iread st1 q = iread st q) as Hrd.
    { intros st1 b' H1 q Hq. pose proof (Hn q Hq). unfold iread. destruct H1 as [-> | ->]; by rewrite ?lookup_insert_ne by done. }
    exists F. split.
    { unfold ibox. cbn [replicate].
      eapply (run_step _ _ _ A).
      { cbn [istep]. rewrite Hk. unfold ialloc. rewrite Hz. done. }
      eapply (run_step _ _ _ B).
      { cbn [istep]. unfold istep_thread, get_stack at 1. cbn [i_threads A]. rewrite lookup_insert. cbn [default from_option id op_ty i_locks A].
        fold ty. rewrite Hl. done. }
      assert (far B u s) as HB. { eapply far_mono; [exact Hf|]. apply (Hrd B false). by left. }
      eapply (run_step _ _ _ C).
      { cbn [istep]. unfold istep_thread, get_stack at 1. cbn [i_threads B]. rewrite lookup_insert. cbn [default from_option id op_ty].
        fold ty. rewrite (Hset B) by done. rewrite (far_readable B u s), (far_key B u s) by done. cbn [ipick nth_error head].
        unfold ileak. cbn [i_objs B A ip_ser p zptr]. rewrite lookup_insert. done. }
      assert (far C u s) as HCf. { eapply far_mono; [exact Hf|]. apply (Hrd C true). by right. }
      eapply (run_step _ _ _ D).
      { cbn [istep]. unfold istep_thread, get_stack at 1. cbn [i_threads C]. rewrite lookup_insert. cbn [default from_option id op_ty].
        fold ty. rewrite (Hset C) by done. unfold iread at 1. cbn [i_objs C ip_ser p zptr]. rewrite lookup_insert. cbn [fmap option_fmap option_map io_val b].
        rewrite (far_readable C u s), (far_ins C u s) by done. done. }
      eapply (run_step _ _ _ F); [|done].
      cbn [istep]. unfold istep_thread, get_stack at 1. cbn [i_threads D set_stack]. rewrite lookup_insert. done. }
    split_and!.
    - done.
    - unfold get_stack. cbn [F i_threads add_event set_stack]. by rewrite lookup_insert.
    - cbn [F i_locks add_event set_stack iunlock]. apply lookup_delete.
    - unfold set_of, container. cbn [F D i_slots add_event set_stack iunlock put_set set_slots]. rewrite lookup_insert. cbn [default from_option id].
      unfold container. cbn [C B i_slots]. rewrite lookup_insert. cbn [default from_option id].
      assert (find_set ty c1 = Some s) as Hc.
      { unfold c1, s, get_type_mut, set_of. destruct (find_set ty (container st (slot E ty))) as [x|] eqn:Hx; [done|].
        clear -Hx. induction (container st (slot E ty)) as [|[k ps] l IH]; simpl in *; [by rewrite Nat.eqb_refl|].
        destruct (k =? ty); [done|]. by apply IH. }
      clear -Hc. induction c1 as [|[k ps] l IH]; simpl in *; [done|]. destruct (k =? ty) eqn:Hk; simpl; rewrite Hk; [done|]. by apply IH.
    - cbn [F D C A i_objs add_event set_stack iunlock put_set set_slots]. by rewrite insert_insert.
    - done.
  Qed.

  Lemma ibox_two u v :
    ilawful E -> ie_ty E u = ie_ty E v -> ie_meta E u = ie_meta E v -> is_zst E u = true -> ie_eq E u v = false ->
    exists st p q, run (istep E) iinit (ibox 0 u ++ ibox 0 v) = Some st /\
      EvRet 0 (OBox u) (RPtr p) ∈ i_log st /\ EvRet 0 (OBox v) (RPtr q) ∈ i_log st /\
      iread st p = Some u /\ iread st q = Some v /\ iptr_eqb p q = true.
  Proof.
    intros HL Hty Hm Hz He.
    destruct (ibox_run iinit 0 u) as (s1&Hr1&Hn1&Hk1&Hl1&Hs1&Ho1&Hg1); [done|done|done|by apply Forall_nil|by intros ? ?%elem_of_nil|].
    assert (set_of E iinit (ie_ty E u) = []) as Hs0 by done. rewrite Hs0 in Hs1. cbn [i_next iinit] in *.
    destruct (ibox_run s1 0 v) as (s2&Hr2&Hn2&Hk2&Hl2&Hs2&Ho2&Hg2).
    - unfold is_zst in *. by rewrite <- Hty, <- Hm.
    - done.
    - by rewrite <- Hty.
    - rewrite <- Hty, Hs1. constructor; [|constructor]. exists u. unfold iread. rewrite Ho1. cbn [ip_ser zptr]. rewrite lookup_insert.
      split_and!; [done|done|]. destruct (ie_eq E v u) eqn:H; [|done]. apply (il_sym _ HL) in H. congruence.
    - rewrite <- Hty, Hs1, Hn1. intros q ->%elem_of_list_singleton. cbn [ip_ser zptr]. done.
    - exists s2, (zptr u 0), (zptr v 1). rewrite Hn1 in *. split_and!.
      + by rewrite run_app, Hr1.
      + rewrite Hg2, Hg1. do 2 right. left.
      + rewrite Hg2. left.
      + unfold iread. rewrite Ho2, Ho1. cbn [ip_ser zptr]. rewrite lookup_insert_ne by done. by rewrite lookup_insert.
      + unfold iread. rewrite Ho2. cbn [ip_ser zptr]. by rewrite lookup_insert.
      + unfold iptr_eqb, zptr. cbn [ip_addr ip_meta]. by rewrite Hty, Hm, !Nat.eqb_refl.
  Qed.
End dyn.

(** Interior mutability: executions of the examples and refutations. *)
From stdpp Require Import gmap list numbers.
From Verif Require Import Base MutModel MutSpec MutArc MutIntern MutArena.
From Verif Require ArcModel ArcSpec ArcEx ArcReach InternModel InternSpec InternEx ArenaModel ArenaSpec NewModel.

(** ** ArcIntern *)
Section arc.
  Import ArcModel ArcSpec ArcEx ArcReach.
  Definition mafter (ls : list (mlabel (label node) (arc_store node))) : state node :=
    default init (run (arc_mstep exE) init ls).
  (** Thread 1 interns 4, which becomes 5 (Eq to it); thread 2 interns 5 and gets the same
      handle; it becomes 4; both are dropped. *)
  Definition quiet_leaf : list (mlabel (label node) (arc_store node)) :=
    alone 1 10 leaf4 ++ [MSet (AS exA [] leaf5)] ++ (MDo <$> LNew 2 KDst leaf5 :: steps 2 0 4) ++
    [MSet (AS exA [] leaf4)] ++ (MDo <$> LDrop 1 exA :: steps 1 0 2) ++ (MDo <$> LDrop 2 exA :: steps 2 0 5).
  Lemma set_split {L S} (ls : list (mlabel L S)) l1 x l2 : ls = l1 ++ MSet x :: l2 ->
    ls !! length l1 = Some (MSet x) /\ l1 = take (length l1) ls.
  Proof. intros ->. rewrite list_lookup_middle by done. by rewrite take_app. Qed.
  Lemma quiet_leaf_quiet : quiet exE quiet_leaf.
  Proof.
    intros l1 p ks v l2 st k d Hl Hr Hb Hd. apply set_split in Hl as [Hn Hl]. rewrite Hl in Hr. clear Hl l2.
    generalize dependent (length l1). intros n Hn Hr.
    assert (n < length quiet_leaf) as Hlt by (by apply lookup_lt_Some in Hn). change (length quiet_leaf) with 23 in Hlt.
    do 23 (destruct n as [|n]; [vm_compute in Hn; first [discriminate Hn|
      injection Hn as <- <- <-; vm_compute in Hr; injection Hr as <-; vm_compute in Hb; injection Hb as <-;
      vm_compute in Hd; injection Hd as <-; apply eq_unseen; [apply nodes_lawful|done|done]]|]). lia.
  Qed.

  Lemma arc_store_refute :
    exists (E : tyenv node) ls,
      lawful E /\ coherent E /\ wide E /\ (N.of_nat (length ls) < te_mod E)%N /\
      (forall t, MDo (LPanic t) ∉ ls) /\ run (arc_mstep E) init ls = None.
  Proof.
    exists exE, (set_and_drop leaf4 (Node 0 8 []) (Node 0 8 [])). split_and!.
    - apply nodes_lawful.
    - apply lawful_coherent, nodes_lawful.
    - done.
    - by vm_compute.
    - intros t H%elem_of_list_In. simpl in H. repeat (destruct H as [H|H]; [done|]). done.
    - by apply set_and_drop_ub.
  Qed.
End arc.

(** ** Intern *)
Section intern.
  Import InternModel InternSpec InternEx.
  Definition miafter (ls : list (mlabel (ilabel ival (nat * nat)) (int_store ival))) : istate ival (nat * nat) :=
    default iinit (run (int_mstep toyE) iinit ls).
  Definition one_call (t a : nat) (v : ival) (n : nat) : list (mlabel (ilabel ival (nat * nat)) (int_store ival)) :=
    MDo (ICall t (ONew v) a) :: replicate n (MDo (IStep t a 0)).
  Definition i4 := IV 0 4 0.
  Definition i5 := IV 0 5 0.
  Definition i8 := IV 0 8 0.
  Definition ip4 := IPtr 10 0 0.
  Definition ip8 := IPtr 11 0 1.
  (** 4 is interned and becomes 8; then 4 and 8 are interned. *)
  Definition ex_set : list (mlabel (ilabel ival (nat * nat)) (int_store ival)) :=
    one_call 1 10 i4 5 ++ [MSet (IS ip4 i8)] ++ one_call 2 11 i4 5 ++ one_call 2 12 i8 5.
  Definition ex_unseen : list (mlabel (ilabel ival (nat * nat)) (int_store ival)) :=
    one_call 1 10 i4 5 ++ [MSet (IS ip4 i5)] ++ one_call 2 11 i4 5 ++ [MDo (IDeref ip4)].
  Lemma ex_unseen_quiet : iquiet toyE ex_unseen.
  Proof.
    intros l1 p v l2 st d Hl Hr Hd. apply set_split in Hl as [Hn Hl]. rewrite Hl in Hr. clear Hl l2.
    generalize dependent (length l1). intros n Hn Hr.
    assert (n < length ex_unseen) as Hlt by (by apply lookup_lt_Some in Hn). change (length ex_unseen) with 14 in Hlt.
    do 14 (destruct n as [|n]; [vm_compute in Hn; first [discriminate Hn|
      injection Hn as <- <-; vm_compute in Hr; injection Hr as <-;
      vm_compute in Hd; injection Hd as <-; apply ieq_unseen; [apply toyE_lawful|done|done|done]]|]). lia.
  Qed.
  Lemma intern_store_refute :
    exists (E : ienv ival (nat * nat)) ls st t1 t2 v p q,
      ilawful E /\ icoherent E /\ zst_eq E /\ (forall t ty a, MDo (ICall t (OClear ty) a) ∉ ls) /\
      run (int_mstep E) iinit ls = Some st /\
      EvRet t1 (ONew v) (RPtr p) ∈ i_log st /\ EvRet t2 (ONew v) (RPtr q) ∈ i_log st /\ iptr_eqb p q = false.
  Proof.
    exists toyE, ex_set, (miafter ex_set), 1, 2, i4, ip4, ip8. split_and!.
    - apply toyE_lawful.
    - apply toyE_coherent.
    - apply toyE_zst_eq.
    - intros t ty a H%elem_of_list_In. simpl in H. repeat (destruct H as [H|H]; [done|]). done.
    - by vm_compute.
    - apply elem_of_list_In. vm_compute. tauto.
    - apply elem_of_list_In. vm_compute. tauto.
    - done.
  Qed.
End intern.

(** ** Arena *)
Section arena.
  Import InternModel InternSpec InternEx ArenaModel ArenaSpec.
  Definition raafter (ls : list (mlabel (alabel ival (nat * nat)) (are_store ival))) : astate ival (nat * nat) :=
    default ainit (run (are_mstep toyE) ainit ls).
  (** As [set_between], with a store that Eq does not see. *)
  Definition ex_unseen_arena := set_between toyE 0 i4 i8 i5.
  Lemma ex_unseen_arena_quiet : aquiet toyE ex_unseen_arena.
  Proof.
    intros l1 r p v l2 st d Hl Hr Hd. apply set_split in Hl as [Hn Hl]. rewrite Hl in Hr. clear Hl l2.
    generalize dependent (length l1). intros n Hn Hr.
    assert (n < length ex_unseen_arena) as Hlt by (by apply lookup_lt_Some in Hn). change (length ex_unseen_arena) with 17 in Hlt.
    do 17 (destruct n as [|n]; [vm_compute in Hn; first [discriminate Hn|
      injection Hn as <- <- <-; vm_compute in Hr; injection Hr as <-;
      vm_compute in Hd; injection Hd as <-; apply ieq_unseen; [apply toyE_lawful|done|done|done]]|]). lia.
  Qed.
  Lemma arena_store_refute :
    exists (E : ienv ival (nat * nat)) ls,
      ilawful E /\ icoherent E /\ zst_eq E /\ (forall t, MDo (LPanic t) ∉ ls) /\ run (are_mstep E) ainit ls = None.
  Proof.
    exists toyE, (set_between toyE 0 i4 i8 i8). split_and!.
    - apply toyE_lawful.
    - apply toyE_coherent.
    - apply toyE_zst_eq.
    - intros t H%elem_of_list_In. simpl in H. repeat (destruct H as [H|H]; [done|]). done.
    - by apply set_between_ub.
  Qed.
End arena.

(** ** The Intern of typearena.rs *)
Section new.
  Import InternModel InternSpec InternEx NewModel.
  Definition mnafter (ls : list (mlabel (ilabel ival (nat * nat)) (int_store ival))) : nstate ival (nat * nat) :=
    default ninit (run (new_mstep toyE) ninit ls).
  (** As [ex_set] and [ex_unseen]. *)
  Definition ex_nset : list (mlabel (ilabel ival (nat * nat)) (int_store ival)) :=
    one_call 1 10 i4 9 ++ [MSet (IS ip4 i8)] ++ one_call 2 11 i4 6 ++ one_call 2 12 i8 6.
  Definition ex_nunseen : list (mlabel (ilabel ival (nat * nat)) (int_store ival)) :=
    one_call 1 10 i4 9 ++ [MSet (IS ip4 i5)] ++ one_call 2 11 i4 6 ++ [MDo (IDeref ip4)].
  Lemma ex_nunseen_quiet : nquiet toyE ex_nunseen.
  Proof.
    intros l1 p v l2 st d Hl Hr Hd. apply set_split in Hl as [Hn Hl]. rewrite Hl in Hr. clear Hl l2.
    generalize dependent (length l1). intros n Hn Hr.
    assert (n < length ex_nunseen) as Hlt by (by apply lookup_lt_Some in Hn). change (length ex_nunseen) with 19 in Hlt.
    do 19 (destruct n as [|n]; [vm_compute in Hn; first [discriminate Hn|
      injection Hn as <- <-; vm_compute in Hr; injection Hr as <-;
      vm_compute in Hd; injection Hd as <-; apply ieq_unseen; [apply toyE_lawful|done|done|done]]|]). lia.
  Qed.
  Lemma new_store_refute :
    exists (E : ienv ival (nat * nat)) ls s t1 t2 v p q,
      ilawful E /\ icoherent E /\ zst_eq E /\ (forall t ty a, MDo (ICall t (OClear ty) a) ∉ ls) /\
      run (new_mstep E) ninit ls = Some s /\
      EvRet t1 (ONew v) (RPtr p) ∈ n_log s /\ EvRet t2 (ONew v) (RPtr q) ∈ n_log s /\ iptr_eqb p q = false.
  Proof.
    exists toyE, ex_nset, (mnafter ex_nset), 1, 2, i4, ip4, ip8. split_and!.
    - apply toyE_lawful.
    - apply toyE_coherent.
    - apply toyE_zst_eq.
    - intros t ty a H%elem_of_list_In. simpl in H. repeat (destruct H as [H|H]; [done|]). done.
    - by vm_compute.
    - apply elem_of_list_In. vm_compute. tauto.
    - apply elem_of_list_In. vm_compute. tauto.
    - done.
  Qed.
End new.

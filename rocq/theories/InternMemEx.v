(** Executions for the property about what [Intern] keeps allocated. *)
From stdpp Require Import gmap list numbers.
From Verif Require Import Base InternModel InternSpec InternEx InternMemSpec NewModel NewEx.

(** ** [n] calls of [Intern::new] whose insertion panics *)
Definition leak_call (a : nat) : list (ilabel ival (nat * nat)) :=
  [ICall 1 (ONew v0) 0; IStep 1 0 0; IStep 1 0 0; IStep 1 a 0; IPanic 1; IStep 1 0 0].
Fixpoint leak (n : nat) : list (ilabel ival (nat * nat)) :=
  match n with 0 => [] | S n => leak n ++ leak_call (100 + n) end.

Section leak.
  Notation S' m L T n l := (IState m {[5 := [(0, [])]]} L {[5]} {[1 := T]} n l : istate ival (nat * nat)).
  Definition lo : iop ival (nat * nat) := ONew v0.
  Lemma leak_run m n l :
    map_Forall (λ s x, io_addr x <> 100 + n) m ->
    run (istep fullE) (S' m ∅ [] n l) (leak_call (100 + n)) =
    Some (S' (<[n := IObj (100 + n) v0 true]> m) ∅ [] (S n) (EvRet 1 lo RPanic :: l)).
  Proof.
    intros Hf. set (p := IPtr (100 + n) 0 n). set (m' := <[n := IObj (100 + n) v0 true]> m).
    assert (forall m T n l L, get_stack (S' m L T n l) 1 = T) as Hg. { intros. by vm_compute. }
    assert (forall m L T n l, set_of fullE (S' m L T n l) 0 = []) as Hs. { intros. by vm_compute. }
    assert (forall m L T T' n l, set_stack (S' m L T n l) 1 T' = S' m L T' n l) as Hset.
    { intros. unfold set_stack. simpl. by rewrite insert_singleton. }
    assert (istep fullE (S' m ∅ [] n l) (ICall 1 lo 0) = Next (S' m ∅ [FWait lo None] n l)) as E1.
    { unfold istep. rewrite Hg. simpl. by rewrite Hset. }
    assert (istep fullE (S' m ∅ [FWait lo None] n l) (IStep 1 0 0) = Next (S' m {[5 := 1]} [FGet lo None] n l)) as E2.
    { unfold istep, istep_thread. rewrite Hg. change (slot fullE (op_ty fullE lo)) with 5. cbn [i_locks]. rewrite lookup_empty.
      unfold set_slots, ilock, container, lo. cbn [i_objs i_slots i_locks i_poison i_threads i_next i_log op_ty].
      rewrite lookup_singleton, insert_singleton. cbn. by rewrite Hset. }
    assert (istep fullE (S' m {[5 := 1]} [FGet lo None] n l) (IStep 1 0 0) = Next (S' m {[5 := 1]} [FStore lo v0] n l)) as E3.
    { unfold istep, istep_thread. rewrite Hg. change (op_ty fullE lo) with 0. rewrite Hs. simpl. by rewrite Hset. }
    assert (istep fullE (S' m {[5 := 1]} [FStore lo v0] n l) (IStep 1 (100 + n) 0) = Next (S' m' {[5 := 1]} [FIns lo p] (S n) l)) as E4.
    { unfold istep, istep_thread. rewrite Hg. unfold ialloc. assert (addr_free fullE (S' m {[5 := 1]} [FStore lo v0] n l) (100 + n) = true) as ->.
      { unfold addr_free. apply bool_decide_eq_true. intros s x Hx. right. by apply Hf in Hx. }
      simpl. unfold set_stack. simpl. by rewrite insert_singleton. }
    assert (istep fullE (S' m' {[5 := 1]} [FIns lo p] (S n) l) (IPanic 1) = Next (S' m' {[5 := 1]} [FDone lo RPanic] (S n) l)) as E5.
    { unfold istep, istep_panic. rewrite Hg. by rewrite Hset. }
    assert (istep fullE (S' m' {[5 := 1]} [FDone lo RPanic] (S n) l) (IStep 1 0 0) =
      Next (S' m' ∅ [] (S n) (EvRet 1 lo RPanic :: l))) as E6.
    { unfold istep, istep_thread. rewrite Hg. change (slot fullE (op_ty fullE lo)) with 5. unfold iunlock, set_stack, add_event. simpl.
      rewrite insert_singleton, delete_singleton. by rewrite (idemp_L (∪) ({[5]} : gset nat)). }
    unfold leak_call. fold lo. cbn [run]. unfold exec. by rewrite E1, E2, E3, E4, E5, E6.
  Qed.

  Fixpoint leak_objs (n : nat) : gmap nat (iobj ival) :=
    match n with 0 => ∅ | S n => <[n := IObj (100 + n) v0 true]> (leak_objs n) end.
  Lemma leak_objs_in n s : leak_objs n !! s = if decide (s < n) then Some (IObj (100 + s) v0 true) else None.
  Proof.
    induction n as [|n IH]; [cbn [leak_objs]; rewrite lookup_empty; by destruct (decide (s < 0)); [lia|]|]. cbn [leak_objs].
    destruct (decide (n = s)) as [<-|].
    - rewrite lookup_insert, decide_True by lia. done.
    - rewrite lookup_insert_ne, IH by done. destruct (decide (s < n)), (decide (s < S n)); try lia; done.
  Qed.
  Lemma leak_size n : size (leak_objs n) = n.
  Proof.
    induction n as [|n IH]; [done|]. cbn [leak_objs].
    rewrite map_size_insert_None; [lia|]. by rewrite leak_objs_in, decide_False by lia.
  Qed.
  Lemma leak_first : run (istep fullE) iinit (leak 1) = Some (S' (leak_objs 1) ∅ [] 1 [EvRet 1 lo RPanic]).
  Proof.
    destruct (run (istep fullE) iinit (leak 1)) as [[m1 m2 m3 m4 m5 n l]|] eqn:Hr; [|by vm_compute in Hr].
    apply (f_equal (λ x, match x with Some y => (map_to_list (i_objs y), map_to_list (i_slots y), map_to_list (i_locks y),
      elements (i_poison y), map_to_list (i_threads y), i_next y, i_log y)
      | None => ([], [], [], [], [], 0, []) end)) in Hr.
    simpl map_to_list in Hr. symmetry in Hr.
    match type of Hr with _ = ?x => let y := eval vm_compute in x in change x with y in Hr end.
    injection Hr as H1 H2 H3 H4 H5 -> ->.
    assert (forall A (m : gmap nat A) x y, map_to_list m = [(x, y)] -> m = {[x := y]}) as Hsing.
    { intros A m x y H. rewrite <- (list_to_map_to_list m), H. done. }
    apply Hsing in H1 as ->. apply Hsing in H2 as ->. apply map_to_list_empty_iff in H3 as ->.
    apply Hsing in H5 as ->.
    assert (m4 = {[5]}) as ->; [|done]. apply set_eq. intros x. rewrite <- elem_of_elements, H4. set_solver.
  Qed.
  Lemma leak_state n : run (istep fullE) iinit (leak (S n)) = Some (S' (leak_objs (S n)) ∅ [] (S n) (replicate (S n) (EvRet 1 lo RPanic))).
  Proof.
    induction n as [|n IH]; [apply leak_first|].
    change (leak (S (S n))) with (leak (S n) ++ leak_call (100 + S n)). rewrite run_app, IH. apply leak_run.
    intros s x. rewrite leak_objs_in. destruct (decide (s < S n)); [|done]. intros [= <-]. simpl. lia.
  Qed.

  (** After [n] calls there are [n] allocations of Eq values and nobody has ever got a
      handle. *)
  Lemma leak_all n : exists ls st, run (istep fullE) iinit ls = Some st /\ no_clear ls /\ all_returned st /\
    size (i_objs st) = n /\ (forall s x, i_objs st !! s = Some x -> io_val x = v0) /\
    (forall t o p, EvRet t o (RPtr p) ∉ i_log st).
  Proof.
    destruct n as [|n].
    { exists [], iinit. split_and!.
      - done.
      - intros t ty a H. by apply elem_of_nil in H.
      - intros t. unfold get_stack. simpl. by rewrite lookup_empty.
      - done.
      - intros s x H. simpl in H. by rewrite lookup_empty in H.
      - intros t o p H. by apply elem_of_nil in H. }
    exists (leak (S n)). eexists. split; [apply leak_state|]. cbn [i_objs i_log i_threads]. split_and!.
    - intros t ty a. generalize (S n). induction n0 as [|m IH]; intros Hin; [by apply elem_of_nil in Hin|].
      cbn [leak] in Hin. apply elem_of_app in Hin as [Hin|Hin]; [auto|].
      apply elem_of_list_In in Hin. simpl in Hin. intuition done.
    - intros t. unfold get_stack. cbn [i_threads]. destruct (decide (t = 1)) as [->|]; [by rewrite lookup_singleton|].
      by rewrite lookup_singleton_ne by done.
    - apply leak_size.
    - intros s x. rewrite leak_objs_in. destruct (decide (s < S n)); [|done]. by intros [= <-].
    - intros t o p H. by apply elem_of_replicate in H as [? _].
  Qed.
End leak.

(** ** Checking [no_insert_panic] and [all_returned] by computation *)
Fixpoint ins_calm {V Q} (E : ienv V Q) (st : istate V Q) (ls : list (ilabel V Q)) : bool :=
  match ls with
  | [] => true
  | lb :: ls' =>
      match lb with IPanic t => match get_stack st t with FIns _ _ :: _ => false | _ => true end | _ => true end
      && match exec (istep E) st lb with Some st' => ins_calm E st' ls' | None => true end
  end.
Lemma ins_calm_check {V Q} (E : ienv V Q) ls : ins_calm E iinit ls = true -> no_insert_panic E ls.
Proof.
  intros H ls1 t ls2 st o p k ->. revert H. generalize (@iinit V Q) as st0. induction ls1 as [|lb ls1 IH]; intros st0; simpl.
  - intros H [= ->] Hst. by rewrite Hst in H.
  - intros [_ H]%andb_true_iff. destruct (exec (istep E) st0 lb); [|done]. by apply IH.
Qed.
Lemma all_returned_check {V Q} (st : istate V Q) :
  forallb (λ tk, match tk.2 with [] => true | _ => false end) (map_to_list (i_threads st)) = true -> all_returned st.
Proof.
  intros H t. unfold get_stack. destruct (i_threads st !! t) as [k|] eqn:Ht; [|done]. simpl.
  apply elem_of_map_to_list, elem_of_list_In in Ht. rewrite forallb_forall in H. apply H in Ht. simpl in Ht. by destruct k.
Qed.

(** A call whose search panics, with the box of its argument; then [ex_all]; then another
    box. *)
Definition ex_calm : list (ilabel ival (nat * nat)) :=
  [ICall 4 (OBox (IV 0 6 0)) 600; IStep 4 0 0; IPanic 4; IStep 4 0 0; IStep 4 0 0] ++ ex_all ++
  icall 5 700 (OBox (IV 0 9 0)) 4 ++ icall 5 0 (OLen 0) 2.
(** In the middle of things: thread 1 has been given a box and waits, thread 2 is about to
    insert 4, an insertion of 8 has panicked, 2 has been inserted. *)
Definition ex_middle : list (ilabel ival (nat * nat)) :=
  icall 3 100 (ONew (IV 0 2 0)) 5 ++
  [ICall 4 (ONew (IV 0 8 0)) 0; IStep 4 0 0; IStep 4 0 0; IStep 4 200 0; IPanic 4; IStep 4 0 0] ++
  icall 2 300 (ONew (IV 0 4 0)) 3 ++ [ICall 1 (OBox (IV 0 6 0)) 400; IStep 1 0 0].

(** ** [NewIntern]: an insertion of 8 panics; another call for the type panics too and frees
    its box; another type is not affected. *)
Definition ex_nleak : nlabels :=
  [ICall 3 (ONew (IV 0 4 0)) 0] ++ nsteps 3 100 9 ++
  [ICall 1 (ONew (IV 0 8 0)) 0] ++ nsteps 1 200 4 ++ [IPanic 1; IStep 1 0 0] ++
  [ICall 2 (OBox (IV 0 8 0)) 300] ++ nsteps 2 0 3 ++
  [ICall 2 (OBox (IV 1 8 0)) 400] ++ nsteps 2 0 8.
Lemma n_all_returned_check {V Q} (s : nstate V Q) :
  forallb (λ tk, match tk.2 with [] => true | _ => false end) (map_to_list (n_threads s)) = true -> forall t, nstack s t = [].
Proof.
  intros H t. unfold nstack. destruct (n_threads s !! t) as [k|] eqn:Ht; [|done]. simpl.
  apply elem_of_map_to_list, elem_of_list_In in Ht. rewrite forallb_forall in H. apply H in Ht. simpl in Ht. by destruct k.
Qed.

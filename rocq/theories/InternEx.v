(** Concrete user types for the examples about [Intern], and the family of executions in
    which a normalising conversion wastes memory. *)
From stdpp Require Import gmap list numbers.
From Verif Require Import Base InternModel InternSpec.

(** A value has a type, a number and a length (the pointer metadata); Eq ignores the last
    bit of the number, and all of it for zero-sized values. *)
Record ival := IV { iv_ty : nat; iv_n : nat; iv_len : nat }.
Global Instance ival_eq_dec : EqDecision ival.
Proof. solve_decision. Defined.

Section toys.
  (** Which types and lengths are zero-sized; the conversion; the type ids. *)
  Context (z : nat -> nat -> bool) (from : nat -> nat * nat -> ival -> bool) (tid : nat -> N).
  Definition eff (v : ival) : nat := if z (iv_ty v) (iv_len v) then 0 else iv_n v.
  Definition toys : ienv ival (nat * nat) := IEnv
    iv_ty
    (λ u v, (iv_ty u =? iv_ty v) && (eff u / 2 =? eff v / 2) && (iv_len u =? iv_len v))
    (λ v, eff v / 2)
    (λ _ v, (eff v, iv_len v))
    (λ a b, (a.1 / 2 =? b.1 / 2) && (a.2 =? b.2))
    (λ a, a.1 / 2)
    from
    (λ h h', h mod 4 =? h' mod 4)
    iv_len
    z
    (λ _ _, 16)
    tid
    (2 ^ 64)
    32.

  Lemma toys_lawful : ilawful toys.
  Proof.
    constructor; simpl.
    - intros v. by rewrite !Nat.eqb_refl.
    - intros u v. rewrite !andb_true_iff, !Nat.eqb_eq. intuition congruence.
    - intros u v w. rewrite !andb_true_iff, !Nat.eqb_eq. intuition congruence.
    - intros u v. rewrite !andb_true_iff, !Nat.eqb_eq. intuition congruence.
    - intros u v. rewrite !andb_true_iff, !Nat.eqb_eq. intuition congruence.
    - intros u v w. rewrite !andb_true_iff, !Nat.eqb_eq. intuition congruence.
    - intros u v. rewrite !andb_true_iff, !Nat.eqb_eq. intuition congruence.
    - intros _ u v ->. by rewrite Nat.eqb_refl.
    - done.
  Qed.
  Lemma toys_zst_eq : zst_eq toys.
  Proof.
    intros u v. unfold is_zst. simpl. unfold eff. intros Hz Ht Hl. rewrite Ht, Hl in *.
    rewrite Hz. by rewrite !Nat.eqb_refl.
  Qed.
End toys.

(** Type 3 is zero-sized, and type 2 (a slice type) when the length is 0. *)
Definition some_zst (ty len : nat) : bool := (ty =? 3) || ((ty =? 2) && (len =? 0)).
(** Types 0 and 2 share a container, 1 and 3 do not. *)
Definition some_tid (ty : nat) : N := match ty with 0 => 5%N | 1 => 6%N | 2 => 37%N | _ => 7%N end.
Definition same_from (w : nat) (q : nat * nat) (v : ival) : bool :=
  bool_decide ((eff some_zst v, iv_len v) = q).

(** The environment of most examples. *)
Definition toyE := toys some_zst same_from some_tid.
Lemma toyE_lawful : ilawful toyE.
Proof. apply toys_lawful. Qed.
Lemma toyE_zst_eq : zst_eq toyE.
Proof. apply toys_zst_eq. Qed.
Lemma toyE_coherent : icoherent toyE.
Proof.
  intros w q v H. simpl in H. apply bool_decide_eq_true in H as <-. simpl. by rewrite !Nat.eqb_refl.
Qed.

(** An environment in which every conversion can return. *)
Definition fullE := toys (λ _ _, false) (λ _ q v, bool_decide ((iv_n v, iv_len v) = q)) some_tid.
Lemma fullE_lawful : ilawful fullE.
Proof. apply toys_lawful. Qed.
Lemma fullE_coherent : icoherent fullE.
Proof. intros w q v H. simpl in H. apply bool_decide_eq_true in H as <-. simpl. by rewrite !Nat.eqb_refl. Qed.
Lemma fullE_total : total_from fullE.
Proof. intros ty w [n m]. exists (IV ty n m). simpl. split; [|done]. by apply bool_decide_eq_true. Qed.

(** The conversion rounds down to a multiple of 4, which is not what Eq ignores. *)
Definition normE := toys (λ _ _, false) (λ _ q v, bool_decide ((iv_n v, iv_len v) = (q.1 / 4 * 4, q.2))) some_tid.
Lemma normE_lawful : ilawful normE.
Proof. apply toys_lawful. Qed.
Lemma normE_zst_eq : zst_eq normE.
Proof. apply toys_zst_eq. Qed.

(** ** Executions *)
(** The state after an execution ([iinit] if there is none). *)
Definition iafter {V Q} (E : ienv V Q) (ls : list (ilabel V Q)) : istate V Q := default iinit (run (istep E) iinit ls).
Lemma iafter_run {V Q} (E : ienv V Q) ls : (if run (istep E) iinit ls then true else false) = true ->
  run (istep E) iinit ls = Some (iafter E ls).
Proof. unfold iafter. by destruct (run (istep E) iinit ls). Qed.
Definition no_clear_b {V Q} (ls : list (ilabel V Q)) : bool :=
  forallb (λ lb, match lb with ICall _ (OClear _) _ => false | _ => true end) ls.
Lemma no_clear_check {V Q} (ls : list (ilabel V Q)) : no_clear_b ls = true -> no_clear ls.
Proof.
  intros H t ty a Hin. unfold no_clear_b in H. rewrite forallb_forall in H.
  apply elem_of_list_In, H in Hin. done.
Qed.

(** A whole call of thread [t], [n] steps, allocating at [a]. *)
Definition icall (t a : nat) (o : iop ival (nat * nat)) (n : nat) : list (ilabel ival (nat * nat)) :=
  ICall t o a :: replicate n (IStep t a 0).

(** Threads 1 and 2 race to intern Eq values 4 and 5 of type 0: thread 1 gets the mutex,
    thread 2 tries in between, and in the end finds 4.  Thread 3 interns a value of type 2,
    in the same container; then two empty slices of type 2 are boxed. *)
Definition ex_race : list (ilabel ival (nat * nat)) :=
  [ICall 1 (ONew (IV 0 4 0)) 0; ICall 2 (ONew (IV 0 5 0)) 0; IStep 1 0 0; IStep 2 0 0; IStep 1 0 0;
   IStep 1 100 0; IStep 1 0 0; IStep 2 0 0; IStep 1 0 0] ++ replicate 4 (IStep 2 0 0) ++
  icall 3 200 (OVia (IV 2 9 3)) 5 ++ icall 3 300 (OBox (IV 2 0 0)) 4 ++ icall 1 400 (OBox (IV 2 1 0)) 4.
(** A conversion: lookup of 8, not found, T::from returns 8; queries. *)
Definition ex_ref : list (ilabel ival (nat * nat)) :=
  [ICall 1 (ORef 0 0 (8, 0)) 0; IStep 1 0 0; IStep 1 0 0; IConv 1 (IV 0 8 0); IStep 1 500 0; IStep 1 0 0; IStep 1 0 0] ++
  icall 2 0 (OIs 0 1 (9, 0)) 3 ++ icall 2 0 (OIs 0 1 (12, 0)) 3 ++ icall 2 0 (OLen 0) 2 ++ icall 2 0 (OLen 2) 2.
Definition ex_all := ex_race ++ ex_ref.

Definition pA := IPtr 100 0 0. (* type 0, value 4 *)
Definition pB := IPtr 200 3 1. (* type 2 *)
Definition pC := IPtr 16 0 2.  (* the empty slice *)
Definition pD := IPtr 500 0 4. (* type 0, value 8 *)

(** Threads 1 and 2 nest types 0 and 1 in opposite orders. *)
Lemma ex_cross_dead : deadlocked fullE (iafter fullE
  [ICall 1 (ORef 0 0 (8, 0)) 0; IStep 1 0 0; IStep 1 0 0; ICall 2 (ORef 1 0 (8, 0)) 0; IStep 2 0 0; IStep 2 0 0;
   ICall 1 (ONew (IV 1 3 0)) 0; ICall 2 (ONew (IV 0 3 0)) 0]) (λ t, t = 1 \/ t = 2).
Proof.
  intros t [->| ->].
  - exists (ONew (IV 1 3 0)), None, [FConv 0 0 (8, 0)], 2, (FWait (ONew (IV 0 3 0)) None), [FConv 1 0 (8, 0)], (FConv 1 0 (8, 0)).
    split_and!; [by vm_compute|by right|by vm_compute|by left|by vm_compute].
  - exists (ONew (IV 0 3 0)), None, [FConv 1 0 (8, 0)], 1, (FWait (ONew (IV 1 3 0)) None), [FConv 0 0 (8, 0)], (FConv 0 0 (8, 0)).
    split_and!; [by vm_compute|by left|by vm_compute|by left|by vm_compute].
Qed.

(** ** The wasteful conversion: [n] calls of [from_ref] with key 2 *)
Definition v0 : ival := IV 0 0 0.
Definition waste_call (a : nat) : list (ilabel ival (nat * nat)) :=
  [ICall 1 (ORef 0 0 (2, 0)) 0; IStep 1 0 0; IStep 1 0 0; IConv 1 v0; IStep 1 a 0; IStep 1 0 0; IStep 1 0 0].
Fixpoint waste (n : nat) : list (ilabel ival (nat * nat)) :=
  match n with 0 => [] | S n => waste n ++ waste_call (100 + n) end.

Section waste.
  Notation S' m L T n l := (IState m {[5 := [(0, [pA])]]} L ∅ {[1 := T]} n l : istate ival (nat * nat)).
  Definition wo : iop ival (nat * nat) := ORef 0 0 (2, 0).
  Lemma waste_run m n l :
    m !! 0 = Some (IObj 100 v0 true) -> map_Forall (λ s x, io_addr x <> 100 + n) m -> n <> 0 -> m !! n = None ->
    run (istep normE) (S' m ∅ [] n l) (waste_call (100 + n)) =
    Some (S' (<[n := IObj (100 + n) v0 true]> m) ∅ [] (S n) (EvRet 1 wo (RPtr (IPtr (100 + n) 0 n)) :: l)).
  Proof.
    intros H0 Hf Hn Hn'. set (p := IPtr (100 + n) 0 n). set (m' := <[n := IObj (100 + n) v0 true]> m).
    assert (m' !! 0 = Some (IObj 100 v0 true)) as H0'. { unfold m'. by rewrite lookup_insert_ne. }
    assert (m' !! n = Some (IObj (100 + n) v0 true)) as Hnn. { unfold m'. by rewrite lookup_insert. }
    assert (forall m T n l L, get_stack (S' m L T n l) 1 = T) as Hg. { intros. by vm_compute. }
    assert (forall m L T n l, set_of normE (S' m L T n l) 0 = [pA]) as Hs. { intros. by vm_compute. }
    assert (forall m L T T' n l, set_stack (S' m L T n l) 1 T' = S' m L T' n l) as Hset.
    { intros. unfold set_stack. simpl. by rewrite insert_singleton. }
    assert (istep normE (S' m ∅ [] n l) (ICall 1 wo 0) = Next (S' m ∅ [FWait wo None] n l)) as E1.
    { unfold istep. rewrite Hg. simpl. by rewrite Hset. }
    assert (istep normE (S' m ∅ [FWait wo None] n l) (IStep 1 0 0) = Next (S' m {[5 := 1]} [FGet wo None] n l)) as E2.
    { unfold istep, istep_thread. rewrite Hg. change (slot normE (op_ty normE wo)) with 5. cbn [i_locks]. rewrite lookup_empty.
      unfold set_slots, ilock, container, wo. cbn [i_objs i_slots i_locks i_poison i_threads i_next i_log op_ty].
      rewrite lookup_singleton, insert_singleton. cbn. by rewrite Hset. }
    assert (istep normE (S' m {[5 := 1]} [FGet wo None] n l) (IStep 1 0 0) = Next (S' m {[5 := 1]} [FConv 0 0 (2, 0)] n l)) as E3.
    { unfold istep, istep_thread. rewrite Hg. change (op_ty normE wo) with 0. rewrite Hs.
      unfold ireadable, candidates, iread. simpl. rewrite H0. simpl. by rewrite Hset. }
    assert (istep normE (S' m {[5 := 1]} [FConv 0 0 (2, 0)] n l) (IConv 1 v0) = Next (S' m {[5 := 1]} [FStore wo v0] n l)) as E4.
    { unfold istep. rewrite Hg. simpl. by rewrite Hset. }
    assert (istep normE (S' m {[5 := 1]} [FStore wo v0] n l) (IStep 1 (100 + n) 0) = Next (S' m' {[5 := 1]} [FIns wo p] (S n) l)) as E5.
    { unfold istep, istep_thread. rewrite Hg. unfold ialloc. assert (addr_free normE (S' m {[5 := 1]} [FStore wo v0] n l) (100 + n) = true) as ->.
      { unfold addr_free. apply bool_decide_eq_true. intros s x Hx. right. by apply Hf in Hx. }
      simpl. unfold set_stack. simpl. by rewrite insert_singleton. }
    assert (istep normE (S' m' {[5 := 1]} [FIns wo p] (S n) l) (IStep 1 0 0) = Next (S' m' {[5 := 1]} [FDone wo (RPtr p)] (S n) l)) as E6.
    { unfold istep, istep_thread. rewrite Hg. change (op_ty normE wo) with 0. rewrite Hs.
      unfold ireadable, candidates, iread. simpl. rewrite H0', Hnn. simpl. by rewrite Hset. }
    assert (istep normE (S' m' {[5 := 1]} [FDone wo (RPtr p)] (S n) l) (IStep 1 0 0) =
      Next (S' m' ∅ [] (S n) (EvRet 1 wo (RPtr p) :: l))) as E7.
    { unfold istep, istep_thread. rewrite Hg. change (slot normE (op_ty normE wo)) with 5. unfold iunlock, set_stack, add_event. simpl.
      by rewrite insert_singleton, delete_singleton. }
    unfold waste_call. fold wo. cbn [run]. unfold exec. by rewrite E1, E2, E3, E4, E5, E6, E7.
  Qed.

  Fixpoint waste_objs (n : nat) : gmap nat (iobj ival) :=
    match n with 0 => ∅ | S n => <[n := IObj (100 + n) v0 true]> (waste_objs n) end.
  Fixpoint waste_log (n : nat) : list (ievent ival (nat * nat)) :=
    match n with 0 => [EvIns 1 wo pA v0] | S n => EvRet 1 wo (RPtr (IPtr (100 + n) 0 n)) :: waste_log n end.
  Lemma waste_objs_in n s : waste_objs n !! s = if decide (s < n) then Some (IObj (100 + s) v0 true) else None.
  Proof.
    induction n as [|n IH]; [cbn [waste_objs]; rewrite lookup_empty; by destruct (decide (s < 0)); [lia|]|]. cbn [waste_objs].
    destruct (decide (n = s)) as [<-|].
    - rewrite lookup_insert, decide_True by lia. done.
    - rewrite lookup_insert_ne, IH by done. destruct (decide (s < n)), (decide (s < S n)); try lia; done.
  Qed.
  Lemma waste_first : run (istep normE) iinit (waste 1) = Some (S' (waste_objs 1) ∅ [] 1 (waste_log 1)).
  Proof.
    destruct (run (istep normE) iinit (waste 1)) as [[m1 m2 m3 m4 m5 n l]|] eqn:Hr; [|by vm_compute in Hr].
    apply (f_equal (λ x, match x with Some y => (map_to_list (i_objs y), map_to_list (i_slots y), map_to_list (i_locks y),
      elements (i_poison y), map_to_list (i_threads y), i_next y, i_log y)
      | None => ([], [], [], [], [], 0, []) end)) in Hr.
    simpl map_to_list in Hr. symmetry in Hr.
    match type of Hr with _ = ?x => let y := eval vm_compute in x in change x with y in Hr end.
    injection Hr as H1 H2 H3 H4 H5 -> ->.
    assert (forall A (m : gmap nat A) x y, map_to_list m = [(x, y)] -> m = {[x := y]}) as Hsing.
    { intros A m x y H. rewrite <- (list_to_map_to_list m), H. done. }
    apply Hsing in H1 as ->. apply Hsing in H2 as ->. apply map_to_list_empty_iff in H3 as ->.
    apply Hsing in H5 as ->. apply elements_empty_iff, leibniz_equiv in H4 as ->. done.
  Qed.
  Lemma waste_state n : run (istep normE) iinit (waste (S n)) = Some (S' (waste_objs (S n)) ∅ [] (S n) (waste_log (S n))).
  Proof.
    induction n as [|n IH]; [apply waste_first|].
    change (waste (S (S n))) with (waste (S n) ++ waste_call (100 + S n)). rewrite run_app, IH. apply waste_run.
    - by rewrite waste_objs_in, decide_True by lia.
    - intros s x. rewrite waste_objs_in. destruct (decide (s < S n)); [|done]. intros [= <-]. simpl. lia.
    - done.
    - by rewrite waste_objs_in, decide_False by lia.
  Qed.
  Lemma waste_log_in n i : i < n -> EvRet 1 wo (RPtr (IPtr (100 + i) 0 i)) ∈ waste_log n.
  Proof.
    induction n as [|n IH]; intros Hi; [lia|]. cbn [waste_log]. destruct (decide (i = n)) as [->|]; [by left|].
    right. apply IH. lia.
  Qed.

  (** After [n] calls there are [n] allocations that nobody frees and [n] handles, pairwise
      unequal; all read the same value, and the count of interned objects is 1. *)
  Lemma waste_all n : 0 < n ->
    exists ls st (hs : list iptr), run (istep normE) iinit ls = Some st /\ no_clear ls /\ length hs = n /\
      (forall p, p ∈ hs -> EvRet 1 wo (RPtr p) ∈ i_log st /\ iread st p = Some v0) /\
      (forall i j p q, hs !! i = Some p -> hs !! j = Some q -> i <> j -> iptr_eqb p q = false) /\
      (exists l, i_log st = EvRet 1 (OLen 0) (RNum 1) :: l).
  Proof.
    intros Hn. destruct n as [|n]; [lia|].
    exists (waste (S n) ++ icall 1 0 (OLen 0) 2),
      (S' (waste_objs (S n)) ∅ [] (S n) (EvRet 1 (OLen 0) (RNum 1) :: waste_log (S n))),
      ((λ i, IPtr (100 + i) 0 i) <$> seq 0 (S n)).
    split_and!.
    - rewrite run_app, waste_state. generalize (waste_objs (S n)) (waste_log (S n)). intros m l.
      unfold icall. cbn [run replicate]. unfold exec at 1. unfold istep, get_stack at 1. cbn [i_threads].
      rewrite lookup_singleton. cbn [from_option id].
      replace (set_stack _ 1 _) with (S' m ∅ [FWait (OLen 0) None] (S n) l); [|unfold set_stack; simpl; by rewrite insert_singleton].
      unfold exec at 1. unfold istep, istep_thread, get_stack at 1. cbn [i_threads]. rewrite lookup_singleton. cbn [from_option id].
      change (slot normE (op_ty normE (OLen 0))) with 5. cbn [i_locks]. rewrite lookup_empty.
      unfold set_slots, ilock, container. cbn [i_objs i_slots i_locks i_poison i_threads i_next i_log op_ty].
      rewrite lookup_singleton, insert_singleton. cbn [default from_option id get_type_mut find_set Nat.eqb].
      replace (set_stack _ 1 _) with (S' m {[5 := 1]} [FDone (OLen 0) (RNum 1)] (S n) l).
      2:{ unfold set_stack. simpl. rewrite insert_singleton. f_equal. }
      unfold exec at 1. unfold istep, istep_thread, get_stack at 1. cbn [i_threads]. rewrite lookup_singleton. cbn [from_option id].
      unfold add_event, set_stack, iunlock. cbn [i_objs i_slots i_locks i_poison i_threads i_next i_log op_ty].
      change (slot normE 0) with 5. by rewrite insert_singleton, delete_singleton.
    - intros t ty a Hin. apply elem_of_app in Hin as [Hin|Hin].
      + revert Hin. generalize (S n). induction n0 as [|m IH]; intros Hin; [by apply elem_of_nil in Hin|].
        cbn [waste] in Hin. apply elem_of_app in Hin as [Hin|Hin]; [auto|].
        apply elem_of_list_In in Hin. simpl in Hin. intuition done.
      + apply elem_of_list_In in Hin. simpl in Hin. intuition done.
    - by rewrite fmap_length, seq_length.
    - intros p Hp. apply elem_of_list_fmap in Hp as (i&->&Hi). apply elem_of_seq in Hi.
      split; [right; apply waste_log_in; lia|]. unfold iread. cbn [ip_ser i_objs].
      by rewrite waste_objs_in, decide_True by lia.
    - intros i j p q. rewrite !list_lookup_fmap. intros Hi Hj Hne.
      apply fmap_Some in Hi as (x&Hx&->), Hj as (y&Hy&->).
      apply lookup_seq in Hx as [-> _], Hy as [-> _]. unfold iptr_eqb. cbn [ip_addr].
      apply andb_false_iff. left. apply Nat.eqb_neq. lia.
    - by eexists.
  Qed.
End waste.

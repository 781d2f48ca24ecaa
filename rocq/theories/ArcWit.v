(** Refutations: executions of the faithful model that break a claim. *)
From stdpp Require Import gmap list numbers.
From Verif Require Import Base ArcModel ArcSpec ArcInv ArcReach ArcLive ArcEx.

(** ** [num_objects_interned] is not a snapshot *)
Section len.
  Let E := nodes 2 256.
  Definition len_pre : list (label node) := intern 1 10 KSized (Node 0 2 []).
  Definition len_mid : list (label node) :=
    [LStep 2 0 0] ++ intern 1 20 KSized (Node 0 0 []) ++ LDrop 1 (Ptr 10 0) :: steps 1 0 5
    ++ [LStep 2 0 0; LStep 2 0 0].

  Definition somebody_live (st : state node) : bool :=
    existsb (λ p, (0 <? handles_to E st p) &&
                  match data st p with Some d => n_ty d =? 0 | None => false end)
            [Ptr 10 0; Ptr 20 1].

  Lemma somebody_live_spec st : somebody_live st = true -> exists p, live_object E st 0 p.
  Proof.
    unfold somebody_live. intros (p&_&[Hh%Nat.ltb_lt Hd]%andb_true_iff)%existsb_exists.
    exists p. split; [done|]. destruct (data st p) as [d|]; [|done]. exists d. split; [done|].
    by apply Nat.eqb_eq.
  Qed.

  Definition check_prefix st0 i : bool :=
    match run (step E) st0 (LLen 2 0 :: firstn i len_mid) with
    | Some st => somebody_live st
    | None => false
    end.

  Lemma len_not_snapshot :
    exists (E : tyenv node) pre st0 t ty ls st' rest,
      lawful E /\ (2 <= te_mod E)%N /\ bounded E (pre ++ LLen t ty :: ls) /\
      run (step E) init pre = Some st0 /\ get_pc st0 t = PFree /\
      run (step E) st0 (LLen t ty :: ls) = Some st' /\
      st_log st' = EvLen t ty 0 :: rest /\
      forall l1 l2 st1, ls = l1 ++ l2 -> run (step E) st0 (LLen t ty :: l1) = Some st1 ->
        exists p, live_object E st1 ty p.
  Proof.
    pose proof (after_run E len_pre ltac:(vm_compute; reflexivity)) as H0.
    pose proof (after_run E (len_pre ++ LLen 2 0 :: len_mid) ltac:(vm_compute; reflexivity)) as H1.
    pose (st' := after E (len_pre ++ LLen 2 0 :: len_mid)).
    exists E, len_pre, (after E len_pre), 2, 0, len_mid, st', (tail (st_log st')).
    split_and!.
    - apply nodes_lawful.
    - done.
    - apply short_bounded; [apply lawful_coherent, nodes_lawful|done|]. vm_compute. reflexivity.
    - exact H0.
    - vm_compute. reflexivity.
    - rewrite run_app, H0 in H1. exact H1.
    - vm_compute. reflexivity.
    - intros l1 l2 st1 Hl Hr.
      assert (forallb (check_prefix (after E len_pre)) (seq 0 (S (length len_mid))) = true) as Hc
        by (vm_compute; reflexivity).
      rewrite forallb_forall in Hc. specialize (Hc (length l1)).
      unfold check_prefix in Hc. rewrite Hl, take_app in Hc. rewrite Hr in Hc.
      apply somebody_live_spec, Hc. rewrite in_seq, app_length. lia.
  Qed.
End len.

(** ** Removal is by Eq, not by pointer *)
Section asym.
  (** An Eq that is reflexive and transitive but not symmetric: 0 == 1 but not 1 == 0. *)
  Definition asym : tyenv nat :=
    TyEnv nat (λ u v, (u =? v) || ((u =? 0) && (v =? 1))) (λ _, 0) (λ _, 0) (λ _, []) (λ _ _, true) 4 256.

  Definition asym_run : list (label nat) :=
    LNew 1 KSized 0 :: replicate 6 (LStep 1 10 0)
    ++ LNew 1 KSized 1 :: replicate 6 (LStep 1 20 0)
    ++ LDrop 1 (Ptr 10 0) :: replicate 5 (LStep 1 0 0)
    ++ [LDeref (Ptr 20 1) []].

  Lemma asym_ub :
    exists (E : tyenv nat) ls,
      (forall v, te_eq E v v = true) /\
      (forall u v w, te_eq E u v = true -> te_eq E v w = true -> te_eq E u w = true) /\
      (forall u v, te_hash E u = te_hash E v /\ te_ty E u = te_ty E v) /\
      (N.of_nat (length ls) < te_mod E)%N /\ no_panic ls /\
      run (step E) init ls = None.
  Proof.
    exists asym, asym_run. split_and!.
    - intros v. simpl. by rewrite Nat.eqb_refl.
    - intros u v w. simpl.
      destruct (Nat.eqb_spec u v), (Nat.eqb_spec v w), (Nat.eqb_spec u w); subst; simpl; try done.
      rewrite !andb_true_iff, !Nat.eqb_eq. lia.
    - done.
    - vm_compute. reflexivity.
    - unfold no_panic, asym_run. simpl. repeat constructor; auto.
    - vm_compute. reflexivity.
  Qed.

  (** The victim is an object that a client still holds a handle to. *)
  Lemma asym_frees_live :
    exists (E : tyenv nat) ls st l st' p d,
      (forall v, te_eq E v v = true) /\
      (forall u v w, te_eq E u v = true -> te_eq E v w = true -> te_eq E u w = true) /\
      (forall u v, te_hash E u = te_hash E v /\ te_ty E u = te_ty E v) /\
      (N.of_nat (length ls) < te_mod E)%N /\ no_panic ls /\
      run (step E) init ls = Some st /\ p ∈ st_pool st /\ data st p = Some d /\
      step E st l = Next st' /\ p ∈ st_pool st' /\ data st' p = None.
  Proof.
    pose (ls := firstn 17 asym_run).
    pose proof (after_run asym ls ltac:(vm_compute; reflexivity)) as H0.
    pose (l := @LStep nat 1 0 0).
    exists asym, ls, (after asym ls), l,
      (match step asym (after asym ls) l with Next s => s | _ => init end), (Ptr 20 1), 1.
    split_and!.
    - intros v. simpl. by rewrite Nat.eqb_refl.
    - intros u v w. simpl.
      destruct (Nat.eqb_spec u v), (Nat.eqb_spec v w), (Nat.eqb_spec u w); subst; simpl; try done.
      rewrite !andb_true_iff, !Nat.eqb_eq. lia.
    - done.
    - vm_compute. reflexivity.
    - unfold no_panic, ls, asym_run. simpl. repeat constructor; auto.
    - exact H0.
    - apply elem_of_list_In. vm_compute. auto.
    - vm_compute. reflexivity.
    - vm_compute. reflexivity.
    - apply elem_of_list_In. vm_compute. auto.
    - vm_compute. reflexivity.
  Qed.
End asym.

(** ** A Hash that does not respect Eq *)
Section badhash.
  (** All values are equal, but they have different hashes; looking up hash 0 happens to
      run into the entry stored under hash 1. *)
  Definition badhash : tyenv nat :=
    TyEnv nat (λ _ _, true) (λ v, v) (λ _, 0) (λ _, []) (λ h h', (h =? 0) && (h' =? 1)) 1 256.

  Lemma badhash_ub :
    exists (E : tyenv nat) ls,
      (forall v, te_eq E v v = true) /\
      (forall u v, te_eq E u v = true -> te_eq E v u = true) /\
      (forall u v w, te_eq E u v = true -> te_eq E v w = true -> te_eq E u w = true) /\
      (N.of_nat (length ls) < te_mod E)%N /\ no_panic ls /\
      run (step E) init ls = None.
  Proof.
    exists badhash, asym_run. split_and!; [done|done|done|done| |vm_compute; reflexivity].
    unfold no_panic, asym_run. simpl. repeat constructor; auto.
  Qed.
End badhash.

(** ** Overflow of the reference count *)

(** [all_along P st ls]: [P] holds in every state the execution goes through. *)
Fixpoint all_along (E : tyenv node) (P : state node -> Prop) (st : state node) (ls : list (label node)) : Prop :=
  P st /\ match ls with
          | [] => True
          | l :: ls' => match exec (step E) st l with Some st' => all_along E P st' ls' | None => True end
          end.
Lemma all_along_prefix E P st ls : all_along E P st ls ->
  forall l1 l2 st1, ls = l1 ++ l2 -> run (step E) st l1 = Some st1 -> P st1.
Proof.
  revert st. induction ls as [|l ls IH]; intros st [HP Ha] l1 l2 st1 Hl Hr.
  - destruct l1; [|done]. simpl in Hr. by injection Hr as <-.
  - destruct l1 as [|l' l1]; [simpl in Hr; by injection Hr as <-|].
    injection Hl as <- Hl. simpl in Hr. destruct (exec (step E) st l) as [st'|]; [|done].
    by eapply IH.
Qed.
Lemma all_along_app E P st ls1 ls2 st1 :
  all_along E P st ls1 -> run (step E) st ls1 = Some st1 -> all_along E P st1 ls2 ->
  all_along E P st (ls1 ++ ls2).
Proof.
  revert st. induction ls1 as [|l ls1 IH]; intros st [HP Ha] Hr H2.
  - simpl in Hr. by injection Hr as ->.
  - simpl in Hr |- *. split; [done|]. destruct (exec (step E) st l) as [st'|]; [|done].
    by apply IH.
Qed.
Lemma all_along_next E (P : state node -> Prop) st l st' ls :
  P st -> step E st l = Next st' -> all_along E P st' ls -> all_along E P st (l :: ls).
Proof. intros HP Hs Ha. simpl all_along. split; [done|]. unfold exec. by rewrite Hs. Qed.
Lemma run_next (E : tyenv node) st l st' ls r :
  step E st l = Next st' -> run (step E) st' ls = r -> run (step E) st (l :: ls) = r.
Proof. intros Hs Hr. simpl run. unfold exec. by rewrite Hs. Qed.

(** An upper bound of the number of handles to any object. *)
Definition pc_ub (x : pc node) : nat :=
  match x with
  | PLookup _ v _ | PHit _ v _ _ | PUndo _ v _ _ | PAlloc _ v _ => length (n_kids v)
  | PInc _ v _ _ old => length (n_kids v) + if (old =? 0)%N then 0 else 1
  | PIns _ _ _ => 1
  | PRem _ _ w r | PWork w r =>
      length (List.filter (λ i, match i with IDrop _ => true | _ => false end) w)
      + match r with Some _ => 1 | None => 0 end
  | _ => 0
  end.
Definition cell_ub (c : cell node) : nat := match c_data c with Some v => length (n_kids v) | None => 0 end.
Definition ub (st : state node) : nat :=
  length (st_pool st) + length (st_gone st) + msum cell_ub (st_heap st) + msum pc_ub (st_threads st).
Lemma ub_ok sh M st q : handles_to (nodes sh M) st q <= ub st.
Proof.
  assert (forall l : list ptr, occ q l <= length l) as Hocc.
  { intros l. induction l as [|x l IH]; simpl; [done|]. destruct (decide (x = q)); lia. }
  assert (forall x, is_p q x <= 1) as Hp by (intros x; unfold is_p, b2n; by case_bool_decide; lia).
  assert (forall w, work_handles q w
    <= length (List.filter (λ i, match i with IDrop _ => true | _ => false end) w)) as Hw.
  { induction w as [|[x|x|x] w IH]; simpl; [done| |done|done]. specialize (Hp x). lia. }
  assert (forall k v, arg_handles (nodes sh M) q k v <= length (n_kids v)) as Ha
    by (intros [] v; simpl; [apply Hocc|lia]).
  assert (forall r, ret_handles (V:=node) q r <= match r with Some _ => 1 | None => 0 end) as Hr
    by (intros [[? x]|]; simpl; [apply Hp|done]).
  unfold handles_to, ub.
  pose proof (Hocc (st_pool st)). pose proof (Hocc (st_gone st)).
  pose proof (msum_le (cell_handles (nodes sh M) q) cell_ub (st_heap st)) as H1.
  pose proof (msum_le (pc_handles (nodes sh M) q) pc_ub (st_threads st)) as H2.
  assert (forall x, cell_handles (nodes sh M) q x <= cell_ub x) as H1'.
  { intros [s n [v|]]; unfold cell_handles, cell_ub; simpl; [apply Hocc|done]. }
  assert (forall x, pc_handles (nodes sh M) q x <= pc_ub x) as H2'.
  { intros []; simpl; try apply Ha; try lia; try apply Hp.
    - specialize (Ha k v). specialize (Hp p). destruct (old =? 0)%N; lia.
    - specialize (Hw w). specialize (Hr r). lia.
    - specialize (Hw w). specialize (Hr r). lia. }
  specialize (H1 H1'). specialize (H2 H2'). lia.
Qed.

Fixpoint along_b (E : tyenv node) (k : nat) (st : state node) (ls : list (label node)) : bool :=
  (ub st <=? k) && match ls with
          | [] => true
          | l :: ls' => match exec (step E) st l with Some st' => along_b E k st' ls' | None => true end
          end.
Lemma along_check E n st ls : along_b E 2 st ls = true -> all_along E (λ st, ub st <= S (S n)) st ls.
Proof.
  revert st. induction ls as [|l ls IH]; intros st; simpl along_b; simpl all_along;
    intros [Hu%Nat.leb_le Hb]%andb_true_iff; (split; [lia|]); [done|].
  destruct (exec (step E) st l); [by apply IH|done].
Qed.

Definition v0 := Node 0 0 [].
Definition p0 := Ptr 10 0.

(** States with one object, of count [c]. *)
Definition mk (c : N) (pool gone : list ptr) (locks : gmap (nat * nat) nat) (th : gmap nat (pc node))
    (log : list (event node)) : state node :=
  State {[ 10 := Cell 0 c (Some v0) ]} [p0] locks pool gone th 1 [] log.

Lemma deref_mk c pool gone locks th log : deref (mk c pool gone locks th log) p0 = Some (Cell 0 c (Some v0)).
Proof. unfold deref. simpl. by rewrite lookup_singleton. Qed.
Lemma data_mk c pool gone locks th log : data (mk c pool gone locks th log) p0 = Some v0.
Proof. unfold data. by rewrite deref_mk. Qed.
Lemma set_count_mk c pool gone locks th log n :
  set_count (mk c pool gone locks th log) p0 (Cell 0 c (Some v0)) n = mk n pool gone locks th log.
Proof. unfold set_count, set_heap, mk. simpl. by rewrite insert_singleton. Qed.
Lemma set_pc_mk c pool gone locks th log t x :
  set_pc (mk c pool gone locks th log) t x = mk c pool gone locks (<[t:=x]> th) log.
Proof. done. Qed.
Lemma get_pc_mk c pool gone locks th log t :
  get_pc (mk c pool gone locks th log) t = default PFree (th !! t).
Proof. done. Qed.
Lemma readable_mk c pool gone locks th log : readable (mk c pool gone locks th log) = true.
Proof. unfold readable. simpl. by rewrite data_mk. Qed.
Lemma lock_mk c pool gone locks th log l t :
  lock (mk c pool gone locks th log) l t = mk c pool gone (<[l:=t]> locks) th log.
Proof. done. Qed.
Lemma unlock_mk c pool gone locks th log l :
  unlock (mk c pool gone locks th log) l = mk c pool gone (delete l locks) th log.
Proof. done. Qed.

Lemma ub_mk c pool gone locks th log :
  ub (mk c pool gone locks th log) = length pool + length gone + msum pc_ub th.
Proof.
  unfold ub. simpl. rewrite <- insert_empty, msum_insert_None, msum_empty by done. simpl. lia.
Qed.

Definition TH (x1 x2 : pc node) : gmap nat (pc node) := <[1:=x1]> (<[2:=x2]> ∅).
Lemma TH_1 x1 x2 x : <[1:=x]> (TH x1 x2) = TH x x2.
Proof. unfold TH. by rewrite insert_insert. Qed.
Lemma TH_2 x1 x2 x : <[2:=x]> (TH x1 x2) = TH x1 x.
Proof. unfold TH. rewrite insert_commute by done. by rewrite insert_insert. Qed.
Lemma TH_l1 x1 x2 : TH x1 x2 !! 1 = Some x1.
Proof. unfold TH. by rewrite lookup_insert. Qed.
Lemma TH_l2 x1 x2 : TH x1 x2 !! 2 = Some x2.
Proof. unfold TH. rewrite lookup_insert_ne by done. by rewrite lookup_insert. Qed.
Lemma TH_sum f x1 x2 : msum f (TH x1 x2) = f x1 + f x2.
Proof.
  unfold TH. rewrite msum_insert_None; [rewrite msum_insert_None, msum_empty; [lia|done]|].
  rewrite lookup_insert_ne by done. done.
Qed.

Section overflow.
  Context (M : N) (HM : (2 <= M)%N).
  Notation E := (nodes 1 M).

  Lemma matches_mk c pool gone locks th log : matches E (mk c pool gone locks th log) v0 = [p0].
  Proof. unfold matches. simpl. unfold is_match. rewrite data_mk. done. Qed.

  Lemma clone_step c pool gone locks th log :
    p0 ∈ pool ->
    step E (mk c pool gone locks th log) (LClone p0 []) =
    Next (mk ((c + 1) mod M)%N (p0 :: pool) gone locks th log).
  Proof.
    intros Hp. unfold step. unfold borrow. rewrite decide_True by done. simpl follow. cbv iota beta.
    rewrite deref_mk. rewrite set_count_mk. done.
  Qed.

  Lemma clones n c pool gone locks th log :
    p0 ∈ pool ->
    run (step E) (mk (c mod M)%N pool gone locks th log) (replicate n (LClone p0 [])) =
    Some (mk ((c + N.of_nat n) mod M)%N (replicate n p0 ++ pool) gone locks th log).
  Proof.
    revert c pool. induction n as [|n IH]; intros c pool Hp.
    - simpl. by rewrite N.add_0_r.
    - simpl replicate. eapply run_next; [by apply clone_step|].
      rewrite N.add_mod_idemp_l by lia. rewrite IH by (by right).
      f_equal. f_equal; [f_equal; lia|].
      change (p0 :: replicate n p0) with (replicate (S n) p0). by rewrite replicate_S_end, <- app_assoc.
  Qed.

  Lemma clones_along n c pool locks th log (k : nat) :
    p0 ∈ pool -> length pool + n + msum pc_ub th <= k ->
    all_along E (λ st, ub st <= k) (mk (c mod M)%N pool [] locks th log)
      (replicate n (LClone p0 [])).
  Proof.
    revert c pool. induction n as [|n IH]; intros c pool Hp Hle.
    - split; [|done]. rewrite ub_mk. simpl. lia.
    - simpl replicate. eapply all_along_next; [|by apply clone_step|].
      + rewrite ub_mk. simpl. lia.
      + rewrite N.add_mod_idemp_l by lia. apply IH; [by right|]. simpl. lia.
  Qed.

  Definition LK : gmap (nat * nat) nat := <[(0,0):=2]> ∅.
  Lemma lock_v0 : lock_of E v0 = (0, 0).
  Proof. done. Qed.

  Ltac locks_empty :=
    match goal with |- context [st_locks (mk ?c ?p ?g ?l ?t ?lg)] =>
      change (st_locks (mk c p g l t lg)) with l end; rewrite lookup_empty.

  (** One step each. *)
  Lemma w_new c pool log x1 :
    step E (mk c pool [] ∅ (TH x1 PFree) log) (LNew 2 KSized v0) =
    Next (mk c pool [] ∅ (TH x1 (PLookup KSized v0 None)) log).
  Proof. unfold step. rewrite get_pc_mk, TH_l2. simpl. unfold set_pc. simpl. by rewrite TH_2. Qed.
  Lemma w_lookup c pool log x1 :
    step E (mk c pool [] ∅ (TH x1 (PLookup KSized v0 None)) log) (LStep 2 0 0) =
    Next (mk c pool [] LK (TH x1 (PHit KSized v0 None p0)) log).
  Proof.
    unfold step, step_thread. rewrite get_pc_mk, TH_l2. cbv iota beta delta [default id from_option].
    rewrite readable_mk, matches_mk, lock_v0. locks_empty. change (pick 0 [p0]) with (Some p0). cbv iota beta.
    rewrite lock_mk, set_pc_mk, TH_2. done.
  Qed.
  Lemma w_hit c pool log x1 :
    step E (mk c pool [] LK (TH x1 (PHit KSized v0 None p0)) log) (LStep 2 0 0) =
    Next (mk ((c + 1) mod M)%N pool [] LK (TH x1 (PInc KSized v0 None p0 c)) log).
  Proof.
    unfold step, step_thread. rewrite get_pc_mk, TH_l2. cbv iota beta delta [default id from_option].
    rewrite deref_mk, set_count_mk, set_pc_mk, TH_2. done.
  Qed.
  Lemma w_drop c pool pool' gone lk log x2 :
    rem1 p0 pool = Some pool' ->
    step E (mk c pool gone lk (TH PFree x2) log) (LDrop 1 p0) =
    Next (mk c pool' gone lk (TH (PWork [IDrop p0] None) x2) log).
  Proof.
    intros Hr. unfold step. rewrite get_pc_mk, TH_l1. simpl. rewrite Hr.
    unfold set_pc. simpl. by rewrite TH_1.
  Qed.
  Lemma w_dec pool gone lk log x2 :
    step E (mk 1 pool gone lk (TH (PWork [IDrop p0] None) x2) log) (LStep 1 0 0) =
    Next (mk 0 pool gone lk (TH (PWork [IRemove p0] None) x2) log).
  Proof.
    unfold step, step_thread. rewrite get_pc_mk, TH_l1. cbv iota beta delta [default id from_option].
    rewrite deref_mk, set_count_mk, set_pc_mk, TH_1. cbn [c_count]. unfold count_dec. simpl te_mod.
    replace (1 + M - 1)%N with M by lia. rewrite N.mod_same by lia. done.
  Qed.
  Lemma w_undo c pool log x1 :
    step E (mk c pool [] LK (TH x1 (PInc KSized v0 None p0 0)) log) (LStep 2 0 0) =
    Next (mk (count_dec E c) pool [] LK (TH x1 (PUndo KSized v0 None p0)) log).
  Proof.
    unfold step, step_thread. rewrite get_pc_mk, TH_l2. cbv iota beta delta [default id from_option].
    rewrite deref_mk, set_count_mk, set_pc_mk, TH_2. done.
  Qed.
  Lemma w_again c pool log x1 :
    step E (mk c pool [] LK (TH x1 (PUndo KSized v0 None p0)) log) (LStep 2 0 0) =
    Next (mk c pool [] ∅ (TH x1 (PLookup KSized v0 None)) log).
  Proof.
    unfold step, step_thread. rewrite get_pc_mk, TH_l2. cbv iota beta delta [default id from_option].
    rewrite lock_v0, unlock_mk, set_pc_mk, TH_2. unfold LK. by rewrite delete_insert.
  Qed.
  Lemma w_remove c pool gone log x2 :
    step E (mk c pool gone ∅ (TH (PWork [IRemove p0] None) x2) log) (LStep 1 0 0) =
    Next (mk c pool gone (<[(0,0):=1]> ∅) (TH (PRem (0,0) p0 [] None) x2) log).
  Proof.
    unfold step, step_thread. rewrite get_pc_mk, TH_l1. cbv iota beta delta [default id from_option].
    rewrite data_mk, readable_mk, matches_mk, lock_v0. locks_empty. change (pick 0 [p0]) with (Some p0). cbv iota beta.
    rewrite lock_mk, set_pc_mk, TH_1. done.
  Qed.
  Lemma w_take c pool gone log x2 :
    step E (mk c pool gone (<[(0,0):=1]> ∅) (TH (PRem (0,0) p0 [] None) x2) log) (LStep 1 0 0) =
    Next (State {[ 10 := Cell 0 c None ]} [] ∅ pool gone (TH (PWork [IFree p0] None) x2) 1 [] log).
  Proof.
    unfold step, step_thread. rewrite get_pc_mk, TH_l1. cbv iota beta delta [default id from_option].
    rewrite deref_mk. unfold c_data. unfold take_data, unlock, set_table, set_heap, set_pc, mk. simpl.
    rewrite insert_singleton, TH_1, delete_insert by done. done.
  Qed.
  Lemma w_free c pool gone log x2 :
    step E (State {[ 10 := Cell 0 c None ]} [] ∅ pool gone (TH (PWork [IFree p0] None) x2) 1 [] log) (LStep 1 0 0) =
    Next (State ∅ [] ∅ pool gone (TH (PWork [] None) x2) 1 [] log).
  Proof.
    unfold step, step_thread. unfold get_pc at 1. simpl st_threads at 1. rewrite TH_l1.
    cbv iota beta delta [default id from_option]. unfold deref. simpl. rewrite lookup_singleton. simpl.
    unfold free, set_heap, set_pc. simpl. by rewrite delete_singleton, TH_1.
  Qed.
  Lemma w_ub pool gone th log :
    p0 ∈ pool -> step E (State ∅ [] ∅ pool gone th 1 [] log) (LDeref p0 []) = UB.
  Proof.
    intros Hp. unfold step, borrow. rewrite decide_True by done. simpl follow. cbv iota beta.
    unfold data, deref. simpl. by rewrite lookup_empty.
  Qed.
End overflow.

Global Instance cell_eq_dec : EqDecision (cell node).
Proof. solve_decision. Defined.
Global Instance kind_eq_dec : EqDecision kind.
Proof. solve_decision. Defined.
Global Instance item_eq_dec : EqDecision item.
Proof. solve_decision. Defined.
Global Instance pc_eq_dec : EqDecision (pc node).
Proof. solve_decision. Defined.


(** Threads 1 and 2 have started, thread 1 has interned [v0]. *)
Definition warm : list (label node) := LShrink 2 1 :: steps 2 0 2 ++ intern 1 10 KSized v0.
Lemma warm_run M :
  run (step (nodes 1 M)) init warm = Some (mk 1 [p0] [] ∅ (TH PFree PFree) [EvNew 1 v0 p0]).
Proof.
  rewrite (after_run (nodes 1 M) warm) by (vm_compute; reflexivity). f_equal.
  assert (st_heap (after (nodes 1 M) warm) = {[ 10 := Cell 0 1 (Some v0) ]}) as H1
    by (apply (bool_decide_unpack _); vm_compute; exact I).
  assert (st_locks (after (nodes 1 M) warm) = ∅) as H2
    by (apply (bool_decide_unpack _); vm_compute; exact I).
  assert (st_threads (after (nodes 1 M) warm) = TH PFree PFree) as H3
    by (apply (bool_decide_unpack _); vm_compute; exact I).
  assert (after (nodes 1 M) warm =
    State (st_heap (after (nodes 1 M) warm)) [p0] (st_locks (after (nodes 1 M) warm))
          [p0] [] (st_threads (after (nodes 1 M) warm)) 1 [] [EvNew 1 v0 p0]) as H4
    by (vm_compute; reflexivity).
  rewrite H4, H1, H2, H3. done.
Qed.

Definition tail2 : list (label node) :=
  [LNew 2 KSized v0; LStep 2 0 0; LStep 2 0 0; LDrop 1 p0; LStep 1 0 0; LStep 2 0 0; LStep 2 0 0;
   LStep 1 0 0; LStep 1 0 0; LStep 1 0 0; LDeref p0 []].

(** [2^W] handles suffice: one more than the safe bound. *)
Lemma overflow_tight (M : N) : (2 <= M)%N ->
  exists (E : tyenv node) ls,
    lawful E /\ te_mod E = M /\ no_panic ls /\
    (forall ls1 ls2 st1, ls = ls1 ++ ls2 -> run (step E) init ls1 = Some st1 ->
       forall p, (N.of_nat (handles_to E st1 p) <= M)%N) /\
    run (step E) init ls = None.
Proof.
  intros HM. pose (m := N.to_nat (M - 2)).
  pose (ls := warm ++ replicate (S m) (LClone p0 []) ++ tail2).
  assert (p0 ∈ replicate m p0 ++ [p0]) as Hin by set_solver.
  assert (1 + N.of_nat (S m) = M)%N as HM1 by lia.
  exists (nodes 1 M), ls. split_and!; [apply nodes_lawful|done| | |].
  - unfold no_panic, ls. rewrite !Forall_app. split_and!.
    + unfold warm. simpl. repeat constructor; auto.
    + apply Forall_replicate. auto.
    + unfold tail2. repeat constructor; auto.
  - assert (all_along (nodes 1 M) (λ st, ub st <= S (S m)) init ls) as Hall.
    2:{ intros ls1 ls2 st1 Hl Hr p. pose proof (all_along_prefix _ _ _ _ Hall _ _ _ Hl Hr) as Hu.
        simpl in Hu. pose proof (ub_ok 1 M st1 p). lia. }
    assert (forall c pool lk x1 x2 log, length pool + (pc_ub x1 + pc_ub x2) <= S (S m) ->
              ub (mk c pool [] lk (TH x1 x2) log) <= S (S m)) as Hub.
    { intros c pool lk x1 x2 log Hle. rewrite ub_mk, TH_sum. simpl. lia. }
    assert (length (replicate m p0 ++ [p0]) = S m) as Hlen by (rewrite app_length, replicate_length; simpl; lia).
    eapply all_along_app; [|by apply warm_run|eapply all_along_app].
    + apply along_check. vm_compute. reflexivity.
    + replace 1%N with (1 mod M)%N by (by rewrite N.mod_small by lia).
      apply clones_along; [lia|set_solver|]. rewrite TH_sum. simpl. lia.
    + replace 1%N with (1 mod M)%N at 1 by (by rewrite N.mod_small by lia).
      apply clones; [lia|set_solver].
    + rewrite HM1, N.mod_same by lia. unfold tail2. simpl replicate. simpl app.
      eapply all_along_next; [|by apply w_new|]; [apply Hub; simpl; lia|].
      eapply all_along_next; [|by apply w_lookup|]; [apply Hub; simpl; lia|].
      eapply all_along_next; [|by apply w_hit|]; [apply Hub; simpl; lia|].
      rewrite N.add_0_l, N.mod_small by lia.
      eapply all_along_next; [|apply w_drop; reflexivity|]; [apply Hub; simpl; lia|].
      eapply all_along_next; [|by apply w_dec|]; [apply Hub; simpl; lia|].
      eapply all_along_next; [|by apply w_undo|]; [apply Hub; simpl; lia|].
      eapply all_along_next; [|by apply w_again|]; [apply Hub; simpl; lia|].
      eapply all_along_next; [|by apply w_remove|]; [apply Hub; simpl; lia|].
      eapply all_along_next; [|by apply w_take|]; [apply Hub; simpl; lia|].
      eapply all_along_next; [|by apply w_free|].
      { unfold ub. simpl. rewrite <- insert_empty, msum_insert_None, msum_empty, TH_sum by done. simpl. lia. }
      split; [|by unfold exec; rewrite w_ub].
      unfold ub. simpl. rewrite msum_empty, TH_sum. simpl. lia.
  - unfold ls. rewrite run_app, warm_run.
    replace 1%N with (1 mod M)%N at 1 by (by rewrite N.mod_small by lia).
    rewrite run_app, clones by (lia || set_solver). rewrite HM1, N.mod_same by lia.
    unfold tail2. simpl replicate. simpl app.
    eapply run_next; [by apply w_new|].
    eapply run_next; [by apply w_lookup|].
    eapply run_next; [by apply w_hit|]. rewrite N.add_0_l, N.mod_small by lia.
    eapply run_next; [apply w_drop; reflexivity|].
    eapply run_next; [by apply w_dec|].
    eapply run_next; [by apply w_undo|].
    eapply run_next; [by apply w_again|].
    eapply run_next; [by apply w_remove|].
    eapply run_next; [by apply w_take|].
    eapply run_next; [by apply w_free|].
    simpl run. unfold exec. by rewrite w_ub.
Qed.

(** One thread suffices, with handles that are cloned and forgotten. *)
Definition cf : list (label node) := [LClone p0 []; LForget p0].
Fixpoint repeat_cf (n : nat) : list (label node) := match n with 0 => [] | S n' => cf ++ repeat_cf n' end.

Lemma forget_step E c pool pool' gone locks th log :
  rem1 p0 pool = Some pool' ->
  step E (mk c pool gone locks th log) (LForget p0) = Next (mk c pool' (p0 :: gone) locks th log).
Proof. intros Hr. unfold step. simpl st_pool. by rewrite Hr. Qed.

Lemma repeat_cf_run M (HM : (2 <= M)%N) n : forall c gone locks th log,
  exists gone', run (step (nodes 1 M)) (mk (c mod M)%N [p0] gone locks th log) (repeat_cf n) =
  Some (mk ((c + N.of_nat n) mod M)%N [p0] gone' locks th log).
Proof.
  induction n as [|n IH]; intros c gone locks th log.
  - exists gone. simpl. by rewrite N.add_0_r.
  - destruct (IH (c + 1)%N (p0 :: gone) locks th log) as (gone'&Hr). exists gone'.
    simpl repeat_cf. eapply run_next; [apply clone_step; set_solver|].
    eapply run_next; [apply forget_step; reflexivity|].
    rewrite N.add_mod_idemp_l by lia. rewrite Hr. do 2 f_equal. f_equal. lia.
Qed.

Definition tail1 : list (label node) :=
  [LClone p0 []; LDrop 1 p0; LStep 1 0 0; LStep 1 0 0; LStep 1 0 0; LStep 1 0 0; LDeref p0 []].

Lemma overflow_one_thread (M : N) : (2 <= M)%N ->
  run (step (nodes 1 M)) init (warm ++ repeat_cf (N.to_nat (M - 1)) ++ tail1) = None.
Proof.
  intros HM. rewrite run_app, warm_run.
  replace 1%N with (1 mod M)%N at 1 by (by rewrite N.mod_small by lia).
  destruct (repeat_cf_run M HM (N.to_nat (M - 1)) 1%N [] ∅ (TH PFree PFree) [EvNew 1 v0 p0]) as (gone'&Hr).
  rewrite run_app, Hr. replace (1 + N.of_nat (N.to_nat (M - 1)))%N with M by lia.
  rewrite N.mod_same by lia. unfold tail1.
  eapply run_next; [apply clone_step; set_solver|]. rewrite N.add_0_l, N.mod_small by lia.
  eapply run_next; [apply w_drop; reflexivity|].
  eapply run_next; [by apply w_dec|].
  eapply run_next; [by apply w_remove|].
  eapply run_next; [by apply w_take|].
  eapply run_next; [by apply w_free|].
  simpl run. unfold exec. rewrite w_ub; [done|set_solver].
Qed.

Lemma few sh M st : (N.of_nat (ub st + calls st) <? M)%N = true ->
  forall p, (N.of_nat (handles_to (nodes sh M) st p + calls st) < te_mod (nodes sh M))%N.
Proof. intros H p. pose proof (ub_ok sh M st p). apply N.ltb_lt in H. simpl. lia. Qed.

(** Examples for C75. *)
From stdpp Require Import gmap list numbers.
From Verif Require Import Base InternModel InternSpec InternInv InternStep InternLaw InternFinal InternMore InternLive InternEx
  NewModel NewSpec NewSim NewStep NewFinal NewWait NewLive NewEx NewWaitEx
  ArenaModel ArenaSpec ArenaInv ArenaStep ArenaLawful ArenaEx ArenaWait ArenaLive TermSpec Term TermIntern TermNew TermArena.
Require Import ZifyBool ZifyNat ZifyN.

Section gen.
  Context {V Q : Type} (E : ienv V Q).
  Lemma i_idle st t : get_stack st t = [] -> ~ able (istep E) i_own st t.
  Proof. intros Hn (lb&st'&Ho&Hs). destruct (iown_step E _ _ _ _ Ho Hs) as (f&k&fs&Hst&_). congruence. Qed.
  Lemma n_idle s t : nstack s t = [] -> ~ able (nstep E) i_own s t.
  Proof. intros Hn (lb&st'&Ho&Hs). destruct (nown_step E _ _ _ _ Ho Hs) as (f&k&fs&Hst&_). congruence. Qed.
  Lemma a_idle_unable st t : a_stack st t = [] -> ~ able (astep E) a_own st t.
  Proof. intros Hn (lb&st'&Ho&Hs). destruct (aown_step E _ _ _ _ Ho Hs) as (f&k&fs&Hst&_). congruence. Qed.

  (** In a deadlock nobody can step. *)
  Lemma i_dead_unable st D t : IInv E st -> deadlocked E st D -> D t -> ~ able (istep E) i_own st t.
  Proof.
    intros HI HD Ht (lb&st'&Ho&Hs). pose proof (dead_step E _ _ _ _ HI HD Hs t Ht) as Heq.
    destruct (iown_step E _ _ _ _ Ho Hs) as (f&k&fs&Hst&Hth&Hlt&_).
    unfold get_stack in Heq at 1. rewrite Hth, lookup_insert in Heq. simpl in Heq. rewrite Hst in Heq.
    apply (f_equal (lsum ileft)) in Heq. rewrite lsum_app in Heq. simpl in Heq. lia.
  Qed.
  Lemma n_dead_unable s D t : LI E s -> n_deadlocked E s D -> D t -> ~ able (nstep E) i_own s t.
  Proof.
    intros HI HD Ht (lb&s'&Ho&Hs). pose proof (ndead_step E _ _ _ _ HI HD Hs t Ht) as Heq.
    destruct (nown_step E _ _ _ _ Ho Hs) as (f&k&fs&Hst&Hth&Hlt&_).
    unfold nstack in Heq at 1. rewrite Hth, lookup_insert in Heq. simpl in Heq. rewrite Hst in Heq.
    apply (f_equal (lsum nleft)) in Heq. rewrite lsum_app in Heq. simpl in Heq. lia.
  Qed.
  Lemma a_dead_unable st D t : AInv E st -> a_deadlocked st D -> D t -> ~ able (astep E) a_own st t.
  Proof.
    intros HI HD Ht (lb&st'&Ho&Hs). pose proof (proj1 (proj2 (adead_step E _ _ _ _ HI HD Hs)) t Ht) as Heq.
    destruct (aown_step E _ _ _ _ Ho Hs) as (f&k&fs&Hst&Hth&Hlt&_).
    unfold a_stack in Heq at 1. rewrite Hth, lookup_insert in Heq. simpl in Heq. rewrite Hst in Heq.
    apply (f_equal (lsum aleft)) in Heq. rewrite lsum_app in Heq. simpl in Heq. lia.
  Qed.
End gen.

(** ** Intern *)
(** Thread 1 converts for type 0 (container 5) and interns type 1 (container 6) meanwhile; thread 2
    waits for container 5. *)
Definition ti_nest : list (ilabel ival (nat * nat)) :=
  [ICall 1 (ORef 0 0 (8, 0)) 0; IStep 1 0 0; IStep 1 0 0; ICall 1 (ONew (IV 1 3 0)) 0; ICall 2 (OLen 0) 0].
(** Thread 2 tries in vain; the inner call returns; the conversion panics; thread 2 goes on. *)
Definition ti_end : list (ilabel ival (nat * nat)) :=
  IStep 2 0 0 :: replicate 5 (IStep 1 100 0) ++ [IPanic 1; IStep 2 0 0; IStep 1 0 0; IStep 2 0 0; IStep 2 0 0].
Definition ti_cross : list (ilabel ival (nat * nat)) :=
  [ICall 1 (ORef 0 0 (8, 0)) 0; IStep 1 0 0; IStep 1 0 0; ICall 2 (ORef 1 0 (8, 0)) 0; IStep 2 0 0; IStep 2 0 0;
   ICall 1 (ONew (IV 1 3 0)) 0; ICall 2 (ONew (IV 0 3 0)) 0].
(** One conversion, with all steps a call can have. *)
Definition ti_one : list (ilabel ival (nat * nat)) := [ICall 1 (ORef 0 0 (8, 0)) 0].
Definition ti_long : list (ilabel ival (nat * nat)) := [IStep 1 0 0; IStep 1 0 0; IConv 1 (IV 0 8 0)] ++ replicate 5 (IStep 1 100 0).

Lemma i_threads_in {V Q : Type} (st : istate V Q) l t : (map_to_list (i_threads st)).*1 = l -> t ∈ l \/ get_stack st t = [].
Proof.
  intros <-. unfold get_stack. destruct (i_threads st !! t) as [k|] eqn:Ht; [left|by right].
  apply elem_of_list_fmap. exists (t, k). split; [done|]. by apply elem_of_map_to_list.
Qed.
Definition all_own (ls : list (ilabel ival (nat * nat))) : Prop :=
  Forall (λ lb, match lb with ICall _ _ _ | IDeref _ => false | _ => true end = true) ls.
Lemma all_own_own ls : all_own ls -> forall lb, lb ∈ ls -> exists t, i_own t lb.
Proof. intros H lb Hl. unfold all_own in H. rewrite list.Forall_forall in H. specialize (H _ Hl). destruct lb; try done; by eexists. Qed.

(** Executions that end with all stacks empty. *)
Lemma i_ended ls0 ls : (if run (istep fullE) iinit (ls0 ++ ls) then true else false) = true -> all_own ls ->
  map_fold (λ _ k acc, length k + acc) 0 (i_threads (iafter fullE (ls0 ++ ls))) = 0 ->
  exists s x, runs_on (istep fullE) i_own (iafter fullE ls0) s x /\ fair (istep fullE) i_own s x.
Proof.
  intros Hr Ho He.
  assert (forall t, get_stack (iafter fullE (ls0 ++ ls)) t = []) as Hn.
  { intros t. unfold get_stack. destruct (i_threads _ !! t) as [k|] eqn:Ht; [|done].
    pose proof (msum_ge length _ _ _ Ht) as Hge. unfold msum in Hge. rewrite He in Hge. simpl. destruct k; [done|simpl in Hge; lia]. }
  pose proof (iafter_run _ _ Hr) as Hrun. revert Hn Hrun. generalize (iafter fullE (ls0 ++ ls)) as st'. intros st' Hn Hrun.
  rewrite run_app in Hrun. unfold iafter. destruct (run (istep fullE) iinit ls0) as [st|]; [|done]. cbn in Hrun |- *.
  destruct (ended (istep fullE) i_own st ls (IStep 1 0 0) st') as (H1&H2&_); try done.
  - by apply all_own_own.
  - by exists 1.
  - unfold exec. simpl. unfold istep_thread. by rewrite Hn.
  - intros t. by apply i_idle.
  - by eexists _, _.
Qed.
Lemma ti_nest_ordered : ordered fullE (iafter fullE ti_nest).
Proof.
  assert (get_stack (iafter fullE ti_nest) 1 = [FWait (ONew (IV 1 3 0)) None; FConv 0 0 (8, 0)]) as H1 by (by vm_compute).
  assert (get_stack (iafter fullE ti_nest) 2 = [FWait (OLen 0) None]) as H2 by (by vm_compute).
  assert ((map_to_list (i_threads (iafter fullE ti_nest))).*1 = [1; 2]) as H3 by (by vm_compute).
  revert H1 H2 H3. generalize (iafter fullE ti_nest) as st. intros st H1 H2 H3 t k1 o b k2 Hst g Hg.
  destruct (i_threads_in st _ t H3) as [Hin|Hn]; [|rewrite Hn in Hst; by destruct k1].
  apply elem_of_list_In in Hin as [<-|[<-|[]]]; [rewrite H1 in Hst|rewrite H2 in Hst].
  - destruct k1 as [|? [|? k1]]; simplify_eq/=; [|by destruct k1]. apply elem_of_list_singleton in Hg as ->. by vm_compute.
  - destruct k1 as [|? k1]; simplify_eq/=; [by apply elem_of_nil in Hg|by destruct k1].
Qed.
Lemma ti_cross_unable t : ~ able (istep fullE) i_own (iafter fullE ti_cross) t.
Proof.
  assert (run (istep fullE) iinit ti_cross = Some (iafter fullE ti_cross)) as Hr by (by apply iafter_run; vm_compute).
  assert ((map_to_list (i_threads (iafter fullE ti_cross))).*1 = [1; 2]) as H3 by (by vm_compute).
  destruct (i_threads_in _ _ t H3) as [Hin|Hn]; [|by apply i_idle].
  apply (i_dead_unable fullE _ (λ t, t = 1 \/ t = 2)); [by eapply reach_inv|exact ex_cross_dead|].
  apply elem_of_list_In in Hin as [<-|[<-|[]]]; auto.
Qed.
Lemma ti_cross_on : exists s x, runs_on (istep fullE) i_own (iafter fullE ti_cross) s x /\ fair (istep fullE) i_own s x.
Proof.
  destruct (ended (istep fullE) i_own (iafter fullE ti_cross) [] (IStep 1 0 0) (iafter fullE ti_cross)) as (H1&H2&_); [done|..].
  - intros l Hl. by apply elem_of_nil in Hl.
  - by exists 1.
  - unfold exec. assert (istep fullE (iafter fullE ti_cross) (IStep 1 0 0) = Blocked) as -> by (by vm_compute). done.
  - apply ti_cross_unable.
  - by eexists _, _.
Qed.

(** ** NewIntern *)
Definition tn_end : nlabels :=
  [IStep 2 0 0; IStep 2 0 0] ++ replicate 5 (IStep 1 200 0) ++ [IConv 1 (IV 2 8 0)] ++ replicate 3 (IStep 1 201 0) ++ replicate 5 (IStep 2 0 0).
Definition tn_long : nlabels := replicate 6 (IStep 1 0 0) ++ [IConv 1 (IV 0 8 0)] ++ replicate 5 (IStep 1 100 0).
Lemma n_ended ls0 ls : (if run (nstep fullE) ninit (ls0 ++ ls) then true else false) = true -> all_own ls ->
  map_fold (λ _ k acc, length k + acc) 0 (n_threads (nafter fullE (ls0 ++ ls))) = 0 ->
  exists s x, runs_on (nstep fullE) i_own (nafter fullE ls0) s x /\ fair (nstep fullE) i_own s x.
Proof.
  intros Hr Ho He.
  assert (forall t, nstack (nafter fullE (ls0 ++ ls)) t = []) as Hn.
  { intros t. unfold nstack. destruct (n_threads _ !! t) as [k|] eqn:Ht; [|done].
    pose proof (msum_ge length _ _ _ Ht) as Hge. unfold msum in Hge. rewrite He in Hge. simpl. destruct k; [done|simpl in Hge; lia]. }
  pose proof (nafter_run _ _ Hr) as Hrun. revert Hn Hrun. generalize (nafter fullE (ls0 ++ ls)) as st'. intros st' Hn Hrun.
  rewrite run_app in Hrun. unfold nafter. destruct (run (nstep fullE) ninit ls0) as [st|]; [|done]. cbn in Hrun |- *.
  destruct (ended (nstep fullE) i_own st ls (IStep 1 0 0) st') as (H1&H2&_); try done.
  - by apply all_own_own.
  - by exists 1.
  - unfold exec. simpl. unfold nstep_thread. by rewrite Hn.
  - intros t. by apply n_idle.
  - by eexists _, _.
Qed.

(** ** Arena *)
(** Thread 1 converts for arena 1 and makes a call on arena 0 meanwhile; thread 2 waits for arena 1;
    thread 3 drops arena 2, which has two elements. *)
Definition ta_up : list (alabel ival (nat * nat)) :=
  [LArena 1 0; LArena 1 0; LArena 1 0; LCall 1 2 (ANew (IV 0 3 0)) 0] ++ steps 1 300 7 ++ [LCall 1 2 (ANew (IV 0 9 0)) 0] ++ steps 1 301 7 ++
  [LCall 1 1 (ARef 0 (8, 0)) 0] ++ steps 1 0 2 ++
  [LCall 1 0 (ANew (IV 0 3 0)) 0; LCall 2 1 (ABox (IV 0 3 0)) 100; LDrop 3 2].
Definition ta_end : list (alabel ival (nat * nat)) :=
  [LStep 3 0 0; LStep 2 0 0] ++ steps 1 400 7 ++ [LConv 1 (IV 0 8 0)] ++ steps 1 401 5 ++ steps 3 0 2 ++ steps 2 0 6.
(** The longest call: its value is found only on insertion, and its Drop panics. *)
Definition ta_asym : list (alabel ival (nat * nat)) :=
  [LArena 1 0; LCall 1 0 (ANew (IV 0 7 0)) 0] ++ steps 1 100 7 ++ [LCall 1 0 (AOwned (IV 0 5 0)) 50].
Definition ta_long : list (alabel ival (nat * nat)) := steps 1 101 5 ++ [LPanic 1] ++ steps 1 0 4.
Lemma a_threads_in {V Q : Type} (st : astate V Q) l t : (map_to_list (a_threads st)).*1 = l -> t ∈ l \/ a_stack st t = [].
Proof.
  intros <-. unfold a_stack. destruct (a_threads st !! t) as [k|] eqn:Ht; [left|by right].
  apply elem_of_list_fmap. exists (t, k). split; [done|]. by apply elem_of_map_to_list.
Qed.
Definition all_aown (ls : list (alabel ival (nat * nat))) : Prop :=
  Forall (λ lb, match lb with LStep _ _ _ | LConv _ _ | LPanic _ => true | _ => false end = true) ls.
Lemma all_aown_own ls : all_aown ls -> forall lb, lb ∈ ls -> exists t, a_own t lb.
Proof. intros H lb Hl. unfold all_aown in H. rewrite list.Forall_forall in H. specialize (H _ Hl). destruct lb; try done; by eexists. Qed.
Lemma a_ended ls0 ls : (if run (astep fullE) ainit (ls0 ++ ls) then true else false) = true -> all_aown ls ->
  map_fold (λ _ k acc, length k + acc) 0 (a_threads (aafter fullE (ls0 ++ ls))) = 0 ->
  exists s x, runs_on (astep fullE) a_own (aafter fullE ls0) s x /\ fair (astep fullE) a_own s x.
Proof.
  intros Hr Ho He.
  assert (forall t, a_stack (aafter fullE (ls0 ++ ls)) t = []) as Hn.
  { intros t. unfold a_stack. destruct (a_threads _ !! t) as [k|] eqn:Ht; [|done].
    pose proof (msum_ge length _ _ _ Ht) as Hge. unfold msum in Hge. rewrite He in Hge. simpl. destruct k; [done|simpl in Hge; lia]. }
  pose proof (aafter_run _ _ Hr) as Hrun. revert Hn Hrun. generalize (aafter fullE (ls0 ++ ls)) as st'. intros st' Hn Hrun.
  rewrite run_app in Hrun. unfold aafter. destruct (run (astep fullE) ainit ls0) as [st|]; [|done]. cbn in Hrun |- *.
  destruct (ended (astep fullE) a_own st ls (LStep 1 0 0) st') as (H1&H2&_); try done.
  - by apply all_aown_own.
  - by exists 1.
  - unfold exec. simpl. unfold a_step_thread. by rewrite Hn.
  - intros t. by apply a_idle_unable.
  - by eexists _, _.
Qed.
Lemma ta_up_ordered : a_ordered (λ r, 1 - r) (aafter fullE ta_up).
Proof.
  assert (a_stack (aafter fullE ta_up) 1 = [AWait 0 (ANew (IV 0 3 0)) None; AConv 1 0 (8, 0)]) as H1 by (by vm_compute).
  assert (a_stack (aafter fullE ta_up) 2 = [AWait 1 (ABox (IV 0 3 0)) (Some (IPtr 100 0 2))]) as H2 by (by vm_compute).
  assert (a_stack (aafter fullE ta_up) 3 = [ADead 2 [IPtr 301 0 1; IPtr 300 0 0]]) as H4 by (by vm_compute).
  assert ((map_to_list (a_threads (aafter fullE ta_up))).*1 = [1; 3; 2] \/ (map_to_list (a_threads (aafter fullE ta_up))).*1 = [1; 2; 3]) as H3
    by (vm_compute; auto).
  revert H1 H2 H3 H4. generalize (aafter fullE ta_up) as st. intros st H1 H2 H3 H4 t k1 r o b k2 Hst g r' Hg Hh.
  assert (t = 1 \/ t = 2 \/ t = 3 \/ a_stack st t = []) as Ht.
  { destruct H3 as [H3|H3]; (destruct (a_threads_in st _ t H3) as [Hin|Hn]; [|by auto]);
      apply elem_of_list_In in Hin as [<-|[<-|[<-|[]]]]; auto. }
  destruct Ht as [->|[->|[->|Hn]]]; [rewrite H1 in Hst|rewrite H2 in Hst|rewrite H4 in Hst|rewrite Hn in Hst; by destruct k1].
  - destruct k1 as [|? [|? k1]]; simplify_eq/=; [|by destruct k1]. apply elem_of_list_singleton in Hg as ->. cbn in Hh |- *. injection Hh as <-. lia.
  - destruct k1 as [|? k1]; simplify_eq/=; [by apply elem_of_nil in Hg|by destruct k1].
  - destruct k1 as [|? k1]; simplify_eq/=. by destruct k1.
Qed.

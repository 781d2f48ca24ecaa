(** C59 from the invariant. *)
From stdpp Require Import gmap list numbers.
From Verif Require Import Base InternModel InternSpec InternInv InternStep InternEx NewModel NewSpec NewSim NewStep NewFinal
  HbSpec HbLib HbModel HbThm HbInternFinal HbNewModel HbNew.

Section thm.
  Context {V Q : Type} (E : ienv V Q).
  Notation nhstep := (hstep (nstep E) i_by (n_does E) (n_looks E)).
  Notation nhevents := (hevents (nstep E) i_by (n_does E) (n_looks E) ninit).

  Lemma nh_inv ls s : run nhstep (ninit, []) ls = Some s -> handles_travel s.2 -> NInv E s.1 /\ PInv E s.1 /\ RN E s.1 s.2.
  Proof.
    apply (hrun_inv _ _ _ _ handles_travel (λ s evs, NInv E s /\ PInv E s /\ RN E s evs)).
    - intros evs l. apply travel_prefix.
    - split_and!; [apply ninv_init|apply pinv_init|apply rn_init].
    - clear ls s. intros [s evs] l [s' evs'] (HN&HP&HR) Hs HC. pose proof HN as (st&HI&_&HS). simpl in *. destruct l as [t l|t|t m|t m]; simpl in Hs.
      + destruct (i_by l t) eqn:Hby; [|done]. destruct (nstep E s l) as [s1| | |] eqn:Hst; try done. injection Hs as <- <-.
        split_and!; [by eapply nstep_inv|by eapply pinv_step|]. by eapply rn_step.
      + injection Hs as <- <-. split_and!; [done..|]. apply rn_add; [done|done|]. by eapply nlooks_ok.
      + injection Hs as <- <-. split_and!; [done..|]. by apply rn_quiet.
      + injection Hs as <- <-. split_and!; [done..|]. by apply rn_quiet.
  Qed.
  Theorem new_race_free ls :
    is_Some (run nhstep (ninit, []) ls) /\ (handles_travel (nhevents ls) -> race_free (nhevents ls)).
  Proof.
    destruct (run nhstep (ninit, []) ls) as [s|] eqn:Hr.
    - split; [by eexists|]. rewrite (hrun_events _ _ _ _ _ _ _ Hr). intros HT. by destruct (nh_inv _ _ Hr HT) as (_&_&[]).
    - apply hrun_none in Hr as [ks Hr]. simpl in Hr. destruct (never_stuck E ks) as [s Hs]. congruence.
  Qed.
  Theorem new_exact s :
    (exists ls, run (nstep E) ninit ls = Some s) <-> (exists ls evs, run nhstep (ninit, []) ls = Some (s, evs)).
  Proof. apply (hrun_exact _ _ _ _ i_thread). apply i_thread_by. Qed.
End thm.

(** ** Examples *)
Notation ntoy_events := (hevents (nstep toyE) i_by (n_does toyE) (n_looks toyE) ninit).
(** Threads 1 and 2 intern 4 and 5, which are Eq.  Thread 2 reads an old length of the vector and
    pushes a second set; then it finds the first.  It gives the pointer to thread 3. *)
Definition nhb_ls : list (hlabel (ilabel ival (nat * nat))) :=
  [HDo 1 (ICall 1 (ONew (IV 0 4 0)) 0); HDo 1 (IStep 1 0 0); HDo 1 (IStep 1 0 0); HDo 1 (IStep 1 0 0); HDo 1 (IStep 1 0 0);
   HDo 1 (IStep 1 0 0); HLook 1; HDo 1 (IStep 1 0 0); HDo 1 (IStep 1 100 0); HDo 1 (IStep 1 0 0);
   HDo 2 (ICall 2 (OBox (IV 0 5 0)) 200); HDo 2 (IStep 2 0 1); HDo 2 (IStep 2 0 0); HDo 2 (IStep 2 0 0); HDo 2 (IStep 2 0 0);
   HDo 2 (IStep 2 0 0); HDo 1 (IStep 1 0 0); HDo 1 (IDeref (IPtr 100 0 0)); HDo 2 (IStep 2 0 0); HLook 2;
   HDo 2 (IStep 2 0 0); HLook 2; HDo 2 (IStep 2 0 0); HDo 2 (IStep 2 0 0); HDo 2 (IDeref (IPtr 100 0 0));
   HSend 2 7; HRecv 3 7; HDo 3 (IDeref (IPtr 100 0 0))].
Definition nhb_bad : list (hlabel (ilabel ival (nat * nat))) := take 10 nhb_ls ++ [HDo 1 (IStep 1 0 0); HDo 3 (IDeref (IPtr 100 0 0))].
Lemma nbad_race : data_race (ntoy_events nhb_bad).
Proof. apply (race_at _ 10 14 (1, ATouch [(LVal 0, true)]) (3, ARead (IPtr 100 0 0))); [lia|by vm_compute..]. Qed.
Definition no_lock (e : nat * act) : bool := match e.2 with AAcq (SLock _) | ARel (SLock _) => false | _ => true end.
Definition no_count (e : nat * act) : bool := match e.2 with AAcq (SElt _) | ARel (SElt _) => false | _ => true end.
Lemma no_lock_race : data_race (List.filter no_lock (ntoy_events nhb_ls)).
Proof. apply (race_at _ 9 21 (1, ATouch [(LVal 0, true)])
  (2, ATouch [(LSet (5, 0), false); (LVal 0, false); (LVal 1, false)])); [lia|by vm_compute..]. Qed.
Lemma no_count_race : data_race (List.filter no_count (ntoy_events nhb_ls)).
Proof. apply (race_at _ 1 13 (1, ATouch [(LElt (5, 0), true); (LSet (5, 0), true)]) (2, ATouch [(LElt (5, 0), false)])); [lia|by vm_compute..]. Qed.

(** C58 from the invariant. *)
From stdpp Require Import gmap list numbers.
From Verif Require Import Base InternModel InternSpec InternInv InternStep InternEx HbSpec HbLib HbModel HbThm HbIntern.

Section thm.
  Context {V Q : Type} (E : ienv V Q).
  Notation ihstep := (hstep (istep E) i_by (i_does E) (i_looks E)).
  Notation ihevents := (hevents (istep E) i_by (i_does E) (i_looks E) iinit).

  Lemma ih_inv ls s : run ihstep (iinit, []) ls = Some s -> handles_travel s.2 -> IInv E s.1 /\ RI E s.1 s.2.
  Proof.
    apply (hrun_inv _ _ _ _ handles_travel (λ st evs, IInv E st /\ RI E st evs)).
    - intros evs l. apply travel_prefix.
    - split; [apply iinv_init|apply ri_init].
    - clear ls s. intros [st evs] l [st' evs'] [HI HR] Hs HC. simpl in *. destruct l as [t l|t|t m|t m]; simpl in Hs.
      + destruct (i_by l t) eqn:Hby; [|done]. destruct (istep E st l) as [st1| | |] eqn:Hst; try done. injection Hs as <- <-.
        split; [by eapply istep_inv|]. by apply ri_step.
      + injection Hs as <- <-. split; [done|]. apply ri_add; [done|done|]. by apply looks_ok.
      + injection Hs as <- <-. split; [done|]. by apply ri_quiet.
      + injection Hs as <- <-. split; [done|]. by apply ri_quiet.
  Qed.
  Theorem intern_race_free ls :
    is_Some (run ihstep (iinit, []) ls) /\ (handles_travel (ihevents ls) -> race_free (ihevents ls)).
  Proof.
    destruct (run ihstep (iinit, []) ls) as [s|] eqn:Hr.
    - split; [by eexists|]. rewrite (hrun_events _ _ _ _ _ _ _ Hr). intros HT. by destruct (ih_inv _ _ Hr HT) as [_ []].
    - apply hrun_none in Hr as [ks Hr]. by apply (irun_safe E _ _ (iinv_init E)) in Hr.
  Qed.
  Definition i_thread (l : ilabel V Q) : nat :=
    match l with ICall t _ _ | IStep t _ _ | IConv t _ | IPanic t => t | IDeref _ => 0 end.
  Lemma i_thread_by l : i_by l (i_thread l) = true.
  Proof. destruct l; simpl; try apply Nat.eqb_refl. done. Qed.
  Theorem intern_exact st :
    (exists ls, run (istep E) iinit ls = Some st) <-> (exists ls evs, run ihstep (iinit, []) ls = Some (st, evs)).
  Proof. apply (hrun_exact _ _ _ _ i_thread). apply i_thread_by. Qed.
End thm.

(** ** Examples *)
Notation toy_events := (hevents (istep toyE) i_by (i_does toyE) (i_looks toyE) iinit).
(** Thread 1 interns 4 and reads it.  Thread 2 interns 5, which is Eq; gets the same pointer; and
    reads it, without having synchronised with thread 1 except in the call.  Thread 2 gives the
    pointer to thread 3, which reads it. *)
Definition hb_ls : list (hlabel (ilabel ival (nat * nat))) :=
  [HDo 1 (ICall 1 (ONew (IV 0 4 0)) 0); HDo 1 (IStep 1 0 0); HLook 1; HDo 1 (IStep 1 0 0); HDo 1 (IStep 1 100 0);
   HDo 1 (IStep 1 0 0); HDo 2 (ICall 2 (OBox (IV 0 5 0)) 200); HDo 2 (IStep 2 0 0); HDo 1 (IStep 1 0 0);
   HDo 2 (IStep 2 0 0); HLook 2; HDo 1 (IDeref (IPtr 100 0 0)); HDo 2 (IStep 2 0 0); HLook 2; HDo 2 (IStep 2 0 0);
   HDo 2 (IStep 2 0 0); HDo 2 (IDeref (IPtr 100 0 0)); HSend 2 7; HRecv 3 7; HDo 3 (IDeref (IPtr 100 0 0))].
(** Thread 3 uses the pointer of thread 1 and there is no synchronisation between them. *)
Definition hb_bad : list (hlabel (ilabel ival (nat * nat))) :=
  [HDo 1 (ICall 1 (ONew (IV 0 4 0)) 0); HDo 1 (IStep 1 0 0); HDo 1 (IStep 1 0 0); HDo 1 (IStep 1 100 0);
   HDo 1 (IStep 1 0 0); HDo 1 (IStep 1 0 0); HDo 3 (IDeref (IPtr 100 0 0))].
Lemma bad_race : data_race (toy_events hb_bad).
Proof. apply (race_at _ 3 7 (1, ATouch [(LVal 0, true)]) (3, ARead (IPtr 100 0 0))); [lia|by vm_compute..]. Qed.
Lemma no_mutex_race : data_race (List.filter (λ e : nat * act, match e.2 with AAcq (SLock _) | ARel (SLock _) => false | _ => true end)
                         (toy_events hb_ls)).
Proof. apply (race_at _ 3 14 (1, ATouch [(LVal 0, true)]) (2, ARead (IPtr 100 0 0))); [lia|by vm_compute..]. Qed.

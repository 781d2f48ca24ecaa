(** Property C55: Intern and NewIntern are linearizable (src/intern.rs 144-275, src/typearena.rs,
    src/container.rs 18-123).  The atomic interner and what is visible of an execution: SetSpec.v. *)
From stdpp Require Import gmap list numbers.
From Verif Require Import Base InternModel InternSpec InternEx NewModel NewEx SetSpec InternLin NewLin.

(** ** C55.  Whatever the threads and the user code called by them do, the calls, returns with
    their results, panics and reads the clients see are those of an execution of the atomic
    interner, in the same order; in the end the two have the same values. *)
Theorem C55_intern_linearizable {V Q : Type} (E : ienv V Q) ls st :
  ilawful E -> icoherent E -> zst_eq E -> run (istep E) iinit ls = Some st ->
  exists xs a, satoms E sinit xs a /\ shown xs = isights E iinit ls /\
    (forall ty p, p ∈ set_of E st ty <-> exists v, (p, v) ∈ ss_vals a /\ ie_ty E v = ty) /\
    (forall p v, (p, v) ∈ ss_made a -> iread st p = Some v).
Proof. exact (λ HL HC HZ, intern_linearizable E HL HC HZ ls st). Qed.
Print Assumptions C55_intern_linearizable.

(** Thread 1 asks for 8; its conversion interns a value of another type.  Thread 2 asks for 9,
    which is Eq to 8, and has to wait; then one of its calls panics; thread 1 clears the set. *)
Definition nest : list (ilabel ival (nat * nat)) :=
  [ICall 1 (ORef 0 0 (8, 0)) 0; IStep 1 0 0; IStep 1 0 0;
   ICall 1 (ONew (IV 1 3 0)) 0; ICall 2 (ONew (IV 0 9 0)) 0; IStep 2 0 0; IStep 1 0 0; IStep 1 0 0; IStep 1 300 0;
   IStep 1 0 0; IStep 1 0 0; IConv 1 (IV 0 8 0); IStep 1 500 0; IStep 1 0 0; IStep 1 0 0] ++ repeat (IStep 2 0 0) 4 ++
  [ICall 2 (ONew (IV 0 16 0)) 0; IStep 2 0 0; IPanic 2; IStep 2 0 0; IStep 2 0 0; ICall 2 (OLen 0) 0; IStep 2 0 0;
   IStep 2 0 0; IDeref (IPtr 500 0 1); ICall 1 (OClear 0) 0; IStep 1 0 0; IStep 1 0 0; ICall 1 (OIs 0 0 (8, 0)) 0;
   IStep 1 0 0; IStep 1 0 0; IStep 1 0 0; IDeref (IPtr 500 0 1)].
Example C55_intern_example :
  ilawful toyE /\ icoherent toyE /\ zst_eq toyE /\ run (istep toyE) iinit nest = Some (iafter toyE nest) /\
  isights toyE iinit nest =
    [SCall 1 (ORef 0 0 (8, 0)); SCall 1 (ONew (IV 1 3 0)); SCall 2 (ONew (IV 0 9 0));
     SRet 1 (ONew (IV 1 3 0)) (RPtr (IPtr 300 0 0));
     SRet 1 (ORef 0 0 (8, 0)) (RPtr (IPtr 500 0 1)); SRet 2 (ONew (IV 0 9 0)) (RPtr (IPtr 500 0 1));
     SCall 2 (ONew (IV 0 16 0)); SRet 2 (ONew (IV 0 16 0)) RPanic;
     SCall 2 (OLen 0); SRet 2 (OLen 0) (RNum 1); SRead (IPtr 500 0 1) (IV 0 8 0);
     SCall 1 (OClear 0); SRet 1 (OClear 0) RUnit; SCall 1 (OIs 0 0 (8, 0)); SRet 1 (OIs 0 0 (8, 0)) (RBool false);
     SRead (IPtr 500 0 1) (IV 0 8 0)] /\
  set_of toyE (iafter toyE nest) 0 = [] /\ set_of toyE (iafter toyE nest) 1 = [IPtr 300 0 0].
Proof.
  split_and!; [apply toyE_lawful|apply toyE_coherent|apply toyE_zst_eq|by apply iafter_run; vm_compute|by vm_compute..].
Qed.

(** The same for NewIntern; [find_ty] gives the set that is used for a type (C38). *)
Theorem C55_new_linearizable {V Q : Type} (E : ienv V Q) ls s :
  ilawful E -> icoherent E -> zst_eq E -> run (nstep E) ninit ls = Some s ->
  exists xs a, satoms E sinit xs a /\ shown xs = nsights E ninit ls /\
    (forall ty i p, find_ty ty (nvec s (slot E ty)) = Some i ->
      (p ∈ nset s (slot E ty, i) <-> exists v, (p, v) ∈ ss_vals a /\ ie_ty E v = ty)) /\
    (forall p v, (p, v) ∈ ss_made a -> iread (nmem s) p = Some v).
Proof. exact (λ HL HC HZ, new_linearizable E HL HC HZ ls s). Qed.
Print Assumptions C55_new_linearizable.
(** Three threads make the sets of two types at the same time, in one container. *)
Example C55_new_example :
  let s := nafter toyE ex_nall in
  ilawful toyE /\ icoherent toyE /\ zst_eq toyE /\ run (nstep toyE) ninit ex_nall = Some s /\
  nsights toyE ninit ex_nall =
    [SCall 1 (ONew (IV 0 4 0)); SCall 2 (ORef 0 0 (5, 0)); SCall 3 (OBox (IV 2 6 3));
     SRet 1 (ONew (IV 0 4 0)) (RPtr (IPtr 100 0 1)); SRet 2 (ORef 0 0 (5, 0)) (RPtr (IPtr 100 0 1));
     SRet 3 (OBox (IV 2 6 3)) (RPtr (IPtr 300 3 0));
     SCall 1 (ORef 0 0 (9, 0)); SRet 1 (ORef 0 0 (9, 0)) (RPtr (IPtr 500 0 2));
     SCall 2 (OLen 0); SRet 2 (OLen 0) (RNum 2)] /\
  find_ty 0 (nvec s (slot toyE 0)) = Some 0 /\ nset s (slot toyE 0, 0) = [IPtr 500 0 2; IPtr 100 0 1].
Proof.
  split_and!; [apply toyE_lawful|apply toyE_coherent|apply toyE_zst_eq|by apply nafter_run; vm_compute|by vm_compute..].
Qed.

(** In the atomic interner a call that returns takes effect exactly once, between its call and
    its return, after all calls made by the user code it runs; a call that panics has no
    effect. *)
Theorem C55_one_effect {V Q : Type} (E : ienv V Q) xs t o r a :
  satoms E sinit (xs ++ [SRet t o r]) a ->
  exists xs1 xs2, xs = xs1 ++ SCall t o :: xs2 /\
    ((r = RPanic /\ complete t xs2) \/
     exists xs3 e xs4, xs2 = xs3 ++ e :: xs4 /\ complete t xs3 /\ effect e = Some (t, r) /\
       Forall (λ x, sthread x <> Some t) xs4).
Proof. exact (one_effect E xs t o r a). Qed.
Print Assumptions C55_one_effect.
Definition eights : list (sact ival (nat * nat)) :=
  [SCall 1 (ORef 0 0 (8, 0)); SCall 1 (ONew (IV 1 3 0)); SMiss 1 (IPtr 300 0 0) (IV 1 3 0);
   SRet 1 (ONew (IV 1 3 0)) (RPtr (IPtr 300 0 0)); SMiss 1 (IPtr 500 0 1) (IV 0 8 0)].
Example C55_one_effect_example : exists a,
  satoms toyE sinit (eights ++ [SRet 1 (ORef 0 0 (8, 0)) (RPtr (IPtr 500 0 1))]) a.
Proof.
  eexists. simpl. eapply sas_cons. { by apply (sa_call toyE sinit 1 (ORef 0 0 (8, 0))). }
  eapply sas_cons. { by apply (sa_call toyE _ 1 (ONew (IV 1 3 0))). }
  eapply sas_cons.
  { eapply (sa_miss toyE _ 1 (ONew (IV 1 3 0))); [by vm_compute|done|done| |]; intros q d Hq; by apply elem_of_nil in Hq. }
  eapply sas_cons. { eapply (sa_ret toyE _ 1). by vm_compute. }
  eapply sas_cons.
  { eapply (sa_miss toyE _ 1 (ORef 0 0 (8, 0)) [] _ (IV 0 8 0)); [by vm_compute|done|done| |];
      intros q d Hq; apply elem_of_list_singleton in Hq; injection Hq as -> ->; [by intros []|done]. }
  eapply sas_cons. { eapply (sa_ret toyE _ 1). by vm_compute. }
  apply sas_nil.
Qed.
Theorem C55_all_complete {V Q : Type} (E : ienv V Q) xs t a :
  satoms E sinit xs a -> calls a t = [] -> complete t xs.
Proof. exact (all_complete E xs t a). Qed.
Print Assumptions C55_all_complete.
Example C55_all_complete_example : exists a,
  satoms toyE sinit [SCall 1 (OIs 0 0 (8, 0)); SCall 2 (OLen 0); SSay 2 (RNum 0); SSay 1 (RBool false);
    SRet 1 (OIs 0 0 (8, 0)) (RBool false)] a /\ calls a 1 = [] /\ calls a 2 = [(OLen 0, Some (RNum 0))].
Proof.
  eexists. split.
  - eapply sas_cons. { by apply (sa_call toyE sinit 1). }
    eapply sas_cons. { by apply (sa_call toyE _ 2). }
    eapply sas_cons. { by eapply (sa_len toyE _ 2). }
    eapply sas_cons.
    { eapply (sa_is toyE _ 1 0 0 (8, 0) []); [by vm_compute|]. split; [done|]. intros (p&d&Hin&_). by apply elem_of_nil in Hin. }
    eapply sas_cons. { eapply (sa_ret toyE _ 1). by vm_compute. }
    apply sas_nil.
  - by vm_compute.
Qed.

(** Among the values interned, Eq values of a type are one value with one handle, and so are
    those with Eq handles. *)
Theorem C55_atomic_unique {V Q : Type} (E : ienv V Q) xs a :
  ilawful E -> satoms E sinit xs a ->
  forall p q u v, (p, u) ∈ ss_vals a -> (q, v) ∈ ss_vals a -> ie_ty E u = ie_ty E v ->
  ie_eq E u v = true \/ iptr_eqb p q = true -> p = q /\ u = v.
Proof. exact (set_unique E xs a). Qed.
Print Assumptions C55_atomic_unique.
Example C55_atomic_unique_example : ilawful toyE /\ exists a,
  satoms toyE sinit [SCall 1 (ONew (IV 0 8 0)); SMiss 1 (IPtr 500 0 1) (IV 0 8 0);
    SCall 2 (ONew (IV 0 3 0)); SMiss 2 (IPtr 300 0 0) (IV 0 3 0)] a /\
  ss_vals a = [(IPtr 300 0 0, IV 0 3 0); (IPtr 500 0 1, IV 0 8 0)].
Proof.
  split; [apply toyE_lawful|]. eexists. split.
  - eapply sas_cons. { by apply (sa_call toyE sinit 1). }
    eapply sas_cons.
    { eapply (sa_miss toyE _ 1 (ONew (IV 0 8 0))); [by vm_compute|done|done| |]; intros q d Hq; by apply elem_of_nil in Hq. }
    eapply sas_cons. { by apply (sa_call toyE _ 2). }
    eapply sas_cons.
    { eapply (sa_miss toyE _ 2 (ONew (IV 0 3 0)) [] _ (IV 0 3 0)); [by vm_compute|done|done| |];
        intros q d Hq; apply elem_of_list_singleton in Hq; injection Hq as -> ->; [by intros []|done]. }
    apply sas_nil.
  - done.
Qed.

(** A call of Intern panics only when user code running in it panics: in each thread there are
    at most as many of the former as of the latter. *)
Theorem C55_panics_from_user_code {V Q : Type} (E : ienv V Q) ls st t :
  run (istep E) iinit ls = Some st ->
  panics t (i_log st) <= length (List.filter (λ l, match l with IPanic u => u =? t | _ => false end) ls).
Proof. exact (panics_from_user E ls st t). Qed.
Print Assumptions C55_panics_from_user_code.
Example C55_panics_example :
  run (istep toyE) iinit nest = Some (iafter toyE nest) /\
  panics 2 (i_log (iafter toyE nest)) = 1 /\ panics 1 (i_log (iafter toyE nest)) = 0.
Proof. split; [by apply iafter_run; vm_compute|by vm_compute]. Qed.

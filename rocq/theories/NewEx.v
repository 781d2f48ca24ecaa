(** Concrete executions for the examples about [NewIntern]. *)
From stdpp Require Import gmap list numbers.
From Verif Require Import Base InternModel InternSpec InternEx NewModel NewSpec.

Definition nafter {V Q} (E : ienv V Q) (ls : list (ilabel V Q)) : nstate V Q := default ninit (run (nstep E) ninit ls).
Lemma nafter_run {V Q} (E : ienv V Q) (ls : list (ilabel V Q)) :
  (if run (nstep E) ninit ls then true else false) = true -> run (nstep E) ninit ls = Some (nafter E ls).
Proof. unfold nafter. by destruct (run (nstep E) ninit ls). Qed.
Lemma nafter_app {V Q} (E : ienv V Q) (ls1 ls2 : list (ilabel V Q)) :
  (if run (nstep E) ninit ls1 then true else false) = true ->
  (if run (nstep E) ninit (ls1 ++ ls2) then true else false) = true ->
  run (nstep E) (nafter E ls1) ls2 = Some (nafter E (ls1 ++ ls2)).
Proof. intros H1 H2. pose proof (nafter_run _ _ H2) as H. by rewrite run_app, (nafter_run E ls1 H1) in H. Qed.

Notation nlabels := (list (ilabel ival (nat * nat))).
Definition nsteps (t a n : nat) : nlabels := repeat (IStep t a 0) n.

(** Threads 1 and 2 find no set for type 0, thread 3 none for type 2, which shares the
    container.  All three push; thread 1 has index 2 and waits for the others to be counted. *)
Definition ex_push : nlabels :=
  [ICall 1 (ONew (IV 0 4 0)) 0; ICall 2 (ORef 0 0 (5, 0)) 0; ICall 3 (OBox (IV 2 6 3)) 300;
   IStep 1 0 0; IStep 2 0 0; IStep 3 0 0; IStep 2 0 0; IStep 3 0 0; IStep 1 0 0].
(** Afterwards everyone finds the first set of their type. *)
Definition ex_nrace : nlabels :=
  ex_push ++ [IStep 1 0 0; IStep 2 0 0; IStep 3 0 0; IStep 1 0 0] ++ nsteps 1 0 2 ++ nsteps 2 0 2 ++ nsteps 3 0 2.
Definition ex_nall : nlabels :=
  ex_nrace ++ nsteps 1 100 4 ++ nsteps 2 0 3 ++ nsteps 3 0 4 ++
  [ICall 1 (ORef 0 0 (9, 0)) 0] ++ nsteps 1 0 3 ++ [IConv 1 (IV 0 9 0)] ++ nsteps 1 500 3 ++
  [ICall 2 (OLen 0) 0] ++ nsteps 2 0 3.

(** Thread 1 interns 4; thread 2's comparison panics while thread 3 waits for the mutex. *)
Definition ex_npanic : nlabels :=
  [ICall 1 (ONew (IV 0 4 0)) 0] ++ nsteps 1 100 9 ++
  [ICall 2 (OBox (IV 0 5 0)) 200; IStep 2 0 0; IStep 2 0 0; ICall 3 (ONew (IV 0 4 0)) 0; IStep 3 0 0; IStep 3 0 0;
   IPanic 2; IStep 2 0 0; IStep 2 0 0].
Definition ex_nlater : nlabels :=
  nsteps 3 0 2 ++ [ICall 1 (OLen 0) 0] ++ nsteps 1 0 3 ++ [ICall 1 (ONew (IV 2 1 3)) 0] ++ nsteps 1 400 9 ++ [IDeref (IPtr 100 0 0)].

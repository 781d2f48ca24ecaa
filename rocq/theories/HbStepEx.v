(** Executions for the examples of PropHbStep.v. *)
From stdpp Require Import gmap list numbers.
From Verif Require Import Base InternModel InternEx NewModel NewEx ArenaModel ArenaEx.

(** Thread 2 has a box of 5, not looked at yet; thread 1 inserts 4. *)
Definition step_ls : list (ilabel ival (nat * nat)) :=
  [ICall 1 (ONew (IV 0 4 0)) 0; ICall 2 (OBox (IV 0 5 0)) 200; IStep 1 0 0; IStep 1 0 0; IStep 1 100 0].

(** Thread 2 has a box of 5, not looked at yet; thread 1 inserts 4 into the set it has pushed. *)
Definition nstep_ls : nlabels :=
  [ICall 1 (ONew (IV 0 4 0)) 0; ICall 2 (OBox (IV 0 5 0)) 200] ++ nsteps 1 0 6 ++ nsteps 1 100 1.

(** Thread 2 has a box of 5, not looked at yet; thread 1 inserts 4. *)
Definition astep_ls : list (alabel ival (nat * nat)) :=
  [LArena 1 0; LArena 1 0; LCall 1 0 (ANew (IV 0 4 0)) 0; LCall 2 0 (ABox (IV 0 5 0)) 200] ++ steps 1 100 3.

(** Vocabulary for property C70. *)
From stdpp Require Import gmap list.
From Verif Require Import Base InternModel NewModel AliasModel ArcAliasModel InternAliasModel.

(** The step of the program in a step of the program with the machines. *)
Definition j_label {V Q} (l : jlabel V Q) : list (ilabel V Q) := match l with JRun l _ _ => [l] | _ => [] end.

(** The state without allocation [s]: a step that is undefined from there uses it. *)
Definition i_without {V Q} (st : istate V Q) (s : nat) : istate V Q := set_objs st (delete s (i_objs st)).
Definition n_without {V Q} (st : nstate V Q) (s : nat) : nstate V Q :=
  NState (delete s (n_objs st)) (n_vecs st) (n_resv st) (n_sets st) (n_locks st) (n_poison st) (n_threads st)
    (n_next st) (n_log st).

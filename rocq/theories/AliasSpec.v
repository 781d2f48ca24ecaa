(** Vocabulary for property C68. *)
From stdpp Require Import gmap list.
From Verif Require Import Base InternModel ArenaModel AliasModel AliasArenaModel.

(** The state without allocation [s]: a step that is undefined from there uses it. *)
Definition a_without {V Q} (st : astate V Q) (s : nat) : astate V Q :=
  AState (delete s (a_objs st)) (a_arenas st) (a_locks st) (a_poison st) (a_threads st) (a_next st) (a_nextr st) (a_log st).
(** A block that has been handed out, with a machine that refuses everything but the return of a function. *)
Definition refuses {M : machine} (x : bobj M) : Prop :=
  (forall e, (forall t, e <> BEnd t) -> m_do M (bo_m x) e = None) /\ bo_hands x <> [].

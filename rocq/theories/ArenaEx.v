(** Executions of the Arena model used in the examples of PropArena.v. *)
From stdpp Require Import gmap list numbers.
From Verif Require Import Base InternModel InternSpec InternEx ArenaModel ArenaSpec.

(** The state after an execution ([ainit] if there is none). *)
Definition aafter {V Q} (E : ienv V Q) (ls : list (alabel V Q)) : astate V Q := default ainit (run (astep E) ainit ls).
Lemma aafter_run {V Q} (E : ienv V Q) ls : (if run (astep E) ainit ls then true else false) = true ->
  run (astep E) ainit ls = Some (aafter E ls).
Proof. unfold aafter. by destruct (run (astep E) ainit ls). Qed.

Definition steps {V Q} (t a n : nat) : list (alabel V Q) := replicate n (LStep t a 0).

(** Two arenas of type 0.  Thread 1 interns 30 in arena 0; thread 2 passes the box 31, which
    is Eq to it; thread 1 interns a reference to 8 and the box 40; thread 2 interns 30 in
    arena 1. *)
Definition ex_arena : list (alabel ival (nat * nat)) :=
  [LArena 1 0; LArena 1 0; LCall 1 0 (ANew (IV 0 30 0)) 0; LCall 2 0 (ABox (IV 0 31 0)) 200]
  ++ steps 1 100 1 ++ steps 2 0 2 ++ steps 1 100 6 ++ steps 2 0 4
  ++ [LCall 1 0 (ARef 0 (8, 0)) 0] ++ steps 1 0 2 ++ [LConv 1 (IV 0 8 0)] ++ steps 1 101 5
  ++ [LCall 1 0 (ABox (IV 0 40 0)) 102] ++ steps 1 0 6
  ++ [LCall 2 1 (ANew (IV 0 30 0)) 0] ++ steps 2 103 7.
(** Arena 0 is dropped. *)
Definition ex_dropped := ex_arena ++ [LDrop 1 0] ++ steps 1 0 4.
(** The drop of the second entry's contents panics. *)
Definition ex_leaked := ex_arena ++ [LDrop 1 0] ++ steps 1 0 1 ++ [LPanic 1].
(** Everything is dropped. *)
Definition ex_all_dropped := ex_dropped ++ [LDrop 2 1] ++ steps 2 0 2.
(** Empty slices of type 2 in two arenas. *)
Definition ex_zst : list (alabel ival (nat * nat)) :=
  [LArena 1 2; LArena 1 2; LCall 1 0 (ANew (IV 2 1 0)) 0] ++ steps 1 100 7
  ++ [LCall 1 1 (ANew (IV 2 5 0)) 0] ++ steps 1 101 7.
(** Eq panics while thread 1 searches for a box; another call converts and panics in [from]. *)
Definition ex_panic_a : list (alabel ival (nat * nat)) :=
  ex_arena ++ [LCall 1 0 (ABox (IV 0 50 0)) 104] ++ steps 1 0 1.
Definition ex_panic_b : list (alabel ival (nat * nat)) :=
  [LArena 1 0; LCall 1 0 (ARef 0 (8, 0)) 0] ++ steps 1 0 2 ++ [LPanic 1] ++ steps 1 0 2.

(** An Eq that is reflexive and transitive, compatible with Hash, but not symmetric: [u == v]
    iff the number of [u] is at most that of [v]. *)
Definition asymE : ienv ival (nat * nat) := IEnv
  iv_ty (λ u v, iv_n u <=? iv_n v) (λ _, 0) (λ _ v, (iv_n v, iv_len v)) (λ a b, a.1 <=? b.1) (λ _, 0)
  (λ _ _ _, false) (λ _ _, true) iv_len (λ _ _, false) (λ _ _, 16) some_tid (2 ^ 64) 32.

Definition ex_asym : list (alabel ival (nat * nat)) :=
  [LArena 1 0; LCall 1 0 (ANew (IV 0 7 0)) 0] ++ steps 1 100 7 ++ [LCall 1 0 (ANew (IV 0 5 0)) 0] ++ steps 1 101 6.
Lemma asym_dangles :
  exists (E : ienv ival (nat * nat)) ls,
    (forall v, ie_eq E v v = true) /\ (forall u v, ie_eq E u v = true -> ie_hash E u = ie_hash E v) /\
    no_refs ls /\ run (astep E) ainit ls = None.
Proof.
  exists asymE, ex_asym. split_and!.
  - intros v. simpl. apply Nat.leb_refl.
  - done.
  - intros t r w q a H%elem_of_list_In. vm_compute in H. intuition discriminate.
  - by vm_compute.
Qed.

Definition ex_dangle : list (alabel ival (nat * nat)) :=
  [LArena 1 0; LCall 1 0 (ANew (IV 0 4 0)) 0] ++ steps 1 100 7
  ++ [LCall 1 0 (ARef 0 (6, 0)) 0] ++ steps 1 0 2 ++ [LConv 1 (IV 0 4 0)] ++ steps 1 101 3.
Lemma norm_dangles :
  exists (E : ienv ival (nat * nat)) ls, ilawful E /\ zst_eq E /\ run (astep E) ainit ls = None.
Proof. exists normE, (ex_dangle ++ steps 1 0 1). split_and!; [apply normE_lawful|apply normE_zst_eq|by vm_compute]. Qed.

(** Property C68: [Arena] and the aliasing models of Rust. *)
From stdpp Require Import gmap list numbers.
From Verif Require Import Base InternModel InternSpec InternEx ArenaModel ArenaSpec ArenaEx.
From Verif Require Import AliasModel AliasArenaModel AliasSpec AliasFinal AliasSeen.

(** C68.  Under Tree Borrows a program has undefined behaviour with the machines exactly if it has
    without them, however often the boxes are retagged; the rest of the state is the same. *)
Theorem C68_tree_borrows {V Q : Type} n m (E : ienv V Q) ls :
  match run (bstep trees n m E) binit ls, run (astep E) ainit (fst <$> ls) with
  | Some bs, Some st => bs_arena bs = st
  | None, None => True
  | _, _ => False
  end.
Proof. exact (tree_same n m E ls). Qed.
Print Assumptions C68_tree_borrows.
(** Hence with lawful types there is none. *)
Theorem C68_tree_borrows_defined {V Q : Type} n m (E : ienv V Q) ls :
  ilawful E -> icoherent E -> exists bs, run (bstep trees n m E) binit ls = Some bs.
Proof. exact (tree_defined n m E ls). Qed.
Print Assumptions C68_tree_borrows_defined.

(** Under Stacked Borrows the same is true if boxes are not retagged as they are moved into the table. *)
Theorem C68_stacked_borrows_box_not_retagged {V Q : Type} m (E : ienv V Q) ls :
  match run (bstep stacked 0 m E) binit ls, run (astep E) ainit (fst <$> ls) with
  | Some bs, Some st => bs_arena bs = st
  | None, None => True
  | _, _ => False
  end.
Proof. exact (stack_same m E ls). Qed.
Print Assumptions C68_stacked_borrows_box_not_retagged.
Theorem C68_stacked_borrows_defined {V Q : Type} m (E : ienv V Q) ls :
  ilawful E -> icoherent E -> exists bs, run (bstep stacked 0 m E) binit ls = Some bs.
Proof. exact (stack_defined m E ls). Qed.
Print Assumptions C68_stacked_borrows_defined.

(** If they are, it is false: [unsafe { &*p }] is undefined for every value that was stored, unless it
    is zero-sized ... *)
Theorem C68_stacked_borrows_refuted_at {V Q : Type} n m (E : ienv V Q) ls bs t r o b p k v a i j :
  1 <= n -> run (bstep stacked n m E) binit ls = Some bs ->
  a_stack (bs_arena bs) t = AMake r o b p :: k -> a_read (bs_arena bs) p = Some v -> is_zst E v = false ->
  bstep stacked n m E bs (LStep t a i, j) = UB.
Proof. exact (bad_make n m E ls bs t r o b p k v a i j). Qed.
Print Assumptions C68_stacked_borrows_refuted_at.
(** ... and so no program without undefined behaviour gets a handle of any other value. *)
Theorem C68_stacked_borrows_handles {V Q : Type} n m (E : ienv V Q) ls bs t r o b p t' o' v :
  1 <= n -> run (bstep stacked n m E) binit ls = Some bs ->
  AvRet t r o b (AP p) ∈ a_log (bs_arena bs) -> AvIns t' r o' p v ∈ a_log (bs_arena bs) -> is_zst E v = true.
Proof. exact (bad_ret n m E ls bs t r o b p t' o' v). Qed.
Print Assumptions C68_stacked_borrows_handles.
(** One lawful type and one call are enough. *)
Theorem C68_stacked_borrows_refuted :
  exists (E : ienv ival (nat * nat)) t r v a ls, ilawful E /\ icoherent E /\
    ls = (λ l, (l, 0)) <$> LArena t (ie_ty E v) :: LCall t r (ANew v) a :: replicate 5 (LStep t a 0) /\
    forall n m, 1 <= n -> run (bstep stacked n m E) binit ls = None.
Proof. exact stack_refuted. Qed.
Print Assumptions C68_stacked_borrows_refuted.

(** The machines are those of the live boxes whose contents are not zero-sized ... *)
Theorem C68_machines {V Q : Type} (M : machine) n m (E : ienv V Q) ls bs s :
  run (bstep M n m E) binit ls = Some bs ->
  is_Some (bs_objs bs !! s) <-> exists x, a_objs (bs_arena bs) !! s = Some x /\ is_zst E (ao_val x) = false.
Proof. intros H. exact (track_run n m E M ls bs H s). Qed.
Print Assumptions C68_machines.
(** ... and when a program reads through a reference, its machine has one that was handed out. *)
Theorem C68_reads {V Q : Type} (M : machine) n m (E : ienv V Q) ls bs r p j st :
  run (bstep M n m E) binit ls = Some bs -> astep E (bs_arena bs) (LRead r p) = Next st ->
  (forall v, a_read (bs_arena bs) p = Some v -> is_zst E v = false) ->
  exists y k, bs_objs bs !! ip_ser p = Some y /\ bo_hands y !! Nat.min j (pred (length (bo_hands y))) = Some k.
Proof. exact (alias_reads n m E M ls bs r p j st). Qed.
Print Assumptions C68_reads.
(** No use of a block is kept from them: a step that would be undefined if the block were not there is
    undefined if its machine refuses everything. *)
Theorem C68_no_use_missed {V Q : Type} (M : machine) n m (E : ienv V Q) (bs : bstate M) l j st' s x :
  astep E (bs_arena bs) l = Next st' -> astep E (a_without (bs_arena bs) s) l = UB ->
  bs_objs bs !! s = Some x -> refuses x -> bstep M n m E bs (l, j) = UB.
Proof. exact (arena_seen M n m E bs l st' s x j). Qed.
Print Assumptions C68_no_use_missed.

(** Two arenas, four values, boxes found and dropped, references read and an arena dropped, with two
    retags of a box into the table and one elsewhere. *)
Example C68_tree_example :
  let bs := bafter trees 2 1 toyE ex_alias in
  run (bstep trees 2 1 toyE) binit ex_alias = Some bs /\
  AvRet 2 0 (ABox (IV 0 31 0)) (Some (IPtr 200 0 1)) (AP (IPtr 100 0 0)) ∈ a_log (bs_arena bs) /\
  AvRead 0 (IPtr 100 0 0) (IV 0 30 0) ∈ a_log (bs_arena bs) /\ AvGone 0 ∈ a_log (bs_arena bs) /\
  (length ∘ bo_hands <$> bs_objs bs !! 4) = Some 2 /\ bs_objs bs !! 0 = None.
Proof. split_and!; [by apply bafter_run; vm_compute|first [by vm_compute|apply elem_of_list_In; vm_compute; tauto]..]. Qed.
Example C68_stacked_example :
  let bs := bafter stacked 0 1 toyE ex_alias in
  run (bstep stacked 0 1 toyE) binit ex_alias = Some bs /\
  AvRead 0 (IPtr 100 0 0) (IV 0 30 0) ∈ a_log (bs_arena bs) /\ AvGone 0 ∈ a_log (bs_arena bs) /\
  (length ∘ bo_hands <$> bs_objs bs !! 4) = Some 2 /\ bs_objs bs !! 0 = None.
Proof. split_and!; [by apply bafter_run; vm_compute|first [by vm_compute|apply elem_of_list_In; vm_compute; tauto]..]. Qed.
(** The first of these calls stops at [&*p]. *)
Example C68_refuted_at_example :
  let ls := take 6 ex_alias in let bs := bafter stacked 2 1 toyE ls in
  run (bstep stacked 2 1 toyE) binit ls = Some bs /\
  a_stack (bs_arena bs) 1 = [AMake 0 (ANew (IV 0 30 0)) None (IPtr 100 0 0)] /\
  a_read (bs_arena bs) (IPtr 100 0 0) = Some (IV 0 30 0) /\ is_zst toyE (IV 0 30 0) = false.
Proof. split_and!; [by apply bafter_run; vm_compute|by vm_compute..]. Qed.
(** Zero-sized values have no location to be borrowed. *)
Example C68_zst_example :
  let ls := (λ l, (l, 0)) <$> ex_zst in let bs := bafter stacked 2 1 toyE ls in
  run (bstep stacked 2 1 toyE) binit ls = Some bs /\
  exists p, AvRet 1 0 (ANew (IV 2 1 0)) None (AP p) ∈ a_log (bs_arena bs) /\
    AvIns 1 0 (ANew (IV 2 1 0)) p (IV 2 1 0) ∈ a_log (bs_arena bs).
Proof.
  split; [by apply bafter_run; vm_compute|]. eexists. split; apply elem_of_list_In; vm_compute; eauto 20.
Qed.
(** The second call finds the value of the first, which it reads. *)
Example C68_no_use_missed_example :
  let st := bs_arena (bafter stacked 0 1 toyE (take 12 ex_alias)) in
  let none := BObj (M := stacked) [] 0 [] [] [[]] in
  match astep toyE st (LStep 2 0 0) with Next _ => True | _ => False end /\
  astep toyE (a_without st 0) (LStep 2 0 0) = UB /\ refuses none /\ refuses (BObj (M := trees) [] 0 [] [] [[]]).
Proof.
  split_and!; [by vm_compute..| |]; (split; [|done]); intros [| |[]| |] He; first [done|by destruct (He t)].
Qed.

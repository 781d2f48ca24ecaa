(** The lemmas behind property C68, and the executions of its examples. *)
From stdpp Require Import gmap list numbers.
From Verif Require Import Base InternModel InternSpec InternEx ArenaModel ArenaSpec ArenaInv ArenaStep ArenaFinal ArenaMore ArenaEx.
From Verif Require Import AliasModel AliasArenaModel.
From Verif Require Export AliasTree AliasStackArena AliasStackBad AliasHands.

Section final.
  Context (n m : nat) {V Q : Type} (E : ienv V Q).

  Lemma tree_same ls :
    match run (bstep trees n m E) binit ls, run (astep E) ainit (fst <$> ls) with
    | Some bs, Some st => bs_arena bs = st
    | None, None => True
    | _, _ => False
    end.
  Proof. exact (tree_init n m E ls). Qed.
  Lemma stack_same ls :
    match run (bstep stacked 0 m E) binit ls, run (astep E) ainit (fst <$> ls) with
    | Some bs, Some st => bs_arena bs = st
    | None, None => True
    | _, _ => False
    end.
  Proof. exact (stack_init m E ls). Qed.
  Lemma tree_defined ls : ilawful E -> icoherent E -> exists bs, run (bstep trees n m E) binit ls = Some bs.
  Proof.
    intros HW HC. pose proof (tree_same ls) as H. destruct (arena_no_ub E (fst <$> ls) HW HC) as [st Hs]. rewrite Hs in H.
    destruct (run (bstep trees n m E) binit ls) as [bs|]; [by eexists|done].
  Qed.
  Lemma stack_defined ls : ilawful E -> icoherent E -> exists bs, run (bstep stacked 0 m E) binit ls = Some bs.
  Proof.
    intros HW HC. pose proof (stack_same ls) as H. destruct (arena_no_ub E (fst <$> ls) HW HC) as [st Hs]. rewrite Hs in H.
    destruct (run (bstep stacked 0 m E) binit ls) as [bs|]; [by eexists|done].
  Qed.
  Lemma alias_reads M ls bs r p j st :
    run (bstep M n m E) binit ls = Some bs -> astep E (bs_arena bs) (LRead r p) = Next st ->
    (forall v, a_read (bs_arena bs) p = Some v -> is_zst E v = false) ->
    exists y k, bs_objs bs !! ip_ser p = Some y /\ bo_hands y !! Nat.min j (pred (length (bo_hands y))) = Some k.
  Proof.
    intros Hr Hs Hz. simpl in Hs. destruct (a_returned r p (a_log (bs_arena bs))) eqn:Hret; [|done].
    destruct (a_arenas (bs_arena bs) !! r) as [x|] eqn:Hx; [|done]. destruct (a_read (bs_arena bs) p) as [v|] eqn:Hv; [|done].
    destruct (hands_run M n m E ls bs r p x v Hr Hret Hx Hv (Hz v eq_refl)) as (y&Hy&Hh). exists y.
    destruct (bo_hands y !! Nat.min j (pred (length (bo_hands y)))) as [k|] eqn:Hk; [by exists k|].
    apply lookup_ge_None in Hk. destruct (bo_hands y); [done|]. simpl in Hk. lia.
  Qed.
End final.

Definition bafter {V Q} (M : machine) n m (E : ienv V Q) ls : bstate M (V:=V) (Q:=Q) := default binit (run (bstep M n m E) binit ls).
Lemma bafter_run {V Q} (M : machine) n m (E : ienv V Q) ls : (if run (bstep M n m E) binit ls then true else false) = true ->
  run (bstep M n m E) binit ls = Some (bafter M n m E ls).
Proof. unfold bafter. by destruct (run (bstep M n m E) binit ls). Qed.

(** Thread 1 interns 30 in arena 0, and thread 2 the box 31, which is Eq to it; they read it.  Thread 1
    interns a reference to 8 and the box 40; thread 2 interns 30 in arena 1, and reads it.  Arena 0 is
    dropped. *)
Definition ex_alias : list (alabel ival (nat * nat) * nat) :=
  ((λ l, (l, 0)) <$> [LArena 1 0; LCall 1 0 (ANew (IV 0 30 0)) 0] ++ steps 1 100 7
    ++ [LArena 1 0; LCall 2 0 (ABox (IV 0 31 0)) 200] ++ steps 2 0 4)
  ++ [(LRead 0 (IPtr 100 0 0), 1); (LRead 0 (IPtr 100 0 0), 0)]
  ++ ((λ l, (l, 0)) <$> [LCall 1 0 (ARef 0 (8, 0)) 0] ++ steps 1 0 2 ++ [LConv 1 (IV 0 8 0)] ++ steps 1 101 5
    ++ [LCall 1 0 (ABox (IV 0 40 0)) 102] ++ steps 1 0 6
    ++ [LCall 2 1 (ANew (IV 0 30 0)) 0] ++ steps 2 103 7
    ++ [LRead 1 (IPtr 103 0 4); LDrop 1 0] ++ steps 1 0 4).

Lemma stack_refuted :
  exists (E : ienv ival (nat * nat)) t r v a ls, ilawful E /\ icoherent E /\
    ls = (λ l, (l, 0)) <$> LArena t (ie_ty E v) :: LCall t r (ANew v) a :: replicate 5 (LStep t a 0) /\
    forall n m, 1 <= n -> run (bstep stacked n m E) binit ls = None.
Proof.
  eexists toyE, 1, 0, (IV 0 30 0), 100, _. split_and!; [apply toyE_lawful|apply toyE_coherent|done|].
  intros n m Hn. match goal with |- ?x = None => destruct x as [bs|] eqn:Hr; [exfalso|done] end.
  destruct (binv_run n m toyE _ _ Hn Hr) as [_ _ _ HL]. apply arena_run in Hr.
  match type of Hr with run _ _ ?ls = _ => set (ks := ls) in Hr end.
  assert (bs_arena bs = aafter toyE ks) as Heq by (unfold aafter; by rewrite Hr). clear Hr.
  assert (is_ret (bs_arena bs) 0 (IPtr 100 0 0)) as Hret.
  { left. rewrite Heq. exists 1, (ARel 0 (ANew (IV 0 30 0)) None false (AP (IPtr 100 0 0))).
    split; [|done]. apply elem_of_list_In. vm_compute. by left. }
  assert (AvIns 1 0 (ANew (IV 0 30 0)) (IPtr 100 0 0) (IV 0 30 0) ∈ a_log (bs_arena bs)) as Hin.
  { rewrite Heq. apply elem_of_list_In. vm_compute. tauto. }
  by apply (l_ret _ _ HL _ _ Hret) in Hin.
Qed.

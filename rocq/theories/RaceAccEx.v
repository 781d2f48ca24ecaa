(** A concrete execution for the examples beside C51's accounting theorems. *)
From stdpp Require Import gmap list numbers.
From Verif Require Import Base ArcModel ArcSpec ArcEx RaceModel RaceSpec RaceThm RaceEx RaceAccSpec.

(** Thread 1 has interned a leaf (object 0, shard 0) and owns two handles; thread 2 interns a
    leaf of the other shard, of which it has done [n] steps (search, allocate, search again,
    insert, release the lock). *)
Definition leaf6 := Node 0 6 [].
Definition acc_ls (n : nat) : list (rlabel node) :=
  rintern 1 10 leaf4 [] 0 ++ RClone 1 0 [] 1 :: RNew 2 KSized leaf6 [] :: rsteps 2 30 9 n.
Definition acc_s (n : nat) : rstate node := rafter exE code_orders (acc_ls n).
Definition acc_l : rlabel node := RStep 2 30 0 9.

Definition howb (w w' : how) : bool :=
  match w, w' with TRead, TRead | TWrite, TWrite | TAtomic, TAtomic => true | _, _ => false end.
Lemma untouched ms k w :
  forallb (λ m, forallb (λ x : nat * how, negb ((x.1 =? k) && howb x.2 w)) (touched m)) ms = true -> ~ touches ms k w.
Proof.
  rewrite forallb_forall. intros H (m&Hm&Hk). apply elem_of_list_In in Hm. specialize (H m Hm). rewrite forallb_forall in H.
  apply elem_of_list_In in Hk. specialize (H _ Hk). simpl in H. rewrite Nat.eqb_refl in H. by destruct w.
Qed.
Lemma same_lock (hh : gmap nat (cell node)) k v :
  bool_decide (map_Forall (λ _ c, match c_data c with
    | Some d => negb (c_ser c =? k) || bool_decide (lock_of exE v = lock_of exE d) | None => true end = true) hh) = true ->
  forall a c d, hh !! a = Some c -> c_ser c = k -> c_data c = Some d -> lock_of exE v = lock_of exE d.
Proof.
  intros H%bool_decide_eq_true a c d Hc Hk Hd. specialize (H a c Hc). simpl in H. rewrite Hd in H.
  destruct (Nat.eqb_spec (c_ser c) k); [|done]. simpl in H. by apply bool_decide_eq_true in H.
Qed.
Lemma acc_hyps n : n <= 5 ->
  coherent exE /\ wide exE /\ acquires (o_sub code_orders) = true /\ releases (o_sub code_orders) = true /\
  rbounded exE code_orders (acc_ls n) /\ run (rstep exE code_orders) rinit (acc_ls n) = Some (acc_s n).
Proof.
  intros Hn. assert (coherent exE) as HC by apply lawful_coherent, nodes_lawful.
  assert (wide exE) as HW by (unfold wide; simpl; lia).
  assert (length (acc_ls n) <= 14) by (unfold acc_ls, rsteps; rewrite app_length; simpl; rewrite replicate_length; lia).
  split_and!; [done..| |].
  - do 6 (destruct n as [|n]; [apply rshort_bounded; [done|done|vm_compute; done]|]). lia.
  - apply rafter_run. do 6 (destruct n as [|n]; [vm_compute; done|]). lia.
Qed.

Lemma rafter_step ls l :
  match run (rstep exE code_orders) rinit ls with Some _ => true | None => false end = true ->
  match rstep exE code_orders (rafter exE code_orders ls) l with Next _ => true | _ => false end = true ->
  rstep exE code_orders (rafter exE code_orders ls) l = Next (rafter exE code_orders (ls ++ [l])).
Proof.
  intros Hr%rafter_run Hs. unfold rafter at 2. rewrite run_snoc, Hr. unfold exec. by destruct (rstep _ _ _ _).
Qed.
Lemma acc_step n : n <= 5 -> rstep exE code_orders (acc_s n) acc_l = Next (acc_s (S n)).
Proof.
  intros Hn. replace (acc_s (S n)) with (rafter exE code_orders (acc_ls n ++ [acc_l])).
  - apply rafter_step; do 6 (destruct n as [|n]; [vm_compute; done|]); lia.
  - unfold acc_s. f_equal. unfold acc_ls, rsteps. rewrite <- app_assoc. f_equal.
    change (replicate (S n) (RStep 2 30 0 9)) with (acc_l :: replicate n acc_l). by rewrite replicate_cons_app.
Qed.

(** Concrete executions of RaceModel. *)
From stdpp Require Import gmap list numbers.
From Verif Require Import Base ArcModel ArcSpec ArcEx RaceModel RaceSpec RaceHb RaceThm.

Definition rsteps (t a h n : nat) : list (rlabel node) := replicate n (RStep t a 0 h).
Definition rintern (t a : nat) (v : node) (hs : list nat) (h : nat) : list (rlabel node) :=
  RNew t KSized v hs :: rsteps t a h 6.

Definition rafter (E : tyenv node) (O : orders) (ls : list (rlabel node)) : rstate node :=
  default rinit (run (rstep E O) rinit ls).
Lemma rafter_run E O ls :
  match run (rstep E O) rinit ls with Some _ => true | None => false end = true ->
  run (rstep E O) rinit ls = Some (rafter E O ls).
Proof. unfold rafter. by destruct (run (rstep E O) rinit ls). Qed.

(** Thread 1 interns a leaf, a parent owning a clone of the handle, and lends the parent to
    thread 2, which reads the leaf through it and interns an Eq leaf for itself.  Thread 1
    drops the parent (told that thread 2 is done with it), then its leaf; thread 2 reads its
    leaf and drops it, and so destroys it. *)
Definition race_ls : list (rlabel node) :=
  rintern 1 10 leaf4 [] 0 ++ RClone 1 0 [] 1 :: rintern 1 20 parent [1] 2 ++
  [RSend 1 0; RRecv 2 0; RDeref 2 2 [exA]; RSend 2 1] ++
  RNew 2 KSized leaf5 [] :: rsteps 2 0 3 5 ++
  [RRecv 1 1] ++ RDrop 1 2 :: rsteps 1 0 9 9 ++ RDrop 1 0 :: rsteps 1 0 9 2 ++
  RDeref 2 3 [] :: RDrop 2 3 :: rsteps 2 0 9 9.

(** Two threads share an object; one reads it and drops its handle, then the other one drops
    the last handle. *)
Definition share_ls : list (rlabel node) :=
  rintern 1 10 leaf4 [] 0 ++ RNew 2 KSized leaf4 [] :: rsteps 2 0 1 5 ++
  RDeref 1 0 [] :: RDrop 1 0 :: rsteps 1 0 9 2 ++ RDrop 2 1 :: rsteps 2 0 9 9.

(** Access 7 (the read by thread 1) does not happen before access 12 (the destruction). *)
Definition share_bad (O : orders) : bool :=
  match run (rstep exE O) rinit share_ls with
  | Some s =>
      match r_trace s !! 7, r_trace s !! 12 with
      | Some (Access _ [(0, TRead)] _), Some (Access _ [(0, TWrite)] W) => negb (bool_decide (7 ∈ W))
      | _, _ => false
      end
  | None => false
  end.
Lemma share_bad_all O : acquires (o_sub O) = false \/ releases (o_sub O) = false -> share_bad O = true.
Proof.
  destruct O as [oa ou oc os ol]. simpl. intros HO.
  assert (os = Relaxed \/ os = Acquire \/ os = Release) as [->|[->| ->]].
  { destruct os; simpl in HO; destruct HO; tauto || discriminate. }
  all: destruct oa; vm_compute; reflexivity.
Qed.
Lemma share_race O : acquires (o_sub O) = false \/ releases (o_sub O) = false ->
  is_Some (run (rstep exE O) rinit share_ls) /\ data_race (events exE O share_ls).
Proof.
  intros HO. apply share_bad_all in HO. unfold share_bad in HO.
  destruct (run (rstep exE O) rinit share_ls) as [s|] eqn:Hr; [|done].
  split; [by eexists|].
  destruct (r_trace s !! 7) as [[t touch P]|] eqn:Hx; [|done].
  destruct touch as [|[[|k] []] [|]]; try done.
  destruct (r_trace s !! 12) as [[t' touch' W]|] eqn:Hy; [|done].
  destruct touch' as [|[[|k'] []] [|]]; try done.
  apply negb_true_iff, bool_decide_eq_false in HO.
  pose proof (events_clk exE O share_ls _ _ [] clk_init Hr) as HC.
  eapply (trace_race _ _ 7 12 _ _ 0 TRead TWrite HC); [lia|done|done|by left|by left|by right|done].
Qed.

Lemma share_witness O : acquires (o_sub O) = false \/ releases (o_sub O) = false ->
  lawful exE /\ wide exE /\ rbounded exE O share_ls /\
  is_Some (run (rstep exE O) rinit share_ls) /\ data_race (events exE O share_ls).
Proof.
  intros HO. split; [apply nodes_lawful|].
  assert (wide exE) as HW by (unfold wide; simpl; lia). split; [done|].
  split; [|by apply share_race].
  apply rshort_bounded; [apply lawful_coherent, nodes_lawful|done|vm_compute; done].
Qed.

(** A concrete family of user types, used in the examples and the refutations: nodes of a
    hash-consed graph.  Two nodes are Eq when their types agree, their numbers agree up to
    the last bit (so Eq is coarser than identity) and their children are equal handles. *)
From stdpp Require Import gmap list numbers.
From Verif Require Import Base ArcModel ArcSpec.

Record node := Node { n_ty : nat; n_val : nat; n_kids : list ptr }.
Global Instance node_eq_dec : EqDecision node.
Proof. solve_decision. Defined.

Fixpoint kids_eqb (l1 l2 : list ptr) : bool :=
  match l1, l2 with
  | [], [] => true
  | p :: l1', q :: l2' => handle_eqb p q && kids_eqb l1' l2'
  | _, _ => false
  end.
Definition node_eqb (x y : node) : bool :=
  (n_ty x =? n_ty y) && (n_val x / 2 =? n_val y / 2) && kids_eqb (n_kids x) (n_kids y).

(** [sh] shards, counts modulo [M]. *)
Definition nodes (sh : nat) (M : N) : tyenv node :=
  TyEnv node node_eqb (λ x, n_val x / 2) n_ty n_kids (λ _ _, true) sh M.

Lemma kids_eqb_refl l : kids_eqb l l = true.
Proof. induction l; simpl; [done|]. unfold handle_eqb. by rewrite Nat.eqb_refl. Qed.
Lemma kids_eqb_sym l1 l2 : kids_eqb l1 l2 = true -> kids_eqb l2 l1 = true.
Proof.
  revert l2. induction l1 as [|p l1 IH]; intros [|q l2]; try done. simpl. unfold handle_eqb.
  intros [->%Nat.eqb_eq H]%andb_true_iff. rewrite Nat.eqb_refl. by apply IH.
Qed.
Lemma kids_eqb_trans l1 l2 l3 :
  kids_eqb l1 l2 = true -> kids_eqb l2 l3 = true -> kids_eqb l1 l3 = true.
Proof.
  revert l2 l3. induction l1 as [|p l1 IH]; intros [|q l2] [|r l3]; try done. simpl. unfold handle_eqb.
  intros [->%Nat.eqb_eq H]%andb_true_iff [->%Nat.eqb_eq H']%andb_true_iff.
  rewrite Nat.eqb_refl. simpl. by eapply IH.
Qed.

Lemma nodes_lawful sh M : lawful (nodes sh M).
Proof.
  constructor; simpl; unfold node_eqb.
  - intros v. by rewrite !Nat.eqb_refl, kids_eqb_refl.
  - intros u v. rewrite !andb_true_iff, !Nat.eqb_eq. intros [[-> ->] H]. by apply kids_eqb_sym in H.
  - intros u v w. rewrite !andb_true_iff, !Nat.eqb_eq. intros [[-> ->] H] [[-> ->] H'].
    split; [done|]. by eapply kids_eqb_trans.
  - intros u v. rewrite !andb_true_iff, !Nat.eqb_eq. tauto.
  - intros u v. rewrite !andb_true_iff, !Nat.eqb_eq. tauto.
Qed.

(** A whole call of thread [t]: it takes [n] steps, allocating at [a] if need be. *)
Definition steps (t a n : nat) : list (label node) := replicate n (LStep t a 0).

(** Intern [v] by thread [t] when nobody interferes: 6 steps if the value is new. *)
Definition intern (t a : nat) (k : kind) (v : node) : list (label node) :=
  LNew t k v :: steps t a 6.

(** The state after an execution ([init] if there is none). *)
Definition after {V} (E : tyenv V) (ls : list (label V)) : state V :=
  default init (run (step E) init ls).
Lemma after_run {V} (E : tyenv V) ls :
  match run (step E) init ls with Some _ => true | None => false end = true ->
  run (step E) init ls = Some (after E ls).
Proof. unfold after. by destruct (run (step E) init ls). Qed.

(** ** A running example: thread 1 interns a leaf [exA], clones it and interns a parent [exB]
    owning one of the handles; thread 2 interns an Eq but different leaf and gets [exA]. *)
Definition exE : tyenv node := nodes 2 256.
Definition exA := Ptr 10 0.
Definition exB := Ptr 20 1.
Definition leaf4 := Node 0 4 [].
Definition leaf5 := Node 0 5 [].
Definition parent := Node 1 7 [exA].
Definition ex_ls : list (label node) :=
  intern 1 10 KSized leaf4 ++ LClone exA [] :: intern 1 20 KSized parent
  ++ LNew 2 KDst leaf5 :: steps 2 0 4.
(** Then: reads, and everything is dropped; [exB]'s drop releases the handle inside it. *)
Definition ex_reads : list (label node) := [LRef exB [exA]; LDeref exA []; LDeref exB [exA]].
Definition ex_drops : list (label node) :=
  LDrop 1 exA :: steps 1 0 2 ++ LDrop 2 exA :: steps 2 0 2 ++ LDrop 1 exB :: steps 1 0 9.

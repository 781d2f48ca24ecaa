(** Executions with panics outside searches. *)
From stdpp Require Import gmap list numbers.
From Verif Require Import Base ArcModel ArcSpec ArcEx GrowModel GrowSpec GrowProof.
Require Import ZifyBool ZifyNat ZifyN.

Definition gafter {V} (E : tyenv V) early (ls : list (glabel V)) : state V :=
  default init (run (gstep E early) init ls).

(** Thread [t] interns [v] and has found that the value is new; the insertion comes next. *)
Definition to_insert (t a : nat) (k : kind) (v : node) : list (glabel node) :=
  GDo <$> LNew t k v :: steps t a 3.
(** Another value of type 0 in the same shard as [leaf4]. *)
Definition leaf8 := Node 0 8 [].
Definition exD := Ptr 20 1.

(** Hash panics in the very first insertion; thread 1 unwinds. *)
Definition first_insert (k : kind) : list (glabel node) :=
  to_insert 1 10 k leaf4 ++ [GInsert 1 []; GDo (LStep 1 0 0); GDo (LStep 1 0 0)].

(** [exA] has been interned and the client has a handle to it; then a table of type 0 is
    rehashed in place and Hash panics. *)
Definition rehash : list (glabel node) :=
  (GDo <$> intern 1 10 KSized leaf4) ++ to_insert 2 20 KSized leaf8 ++ [GInsert 2 [exA]].

(** Hash panics once in [shrink_to_fit] and once in an insertion of a value that owns a handle;
    the thread unwinds, drops the handle in the value, and carries on.  Then Drop of the argument
    of a call panics after the entry was found. *)
Definition calm_ls : list (glabel node) :=
  (GDo <$> intern 1 10 KSized leaf4) ++ [GDo (LShrink 2 0); GShrink 2] ++
  (GDo <$> LClone exA [] :: intern 2 20 KDst leaf8) ++
  to_insert 2 30 KSized (Node 0 12 [exA]) ++ [GInsert 2 []] ++ (GDo <$> steps 2 0 3) ++
  (GDo <$> intern 2 30 KSized (Node 0 12 [])) ++
  (GDo <$> LNew 3 KSized leaf5 :: steps 3 0 3) ++ [GDrop 3] ++ (GDo <$> steps 3 0 2).

Lemma insert_panic_refuted (k : kind) (M : N) :
  exists (E : tyenv node) ls,
    lawful E /\ te_mod E = M /\ length ls = 7 /\ entries_kept ls /\ run (gstep E true) init ls = None.
Proof.
  exists (nodes 2 M), (first_insert k). split_and!; [apply nodes_lawful|done|by destruct k| |].
  - unfold first_insert, to_insert. by repeat constructor.
  - destruct k; vm_compute; reflexivity.
Qed.

Lemma handle_last_refuted (M : N) :
  exists (E : tyenv node) ls p,
    lawful E /\ te_mod E = M /\ length ls = 12 /\
    (exists st, run (gstep E false) init ls = Some st /\ p ∈ st_pool st) /\
    run (gstep E false) init (ls ++ [GDo (LDeref p [])]) = None.
Proof.
  exists (nodes 2 M), rehash, exA. split_and!; [apply nodes_lawful|done|done| |].
  - exists (gafter (nodes 2 M) false rehash). split; [vm_compute; reflexivity|].
    vm_compute. by left.
  - vm_compute; reflexivity.
Qed.

Lemma calm_kept : entries_kept calm_ls.
Proof. unfold calm_ls, to_insert, intern. by repeat constructor. Qed.
Lemma calm_bounded : gbounded exE false calm_ls.
Proof.
  apply gshort_bounded; [apply lawful_coherent, nodes_lawful|done| |by vm_compute].
  eapply Forall_impl; [|exact calm_kept]. by intros [].
Qed.

(** Concrete subtyping for the examples: type 0 is a subtype of type 1. *)
From stdpp Require Import gmap list numbers.
From Verif Require Import Base ArcModel ArcSpec ArcEx VarModel VarSpec VarProof InternModel InternSpec InternEx.

Definition zero_below_one (ty : nat) (v : node) : option node :=
  if (ty =? 1) && (n_ty v =? 0) then Some (Node 1 (n_val v) (n_kids v)) else None.
Definition vafter (ls : list (vlabel node)) : state node :=
  default init (run (vstep exE zero_below_one) init ls).

Lemma zbo_typed : up_typed exE zero_below_one.
Proof. intros ty v v'. unfold zero_below_one. by destruct ((ty =? 1) && (n_ty v =? 0)) eqn:H; [apply andb_true_iff in H as [->%Nat.eqb_eq _]; intros [= <-]|]. Qed.

(** Only values of type 0 are interned. *)
Definition zeros (ls : list (vlabel node)) : Prop :=
  Forall (λ l, match l with VDo (LNew _ _ v) => n_ty v = 0 | _ => True end) ls.
Lemma zeros_apart ls : zeros ls -> apart exE zero_below_one ls.
Proof.
  intros Hz v w ty v' _ (t&k&Hw) Hu. unfold zeros in Hz. rewrite Forall_forall in Hz.
  apply elem_of_list_In in Hw. specialize (Hz _ Hw). simpl in Hz.
  simpl. unfold node_eqb, zero_below_one in *. rewrite Hz.
  destruct ((ty =? 1) && (n_ty v =? 0)); [|done]. by injection Hu as <-.
Qed.
Lemma zeros_bounded ls : zeros ls -> (N.of_nat (length ls) < 256)%N -> vbounded exE zero_below_one ls.
Proof. intros Hz Hl. apply vshort; [apply lawful_coherent, nodes_lawful|done|by apply zeros_apart|done]. Qed.

(** Thread 1 interns a leaf and drops it at type 1; thread 2 interns an Eq leaf. *)
Definition lose_leaf : list (vlabel node) :=
  undisturbed 1 10 leaf4 ++ [VDo (LDrop 1 exA); VDo (LStep 1 0 0)].
Definition want_leaf : list (vlabel node) := [VDo (LNew 2 KDst leaf5); VDo (LStep 2 0 0)].

(** The five lines in memory, and without their last step. *)
Definition leaf4' := Node 1 4 [].
Lemma five_lines_refute :
  exists (E : tyenv node) up ls,
    lawful E /\ up_typed E up /\ (forall ty v v', up ty v = Some v' -> te_kids E v' = te_kids E v) /\
    (N.of_nat (length ls) < te_mod E)%N /\ (forall t, VDo (LPanic t) ∉ ls) /\
    run (vstep E up) init ls = None.
Proof.
  exists exE, zero_below_one, (five_lines 1 leaf4 leaf4'). split_and!.
  - apply nodes_lawful.
  - apply zbo_typed.
  - intros ty v v'. unfold zero_below_one. destruct (_ && _); [|done]. by intros [= <-].
  - by vm_compute.
  - intros t H%elem_of_list_In. simpl in H. repeat (destruct H as [H|H]; [done|]). done.
  - apply five_lines_ub; done.
Qed.

Lemma two_handles_refute :
  exists (E : tyenv node) up ls st p q v w ty,
    lawful E /\ up_typed E up /\ (N.of_nat (length ls) < te_mod E)%N /\
    run (vstep E up) init ls = Some st /\ p ∈ st_pool st /\ q ∈ st_pool st /\
    data st p = Some v /\ data st q = Some w /\ up ty v = Some w /\ te_ty E w = ty /\
    te_eq E w w = true /\ handle_eqb p q = false.
Proof.
  exists exE, zero_below_one, (undisturbed 0 0 leaf4 ++ undisturbed 0 1 leaf4'),
    (vafter (undisturbed 0 0 leaf4 ++ undisturbed 0 1 leaf4')), (Ptr 0 0), (Ptr 1 1), leaf4, leaf4', 1.
  split_and!; [apply nodes_lawful|apply zbo_typed|by vm_compute|by vm_compute| | |by vm_compute|by vm_compute|done..];
    apply elem_of_list_In; vm_compute; tauto.
Qed.

(** The same for [Intern]. *)
Definition izero_below_one (ty : nat) (v : ival) : option ival :=
  if (ty =? 1) && (iv_ty v =? 0) then Some (IV 1 (iv_n v) (iv_len v)) else None.
Definition ex_two : list (ilabel ival (nat * nat)) :=
  icall 1 100 (ONew (IV 0 4 0)) 5 ++ icall 1 200 (ONew (IV 1 4 0)) 5.
Lemma intern_two_refute :
  exists (E : ienv ival (nat * nat)) (up : nat -> ival -> option ival) ls st t1 p1 t2 p2 v w,
    ilawful E /\ icoherent E /\ zst_eq E /\ no_clear ls /\ run (istep E) iinit ls = Some st /\
    (forall ty u u', up ty u = Some u' -> ie_ty E u' = ty) /\ up (ie_ty E w) v = Some w /\
    EvRet t1 (ONew v) (RPtr p1) ∈ i_log st /\ EvRet t2 (ONew w) (RPtr p2) ∈ i_log st /\
    iread st p1 = Some v /\ iread st p2 = Some w /\ ie_eq E w w = true /\ iptr_eqb p1 p2 = false.
Proof.
  exists toyE, izero_below_one, ex_two, (iafter toyE ex_two), 1, (IPtr 100 0 0), 1, (IPtr 200 0 1), (IV 0 4 0), (IV 1 4 0).
  split_and!; [apply toyE_lawful|apply toyE_coherent|apply toyE_zst_eq| |by apply iafter_run; vm_compute| |done
    |apply elem_of_list_In; vm_compute; tauto|apply elem_of_list_In; vm_compute; tauto|by vm_compute..].
  - intros t ty a H%elem_of_list_In. simpl in H. repeat (destruct H as [H|H]; [done|]). done.
  - intros ty u u'. unfold izero_below_one.
    destruct ((ty =? 1) && (iv_ty u =? 0)) eqn:H; [|done]. apply andb_true_iff in H as [->%Nat.eqb_eq _]. by intros [= <-].
Qed.

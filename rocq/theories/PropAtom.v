(** Property C52: ArcIntern is linearizable (src/arc.rs 185-325, src/arc_dst.rs 66-119).  The atomic
    interner and what is visible of an execution: AtomSpec.v. *)
From stdpp Require Import gmap list numbers.
From Verif Require Import Base ArcModel ArcSpec ArcEx ArcFinal AtomSpec AtomFinal.

(** ** C52.  Whatever the threads do, the calls, returns, results and panics the clients see are
    those of an execution of the atomic interner, in the same order. *)
Theorem C52_linearizable {V : Type} (E : tyenv V) ls st :
  coherent E -> wide E -> bounded E ls -> run (step E) init ls = Some st ->
  exists xs a, atomics E ainit xs a /\ visible xs = sights E init ls /\
    at_owned a = st_pool st /\
    forall p d n, at_objs a !! p = Some (d, n) <-> 0 < n /\ handles_to E st p = n /\ data st p = Some d.
Proof. exact (linearizable E ls st). Qed.
Print Assumptions C52_linearizable.

(** Two threads intern equal values at the same time and both find nothing; one of them inserts,
    the other one finds the entry taken, starts again and gets the handle of the first. *)
Definition duel : list (label node) :=
  [LNew 1 KSized leaf4; LNew 2 KSized leaf5; LStep 1 0 0; LStep 2 0 0; LStep 1 10 0; LStep 2 20 0]
  ++ steps 1 0 4 ++ steps 2 0 6 ++ [LRef exA []; LDeref exA []; LDrop 1 exA; LStep 1 0 0].
Example C52_example :
  coherent exE /\ wide exE /\ bounded exE duel /\ run (step exE) init duel = Some (after exE duel) /\
  sights exE init duel =
    [ACall 1 leaf4; ACall 2 leaf5; ARet 1 (Some (leaf4, exA)); ARet 2 (Some (leaf5, exA));
     ARef exA [] exA 2; ADeref exA [] exA leaf4; ADrop 1 exA] /\
  handles_to exE (after exE duel) exA = 1.
Proof.
  split_and!; [apply lawful_coherent, nodes_lawful|done|by apply ex_bounded|by apply after_run; vm_compute
    |by vm_compute|by vm_compute].
Qed.

(** In the atomic interner an intern call takes effect exactly once, between its call and its
    return, by finding or by making the object whose handle it returns; after that the thread
    only gives up handles. *)
Theorem C52_one_effect {V : Type} (E : tyenv V) xs t v p a :
  atomics E ainit (xs ++ [ARet t (Some (v, p))]) a ->
  exists xs1 xs2 e xs3, xs = xs1 ++ ACall t v :: xs2 ++ e :: xs3 /\ (e = AHit t p \/ e = AMiss t p) /\
    Forall (λ x, act_thread x <> Some t) xs2 /\
    Forall (λ x, act_thread x = Some t -> x = ARelease t \/ x = ABury t) xs3.
Proof. exact (one_effect E xs t v p a). Qed.
Print Assumptions C52_one_effect.
Example C52_one_effect_example : exists a,
  atomics exE ainit ([ACall 1 leaf4; ACall 2 leaf5; AMiss 1 exA; AHit 2 exA] ++ [ARet 2 (Some (leaf5, exA))]) a.
Proof.
  eexists. simpl. eapply ats_cons. { by apply (at_call exE _ 1 leaf4 []). }
  eapply ats_cons. { by apply (at_call exE _ 2 leaf5 []). }
  eapply ats_cons. { apply (at_miss exE _ 1 leaf4 exA); [done|]. intros q d n Hq. simpl in Hq. by rewrite lookup_empty in Hq. }
  eapply ats_cons. { by apply (at_hit exE _ 2 leaf5 exA leaf4 1). }
  eapply ats_cons. { by apply (at_ret exE _ 2 (Some (leaf5, exA))). }
  apply ats_nil.
Qed.

(** And equal values have one object, different objects different addresses. *)
Theorem C52_atomic_unique {V : Type} (E : tyenv V) xs a :
  (forall u v, te_eq E u v = true -> te_eq E v u = true) ->
  atomics E ainit xs a ->
  forall p q u v m n, at_objs a !! p = Some (u, m) -> at_objs a !! q = Some (v, n) ->
  te_eq E u v = true \/ p_addr p = p_addr q -> p = q.
Proof. exact (atomic_unique E xs a). Qed.
Print Assumptions C52_atomic_unique.
Example C52_atomic_unique_example : exists a,
  atomics exE ainit [ACall 1 leaf4; AMiss 1 exA; ACall 2 (Node 0 8 []); AMiss 2 exB] a /\
  at_objs a !! exA = Some (leaf4, 1) /\ at_objs a !! exB = Some (Node 0 8 [], 1).
Proof.
  eexists. split.
  - eapply ats_cons. { by apply (at_call exE _ 1 leaf4 []). }
    eapply ats_cons. { apply (at_miss exE _ 1 leaf4 exA); [done|]. intros q d n Hq. simpl in Hq. by rewrite lookup_empty in Hq. }
    eapply ats_cons. { by apply (at_call exE _ 2 (Node 0 8 []) []). }
    eapply ats_cons.
    { apply (at_miss exE _ 2 (Node 0 8 []) exB); [done|]. intros q d n Hq. simpl in Hq.
      apply lookup_insert_Some in Hq as [[<- [= <- <-]]|[_ Hq]]; [done|]. by rewrite lookup_empty in Hq. }
    apply ats_nil.
  - split; reflexivity.
Qed.

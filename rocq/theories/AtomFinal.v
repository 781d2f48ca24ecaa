(** ArcIntern refines the atomic interner; what the atomic interner guarantees. *)
From stdpp Require Import gmap list numbers.
From Verif Require Import Base ArcModel ArcSpec ArcInv ArcSafe ArcReach ArcEx ArcFinal AtomSpec AtomSim.
Require Import ZifyBool ZifyNat ZifyN.

Section final.
  Context {V : Type} (E : tyenv V).
  Implicit Types (st : state V) (v d : V) (p q : ptr) (a : atom V).

  Lemma linearizable ls st :
    coherent E -> wide E -> bounded E ls -> run (step E) init ls = Some st ->
    exists xs a, atomics E ainit xs a /\ visible xs = sights E init ls /\
      at_owned a = st_pool st /\
      forall p d n, at_objs a !! p = Some (d, n) <-> 0 < n /\ handles_to E st p = n /\ data st p = Some d.
  Proof.
    intros HC HW Hb Hr.
    destruct (run_sim E HC HW ls [] init ainit) with (st' := st) as (xs&a&H1&H2&H3); [done|done|apply sim_init|done|].
    exists xs, a. split; [done|]. split; [done|]. split; [apply (sim_owned E _ _ H3)|].
    intros p d n. rewrite (sim_objs E _ _ H3). split.
    - intros (?&?&?)%obj_Some. auto.
    - intros (Hn&Hh&Hd). unfold obj_of. rewrite Hd, Hh. destruct (Nat.eqb_spec n 0); [lia|done].
  Qed.

  (** ** The atomic interner *)
  Lemma atomics_snoc a xs x a' :
    atomics E a (xs ++ [x]) a' <-> exists a1, atomics E a xs a1 /\ atomic E a1 x a'.
  Proof.
    split.
    - revert a. induction xs as [|y xs IH]; intros a H; simpl in H; inversion H; subst.
      + match goal with H : atomics _ _ [] _ |- _ => inversion H; subst end. eexists. split; [constructor|done].
      + match goal with H : atomics _ _ (xs ++ [x]) _ |- _ => apply IH in H as (a1&?&?) end.
        exists a1. split; [|done]. by econstructor.
    - intros (a1&H&Hx). eapply atomics_app; [done|]. by apply atomics_1.
  Qed.

  (** Equal values share their object, and different objects have different addresses. *)
  Lemma atomic_unique xs a :
    (forall u v, te_eq E u v = true -> te_eq E v u = true) ->
    atomics E ainit xs a ->
    forall p q u v m n, at_objs a !! p = Some (u, m) -> at_objs a !! q = Some (v, n) ->
    te_eq E u v = true \/ p_addr p = p_addr q -> p = q.
  Proof.
    intros Hsym. revert a. induction xs as [|x xs IH] using rev_ind; intros a H.
    { inversion H; subst. intros p q u v m n Hp. simpl in Hp. by rewrite lookup_empty in Hp. }
    apply atomics_snoc in H as (a1&H1&Hx). specialize (IH a1 H1).
    assert (forall r d k j, at_objs a1 !! r = Some (d, k) -> forall p q u v m n,
      <[r:=(d,j)]> (at_objs a1) !! p = Some (u, m) -> <[r:=(d,j)]> (at_objs a1) !! q = Some (v, n) ->
      te_eq E u v = true \/ p_addr p = p_addr q -> p = q) as Hup.
    { intros r d k j Hr p q u v m n Hp Hq Hor.
      assert (exists m', at_objs a1 !! p = Some (u, m')) as [m' Hp'].
      { destruct (decide (r = p)) as [->|]; [rewrite lookup_insert in Hp; injection Hp as -> ->; eauto|].
        rewrite lookup_insert_ne in Hp by done. eauto. }
      assert (exists n', at_objs a1 !! q = Some (v, n')) as [n' Hq'].
      { destruct (decide (r = q)) as [->|]; [rewrite lookup_insert in Hq; injection Hq as -> ->; eauto|].
        rewrite lookup_insert_ne in Hq by done. eauto. }
      by eapply IH. }
    destruct Hx as [t0 v l Ht Hl|t0 v p d n Ht Hp He|t0 v p Ht Hno|t0 p l Ht Hl|t0 p w r d n Ht Hp|t0 d w r Ht|t0 r Ht
                   |t0 v Ht|t0 d w r Ht|p ks k d n Ho Hr Hp|p l|p ks k d n|p ks k d n]; simpl; try exact IH.
    - by eapply Hup.
    - intros p1 q1 u1 v1 m1 n1 Hp Hq Hor.
      destruct (decide (p = p1)) as [<-|Hne1], (decide (p = q1)) as [<-|Hne2]; [done| | |].
      + rewrite lookup_insert in Hp. injection Hp as <- <-. rewrite lookup_insert_ne in Hq by done.
        destruct (Hno _ _ _ Hq) as [Hf Ha]. destruct Hor; congruence.
      + rewrite lookup_insert in Hq. injection Hq as <- <-. rewrite lookup_insert_ne in Hp by done.
        destruct (Hno _ _ _ Hp) as [Hf Ha]. destruct Hor as [He%Hsym|]; congruence.
      + rewrite lookup_insert_ne in Hp, Hq by done. by eapply IH.
    - unfold less. destruct (n =? 1).
      + intros p1 q1 u1 v1 m1 n1 [_ Hp1]%lookup_delete_Some [_ Hq]%lookup_delete_Some. by eapply IH.
      + by eapply Hup.
    - by eapply Hup.
  Qed.

  (** An operation of thread [t] that is running was called, and took effect at most once. *)
  Definition quiet_in (t : nat) (x : act V) : Prop := act_thread x <> Some t.
  Definition ending (t : nat) (x : act V) : Prop := act_thread x = Some t -> x = ARelease t \/ x = ABury t.
  Definition effect (xs : list (act V)) (t : nat) v p : Prop :=
    exists xs1 xs2 e xs3, xs = xs1 ++ ACall t v :: xs2 ++ e :: xs3 /\ (e = AHit t p \/ e = AMiss t p) /\
      Forall (quiet_in t) xs2 /\ Forall (ending t) xs3.
  Definition called (xs : list (act V)) (t : nat) v : Prop :=
    exists xs1 xs2, xs = xs1 ++ ACall t v :: xs2 /\ Forall (quiet_in t) xs2.

  Lemma effect_snoc xs t v p x : ending t x -> effect xs t v p -> effect (xs ++ [x]) t v p.
  Proof.
    intros Hx (xs1&xs2&e&xs3&->&He&H2&H3). exists xs1, xs2, e, (xs3 ++ [x]). split_and!; [|done|done|].
    - rewrite <- app_assoc. simpl. by rewrite <- app_assoc.
    - apply Forall_app. by split; [|constructor].
  Qed.
  Lemma called_snoc xs t v x : quiet_in t x -> called xs t v -> called (xs ++ [x]) t v.
  Proof.
    intros Hx (xs1&xs2&->&H2). exists xs1, (xs2 ++ [x]). split.
    - by rewrite <- app_assoc.
    - apply Forall_app. by split; [|constructor].
  Qed.
  Lemma called_effect xs t v p x : x = AHit t p \/ x = AMiss t p -> called xs t v -> effect (xs ++ [x]) t v p.
  Proof.
    intros Hx (xs1&xs2&->&H2). exists xs1, xs2, x, []. split_and!; [|done|done|done].
    by rewrite <- app_assoc.
  Qed.

  Lemma atomic_hist xs a :
    atomics E ainit xs a ->
    forall t, match thread a t with
              | TIdle => True
              | TCall v => called xs t v
              | TWork _ r => forall v p, r = Some (v, p) -> effect xs t v p
              end.
  Proof.
    revert a. induction xs as [|x xs IH] using rev_ind; intros a H t.
    { inversion H; subst. done. }
    apply atomics_snoc in H as (a1&H1&Hx). specialize (IH a1 H1 t).
    assert (act_thread x <> Some t -> thread a t = thread a1 t ->
      match thread a t with
      | TIdle => True
      | TCall v => called (xs ++ [x]) t v
      | TWork _ r => forall v p, r = Some (v, p) -> effect (xs ++ [x]) t v p
      end) as Hother.
    { intros Hne ->. destruct (thread a1 t); [done| |].
      - by apply called_snoc.
      - intros v p Hr. apply effect_snoc; [by intros ?|auto]. }
    destruct Hx as [t0 v l Ht Hl|t0 v p d n Ht Hp He|t0 v p Ht Hno|t0 p l Ht Hl|t0 p w r d n Ht Hp|t0 d w r Ht|t0 r Ht
                   |t0 v Ht|t0 d w r Ht|p ks k d n|p l|p ks k d n|p ks k d n];
      try (apply Hother; [done|reflexivity]).
    all: destruct (decide (t = t0)) as [->|Hne];
      [rewrite put_thread, decide_True by done; rewrite Ht in IH
      |apply Hother; [simpl; congruence|]; rewrite put_thread, decide_False by done; reflexivity].
    - exists xs, []. split; [done|constructor].
    - intros v' p' [= <- <-]. by apply called_effect; [left|].
    - intros v' p' [= <- <-]. by apply called_effect; [right|].
    - done.
    - intros v' p' Hr. apply effect_snoc; [|auto]. by left.
    - intros v' p' Hr. apply effect_snoc; [|auto]. by right.
    - done.
    - done.
    - done.
  Qed.

  Lemma one_effect xs t v p a :
    atomics E ainit (xs ++ [ARet t (Some (v, p))]) a -> effect xs t v p.
  Proof.
    intros (a1&H1&Hx)%atomics_snoc. inversion Hx; subst.
    pose proof (atomic_hist xs a1 H1 t) as Hh. 
    match goal with H : thread a1 t = _ |- _ => rewrite H in Hh end. by apply Hh.
  Qed.
End final.

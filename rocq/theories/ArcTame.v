(** Safety needs only a reflexive and symmetric Eq compatible with Hash: containers are
    per type, so Eq may be cut down to a relation within each type. *)
From stdpp Require Import gmap list numbers.
From Verif Require Import Base ArcModel ArcSpec ArcInv ArcStep ArcSafe ArcReach.
Require Import ZifyBool ZifyNat ZifyN.

Section tame.
  Context {V : Type} (E : tyenv V).
  Implicit Types (st : state V) (v : V) (p q : ptr) (ls : list (label V)).

  Definition cut : tyenv V :=
    TyEnv V (λ u v, (te_ty E u =? te_ty E v) && te_eq E u v)
      (te_hash E) (te_ty E) (te_kids E) (te_sees E) (te_shards E) (te_mod E).

  Lemma cut_coherent : tame E -> coherent cut.
  Proof.
    intros [Hr Hs Hh]. constructor; simpl.
    - intros v. rewrite Nat.eqb_refl. simpl. apply Hr.
    - intros u v [Ht%Nat.eqb_eq He]%andb_true_iff. rewrite Ht, Nat.eqb_refl. simpl. by apply Hs.
    - intros u v [_ He]%andb_true_iff. by apply Hh.
    - intros u v [Ht%Nat.eqb_eq _]%andb_true_iff. done.
  Qed.

  Lemma is_match_cut st v q : is_match cut st v q = is_match E st v q.
  Proof.
    unfold is_match. destruct (data st q) as [d|]; [|done]. simpl.
    destruct (te_ty E v =? te_ty E d); simpl; done.
  Qed.

  Lemma matches_cut st v : matches cut st v = matches E st v.
  Proof.
    unfold matches. induction (st_table st) as [|q tb IH]; simpl; [done|].
    rewrite is_match_cut, IH. done.
  Qed.

  Lemma follow_cut st p ks : follow cut st p ks = follow E st p ks.
  Proof.
    revert p. induction ks as [|k ks IH]; intros p; simpl; [done|].
    destruct (data st p); [|done]. simpl. by destruct (decide _).
  Qed.

  Lemma step_cut st l : step cut st l = step E st l.
  Proof.
    destruct l as [t k v|t q|q ks|q|q ks|q ks|t ty|t ty|t a i|t]; try reflexivity.
    - simpl. unfold step_thread.
      destruct (get_pc st t) as [|k v b|k v b q|k v b q old|k v b q|k v b|k v q|k v q|k v q|k v q|l' q w r|w r|ty j acc|ty j];
        try reflexivity.
      + rewrite matches_cut. reflexivity.
      + destruct (data st q) as [d|]; [|done]. rewrite matches_cut. reflexivity.
      + destruct w as [|[q|q|q] w]; try reflexivity.
        destruct (data st q) as [d|]; [|done]. rewrite matches_cut. reflexivity.
  Qed.

  Lemma run_cut st ls : run (step cut) st ls = run (step E) st ls.
  Proof.
    revert st. induction ls as [|l ls IH]; intros st; simpl; [done|].
    unfold exec. rewrite step_cut. by destruct (step E st l).
  Qed.

  Lemma bounded_cut ls : bounded E ls -> bounded cut ls.
  Proof. intros Hb l1 l2 st1 He Hr. rewrite run_cut in Hr. exact (Hb l1 l2 st1 He Hr). Qed.

  Theorem tame_safe ls :
    tame E -> wide E -> bounded E ls -> run (step E) init ls <> None.
  Proof.
    intros HT HW Hb. rewrite <- run_cut.
    destruct (run_safe cut (cut_coherent HT) HW ls (bounded_cut ls Hb)) as (st&->&_). done.
  Qed.

  Theorem tame_safe_short ls :
    tame E -> (N.of_nat (length ls) < te_mod E)%N -> run (step E) init ls <> None.
  Proof.
    intros HT Hl. destruct (decide (ls = [])) as [->|Hne]; [done|].
    assert (wide E) as HW.
    { unfold wide. destruct ls; [done|]. simpl in Hl. lia. }
    rewrite <- run_cut.
    destruct (run_safe cut (cut_coherent HT) HW ls) as (st&->&_); [|done].
    by apply (short_bounded cut (cut_coherent HT)).
  Qed.
End tame.

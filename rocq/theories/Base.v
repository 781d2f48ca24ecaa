(** Shared vocabulary: outcomes of one step, executions, counting. *)
From stdpp Require Import gmap list numbers.

(** Outcome of one atomic step of a modelled program.
    - [Next s]  : the step is taken;
    - [Blocked] : the thread waits for a lock held by somebody;
    - [Illegal] : no borrow-checked Rust client / real allocator can do this;
    - [UB]      : the Rust program has undefined behaviour here. *)
Inductive outcome (S : Type) : Type :=
| Next (s : S)
| Blocked
| Illegal
| UB.
Global Arguments Next {S} s.
Global Arguments Blocked {S}.
Global Arguments Illegal {S}.
Global Arguments UB {S}.

Section run.
  Context {S L : Type} (step : S -> L -> outcome S).

  (** Attempt one label.  [None] is undefined behaviour; a label that is blocked or
      illegal is skipped, so that every list of labels is an execution. *)
  Definition exec (s : S) (l : L) : option S :=
    match step s l with
    | Next s' => Some s'
    | UB => None
    | Blocked | Illegal => Some s
    end.

  (** Execute a list of labels; [None] iff undefined behaviour was reached. *)
  Fixpoint run (s : S) (ls : list L) : option S :=
    match ls with
    | [] => Some s
    | l :: ls' => match exec s l with
                  | Some s' => run s' ls'
                  | None => None
                  end
    end.

  Lemma run_app s ls1 ls2 :
    run s (ls1 ++ ls2) =
    match run s ls1 with Some s' => run s' ls2 | None => None end.
  Proof.
    revert s. induction ls1 as [|l ls1 IH]; intros s; [done|].
    simpl. destruct (exec s l); [apply IH|done].
  Qed.

  Lemma run_snoc s ls l :
    run s (ls ++ [l]) =
    match run s ls with Some s' => exec s' l | None => None end.
  Proof.
    rewrite run_app. destruct (run s ls) as [s'|]; [|done]. simpl.
    by destruct (exec s' l).
  Qed.

  (** Invariants are proved step by step and hold in every reachable state. *)
  Lemma run_inv (I : S -> Prop) :
    (forall s l, I s -> step s l <> UB) ->
    (forall s l s', I s -> step s l = Next s' -> I s') ->
    forall ls s, I s -> exists s', run s ls = Some s' /\ I s'.
  Proof.
    intros Hub Hst ls. induction ls as [|l ls IH]; intros s HI; [by exists s|].
    simpl. unfold exec.
    destruct (step s l) as [s'| | |] eqn:Hs; [|by apply IH..|].
    - apply IH. by eapply Hst.
    - by destruct (Hub s l HI).
  Qed.

  (** Same, when only the absence of UB is a separate matter. *)
  Lemma run_inv_weak (I : S -> Prop) :
    (forall s l s', I s -> step s l = Next s' -> I s') ->
    forall ls s s', I s -> run s ls = Some s' -> I s'.
  Proof.
    intros Hst ls. induction ls as [|l ls IH]; intros s s' HI Hr.
    - simpl in Hr. by simplify_eq.
    - simpl in Hr. unfold exec in Hr.
      destruct (step s l) as [s1| | |] eqn:Hs; [|by eapply IH..|done].
      eapply IH; [|exact Hr]. by eapply Hst.
  Qed.
End run.

(** Number of occurrences in a list. *)
Fixpoint occ {A} `{EqDecision A} (x : A) (l : list A) : nat :=
  match l with
  | [] => 0
  | y :: l' => (if decide (y = x) then 1 else 0) + occ x l'
  end.

Section occ.
  Context {A : Type} `{EqDecision A}.
  Implicit Types (x y : A) (l : list A).

  Lemma occ_app x l1 l2 : occ x (l1 ++ l2) = occ x l1 + occ x l2.
  Proof. induction l1 as [|y l1 IH]; simpl; [done|]. rewrite IH. lia. Qed.

  Lemma occ_pos x l : 0 < occ x l <-> x ∈ l.
  Proof.
    induction l as [|y l IH]; simpl.
    - split; [lia|]. by intros ?%elem_of_nil.
    - rewrite elem_of_cons. destruct (decide (y = x)) as [->|Hne].
      + split; [by left|lia].
      + simpl. rewrite IH. split; [by right|]. intros [->|?]; done.
  Qed.

  Lemma occ_zero x l : occ x l = 0 <-> x ∉ l.
  Proof. rewrite <- occ_pos. lia. Qed.

  Lemma occ_NoDup l : (forall x, occ x l <= 1) -> NoDup l.
  Proof.
    induction l as [|y l IH]; intros Hle; constructor.
    - rewrite <- occ_zero. specialize (Hle y). simpl in Hle.
      rewrite decide_True in Hle by done. lia.
    - apply IH. intros x. specialize (Hle x). simpl in Hle.
      destruct (decide (y = x)); lia.
  Qed.

  Lemma occ_filter_neq x y l :
    occ x (filter (λ z, z ≠ y) l) = if decide (x = y) then 0 else occ x l.
  Proof.
    induction l as [|z l IH]; simpl; [by destruct (decide (x = y))|].
    destruct (decide (z = y)) as [->|Hne].
    - rewrite filter_cons_False by (intros H; by apply H). rewrite IH.
      destruct (decide (x = y)) as [->|]; [done|].
      rewrite decide_False by done. done.
    - rewrite filter_cons_True by done. simpl. rewrite IH.
      destruct (decide (x = y)) as [->|]; [|done].
      by rewrite decide_False by done.
  Qed.

  (** Remove one occurrence. *)
  Fixpoint rem1 x l : option (list A) :=
    match l with
    | [] => None
    | y :: l' => if decide (y = x) then Some l'
                 else match rem1 x l' with Some r => Some (y :: r) | None => None end
    end.

  (** Remove one occurrence of each element of [xs]. *)
  Fixpoint rem_all (xs l : list A) : option (list A) :=
    match xs with
    | [] => Some l
    | x :: xs' => match rem1 x l with Some l' => rem_all xs' l' | None => None end
    end.

  Lemma rem1_occ x l l' z :
    rem1 x l = Some l' -> occ z l = (if decide (x = z) then 1 else 0) + occ z l'.
  Proof.
    revert l'. induction l as [|y l IH]; intros l' Hr; simpl in Hr; [done|].
    destruct (decide (y = x)) as [->|Hne]; simplify_eq; [done|].
    destruct (rem1 x l) as [r|] eqn:E; simplify_eq. simpl.
    rewrite (IH r) by done. lia.
  Qed.

  Lemma rem_all_occ xs l l' z :
    rem_all xs l = Some l' -> occ z l = occ z xs + occ z l'.
  Proof.
    revert l. induction xs as [|x xs IH]; intros l Hr; simpl in Hr; [by simplify_eq|].
    destruct (rem1 x l) as [r|] eqn:E; [|done].
    rewrite (rem1_occ _ _ _ z E). simpl. rewrite (IH _ Hr). lia.
  Qed.

  Lemma rem1_Some x l : x ∈ l -> is_Some (rem1 x l).
  Proof.
    induction l as [|y l IH]; simpl; [by intros ?%elem_of_nil|].
    intros [->|Hin]%elem_of_cons; [by rewrite decide_True|].
    destruct (decide (y = x)); [done|]. by destruct (IH Hin) as [? ->].
  Qed.
End occ.

(** Sum of [f] over the range of a finite map. *)
Definition msum {A : Type} (f : A -> nat) (m : gmap nat A) : nat :=
  map_fold (λ _ x acc, f x + acc) 0 m.

Section msum.
  Context {A : Type} (f : A -> nat).
  Implicit Types m : gmap nat A.

  Lemma msum_empty : msum f ∅ = 0.
  Proof. apply map_fold_empty. Qed.

  Lemma msum_insert_None m k x :
    m !! k = None -> msum f (<[k:=x]> m) = f x + msum f m.
  Proof.
    intros Hk. unfold msum.
    rewrite (map_fold_insert_L (λ _ x acc, f x + acc)); [done| |done].
    intros; lia.
  Qed.

  Lemma msum_delete m k x :
    m !! k = Some x -> msum f m = f x + msum f (delete k m).
  Proof.
    intros Hk. rewrite <- (insert_delete m k x Hk) at 1.
    apply msum_insert_None. apply lookup_delete.
  Qed.

  Lemma msum_insert_Some m k x y :
    m !! k = Some y -> msum f (<[k:=x]> m) + f y = f x + msum f m.
  Proof.
    intros Hk. rewrite <- insert_delete_insert.
    rewrite msum_insert_None by apply lookup_delete.
    rewrite (msum_delete m k y Hk). lia.
  Qed.

  Lemma msum_insert_default m k x d :
    f d = 0 -> msum f (<[k:=x]> m) + f (default d (m !! k)) = f x + msum f m.
  Proof.
    intros Hd. destruct (m !! k) as [y|] eqn:Hk; simpl.
    - by apply msum_insert_Some.
    - rewrite Hd, msum_insert_None by done. lia.
  Qed.

  Lemma msum_pos m : 0 < msum f m -> exists k x, m !! k = Some x /\ 0 < f x.
  Proof.
    induction m as [|k x m Hk IH] using map_ind.
    - rewrite msum_empty. lia.
    - rewrite msum_insert_None by done. intros Hp.
      destruct (decide (f x = 0)) as [H0|H0].
      + destruct IH as (k'&x'&Hk'&Hx'); [lia|].
        exists k', x'. split; [|done]. rewrite lookup_insert_ne; [done|].
        intros ->. congruence.
      + exists k, x. rewrite lookup_insert. split; [done|lia].
  Qed.

  Lemma msum_ge m k x : m !! k = Some x -> f x <= msum f m.
  Proof. intros Hk. rewrite (msum_delete m k x Hk). lia. Qed.

  Lemma msum_ge2 m k1 k2 x1 x2 :
    m !! k1 = Some x1 -> m !! k2 = Some x2 -> k1 <> k2 -> f x1 + f x2 <= msum f m.
  Proof.
    intros H1 H2 Hne. rewrite (msum_delete m k1 x1 H1).
    rewrite (msum_delete (delete k1 m) k2 x2); [lia|].
    by rewrite lookup_delete_ne.
  Qed.

  Lemma msum_zero m : (forall k x, m !! k = Some x -> f x = 0) -> msum f m = 0.
  Proof.
    intros Hz. destruct (decide (msum f m = 0)) as [|Hn]; [done|].
    destruct (msum_pos m) as (k&x&Hk&Hx); [lia|]. rewrite (Hz _ _ Hk) in Hx. lia.
  Qed.
End msum.

Lemma msum_ext {A} (f g : A -> nat) m :
  (forall k x, m !! k = Some x -> f x = g x) -> msum f m = msum g m.
Proof.
  induction m as [|k x m Hk IH] using map_ind; intros He.
  - by rewrite !msum_empty.
  - rewrite !msum_insert_None by done. rewrite (He k x) by apply lookup_insert.
    f_equal. apply IH. intros k' x' Hk'. apply (He k').
    rewrite lookup_insert_ne; [done|]. intros ->. congruence.
Qed.

Lemma msum_add {A} (f g : A -> nat) m :
  msum (λ x, f x + g x) m = msum f m + msum g m.
Proof.
  induction m as [|k x m Hk IH] using map_ind.
  - by rewrite !msum_empty.
  - rewrite !msum_insert_None by done. lia.
Qed.

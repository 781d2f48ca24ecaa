(** Property C71: proofs. *)
From stdpp Require Import gmap list numbers.
From Verif Require Import Base InternModel InternSpec InternInv InternFinal NewModel NewFinal ArenaModel ArenaFinal.
From Verif Require Import DynSpec DynIntern DynNew DynArena InternEx.

Section dyn.
  Context {V Q C : Type} (E : ienv V Q) (conc : V -> C).

  Lemma ibox_no_clear t (u v : V) : no_clear (ibox (Q := Q) t u ++ ibox t v).
  Proof. intros t' ty a H. unfold ibox in H. cbn [replicate app] in H. repeat (apply elem_of_cons in H as [H|H]; [done|]). by apply elem_of_nil in H. Qed.
  Lemma intern_zst ty : ilawful E -> icoherent E -> intern_eq_right E ty <-> zst_eq_at E ty.
  Proof.
    intros HL HC. split.
    - intros H u v Hu Hv Hz Hm. destruct (ie_eq E u v) eqn:He; [done|]. exfalso.
      destruct (ibox_two E u v) as (st&p&q&Hr&H1&H2&H3&H4&H5); [done|congruence|done..|].
      assert (iptr_eqb p q = ie_eq E u v) by (eapply (H _ st _ _ p _ _ q); try done; apply ibox_no_clear). congruence.
    - intros HZ ls st t1 o1 p1 t2 o2 p2 v1 v2 Hn Hr H1 H2 <- Ht2. eapply (handles_eq_ty E ls st t1 o1 p1 t2 o2); done.
  Qed.
  Lemma typearena_zst ty : ilawful E -> icoherent E -> typearena_eq_right E ty <-> zst_eq_at E ty.
  Proof.
    intros HL HC. split.
    - intros H u v Hu Hv Hz Hm. destruct (ie_eq E u v) eqn:He; [done|]. exfalso.
      destruct (nbox_two E u v) as (st&p&q&Hr&H1&H2&H3&H4&H5); [done|congruence|done..|].
      assert (iptr_eqb p q = ie_eq E u v); [|congruence]. eapply (H _ st _ _ p _ _ q); try done.
      intros t' ty' a Hin. unfold nmake, nbox in Hin. cbn [replicate app] in Hin. repeat (apply elem_of_cons in Hin as [Hin|Hin]; [done|]). by apply elem_of_nil in Hin.
    - intros HZ ls st t1 o1 p1 t2 o2 p2 v1 v2 Hn Hr H1 H2 <- Ht2. eapply (n_unique_ty E ls st t1 o1 p1 t2 o2); done.
  Qed.
  Lemma arena_zst ty : ilawful E -> icoherent E -> zst_from E ty -> arena_eq_right E ty <-> zst_eq_at E ty.
  Proof.
    intros HL HC HF. split.
    - intros H u v Hu Hv Hz Hm. destruct (ie_eq E u v) eqn:He; [done|]. exfalso.
      destruct (HF u Hu Hz) as (w&k&Hf). destruct (HF v Hv) as (w'&k'&Hf'). { unfold is_zst in *. by rewrite Hv, <- Hu, <- Hm. }
      destruct (aref_two E u v w k w' k') as (st&p&q&x&Hr&H1&H2&Hx&Hxt&H3&H4&H5); [done|done|congruence|done..|].
      assert (iptr_eqb p q = ie_eq E u v); [|congruence]. eapply (H _ st 0 x _ _ _ p _ _ _ q); try done. congruence.
    - intros HZ ls st r x t1 o1 b1 p1 t2 o2 b2 p2 v1 v2 Hr H1 H2 Hx <-. eapply (arena_handles_eq_ty E ls st r x t1 o1 b1 p1 t2 o2); done.
  Qed.

  Lemma zst_vtables_iff ty : by_concrete_type E conc ty -> zst_eq_at E ty <-> zst_vtables E conc ty.
  Proof.
    intros [H1 H2]. split; intros H u v Hu Hv Hz Hm.
    - apply H1; [done|done|]. by apply H.
    - apply H2; try done; [|by apply H]. unfold is_zst in *. by rewrite Hv, <- Hu, <- Hm.
  Qed.
  Lemma intern_dyn ty : ilawful E -> icoherent E -> by_concrete_type E conc ty -> intern_eq_right E ty <-> zst_vtables E conc ty.
  Proof. intros HL HC HB. by rewrite intern_zst, zst_vtables_iff. Qed.
  Lemma typearena_dyn ty : ilawful E -> icoherent E -> by_concrete_type E conc ty -> typearena_eq_right E ty <-> zst_vtables E conc ty.
  Proof. intros HL HC HB. by rewrite typearena_zst, zst_vtables_iff. Qed.
  Lemma arena_dyn ty : ilawful E -> icoherent E -> zst_from E ty -> by_concrete_type E conc ty -> arena_eq_right E ty <-> zst_vtables E conc ty.
  Proof. intros HL HC HF HB. by rewrite arena_zst, zst_vtables_iff. Qed.
End dyn.

(** A trait with four implementations: two structs without fields, one with a number, and one with a byte
    that is aligned to 8.  A trait object is a concrete type, its contents and the vtable of the pointer. *)
Inductive ctype := CUnitA | CUnitB | CNum | CByte.
Global Instance ctype_eq_dec : EqDecision ctype.
Proof. solve_decision. Defined.
Record dobj := DObj { do_type : ctype; do_data : nat; do_vt : nat }.
Section ex.
  (** [m]: the compiler has merged the vtables of the two structs.  [CNum] has two vtables, 2 and 3. *)
  Context (m : bool).
  Definition vtables (c : ctype) : list nat :=
    match c with CUnitA => [0] | CUnitB => [if m then 0 else 1] | CNum => [2; 3] | CByte => [4] end.
  Definition norm (x : dobj) : ctype * nat :=
    (do_type x, match do_type x with CUnitA | CUnitB => 0 | _ => do_data x end).
  Definition vtable (x : dobj) : nat := nth (do_vt x) (vtables (do_type x)) (hd 0 (vtables (do_type x))).
  Definition dynE : ienv dobj (ctype * nat) := IEnv
    (λ _, 0) (λ x y, bool_decide (norm x = norm y)) (λ x, (norm x).2) (λ _ x, norm x) (λ a b, bool_decide (a = b)) (λ a, a.2)
    (λ _ q x, bool_decide (q = norm x)) (λ _ _, true) vtable (λ _ vt, vt <? 2) (λ _ vt, if vt =? 4 then 8 else 1) (λ _, 3%N) (2 ^ 64) 32.
  Lemma dynE_lawful : ilawful dynE.
  Proof.
    constructor; simpl; intros; rewrite ?bool_decide_eq_true in *; try first [done|congruence].
    by injection H.
  Qed.
  Lemma dynE_coherent : icoherent dynE.
  Proof. intros w q v H%bool_decide_eq_true. simpl in *. subst q. by apply bool_decide_eq_true. Qed.
  Lemma dynE_from : zst_from dynE 0.
  Proof. intros v _ _. exists 0, (norm v). by apply bool_decide_eq_true. Qed.
  Lemma dynE_zst x : is_zst dynE x = true -> do_type x = CUnitA \/ do_type x = CUnitB.
  Proof.
    unfold is_zst. simpl. unfold vtable. destruct x as [[] d [|[|[|n]]]]; simpl; intros H%Nat.ltb_lt; try lia; tauto.
  Qed.
  Lemma dynE_by_type : by_concrete_type dynE do_type 0.
  Proof.
    split; intros u v _ _; simpl; rewrite bool_decide_eq_true.
    - unfold norm. congruence.
    - intros Hu%dynE_zst Hv%dynE_zst He. unfold norm. rewrite <- He. by destruct Hu as [-> | ->].
  Qed.
End ex.
Lemma dynE_unmerged : zst_vtables (dynE false) do_type 0.
Proof.
  intros u v _ _ Hu%dynE_zst Hm. simpl in Hm. unfold vtable in Hm.
  destruct u as [[] d [|[|[|n]]]]; simpl in *; try (by destruct Hu); destruct v as [[] d' [|[|[|n']]]]; simpl in *; done.
Qed.
Lemma dynE_merged : ~ zst_vtables (dynE true) do_type 0.
Proof. intros H. pose proof (H (DObj CUnitA 0 0) (DObj CUnitB 0 0)) as H1. discriminate H1; done. Qed.

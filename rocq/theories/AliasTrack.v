(** The machines of [AliasArenaModel] are there for the live blocks that are not zero-sized. *)
From stdpp Require Import gmap list numbers.
From Verif Require Import Base InternModel ArenaModel AliasModel AliasArenaModel.

Section track.
  Context (M : machine) (n m : nat) {V Q : Type} (E : ienv V Q).
  Implicit Types (st : astate V Q) (g : gmap nat (bobj M)).

  Definition tracked st (s : nat) : bool :=
    match a_objs st !! s with Some x => negb (is_zst E (ao_val x)) | None => false end.
  (** Is there a machine for [s] after these operations? *)
  Fixpoint b_dom (s : nat) (ys : list (nat * bop)) (d : bool) : bool :=
    match ys with
    | [] => d
    | (s', OAlloc) :: ys' => b_dom s ys' (if s' =? s then true else d)
    | (s', OKill) :: ys' => b_dom s ys' (if s' =? s then false else d)
    | _ :: ys' => b_dom s ys' d
    end.
  Definition there_is g s : bool := match g !! s with Some _ => true | None => false end.
  Lemma there_insert g s s' x : there_is (<[s':=x]> g) s = if s' =? s then true else there_is g s.
  Proof.
    unfold there_is. destruct (s' =? s) eqn:He.
    - apply Nat.eqb_eq in He as ->. by rewrite lookup_insert.
    - apply Nat.eqb_neq in He. by rewrite lookup_insert_ne.
  Qed.
  Lemma there_delete g s s' : there_is (delete s' g) s = if s' =? s then false else there_is g s.
  Proof.
    unfold there_is. destruct (s' =? s) eqn:He.
    - apply Nat.eqb_eq in He as ->. by rewrite lookup_delete.
    - apply Nat.eqb_neq in He. by rewrite lookup_delete_ne.
  Qed.
  Lemma applys_dom ys : forall g g' s, b_applys M n m ys g = Some g' -> there_is g' s = b_dom s ys (there_is g s).
  Proof.
    induction ys as [|[s' o] ys IH]; intros g g' s H; cbn [b_applys b_dom] in *; [by simplify_eq|].
    destruct (b_apply M n m g (s', o)) as [g1|] eqn:H1; [|done]. rewrite (IH _ _ s H). unfold b_apply in H1. cbn [fst snd] in H1.
    assert (forall x, g !! s' = Some x -> forall y, there_is (<[s':=y]> g) s = there_is g s) as Hsame.
    { intros x Hx y. rewrite there_insert. destruct (s' =? s) eqn:He; [|done]. apply Nat.eqb_eq in He as ->.
      unfold there_is. by rewrite Hx. }
    destruct o; (destruct (g !! s') as [x|] eqn:Hx); try (by simplify_eq); repeat case_match; simplify_eq.
    all: try by rewrite (Hsame x).
    all: f_equal; rewrite ?there_insert, ?there_delete; destruct (s' =? s) eqn:He; try done; apply Nat.eqb_eq in He as ->; unfold there_is; by rewrite Hx.
  Qed.

  Lemma dom_looks s d ps ys : b_dom s ((b_at OLook <$> ps) ++ ys) d = b_dom s ys d.
  Proof. induction ps as [|p ps IH]; [done|]. apply IH. Qed.
  Lemma dom_look_opt s d b ys : b_dom s (b_opt OLook b ++ ys) d = b_dom s ys d.
  Proof. by destruct b. Qed.
  Lemma track_free st st1 w p s : a_free st w p = Some st1 -> tracked st1 s = if ip_ser p =? s then false else tracked st s.
  Proof.
    unfold a_free, tracked. intros H. case_match; [|done]. simplify_eq. simpl. destruct (ip_ser p =? s) eqn:He.
    - apply Nat.eqb_eq in He as <-. by rewrite lookup_delete.
    - apply Nat.eqb_neq in He. by rewrite lookup_delete_ne.
  Qed.
  Lemma track_alloc st st1 a v p s more : a_alloc E st a v = Some (st1, p) -> tracked st (a_next st) = false ->
    (forall d, b_dom s more d = d) ->
    tracked st1 s = b_dom s (b_alloc E (a_next st) v more) (tracked st s).
  Proof.
    unfold a_alloc, tracked, b_alloc. intros H Hn Hm. destruct (is_zst E v || _); [|done]. simplify_eq. simpl. destruct (is_zst E v) eqn:Hz; cbn [b_dom].
    - destruct (decide (a_next st = s)) as [<-|Hne]; [rewrite lookup_insert; simpl; by rewrite Hz, Hn|by rewrite lookup_insert_ne].
    - rewrite Hm. destruct (a_next st =? s) eqn:He.
      + apply Nat.eqb_eq in He as <-. rewrite lookup_insert. simpl. by rewrite Hz.
      + apply Nat.eqb_neq in He. by rewrite lookup_insert_ne.
  Qed.

  Lemma track_step st st' l j s : astep E st l = Next st' -> tracked st (a_next st) = false ->
    tracked st' s = b_dom s (b_ops E st l j) (tracked st s).
  Proof.
    intros H Hn. destruct l as [t ty|t r o a|t a i|t v|t|r p|t r]; cbn [astep b_ops] in *.
    - case_match; [|done]. by simplify_eq.
    - case_match; [|done]. case_match; [|done].
      destruct o; try (by simplify_eq); try (case_match; [by simplify_eq|done]).
      all: case_match; [|done]; destruct (a_alloc E st a v) as [[st1 p]|] eqn:Ha; [|done]; simplify_eq;
        by apply (track_alloc _ _ _ _ _ s [] Ha).
    - unfold a_step_thread in H. destruct (a_stack st t) as [|f k]; [done|].
      destruct f as [r o b|r o b|r w q|r o v b|r o b p|r o b p pn|r o b p|r o b mi x|r o b mi x|r ps].
      + case_match; [done|]. by simplify_eq.
      + case_match; [|done]. rewrite dom_looks, dom_look_opt.
        destruct (ipick _ _); [by simplify_eq|]. destruct o; try by simplify_eq. destruct b; by simplify_eq.
      + done.
      + destruct b as [q|].
        * destruct (a_free st None q) as [st1|] eqn:Hf; [|done]. simplify_eq. by apply (track_free _ _ _ _ s) in Hf.
        * destruct (a_alloc E st a v) as [[st1 p]|] eqn:Ha; [|done]. simplify_eq.
          by apply (track_alloc _ _ _ _ _ s _ Ha).
      + rewrite dom_looks. repeat case_match; by simplify_eq.
      + destruct (a_free st None p) as [st1|] eqn:Hf; [|done]. simplify_eq. by apply (track_free _ _ _ _ s) in Hf.
      + case_match; by simplify_eq.
      + by simplify_eq.
      + destruct mi; simpl in *; [|by simplify_eq]. destruct b as [q|]; simpl in *; [|by simplify_eq].
        destruct (a_free st None q) as [st1|] eqn:Hf; [|done]. simplify_eq. by apply (track_free _ _ _ _ s) in Hf.
      + destruct ps as [|p ps]; [by simplify_eq|].
        destruct (a_free st (Some r) p) as [st1|] eqn:Hf; [|done]. simplify_eq. by apply (track_free _ _ _ _ s) in Hf.
    - repeat case_match; by simplify_eq.
    - unfold a_step_panic in H. destruct (a_stack st t) as [|f k]; [done|].
      destruct f as [r o b|r o b|r w q|r o v b|r o b p|r o b p pn|r o b p|r o b mi x|r o b mi x|r ps]; try done.
      + rewrite dom_looks. replace (b_opt OLook b) with (b_opt OLook b ++ []) by apply app_nil_r.
        rewrite dom_look_opt. by simplify_eq.
      + by simplify_eq.
      + rewrite dom_looks. by simplify_eq.
      + destruct pn; by simplify_eq.
      + destruct x; [|done]. case_match; by simplify_eq.
      + destruct ps as [|p ps]; [done|].
        destruct (a_free st (Some r) p) as [st1|] eqn:Hf; [|done]. simplify_eq. by apply (track_free _ _ _ _ s) in Hf.
    - repeat case_match; by simplify_eq.
    - repeat case_match; by simplify_eq.
  Qed.

  Lemma track_bstep bs bs' l : bstep M n m E bs l = Next bs' -> tracked (bs_arena bs) (a_next (bs_arena bs)) = false ->
    (forall s, there_is (bs_objs bs) s = tracked (bs_arena bs) s) ->
    forall s, there_is (bs_objs bs') s = tracked (bs_arena bs') s.
  Proof.
    unfold bstep. intros H Hn Ht s. destruct (astep E (bs_arena bs) l.1) as [st| | |] eqn:Hs; try done.
    destruct (b_applys _ _ _ _ _) as [g|] eqn:Ha; [|done]. simplify_eq. simpl.
    rewrite (applys_dom _ _ _ s Ha), Ht. symmetry. by apply track_step.
  Qed.
End track.

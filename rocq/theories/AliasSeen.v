(** No use of a block of an [Arena] is kept from the aliasing machines. *)
From stdpp Require Import gmap list numbers.
From Verif Require Import Base InternModel ArenaModel AliasModel AliasArenaModel AliasSpec.

Section seen.
  Context (M : machine) (n m : nat).
  Notation apply := (b_apply M n m).
  Notation applys := (b_applys M n m).

  Lemma refuse_ref k t b x : refuses x -> b_ref M k t b x = None.
  Proof. intros [Hx _]. unfold b_ref. by rewrite Hx by done. Qed.
  Lemma refuse_do o x : o <> OAlloc -> refuses x -> b_do M n m o x = None.
  Proof.
    intros Ho Hx. assert (forall i, b_enter M (S i) x = None) as He by (intros i; simpl; by rewrite refuse_ref).
    destruct o; try done; cbn [b_do].
    - unfold b_look. by rewrite refuse_ref.
    - destruct m as [|i]; [|by rewrite He]. simpl. by rewrite refuse_ref.
    - destruct n as [|i]; [|by rewrite He]. simpl. unfold b_look. by rewrite refuse_ref.
    - by rewrite refuse_ref.
    - by rewrite refuse_ref.
    - destruct (bo_hands x !! _) as [k|] eqn:Hk; [by rewrite refuse_ref|]. exfalso. apply lookup_ge_None in Hk.
      destruct Hx as [_ Hh]. destruct (bo_hands x); [done|]. simpl in Hk. lia.
    - destruct m as [|i]; [|by rewrite He]. simpl. by rewrite refuse_ref.
  Qed.
  Lemma bapply_dead g y g' s x : (y <> (s, OAlloc)) -> g !! s = Some x -> refuses x -> apply g y = Some g' -> y.1 <> s /\ g' !! s = Some x.
  Proof.
    destruct y as [s' o]. intros Hy Hs Hx. unfold b_apply. cbn [fst snd].
    destruct (decide (s' = s)) as [->|Hne].
    - rewrite Hs. destruct o; try done; by rewrite refuse_do.
    - intros Ha. split; [done|]. destruct o; try (destruct (g !! s') as [x'|]; [|by injection Ha as <-]; destruct (b_do _ _ _ _ x'); [|done];
        injection Ha as <-; first [by rewrite lookup_insert_ne|by rewrite lookup_delete_ne]).
      destruct (b_new M); [|done]. injection Ha as <-. by rewrite lookup_insert_ne.
  Qed.
  Lemma bapplys_dead ys : forall g s x o, (s, OAlloc) ∉ ys -> g !! s = Some x -> refuses x -> (s, o) ∈ ys -> applys ys g = None.
  Proof.
    induction ys as [|y ys IH]; intros g s x o Ha Hs Hx Hin; [by apply elem_of_nil in Hin|]. cbn [b_applys].
    destruct (apply g y) as [g1|] eqn:H1; [|done].
    destruct (bapply_dead g y g1 s x) as [Hne Hs1]; [|done|done|done|].
    { intros ->. apply Ha. by left. }
    apply (IH g1 s x o); [|done|done|].
    - intros Hw. apply Ha. by right.
    - apply elem_of_cons in Hin as [<-|Hin]; [by destruct Hne|done].
  Qed.

  Context {V Q : Type} (E : ienv V Q).
  Implicit Types (st : astate V Q) (p : iptr) (ps : list iptr).
  Lemma a_read_gone st p s v : a_read st p = Some v -> a_read (a_without st s) p = None -> ip_ser p = s.
  Proof.
    unfold a_read. simpl. intros H1 H2. destruct (decide (ip_ser p = s)) as [|Hne]; [done|]. rewrite lookup_delete_ne, H1 in H2 by done. done.
  Qed.
  Lemma a_read_same st p s v : a_read (a_without st s) p = Some v -> a_read st p = Some v.
  Proof.
    unfold a_read. simpl. destruct (decide (ip_ser p = s)) as [->|Hne]; [by rewrite lookup_delete|by rewrite lookup_delete_ne].
  Qed.
  Lemma a_readable_gone st ps s : a_readable st ps = true -> a_readable (a_without st s) ps = false -> (s, OLook) ∈ b_at OLook <$> ps.
  Proof.
    intros H1 H2. induction ps as [|p ps IH]; [done|]. cbn [a_readable forallb] in *. rewrite fmap_cons. apply andb_true_iff in H1 as [H1 H1'].
    apply andb_false_iff in H2 as [H2|H2]; [|right; by apply IH].
    destruct (a_read st p) eqn:Hr; [|done]. destruct (a_read (a_without st s) p) eqn:Hr'; [done|].
    unfold b_at. rewrite (a_read_gone _ _ _ _ Hr Hr'). by left.
  Qed.
  Lemma a_free_gone st w p s st1 : a_free st w p = Some st1 -> a_free (a_without st s) w p = None -> ip_ser p = s.
  Proof.
    unfold a_free. simpl. intros H1 H2. destruct (decide (ip_ser p = s)) as [|Hne]; [done|]. rewrite lookup_delete_ne in H2 by done.
    by destruct (a_objs st !! _).
  Qed.

  Lemma arena_seen (bs : bstate M) l st' s x j :
    astep E (bs_arena bs) l = Next st' -> astep E (a_without (bs_arena bs) s) l = UB ->
    bs_objs bs !! s = Some x -> refuses x -> bstep M n m E bs (l, j) = UB.
  Proof.
    intros Hs Hu Hg Hx. unfold bstep. cbn [fst snd]. rewrite Hs. set (st := bs_arena bs) in *.
    assert ((exists o, (s, o) ∈ b_ops E st l j) /\ (s, OAlloc) ∉ b_ops E st l j) as [[o Ho] Ha].
    2:{ by rewrite (bapplys_dead _ _ _ _ o Ha Hg Hx Ho). }
    assert (forall q y (ys : list (nat * bop)), y <> OAlloc -> (s, OAlloc) ∉ ys -> (s, OAlloc) ∉ b_at y q :: ys) as Hcons.
    { intros q y ys Hy Hys [H|H]%elem_of_cons; [|done]. injection H as _ H. congruence. }
    assert (forall (xs ys : list (nat * bop)), (s, OAlloc) ∉ xs -> (s, OAlloc) ∉ ys -> (s, OAlloc) ∉ xs ++ ys) as Happ.
    { intros xs ys H1 H2 [H|H]%elem_of_app; done. }
    assert ((s, OAlloc) ∉ ([] : list (nat * bop))) as Hnil by apply not_elem_of_nil.
    assert (forall ps, (s, OAlloc) ∉ b_at OLook <$> ps) as Hlk.
    { intros ps. unfold b_at. by intros (q&?&_)%elem_of_list_fmap. }
    assert (forall y b, y <> OAlloc -> (s, OAlloc) ∉ b_opt y b) as Hopt.
    { intros y [q|] Hy; cbn [b_opt]; [by apply Hcons|done]. }
    assert (forall w q y st1 (ys : list (nat * bop)), a_free st w q = Some st1 -> a_free (a_without st s) w q = None -> exists o, (s, o) ∈ b_at y q :: ys) as Hf.
    { intros w q y st1 ys H1 H2. exists y. unfold b_at. rewrite (a_free_gone _ _ _ _ _ H1 H2). by left. }
    assert (forall q y v (ys : list (nat * bop)), a_read st q = Some v -> a_read (a_without st s) q = None -> exists o, (s, o) ∈ b_at y q :: ys) as Hr.
    { intros q y v ys H1 H2. exists y. unfold b_at. rewrite (a_read_gone _ _ _ _ H1 H2). by left. }
    destruct l as [t ty|t r o a|t a i|t v|t|r p|t r]; cbn [astep b_ops] in *.
    - change (a_ready (a_without st s)) with (a_ready st) in Hu. by destruct (a_ready st t).
    - change (a_ready (a_without st s)) with (a_ready st) in Hu. change (a_arenas (a_without st s)) with (a_arenas st) in Hu.
      destruct (a_arenas st !! r); [|done]. destruct (a_ready st t); [|done].
      destruct o; try (destruct (_ =? _); [|done]); try done; by destruct (a_alloc _ (a_without _ _) _ _) as [[? ?]|].
    - unfold a_step_thread in Hs, Hu. change (a_stack (a_without st s) t) with (a_stack st t) in Hu.
      change (a_locks (a_without st s)) with (a_locks st) in Hu. change (a_arenas (a_without st s)) with (a_arenas st) in Hu.
      change (a_set (a_without st s)) with (a_set st) in Hu.
      destruct (a_stack st t) as [|f k]; [done|].
      destruct f as [r o b|r o b|r w q|r o v b|r o b p|r o b p pn|r o b p|r o b mine rs|r o b mine rs|r [|p ps]]; try done.
      + by destruct (a_locks st !! r).
      + destruct (a_readable st _) eqn:H1; [|done]. destruct (a_readable (a_without st s) _) eqn:H2.
        * exfalso. destruct (ipick _ (a_cands (a_without st s) _ _)); destruct o; try done. by destruct b.
        * split; [exists OLook; apply elem_of_app; left; by eapply a_readable_gone|].
          apply Happ; [done|]. apply Happ; [by apply Hopt|]. destruct (ipick _ _); [by destruct o; apply Hcons|]. destruct o; try done. by apply Hopt.
      + destruct b as [q|].
        * destruct (a_free st None q) eqn:H1; [|done]. destruct (a_free (a_without st s) None q) eqn:H2; [done|].
          split; [by eapply Hf|by apply Hcons].
        * by destruct (a_alloc _ (a_without _ _) _ _) as [[? ?]|].
      + destruct (a_read st p) as [v|] eqn:H1; [|done]. destruct (a_arenas st !! r) as [x'|] eqn:Hr'; [|done].
        unfold a_set. rewrite Hr'. split; [|apply Happ; [done|by apply Hcons]].
        destruct (a_readable st _) eqn:H3; [|done]. destruct (a_read (a_without st s) p) as [v'|] eqn:H2.
        * destruct (a_readable (a_without st s) _) eqn:H4; [by destruct (a_cands (a_without st s) _ _)|].
          exists OLook. apply elem_of_app. left. by eapply a_readable_gone.
        * destruct (Hr _ OInsert _ [] H1 H2) as [y Hy]. exists y. apply elem_of_app. by right.
      + destruct (a_free st None p) eqn:H1; [|done]. destruct (a_free (a_without st s) None p) eqn:H2; [done|].
        split; [by eapply Hf|by apply Hcons].
      + destruct (a_read st p) eqn:H1; [|done]. destruct (a_read (a_without st s) p) eqn:H2; [done|].
        split; [by eapply Hr|by apply Hcons].
      + destruct mine; [|done]. destruct b as [p|]; [|done]. cbn [a_free_opt b_opt] in *.
        destruct (a_free st None p) eqn:H1; [|done]. destruct (a_free (a_without st s) None p) eqn:H2; [done|].
        split; [by eapply Hf|by apply Hcons].
      + destruct (a_free st (Some r) p) eqn:H1; [|done]. destruct (a_free (a_without st s) (Some r) p) eqn:H2; [done|].
        split; [by eapply Hf|by apply Hcons].
    - change (a_stack (a_without st s) t) with (a_stack st t) in Hu. destruct (a_stack st t) as [|[] k]; try done. by destruct (_ && _).
    - unfold a_step_panic in Hs, Hu. change (a_stack (a_without st s) t) with (a_stack st t) in Hu.
      destruct (a_stack st t) as [|f k]; [done|].
      destruct f as [r o b|r o b|r w q|r o v b|r o b p|r o b p []|r o b p|r o b mine rs|r o b mine []|r [|p ps]]; try done.
      + by destruct (a_drops o mine).
      + destruct (a_free st (Some r) p) eqn:H1; [|done]. destruct (a_free (a_without st s) (Some r) p) eqn:H2; [done|].
        split; [by eapply Hf|by apply Hcons].
    - change (a_log (a_without st s)) with (a_log st) in Hu. change (a_arenas (a_without st s)) with (a_arenas st) in Hu.
      destruct (a_returned _ _ _); [|done]. destruct (a_arenas st !! r); [|done].
      destruct (a_read st p) eqn:H1; [|done]. destruct (a_read (a_without st s) p) eqn:H2; [done|]. split; [by eapply Hr|by apply Hcons].
    - change (a_ready (a_without st s)) with (a_ready st) in Hu. change (a_arenas (a_without st s)) with (a_arenas st) in Hu.
      change (a_idle (a_without st s)) with (a_idle st) in Hu. destruct (a_arenas st !! r); [|done]. by destruct (_ && _).
  Qed.
End seen.

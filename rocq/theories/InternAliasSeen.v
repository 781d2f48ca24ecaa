(** No use of an allocation is kept from the aliasing machines. *)
From stdpp Require Import gmap list numbers.
From Verif Require Import Base InternModel NewModel InternStep AliasModel ArcAliasModel InternAliasModel InternAliasSpec.

Section seen.
  Context (M : machine) (im : bool) (n m r : list bool) (early : bool).
  Notation apply := (j_apply M im n m r early).
  Notation applys := (j_applys M im n m r early).

  Lemma apply_none g y g' s : (forall w, y <> (s, JAlloc w)) -> g !! s = None -> apply g y = Some g' -> y.1 <> s /\ g' !! s = None.
  Proof.
    destruct y as [s' o]. intros Hy Hs. unfold j_apply. cbn [fst snd].
    assert (forall x, g !! s' = Some x -> s' <> s) as Hne by (intros x Hx ->; congruence).
    destruct o; try (destruct (g !! s') as [x|] eqn:Hx; [|done]; specialize (Hne _ eq_refl); destruct (j_do _ _ _ _ _ _ _ x) as [x'|]; [|done];
      intros [= <-]; split; [done|]; first [by rewrite lookup_insert_ne|by rewrite lookup_delete_ne]).
    assert (s' <> s) by (intros ->; by eapply Hy).
    destruct (j_do _ _ _ _ _ _ _ _) as [x'|]; [|done]. intros [= <-]. split; [done|]. by rewrite lookup_insert_ne.
  Qed.
  Lemma applys_none ys : forall g s o, (forall w, (s, JAlloc w) ∉ ys) -> g !! s = None -> (s, o) ∈ ys -> applys ys g = None.
  Proof.
    induction ys as [|y ys IH]; intros g s o Ha Hs Hin; [by apply elem_of_nil in Hin|]. cbn [j_applys].
    destruct (apply g y) as [g1|] eqn:H1; [|done].
    destruct (apply_none g y g1 s) as [Hne Hs1]; [|done|done|].
    { intros w ->. eapply Ha. by left. }
    apply (IH g1 s o); [|done|].
    - intros w Hw. apply (Ha w). by right.
    - apply elem_of_cons in Hin as [<-|Hin]; [by destruct Hne|done].
  Qed.

  Context {V Q : Type} (E : ienv V Q).
  Implicit Types (mem : istate V Q) (p : iptr) (ps : list iptr).
  Definition unread mem mem' s : Prop := forall p, ip_ser p <> s -> i_objs mem' !! ip_ser p = i_objs mem !! ip_ser p.
  Lemma gone_unread mem s : unread mem (i_without mem s) s.
  Proof. intros p Hp. unfold i_without, set_objs. simpl. by rewrite lookup_delete_ne. Qed.

  Lemma looks_in p ps j w : p ∈ ps -> (ip_ser p, JRead (j (ip_ser p))) ∈ j_looks j w ps.
  Proof. intros Hp. unfold j_looks. apply elem_of_list_bind. exists p. split; [by left|done]. Qed.
  Lemma looks_alloc s w' ps j w : (s, JAlloc w') ∉ j_looks j w ps.
  Proof.
    unfold j_looks. intros (p&Hp&_)%elem_of_list_bind. unfold j_look, j_at in Hp.
    apply elem_of_cons in Hp as [?|[?| ?%elem_of_nil]%elem_of_cons]; done.
  Qed.
  Lemma box_alloc s w' b w : (s, JAlloc w') ∉ j_box w b.
  Proof.
    destruct b as [p|]; [|apply not_elem_of_nil]. unfold j_box, j_at. intros [?|Hin]%elem_of_cons; [done|].
    destruct w; [|by apply elem_of_nil in Hin]. apply elem_of_list_singleton in Hin. done.
  Qed.
  Lemma ops_alloc mem ps i j w f s w' : (s, JAlloc w') ∈ f_ops E mem ps i j w f -> exists o v, f = FStore o v.
  Proof.
    destruct f as [o b|o b|ty q0 q|o v|o p|o b rs|o rs]; cbn [f_ops]; try (by intros ?%elem_of_nil); [| |..].
    - rewrite !elem_of_app. intros [H|[H|H]]; [by apply box_alloc in H|by apply looks_alloc in H|].
      exfalso. destruct (ipick _ _), o, b; unfold j_at in H; first [by apply elem_of_nil in H|by apply elem_of_list_singleton in H].
    - intros _. by eexists _, _.
    - rewrite elem_of_cons, !elem_of_app. intros [H|[H|[H|H]]]; [done| |by apply looks_alloc in H|].
      + exfalso. unfold j_look, j_at in H. apply elem_of_cons in H as [?|[?| ?%elem_of_nil]%elem_of_cons]; done.
      + exfalso. destruct o; unfold j_at in H; first [by apply elem_of_nil in H|by apply elem_of_list_singleton in H].
    - unfold j_kill, j_at. destruct b; [|by intros ?%elem_of_nil]. by intros ?%elem_of_list_singleton.
  Qed.

  Lemma read_gone mem p s v : iread mem p = Some v -> iread (i_without mem s) p = None -> ip_ser p = s.
  Proof.
    unfold iread. intros H1 H2. destruct (decide (ip_ser p = s)) as [|Hne]; [done|]. rewrite (gone_unread mem s p Hne), H1 in H2. done.
  Qed.
  Lemma readable_gone mem ps s : ireadable mem ps = true -> ireadable (i_without mem s) ps = false -> exists p, p ∈ ps /\ ip_ser p = s.
  Proof.
    intros H1 H2. induction ps as [|p ps IH]; [done|]. cbn [ireadable forallb] in *. apply andb_true_iff in H1 as [H1 H1'].
    apply andb_false_iff in H2 as [H2|H2].
    - exists p. split; [by left|]. destruct (iread mem p) eqn:Hr; [|done]. destruct (iread (i_without mem s) p) eqn:Hr'; [done|].
      by eapply read_gone.
    - destruct (IH H1' H2) as (q&Hq&?). exists q. split; [by right|done].
  Qed.
  Lemma cand_gone mem ps s h : ireadable (i_without mem s) ps = true -> candidates (i_without mem s) h ps = candidates mem h ps.
  Proof.
    induction ps as [|p ps IH]; [done|]. cbn [ireadable forallb]. intros [H1 H2]%andb_true_iff. unfold candidates in *. cbn [List.filter].
    rewrite IH by done. destruct (decide (ip_ser p = s)) as [Hs|Hne].
    - exfalso. unfold iread, i_without, set_objs in H1. simpl in H1. by rewrite Hs, lookup_delete in H1.
    - unfold iread. by rewrite (gone_unread mem s p Hne).
  Qed.
  Lemma leak_gone mem p s mem1 : ileak mem p = Some mem1 -> ileak (i_without mem s) p = None -> ip_ser p = s.
  Proof.
    unfold ileak. intros H1 H2. destruct (decide (ip_ser p = s)) as [|Hne]; [done|]. rewrite (gone_unread mem s p Hne) in H2.
    destruct (i_objs mem !! _) as [x|]; [|done]. by destruct (io_leaked x).
  Qed.
  Lemma free_gone mem p s mem1 : ifree mem p = Some mem1 -> ifree (i_without mem s) p = None -> ip_ser p = s.
  Proof.
    unfold ifree. intros H1 H2. destruct (decide (ip_ser p = s)) as [|Hne]; [done|]. rewrite (gone_unread mem s p Hne) in H2.
    destruct (i_objs mem !! _) as [x|]; [|done]. by destruct (io_leaked x).
  Qed.

  (** The operations of a frame. *)
  Lemma set_seen mem ps i j w o b q p : p ∈ ps ->
    (exists y, (ip_ser p, y) ∈ f_ops E mem ps i j w (FGet o b)) /\ (exists y, (ip_ser p, y) ∈ f_ops E mem ps i j w (FIns o q)).
  Proof.
    intros Hp. split; exists (JRead (j (ip_ser p))); cbn [f_ops].
    - rewrite !elem_of_app. right. left. by apply looks_in.
    - rewrite elem_of_cons, !elem_of_app. right. right. left. by apply looks_in.
  Qed.
  Lemma box_seen mem ps i j w o p : exists y, (ip_ser p, y) ∈ f_ops E mem ps i j w (FGet o (Some p)).
  Proof. exists JLook. cbn [f_ops]. rewrite elem_of_app. left. by left. Qed.
  Lemma ins_seen mem ps i j w o p : exists y, (ip_ser p, y) ∈ f_ops E mem ps i j w (FIns o p).
  Proof. exists (JPass (j (ip_ser p))). by left. Qed.
  Lemma dup_seen mem ps i j w o p rs : exists y, (ip_ser p, y) ∈ f_ops E mem ps i j w (FDup o (Some p) rs).
  Proof. exists JKill. by left. Qed.
End seen.

Section programs.
  Context (M : machine) (im : bool) (n m r : list bool) (early : bool) {V Q : Type} (E : ienv V Q).
  Lemma intern_seen (js : jstate M (intern_host E)) l st' s j w :
    istep E (js_st js) l = Next st' -> istep E (i_without (js_st js) s) l = UB -> js_objs js !! s = None ->
    jstep M im n m r early (intern_host E) js (JRun l j w) = UB.
  Proof.
    intros Hs Hu Hg. unfold jstep. cbn [j_host j_ops h_step h_ops intern_host]. rewrite Hs.
    set (st := js_st js : istate V Q) in *.
    assert ((exists o, (s, o) ∈ i_ops E st l j w) /\ forall w', (s, JAlloc w') ∉ i_ops E st l j w) as [[o Ho] Ha].
    2:{ by rewrite (applys_none _ _ _ _ _ _ _ _ _ o Ha Hg Ho). }
    destruct l as [t o a|t a i|t v|t|p]; cbn [istep i_ops] in *.
    - change (get_stack (i_without st s) t) with (get_stack st t) in Hu.
      destruct (match get_stack st t with [] => true | f :: _ => in_user f end); [|done]. destruct o; try done.
      by destruct (ialloc _ (i_without _ _) _ _ _) as [[? ?]|].
    - unfold istep_thread in Hs, Hu. change (get_stack (i_without st s) t) with (get_stack st t) in Hu.
      destruct (get_stack st t) as [|f k]; [done|].
      change (set_of E (i_without st s)) with (set_of E st) in Hu.
      split; [|intros w' (o&v&Hf)%ops_alloc; subst f; by destruct (ialloc _ (i_without _ _) _ _ _) as [[? ?]|]].
      destruct f as [o b|o b|ty q0 q|o v|o p|o b rs|o rs]; cbn [f_ty].
      + change (i_locks (i_without st s)) with (i_locks st) in Hu. destruct (i_locks st !! _); [done|]. by destruct o.
      + destruct (ireadable st _) eqn:H1; [|done]. destruct (ireadable (i_without st s) _) eqn:H2.
        * rewrite (cand_gone st _ s _ H2) in Hu. destruct (ipick _ _); destruct o; try done. destruct b as [p|]; [|done].
          destruct (ileak st p) as [st1|] eqn:H3; [|done]. destruct (ileak (i_without st s) p) eqn:H4; [done|].
          rewrite <- (leak_gone _ _ _ _ H3 H4). apply box_seen.
        * destruct (readable_gone _ _ _ H1 H2) as (p&Hp&<-). by apply set_seen.
      + done.
      + by destruct (ialloc _ (i_without _ _) _ _ _) as [[? ?]|].
      + destruct (iread st p) as [v|] eqn:H1; [|done]. destruct (iread (i_without st s) p) as [v'|] eqn:H2.
        2:{ rewrite <- (read_gone _ _ _ _ H1 H2). apply ins_seen. }
        destruct (ireadable st _) eqn:H3; [|done]. destruct (ireadable (i_without st s) _) eqn:H4; [by destruct (candidates (i_without _ _) _ _)|].
        destruct (readable_gone _ _ _ H3 H4) as (q&Hq&<-). by apply (set_seen E st _ i j w o None p).
      + destruct b as [p|]; [|done]. destruct (ifree st p) as [st1|] eqn:H3; [|done].
        destruct (ifree (i_without st s) p) eqn:H4; [done|]. rewrite <- (free_gone _ _ _ _ H3 H4). apply dup_seen.
      + done.
    - change (get_stack (i_without st s) t) with (get_stack st t) in Hu. destruct (get_stack st t) as [|[] k]; try done.
      by destruct (_ && _).
    - unfold istep_panic in Hu. change (get_stack (i_without st s) t) with (get_stack st t) in Hu.
      destruct (get_stack st t) as [|[| | | | |? ? []|] k]; done.
    - change (i_log (i_without st s)) with (i_log st) in Hu. destruct (returned _ _); [|done].
      destruct (iread st p) as [v|] eqn:H1; [|done]. destruct (iread (i_without st s) p) as [v'|] eqn:H2; [done|].
      rewrite <- (read_gone _ _ _ _ H1 H2). unfold j_at. split; [eexists; by left|]. by intros w' ?%elem_of_list_singleton.
  Qed.
  Lemma nmem_without (st : nstate V Q) s : nmem (n_without st s) = i_without (nmem st) s.
  Proof. done. Qed.
  Lemma new_seen (js : jstate M (new_host E)) l st' s j w :
    nstep E (js_st js) l = Next st' -> nstep E (n_without (js_st js) s) l = UB -> js_objs js !! s = None ->
    jstep M im n m r early (new_host E) js (JRun l j w) = UB.
  Proof.
    intros Hs Hu Hg. unfold jstep. cbn [j_host j_ops h_step h_ops new_host]. rewrite Hs.
    set (st := js_st js : nstate V Q) in *.
    assert ((exists o, (s, o) ∈ n_ops E st l j w) /\ forall w', (s, JAlloc w') ∉ n_ops E st l j w) as [[o Ho] Ha].
    2:{ by rewrite (applys_none _ _ _ _ _ _ _ _ _ o Ha Hg Ho). }
    destruct l as [t o a|t a i|t v|t|p]; cbn [nstep n_ops] in *.
    - change (nstack (n_without st s) t) with (nstack st t) in Hu.
      destruct (match nstack st t with [] => true | f :: _ => nin_user f end); [|done]. destruct o; try done.
      rewrite nmem_without in Hu. by destruct (ialloc _ (i_without _ _) _ _ _) as [[? ?]|].
    - unfold nstep_thread in Hs, Hu. change (nstack (n_without st s) t) with (nstack st t) in Hu.
      rewrite nmem_without in Hu. change (nset (n_without st s)) with (nset st) in Hu.
      destruct (nstack st t) as [|f k]; [done|].
      destruct f as [o b again|o b|o b c|o b c|o b|c f].
      + change (nvec (n_without st s)) with (nvec st) in Hu. destruct (find_ty _ _); [by destruct (_ || _)|]. by destruct again.
      + done.
      + change (nvec (n_without st s)) with (nvec st) in Hu. by destruct (_ =? _).
      + change (n_locks (n_without st s)) with (n_locks st) in Hu. change (n_poison (n_without st s)) with (n_poison st) in Hu.
        destruct (n_locks st !! _); [done|]. destruct (bool_decide _); [by destruct (existsb _ _)|]. by destruct o.
      + destruct b as [p|]; [|done]. destruct (ifree (nmem st) p) as [st1|] eqn:H3; [|done].
        destruct (ifree (i_without (nmem st) s) p) eqn:H4; [done|]. rewrite <- (free_gone _ _ _ _ H3 H4). unfold j_kill, j_at.
        split; [eexists; by left|]. by intros w' ?%elem_of_list_singleton.
      + split; [|intros w' (o&v&Hf)%ops_alloc; subst f; by destruct (ialloc _ (i_without _ _) _ _ _) as [[? ?]|]].
        destruct f as [o b|o b|ty q0 q|o v|o p|o b rs|o rs]; cbn [f_ty]; try done.
        * destruct (ireadable (nmem st) _) eqn:H1; [|done]. destruct (ireadable (i_without (nmem st) s) _) eqn:H2.
          -- rewrite (cand_gone (nmem st) _ s _ H2) in Hu. destruct (ipick _ _); destruct o; try done. destruct b as [p|]; [|done].
             destruct (ileak (nmem st) p) as [st1|] eqn:H3; [|done]. destruct (ileak (i_without (nmem st) s) p) eqn:H4; [done|].
             rewrite <- (leak_gone _ _ _ _ H3 H4). apply box_seen.
          -- destruct (readable_gone _ _ _ H1 H2) as (p&Hp&<-). by apply set_seen.
        * by destruct (ialloc _ (i_without _ _) _ _ _) as [[? ?]|].
        * destruct (iread (nmem st) p) as [v|] eqn:H1; [|done]. destruct (iread (i_without (nmem st) s) p) as [v'|] eqn:H2.
          2:{ rewrite <- (read_gone _ _ _ _ H1 H2). apply ins_seen. }
          destruct (ireadable (nmem st) _) eqn:H3; [|done]. destruct (ireadable (i_without (nmem st) s) _) eqn:H4; [by destruct (candidates (i_without _ _) _ _)|].
          destruct (readable_gone _ _ _ H3 H4) as (q&Hq&<-). by apply (set_seen E (nmem st) _ i j w o None p).
        * destruct b as [p|]; [|done]. destruct (ifree (nmem st) p) as [st1|] eqn:H3; [|done].
          destruct (ifree (i_without (nmem st) s) p) eqn:H4; [done|]. rewrite <- (free_gone _ _ _ _ H3 H4). apply dup_seen.
    - change (nstack (n_without st s) t) with (nstack st t) in Hu. destruct (nstack st t) as [|[| | | | |c []] k]; try done.
      by destruct (_ && _).
    - unfold nstep_panic in Hu. change (nstack (n_without st s) t) with (nstack st t) in Hu.
      destruct (nstack st t) as [|f k]; [done|]. destruct (existsb _ _); [done|]. by destruct f as [| | | | |c []].
    - change (n_log (n_without st s)) with (n_log st) in Hu. rewrite nmem_without in Hu. destruct (returned _ _); [|done].
      destruct (iread (nmem st) p) as [v|] eqn:H1; [|done]. destruct (iread (i_without (nmem st) s) p) as [v'|] eqn:H2; [done|].
      rewrite <- (read_gone _ _ _ _ H1 H2). unfold j_at. split; [eexists; by left|]. by intros w' ?%elem_of_list_singleton.
  Qed.
End programs.

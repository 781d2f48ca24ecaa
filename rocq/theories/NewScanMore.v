(** Proofs for C72: the sets that lost the race are never used, and the bound is attained. *)
From stdpp Require Import gmap list numbers.
From Verif Require Import Base InternModel InternSpec InternInv InternStep InternLaw InternFinal InternMore
  NewModel NewSpec NewSim NewStep NewFinal NewScanModel DynIntern.
Require Import ZifyBool ZifyNat ZifyN.

Section more.
  Context {V Q : Type} (E : ienv V Q).
  Implicit Types (s : nstate V Q) (o : iop V Q) (g : frame V Q) (f : nframe V Q) (t ty c i : nat) (x : cstate V Q) (y : nat * nat).
  Implicit Types (ls : list (ilabel V Q)).
  Notation op_ty := (op_ty E).
  Notation slot := (slot E).
  Notation first := (first E).
  Notation NInv := (NInv E).
  Notation type_of := (type_of E).

  Definition touched s y : Prop := is_Some (n_sets s !! y) \/ is_Some (n_locks s !! y) \/ y ∈ n_poison s.
  Definition toucher s y : Prop := exists t f i, f ∈ nstack s t /\ uses f i /\ y = (slot (type_of f), i).
  Lemma touched_lock s y y' t : touched (nlock s y t) y' -> touched s y' \/ y' = y.
  Proof.
    intros [H|[H|H]]; cbn [n_sets n_locks n_poison nlock] in H; [by left; left| |by left; right; right].
    apply lookup_insert_is_Some in H as [->|[_ H]]; [by right|by left; right; left].
  Qed.
  Lemma touched_put s y y' ps : touched (nput s y ps) y' -> touched s y' \/ y' = y.
  Proof.
    intros [H|[H|H]]; cbn [n_sets n_locks n_poison nput] in H; [|by left; right; left|by left; right; right].
    apply lookup_insert_is_Some in H as [->|[_ H]]; [by right|by left; left].
  Qed.
  Lemma touched_unlock s y y' b : touched (nunlock s y b) y' -> touched s y' \/ y' = y.
  Proof.
    intros [H|[H|H]]; cbn [n_sets n_locks n_poison nunlock] in H; [by left; left| |].
    - apply lookup_delete_is_Some in H as [_ H]. by left; right; left.
    - destruct b; [|by left; right; right]. apply elem_of_union in H as [H|H]; [by right; apply elem_of_singleton in H|by left; right; right].
  Qed.
  Lemma touched_step s l s' y : nstep E s l = Next s' -> touched s' y -> touched s y \/ toucher s y.
  Proof.
    intros H Hy. destruct l as [t o a|t a j|t v|t|p]; cbn [nstep] in H.
    - destruct (match nstack s t with [] => true | _ => _ end); [|done]. left.
      destruct o as [v|v|v|ty w q|ty w q|ty|ty]; try done; try (by injection H as <-).
      destruct (ialloc E (nmem s) a v false) as [[m p]|]; [|done]. by injection H as <-.
    - unfold nstep_thread in H. destruct (nstack s t) as [|f k] eqn:Hst; [done|].
      assert (forall i, uses f i -> toucher s (slot (type_of f), i)) as Hme.
      { intros i Hu. exists t, f, i. split_and!; [rewrite Hst; left|done|done]. }
      destruct f as [o b again|o b|o b i|o b i|o b|i g].
      + left. destruct (find_ty _ _) as [i|]; [|destruct again; [done|]; by injection H as <-].
        destruct ((j =? 0) || again); by injection H as <-.
      + left. by injection H as <-.
      + left. destruct (_ =? _); [|done]. by injection H as <-.
      + destruct (n_locks s !! _); [done|]. destruct (bool_decide _).
        * left. destruct (existsb unwinds k); [done|]. by injection H as <-.
        * assert (touched (nlock s (slot (op_ty o), i) t) y -> touched s y \/ toucher s y) as Hlk.
          { intros [?| ->]%touched_lock; [by left|right; by apply (Hme i)]. }
          destruct o as [v|v|v|ty w q|ty w q|ty|ty]; injection H as <-; try (by apply Hlk).
          assert (touched (nput (nlock s (slot ty, i) t) (slot ty, i) []) y) as Hp by exact Hy.
          apply touched_put in Hp as [?| ->]; [by apply Hlk|right; by apply (Hme i)].
      + left. destruct b as [p|]; [|by injection H as <-]. destruct (ifree (nmem s) p) as [m|]; [|done]. by injection H as <-.
      + destruct g as [o b|o b|ty w q|o v|o p|o b r|o r]; try done.
        * left. destruct (ireadable _ _); [|done].
          destruct (ipick j _) as [p|]; destruct o; try done; first
            [ by injection H as <- | destruct b as [p|]; [|done]; destruct (ileak (nmem s) p) as [m|]; [|done]; by injection H as <- ].
        * left. destruct (ialloc E (nmem s) a v true) as [[m p]|]; [|done]. by injection H as <-.
        * destruct (iread (nmem s) p) as [v|]; [|done]. destruct (ireadable _ _); [|done].
          destruct (candidates _ _ _); injection H as <-; [|by left].
          assert (touched (nput s (slot (op_ty o), i) (p :: nset s (slot (op_ty o), i))) y) as Hp by exact Hy.
          apply touched_put in Hp as [?| ->]; [by left|right; by apply (Hme i)].
        * left. destruct b as [p|]; [|by injection H as <-]. destruct (ifree (nmem s) p) as [m|]; [|done]. by injection H as <-.
        * injection H as <-.
          assert (touched (nunlock s (slot (op_ty o), i) match r with RPanic => true | _ => false end) y) as Hp by exact Hy.
          apply touched_unlock in Hp as [?| ->]; [by left|right; by apply (Hme i)].
    - left. destruct (nstack s t) as [|[| | | | |i []] k]; try done. destruct (_ && _); [|done]. by injection H as <-.
    - left. unfold nstep_panic in H. destruct (nstack s t) as [|f k]; [done|].
      destruct (existsb unwinds (f :: k)); [done|]. destruct f as [| | | | |i g]; try done.
      destruct g; try done; by injection H as <-.
    - left. destruct (returned p (n_log s)); [|done]. destruct (iread (nmem s) p) as [v|]; [|done]. by injection H as <-.
  Qed.
  Lemma touched_first ls s y : run (nstep E) ninit ls = Some s -> touched s y -> exists ty, y.1 = slot ty /\ first s ty = Some y.2.
  Proof.
    revert s. induction ls as [|l ls IH] using rev_ind; intros s.
    { intros [= <-] [[? H]|[[? H]|H]]; cbn in H; [by rewrite lookup_empty in H..|set_solver]. }
    rewrite run_snoc. destruct (run (nstep E) ninit ls) as [s1|] eqn:Hr; [|done]. unfold exec.
    destruct (nstep E s1 l) as [s2| | |] eqn:Hs; try done; [|by intros [= <-]; apply IH..].
    intros [= <-] Hy. destruct (touched_step _ _ _ _ Hs Hy) as [Ht|(t&f&i&Hf&Hu& ->)].
    - destruct (IH s1 eq_refl Ht) as (ty&H1&H2). exists ty. split; [done|]. by eapply step_first.
    - exists (type_of f). split; [done|]. eapply step_first; [done|]. eapply use_first; [by eapply nreach_inv|done|done].
  Qed.
  Lemma losers_unused ls s c ty i j : run (nstep E) ninit ls = Some s ->
    nvec s c !! j = Some ty -> nvec s c !! i = Some ty -> j < i ->
    n_sets s !! (c, i) = None /\ n_locks s !! (c, i) = None /\ (c, i) ∉ n_poison s /\
    forall t f, f ∈ nstack s t -> slot (type_of f) = c -> ~ uses f i.
  Proof.
    intros Hr Hj Hi Hlt.
    assert (~ touched s (c, i)) as Hn.
    { intros (ty'&Hc&Hf)%(touched_first ls s); [|done]. simpl in *. subst c. pose proof (find_ty_lookup _ _ _ Hf) as Hl.
      assert (ty' = ty) as -> by congruence. by eapply (find_ty_before _ _ _ Hf j). }
    split_and!.
    - destruct (n_sets s !! (c, i)) eqn:H; [|done]. destruct Hn. left. by eexists.
    - destruct (n_locks s !! (c, i)) eqn:H; [|done]. destruct Hn. right. left. by eexists.
    - intros H. apply Hn. by right; right.
    - intros t f Hf Hc Hu. destruct (set_is_first E ls s t f i Hr Hf Hu) as [H1 H2]. rewrite Hc in *.
      apply (H2 j Hlt). congruence.
  Qed.

  (** ** The bound is attained *)
  Definition crowd_scan (ty n : nat) : list (ilabel V Q) := seq 0 n ≫= λ t, [ICall t (OLen ty) 0; IStep t 0 0].
  Definition crowd_push (n : nat) : list (ilabel V Q) :=
    seq 0 n ≫= λ t, [IStep t 0 0; IStep t 0 0; IStep t 0 (S t); IStep t 0 0; IStep t 0 0].
  Definition crowd ty n : list (ilabel V Q) := crowd_scan ty n ++ crowd_push n.

  Definition atA ty n x : Prop :=
    (forall t, nstack (c_new x) t = if t <? n then [NPush (OLen ty) None] else []) /\ nvec (c_new x) (slot ty) = [] /\
    nresv (c_new x) (slot ty) = 0 /\ n_locks (c_new x) = ∅ /\ n_poison (c_new x) = ∅ /\ (forall t, seen x t (slot ty) = 0).
  Definition atB ty n m x : Prop :=
    (forall t, nstack (c_new x) t = if (m <=? t) && (t <? n) then [NPush (OLen ty) None] else []) /\
    nvec (c_new x) (slot ty) = replicate m ty /\ nresv (c_new x) (slot ty) = m /\ n_locks (c_new x) = ∅ /\ n_poison (c_new x) = ∅ /\
    (forall t, m <= t -> seen x t (slot ty) = 0).

  Lemma nstack_set s t k u : nstack (nset_stack s t k) u = if decide (t = u) then k else nstack s u.
  Proof. unfold nstack. cbn [n_threads nset_stack]. destruct (decide _) as [<-|]; [by rewrite lookup_insert|by rewrite lookup_insert_ne]. Qed.

  (** Both kinds of execution at once. *)
  Definition gstep (sc : bool) x l : outcome (cstate V Q) := if sc then fstep E x l else cstep E x l.
  Lemma gstep_fresh sc x l : fresh E x l = true -> gstep sc x l = cstep E x l.
  Proof. intros H. unfold gstep, fstep. rewrite H. by destruct sc. Qed.

  Lemma stepA sc ty n x : atA ty n x ->
    exists x', run (gstep sc) x [ICall n (OLen ty) 0; IStep n 0 0] = Some x' /\ atA ty (S n) x'.
  Proof.
    intros (Hst&Hv&Hr&Hl&Hp&Hs). destruct x as [s sn]. cbn [c_new] in *.
    assert (nstack s n = []) as Hn by (rewrite Hst; by rewrite Nat.ltb_irrefl).
    set (A := nset_stack s n [NScan (OLen ty) None false]).
    set (B := nset_stack A n [NPush (OLen ty) None]).
    exists (CState B (<[(n, slot ty) := 0]> sn)). split.
    { eapply (run_step _ _ _ (CState A sn)).
      { rewrite gstep_fresh by done. cbn [cstep nstep c_new]. rewrite Hn. done. }
      eapply (run_step _ _ _ (CState B (<[(n, slot ty) := 0]> sn))); [|done].
      assert (nstack A n = [NScan (OLen ty) None false]) as HA by (unfold A; by rewrite nstack_set, decide_True).
      rewrite gstep_fresh.
      2:{ cbn [fresh c_new]. rewrite HA. change (nvec A (slot (op_ty (OLen ty : iop V Q)))) with (nvec s (slot ty)). by rewrite Hv. }
      cbn [cstep c_new]. rewrite HA. cbn [InternModel.op_ty].
      change (seen (CState A sn)) with (seen (CState s sn)). rewrite Hs. change (nvec A) with (nvec s). rewrite Hv. done. }
    repeat split; try done.
    - intros t. cbn [c_new]. unfold B, A. rewrite !nstack_set. destruct (decide (n = t)) as [<-|Hne].
      + by rewrite (proj2 (Nat.ltb_lt n (S n))) by lia.
      + rewrite Hst. destruct (Nat.ltb_spec t n), (Nat.ltb_spec t (S n)); try done; lia.
    - intros t. unfold seen. cbn [c_seen]. destruct (decide ((n, slot ty) = (t, slot ty))) as [<-|].
      + by rewrite lookup_insert.
      + rewrite lookup_insert_ne by done. apply Hs.
  Qed.
  Lemma runA sc ty n : exists x, run (gstep sc) cinit (crowd_scan ty n) = Some x /\ atA ty n x.
  Proof.
    induction n as [|n IH].
    { exists cinit. split; [done|]. repeat split; done. }
    destruct IH as (x&Hr&Hx). destruct (stepA sc ty n x Hx) as (x'&Hr'&Hx'). exists x'. split; [|done].
    unfold crowd_scan. rewrite seq_S, bind_app, run_app. unfold crowd_scan in Hr. rewrite Hr. exact Hr'.
  Qed.
  Lemma find_rep ty m : find_ty ty (replicate (S m) ty) = Some 0.
  Proof. simpl. by rewrite Nat.eqb_refl. Qed.
  Lemma stepB sc ty n m x : m < n -> atB ty n m x ->
    exists x', run (gstep sc) x [IStep m 0 0; IStep m 0 0; IStep m 0 (S m); IStep m 0 0; IStep m 0 0] = Some x' /\ atB ty n (S m) x'.
  Proof.
    intros Hmn (Hst&Hv&Hr&Hl&Hp&Hs). destruct x as [s sn]. cbn [c_new] in *. set (c := slot ty) in *. set (o := OLen ty : iop V Q).
    assert (nstack s m = [NPush o None]) as Hn.
    { rewrite Hst. by rewrite Nat.leb_refl, (proj2 (Nat.ltb_lt m n)). }
    set (A := nset_stack (nreserve s c) m [NPub o None m]).
    set (B := nset_stack (npublish A c ty) m [NScan o None true]).
    set (sn1 := <[(m, c) := S m]> sn).
    set (C := nset_stack B m [NLock o None 0]). set (sn2 := <[(m, c) := S m]> sn1).
    set (D := nset_stack (nlock C (c, 0) m) m [NIn 0 (FDone o (RNum (length (nset C (c, 0)))))]).
    set (F := nevent (nset_stack (nunlock D (c, 0) false) m []) (EvRet m o (RNum (length (nset C (c, 0)))))).
    assert (nvec B c = replicate (S m) ty) as HvB.
    { unfold nvec at 1. cbn [B n_vecs nset_stack npublish]. rewrite lookup_insert. cbn [default from_option id].
      change (nvec A c) with (nvec s c). rewrite Hv. by rewrite replicate_S_end. }
    assert (nstack A m = [NPub o None m]) as HA by (unfold A; by rewrite nstack_set, decide_True).
    assert (nstack B m = [NScan o None true]) as HB by (unfold B; by rewrite nstack_set, decide_True).
    assert (nstack C m = [NLock o None 0]) as HC by (unfold C; by rewrite nstack_set, decide_True).
    assert (nstack D m = [NIn 0 (FDone o (RNum (length (nset C (c, 0)))))]) as HD by (unfold D; by rewrite nstack_set, decide_True).
    exists (CState F sn2). split.
    { eapply (run_step _ _ _ (CState A sn)).
      { rewrite gstep_fresh by (cbn [fresh c_new]; by rewrite Hn). cbn [cstep nstep c_new]. rewrite Hn. unfold nstep_thread. rewrite Hn. change (slot (op_ty o)) with c. rewrite Hr. done. }
      eapply (run_step _ _ _ (CState B sn1)).
      { rewrite gstep_fresh by (cbn [fresh c_new]; by rewrite HA). cbn [cstep nstep c_new]. unfold nstep_thread. rewrite HA. change (slot (op_ty o)) with c. assert (nvec A c = replicate m ty) as HvA by exact Hv. rewrite HvA, replicate_length, Nat.eqb_refl. done. }
      eapply (run_step _ _ _ (CState C sn2)).
      { rewrite gstep_fresh.
        2:{ cbn [fresh c_new]. rewrite HB. change (slot (op_ty o)) with c. by rewrite HvB, replicate_length, Nat.eqb_refl. }
        cbn [cstep nstep c_new]. rewrite HB. change (slot (op_ty o)) with c. change (op_ty o) with ty.
        rewrite HvB. unfold seen. cbn [c_seen]. unfold sn1 at 1. rewrite lookup_insert. cbn [default from_option id].
        rewrite replicate_length, Nat.leb_refl. cbn [andb]. rewrite take_ge by (by rewrite replicate_length). rewrite find_rep. done. }
      eapply (run_step _ _ _ (CState D sn2)).
      { rewrite gstep_fresh by (cbn [fresh c_new]; by rewrite HC). cbn [cstep nstep c_new]. unfold nstep_thread. rewrite HC. change (slot (op_ty o)) with c.
        change (n_locks C) with (n_locks s). rewrite Hl, lookup_empty. change (n_poison C) with (n_poison s). rewrite Hp.
        rewrite bool_decide_eq_false_2 by set_solver. done. }
      eapply (run_step _ _ _ (CState F sn2)); [|done].
      rewrite gstep_fresh by (cbn [fresh c_new]; by rewrite HD). cbn [cstep nstep c_new]. unfold nstep_thread. by rewrite HD. }
    split_and!; cbn [c_new].
    - intros t. change (nstack F t) with (nstack (nset_stack (nunlock D (c, 0) false) m []) t). rewrite nstack_set. destruct (decide (m = t)) as [<-|Hne].
      + by rewrite (proj2 (Nat.leb_gt (S m) m)) by lia.
      + assert (nstack (nunlock D (c, 0) false) t = nstack s t) as ->.
        { change (nstack D t = nstack s t). unfold D. rewrite nstack_set, decide_False by done.
          change (nstack C t = nstack s t). unfold C. rewrite nstack_set, decide_False by done.
          unfold B. rewrite nstack_set, decide_False by done. change (nstack A t = nstack s t). unfold A. by rewrite nstack_set, decide_False by done. }
        rewrite Hst. destruct (Nat.leb_spec m t), (Nat.leb_spec (S m) t); try done; lia.
    - exact HvB.
    - change (nresv (nreserve s c) c = S m). unfold nresv at 1. cbn [n_resv nreserve]. rewrite lookup_insert. cbn [default from_option id]. by rewrite Hr.
    - change (delete (c, 0) (<[(c, 0) := m]> (n_locks s)) = ∅). rewrite delete_insert; [apply Hl|]. by rewrite Hl.
    - done.
    - intros t Ht. unfold seen. cbn [c_seen]. unfold sn2, sn1. rewrite !lookup_insert_ne by (intros [= ?]; lia). apply Hs. lia.
  Qed.
  Lemma runB sc ty n x m : m <= n -> atA ty n x -> exists x', run (gstep sc) x (crowd_push m) = Some x' /\ atB ty n m x'.
  Proof.
    intros Hm (Hst&Hv&Hr&Hl&Hp&Hs). induction m as [|m IH].
    { exists x. split; [done|]. split_and!; try done. }
    destruct IH as (x1&Hr1&Hx1); [lia|]. destruct (stepB sc ty n m x1 ltac:(lia) Hx1) as (x'&Hr'&Hx'). exists x'. split; [|done].
    unfold crowd_push. rewrite seq_S, bind_app, run_app. unfold crowd_push in Hr1. rewrite Hr1. exact Hr'.
  Qed.
  Lemma crowd_run sc ty n : exists x, run (gstep sc) cinit (crowd ty n) = Some x /\ (forall t, nstack (c_new x) t = []) /\
    nvec (c_new x) (slot ty) = replicate n ty.
  Proof.
    destruct (runA sc ty n) as (x&Hr&Hx). destruct (runB sc ty n x n (le_n n) Hx) as (x'&Hr'&Hst&Hv&_). exists x'. split_and!; [|..|done].
    - unfold crowd. by rewrite run_app, Hr.
    - intros t. rewrite Hst. destruct (Nat.leb_spec n t), (Nat.ltb_spec t n); try done; lia.
  Qed.
  Lemma crowd_calls ty n t o a : ICall t o a ∈ crowd ty n -> t < n.
  Proof.
    unfold crowd, crowd_scan, crowd_push. rewrite elem_of_app, !elem_of_list_bind. intros [(u&Hin&Hu%elem_of_seq)|(u&Hin&Hu%elem_of_seq)];
      repeat (apply elem_of_cons in Hin as [Hin|Hin]; [try discriminate Hin; injection Hin as -> -> ->; lia|]); by apply elem_of_nil in Hin.
  Qed.
  Lemma bound_attained ty n : exists ls x, run (fstep E) cinit ls = Some x /\ (forall t o a, ICall t o a ∈ ls -> t < n) /\
    (forall t, nstack (c_new x) t = []) /\ nvec (c_new x) (slot ty) = replicate n ty.
  Proof.
    destruct (crowd_run true ty n) as (x&Hr&Hst&Hv). exists (crowd ty n), x. split_and!; try done. apply crowd_calls.
  Qed.
  Lemma fresh_coherent ls x x' : run (fstep E) x ls = Some x' -> exists ls', ls' `sublist_of` ls /\ run (cstep E) x ls' = Some x'.
  Proof.
    revert x. induction ls as [|l ls IH]; intros x; simpl; [intros [= ->]; by exists []|]. unfold exec, fstep.
    assert (run (fstep E) x ls = Some x' -> exists ls', ls' `sublist_of` l :: ls /\ run (cstep E) x ls' = Some x') as Hskip.
    { intros (ls'&?&?)%IH. exists ls'. split; [by apply sublist_cons|done]. }
    destruct (fresh E x l); [|done]. destruct (cstep E x l) as [x1| | |] eqn:Hs; try done.
    intros (ls'&?&?)%IH. exists (l :: ls'). split; [by apply sublist_skip|]. simpl. unfold exec. by rewrite Hs.
  Qed.
End more.

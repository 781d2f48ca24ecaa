(** Consequences of the invariant of the [NewIntern] model. *)
From stdpp Require Import gmap list numbers.
From Verif Require Import Base InternModel InternSpec InternInv InternStep InternLaw InternFinal InternMore
  NewModel NewSpec NewSim NewStep.
Require Import ZifyBool ZifyNat ZifyN.

Section final.
  Context {V Q : Type} (E : ienv V Q).
  Implicit Types (s : nstate V Q) (st : istate V Q) (v d : V) (p : iptr) (o : iop V Q) (g : frame V Q) (f : nframe V Q) (t ty c i : nat).
  Implicit Types (ls : list (ilabel V Q)).
  Notation op_ty := (op_ty E).
  Notation E1 := (E1 E).
  Notation first := (first E).
  Notation slot := (slot E).
  Notation NInv := (NInv E).
  Notation type_of := (type_of E).

  (** ** The shape of a step *)
  Definition pan f : bool :=
    match f with NPanic _ _ | NIn _ (FDup _ _ RPanic) | NIn _ (FDone _ RPanic) => true | _ => false end.
  Definition ev_of s f (fs' : list (nframe V Q)) (e : ievent V Q) : Prop :=
    match e with
    | EvIns _ o _ _ => o = call_of f /\ inside f
    | EvClr ty => call_of f = OClear ty /\ exists b i, f = NLock (OClear ty) b i /\ (slot ty, i) ∉ n_poison s /\ n_locks s !! (slot ty, i) = None
    | EvRet _ o r => o = call_of f /\ fs' = [] /\ (r = RPanic -> pan f = true) /\ (inside f \/ r = RPanic)
    | EvRead _ _ => False
    end.
  Inductive vec_step s s' f (fs' : list (nframe V Q)) : Prop :=
  | VSame : n_vecs s' = n_vecs s -> n_resv s' = n_resv s -> (forall o b i, f <> NPub o b i) ->
      (forall o b i, NPub o b i ∉ fs') -> vec_step s s' f fs'
  | VReserve o b : f = NPush o b -> fs' = [NPub o b (nresv s (slot (op_ty o)))] -> n_vecs s' = n_vecs s ->
      n_resv s' = <[slot (op_ty o) := S (nresv s (slot (op_ty o)))]> (n_resv s) -> vec_step s s' f fs'
  | VPublish o b i : f = NPub o b i -> fs' = [NScan o b true] -> length (nvec s (slot (op_ty o))) = i ->
      n_vecs s' = <[slot (op_ty o) := nvec s (slot (op_ty o)) ++ [op_ty o]]> (n_vecs s) ->
      n_resv s' = n_resv s -> vec_step s s' f fs'.
  Inductive shape s (l : ilabel V Q) s' : Prop :=
  | ShRead p v : l = IDeref p -> s' = nevent s (EvRead p v) -> shape s l s'
  | ShCall t o b a : l = ICall t o a -> n_threads s' = <[t:=NScan o b false :: nstack s t]> (n_threads s) ->
      match nstack s t with f :: _ => nin_user f = true | [] => True end ->
      n_log s' = n_log s -> n_poison s' = n_poison s -> n_vecs s' = n_vecs s -> n_resv s' = n_resv s -> shape s l s'
  | ShStep t f fs' k : lab_thread l = Some t -> (forall o a, l <> ICall t o a) -> nstack s t = f :: k ->
      n_threads s' = <[t:=fs' ++ k]> (n_threads s) ->
      (fs' = [] \/ exists f', fs' = [f'] /\ call_of f' = call_of f /\
        (pan f' = true -> pan f = true \/ user_panic E s l (type_of f) \/
          exists o b i, f = NLock o b i /\ (slot (op_ty o), i) ∈ n_poison s)) ->
      (n_log s' = n_log s \/ exists e, n_log s' = e :: n_log s /\ ev_of s f fs' e) ->
      (n_poison s' = n_poison s \/ exists i o, f = NIn i (FDone o RPanic) /\
        n_poison s' = {[(slot (op_ty o), i)]} ∪ n_poison s) ->
      vec_step s s' f fs' ->
      shape s l s'.

  Ltac vsame := apply VSame; [done|done|done|intros ? ? ? Hx; first [by apply elem_of_nil in Hx|by apply elem_of_list_singleton in Hx]].
  Ltac sh t f fs' k := apply (ShStep _ _ _ t f fs' k); try done;
    [try (by left); right; eexists; split_and!; [done|done|try (by left); try done]|try (by left)|try (by left)|try vsame].

  Lemma nstep_shape s l s' : nstep E s l = Next s' -> shape s l s'.
  Proof.
    intros H. destruct l as [t o a|t a j|t v|t|p].
    - simpl in H. destruct (match nstack s t with [] => true | _ => _ end) eqn:Hu; [|done].
      assert (match nstack s t with f :: _ => nin_user f = true | [] => True end) by (by destruct (nstack s t)).
      destruct o as [v|v|v|ty w q|ty w q|ty|ty]; try done.
      3:{ destruct (ialloc E (nmem s) a v false) as [[m p]|]; [|done]. injection H as <-. by eapply ShCall. }
      all: injection H as <-; by eapply ShCall.
    - simpl in H. unfold nstep_thread in H. destruct (nstack s t) as [|f k] eqn:Hst; [done|].
      destruct f as [o b again|o b|o b i|o b i|o b|i g].
      + destruct (find_ty _ _) as [i|].
        * destruct ((j =? 0) || again) eqn:Hj.
          -- injection H as <-. by sh t (NScan o b again) [NLock o b i] k.
          -- destruct again; [by rewrite orb_true_r in Hj|]. injection H as <-. by sh t (NScan o b false) [NPush o b] k.
        * destruct again; [done|]. injection H as <-. by sh t (NScan o b false) [NPush o b] k.
      + injection H as <-. sh t (NPush o b) [NPub o b (nresv s (slot (op_ty o)))] k. by eapply VReserve.
      + destruct (Nat.eqb_spec (length (nvec s (slot (op_ty o)))) i); [|done]. injection H as <-.
        sh t (NPub o b i) [NScan o b true] k. by eapply VPublish.
      + destruct (n_locks s !! _) eqn:Hlk; [done|]. destruct (bool_decide _) eqn:Hp.
        * rewrite bool_decide_eq_true in Hp. destruct (existsb unwinds k); [done|]. injection H as <-.
          sh t (NLock o b i) [NPanic o b] k. intros _. right. right. by exists o, b, i.
        * destruct o as [v|v|v|ty w q|ty w q|ty|ty]; injection H as <-;
            match goal with |- context [NIn ?i ?g :: k] => sh t (NLock (call_of (NIn i g)) b i) [NIn i g] k end.
          right. eexists. split; [done|]. simpl. split; [done|]. exists b, i. by rewrite bool_decide_eq_false in Hp.
      + destruct b as [p|].
        * destruct (ifree (nmem s) p) as [m|]; [|done]. injection H as <-.
          apply (ShStep _ _ _ t (NPanic o (Some p)) [] k); try done; [by left| |by left|by vsame].
          right. eexists. split; [done|]. simpl. split_and!; try done. by right.
        * injection H as <-.
          apply (ShStep _ _ _ t (NPanic o None) [] k); try done; [by left| |by left|by vsame].
          right. eexists. split; [done|]. simpl. split_and!; try done. by right.
      + destruct g as [o b|o b|ty w q|o v|o p|o b r|o r]; try done.
        * destruct (ireadable _ _); [|done].
          destruct (ipick j _) as [p|]; destruct o; try done; first
            [ injection H as <-; match goal with |- context [NIn ?i ?g :: k] =>
                by sh t (NIn i (FGet (call_of (NIn i g)) b)) [NIn i g] k end
            | destruct b as [p|]; [|done]; destruct (ileak (nmem s) p) as [m|]; [|done]; injection H as <-;
              by sh t (NIn i (FGet (OBox v) (Some p)) : nframe V Q) [NIn i (FIns (OBox v) p) : nframe V Q] k ].
        * destruct (ialloc E (nmem s) a v true) as [[m p]|]; [|done]. injection H as <-.
          by sh t (NIn i (FStore o v)) [NIn i (FIns o p)] k.
        * destruct (iread (nmem s) p) as [v|]; [|done]. destruct (ireadable _ _); [|done].
          destruct (candidates _ _ _); injection H as <-; sh t (NIn i (FIns o p)) [NIn i (FDone o (RPtr p))] k.
          right. eexists. split; [done|]. by simpl.
        * destruct b as [p|].
          -- destruct (ifree (nmem s) p) as [m|]; [|done]. injection H as <-.
             sh t (NIn i (FDup o (Some p) r)) [NIn i (FDone o r)] k.
          -- injection H as <-. sh t (NIn i (FDup o None r)) [NIn i (FDone o r)] k.
        * injection H as <-. apply (ShStep _ _ _ t (NIn i (FDone o r)) [] k); try done; [by left| | |by vsame].
          -- right. eexists. split; [done|]. simpl. split_and!; [done|done|by intros ->|by left].
          -- simpl. destruct r; try (by left). right. by exists i, o.
    - simpl in H. destruct (nstack s t) as [|[| | | | |i []] k] eqn:Hst; try done.
      destruct (_ && _); [|done]. injection H as <-. by sh t (NIn i (FConv ty w q) : nframe V Q) [NIn i (FStore (ORef ty w q) v) : nframe V Q] k.
    - simpl in H. unfold nstep_panic in H. destruct (nstack s t) as [|f k] eqn:Hst; [done|].
      destruct (existsb unwinds (f :: k)); [done|]. destruct f as [| | | | |i g]; try done.
      destruct g; try done; injection H as <-;
        match type of Hst with _ = ?f :: _ =>
          apply (ShStep _ _ _ t f [match f with NIn i (FGet o b) | NIn i (FDup o b _) => NIn i (FDup o b RPanic)
            | _ => NIn i (FDone (call_of f) RPanic) end] k); try done;
            [right; eexists; split_and!; [done|done|]|by left|by left|by vsame];
            intros _; right; left; by exists t, f, k
        end.
    - simpl in H. destruct (returned p (n_log s)); [|done]. destruct (iread (nmem s) p) as [v|]; [|done].
      injection H as <-. by eapply ShRead.
  Qed.

  Lemma stack_ins s s' t k u : n_threads s' = <[t:=k]> (n_threads s) ->
    nstack s' u = if decide (t = u) then k else nstack s u.
  Proof.
    intros H. unfold nstack. rewrite H. destruct (decide (t = u)) as [->|].
    - by rewrite lookup_insert.
    - by rewrite lookup_insert_ne.
  Qed.
  (** Where a frame comes from. *)
  Lemma shape_frame s l s' u f' : shape s l s' -> f' ∈ nstack s' u ->
    f' ∈ nstack s u \/ (exists o b a, l = ICall u o a /\ f' = NScan o b false) \/
    (lab_thread l = Some u /\ exists f k, nstack s u = f :: k /\ call_of f' = call_of f /\
      (pan f' = true -> pan f = true \/ user_panic E s l (type_of f) \/
          exists o b i, f = NLock o b i /\ (slot (op_ty o), i) ∈ n_poison s)).
  Proof.
    intros [p v -> ->|t o b a -> Ht Hu _ _ _ _|t f fs' k Hl _ Hst Ht Hf _ _ _].
    - by left.
    - rewrite (stack_ins s s' t _ u Ht). destruct (decide (t = u)) as [<-|]; [|by left].
      intros [->|?]%elem_of_cons; [right; left; by exists o, b, a|by left].
    - rewrite (stack_ins s s' t _ u Ht). destruct (decide (t = u)) as [<-|]; [|by left].
      intros [Hin|Hin]%elem_of_app; [|left; rewrite Hst; by right]. right. right. split; [done|].
      exists f, k. destruct Hf as [->|(f''&->&Hc&Hp)]; [by apply elem_of_nil in Hin|].
      apply elem_of_list_singleton in Hin as ->. done.
  Qed.

  (** ** Runs *)
  Lemma nreach_inv ls s : run (nstep E) ninit ls = Some s -> NInv s.
  Proof. apply nrun_inv, ninv_init. Qed.
  Lemma nrun_ind (P : nstate V Q -> nstate V Q -> Prop) :
    (forall s, P s s) ->
    (forall s l s1 s2, NInv s -> nstep E s l = Next s1 -> NInv s1 -> P s1 s2 -> P s s2) ->
    forall ls s s', NInv s -> run (nstep E) s ls = Some s' -> P s s'.
  Proof.
    intros Hr Hs. induction ls as [|lb ls IH]; intros s s' HI; simpl; [intros [= ->]; apply Hr|].
    unfold exec. destruct (nstep E s lb) as [s1| | |] eqn:Hst; try done; [|by apply IH..].
    intros Hrun. assert (NInv s1) as HI1 by (by eapply nstep_inv). eapply Hs; try done. by apply IH.
  Qed.

  (** ** C38: one set per type *)
  Lemma step_first s l s' ty i : nstep E s l = Next s' -> first s ty = Some i -> first s' ty = Some i.
  Proof.
    intros [p v -> ->|t o b a _ _ _ _ _ Hv _|t f fs' k _ _ _ _ _ _ _ Hv]%nstep_shape Hf; [done| |].
    - unfold NewSim.first, nvec in *. by rewrite Hv.
    - destruct Hv as [Hv _ _ _|o b _ _ Hv _|o b j _ _ _ Hv _]; unfold NewSim.first, nvec in *; rewrite Hv; [done|done|].
      destruct (decide (slot (op_ty o) = slot ty)) as [Heq|Hne].
      + rewrite Heq, lookup_insert. simpl. by apply find_ty_app.
      + by rewrite lookup_insert_ne.
  Qed.
  Lemma run_first ls s s' ty i : NInv s -> run (nstep E) s ls = Some s' -> first s ty = Some i -> first s' ty = Some i.
  Proof.
    intros HI Hr. revert HI Hr. apply (nrun_ind (λ s s', first s ty = Some i -> first s' ty = Some i)); [done|].
    intros s1 l s2 s3 _ Hs _ IH Hf. apply IH. by eapply step_first.
  Qed.
  Lemma call_frame_ty i g : type_of (NIn i g) = frame_ty E g.
  Proof. by destruct g. Qed.
  Lemma use_first s t f i : NInv s -> f ∈ nstack s t -> uses f i -> first s (type_of f) = Some i.
  Proof.
    intros (st&_&_&HR) Hin Hu. pose proof (r_frames _ _ _ HR _ _ Hin) as H.
    destruct f as [| | |o b j| |j g]; simpl in *; try done; subst j; [done|]. rewrite call_frame_ty. by destruct H.
  Qed.
  Lemma same_set ls1 ls2 s1 s2 t1 f1 i1 t2 f2 i2 :
    run (nstep E) ninit ls1 = Some s1 -> run (nstep E) s1 ls2 = Some s2 ->
    f1 ∈ nstack s1 t1 -> uses f1 i1 -> f2 ∈ nstack s2 t2 -> uses f2 i2 ->
    (type_of f1 = type_of f2 <-> (slot (type_of f1), i1) = (slot (type_of f2), i2)).
  Proof.
    intros Hr1 Hr2 Hf1 Hu1 Hf2 Hu2. pose proof (nreach_inv _ _ Hr1) as HI1.
    pose proof (nrun_inv E _ _ _ HI1 Hr2) as HI2.
    pose proof (run_first _ _ _ _ _ HI1 Hr2 (use_first _ _ _ _ HI1 Hf1 Hu1)) as H1.
    pose proof (use_first _ _ _ _ HI2 Hf2 Hu2) as H2. split.
    - intros Heq. rewrite Heq in *. congruence.
    - by apply (first_inj E s2).
  Qed.
  Lemma find_ty_before ty l i : find_ty ty l = Some i -> forall j, j < i -> l !! j <> Some ty.
  Proof.
    revert i. induction l as [|u l IH]; intros i; simpl; [done|].
    destruct (Nat.eqb_spec u ty) as [->|]; [intros [= <-]; lia|].
    destruct (find_ty ty l) as [i'|]; simpl; [|done]. intros [= <-] [|j] Hj; simpl; [congruence|]. apply (IH i'); [done|lia].
  Qed.
  Lemma set_is_first ls s t f i : run (nstep E) ninit ls = Some s -> f ∈ nstack s t -> uses f i ->
    nvec s (slot (type_of f)) !! i = Some (type_of f) /\
    forall j, j < i -> nvec s (slot (type_of f)) !! j <> Some (type_of f).
  Proof.
    intros Hr%nreach_inv Hf Hu. pose proof (use_first _ _ _ _ Hr Hf Hu) as H. split.
    - by apply find_ty_lookup.
    - by apply find_ty_before.
  Qed.
  Lemma never_stuck ls : exists s, run (nstep E) ninit ls = Some s.
  Proof.
    destruct (run (nstep E) ninit ls) as [s|] eqn:Hr; [by exists s|]. by apply nrun_safe in Hr; [|apply ninv_init].
  Qed.

  (** ** C38: uniqueness *)
  Definition NNC s : Prop :=
    (forall ty, EvClr ty ∉ n_log s) /\ (forall t f ty, f ∈ nstack s t -> call_of f <> OClear ty).
  Lemma nnc_step s l s' : NNC s -> (forall t ty a, l <> ICall t (OClear ty) a) -> nstep E s l = Next s' -> NNC s'.
  Proof.
    intros [Hlog Hfr] Hlb Hs%nstep_shape. split.
    - intros ty. destruct Hs as [p v -> ->|t o b a _ _ _ Hl _ _ _|t f fs' k _ _ Hst _ _ Hl _ _]; simpl.
      + rewrite not_elem_of_cons. done.
      + by rewrite Hl.
      + destruct Hl as [->|(e&->&He)]; [done|]. rewrite not_elem_of_cons. split; [|done].
        intros <-. destruct He as [He _]. apply (Hfr t f ty); [|done]. rewrite Hst. by left.
    - intros u f ty Hf. destruct (shape_frame _ _ _ _ _ Hs Hf) as [?|[(o&b&a&->&->)|(_&f0&k&Hst&Hc&_)]].
      + by apply (Hfr u).
      + simpl. intros ->. by eapply Hlb.
      + rewrite Hc. apply (Hfr u). rewrite Hst. by left.
  Qed.
  Lemma nreach_nc ls s : no_clear ls -> run (nstep E) ninit ls = Some s -> NNC s.
  Proof.
    assert (NNC ninit) as H0.
    { split; simpl; [intros ty H; by apply elem_of_nil in H|].
      intros t f ty H. unfold nstack in H. simpl in H. rewrite lookup_empty in H. by apply elem_of_nil in H. }
    revert H0. generalize (ninit : nstate V Q). induction ls as [|lb ls IH]; intros s0 HN Hls; simpl; [by intros [= ->]|].
    assert (no_clear ls) as Hls'. { intros t ty a Hin. apply (Hls t ty a). by right. }
    unfold exec. destruct (nstep E s0 lb) as [s1| | |] eqn:Hs; try done; [|by apply IH..].
    apply IH; [|done]. eapply (nnc_step s0 lb); try done. intros t ty a ->. apply (Hls t ty a). by left.
  Qed.
  Lemma n_unique_ty ls s t1 o1 p1 t2 o2 p2 v1 v2 :
    ilawful E -> icoherent E -> zst_eq_at E (op_ty o1) -> no_clear ls -> run (nstep E) ninit ls = Some s ->
    EvRet t1 o1 (RPtr p1) ∈ n_log s -> EvRet t2 o2 (RPtr p2) ∈ n_log s -> op_ty o1 = op_ty o2 ->
    iread (nmem s) p1 = Some v1 -> iread (nmem s) p2 = Some v2 ->
    iptr_eqb p1 p2 = ie_eq E v1 v2.
  Proof.
    intros HL HC HZ Hnc Hr. destruct (nreach_inv _ _ Hr) as (st&HI&HW&HR). destruct (nreach_nc _ _ Hnc Hr) as [Hcl _].
    pose proof (r_base _ _ _ HR) as HR0. rewrite <- (r_log _ _ _ HR0) in *. rewrite !(mem_read E s st _ HR0).
    apply (handles_eq_st E1 st); [by apply lawful1|done|done|done|by apply HW|done].
  Qed.
  Lemma n_unique ls s t1 o1 p1 t2 o2 p2 v1 v2 :
    ilawful E -> icoherent E -> zst_eq E -> no_clear ls -> run (nstep E) ninit ls = Some s ->
    EvRet t1 o1 (RPtr p1) ∈ n_log s -> EvRet t2 o2 (RPtr p2) ∈ n_log s -> op_ty o1 = op_ty o2 ->
    iread (nmem s) p1 = Some v1 -> iread (nmem s) p2 = Some v2 ->
    iptr_eqb p1 p2 = ie_eq E v1 v2.
  Proof. intros HL HC HZ%(zst_eq_all E (op_ty o1)). by apply n_unique_ty. Qed.
  Lemma n_result ls s t o p :
    ilawful E -> icoherent E -> run (nstep E) ninit ls = Some s -> EvRet t o (RPtr p) ∈ n_log s ->
    exists d, iread (nmem s) p = Some d /\ asks E o d.
  Proof.
    intros HL HC Hr. destruct (nreach_inv _ _ Hr) as (st&HI&HW&HR).
    pose proof (r_base _ _ _ HR) as HR0. rewrite <- (r_log _ _ _ HR0) in *. rewrite !(mem_read E s st _ HR0).
    apply (value_eq_st E1 st); [by apply lawful1|done|done|by apply HW].
  Qed.
  Lemma n_one_insertion ls s t o p d :
    ilawful E -> icoherent E -> no_clear ls -> run (nstep E) ninit ls = Some s ->
    EvRet t o (RPtr p) ∈ n_log s -> iread (nmem s) p = Some d ->
    exists t0 o0 l1 l2, n_log s = l1 ++ EvIns t0 o0 p d :: l2 /\ op_ty o0 = op_ty o /\ supplies E o0 d /\
      forall t' o' p' d', EvIns t' o' p' d' ∈ l1 ++ l2 -> op_ty o' = op_ty o -> ie_eq E d' d = false.
  Proof.
    intros HL HC Hnc Hr. destruct (nreach_inv _ _ Hr) as (st&HI&HW&HR). destruct (nreach_nc _ _ Hnc Hr) as [Hcl _].
    pose proof (r_base _ _ _ HR) as HR0. rewrite <- (r_log _ _ _ HR0) in *. rewrite !(mem_read E s st _ HR0).
    apply (one_insertion_st E1 st); [by apply lawful1|done|done|by apply HW|done].
  Qed.
  Lemma n_len ls s l1 l2 t ty n :
    ilawful E -> run (nstep E) ninit ls = Some s -> no_clear ls ->
    n_log s = l1 ++ EvRet t (OLen ty) (RNum n) :: l2 ->
    exists vs, length vs = n /\ ForallOrdPairs (λ a b, ie_eq E b a = false) vs /\
      (forall d, d ∈ vs <-> exists t' o' p, EvIns t' o' p d ∈ l2 /\ ie_ty E d = ty).
  Proof.
    intros HL Hr Hnc Hl. destruct (nreach_inv _ _ Hr) as (st&HI&HW&HR). destruct (nreach_nc _ _ Hnc Hr) as [Hcl _].
    pose proof (r_base _ _ _ HR) as HR0. rewrite <- (r_log _ _ _ HR0) in *.
    destruct (len_exact_st E1 st l1 l2 t ty n (lawful1 E HL) HI (HW HL) Hcl Hl) as (vs&?&?&?&_). by exists vs.
  Qed.

  (** ** Handles stay valid *)
  Lemma step_log_n s l s' : nstep E s l = Next s' -> exists l', n_log s' = l' ++ n_log s.
  Proof.
    intros [p v -> ->|t o b a _ _ _ Hl _ _ _|t f fs' k _ _ Hst _ _ Hl _ _]%nstep_shape.
    - by eexists [_].
    - by exists [].
    - destruct Hl as [->|(e&->&He)]; [by exists []|by exists [e]].
  Qed.
  Lemma run_log_n ls s s' : NInv s -> run (nstep E) s ls = Some s' -> exists l', n_log s' = l' ++ n_log s.
  Proof.
    apply (nrun_ind (λ s s', exists l, n_log s' = l ++ n_log s)); [by exists []|].
    intros s1 lb s2 s3 HI Hs _ [l2 Hl2]. destruct (step_log_n _ _ _ Hs) as [l1 Hl1].
    exists (l2 ++ l1). by rewrite Hl2, Hl1, app_assoc.
  Qed.
  Lemma sim_points st st' ty p v : IInv E1 st -> sim_step E st st' -> points E1 st ty p v true -> points E1 st' ty p v true.
  Proof.
    intros HI [|t fs fs' k st1 Hst Hm|p' v' Hr Hv|t st'' Hg] Hp; [done| |done|].
    - destruct (move_ok E1 st t fs fs' k st1 HI Hst Hm) as [[] _]. by eapply (upd_points E1 st _ t fs fs' k).
    - destruct (give_up_trans E _ _ _ HI Hg) as (o&b&k&[]&_). by eapply (upd_points E1 st _ t [FWait o b] [] k).
  Qed.
  (** The object a returned handle points to; kept in a form that survives steps. *)
  Definition npoints s ty p v : Prop :=
    n_objs s !! ip_ser p = Some (IObj (ip_addr p) v true) /\ ip_meta p = ie_meta E v /\ ie_ty E v = ty.
  Lemma step_npoints s l s' ty p v : NInv s -> nstep E s l = Next s' -> npoints s ty p v -> npoints s' ty p v.
  Proof.
    intros (st&HI&_&HR) Hs Hp. destruct (nstep_sim E _ _ _ _ HI HR Hs) as (st'&Hsim&HR').
    unfold npoints in *. rewrite <- (r_objs _ _ _ (r_base _ _ _ HR)) in Hp.
    rewrite <- (r_objs _ _ _ (r_base _ _ _ HR')). by eapply sim_points.
  Qed.
  Lemma n_handle_valid ls1 ls2 s1 s2 t o p :
    run (nstep E) ninit ls1 = Some s1 -> EvRet t o (RPtr p) ∈ n_log s1 -> run (nstep E) s1 ls2 = Some s2 ->
    exists v, ie_ty E v = op_ty o /\ ip_meta p = ie_meta E v /\
      n_objs s1 !! ip_ser p = Some (IObj (ip_addr p) v true) /\
      n_objs s2 !! ip_ser p = Some (IObj (ip_addr p) v true) /\
      nstep E s2 (IDeref p) = Next (nevent s2 (EvRead p v)).
  Proof.
    intros Hr1 Hin Hr2. pose proof (nreach_inv _ _ Hr1) as HN1. pose proof HN1 as (st&HI&_&HR).
    pose proof (r_base _ _ _ HR) as HR0.
    assert (exists v, npoints s1 (op_ty o) p v) as (v&Hp).
    { pose proof Hin as Hin'. rewrite <- (r_log _ _ _ HR0) in Hin'. destruct (v_log _ _ HI _ Hin') as [v Hp]. exists v.
      unfold npoints. rewrite <- (r_objs _ _ _ HR0). exact Hp. }
    assert (npoints s2 (op_ty o) p v) as Hp2.
    { revert Hp. revert HN1 Hr2. apply (nrun_ind (λ s s', npoints s (op_ty o) p v -> npoints s' (op_ty o) p v)); [done|].
      intros. by eauto using step_npoints. }
    exists v. split_and!; [apply Hp|apply Hp|apply Hp|apply Hp2|].
    simpl. destruct (run_log_n _ _ _ HN1 Hr2) as [l Hl].
    assert (returned p (n_log s2) = true) as ->.
    { apply returned_in. exists t, o. rewrite Hl. apply elem_of_app. by right. }
    unfold iread. simpl. destruct Hp2 as (->&_). done.
  Qed.

  (** ** C39 *)
  (** Once poisoned, nobody is inside. *)
  Lemma poisoned_empty s t ty i f : NInv s -> first s ty = Some i -> (slot ty, i) ∈ n_poison s ->
    f ∈ nstack s t -> inside f -> type_of f <> ty.
  Proof.
    intros (st&HI&_&HR) Hf Hp Hin Hins Hty. destruct f as [| | | | |j g]; try done.
    pose proof (r_base _ _ _ HR) as HR0. rewrite call_frame_ty in Hty. subst ty.
    destruct (r_frames _ _ _ HR _ _ Hin) as [_ Hw].
    pose proof (r_poison _ _ _ HR0 _ Hp) as Hl.
    pose proof (r_locks _ _ _ HR0 (frame_ty E g)) as Hl'. rewrite Hf, Hl in Hl'.
    assert (g ∈ get_stack st t) as Hin'.
    { rewrite (R_stack E s st t HR). apply elem_of_list_fmap. by exists (NIn j g). }
    pose proof (msum_stack_ge (held E1 (InternModel.slot E1 (frame_ty E g))) st t) as H1.
    pose proof (lsum_ge (held E1 (InternModel.slot E1 (frame_ty E g))) _ _ Hin') as H2.
    rewrite (v_locks _ _ HI) in H1. unfold lk in H1. rewrite Hl' in H1.
    assert (held E1 (InternModel.slot E1 (frame_ty E g)) g = 1) as H3.
    { unfold held. change (frame_ty E1 g) with (frame_ty E g). rewrite Nat.eqb_refl. by destruct g. }
    lia.
  Qed.
  Lemma step_poison s l s' : nstep E s l = Next s' -> n_poison s ⊆ n_poison s'.
  Proof.
    intros [p v -> ->|t o b a _ _ _ _ Hp _ _|t f fs' k _ _ Hst _ _ _ Hp _]%nstep_shape; [done|by rewrite Hp|].
    destruct Hp as [->|(i&o&_&->)]; set_solver.
  Qed.
  Definition quiet_for ty (e : ievent V Q) : Prop :=
    match e with
    | EvIns _ o _ _ => op_ty o <> ty
    | EvClr u => u <> ty
    | EvRet _ o r => op_ty o = ty -> r = RPanic
    | EvRead _ _ => True
    end.
  Lemma poisoned_run ls s s' ty i : NInv s -> run (nstep E) s ls = Some s' ->
    first s ty = Some i -> (slot ty, i) ∈ n_poison s ->
    exists l, n_log s' = l ++ n_log s /\ forall e, e ∈ l -> quiet_for ty e.
  Proof.
    intros HI Hr. revert HI Hr. apply (nrun_ind (λ s s', first s ty = Some i -> (slot ty, i) ∈ n_poison s ->
      exists l, n_log s' = l ++ n_log s /\ forall e, e ∈ l -> quiet_for ty e)).
    - intros s0 _ _. exists []. split; [done|]. intros e H. by apply elem_of_nil in H.
    - intros s0 lb s1 s2 HI Hs HI1 IH Hf Hp. destruct IH as (l2&Hl2&Hq); [by eapply step_first|by eapply step_poison|].
      assert (exists l1, n_log s1 = l1 ++ n_log s0 /\ forall e, e ∈ l1 -> quiet_for ty e) as (l1&Hl1&Hq1).
      { destruct (nstep_shape _ _ _ Hs) as [p v -> ->|t o b a _ _ _ Hl _ _ _|t f fs' k _ _ Hst _ _ Hl _ _].
        - exists [EvRead p v]. split; [done|]. by intros e ->%elem_of_list_singleton.
        - exists []. split; [done|]. intros e H. by apply elem_of_nil in H.
        - destruct Hl as [->|(e&->&He)].
          + exists []. split; [done|]. intros e H. by apply elem_of_nil in H.
          + exists [e]. split; [done|]. intros e' ->%elem_of_list_singleton.
            assert (f ∈ nstack s0 t) as Hin by (rewrite Hst; by left).
            pose proof (poisoned_empty s0 t ty i f HI Hf Hp Hin) as Hno.
            destruct e as [t' o p v|u|t' o r|p v]; simpl in *; [| | |done].
            * destruct He as [-> Hins]. by apply Hno.
            * destruct He as (_&b&j&->&Hnp&_). intros ->.
              pose proof (use_first _ _ _ j HI Hin eq_refl) as Hj. unfold NewSpec.type_of in Hj. simpl in Hj.
              by assert (j = i) as -> by congruence.
            * destruct He as (->&_&_&[Hins| ->]); [|done]. intros Ht. by destruct (Hno Hins). }
      exists (l2 ++ l1). split; [by rewrite Hl2, Hl1, app_assoc|].
      intros e [?|?]%elem_of_app; [by apply Hq|by apply Hq1].
  Qed.
  Lemma panic_poisons s t o : NInv s -> EvRet t o RPanic ∈ n_log s ->
    exists i, first s (op_ty o) = Some i /\ (slot (op_ty o), i) ∈ n_poison s /\ n_locks s !! (slot (op_ty o), i) = None.
  Proof.
    intros (st&_&_&HR) Hin. pose proof (r_base _ _ _ HR) as HR0. destruct (r_panics _ _ _ HR0 _ _ Hin) as (i&Hf&Hp).
    exists i. split_and!; [done|done|]. by apply (r_poison _ _ _ HR0).
  Qed.
  Lemma panic_forever ls1 ls2 s1 s2 t o :
    run (nstep E) ninit ls1 = Some s1 -> EvRet t o RPanic ∈ n_log s1 -> run (nstep E) s1 ls2 = Some s2 ->
    exists l, n_log s2 = l ++ n_log s1 /\
      (forall t' o' r, EvRet t' o' r ∈ l -> op_ty o' = op_ty o -> r = RPanic) /\
      (forall t' o' p v, EvIns t' o' p v ∈ l -> op_ty o' <> op_ty o) /\
      EvClr (op_ty o) ∉ l /\
      (forall t' f, f ∈ nstack s2 t' -> inside f -> type_of f <> op_ty o).
  Proof.
    intros Hr1 Hin Hr2. pose proof (nreach_inv _ _ Hr1) as HI.
    destruct (panic_poisons _ _ _ HI Hin) as (i&Hf&Hp&_).
    destruct (poisoned_run _ _ _ _ _ HI Hr2 Hf Hp) as (l&Hl&Hq). exists l. split_and!; [done| | | |].
    - intros t' o' r H. apply (Hq _ H).
    - intros t' o' p v H. apply (Hq _ H).
    - intros H. by apply (Hq _ H).
    - pose proof (nrun_inv E _ _ _ HI Hr2) as HI2. intros t' f Hin' Hins.
      apply (poisoned_empty s2 t' _ i f); [done|by apply (run_first ls2 s1 s2)| |done|done]. clear HI2 Hin' Hq Hl.
      revert Hp. revert HI Hr2. apply (nrun_ind (λ s s', (slot (op_ty o), i) ∈ n_poison s -> (slot (op_ty o), i) ∈ n_poison s')); [done|].
      intros x lb y z _ Hs _ IH Hx. apply IH. by eapply step_poison.
  Qed.
  (** A new call panics, in four steps. *)
  Lemma scan_panics s t o b k i : nstack s t = NScan o b false :: k ->
    find_ty (op_ty o) (nvec s (slot (op_ty o))) = Some i -> n_locks s !! (slot (op_ty o), i) = None ->
    (slot (op_ty o), i) ∈ n_poison s -> existsb unwinds k = false ->
    match b with Some p => exists x, n_objs s !! ip_ser p = Some x /\ io_leaked x = false | None => True end ->
    exists s', run (nstep E) s [IStep t 0 0; IStep t 0 0; IStep t 0 0] = Some s' /\
      nstack s' t = k /\ n_log s' = EvRet t o RPanic :: n_log s.
  Proof.
    intros Hst Hf Hlk Hp Hw Hb.
    pose (s1 := nset_stack s t (NLock o b i :: k)). pose (s2 := nset_stack s1 t (NPanic o b :: k)).
    assert (nstep E s (IStep t 0 0) = Next s1) as H1. { simpl. unfold nstep_thread. by rewrite Hst, Hf. }
    assert (nstep E s1 (IStep t 0 0) = Next s2) as H2.
    { simpl. unfold nstep_thread, nstack, s1. simpl. rewrite lookup_insert. simpl. rewrite Hlk, Hw.
      by rewrite bool_decide_eq_true_2. }
    assert (exists s', nstep E s2 (IStep t 0 0) = Next s' /\ nstack s' t = k /\ n_log s' = EvRet t o RPanic :: n_log s) as (s'&H3&H').
    { simpl. unfold nstep_thread, nstack, s2. simpl. rewrite lookup_insert. simpl. destruct b as [p|].
      - destruct Hb as (x&Hx&Hl). unfold ifree. simpl. rewrite Hx, Hl. eexists. split_and!; [done| |done].
        simpl. by rewrite lookup_insert.
      - eexists. split_and!; [done| |done]. simpl. by rewrite lookup_insert. }
    exists s'. split; [|done]. unfold run, exec. by rewrite H1, H2, H3.
  Qed.
  Lemma call_panics ls s t o t' o' :
    run (nstep E) ninit ls = Some s -> EvRet t o RPanic ∈ n_log s -> op_ty o' = op_ty o ->
    (forall ty w q, o' <> OIs ty w q) ->
    match nstack s t' with f :: _ => nin_user f = true | [] => True end -> existsb unwinds (nstack s t') = false ->
    exists a s', run (nstep E) s [ICall t' o' a; IStep t' 0 0; IStep t' 0 0; IStep t' 0 0] = Some s' /\
      nstack s' t' = nstack s t' /\ n_log s' = EvRet t' o' RPanic :: n_log s.
  Proof.
    intros Hr Hin Hty Hno Hu Hw. pose proof (nreach_inv _ _ Hr) as HI.
    destruct (panic_poisons _ _ _ HI Hin) as (i&Hf&Hp&Hlk). rewrite <- Hty in *. unfold NewSim.first in Hf.
    assert (match nstack s t' with f :: _ => nin_user f | [] => true end = true) as Hu' by (by destruct (nstack s t')).
    assert (exists a b s1, nstep E s (ICall t' o' a) = Next s1 /\ nstack s1 t' = NScan o' b false :: nstack s t' /\
      n_vecs s1 = n_vecs s /\ n_locks s1 = n_locks s /\ n_poison s1 = n_poison s /\ n_log s1 = n_log s /\
      match b with Some p => exists x, n_objs s1 !! ip_ser p = Some x /\ io_leaked x = false | None => True end)
      as (a&b&s1&Hs&Hst&Hv&Hlk1&Hp1&Hl1&Hb).
    { destruct o' as [v|v|v|ty w q|ty w q|ty|ty].
      3:{ destruct (ialloc_some E (nmem s) v false) as (a&m&p&Ha). exists a, (Some p). simpl. rewrite Hu', Ha.
          eexists. split; [done|]. split_and!; try done; [unfold nstack at 1; simpl; by rewrite lookup_insert|].
          unfold ialloc in Ha. destruct (_ || _); [|done]. injection Ha as <- <-. simpl. eexists. by rewrite lookup_insert. }
      4:{ by destruct (Hno ty w q). }
      all: exists 0, None; simpl; rewrite Hu'; eexists; (split; [done|]); split_and!; try done;
        unfold nstack at 1; simpl; by rewrite lookup_insert. }
    destruct (scan_panics s1 t' o' b (nstack s t') i) as (s'&Hr'&Hst'&Hl'); try done.
    - unfold nvec. by rewrite Hv.
    - by rewrite Hlk1.
    - by rewrite Hp1.
    - exists a, s'. split_and!; [|done|by rewrite Hl', Hl1]. cbn [run]. unfold exec at 1. rewrite Hs. exact Hr'.
  Qed.

  (** Only one frame is inside a set. *)
  Lemma inside_sim s st t f : R E s st -> f ∈ nstack s t -> inside f ->
    erase f ∈ get_stack st t /\ held E1 (InternModel.slot E1 (type_of f)) (erase f) = 1.
  Proof.
    intros HR Hin Hins. destruct f as [| | | | |j g]; try done. split.
    - rewrite (R_stack E s st t HR). apply elem_of_list_fmap. by exists (NIn j g).
    - destruct (r_frames _ _ _ HR _ _ Hin) as [_ Hw]. rewrite call_frame_ty. unfold held.
      change (frame_ty E1 g) with (frame_ty E g). simpl. rewrite Nat.eqb_refl. by destruct g.
  Qed.
  Lemma inside_excl s t f k u f' : NInv s -> nstack s t = f :: k -> inside f -> f' ∈ nstack s u -> inside f' ->
    type_of f = type_of f' -> u = t /\ f' = f.
  Proof.
    intros (st&HI&_&HR) Hst Hins Hin' Hins' Hty.
    assert (f ∈ nstack s t) as Hin by (rewrite Hst; by left).
    destruct (inside_sim _ _ _ _ HR Hin Hins) as [H1 H2]. destruct (inside_sim _ _ _ _ HR Hin' Hins') as [H1' H2'].
    rewrite <- Hty in H2'. set (w := held E1 (InternModel.slot E1 (type_of f))) in *.
    assert (msum (lsum w) (i_threads st) <= 1) as Hle. { unfold w. rewrite (v_locks _ _ HI). unfold lk. destruct (_ !! _); lia. }
    destruct (decide (u = t)) as [->|Hne].
    - split; [done|]. rewrite Hst in Hin'. apply elem_of_cons in Hin' as [->|Hk]; [done|]. exfalso.
      pose proof (msum_stack_ge w st t) as Hge. rewrite (R_stack E s st t HR), Hst in Hge. csimpl in Hge.
      assert (erase f' ∈ erase <$> k) as Hk' by (apply elem_of_list_fmap; by exists f').
      pose proof (lsum_ge w _ _ Hk'). lia.
    - exfalso. pose proof (msum_stack_ge2 w st u t) as Hge.
      pose proof (lsum_ge w _ _ H1). pose proof (lsum_ge w _ _ H1'). specialize (Hge Hne). lia.
  Qed.
  Lemma inside_locked0 s st t f i : IInv E1 st -> R E s st -> f ∈ nstack s t -> inside f -> first s (type_of f) = Some i ->
    n_locks s !! (slot (type_of f), i) <> None.
  Proof.
    intros HI HR Hin Hins Hf Hlk. destruct (inside_sim _ _ _ _ HR Hin Hins) as [H1 H2].
    pose proof (msum_stack_ge (held E1 (InternModel.slot E1 (type_of f))) st t) as H3.
    pose proof (lsum_ge (held E1 (InternModel.slot E1 (type_of f))) _ _ H1) as H4.
    rewrite (v_locks _ _ HI) in H3. unfold lk in H3. rewrite (r_locks _ _ _ (r_base _ _ _ HR)), Hf, Hlk in H3. lia.
  Qed.
  Lemma inside_locked s t f i : NInv s -> f ∈ nstack s t -> inside f -> first s (type_of f) = Some i ->
    n_locks s !! (slot (type_of f), i) <> None.
  Proof. intros (st&HI&_&HR). by apply (inside_locked0 s st). Qed.
  Local Instance inside_dec f : Decision (inside f).
  Proof. destruct f; simpl; apply _. Defined.
  (** A panicking frame ends in poison. *)
  Lemma pan_step s l s' t f k : nstep E s l = Next s' -> lab_thread l = Some t -> (forall o a, l <> ICall t o a) ->
    nstack s t = f :: k -> inside f -> pan f = true ->
    (exists f', n_threads s' = <[t:=f' :: k]> (n_threads s) /\ inside f' /\ pan f' = true /\ call_of f' = call_of f /\
      n_log s' = n_log s) \/
    (n_log s' = EvRet t (call_of f) RPanic :: n_log s /\ exists i, uses f i /\ (slot (type_of f), i) ∈ n_poison s').
  Proof.
    intros H Hl Hno Hst Hins Hpan. destruct f as [| | | | |i g]; try done.
    destruct l as [t' o a|t' a j|t' v|t'|p]; simpl in Hl; try done; injection Hl as ->.
    - by destruct (Hno o a).
    - simpl in H. unfold nstep_thread in H. rewrite Hst in H. destruct g as [| | | | |o b r|o r]; try done.
      + destruct r; try done. left. destruct b as [p|].
        * destruct (ifree (nmem s) p) as [m|]; [|done]. injection H as <-. by exists (NIn i (FDone o RPanic)).
        * injection H as <-. by exists (NIn i (FDone o RPanic)).
      + destruct r; try done. right. injection H as <-. split; [done|]. exists i. split; [done|]. simpl. set_solver.
    - simpl in H. rewrite Hst in H. by destruct g.
    - simpl in H. unfold nstep_panic in H. rewrite Hst in H. destruct g as [| | | | |o b r|o r]; try done; destruct r; try done; by destruct (existsb _ _).
  Qed.
  Definition doomed ty s : Prop :=
    (exists t f, f ∈ nstack s t /\ inside f /\ pan f = true /\ type_of f = ty) \/
    (exists i, first s ty = Some i /\ (slot ty, i) ∈ n_poison s).
  Lemma doomed_step ty s l s' : NInv s -> nstep E s l = Next s' -> doomed ty s ->
    doomed ty s' /\ exists l', n_log s' = l' ++ n_log s /\ forall e, e ∈ l' -> quiet_for ty e.
  Proof.
    intros HI Hs [(t&f&Hin&Hins&Hpan&Hty)|(i&Hf&Hp)].
    2:{ split; [right; exists i; split; [by eapply step_first|by eapply step_poison]|].
        apply (poisoned_run [l] s s' ty i); [done| |done|done]. cbn. unfold exec. by rewrite Hs. }
    pose proof (nstep_shape _ _ _ Hs) as [p v -> ->|u o b a -> Ht Hu Hl _ _ _|u f0 fs' k Hlab Hnc Hst Ht _ Hl _ _].
    - split; [by left; exists t, f|]. exists [EvRead p v]. split; [done|]. by intros e ->%elem_of_list_singleton.
    - split.
      + left. exists t, f. split; [|done]. rewrite (stack_ins s s' u _ t Ht). destruct (decide (u = t)) as [->|]; [by right|done].
      + exists []. split; [done|]. intros e H. by apply elem_of_nil in H.
    - destruct (decide (inside f0 /\ type_of f0 = ty)) as [[Hi0 Hty0]|Hnot].
      + destruct (inside_excl s u f0 k t f HI Hst Hi0 Hin Hins) as [-> ->]; [congruence|].
        destruct (pan_step s l s' u f0 k Hs Hlab Hnc Hst Hins Hpan) as [(f'&Ht'&Hi'&Hp'&Hc&Hl')|(Hl'&i&Hui&Hp)].
        * split.
          -- left. exists u, f'. rewrite (stack_ins s s' u _ u Ht'), decide_True by done. split_and!; [by left|done|done|].
             unfold NewSpec.type_of. by rewrite Hc.
          -- exists []. split; [done|]. intros e H. by apply elem_of_nil in H.
        * split.
          -- right. exists i. rewrite <- Hty0. split; [|done]. eapply step_first; [done|]. by eapply use_first.
          -- exists [EvRet u (call_of f0) RPanic]. split; [done|]. by intros e ->%elem_of_list_singleton.
      + split.
        * left. exists t, f. split; [|done]. rewrite (stack_ins s s' u _ t Ht). destruct (decide (u = t)) as [->|]; [|done].
          apply elem_of_app. right. rewrite Hst in Hin. apply elem_of_cons in Hin as [->|]; [|done]. by destruct Hnot.
        * destruct Hl as [->|(e&->&He)].
          -- exists []. split; [done|]. intros e H. by apply elem_of_nil in H.
          -- exists [e]. split; [done|]. intros e' ->%elem_of_list_singleton.
             destruct e as [t' o p v|w|t' o r|p v]; simpl in *; [| | |done].
             ++ destruct He as [-> Hi0]. intros ?. by destruct Hnot.
             ++ (* the mutex is free when somebody clears *)
                destruct He as (_&b&j&->&_&Hlk). intros ->.
                assert (NLock (OClear ty) b j ∈ nstack s u) as Hin0 by (rewrite Hst; by left).
                pose proof (use_first _ _ _ j HI Hin0 eq_refl) as Hj. unfold NewSpec.type_of in Hj. simpl in Hj.
                apply (inside_locked s t f j HI Hin Hins); by rewrite Hty.
             ++ destruct He as (->&_&_&[Hi0| ->]); [|done]. intros ?. by destruct Hnot.
  Qed.
  Lemma doomed_run ty ls s s' : NInv s -> run (nstep E) s ls = Some s' -> doomed ty s ->
    doomed ty s' /\ exists l', n_log s' = l' ++ n_log s /\ forall e, e ∈ l' -> quiet_for ty e.
  Proof.
    intros HI Hr. revert HI Hr. apply (nrun_ind (λ s s', doomed ty s ->
      doomed ty s' /\ exists l', n_log s' = l' ++ n_log s /\ forall e, e ∈ l' -> quiet_for ty e)).
    - intros s0 Hd. split; [done|]. exists []. split; [done|]. intros e H. by apply elem_of_nil in H.
    - intros s0 lb s1 s2 HI Hs _ IH Hd. destruct (doomed_step _ _ _ _ HI Hs Hd) as [Hd1 (l1&Hl1&Hq1)].
      destruct (IH Hd1) as [Hd2 (l2&Hl2&Hq2)]. split; [done|]. exists (l2 ++ l1).
      split; [by rewrite Hl2, Hl1, app_assoc|]. intros e [?|?]%elem_of_app; [by apply Hq2|by apply Hq1].
  Qed.
  Lemma user_panic_doomed s l s' ty : nstep E s l = Next s' -> user_panic E s l ty -> doomed ty s' /\ n_log s' = n_log s.
  Proof.
    intros H (t&f&k&->&Hst&Hins&Hty). destruct f as [| | | | |i g]; try done. simpl in H. unfold nstep_panic in H. rewrite Hst in H.
    destruct (existsb unwinds _); [done|].
    destruct g as [| |ty' w q| |o p|o b r|]; try done; injection H as <-; (split; [|done]); left; exists t; eexists;
      (split; [unfold nstack; simpl; rewrite lookup_insert; simpl; by left|done]).
  Qed.
  Lemma user_panic_forever ls1 l ls2 s1 s1' s2 ty :
    run (nstep E) ninit ls1 = Some s1 -> nstep E s1 l = Next s1' -> user_panic E s1 l ty -> run (nstep E) s1' ls2 = Some s2 ->
    exists l', n_log s2 = l' ++ n_log s1 /\
      (forall t' o' r, EvRet t' o' r ∈ l' -> op_ty o' = ty -> r = RPanic) /\
      (forall t' o' p v, EvIns t' o' p v ∈ l' -> op_ty o' <> ty) /\
      EvClr ty ∉ l'.
  Proof.
    intros Hr1 Hs Hu Hr2. pose proof (nreach_inv _ _ Hr1) as HI. pose proof (nstep_inv E _ _ _ HI Hs) as HI1.
    destruct (user_panic_doomed _ _ _ _ Hs Hu) as [Hd Hlog]. destruct (doomed_run _ _ _ _ HI1 Hr2 Hd) as [_ (l'&Hl'&Hq)].
    exists l'. rewrite <- Hlog. split_and!; [done| | |].
    - intros t' o' r H. apply (Hq _ H).
    - intros t' o' p v H. apply (Hq _ H).
    - intros H. by apply (Hq _ H).
  Qed.

  (** Panics come from user code. *)
  Definition blamed (P : nat -> Prop) s : Prop :=
    (forall t f, f ∈ nstack s t -> pan f = true -> P (type_of f)) /\
    (forall ty i, first s ty = Some i -> (slot ty, i) ∈ n_poison s -> P ty).
  Lemma fresh_poison s l s' ty i : NInv s -> nstep E s l = Next s' -> first s' ty = Some i -> (slot ty, i) ∈ n_poison s ->
    first s ty = Some i.
  Proof.
    intros (st&_&_&HR) Hs Hf Hp. destruct (first s ty) as [i'|] eqn:Hf0.
    - pose proof (step_first _ _ _ _ _ Hs Hf0). congruence.
    - exfalso. pose proof (r_base _ _ _ HR) as HR0.
      assert (length (nvec s (slot ty)) <= i) as Hle.
      { destruct (nstep_shape _ _ _ Hs) as [p v -> ->|t o b a _ _ _ _ _ Hv _|t f fs' k _ _ _ _ _ _ _ Hv].
        - unfold NewSim.first, nvec in *. simpl in Hf. congruence.
        - unfold NewSim.first, nvec in *. rewrite Hv in Hf. congruence.
        - unfold NewSim.first in *.
          destruct Hv as [Hv _ _ _|o b _ _ Hv _|o b j _ _ _ Hv _]; [unfold nvec in *; rewrite Hv in Hf; congruence..|].
          unfold nvec in Hf at 1. rewrite Hv in Hf. destruct (decide (slot (op_ty o) = slot ty)) as [Heq|Hne].
          + rewrite Heq, lookup_insert in Hf. simpl in Hf. rewrite find_ty_snoc in Hf by done.
            destruct (_ =? _); [|done]. injection Hf as <-. done.
          + rewrite lookup_insert_ne in Hf by done. unfold nvec in Hf0. congruence. }
      by destruct (r_fresh _ _ _ HR0 _ _ Hle) as (_&_&?).
  Qed.
  Lemma blamed_step (P P' : nat -> Prop) s l s' : NInv s -> blamed P s -> nstep E s l = Next s' ->
    (forall ty, P ty -> P' ty) -> (forall ty, user_panic E s l ty -> P' ty) -> blamed P' s'.
  Proof.
    intros HI [Hf Hp] Hs HPP HU. pose proof (nstep_shape _ _ _ Hs) as Hsh. pose proof (nstep_inv E _ _ _ HI Hs) as HI'. split.
    - intros u f' Hin Hpan. destruct (shape_frame _ _ _ _ _ Hsh Hin) as [?|[(o&b&a&->&->)|(_&f&k&Hst&Hc&Hpn)]].
      + by eapply HPP, Hf.
      + done.
      + unfold NewSpec.type_of. rewrite Hc. assert (f ∈ nstack s u) as Hin' by (rewrite Hst; by left).
        destruct (Hpn Hpan) as [?|[?|(o&b&i&->&Hpo)]].
        * by eapply HPP, Hf.
        * by apply HU.
        * apply HPP, (Hp _ i); [|done]. by apply (use_first _ _ _ i HI Hin').
    - intros ty i Hfi Hpo.
      destruct (decide ((slot ty, i) ∈ n_poison s)) as [Hold|Hnew]; [by eapply HPP, Hp; [eapply fresh_poison|]|].
      destruct Hsh as [p v -> ->|t o b a _ _ _ _ Hpp _ _|t f fs' k _ _ Hst _ _ _ Hpp _]; [done|by rewrite Hpp in Hpo|].
      destruct Hpp as [Hpp|(j&o&->&Hpp)]; rewrite Hpp in Hpo; [done|].
      assert ((slot ty, i) = (slot (op_ty o), j)) as Heq by set_solver.
      assert (NIn j (FDone o RPanic) ∈ nstack s t) as Hin by (rewrite Hst; by left).
      pose proof (step_first _ _ _ _ _ Hs (use_first _ _ _ j HI Hin eq_refl)) as Hj.
      rewrite (first_inj E s' _ _ _ _ Hfi Hj Heq). by apply HPP, (Hf t).
  Qed.
  Definition panicked ls ty : Prop := exists ls1 l ls2 s1 s2, ls = ls1 ++ l :: ls2 /\
    run (nstep E) ninit ls1 = Some s1 /\ nstep E s1 l = Next s2 /\ user_panic E s1 l ty.
  Lemma panicked_app ls ls' ty : panicked ls ty -> panicked (ls ++ ls') ty.
  Proof.
    intros (ls1&l&ls2&s1&s2&->&H). exists ls1, l, (ls2 ++ ls'), s1, s2. split; [|done]. by rewrite <- app_assoc.
  Qed.
  Lemma run_blamed ls s : run (nstep E) ninit ls = Some s -> blamed (panicked ls) s.
  Proof.
    revert s. induction ls as [|l ls IH] using rev_ind; intros s; simpl.
    - intros [= <-]. split.
      + intros t f H. unfold nstack in H. simpl in H. rewrite lookup_empty in H. by apply elem_of_nil in H.
      + simpl. set_solver.
    - rewrite run_app. destruct (run (nstep E) ninit ls) as [s1|] eqn:Hr; [|done]. simpl. specialize (IH _ eq_refl).
      unfold exec. destruct (nstep E s1 l) as [s2| | |] eqn:Hs; try done; intros [= <-].
      2,3: (destruct IH as [H1 H2]; split; [intros t f Hi Hp; by eapply panicked_app, H1|intros ty i Hf Hp; by eapply panicked_app, H2]).
      eapply (blamed_step _ _ s1 l); [by eapply nreach_inv|exact IH|done|intros ty; apply panicked_app|].
      intros ty Hu. exists ls, l, [], s1, s2. done.
  Qed.
  Lemma panic_cause ls s t o : run (nstep E) ninit ls = Some s -> EvRet t o RPanic ∈ n_log s ->
    exists ls1 l ls2 s1 s2, ls = ls1 ++ l :: ls2 /\
      run (nstep E) ninit ls1 = Some s1 /\ nstep E s1 l = Next s2 /\ user_panic E s1 l (op_ty o).
  Proof.
    intros Hr Hin. destruct (panic_poisons _ _ _ (nreach_inv _ _ Hr) Hin) as (i&Hf&Hp&_).
    by apply (proj2 (run_blamed _ _ Hr) _ _ Hf Hp).
  Qed.

  (** ** Pushing a set *)
  Record PInv s : Prop := {
    p_below : forall t f k, nstack s t = f :: k -> forall f', f' ∈ k -> nin_user f' = true;
    p_len : forall c, length (nvec s c) <= nresv s c;
    p_range : forall t o b i k, nstack s t = NPub o b i :: k ->
      length (nvec s (slot (op_ty o))) <= i < nresv s (slot (op_ty o));
    p_excl : forall t1 o1 b1 i1 k1 t2 o2 b2 i2 k2, nstack s t1 = NPub o1 b1 i1 :: k1 -> nstack s t2 = NPub o2 b2 i2 :: k2 ->
      t1 <> t2 -> slot (op_ty o1) = slot (op_ty o2) -> i1 <> i2;
    p_held : forall c i, length (nvec s c) <= i < nresv s c ->
      exists t o b k, nstack s t = NPub o b i :: k /\ slot (op_ty o) = c;
  }.
  Lemma pinv_init : PInv ninit.
  Proof.
    assert (forall t, nstack (ninit : nstate V Q) t = []) as H by done.
    constructor; try (intros *; rewrite H; done); try done. intros c i. unfold nvec, nresv. simpl. rewrite !lookup_empty. simpl. lia.
  Qed.
  Lemma pinv_step s l s' : PInv s -> nstep E s l = Next s' -> PInv s'.
  Proof.
    intros HP [p v -> ->|t o b a -> Ht Hu _ _ Hv Hrs|t f fs' k _ _ Hst Ht Hf _ _ Hv]%nstep_shape.
    - destruct HP. by constructor.
    - assert (forall c, nvec s' c = nvec s c) as Hv' by (intros c; unfold nvec; by rewrite Hv).
      assert (forall c, nresv s' c = nresv s c) as Hr' by (intros c; unfold nresv; by rewrite Hrs).
      pose proof (λ u, stack_ins s s' t _ u Ht) as Hs.
      assert (forall u o b i k, nstack s' u = NPub o b i :: k -> nstack s u = NPub o b i :: k) as Hpub.
      { intros u o' b' i' k'. rewrite Hs. by destruct (decide (t = u)). }
      constructor.
      + intros u f k. rewrite Hs. destruct (decide (t = u)) as [<-|]; [|by apply (p_below s HP)].
        intros [= <- <-] g' Hg. destruct (nstack s t) as [|f0 k0] eqn:Hst; [by apply elem_of_nil in Hg|].
        apply elem_of_cons in Hg as [->|Hg]; [done|]. by eapply (p_below s HP).
      + intros c. rewrite Hv', Hr'. by apply p_len.
      + intros u o' b' i' k' H%Hpub. rewrite Hv', Hr'. by eapply p_range.
      + intros * H1%Hpub H2%Hpub. by eapply (p_excl s HP).
      + intros c i. rewrite Hv', Hr'. intros (u&o'&b'&k'&Hk&Hc)%(p_held s HP). exists u, o', b', k'. split; [|done].
        rewrite Hs. destruct (decide (t = u)) as [<-|]; [|done]. by rewrite Hk in Hu.
    - pose proof (λ u, stack_ins s s' t _ u Ht) as Hs.
      assert (forall u f k, nstack s' u = f :: k -> forall f', f' ∈ k -> nin_user f' = true) as Hbelow.
      { intros u f' k'. rewrite Hs. destruct (decide (t = u)) as [<-|]; [|by apply (p_below s HP)].
        destruct Hf as [->|(f''&->&_)]; simpl.
        - intros ->. intros g' Hg. eapply (p_below s HP); [done|by right].
        - intros [= <- <-]. by eapply (p_below s HP). }
      assert (forall o b i k', k <> NPub o b i :: k') as Hk.
      { intros o b i k' ->. assert (nin_user (NPub o b i : nframe V Q) = true) as H; [|done].
        eapply (p_below s HP); [done|by left]. }
      destruct Hv as [Hv Hrs Hnf Hnfs|o b -> -> Hv Hrs|o b i -> -> Hlen Hv Hrs].
      + assert (forall c, nvec s' c = nvec s c) as Hv' by (intros c; unfold nvec; by rewrite Hv).
        assert (forall c, nresv s' c = nresv s c) as Hr' by (intros c; unfold nresv; by rewrite Hrs).
        assert (forall u o b i k, nstack s' u = NPub o b i :: k -> nstack s u = NPub o b i :: k) as Hpub.
        { intros u o' b' i' k'. rewrite Hs. destruct (decide (t = u)) as [<-|]; [|done].
          destruct Hf as [->|(f''&->&_)]; simpl; [intros H; by destruct (Hk _ _ _ _ H)|].
          intros [= -> _]. destruct (Hnfs o' b' i'). by left. }
        constructor; [done| | | |].
        * intros c. rewrite Hv', Hr'. by apply p_len.
        * intros u o' b' i' k' H%Hpub. rewrite Hv', Hr'. by eapply p_range.
        * intros * H1%Hpub H2%Hpub. by eapply (p_excl s HP).
        * intros c i. rewrite Hv', Hr'. intros (u&o'&b'&k'&Hk'&Hc)%(p_held s HP). exists u, o', b', k'. split; [|done].
          rewrite Hs. destruct (decide (t = u)) as [<-|]; [|done]. rewrite Hk' in Hst. injection Hst as <- _.
          by destruct (Hnf o' b' i).
      + assert (forall c, nvec s' c = nvec s c) as Hv' by (intros c; unfold nvec; by rewrite Hv).
        assert (forall c, nresv s' c = if decide (slot (op_ty o) = c) then S (nresv s c) else nresv s c) as Hr'.
        { intros c. unfold nresv at 1. rewrite Hrs. destruct (decide (slot (op_ty o) = c)) as [<-|].
          - by rewrite lookup_insert.
          - by rewrite lookup_insert_ne. }
        assert (forall u o' b' i' k', nstack s' u = NPub o' b' i' :: k' ->
          (u <> t /\ nstack s u = NPub o' b' i' :: k') \/ (u = t /\ o' = o /\ i' = nresv s (slot (op_ty o)))) as Hpub.
        { intros u o' b' i' k'. rewrite Hs. destruct (decide (t = u)) as [<-|]; [|left; by split].
          intros [= <- <- <- <-]. by right. }
        constructor; [done| | | |].
        * intros c. rewrite Hv', Hr'. pose proof (p_len s HP c). destruct (decide _); lia.
        * intros u o' b' i' k' [(Hne&H)|(->&->&->)]%Hpub; rewrite Hv', Hr'.
          -- pose proof (p_range s HP _ _ _ _ _ H). destruct (decide _); lia.
          -- rewrite decide_True by done. pose proof (p_len s HP (slot (op_ty o))). lia.
        * intros t1 o1 b1 i1 k1 t2 o2 b2 i2 k2 [(Hn1&H1)|(->&->&->)]%Hpub [(Hn2&H2)|(->&->&->)]%Hpub Hne Hc.
          -- by eapply (p_excl s HP).
          -- pose proof (p_range s HP _ _ _ _ _ H1). rewrite Hc in *. lia.
          -- pose proof (p_range s HP _ _ _ _ _ H2). rewrite <- Hc in *. lia.
          -- done.
        * intros c i. rewrite Hv', Hr'. intros Hi.
          destruct (decide (slot (op_ty o) = c /\ i = nresv s c)) as [[<- ->]|Hni].
          -- exists t, o, b, k. rewrite Hs, decide_True by done. done.
          -- destruct (p_held s HP c i) as (u&o'&b'&k'&Hk'&Hc).
             { destruct (decide _); [|done]. assert (i <> nresv s c) by tauto. lia. }
             exists u, o', b', k'. split; [|done]. rewrite Hs. destruct (decide (t = u)) as [<-|]; [|done]. by rewrite Hk' in Hst.
      + assert (forall c, nresv s' c = nresv s c) as Hr' by (intros c; unfold nresv; by rewrite Hrs).
        assert (forall c, length (nvec s' c) = if decide (slot (op_ty o) = c) then S (length (nvec s c)) else length (nvec s c)) as Hv'.
        { intros c. unfold nvec at 1. rewrite Hv. destruct (decide (slot (op_ty o) = c)) as [<-|].
          - rewrite lookup_insert. simpl. rewrite app_length. simpl. lia.
          - by rewrite lookup_insert_ne. }
        assert (forall u o' b' i' k', nstack s' u = NPub o' b' i' :: k' -> u <> t /\ nstack s u = NPub o' b' i' :: k') as Hpub.
        { intros u o' b' i' k'. rewrite Hs. by destruct (decide (t = u)). }
        pose proof (p_range s HP _ _ _ _ _ Hst) as Hri.
        constructor; [done| | | |].
        * intros c. rewrite Hv', Hr'. pose proof (p_len s HP c). destruct (decide _) as [<-|]; lia.
        * intros u o' b' i' k' [Hne H]%Hpub. rewrite Hv', Hr'. pose proof (p_range s HP _ _ _ _ _ H).
          destruct (decide _) as [Hc|]; [|lia]. pose proof (p_excl s HP _ _ _ _ _ _ _ _ _ _ Hst H) as Hx.
          specialize (Hx (not_eq_sym Hne) Hc). rewrite Hc in *. lia.
        * intros * [_ H1]%Hpub [_ H2]%Hpub. by eapply (p_excl s HP).
        * intros c j. rewrite Hv', Hr'. intros Hj.
          destruct (p_held s HP c j) as (u&o'&b'&k'&Hk'&Hc). { destruct (decide _); lia. }
          exists u, o', b', k'. split; [|done]. rewrite Hs. destruct (decide (t = u)) as [<-|]; [|done].
          rewrite Hk' in Hst. injection Hst as -> -> -> ->. rewrite decide_True in Hj by done. rewrite Hc in *. lia.
  Qed.
  Lemma nreach_pinv ls s : run (nstep E) ninit ls = Some s -> PInv s.
  Proof.
    generalize pinv_init. generalize (ninit : nstate V Q). induction ls as [|l ls IH]; intros s0 HP; simpl; [by intros [= ->]|].
    unfold exec. destruct (nstep E s0 l) as [s1| | |] eqn:Hs; try done; [|by apply IH..].
    apply IH. by eapply pinv_step.
  Qed.
  Lemma push_finishes_st n s t o b i k :
    PInv s -> nstack s t = NPub o b i :: k -> i - length (nvec s (slot (op_ty o))) = n ->
    exists ts s', length ts = S n /\ run (nstep E) s ((λ u, IStep u 0 0) <$> ts) = Some s' /\
      nstack s' t = NScan o b true :: k /\ nvec s' (slot (op_ty o)) !! i = Some (op_ty o).
  Proof.
    revert s. induction n as [|n IH]; intros s HP Hst Hn; pose proof (p_range s HP _ _ _ _ _ Hst) as Hr.
    - exists [t]. csimpl. unfold exec. simpl. unfold nstep_thread. rewrite Hst.
      destruct (Nat.eqb_spec (length (nvec s (slot (op_ty o)))) i) as [Heq|]; [|lia].
      eexists. split_and!; [done|done| |].
      + unfold nstack. simpl. by rewrite lookup_insert.
      + unfold nvec at 1. simpl. rewrite lookup_insert. simpl. rewrite lookup_app_r by lia. by rewrite Heq, Nat.sub_diag.
    - destruct (p_held s HP (slot (op_ty o)) (length (nvec s (slot (op_ty o))))) as (u&o'&b'&k'&Hu&Hc); [lia|].
      assert (u <> t) as Hne. { intros ->. rewrite Hu in Hst. injection Hst as _ _ Hi _. lia. }
      pose (s1 := nset_stack (npublish s (slot (op_ty o)) (op_ty o')) u (NScan o' b' true :: k')).
      assert (nstep E s (IStep u 0 0) = Next s1) as Hs.
      { simpl. unfold nstep_thread. rewrite Hu, Hc. by rewrite Nat.eqb_refl. }
      destruct (IH s1) as (ts&s'&Hl&Hrun&H').
      + by eapply pinv_step.
      + unfold nstack, s1. simpl. by rewrite lookup_insert_ne.
      + assert (nvec s1 (slot (op_ty o)) = nvec s (slot (op_ty o)) ++ [op_ty o']) as ->.
        { unfold nvec at 1, s1. simpl. by rewrite lookup_insert. }
        rewrite app_length. simpl. lia.
      + exists (u :: ts), s'. split_and!; [simpl; lia| |apply H'..]. csimpl. unfold exec. by rewrite Hs.
  Qed.
  Lemma push_finishes ls s t o b i k :
    run (nstep E) ninit ls = Some s -> nstack s t = NPub o b i :: k ->
    exists ts s', length ts = S (i - length (nvec s (slot (op_ty o)))) /\
      run (nstep E) s ((λ u, IStep u 0 0) <$> ts) = Some s' /\
      nstack s' t = NScan o b true :: k /\ nvec s' (slot (op_ty o)) !! i = Some (op_ty o).
  Proof. intros Hr%nreach_pinv Hst. by eapply push_finishes_st. Qed.
End final.

(** Proofs for C73: noninterference between the types of [NewIntern]. *)
From stdpp Require Import gmap list numbers.
From Verif Require Import Base InternModel InternSpec InternInv InternStep NewModel NewSpec NewSim NewStep NewFinal IsolSpec Isol NIsolSpec.
Require Import ZifyBool ZifyNat ZifyN.

Section lists.
  Context (keep : nat -> bool) (D : nat -> bool).
  Lemma filter_len l : (forall i ty, l !! i = Some ty -> D i = negb (keep ty)) ->
    length (List.filter keep l) = rank D (length l).
  Proof.
    induction l as [|ty l IH] using rev_ind; intros H; [done|].
    rewrite List.filter_app, !app_length, Nat.add_1_r. simpl.
    rewrite (H (length l) ty) by (by rewrite lookup_app_r, Nat.sub_diag).
    rewrite IH; [destruct (keep ty); simpl; lia|]. intros i u Hi. apply H. rewrite lookup_app_l; [done|]. by apply lookup_lt_Some in Hi.
  Qed.
  Lemma filter_find ty l : keep ty = true -> (forall i ty, l !! i = Some ty -> D i = negb (keep ty)) ->
    find_ty ty (List.filter keep l) = rank D <$> find_ty ty l.
  Proof.
    intros Hk. induction l as [|u l IH] using rev_ind; intros H; [done|].
    assert (forall i ty, l !! i = Some ty -> D i = negb (keep ty)) as Hl.
    { intros i w Hi. apply H. rewrite lookup_app_l; [done|]. by apply lookup_lt_Some in Hi. }
    specialize (IH Hl). rewrite List.filter_app. destruct (find_ty ty l) as [i|] eqn:Hf; simpl in IH.
    - rewrite (find_ty_app _ _ _ _ Hf). by apply find_ty_app.
    - rewrite (find_ty_snoc _ _ _ Hf). simpl. destruct (keep u) eqn:Hu.
      + rewrite (find_ty_snoc _ _ _ IH). destruct (u =? ty); [|done]. simpl. by rewrite filter_len.
      + rewrite app_nil_r, IH. destruct (Nat.eqb_spec u ty) as [->|]; [congruence|done].
  Qed.
  Lemma filter_lookup l i ty : (forall i ty, l !! i = Some ty -> D i = negb (keep ty)) -> l !! i = Some ty -> keep ty = true ->
    List.filter keep l !! rank D i = Some ty.
  Proof.
    intros H Hi Hk. rewrite <- (take_drop_middle l i ty Hi), List.filter_app. simpl. rewrite Hk.
    assert (rank D i = length (List.filter keep (take i l))) as ->.
    { rewrite filter_len.
      - rewrite take_length, Nat.min_l; [done|]. apply lookup_lt_Some in Hi. lia.
      - intros j u Hj. apply H. apply lookup_take_Some in Hj. tauto. }
    by rewrite lookup_app_r, Nat.sub_diag.
  Qed.
End lists.

Section isol.
  Context {V Q : Type} (E : ienv V Q) (keep : nat -> bool) (D : nat -> bool) (Dv : nat -> nat -> bool).
  Implicit Types (s : nstate V Q) (v : V) (p : iptr) (o : iop V Q) (f : nframe V Q) (g : frame V Q) (t ty c i : nat).
  Notation ρ := (rank D).
  Notation σ := (λ c, rank (Dv c)).
  Notation slot := (slot E).
  Notation op_ty := (op_ty E).
  Notation type_of := (type_of E).
  Notation mp := (ren_ptr ρ).
  Notation mf := (ren_nframe E ρ σ).
  Notation me := (ren_event ρ).
  Notation mproj := (proj E keep D).

  Definition nstk (k : list (nframe V Q)) : list (nframe V Q) := map mf (about type_of keep k).
  Definition nopt (b : option iptr) : list iptr := match b with Some p => [p] | None => [] end.
  Definition nres (r : ires) : list iptr := match r with RPtr p => [p] | _ => [] end.
  Definition nptrs f : list iptr :=
    match f with
    | NScan _ b _ | NPush _ b | NPub _ b _ | NLock _ b _ | NPanic _ b => nopt b
    | NIn _ g => match g with
                 | FWait _ b | FGet _ b => nopt b
                 | FConv _ _ _ | FStore _ _ => []
                 | FIns _ p => [p]
                 | FDup _ b r => nopt b ++ nres r
                 | FDone _ r => nres r
                 end
    end.
  Definition nside ty p : Prop := D (ip_ser p) = negb (keep ty).
  Definition nidx f : Prop :=
    match f with
    | NPub _ _ i | NLock _ _ i => Dv (slot (type_of f)) i = negb (keep (type_of f))
    | NIn i g => Dv (slot (type_of f)) i = negb (keep (type_of f)) /\
        match g with FStore o v => ie_ty E v = op_ty o | _ => True end
    | _ => True
    end.
  Definition nfok f : Prop := Forall (nside (type_of f)) (nptrs f) /\ nidx f.

  Record nproj s s' : Prop := {
    m_mem : mproj (nmem s) (nmem s');
    m_vec : forall c, nvec s' c = List.filter keep (nvec s c);
    m_resv : forall c, nresv s' c = σ c (nresv s c);
    m_tys : forall c i ty, nvec s c !! i = Some ty -> Dv c i = negb (keep ty);
    m_sets : forall c i, Dv c i = false -> nset s' (c, σ c i) = map mp (nset s (c, i));
    m_locks : forall c i, Dv c i = false -> n_locks s' !! (c, σ c i) = n_locks s !! (c, i);
    m_poison : forall c i, Dv c i = false -> ((c, σ c i) ∈ n_poison s' <-> (c, i) ∈ n_poison s);
    m_threads : forall t, nstack s' t = nstk (nstack s t);
    m_log : n_log s' = map me (about (event_ty E) keep (n_log s));
    m_frames : forall t, Forall nfok (nstack s t);
    m_side : forall c i, Forall (λ p, D (ip_ser p) = Dv c i) (nset s (c, i));
    m_rets : forall t o p, EvRet t o (RPtr p) ∈ n_log s -> nside (op_ty o) p;
  }.

  Lemma nstk_keep f k : keep (type_of f) = true -> nstk (f :: k) = mf f :: nstk k.
  Proof. intros H. unfold nstk, about. simpl. by rewrite H. Qed.
  Lemma nstk_drop f k : keep (type_of f) = false -> nstk (f :: k) = nstk k.
  Proof. intros H. unfold nstk, about. simpl. by rewrite H. Qed.
  Lemma nstk_in f' k : f' ∈ nstk k -> exists f, f' = mf f /\ f ∈ k /\ keep (type_of f) = true.
  Proof.
    unfold nstk, about. rewrite elem_of_list_In, in_map_iff. intros (f&<-&H). apply filter_In in H as [H ?].
    exists f. by rewrite elem_of_list_In.
  Qed.
  Lemma mnf_user f : nin_user (mf f) = nin_user f.
  Proof. by destruct f as [| | | | |i []]. Qed.
  Lemma mnf_unwinds f : unwinds (mf f) = unwinds f.
  Proof. by destruct f as [| | | | |i [| | | | |? ? []|]]. Qed.
  Lemma nstk_unwinds k : existsb unwinds k = false -> existsb unwinds (nstk k) = false.
  Proof.
    intros H. destruct (existsb unwinds (nstk k)) eqn:He; [exfalso|done]. apply existsb_exists in He as (f'&Hin&Hu).
    apply elem_of_list_In, nstk_in in Hin as (f&->&Hf&_). rewrite mnf_unwinds in Hu.
    assert (existsb unwinds k = true); [|congruence]. apply existsb_exists. exists f. by rewrite <- elem_of_list_In.
  Qed.
  Lemma nstack_set s t u k : nstack (nset_stack s t k) u = if decide (t = u) then k else nstack s u.
  Proof.
    unfold nstack. simpl. destruct (decide (t = u)) as [->|].
    - by rewrite lookup_insert.
    - by rewrite lookup_insert_ne.
  Qed.
  Lemma loc_inj c1 i1 c2 i2 : Dv c1 i1 = false -> Dv c2 i2 = false -> (c1, σ c1 i1) = (c2, σ c2 i2) -> (c1, i1) = (c2, i2).
  Proof. intros H1 H2 [= -> H]. f_equal. by apply (rank_inj (Dv c2)). Qed.

  (** ** The parts of the state *)
  Lemma nproj_stack s s' t k : nproj s s' -> Forall nfok k -> nproj (nset_stack s t k) (nset_stack s' t (nstk k)).
  Proof. intros [] Hk. constructor; try done; intros u; rewrite !nstack_set; by destruct (decide (t = u)). Qed.
  Lemma nproj_stack_l s s' t k : nproj s s' -> Forall nfok k -> nstk k = nstk (nstack s t) -> nproj (nset_stack s t k) s'.
  Proof.
    intros [] Hf Hk. constructor; try done; intros u; rewrite !nstack_set; destruct (decide (t = u)) as [<-|]; try done.
    by rewrite Hk.
  Qed.
  Definition neok (e : ievent V Q) : Prop := match e with EvRet _ o (RPtr p) => nside (op_ty o) p | _ => True end.
  Lemma nproj_event s s' e : nproj s s' -> neok e -> keep (event_ty E e) = true -> nproj (nevent s e) (nevent s' (me e)).
  Proof.
    intros [] He Hk. constructor; try done; simpl.
    - unfold about in *. simpl. by rewrite Hk, m_log0.
    - intros t o p [<-|Hin]%elem_of_cons; [exact He|by eapply m_rets0].
  Qed.
  Lemma nproj_event_l s s' e : nproj s s' -> neok e -> keep (event_ty E e) = false -> nproj (nevent s e) s'.
  Proof.
    intros [] He Hk. constructor; try done; simpl.
    - unfold about in *. simpl. by rewrite Hk, m_log0.
    - intros t o p [<-|Hin]%elem_of_cons; [exact He|by eapply m_rets0].
  Qed.
  Lemma mem_proj s s' m m' : mproj m m' -> mproj (nmem (with_mem s m)) (nmem (with_mem s' m')).
  Proof. intros []. by constructor. Qed.
  Lemma nproj_mem s s' m m' : nproj s s' -> mproj m m' -> nproj (with_mem s m) (with_mem s' m').
  Proof. intros [] Hm. constructor; try done. by apply mem_proj. Qed.
  Lemma nproj_mem_l s s' m : nproj s s' -> mproj m (nmem s') -> nproj (with_mem s m) s'.
  Proof. intros [] Hm. constructor; try done. destruct Hm. by constructor. Qed.
  Lemma nproj_lock s s' c i t : nproj s s' -> Dv c i = false -> nproj (nlock s (c, i) t) (nlock s' (c, σ c i) t).
  Proof.
    intros [] Hi. constructor; try done. simpl. intros c2 i2 Hi2. destruct (decide ((c, i) = (c2, i2))) as [[= -> ->]|Hne].
    - by rewrite !lookup_insert.
    - rewrite !lookup_insert_ne; [by apply m_locks0|done|]. intros Heq. by apply loc_inj in Heq.
  Qed.
  Lemma nproj_lock_l s s' c i t : nproj s s' -> Dv c i = true -> nproj (nlock s (c, i) t) s'.
  Proof.
    intros [] Hi. constructor; try done. simpl. intros c2 i2 Hi2. rewrite lookup_insert_ne; [by apply m_locks0|].
    intros [= -> ->]. congruence.
  Qed.
  Lemma nproj_unlock s s' c i b : nproj s s' -> Dv c i = false -> nproj (nunlock s (c, i) b) (nunlock s' (c, σ c i) b).
  Proof.
    intros [] Hi. constructor; try done; simpl; intros c2 i2 Hi2.
    - destruct (decide ((c, i) = (c2, i2))) as [[= -> ->]|Hne].
      + by rewrite !lookup_delete.
      + rewrite !lookup_delete_ne; [by apply m_locks0|done|]. intros Heq. by apply loc_inj in Heq.
    - destruct b; [|by apply m_poison0]. rewrite !elem_of_union, !elem_of_singleton, m_poison0 by done. split; intros [H|H]; try (by right).
      + left. symmetry in H. apply loc_inj in H; done.
      + left. by injection H as -> ->.
  Qed.
  Lemma nproj_unlock_l s s' c i b : nproj s s' -> Dv c i = true -> nproj (nunlock s (c, i) b) s'.
  Proof.
    intros [] Hi. constructor; try done; simpl; intros c2 i2 Hi2.
    - rewrite lookup_delete_ne; [by apply m_locks0|]. intros [= -> ->]. congruence.
    - destruct b; [|by apply m_poison0]. rewrite !elem_of_union, !elem_of_singleton, m_poison0 by done. split; [by right|].
      intros [[= -> ->]|]; [congruence|done].
  Qed.
  Lemma nset_put s x ps y : nset (nput s x ps) y = if decide (x = y) then ps else nset s y.
  Proof.
    unfold nset. simpl. destruct (decide (x = y)) as [->|].
    - by rewrite lookup_insert.
    - by rewrite lookup_insert_ne.
  Qed.
  Lemma nproj_put s s' c i ps : nproj s s' -> Dv c i = false -> Forall (λ p, D (ip_ser p) = Dv c i) ps ->
    nproj (nput s (c, i) ps) (nput s' (c, σ c i) (map mp ps)).
  Proof.
    intros [] Hi Hps. constructor; try done; intros c2 i2.
    - intros Hi2. rewrite !nset_put. destruct (decide ((c, i) = (c2, i2))) as [[= -> ->]|Hne].
      + by rewrite decide_True.
      + rewrite decide_False; [by apply m_sets0|]. intros Heq. by apply loc_inj in Heq.
    - rewrite nset_put. by destruct (decide ((c, i) = (c2, i2))) as [[= -> ->]|Hne].
  Qed.
  Lemma nproj_put_l s s' c i ps : nproj s s' -> Dv c i = true -> Forall (λ p, D (ip_ser p) = Dv c i) ps ->
    nproj (nput s (c, i) ps) s'.
  Proof.
    intros [] Hi Hps. constructor; try done; intros c2 i2.
    - intros Hi2. rewrite !nset_put. destruct (decide ((c, i) = (c2, i2))) as [[= -> ->]|Hne]; [congruence|by apply m_sets0].
    - rewrite nset_put. by destruct (decide ((c, i) = (c2, i2))) as [[= -> ->]|Hne].
  Qed.
  Lemma nresv_res s c c' : nresv (nreserve s c) c' = if decide (c = c') then S (nresv s c) else nresv s c'.
  Proof.
    unfold nresv at 1. simpl. destruct (decide (c = c')) as [->|].
    - by rewrite lookup_insert.
    - by rewrite lookup_insert_ne.
  Qed.
  Lemma nproj_reserve s s' c : nproj s s' -> Dv c (nresv s c) = false -> nproj (nreserve s c) (nreserve s' c).
  Proof.
    intros [] Hi. constructor; try done. intros c2. rewrite !nresv_res, !m_resv0. destruct (decide (c = c2)) as [<-|]; [|done].
    simpl. by rewrite Hi.
  Qed.
  Lemma nproj_reserve_l s s' c : nproj s s' -> Dv c (nresv s c) = true -> nproj (nreserve s c) s'.
  Proof.
    intros [] Hi. constructor; try done. intros c2. rewrite !nresv_res, !m_resv0. destruct (decide (c = c2)) as [<-|]; [|done].
    simpl. by rewrite Hi.
  Qed.
  Lemma nvec_pub s c ty c' : nvec (npublish s c ty) c' = if decide (c = c') then nvec s c ++ [ty] else nvec s c'.
  Proof.
    unfold nvec at 1. simpl. destruct (decide (c = c')) as [->|].
    - by rewrite lookup_insert.
    - by rewrite lookup_insert_ne.
  Qed.
  Lemma pub_tys s s' c ty : nproj s s' -> Dv c (length (nvec s c)) = negb (keep ty) ->
    forall c' i u, nvec (npublish s c ty) c' !! i = Some u -> Dv c' i = negb (keep u).
  Proof.
    intros H Hi c' i u. rewrite nvec_pub. destruct (decide (c = c')) as [<-|]; [|apply (m_tys _ _ H)].
    intros [Hu|[Hge Hu]]%lookup_app_Some; [by eapply (m_tys _ _ H)|].
    destruct (i - length (nvec s c)) as [|j] eqn:Hj; [|done]. simpl in Hu. injection Hu as <-.
    by replace i with (length (nvec s c)) by lia.
  Qed.
  Lemma nproj_publish s s' c ty : nproj s s' -> Dv c (length (nvec s c)) = negb (keep ty) -> keep ty = true ->
    nproj (npublish s c ty) (npublish s' c ty).
  Proof.
    intros H Hi Hk. pose proof (pub_tys _ _ _ _ H Hi) as Ht. destruct H. constructor; try done.
    intros c2. rewrite !nvec_pub, !m_vec0. destruct (decide (c = c2)) as [<-|]; [|done].
    rewrite List.filter_app. simpl. by rewrite Hk.
  Qed.
  Lemma nproj_publish_l s s' c ty : nproj s s' -> Dv c (length (nvec s c)) = negb (keep ty) -> keep ty = false ->
    nproj (npublish s c ty) s'.
  Proof.
    intros H Hi Hk. pose proof (pub_tys _ _ _ _ H Hi) as Ht. destruct H. constructor; try done.
    intros c2. rewrite !nvec_pub, !m_vec0. destruct (decide (c = c2)) as [<-|]; [|done].
    rewrite List.filter_app. simpl. by rewrite Hk, app_nil_r.
  Qed.
  Lemma nproj_len s s' c : nproj s s' -> length (nvec s' c) = σ c (length (nvec s c)).
  Proof. intros H. rewrite (m_vec _ _ H). apply filter_len. apply (m_tys _ _ H). Qed.
  Lemma nproj_find s s' c ty : nproj s s' -> keep ty = true -> find_ty ty (nvec s' c) = σ c <$> find_ty ty (nvec s c).
  Proof. intros H Hk. rewrite (m_vec _ _ H). apply filter_find; [done|]. apply (m_tys _ _ H). Qed.

  (** *** Searching *)
  Lemma mproj_readable st st' l : mproj st st' -> Forall (λ p, D (ip_ser p) = false) l -> ireadable st' (map mp l) = ireadable st l.
  Proof.
    intros H. unfold ireadable. induction 1 as [|p l Hp Hl IH]; simpl; [done|].
    rewrite IH. by rewrite (proj_read E keep D st st') by done.
  Qed.
  Lemma mproj_cands st st' (h : V -> bool) l : mproj st st' -> Forall (λ p, D (ip_ser p) = false) l ->
    candidates st' h (map mp l) = map mp (candidates st h l).
  Proof. intros H Hl. apply (proj_cand E keep D); [done|]. intros p Hp. by eapply list.Forall_forall in Hl. Qed.
  Lemma ncands_sub (st : istate V Q) (h : V -> bool) l P : Forall P l -> Forall P (candidates st h l).
  Proof. intros H. apply List.Forall_forall. intros p [Hp _]%filter_In. rewrite List.Forall_forall in H. by apply H. Qed.
  Lemma npick_sub j l p (P : iptr -> Prop) : Forall P l -> ipick j l = Some p -> P p.
  Proof.
    intros H. unfold ipick. destruct (nth_error l j) as [q|] eqn:Hn.
    - intros [= ->]. apply nth_error_In in Hn. rewrite List.Forall_forall in H. by apply H.
    - destruct H; simpl; [done|]. by intros [= ->].
  Qed.

  (** What the prophecies say about a step. *)
  Definition nforeseen s (l : ilabel V Q) s2 : Prop :=
    foreseen E keep D (nmem s) (nmem s2) /\
    match l with
    | IStep t _ _ => forall o b k, nstack s t = NPush o b :: k ->
        Dv (slot (op_ty o)) (nresv s (slot (op_ty o))) = negb (keep (op_ty o))
    | _ => True
    end.
  Lemma alloc_D s a v b m p s2 : ialloc E (nmem s) a v b = Some (m, p) ->
    foreseen E keep D (nmem s) (nmem s2) -> n_objs s2 = i_objs m -> D (n_next s) = negb (keep (ie_ty E v)) /\ ip_ser p = n_next s.
  Proof.
    intros Ha Hf Ho. split; [by apply (alloc_foreseen E keep D (nmem s) a v b m p (nmem s2) Ha Ho Hf)|].
    unfold ialloc in Ha. destruct (_ || _); [|done]. by injection Ha as <- <-.
  Qed.

  (** ** Kept steps *)
  Lemma nkept_thread s s' t a j s2 f k : nproj s s' -> nstack s t = f :: k -> keep (type_of f) = true ->
    nstep_thread E s t a j = Next s2 -> nforeseen s (IStep t a j) s2 ->
    exists s2', nstep_thread E s' t a j = Next s2' /\ nproj s2 s2'.
  Proof.
    intros H Hst Hk Hs [Hfs Hrs]. pose proof (m_threads _ _ H t) as Hst'. rewrite Hst, nstk_keep in Hst' by done.
    pose proof (m_frames _ _ H t) as HF. rewrite Hst in HF. apply Forall_cons_1 in HF as [[Hp Hi] HF].
    unfold nstep_thread in *. rewrite Hst in Hs. rewrite Hst'.
    assert (forall s0 s0' f', nproj s0 s0' -> type_of f' = type_of f -> nfok f' ->
      nproj (nset_stack s0 t (f' :: k)) (nset_stack s0' t (mf f' :: nstk k))) as Hgo.
    { intros s0 s0' f' H0 Hr Hf'. rewrite <- nstk_keep by (by rewrite Hr). apply nproj_stack; [done|]. by constructor. }
    assert (forall p, nside (type_of f) p -> D (ip_ser p) = false) as HD.
    { intros p Hp'. unfold nside in Hp'. by rewrite Hp', Hk. }
    destruct f as [o b again|o b|o b i|o b i|o b|i g]; cbn [ren_nframe call_of]; cbn [nptrs nidx] in *;
      unfold NewSpec.type_of in Hk, HD, Hgo, Hi; cbn [call_of] in *.
    - rewrite (nproj_find s s') by done.
      destruct (find_ty _ _) as [i|] eqn:Hf; cbn [fmap option_fmap option_map].
      + apply find_ty_lookup, (m_tys _ _ H) in Hf.
        destruct ((j =? 0) || again); injection Hs as <-; (eexists; split; [reflexivity|]).
        * apply (Hgo _ _ (NLock o b i)); [done|done|]. by split.
        * apply (Hgo _ _ (NPush o b)); [done|done|]. by split.
      + destruct again; [done|]. injection Hs as <-. eexists; split; [reflexivity|].
        apply (Hgo _ _ (NPush o b)); [done|done|]. by split.
    - injection Hs as <-. specialize (Hrs _ _ _ Hst). eexists; split; [reflexivity|]. rewrite (m_resv _ _ H).
      apply (Hgo _ _ (NPub o b (nresv s (slot (op_ty o))))); [|done|by split]. apply nproj_reserve; [done|by rewrite Hrs, Hk].
    - destruct (Nat.eqb_spec (length (nvec s (slot (op_ty o)))) i) as [<-|]; [|done]. injection Hs as <-.
      unfold NewSpec.type_of; cbn [call_of]. rewrite (nproj_len s s'), Nat.eqb_refl by done. eexists; split; [reflexivity|].
      apply (Hgo _ _ (NScan o b true)); [|done|by split]. by apply nproj_publish.
    - rewrite Hk in Hi. simpl in Hi. unfold NewSpec.type_of; cbn [call_of].
      rewrite (m_locks _ _ H) by done. destruct (n_locks s !! _); [done|].
      assert (bool_decide ((slot (op_ty o), σ (slot (op_ty o)) i) ∈ n_poison s') =
              bool_decide ((slot (op_ty o), i) ∈ n_poison s)) as -> by (apply bool_decide_ext, (m_poison _ _ H); done).
      destruct (bool_decide _).
      + destruct (existsb unwinds k) eqn:Hu; [done|]. rewrite (nstk_unwinds _ Hu). injection Hs as <-.
        eexists; split; [reflexivity|]. apply (Hgo _ _ (NPanic o b)); [done|done|by split].
      + pose proof (nproj_lock s s' (slot (op_ty o)) i t H Hi) as HL.
        assert (Dv (slot (op_ty o)) i = negb (keep (op_ty o))) as Hi2 by (by rewrite Hi, Hk).
        destruct o as [v|v|v|ty w q|ty w q|ty|ty].
        1-5: injection Hs as <-; (eexists; split; [reflexivity|]);
          match goal with |- nproj (nset_stack _ _ (NIn ?i (FGet ?o ?b) :: _)) _ => apply (Hgo _ _ (NIn i (FGet o b))) end;
          [done|done|by split_and!].
        * injection Hs as <-. eexists; split; [reflexivity|]. cbn [InternModel.op_ty]. rewrite (m_sets _ _ H) by done. rewrite map_length.
          apply (Hgo _ _ (NIn i (FDone (OLen ty) (RNum (length (nset s (slot ty, i))))))); [done|done|].
          split; [constructor|by split].
        * injection Hs as <-. eexists; split; [reflexivity|].
          apply (Hgo _ _ (NIn i (FDone (OClear ty) RUnit))); [|done|split; [constructor|by split]].
          apply (nproj_event _ _ (EvClr ty)); [|done|done]. by apply (nproj_put _ _ _ _ []).
    - destruct b as [p|]; cbn [fmap option_fmap option_map].
      + destruct (ifree (nmem s) p) as [m|] eqn:Hf; [|done]. injection Hs as <-.
        apply (proj_ifree E keep D _ (nmem s')) in Hf as (m'&->&Hm); [|apply H|apply HD; by inversion Hp].
        eexists; split; [reflexivity|]. apply (nproj_event _ _ (EvRet t o RPanic)); [|done|done].
        apply nproj_stack; [|done]. by apply nproj_mem.
      + injection Hs as <-. eexists; split; [reflexivity|]. apply (nproj_event _ _ (EvRet t o RPanic)); [|done|done].
        by apply nproj_stack.
    - destruct g as [o b|o b|ty w q|o v|o p|o b r|o r]; cbn [ren_frame]; try done; unfold NewSpec.type_of; cbn [call_of];
        destruct Hi as [Hi Hty]; pose proof Hi as Hi2; rewrite Hk in Hi; simpl in Hi;
        pose proof (m_side _ _ H (slot (op_ty o)) i) as HS; rewrite Hi in HS.
      + rewrite (m_sets _ _ H) by done. rewrite (mproj_readable (nmem s) (nmem s')) by (first [done|apply H]).
        destruct (ireadable _ _); [|done]. rewrite (mproj_cands (nmem s) (nmem s')) by (first [done|apply H]). rewrite proj_pick.
        destruct (ipick j _) as [p|] eqn:Hpk; cbn [fmap option_fmap option_map].
        * assert (nside (op_ty o) p) as Hsp.
          { unfold nside. rewrite Hk. eapply (npick_sub j _ p (λ p, D (ip_ser p) = false)); [|exact Hpk]. by apply ncands_sub. }
          destruct o as [v|v|v|ty w q|ty w q|ty|ty]; try done; injection Hs as <-; (eexists; split; [reflexivity|]);
          match goal with
          | |- nproj (nset_stack _ _ (NIn ?i (FDup ?o ?b ?r) :: _)) _ => apply (Hgo _ _ (NIn i (FDup o b r)))
          | |- nproj (nset_stack _ _ (NIn ?i (FDone ?o ?r) :: _)) _ => apply (Hgo _ _ (NIn i (FDone o r)))
          end; [done|done| |done|done| |done|done| |done|done| ];
          (split; [|by split]); cbn [nptrs nres]; try (apply Forall_app; split; [done|]); by repeat constructor.
        * destruct o as [v|v|v|ty w q|ty w q|ty|ty]; try done.
          3:{ destruct b as [p|]; [|done]. destruct (ileak (nmem s) p) as [m|] eqn:Hf; [|done]. injection Hs as <-.
              apply (proj_ileak E keep D _ (nmem s')) in Hf as (m'&Hf'&Hm); [|apply H|apply HD; by inversion Hp].
              cbn [fmap option_fmap option_map]. rewrite Hf'. eexists; split; [reflexivity|].
              apply (Hgo _ _ (NIn i (FIns (OBox v) p))); [by apply nproj_mem|done|]. by split_and!. }
          -- injection Hs as <-. eexists; split; [reflexivity|]. apply (Hgo _ _ (NIn i (FStore (ONew v) v))); [done|done|].
             split; [constructor|by split].
          -- injection Hs as <-. eexists; split; [reflexivity|]. apply (Hgo _ _ (NIn i (FStore (OVia v) v))); [done|done|].
             split; [constructor|by split].
          -- injection Hs as <-. eexists; split; [reflexivity|]. apply (Hgo _ _ (NIn i (FConv ty w q))); [done|done|].
             split; [constructor|by split].
      + destruct (ialloc E (nmem s) a v true) as [[m p]|] eqn:Ha; [|done]. injection Hs as <-.
        destruct (alloc_D s a v true m p _ Ha Hfs eq_refl) as [Hd Hser].
        destruct (proj_alloc E keep D (nmem s) (nmem s') a v true m p) as (m'&->&Hm); [apply H|done|by rewrite Hty|done|].
        eexists; split; [reflexivity|]. apply (Hgo _ _ (NIn i (FIns o p))); [by apply nproj_mem|done|].
        split; [|by split]. cbn. constructor; [|constructor]. unfold nside. rewrite Hser, Hd, Hty. done.
      + inversion Hp as [|? ? Hp1 _]; subst.
        rewrite (proj_read E keep D (nmem s) (nmem s')) by (first [apply H|by apply HD]).
        destruct (iread (nmem s) p) as [v|]; [|done].
        rewrite (m_sets _ _ H) by done. rewrite (mproj_readable (nmem s) (nmem s')) by (first [done|apply H]).
        destruct (ireadable _ _); [|done]. rewrite (mproj_cands (nmem s) (nmem s')) by (first [done|apply H]).
        destruct (candidates _ _ _) as [|p1 l]; cbn [map]; injection Hs as <-; (eexists; split; [reflexivity|]).
        * apply (Hgo _ _ (NIn i (FDone o (RPtr p)))); [|done|by split_and!].
          apply (nproj_event _ _ (EvIns t o p v)); [|done|done].
          apply (nproj_put _ _ _ _ (p :: nset s (slot (op_ty o), i))); [done|done|]. rewrite Hi. constructor; [by apply HD|done].
        * apply (Hgo _ _ (NIn i (FDone o (RPtr p)))); [done|done|by split_and!].
      + apply Forall_app in Hp as [Hb Hr]. destruct b as [p|]; cbn [fmap option_fmap option_map].
        * destruct (ifree (nmem s) p) as [m|] eqn:Hf; [|done]. injection Hs as <-.
          apply (proj_ifree E keep D _ (nmem s')) in Hf as (m'&->&Hm); [|apply H|apply HD; by inversion Hb].
          eexists; split; [reflexivity|]. apply (Hgo _ _ (NIn i (FDone o r))); [by apply nproj_mem|done|]. by split_and!.
        * injection Hs as <-. eexists; split; [reflexivity|]. apply (Hgo _ _ (NIn i (FDone o r))); [done|done|]. by split_and!.
      + injection Hs as <-. eexists; split; [reflexivity|].
        assert (match ren_res ρ r with RPanic => true | _ => false end = match r with RPanic => true | _ => false end) as -> by (by destruct r).
        apply (nproj_event _ _ (EvRet t o r)); [|destruct r; try done; by inversion Hp|done].
        apply nproj_stack; [|done]. by apply nproj_unlock.
  Qed.

  (** ** Removed steps *)
  Lemma nremoved_thread s s' t a j s2 f k : nproj s s' -> nstack s t = f :: k -> keep (type_of f) = false ->
    nstep_thread E s t a j = Next s2 -> nforeseen s (IStep t a j) s2 -> nproj s2 s'.
  Proof.
    intros H Hst Hk Hs [Hfs Hrs].
    pose proof (m_frames _ _ H t) as HF. rewrite Hst in HF. apply Forall_cons_1 in HF as [[Hp Hi] HF].
    unfold nstep_thread in *. rewrite Hst in Hs.
    assert (forall s0 f', nproj s0 s' -> nstack s0 t = f :: k -> type_of f' = type_of f -> nfok f' ->
      nproj (nset_stack s0 t (f' :: k)) s') as Hgo.
    { intros s0 f' H0 Hst0 Hr Hf'. apply nproj_stack_l; [done|by constructor|]. rewrite Hst0, !nstk_drop; [done|done|by rewrite Hr]. }
    assert (forall s0, nproj s0 s' -> nstack s0 t = f :: k -> nproj (nset_stack s0 t k) s') as Hpop.
    { intros s0 H0 Hst0. apply nproj_stack_l; [done|done|]. by rewrite Hst0, nstk_drop. }
    assert (forall p, nside (type_of f) p -> D (ip_ser p) = true) as HD.
    { intros p Hp'. unfold nside in Hp'. by rewrite Hp', Hk. }
    destruct f as [o b again|o b|o b i|o b i|o b|i g]; cbn [nptrs nidx] in *;
      unfold NewSpec.type_of in Hk, HD, Hgo, Hi; cbn [call_of] in *.
    - destruct (find_ty _ _) as [i|] eqn:Hf.
      + apply find_ty_lookup, (m_tys _ _ H) in Hf.
        destruct ((j =? 0) || again); injection Hs as <-; apply Hgo; try done; by split.
      + destruct again; [done|]. injection Hs as <-. apply Hgo; try done; by split.
    - injection Hs as <-. specialize (Hrs _ _ _ Hst). apply Hgo; [|done|done|by split].
      apply nproj_reserve_l; [done|by rewrite Hrs, Hk].
    - destruct (Nat.eqb_spec (length (nvec s (slot (op_ty o)))) i) as [<-|]; [|done]. injection Hs as <-.
      apply Hgo; [|done|done|by split]. by apply nproj_publish_l.
    - destruct (n_locks s !! _); [done|]. pose proof Hi as Hi2. rewrite Hk in Hi. simpl in Hi.
      destruct (bool_decide _).
      + destruct (existsb unwinds k) eqn:Hu; [done|]. injection Hs as <-. apply Hgo; [done|done|done|by split].
      + pose proof (nproj_lock_l s s' (slot (op_ty o)) i t H Hi) as HL.
        destruct o as [v|v|v|ty w q|ty w q|ty|ty].
        1-5: injection Hs as <-; apply Hgo; [done|done|done|by split_and!].
        * injection Hs as <-. apply Hgo; [done|done|done|]. split; [constructor|by split].
        * injection Hs as <-. apply Hgo; [|done|done|split; [constructor|by split]].
          apply nproj_event_l; [|done|done]. by apply nproj_put_l.
    - destruct b as [p|].
      + destruct (ifree (nmem s) p) as [m|] eqn:Hf; [|done]. injection Hs as <-.
        apply nproj_event_l; [|done|done]. apply Hpop; [|done]. apply nproj_mem_l; [done|].
        apply ifree_alter in Hf as [_ ->]. apply proj_alter_l; [apply H|apply HD; by inversion Hp|done].
      + injection Hs as <-. apply nproj_event_l; [|done|done]. by apply Hpop.
    - destruct g as [o b|o b|ty w q|o v|o p|o b r|o r]; try done;
        destruct Hi as [Hi Hty]; pose proof Hi as Hi2; rewrite Hk in Hi; simpl in Hi;
        pose proof (m_side _ _ H (slot (op_ty o)) i) as HS; rewrite Hi in HS.
      + destruct (ireadable _ _); [|done].
        destruct (ipick j _) as [p|] eqn:Hpk.
        * assert (nside (op_ty o) p) as Hsp.
          { unfold nside. rewrite Hk. eapply (npick_sub j _ p (λ p, D (ip_ser p) = true)); [|exact Hpk]. by apply ncands_sub. }
          destruct o as [v|v|v|ty w q|ty w q|ty|ty]; try done; injection Hs as <-; (apply Hgo; [done|done|done|]);
          (split; [|by split]); cbn [nptrs nres]; try (apply Forall_app; split; [done|]); by repeat constructor.
        * destruct o as [v|v|v|ty w q|ty w q|ty|ty]; try done.
          3:{ destruct b as [p|]; [|done]. destruct (ileak (nmem s) p) as [m|] eqn:Hf; [|done]. injection Hs as <-.
              apply Hgo; [|done|done|by split_and!]. apply nproj_mem_l; [done|].
              apply ileak_alter in Hf as [_ ->]. apply proj_alter_l; [apply H|apply HD; by inversion Hp|by intros ? ? [= <-]]. }
          all: injection Hs as <-; (apply Hgo; [done|done|done|]); split; [constructor|by split].
      + destruct (ialloc E (nmem s) a v true) as [[m p]|] eqn:Ha; [|done]. injection Hs as <-.
        destruct (alloc_D s a v true m p _ Ha Hfs eq_refl) as [Hd Hser].
        apply Hgo; [|done|done|].
        * apply nproj_mem_l; [done|]. eapply (proj_alloc_l E keep D (nmem s) (nmem s')); [apply H|exact Hd|by rewrite Hty|exact Ha].
        * split; [|by split]. cbn. constructor; [|constructor]. unfold nside. rewrite Hser, Hd, Hty. done.
      + inversion Hp as [|? ? Hp1 _]; subst.
        destruct (iread (nmem s) p) as [v|]; [|done]. destruct (ireadable _ _); [|done].
        destruct (candidates _ _ _) as [|p1 l]; injection Hs as <-; (apply Hgo; [|done|done|by split_and!]); [|done].
        apply nproj_event_l; [|done|done]. apply nproj_put_l; [done|done|]. rewrite Hi. constructor; [by apply HD|done].
      + apply Forall_app in Hp as [Hb Hr]. destruct b as [p|].
        * destruct (ifree (nmem s) p) as [m|] eqn:Hf; [|done]. injection Hs as <-.
          apply Hgo; [|done|done|by split_and!]. apply nproj_mem_l; [done|].
          apply ifree_alter in Hf as [_ ->]. apply proj_alter_l; [apply H|apply HD; by inversion Hb|done].
        * injection Hs as <-. apply Hgo; [done|done|done|]. by split_and!.
      + injection Hs as <-. apply nproj_event_l; [|destruct r; try done; by inversion Hp|done].
        apply Hpop; [|done]. by apply nproj_unlock_l.
  Qed.

  (** ** Panics and conversions *)
  Definition turns f f' : Prop := type_of f' = type_of f /\ nfok f'.
  Lemma turn_kept s s' t f f' k : nproj s s' -> nstack s t = f :: k -> keep (type_of f) = true -> turns f f' ->
    nproj (nset_stack s t (f' :: k)) (nset_stack s' t (mf f' :: nstk k)).
  Proof.
    intros H Hst Hk [Ht Hf]. rewrite <- nstk_keep by (by rewrite Ht). apply nproj_stack; [done|].
    pose proof (m_frames _ _ H t) as HF. rewrite Hst in HF. apply Forall_cons_1 in HF as [_ HF]. by constructor.
  Qed.
  Lemma turn_removed s s' t f f' k : nproj s s' -> nstack s t = f :: k -> keep (type_of f) = false -> turns f f' ->
    nproj (nset_stack s t (f' :: k)) s'.
  Proof.
    intros H Hst Hk [Ht Hf]. pose proof (m_frames _ _ H t) as HF. rewrite Hst in HF. apply Forall_cons_1 in HF as [_ HF].
    apply nproj_stack_l; [done|by constructor|]. rewrite Hst, !nstk_drop; [done|done|by rewrite Ht].
  Qed.
  Lemma panic_turns s s' t s2 : nproj s s' -> nstep_panic s t = Next s2 ->
    exists f f' k, nstack s t = f :: k /\ s2 = nset_stack s t (f' :: k) /\ turns f f' /\
      (keep (type_of f) = true -> nstep_panic s' t = Next (nset_stack s' t (mf f' :: nstk k))).
  Proof.
    intros H. unfold nstep_panic. destruct (nstack s t) as [|f k] eqn:Hst; [done|].
    destruct (existsb unwinds (f :: k)) eqn:Hu; [done|]. pose proof (nstk_unwinds _ Hu) as Hu'.
    pose proof (m_frames _ _ H t) as HF. rewrite Hst in HF. apply Forall_cons_1 in HF as [[Hp Hi] _].
    intros Hs.
    destruct f as [| | | | |i [o b|o b|ty w q|o v|o p|o b r|o r]]; try done; injection Hs as <-.
    - exists (NIn i (FGet o b)), (NIn i (FDup o b RPanic)), k. split_and!; [done|done| |].
      + split; [done|]. split; [|apply Hi]. cbn. by rewrite app_nil_r.
      + intros Hk. rewrite (m_threads _ _ H), Hst. rewrite nstk_keep in Hu' |- * by done. rewrite Hu'. done.
    - exists (NIn i (FConv ty w q)), (NIn i (FDone (ORef ty w q) RPanic)), k. split_and!; [done|done| |].
      + split; [done|]. split; [constructor|apply Hi].
      + intros Hk. rewrite (m_threads _ _ H), Hst. rewrite nstk_keep in Hu' |- * by done. rewrite Hu'. done.
    - exists (NIn i (FIns o p)), (NIn i (FDone o RPanic)), k. split_and!; [done|done| |].
      + split; [done|]. split; [constructor|apply Hi].
      + intros Hk. rewrite (m_threads _ _ H), Hst. rewrite nstk_keep in Hu' |- * by done. rewrite Hu'. done.
    - exists (NIn i (FDup o b r)), (NIn i (FDup o b RPanic)), k. split_and!; [done|done| |].
      + split; [done|]. split; [|apply Hi]. cbn in *. rewrite app_nil_r. by apply Forall_app in Hp as [Hp _].
      + intros Hk. rewrite (m_threads _ _ H), Hst. rewrite nstk_keep in Hu' |- * by done. rewrite Hu'. done.
  Qed.
  Lemma conv_turns s s' t v s2 : nproj s s' -> nstep E s (IConv t v) = Next s2 ->
    exists f f' k, nstack s t = f :: k /\ s2 = nset_stack s t (f' :: k) /\ turns f f' /\
      (keep (type_of f) = true -> nstep E s' (IConv t v) = Next (nset_stack s' t (mf f' :: nstk k))).
  Proof.
    intros H. simpl. destruct (nstack s t) as [|f k] eqn:Hst; [done|].
    pose proof (m_frames _ _ H t) as HF. rewrite Hst in HF. apply Forall_cons_1 in HF as [[Hp Hi] _].
    destruct f as [| | | | |i [o b|o b|ty w q|o v'|o p|o b r|o r]]; try done.
    destruct (ie_from E w q v && (ie_ty E v =? ty)) eqn:Hc; [|done]. intros [= <-].
    exists (NIn i (FConv ty w q)), (NIn i (FStore (ORef ty w q) v)), k. split_and!; [done|done| |].
    - split; [done|]. split; [constructor|]. split; [apply Hi|]. simpl. lia.
    - intros Hk. rewrite (m_threads _ _ H), Hst, nstk_keep by done. cbn [ren_nframe ren_frame]. by rewrite Hc.
  Qed.
  Lemma turned s s' t (l : ilabel V Q) s2 : nproj s s' ->
    (exists f f' k, nstack s t = f :: k /\ s2 = nset_stack s t (f' :: k) /\ turns f f' /\
      (keep (type_of f) = true -> nstep E s' l = Next (nset_stack s' t (mf f' :: nstk k)))) ->
    nproj s2 s' \/ exists s2', nstep E s' l = Next s2' /\ nproj s2 s2'.
  Proof.
    intros H (f&f'&k&Hst&->&Ht&Hs). destruct (keep (type_of f)) eqn:Hk.
    - right. eexists. split; [by apply Hs|]. by eapply turn_kept.
    - left. by eapply turn_removed.
  Qed.

  (** ** Calls and uses of handles *)
  Lemma call_step s s' t o a s2 : nproj s s' -> (forall f k, nstack s t = f :: k -> forall f', f' ∈ k -> nin_user f' = true) ->
    nstep E s (ICall t o a) = Next s2 -> nforeseen s (ICall t o a) s2 ->
    (keep (op_ty o) = false /\ nproj s2 s') \/
    (keep (op_ty o) = true /\ exists s2', nstep E s' (ICall t o a) = Next s2' /\ nproj s2 s2').
  Proof.
    intros H HB Hs [Hfs _]. simpl in *.
    destruct (match nstack s t with f :: _ => nin_user f | [] => true end) eqn:Hu; [|done].
    assert (match nstack s' t with f :: _ => nin_user f | [] => true end = true) as ->.
    { assert (forall f, f ∈ nstack s t -> nin_user f = true) as Hall.
      { intros f Hf. destruct (nstack s t) as [|f0 k] eqn:Hst; [by apply elem_of_nil in Hf|].
        apply elem_of_cons in Hf as [->|Hf]; [done|]. by eapply HB. }
      rewrite (m_threads _ _ H). destruct (nstk (nstack s t)) as [|f' k'] eqn:Hg; [done|].
      destruct (nstk_in f' (nstack s t)) as (f&->&Hf&_); [rewrite Hg; by left|]. rewrite mnf_user. by apply Hall. }
    rewrite (m_threads _ _ H). pose proof (m_frames _ _ H t) as HF.
    assert (forall s0 s0' b, nproj s0 s0' -> keep (op_ty o) = true -> Forall (nside (op_ty o)) (nopt b) ->
      nproj (nset_stack s0 t (NScan o b false :: nstack s t))
        (nset_stack s0' t (NScan o (mp <$> b) false :: nstk (nstack s t)))) as Hk1.
    { intros s0 s0' b H0 Hk Hb. pose proof (nproj_stack s0 s0' t (NScan o b false :: nstack s t) H0) as HN.
      rewrite nstk_keep in HN by done. apply HN. constructor; [|done]. by split. }
    assert (forall s0 b, nproj s0 s' -> nstack s0 t = nstack s t -> keep (op_ty o) = false -> Forall (nside (op_ty o)) (nopt b) ->
      nproj (nset_stack s0 t (NScan o b false :: nstack s t)) s') as Hk2.
    { intros s0 b H0 Hst Hk Hb. apply nproj_stack_l; [done| |]. { constructor; [|done]. by split. }
      by rewrite nstk_drop, Hst by done. }
    destruct (keep (op_ty o)) eqn:Hk; [right|left]; (split; [done|]).
    - destruct o as [v|v|v|ty w q|ty w q|ty|ty]; try done.
      3:{ destruct (ialloc E (nmem s) a v false) as [[m p]|] eqn:Ha; [|done]. injection Hs as <-.
          destruct (alloc_D s a v false m p _ Ha Hfs eq_refl) as [Hd Hser].
          destruct (proj_alloc E keep D (nmem s) (nmem s') a v false m p) as (m'&->&Hm); [apply H|done|done|done|].
          eexists; split; [reflexivity|]. apply (Hk1 _ _ (Some p)); [by apply nproj_mem|done|].
          constructor; [|constructor]. unfold nside. by rewrite Hser, Hd. }
      all: injection Hs as <-; (eexists; split; [reflexivity|]); apply (Hk1 _ _ None); [done|done|constructor].
    - destruct o as [v|v|v|ty w q|ty w q|ty|ty]; try done.
      3:{ destruct (ialloc E (nmem s) a v false) as [[m p]|] eqn:Ha; [|done]. injection Hs as <-.
          destruct (alloc_D s a v false m p _ Ha Hfs eq_refl) as [Hd Hser].
          apply Hk2; [|done|done|].
          - apply nproj_mem_l; [done|]. eapply (proj_alloc_l E keep D (nmem s) (nmem s')); [apply H|exact Hd|done|exact Ha].
          - constructor; [|constructor]. unfold nside. by rewrite Hser, Hd. }
      all: injection Hs as <-; apply Hk2; [done|done|done|constructor].
  Qed.
  Lemma deref_step s s' p s2 : nproj s s' -> nstep E s (IDeref p) = Next s2 ->
    nproj s2 s' \/ exists s2', nstep E s' (IDeref (mp p)) = Next s2' /\ nproj s2 s2'.
  Proof.
    intros H. simpl. destruct (returned p (n_log s)) eqn:Hret; [|done].
    destruct (iread (nmem s) p) as [v|] eqn:Hr; [|done]. intros [= <-].
    destruct (keep (ie_ty E v)) eqn:Hk; [right|left; by apply nproj_event_l].
    apply returned_in in Hret as (t&o&Hin). pose proof (m_rets _ _ H _ _ _ Hin) as Hsd. unfold nside in Hsd.
    assert (D (ip_ser p) = false) as Hd.
    { unfold iread in Hr. destruct (i_objs (nmem s) !! ip_ser p) as [x|] eqn:Hx; [|done]. injection Hr as <-.
      rewrite (p_D _ _ _ _ _ (m_mem _ _ H) _ _ Hx). by rewrite Hk. }
    assert (keep (op_ty o) = true) as Hko by (rewrite Hd in Hsd; by destruct (keep (op_ty o))).
    assert (returned (mp p) (n_log s') = true) as ->.
    { apply returned_in. exists t, o. rewrite (m_log _ _ H). apply elem_of_list_In, in_map_iff.
      exists (EvRet t o (RPtr p)). split; [done|]. apply filter_In. split; [by apply elem_of_list_In|done]. }
    rewrite (proj_read E keep D (nmem s) (nmem s')) by (first [apply H|done]). rewrite Hr.
    eexists. split; [reflexivity|]. by apply (nproj_event _ _ (EvRead p v)).
  Qed.

  (** ** One step *)
  Definition nbelow s : Prop := forall t f k, nstack s t = f :: k -> forall f', f' ∈ k -> nin_user f' = true.
  Lemma nproj_step s s' l s2 : nproj s s' -> nbelow s -> nstep E s l = Next s2 -> nforeseen s l s2 ->
    nproj s2 s' \/
    (exists s2', nstep E s' (ren_label ρ l) = Next s2' /\ nproj s2 s2') /\
      forall t o a, l = ICall t o a -> keep (op_ty o) = true.
  Proof.
    intros H HB Hs Hfs. destruct l as [t o a|t a j|t v|t|p].
    - destruct (call_step s s' t o a s2) as [[_ H1]|[Hk H1]]; [done|by apply HB|done|done|by left|].
      right. split; [done|]. by intros ? ? ? [= <- <- <-].
    - simpl in Hs. destruct (nstack s t) as [|f k] eqn:Hst; [unfold nstep_thread in Hs; by rewrite Hst in Hs|].
      destruct (keep (type_of f)) eqn:Hk; [right; split; [|done]|left].
      + by apply (nkept_thread s s' t a j s2 f k).
      + by apply (nremoved_thread s s' t a j s2 f k).
    - destruct (turned s s' t (IConv t v) s2) as [?|?]; [done|by apply conv_turns|by left|by right].
    - destruct (turned s s' t (IPanic t) s2) as [?|?]; [done|by apply panic_turns|by left|by right].
    - destruct (deref_step s s' p s2) as [?|?]; [done|done|by left|by right].
  Qed.

  (** ** Executions *)
  Fixpoint nforesees s (ls : list (ilabel V Q)) : Prop :=
    match ls with
    | [] => True
    | l :: ls => match nstep E s l with Next s1 => nforeseen s l s1 /\ nforesees s1 ls | _ => nforesees s ls end
    end.
  Lemma nproj_run ls : forall s s' s2, nproj s s' -> PInv E s -> nforesees s ls ->
    run (nstep E) s ls = Some s2 ->
    exists ls' s2', run (nstep E) s' ls' = Some s2' /\ nproj s2 s2' /\ ls' `sublist_of` map (ren_label ρ) ls /\
      forall t o a, ICall t o a ∈ ls' -> keep (op_ty o) = true.
  Proof.
    induction ls as [|l ls IH]; intros s s' s2 H HI HF Hr.
    - simpl in Hr. injection Hr as <-. exists [], s'. split_and!; [done|done|constructor|]. intros t o a Hin. by apply elem_of_nil in Hin.
    - simpl in Hr, HF. unfold exec in Hr. destruct (nstep E s l) as [s1| | |] eqn:Hs; [|..|done].
      + destruct HF as [Hf HF]. pose proof (pinv_step _ _ _ _ HI Hs) as HI1.
        destruct (nproj_step s s' l s1) as [H1|[(s1'&Hs'&H1) Hc]]; [done|exact (p_below _ _ HI)|done|done| |].
        * destruct (IH s1 s' s2) as (ls'&s2'&?&?&?&?); [done..|]. exists ls', s2'. split_and!; [done|done|by constructor|done].
        * destruct (IH s1 s1' s2) as (ls'&s2'&?&?&?&Hk); [done..|].
          exists (ren_label ρ l :: ls'), s2'. split_and!; [|done|by constructor|].
          -- simpl. unfold exec. by rewrite Hs'.
          -- intros t o a [Heq|Hin]%elem_of_cons; [|by eapply Hk]. apply (Hc t o a). by destruct l.
      + destruct (IH s s' s2) as (ls'&s2'&?&?&?&?); [done..|]. exists ls', s2'. split_and!; [done|done|by constructor|done].
      + destruct (IH s s' s2) as (ls'&s2'&?&?&?&?); [done..|]. exists ls', s2'. split_and!; [done|done|by constructor|done].
  Qed.
  Lemma nproj_init : nproj ninit ninit.
  Proof.
    constructor; try done.
    - intros t. unfold nstack. simpl. constructor.
    - intros c i. unfold nset. simpl. rewrite lookup_empty. constructor.
    - intros t o p H. by apply elem_of_nil in H.
  Qed.
End isol.

Section prophecy.
  Context {V Q : Type} (E : ienv V Q) (keep : nat -> bool).
  Implicit Types (s : nstate V Q).
  Notation slot := (slot E).
  Notation op_ty := (op_ty E).
  Lemma nresv_mono s l s' c : nstep E s l = Next s' -> nresv s c <= nresv s' c.
  Proof.
    intros [p v -> ->|t o b a _ _ _ _ _ _ Hr|t f fs' k _ _ _ _ _ _ _ Hv]%nstep_shape; [done|unfold nresv; by rewrite Hr|].
    destruct Hv as [_ Hr _ _|o b _ _ _ Hr|o b i _ _ _ _ Hr]; unfold nresv; rewrite Hr; [done| |done].
    destruct (decide (slot (op_ty o) = c)) as [<-|]; [|by rewrite lookup_insert_ne].
    rewrite lookup_insert. unfold nresv. simpl. lia.
  Qed.
  Lemma nnext_mono s l s' : nstep E s l = Next s' -> n_next s <= n_next s'.
  Proof.
    destruct l as [t o a|t a j|t v|t|p]; simpl.
    - destruct (match nstack s t with f :: _ => nin_user f | [] => true end); [|done].
      destruct o as [v|v|v|ty w q|ty w q|ty|ty]; try done; try (intros [= <-]; simpl; lia).
      unfold ialloc. destruct (_ || _); [|done]. intros [= <-]. simpl. lia.
    - unfold nstep_thread, ialloc, ileak, ifree. intros H. repeat case_match; try done; simplify_eq/=; lia.
    - intros H. repeat case_match; try done; simplify_eq/=; lia.
    - unfold nstep_panic. intros H. repeat case_match; try done; simplify_eq/=; lia.
    - intros H. repeat case_match; try done; simplify_eq/=; lia.
  Qed.
  Lemma nforesees_ext D Dv D' Dv' ls : forall s, (forall n, n_next s <= n -> D n = D' n) ->
    (forall c i, nresv s c <= i -> Dv c i = Dv' c i) -> nforesees E keep D Dv s ls -> nforesees E keep D' Dv' s ls.
  Proof.
    induction ls as [|l ls IH]; intros s Hd Hv; simpl; [done|].
    destruct (nstep E s l) as [s1| | |] eqn:Hs; [|by apply IH..]. intros [[Hf Hr] HF]. split; [split|].
    - intros x Hx. simpl. rewrite <- (Hd (n_next s)) by lia. by apply Hf.
    - destruct l; try done. intros o b k Hst. rewrite <- Hv by lia. by eapply Hr.
    - apply (IH s1); [| |done].
      + intros n Hn. apply Hd. apply nnext_mono in Hs. lia.
      + intros c i Hi. apply Hv. apply (nresv_mono _ _ _ c) in Hs. lia.
  Qed.
  Lemma nforesees_exists ls : forall s, NInv E s -> exists D Dv, nforesees E keep D Dv s ls.
  Proof.
    induction ls as [|l ls IH]; intros s HI; simpl; [by exists (λ _, false), (λ _ _, false)|].
    destruct (nstep E s l) as [s1| | |] eqn:Hs; [|by apply IH..].
    pose proof (nstep_inv _ _ _ _ HI Hs) as HI1. destruct (IH s1 HI1) as (D1&Dv1&H1).
    assert (exists Dv, (forall c i, nresv s1 c <= i -> Dv1 c i = Dv c i) /\
      match l with
      | IStep t _ _ => forall o b k, nstack s t = NPush o b :: k ->
          Dv (slot (op_ty o)) (nresv s (slot (op_ty o))) = negb (keep (op_ty o))
      | _ => True
      end) as (Dv&Hv&HDv).
    { destruct l as [t o a|t a j|t v|t|p]; try (by exists Dv1).
      destruct (nstack s t) as [|f k] eqn:Hst; [by exists Dv1|].
      destruct f as [o b again|o b|o b i|o b i|o b|i g]; try (by exists Dv1).
      exists (λ c i, if (c =? slot (op_ty o)) && (i =? nresv s (slot (op_ty o))) then negb (keep (op_ty o)) else Dv1 c i). split.
      - simpl in Hs. unfold nstep_thread in Hs. rewrite Hst in Hs. injection Hs as <-. intros c i Hi.
        change (nresv (nset_stack (nreserve s (slot (op_ty o))) t (NPub o b (nresv s (slot (op_ty o))) :: k)) c)
          with (nresv (nreserve s (slot (op_ty o))) c) in Hi.
        rewrite nresv_res in Hi. destruct (Nat.eqb_spec c (slot (op_ty o))) as [->|]; [|done].
        rewrite decide_True in Hi by done. destruct (Nat.eqb_spec i (nresv s (slot (op_ty o)))); [lia|done].
      - intros o' b' k' [= -> -> ->]. by rewrite !Nat.eqb_refl. }
    destruct (n_objs s1 !! n_next s) as [x|] eqn:Hx.
    - exists (λ n, if n =? n_next s then negb (keep (ie_ty E (io_val x))) else D1 n), Dv. split; [split; [|done]|].
      + intros y Hy. simpl in *. rewrite Nat.eqb_refl. by simplify_eq.
      + eapply nforesees_ext; [| |exact H1]; [|done]. intros n Hn. destruct HI1 as (st&HI1&_&HR).
        assert (n_next s < n_next s1).
        { rewrite <- (r_next _ _ _ (r_base _ _ _ HR)). apply (v_fresh _ _ HI1 _ x).
          by rewrite (r_objs _ _ _ (r_base _ _ _ HR)). }
        destruct (Nat.eqb_spec n (n_next s)) as [->|]; [lia|done].
    - exists D1, Dv. split; [split; [|done]|].
      + intros y Hy. simpl in Hy. congruence.
      + by eapply nforesees_ext; [| |exact H1].
  Qed.
End prophecy.

Theorem new_types_isolated {V Q : Type} (E : ienv V Q) keep ls s :
  run (nstep E) ninit ls = Some s ->
  exists (ρ : nat -> nat) (σ : nat -> nat -> nat) ls' s',
    run (nstep E) ninit ls' = Some s' /\
    ls' `sublist_of` map (ren_label ρ) ls /\
    (forall t o a, ICall t o a ∈ ls' -> keep (op_ty E o) = true) /\
    n_log s' = map (ren_event ρ) (about (event_ty E) keep (n_log s)) /\
    (forall t, nstack s' t = map (ren_nframe E ρ σ) (about (type_of E) keep (nstack s t))) /\
    (forall c, nvec s' c = about (λ ty, ty) keep (nvec s c)) /\
    (forall c i ty, nvec s c !! i = Some ty -> keep ty = true ->
      nvec s' c !! σ c i = Some ty /\
      nset s' (c, σ c i) = map (ren_ptr ρ) (nset s (c, i)) /\
      n_locks s' !! (c, σ c i) = n_locks s !! (c, i) /\
      ((c, σ c i) ∈ n_poison s' <-> (c, i) ∈ n_poison s)) /\
    (forall n x, n_objs s !! n = Some x -> keep (ie_ty E (io_val x)) = true -> n_objs s' !! ρ n = Some x) /\
    (forall m x, n_objs s' !! m = Some x -> exists n, m = ρ n /\ n_objs s !! n = Some x /\ keep (ie_ty E (io_val x)) = true) /\
    (forall n m x y, n_objs s !! n = Some x -> n_objs s !! m = Some y ->
      keep (ie_ty E (io_val x)) = true -> keep (ie_ty E (io_val y)) = true -> ρ n = ρ m -> n = m) /\
    (forall c i j ty u, nvec s c !! i = Some ty -> nvec s c !! j = Some u -> keep ty = true -> keep u = true ->
      σ c i = σ c j -> i = j).
Proof.
  intros Hr. destruct (nforesees_exists E keep ls ninit (ninv_init E)) as (D&Dv&HF).
  destruct (nproj_run E keep D Dv ls ninit ninit s) as (ls'&s'&Hr'&HP&Hsub&Hc);
    [apply nproj_init|apply pinv_init|done|done|].
  exists (rank D), (λ c, rank (Dv c)), ls', s'. pose proof (m_mem _ _ _ _ _ _ HP) as HM.
  assert (forall n x, n_objs s !! n = Some x -> keep (ie_ty E (io_val x)) = true -> D n = false) as HD.
  { intros n x Hx Hk. rewrite (p_D _ _ _ _ _ HM n x Hx). by rewrite Hk. }
  split_and!; [done|done|done|apply HP|apply HP|apply HP| | | | |].
  - intros c i ty Hi Hk. assert (Dv c i = false) as Hd by (rewrite (m_tys _ _ _ _ _ _ HP _ _ _ Hi); by rewrite Hk).
    split_and!; [|by apply HP|by apply HP|by apply HP..].
    rewrite (m_vec _ _ _ _ _ _ HP). apply filter_lookup; [apply HP|done|done].
  - intros n x Hx Hk. rewrite <- Hx. apply (p_objs _ _ _ _ _ HM n). by eapply HD.
  - intros m x Hx. destruct (p_dom _ _ _ _ _ HM m x Hx) as (n&Hn&->). exists n. split; [done|].
    pose proof (p_objs _ _ _ _ _ HM n Hn) as Ho. simpl in Ho. rewrite Hx in Ho. split; [done|].
    symmetry in Ho. pose proof (p_D _ _ _ _ _ HM n x Ho) as Hd. rewrite Hn in Hd. by destruct (keep _).
  - intros n m x y Hx Hy Hkx Hky. apply rank_inj; by eapply HD.
  - intros c i j ty u Hi Hj Hkt Hku. apply rank_inj.
    + rewrite (m_tys _ _ _ _ _ _ HP _ _ _ Hi). by rewrite Hkt.
    + rewrite (m_tys _ _ _ _ _ _ HP _ _ _ Hj). by rewrite Hku.
Qed.

(** Send and Sync: the values in the heap of the ArcIntern model. *)
From stdpp Require Import gmap list numbers.
From Verif Require Import Base ArcModel.
From Verif Require Import TraitModel TraitSpec.

Section arc.
  Context {V : Type} (B : traits) (E : tyenv V) (P : V -> Prop).
  Implicit Types (st : state V) (h : gmap nat (cell V)) (m : gmap nat (pc V)).

  Definition pc_val (x : pc V) : option V :=
    match x with
    | PLookup _ v _ | PHit _ v _ _ | PInc _ v _ _ _ | PUndo _ v _ _ | PAlloc _ v _ | PEntry _ v _
    | PVac _ v _ | POcc _ v _ | PIns _ v _ => Some v
    | _ => None
    end.
  Definition HV h : Prop := forall a c d, h !! a = Some c -> c_data c = Some d -> P d.
  Definition TV m : Prop := forall t x v, m !! t = Some x -> pc_val x = Some v -> P v.
  Lemma hv_insert h a c : HV h -> (forall d, c_data c = Some d -> P d) -> HV (<[a:=c]> h).
  Proof. intros Hh Hc b x d [[_ <-]|[_ H]]%lookup_insert_Some; [apply Hc|by apply (Hh b)]. Qed.
  Lemma hv_delete h a : HV h -> HV (delete a h).
  Proof. intros Hh b x d [_ H]%lookup_delete_Some. by apply (Hh b). Qed.
  Lemma tv_insert m t x : TV m -> (forall v, pc_val x = Some v -> P v) -> TV (<[t:=x]> m).
  Proof. intros Hm Hx u y v [[_ <-]|[_ H]]%lookup_insert_Some; [apply Hx|by apply (Hm u)]. Qed.
  Lemma hv_deref st p c d : HV (st_heap st) -> deref st p = Some c -> c_data c = Some d -> P d.
  Proof.
    unfold deref. intros Hh. destruct (st_heap st !! p_addr p) as [c'|] eqn:Hl; [|done].
    destruct (_ =? _); [|done]. intros [= <-]. by apply (Hh (p_addr p)).
  Qed.
  Lemma tv_pc st t x v : TV (st_threads st) -> get_pc st t = x -> pc_val x = Some v -> P v.
  Proof.
    unfold get_pc. intros Hm. destruct (st_threads st !! t) as [y|] eqn:Hl; simpl; [|by intros <-].
    intros ->. by apply (Hm t).
  Qed.
  Lemma avals_step st l st' : HV (st_heap st) -> TV (st_threads st) -> (forall t k v, l = LNew t k v -> P v) ->
    step E st l = Next st' -> HV (st_heap st') /\ TV (st_threads st').
  Proof.
    intros Hh Hm Hc Hs.
    assert (forall t x v, get_pc st t = x -> pc_val x = Some v -> P v) as Hpc by eauto using tv_pc.
    assert (forall p c d, deref st p = Some c -> c_data c = Some d -> P d) as Hd by eauto using hv_deref.
    destruct l as [t k v|t p|p ks|p|p ks|p ks|t ty|t ty|t a i|t]; simpl in Hs; unfold step_thread, step_panic in Hs;
      repeat (case_match; try done; simplify_eq); simpl;
      try (split; repeat first [apply hv_insert|apply hv_delete|apply tv_insert|assumption]; simpl; try done);
      try (intros ? [= <-]); eauto.
  Qed.
  Lemma avals_run ls st : (forall t k v, LNew t k v ∈ ls -> P v) -> run (step E) init ls = Some st ->
    HV (st_heap st) /\ TV (st_threads st).
  Proof.
    revert st. induction ls as [|l ls IH] using rev_ind; intros st Hc.
    { intros [= <-]. split; intros ? ? ? H; simpl in H; by rewrite lookup_empty in H. }
    rewrite run_snoc. destruct (run (step E) init ls) as [st1|] eqn:Hr; [|done].
    destruct (IH st1) as [H1 H2]; [|done|].
    { intros t k v Hin. apply (Hc t k v), elem_of_app. by left. }
    unfold exec. destruct (step E st1 l) eqn:Hs; try done; intros [= <-]; [|done..].
    eapply avals_step; try done. intros t k v ->. apply (Hc t k v), elem_of_app. right. by left.
  Qed.
End arc.
Theorem arc_traits {V : Type} (B : traits) (E : tyenv V) ls st p d :
  arc_compiles B E ls -> run (step E) init ls = Some st -> data st p = Some d ->
  sends B (tr_type B (te_ty E d)) /\ syncs B (tr_type B (te_ty E d)).
Proof.
  intros Hc Hr Hd.
  destruct (avals_run E (λ v, meets_bounds (tr_send B) (tr_sync B) (tr_type B (te_ty E v)) = true) ls st Hc Hr) as [Hh _].
  unfold data in Hd. destruct (deref st p) as [c|] eqn:Hp; [|done]. apply andb_true_iff.
  exact (hv_deref _ st p c d Hh Hp Hd).
Qed.


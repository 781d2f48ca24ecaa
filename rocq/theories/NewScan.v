(** Proofs for C72: how many sets the push race of typearena.rs creates. *)
From stdpp Require Import gmap list numbers.
From Verif Require Import Base InternModel InternSpec InternInv InternStep InternLaw InternFinal InternMore
  NewModel NewSpec NewSim NewStep NewFinal NewScanModel.
Require Import ZifyBool ZifyNat ZifyN.

Section scan.
  Context {V Q : Type} (E : ienv V Q).
  Implicit Types (s : nstate V Q) (o : iop V Q) (g : frame V Q) (f : nframe V Q) (t ty c i : nat) (x : cstate V Q).
  Implicit Types (ls : list (ilabel V Q)).
  Notation op_ty := (op_ty E).
  Notation slot := (slot E).
  Notation first := (first E).
  Notation NInv := (NInv E).
  Notation type_of := (type_of E).

  (** The call has found its set. *)
  Definition settled f : Prop := match f with NScan _ _ _ | NPush _ _ | NPub _ _ _ => False | _ => True end.
  Lemma settled_user f : nin_user f = true -> settled f.
  Proof. by destruct f. Qed.

  Ltac kd H Hst := injection H as <-; split;
    [ intros f'; unfold nstack; cbn [n_threads nset_stack nevent with_mem nunlock nput nlock]; rewrite lookup_insert; cbn [default from_option id];
      first [ intros [= <-]; exact I | intros Hx; exfalso; apply (f_equal length) in Hx; simpl in Hx; lia ]
    | intros u oo rr; cbn [n_log nset_stack nevent with_mem nunlock nput nlock]; rewrite ?elem_of_cons; intros Hx; first [by left | destruct Hx as [Hx|Hx]; [injection Hx as -> -> ->; by right || (first [discriminate Hx|by right])|by left] | destruct Hx as [Hx|Hx]; [discriminate Hx|by left]] ].
  Lemma nstep_kind s l s' t f k :
    nstep E s l = Next s' -> lab_thread l = Some t -> (forall o a, l <> ICall t o a) -> nstack s t = f :: k -> settled f ->
    (forall f', nstack s' t = f' :: k -> settled f') /\
    (forall u o r, EvRet u o r ∈ n_log s' -> EvRet u o r ∈ n_log s \/ u = t /\ o = call_of f).
  Proof.
    intros H Hl Hc Hst Hs. destruct l as [t' o a|t' a j|t' v|t'|p]; simplify_eq/=.
    - by destruct (Hc o a).
    - unfold nstep_thread in H. rewrite Hst in H. destruct f as [o b again|o b|o b i|o b i|o b|i g]; try done.
      + destruct (n_locks s !! _) eqn:Hlk; [done|]. destruct (bool_decide _) eqn:Hp.
        * destruct (existsb unwinds k); [done|]. kd H Hst.
        * destruct o as [v|v|v|ty w q|ty w q|ty|ty]; kd H Hst.
      + destruct b as [p|].
        * destruct (ifree (nmem s) p) as [m|]; [|done]. kd H Hst.
        * kd H Hst.
      + destruct g as [o b|o b|ty w q|o v|o p|o b r|o r]; try done.
        * destruct (ireadable _ _); [|done].
          destruct (ipick j _) as [p|]; destruct o; try done; first
            [ kd H Hst | destruct b as [p|]; [|done]; destruct (ileak (nmem s) p) as [m|]; [|done]; kd H Hst ].
        * destruct (ialloc E (nmem s) a v true) as [[m p]|]; [|done]. kd H Hst.
        * destruct (iread (nmem s) p) as [v|]; [|done]. destruct (ireadable _ _); [|done].
          destruct (candidates _ _ _); kd H Hst.
        * destruct b as [p|].
          -- destruct (ifree (nmem s) p) as [m|]; [|done]. kd H Hst.
          -- kd H Hst.
        * kd H Hst.
    - rewrite Hst in H. destruct f as [| | | | |i []]; try done.
      destruct (_ && _); [|done]. kd H Hst.
    - unfold nstep_panic in H. rewrite Hst in H.
      destruct (existsb unwinds (f :: k)); [done|]. destruct f as [| | | | |i g]; try done.
      destruct g; try done; kd H Hst.
  Qed.

  (** Thread [t] has read or written a count that covers a set of type [ty]. *)
  Definition knows x t ty : Prop := exists i, i < seen x t (slot ty) /\ nvec (c_new x) (slot ty) !! i = Some ty.
  Definition making f : Prop := match f with NPush _ _ | NPub _ _ _ => True | _ => False end.
  Definition who (C : nat -> nat -> Prop) x : Prop :=
    exists P : nat -> list (nat * nat), forall c, (P c).*2 = nvec (c_new x) c /\ NoDup (P c) /\
      forall t ty, (t, ty) ∈ P c -> c = slot ty /\ knows x t ty /\ C t ty.
  Record CInv (C : nat -> nat -> Prop) x : Prop := {
    ci_n : NInv (c_new x);
    ci_len : forall t c, seen x t c <= length (nvec (c_new x) c);
    ci_below : forall t f k, nstack (c_new x) t = f :: k -> Forall settled k;
    ci_set : forall t f, f ∈ nstack (c_new x) t -> settled f -> knows x t (type_of f);
    ci_again : forall t o b, NScan o b true ∈ nstack (c_new x) t -> knows x t (op_ty o);
    ci_make : forall t f, f ∈ nstack (c_new x) t -> making f -> ~ knows x t (type_of f);
    ci_log : forall t o r, EvRet t o r ∈ n_log (c_new x) -> knows x t (op_ty o);
    ci_call : forall t f, f ∈ nstack (c_new x) t -> C t (type_of f);
    ci_who : who C x;
  }.
  Lemma settled_making f : settled f -> ~ making f.
  Proof. by destruct f; simpl; intros ? ?. Qed.

  Lemma cinv_upd C x x' t fs fs' k :
    CInv C x -> NInv (c_new x') -> who C x' ->
    (forall u ty, u <> t -> knows x' u ty <-> knows x u ty) -> (forall ty, knows x t ty -> knows x' t ty) ->
    (forall u c, seen x' u c <= length (nvec (c_new x') c)) ->
    nstack (c_new x) t = fs ++ k -> n_threads (c_new x') = <[t:=fs' ++ k]> (n_threads (c_new x)) ->
    Forall settled k -> length fs' <= 1 ->
    (forall f, f ∈ fs' -> (settled f -> knows x' t (type_of f)) /\ (forall o b, f = NScan o b true -> knows x' t (op_ty o)) /\
       (making f -> ~ knows x' t (type_of f)) /\ C t (type_of f)) ->
    (forall u o r, EvRet u o r ∈ n_log (c_new x') -> EvRet u o r ∈ n_log (c_new x) \/ knows x' u (op_ty o)) ->
    CInv C x'.
  Proof.
    intros HI HN HW Hne Hkt Hlen Hst Ht Hk Hfs Hnew Hlog.
    assert (forall u f, f ∈ nstack (c_new x') u -> u = t /\ f ∈ fs' \/ u = t /\ f ∈ k /\ settled f /\ f ∈ nstack (c_new x) t \/
      u <> t /\ f ∈ nstack (c_new x) u) as Hfr.
    { intros u f. rewrite (stack_ins _ _ t _ u Ht). destruct (decide (t = u)) as [<-|]; [|right; right; by split].
      intros [Hin|Hin]%elem_of_app; [by left|]. right. left. split_and!; [done|done| |].
      - pose proof Hk as Hk'. rewrite list.Forall_forall in Hk'. by apply Hk'.
      - rewrite Hst. apply elem_of_app. by right. }
    assert (forall u ty, knows x u ty -> knows x' u ty) as Hkn.
    { intros u ty. destruct (decide (u = t)) as [->|]; [apply Hkt|]. by apply Hne. }
    constructor; [done|done| | | | | | |done].
    - intros u f k'. rewrite (stack_ins _ _ t _ u Ht). destruct (decide (t = u)) as [<-|]; [|by apply (ci_below _ _ HI)].
      destruct fs' as [|f' [|]]; simpl in *; [|by intros [= -> ->]|lia]. intros ->. by inversion Hk.
    - intros u f [(->&Hin)|[(->&_&Hs&Hin)|(Hu&Hin)]]%Hfr; [by apply Hnew|..]; intros Hs'; by apply Hkn, (ci_set _ _ HI).
    - intros u o b [(->&Hin)|[(->&_&Hs&Hin)|(Hu&Hin)]]%Hfr; [|done|by eapply Hkn, (ci_again _ _ HI)].
      by destruct (Hnew _ Hin) as (_&H&_); eapply H.
    - intros u f [(->&Hin)|[(->&_&Hs&Hin)|(Hu&Hin)]]%Hfr Hm; [by apply Hnew|by apply settled_making in Hs|].
      rewrite Hne by done. by apply (ci_make _ _ HI).
    - intros u o r [Hin|Hin]%Hlog; [|done]. by eapply Hkn, (ci_log _ _ HI).
    - intros u f [(->&Hin)|[(->&_&Hs&Hin)|(Hu&Hin)]]%Hfr; [by apply Hnew|..]; by apply (ci_call _ _ HI).
  Qed.

  (** Steps that leave the counts and the vectors alone. *)
  Lemma knows_same x x' : c_seen x' = c_seen x -> n_vecs (c_new x') = n_vecs (c_new x) -> forall u ty, knows x' u ty <-> knows x u ty.
  Proof. intros H1 H2 u ty. unfold knows, seen, nvec. by rewrite H1, H2. Qed.
  Lemma who_same C x x' : n_vecs (c_new x') = n_vecs (c_new x) -> (forall u ty, knows x u ty -> knows x' u ty) -> who C x -> who C x'.
  Proof.
    intros H2 Hk (P&HP). exists P. intros c. destruct (HP c) as (H&Hn&Hw). split_and!; [|done|].
    - unfold nvec. by rewrite H2.
    - intros t ty Hin. destruct (Hw t ty Hin) as (?&?&?). split_and!; [done|by apply Hk|done].
  Qed.
  Lemma who_log C x x' : CInv C x -> c_seen x' = c_seen x -> n_vecs (c_new x') = n_vecs (c_new x) ->
    n_threads (c_new x') = n_threads (c_new x) -> NInv (c_new x') ->
    (forall u o r, EvRet u o r ∈ n_log (c_new x') -> EvRet u o r ∈ n_log (c_new x)) -> CInv C x'.
  Proof.
    intros HI Hs Hv Ht HN Hl. pose proof (knows_same _ _ Hs Hv) as Hk.
    assert (forall u, nstack (c_new x') u = nstack (c_new x) u) as Hst by (intros u; unfold nstack; by rewrite Ht).
    constructor; [done|..].
    - intros u c. unfold seen, nvec. rewrite Hs, Hv. apply (ci_len _ _ HI).
    - intros u f k. rewrite Hst. apply (ci_below _ _ HI).
    - intros u f. rewrite Hst, Hk. apply (ci_set _ _ HI).
    - intros u o b. rewrite Hst, Hk. apply (ci_again _ _ HI).
    - intros u f. rewrite Hst, Hk. apply (ci_make _ _ HI).
    - intros u o r Hin%Hl. rewrite Hk. by eapply (ci_log _ _ HI).
    - intros u f. rewrite Hst. apply (ci_call _ _ HI).
    - apply (who_same C x); [done| |apply (ci_who _ _ HI)]. intros u ty. by rewrite Hk.
  Qed.
  Lemma settled_all C x t : CInv C x -> match nstack (c_new x) t with f :: _ => settled f | [] => True end ->
    Forall settled (nstack (c_new x) t).
  Proof.
    intros HI. destruct (nstack (c_new x) t) as [|f k] eqn:Hst; intros Hf; [done|]. constructor; [done|].
    by eapply (ci_below _ _ HI).
  Qed.

  (** A step of [NewModel] in a call that has its set, or a new call. *)
  Lemma plain_inv C x l s' : CInv C x -> (forall t o a, l = ICall t o a -> C t (op_ty o)) ->
    nstep E (c_new x) l = Next s' ->
    (forall t a j, l = IStep t a j -> match nstack (c_new x) t with f :: _ => settled f | [] => True end) ->
    CInv C (CState s' (c_seen x)).
  Proof.
    intros HI Hcall H Hset. assert (NInv s') as HN by (eapply nstep_inv; [apply HI|done]).
    pose proof H as Hsh%nstep_shape.
    destruct Hsh as [p v -> ->|t o b a -> Ht Hu Hlog _ Hv _|t f fs' k Hl Hnc Hst Ht Hfs Hlog _ Hvs].
    - apply (who_log C x); try done. intros u o r. cbn [c_new n_log nevent]. rewrite elem_of_cons. by intros [?|?].
    - pose proof (knows_same x (CState s' (c_seen x)) eq_refl Hv) as Hk.
      apply (cinv_upd C x _ t [] [NScan o b false] (nstack (c_new x) t)); try done.
      + apply (who_same C x); [done| |apply HI]. intros ? ?. by rewrite Hk.
      + intros ty. by rewrite Hk.
      + intros u c. unfold seen, nvec. cbn [c_seen c_new]. rewrite Hv. apply (ci_len _ _ HI).
      + apply (settled_all C); [done|]. destruct (nstack (c_new x) t); [done|by apply settled_user].
      + intros f ->%elem_of_list_singleton. split_and!; [done|done|done|]. by eapply Hcall.
      + intros u o' r Hin. left. cbn [c_new] in Hin. by rewrite Hlog in Hin.
    - assert (settled f) as Hsf.
      { destruct l as [t' o a|t' a j|t' v|t'|p]; simplify_eq/=.
        - by destruct (Hnc o a).
        - specialize (Hset _ _ _ eq_refl). by rewrite Hst in Hset.
        - rewrite Hst in H. by destruct f.
        - unfold nstep_panic in H. rewrite Hst in H. destruct (existsb _ _); [done|]. by destruct f. }
      destruct (nstep_kind _ _ _ _ _ _ H Hl Hnc Hst Hsf) as [Hkind Hret].
      assert (n_vecs s' = n_vecs (c_new x)) as Hv by (by destruct Hvs; subst).
      pose proof (knows_same x (CState s' (c_seen x)) eq_refl Hv) as Hk.
      assert (f ∈ nstack (c_new x) t) as Hin by (rewrite Hst; left).
      apply (cinv_upd C x _ t [f] fs' k); try done.
      + apply (who_same C x); [done| |apply HI]. intros ? ?. by rewrite Hk.
      + intros ty. by rewrite Hk.
      + intros u c. unfold seen, nvec. cbn [c_seen c_new]. rewrite Hv. apply (ci_len _ _ HI).
      + by eapply (ci_below _ _ HI).
      + destruct Hfs as [->|(f'&->&_)]; simpl; lia.
      + intros f' Hf'. destruct Hfs as [->|(f''&->&Hc&_)]; [by apply elem_of_nil in Hf'|]. apply elem_of_list_singleton in Hf' as ->.
        assert (settled f'') as Hs.
        { apply Hkind. unfold nstack. by rewrite Ht, lookup_insert. }
        assert (type_of f'' = type_of f) as -> by (unfold NewSpec.type_of; by rewrite Hc).
        split_and!.
        * intros _. apply Hk. by apply (ci_set _ _ HI).
        * by intros o b ->.
        * intros Hm. by apply settled_making in Hs.
        * by apply (ci_call _ _ HI).
      + intros u o r Hr. destruct (Hret u o r Hr) as [?|[-> ->]]; [by left|]. right. apply Hk. by apply (ci_set _ _ HI t f).
  Qed.

  Lemma seen_ins x (n : nstate V Q) t c j u c' : seen (CState n (<[(t, c) := j]> (c_seen x))) u c' =
    if decide ((t, c) = (u, c')) then j else seen x u c'.
  Proof.
    unfold seen. cbn [c_seen]. destruct (decide _) as [<-|]; [by rewrite lookup_insert|by rewrite lookup_insert_ne].
  Qed.
  Lemma find_ty_none ty l : find_ty ty l = None -> ty ∉ l.
  Proof.
    induction l as [|u l IH]; simpl; [by intros _ ?%elem_of_nil|].
    destruct (Nat.eqb_spec u ty); [done|]. destruct (find_ty ty l); [done|]. intros _ [?|?]%elem_of_cons; [done|by apply IH].
  Qed.
  Lemma find_ty_take ty l j i : find_ty ty (take j l) = Some i -> find_ty ty l = Some i.
  Proof. intros H. rewrite <- (take_drop j l). by apply find_ty_app. Qed.

  (** What a scan does. *)
  Definition scans C x t o b (again : bool) k j : Prop :=
    CInv C x /\ nstack (c_new x) t = NScan o b again :: k /\ seen x t (slot (op_ty o)) <= j <= length (nvec (c_new x) (slot (op_ty o))).
  Lemma scan_inv C x t o b again k j f :
    scans C x t o b again k j ->
    (exists i, find_ty (op_ty o) (take j (nvec (c_new x) (slot (op_ty o)))) = Some i /\ f = NLock o b i) \/
    (find_ty (op_ty o) (take j (nvec (c_new x) (slot (op_ty o)))) = None /\ f = NPush o b) ->
    NInv (nset_stack (c_new x) t (f :: k)) ->
    CInv C (CState (nset_stack (c_new x) t (f :: k)) (<[(t, slot (op_ty o)) := j]> (c_seen x))).
  Proof.
    intros (HI&Hst&Hj) Hf HN. set (x' := CState _ _). set (c := slot (op_ty o)) in *.
    assert (forall u c', seen x' u c' = if decide ((t, c) = (u, c')) then j else seen x u c') as Hs by (intros; apply seen_ins).
    assert (forall u c', seen x u c' <= seen x' u c') as Hle.
    { intros u c'. rewrite Hs. destruct (decide _); [simplify_eq; lia|lia]. }
    assert (forall u ty, knows x u ty -> knows x' u ty) as Hk.
    { intros u ty (i&Hi&Hl). exists i. split; [|done]. specialize (Hle u (slot ty)). lia. }
    apply (cinv_upd C x x' t [NScan o b again] [f] k); try done.
    - apply (who_same C x); [done|done|apply HI].
    - intros u ty Hu. split; [|apply Hk]. intros (i&Hi&Hl). exists i. split; [|done]. rewrite Hs in Hi. by rewrite decide_False in Hi by congruence.
    - intros ty. apply Hk.
    - intros u c'. change (nvec (c_new x') c') with (nvec (c_new x) c'). rewrite Hs. destruct (decide _); [simplify_eq; lia|apply (ci_len _ _ HI)].
    - by eapply (ci_below _ _ HI).
    - intros f' ->%elem_of_list_singleton.
      assert (C t (op_ty o)) as HC by (apply (ci_call _ _ HI t (NScan o b again)); rewrite Hst; left).
      destruct Hf as [(i&Hi&->)|(Hi&->)]; split_and!; try done.
      + intros _. exists i. apply find_ty_lookup in Hi. apply lookup_take_Some in Hi as [Hi Hlt]. split; [|done].
        change (type_of (NLock o b i)) with (op_ty o). fold c. rewrite Hs, decide_True by done. done.
      + intros _ (i&Hlt&Hl). change (type_of (NPush o b)) with (op_ty o) in *. fold c in Hlt, Hl.
        rewrite Hs, decide_True in Hlt by done. apply find_ty_none in Hi. apply Hi.
        apply elem_of_list_lookup. exists i. by rewrite lookup_take.
    - intros u o' r Hin. by left.
  Qed.

  (** The coherent scan is a scan of [NewModel], and unreachable!() is not reached. *)
  Lemma scan_step C x t a o b again k j :
    scans C x t o b again k j ->
    match find_ty (op_ty o) (take j (nvec (c_new x) (slot (op_ty o)))) with
    | Some i => nstep E (c_new x) (IStep t a 0) = Next (nset_stack (c_new x) t (NLock o b i :: k))
    | None => again = false /\ nstep E (c_new x) (IStep t a 1) = Next (nset_stack (c_new x) t (NPush o b :: k))
    end.
  Proof.
    intros (HI&Hst&Hj). destruct (find_ty _ _) as [i|] eqn:Hf.
    - apply find_ty_take in Hf. cbn [nstep]. unfold nstep_thread. rewrite Hst, Hf. done.
    - destruct again.
      + exfalso. assert (knows x t (op_ty o)) as (i&Hi&Hl) by (eapply (ci_again _ _ HI); rewrite Hst; left).
        apply find_ty_none in Hf. apply Hf, elem_of_list_lookup. exists i. rewrite lookup_take; [done|lia].
      + split; [done|]. cbn [nstep]. unfold nstep_thread. rewrite Hst. destruct (find_ty (op_ty o) (nvec (c_new x) (slot (op_ty o)))); done.
  Qed.

  (** Publishing. *)
  Lemma pub_inv C x t a j o b i k s' :
    CInv C x -> nstack (c_new x) t = NPub o b i :: k -> nstep E (c_new x) (IStep t a j) = Next s' ->
    CInv C (CState s' (<[(t, slot (op_ty o)) := S i]> (c_seen x))).
  Proof.
    intros HI Hst H. assert (NInv s') as HN by (eapply nstep_inv; [apply HI|done]).
    cbn [nstep] in H. unfold nstep_thread in H. rewrite Hst in H. set (ty := op_ty o) in *. set (c := slot ty) in *.
    destruct (Nat.eqb_spec (length (nvec (c_new x) c)) i) as [Hi|]; [|done]. injection H as <-. set (x' := CState _ _).
    assert (NPub o b i ∈ nstack (c_new x) t) as Hin by (rewrite Hst; left).
    assert (forall c', nvec (c_new x') c' = if decide (c = c') then nvec (c_new x) c ++ [ty] else nvec (c_new x) c') as Hv.
    { intros c'. unfold nvec at 1. cbn [x' c_new n_vecs nset_stack npublish]. destruct (decide (c = c')) as [<-|].
      - by rewrite lookup_insert. - by rewrite lookup_insert_ne. }
    assert (forall u c', seen x' u c' = if decide ((t, c) = (u, c')) then S i else seen x u c') as Hs by (intros; apply seen_ins).
    assert (forall u c', seen x u c' <= seen x' u c') as Hle.
    { intros u c'. rewrite Hs. destruct (decide _) as [[= <- <-]|]; [|lia]. pose proof (ci_len _ _ HI t c). lia. }
    assert (forall u ty', knows x u ty' -> knows x' u ty') as Hk.
    { intros u ty' (n&Hn&Hl). exists n. split; [specialize (Hle u (slot ty')); lia|]. rewrite Hv. destruct (decide _) as [->|]; [|done].
      by apply lookup_app_l_Some. }
    assert (knows x' t ty) as Hme.
    { exists i. fold c. rewrite Hs, Hv, !decide_True by done. split; [lia|]. rewrite lookup_app_r by lia. by rewrite Hi, Nat.sub_diag. }
    apply (cinv_upd C x x' t [NPub o b i] [NScan o b true] k); try done.
    - destruct (ci_who _ _ HI) as (P&HP). exists (λ c', if decide (c = c') then P c ++ [(t, ty)] else P c').
      intros c'. rewrite Hv. destruct (decide (c = c')) as [<-|Hne].
      + destruct (HP c) as (H1&H2&H3). split_and!.
        * by rewrite fmap_app, H1.
        * apply NoDup_app. split_and!; [done| |apply NoDup_singleton]. intros [u ty'] Hu [= -> ->]%elem_of_list_singleton.
          destruct (H3 _ _ Hu) as (_&Hkn&_). by apply (ci_make _ _ HI t (NPub o b i)).
        * intros u ty' [Hu|Hu%elem_of_list_singleton]%elem_of_app.
          -- destruct (H3 _ _ Hu) as (?&?&?). split_and!; [done|by apply Hk|done].
          -- simplify_eq. split_and!; [done|done|]. by apply (ci_call _ _ HI t (NPub o b (length (nvec (c_new x) c)))).
      + destruct (HP c') as (H1&H2&H3). split_and!; [done|done|]. intros u ty' Hu.
        destruct (H3 _ _ Hu) as (?&?&?). split_and!; [done|by apply Hk|done].
    - intros u ty' Hu. split; [|apply Hk]. intros (n&Hn&Hl). rewrite Hs, decide_False in Hn by congruence. exists n. split; [done|].
      rewrite Hv in Hl. destruct (decide _) as [Hc|]; [|done]. rewrite <- Hc in *. rewrite lookup_app_l in Hl; [done|].
      pose proof (ci_len _ _ HI u c). lia.
    - intros ty'. apply Hk.
    - intros u c'. rewrite Hs, Hv. destruct (decide (c = c')) as [<-|].
      + rewrite app_length. simpl. destruct (decide _); [lia|]. pose proof (ci_len _ _ HI u c). lia.
      + rewrite decide_False by congruence. apply (ci_len _ _ HI).
    - by eapply (ci_below _ _ HI).
    - intros f ->%elem_of_list_singleton. split_and!; [done|by intros ? ? [= <- <-]|done|]. by apply (ci_call _ _ HI _ _ Hin).
    - intros u o' r Hr. by left.
  Qed.
  (** Reserving. *)
  Lemma res_inv C x t a j o b k s' :
    CInv C x -> nstack (c_new x) t = NPush o b :: k -> nstep E (c_new x) (IStep t a j) = Next s' ->
    CInv C (CState s' (c_seen x)).
  Proof.
    intros HI Hst H. assert (NInv s') as HN by (eapply nstep_inv; [apply HI|done]).
    cbn [nstep] in H. unfold nstep_thread in H. rewrite Hst in H. injection H as <-. set (x' := CState _ _).
    assert (NPush o b ∈ nstack (c_new x) t) as Hin by (rewrite Hst; left).
    pose proof (knows_same x x' eq_refl eq_refl) as Hk.
    eapply (cinv_upd C x x' t [NPush o b] [_] k); try done.
    - apply (who_same C x); [done| |apply HI]. intros ? ?. by rewrite Hk.
    - intros u c. apply (ci_len _ _ HI).
    - by eapply (ci_below _ _ HI).
    - intros f ->%elem_of_list_singleton. split_and!; [done|done| |].
      + intros _. rewrite Hk. by apply (ci_make _ _ HI t (NPush o b)).
      + by apply (ci_call _ _ HI t (NPush o b)).
    - intros u o' r Hr. by left.
  Qed.

  (** One step. *)
  Lemma cstep_inv C x l x' : CInv C x -> (forall t o a, l = ICall t o a -> C t (op_ty o)) -> cstep E x l = Next x' ->
    CInv C x' /\ exists l', nstep E (c_new x) l' = Next (c_new x') /\ (forall t o a, l' = ICall t o a -> l = ICall t o a).
  Proof.
    intros HI Hc H.
    assert (forall s', nstep E (c_new x) l = Next s' -> x' = CState s' (c_seen x) ->
      (forall t a j, l = IStep t a j -> match nstack (c_new x) t with f :: _ => settled f | [] => True end) ->
      CInv C x' /\ exists l', nstep E (c_new x) l' = Next (c_new x') /\ (forall t o a, l' = ICall t o a -> l = ICall t o a)) as Hplain.
    { intros s' Hs -> Hst. split; [by eapply plain_inv|]. by exists l. }
    destruct l as [t o a|t a j|t v|t|p]; cbn [cstep] in H.
    1,3,4,5: destruct (nstep E (c_new x) _) as [s'| | |] eqn:Hs; try done; injection H as <-; by apply (Hplain s').
    destruct (nstack (c_new x) t) as [|f k] eqn:Hst.
    { destruct (nstep E (c_new x) _) as [s'| | |] eqn:Hs; try done. injection H as <-. apply (Hplain s'); [done|done|].
      intros t' a' j' [= <- <- <-]. by rewrite Hst. }
    assert (settled f -> lift_to x (c_seen x) (nstep E (c_new x) (IStep t a j)) = Next x' -> CInv C x' /\ exists l',
      nstep E (c_new x) l' = Next (c_new x') /\ (forall t' o' a', l' = ICall t' o' a' -> IStep t a j = ICall t' o' a')) as Hpl.
    { intros Hsf Hl. destruct (nstep E (c_new x) _) as [s'| | |] eqn:Hs; try done. injection Hl as <-. apply (Hplain s'); [done|done|].
      intros t' a' j' [= <- <- <-]. by rewrite Hst. }
    destruct f as [o b again|o b|o b i|o b i|o b|i g]; try (by apply Hpl).
    - destruct (_ && _) eqn:Hj; [|done].
      assert (scans C x t o b again k j) as Hsc by (split_and!; [done|done|lia|lia]).
      pose proof (scan_step C x t a _ _ _ _ _ Hsc) as Hst2. destruct (find_ty _ _) as [i|] eqn:Hf.
      + injection H as <-. split; [|by exists (IStep t a 0)]. eapply scan_inv; [done|left; by exists i|]. eapply nstep_inv; [apply HI|exact Hst2].
      + destruct Hst2 as [-> Hst2]. injection H as <-. split; [|by exists (IStep t a 1)].
        eapply scan_inv; [done|by right|]. eapply nstep_inv; [apply HI|exact Hst2].
    - destruct (nstep E (c_new x) _) as [s'| | |] eqn:Hs; try done. injection H as <-. split; [by eapply res_inv|]. by exists (IStep t a j).
    - destruct (nstep E (c_new x) _) as [s'| | |] eqn:Hs; try done. injection H as <-. split; [by eapply pub_inv|]. by exists (IStep t a j).
  Qed.
  Lemma cstep_noub C x l : CInv C x -> cstep E x l <> UB.
  Proof.
    intros HI H. assert (nstep E (c_new x) l <> UB) as Hn by (apply nstep_noub, HI).
    assert (forall y, lift_to x y (nstep E (c_new x) l) <> UB) as Hl by (intros y; by destruct (nstep E (c_new x) l)).
    destruct l as [t o a|t a j|t v|t|p]; cbn [cstep] in H; try (by apply Hl in H).
    destruct (nstack (c_new x) t) as [|f k] eqn:Hst; [by apply Hl in H|].
    destruct f as [o b again|o b|o b i|o b i|o b|i g]; try (by apply Hl in H).
    destruct (_ && _) eqn:Hj; [|done].
    assert (scans C x t o b again k j) as Hsc by (split_and!; [done|done|lia|lia]).
    pose proof (scan_step C x t a _ _ _ _ _ Hsc) as Hst2. destruct (find_ty _ _) as [i|] eqn:Hf; [done|]. by destruct Hst2 as [-> _].
  Qed.
  Lemma cinv_init C : CInv C cinit.
  Proof.
    constructor; cbn [c_new cinit].
    - apply ninv_init.
    - intros t c. unfold seen. cbn [c_seen cinit]. rewrite lookup_empty. simpl. lia.
    - done.
    - intros t f H. by apply elem_of_nil in H.
    - intros t o b H. by apply elem_of_nil in H.
    - intros t f H. by apply elem_of_nil in H.
    - intros t o r H. by apply elem_of_nil in H.
    - intros t f H. by apply elem_of_nil in H.
    - exists (λ _, []). intros c. split_and!; [done|constructor|]. intros t ty H. by apply elem_of_nil in H.
  Qed.

  Lemma crun_inv C ls x : CInv C x -> (forall t o a, ICall t o a ∈ ls -> C t (op_ty o)) ->
    exists x' ls', run (cstep E) x ls = Some x' /\ CInv C x' /\ run (nstep E) (c_new x) ls' = Some (c_new x') /\
      (forall t o a, ICall t o a ∈ ls' -> ICall t o a ∈ ls).
  Proof.
    revert x. induction ls as [|l ls IH]; intros x HI HC.
    { exists x, []. split_and!; try done. }
    simpl. unfold exec. destruct (cstep E x l) as [x1| | |] eqn:Hs.
    - destruct (cstep_inv C x l x1 HI) as (HI1&l'&Hl'&Hc'); [intros t o a ->; eapply HC; left|done|].
      destruct (IH x1 HI1) as (x'&ls'&Hr&HI'&Hr'&Hc); [intros t o a Hin; eapply HC; by right|].
      exists x', (l' :: ls'). split_and!; try done.
      + simpl. unfold exec. by rewrite Hl'.
      + intros t o a [Heq|Hin]%elem_of_cons; [rewrite (Hc' t o a); [left|done]|right; by apply Hc].
    - destruct (IH x HI) as (x'&ls'&Hr&HI'&Hr'&Hc); [intros t o a Hin; eapply HC; by right|].
      exists x', ls'. split_and!; try done. intros t o a Hin. right. by apply Hc.
    - destruct (IH x HI) as (x'&ls'&Hr&HI'&Hr'&Hc); [intros t o a Hin; eapply HC; by right|].
      exists x', ls'. split_and!; try done. intros t o a Hin. right. by apply Hc.
    - by apply (cstep_noub C) in Hs.
  Qed.

  (** ** C72 *)
  Definition calls ls t ty : Prop := exists o a, ICall t o a ∈ ls /\ op_ty o = ty.
  Lemma c_reach ls : exists x ls', run (cstep E) cinit ls = Some x /\ CInv (calls ls) x /\
    run (nstep E) ninit ls' = Some (c_new x) /\ (forall t o a, ICall t o a ∈ ls' -> ICall t o a ∈ ls).
  Proof. apply crun_inv; [apply cinv_init|]. intros t o a Hin. by exists o, a. Qed.
  Lemma coherent_refines ls : exists x ls', run (cstep E) cinit ls = Some x /\
    run (nstep E) ninit ls' = Some (c_new x) /\ (forall t o a, ICall t o a ∈ ls' -> ICall t o a ∈ ls).
  Proof. destruct (c_reach ls) as (x&ls'&?&_&?&?). by exists x, ls'. Qed.
  Lemma one_set_per_thread ls x c : run (cstep E) cinit ls = Some x ->
    exists ps : list (nat * nat), ps.*2 = nvec (c_new x) c /\ NoDup ps /\
      forall t ty, (t, ty) ∈ ps -> slot ty = c /\ exists o a, ICall t o a ∈ ls /\ op_ty o = ty.
  Proof.
    intros Hr. destruct (c_reach ls) as (x'&ls'&Hr'&HI&_). assert (x' = x) as -> by congruence.
    destruct (ci_who _ _ HI) as (P&HP). destruct (HP c) as (H1&H2&H3). exists (P c). split_and!; [done|done|].
    intros t ty Hin. destruct (H3 _ _ Hin) as (->&_&H). by split.
  Qed.
  Lemma only_first_call ls x t o r f : run (cstep E) cinit ls = Some x ->
    EvRet t o r ∈ n_log (c_new x) -> f ∈ nstack (c_new x) t -> type_of f = op_ty o -> making f -> False.
  Proof.
    intros Hr He Hf Ht Hm. destruct (c_reach ls) as (x'&ls'&Hr'&HI&_). assert (x' = x) as -> by congruence.
    apply (ci_make _ _ HI t f); [done|done|]. rewrite Ht. by eapply (ci_log _ _ HI).
  Qed.
End scan.

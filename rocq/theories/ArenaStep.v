(** Every step of the Arena model preserves the invariant; the only undefined behaviour is
    making a reference to a box that [insert] dropped. *)
From stdpp Require Import gmap list numbers.
From Verif Require Import Base InternModel InternSpec InternInv InternStep ArenaModel ArenaSpec ArenaInv.
Require Import ZifyBool ZifyNat ZifyN.

Section step.
  Context {V Q : Type} (E : ienv V Q).
  Implicit Types (st : astate V Q) (v : V) (p : iptr) (o : aop V Q) (f g : aframe V Q) (t ty s r : nat)
    (e : aevent V Q).
  Notation AInv := (AInv E).

  Lemma ainv_init : AInv ainit.
  Proof.
    constructor; simpl.
    - intros s x H. by rewrite lookup_empty in H.
    - intros s x H. by rewrite lookup_empty in H.
    - intros s1 s2 x1 x2 H. by rewrite lookup_empty in H.
    - intros r x H. by rewrite lookup_empty in H.
    - intros t f H. unfold a_stack in H. simpl in H. rewrite lookup_empty in H. by apply elem_of_nil in H.
    - intros e H. by apply elem_of_nil in H.
    - intros s. unfold asum, alive. simpl. by rewrite !msum_empty, lookup_empty.
    - intros s. unfold alive. simpl. by rewrite lookup_empty.
    - intros r s. unfold a_set. simpl. by rewrite !msum_empty, lookup_empty.
    - intros r. unfold there. simpl. by rewrite !msum_empty, lookup_empty.
    - intros r. unfold alk. simpl. by rewrite !msum_empty, lookup_empty.
  Qed.

  Record atrans st st' t (fs fs' k : list (aframe V Q)) (es : list (aevent V Q)) : Prop := {
    y_old : a_stack st t = fs ++ k;
    y_new : forall u, a_stack st' u = if decide (t = u) then fs' ++ k else a_stack st u;
    y_sum : forall w, msum (lsum w) (a_threads st') + lsum w fs = lsum w fs' + msum (lsum w) (a_threads st);
    y_log : a_log st' = es ++ a_log st;
    y_own : forall s, lsum (own s) fs' + asum st' s + lsum (leak s) es + alive st s
                            = lsum (own s) fs + asum st s + alive st' s;
    y_free : forall s, lsum (freeds s) es + alive st' s + lt1 s (a_next st) = alive st s + lt1 s (a_next st');
    y_hold : forall r s, cnt s (a_set st' r) + lsum (dcnt r s) fs' + lsum (leakr r s) es + lsum (freedby r s) es
                            = cnt s (a_set st r) + lsum (dcnt r s) fs + lsum (ins r s) es;
    y_ends : forall r, there st' r + lsum (dead r) fs' + lsum (ended r) es + lt1 r (a_nextr st)
                            = there st r + lsum (dead r) fs + lt1 r (a_nextr st');
    y_locks : forall r, lsum (has_lock r) fs' + alk st r = lsum (has_lock r) fs + alk st' r;
    y_objs : forall s x, a_objs st !! s = Some x -> lsum (own s) fs = 0 -> a_objs st' !! s = Some x;
    y_back : forall r x', a_arenas st' !! r = Some x' -> r < a_nextr st ->
      exists x, a_arenas st !! r = Some x /\ ar_ty x' = ar_ty x /\ forall p, p ∈ ar_set x -> p ∈ ar_set x';
    y_keep : forall r x, a_arenas st !! r = Some x -> a_arenas st' !! r = None -> a_idle st r = true;
    y_next : a_next st <= a_next st';
    y_nextr : a_nextr st <= a_nextr st';
    y_none : forall s, s < a_next st -> a_objs st !! s = None -> a_objs st' !! s = None;
    y_sets : forall r, a_arenas st' !! r = a_arenas st !! r \/ 0 < lsum (has_lock r) fs \/ a_idle st r = true;
    y_ins : forall r, a_stored r es = [] \/ 0 < lsum (has_lock r) fs;
  }.
  Lemma atrans_inv st st' t fs fs' k es :
    AInv st -> atrans st st' t fs fs' k es ->
    (forall s x, a_objs st' !! s = Some x -> s < a_next st') ->
    (forall s x, a_objs st' !! s = Some x -> addr_ok E (ao_addr x) (ao_val x)) ->
    (forall s1 s2 x1 x2, a_objs st' !! s1 = Some x1 -> a_objs st' !! s2 = Some x2 ->
      is_zst E (ao_val x1) = false -> is_zst E (ao_val x2) = false -> ao_addr x1 = ao_addr x2 -> s1 = s2) ->
    (forall r x, a_arenas st' !! r = Some x -> ar_set x = (a_stored r (a_log st')).*1) ->
    (forall f, f ∈ fs' -> aframe_ok E st' f) -> (forall e, e ∈ es -> aev_ok E st' e) -> AInv st'.
  Proof. intros HI []. by apply (aupd_inv E st st' t fs fs' k es). Qed.

  Lemma idle_new st r : AInv st -> a_nextr st <= r -> a_idle st r = true.
  Proof.
    intros HI Hr. apply a_idle_spec. intros t f Hf Ha. pose proof (x_frames _ _ HI t f Hf) as Hok.
    assert (exists ty, on st r ty) as (ty&x&Hx&_).
    { destruct f; simpl in *; try done; injection Ha as ->; destruct Hok as (ty&Hok); exists ty; naive_solver. }
    pose proof (x_ends _ _ HI r) as H. unfold there, lt1 in H. rewrite Hx in H. destruct (Nat.ltb_spec r (a_nextr st)); lia.
  Qed.

  Lemma stored_app r (es l : list (aevent V Q)) : a_stored r (es ++ l) = a_stored r es ++ a_stored r l.
  Proof.
    induction es as [|e es IH]; simpl; [done|]. destruct e as [t r' o p v| | | | | | |]; try done.
    destruct (r' =? r); [|done]. simpl. by rewrite IH.
  Qed.

  (** *** Steps that change stacks, locks, the log only *)
  Lemma step_plain st st' t fs fs' k es :
    AInv st -> a_stack st t = fs ++ k ->
    (forall u, a_stack st' u = if decide (t = u) then fs' ++ k else a_stack st u) ->
    (forall w, msum (lsum w) (a_threads st') + lsum w fs = lsum w fs' + msum (lsum w) (a_threads st)) ->
    a_objs st' = a_objs st -> a_arenas st' = a_arenas st -> a_next st' = a_next st -> a_nextr st' = a_nextr st ->
    a_log st' = es ++ a_log st ->
    (forall s, lsum (own s) fs' + lsum (leak s) es = lsum (own s) fs) ->
    (forall s, lsum (freeds s) es = 0) -> (forall r, a_stored r es = []) ->
    (forall r s, lsum (dcnt r s) fs' + lsum (leakr r s) es + lsum (freedby r s) es = lsum (dcnt r s) fs + lsum (ins r s) es) ->
    (forall r, lsum (dead r) fs' + lsum (ended r) es = lsum (dead r) fs) ->
    (forall r, lsum (has_lock r) fs' + alk st r = lsum (has_lock r) fs + alk st' r) ->
    (forall f, f ∈ fs' -> aframe_ok E st' f) -> (forall e, e ∈ es -> aev_ok E st' e) ->
    atrans st st' t fs fs' k es /\ AInv st'.
  Proof.
    intros HI Hst Hnew Hsum Ho Ha Hn Hnr Hlog Hown Hfr Hsto Hh He Hlk Hfs Hes.
    assert (atrans st st' t fs fs' k es) as Htr.
    { constructor; try done; unfold asum, alive, a_set, there; rewrite ?Ho, ?Ha, ?Hn, ?Hnr; try done.
      - intros s. specialize (Hown s). lia.
      - intros s. specialize (Hfr s). lia.
      - intros r s. specialize (Hh r s). lia.
      - intros r. specialize (He r). lia.
      - intros r x' Hx' _. by exists x'.
      - intros r x Hx Hx'. congruence.
      - intros r. by left.
      - intros r. by left. }
    split; [done|]. eapply atrans_inv; try done; rewrite ?Ho, ?Ha, ?Hn.
    - apply (x_fresh _ _ HI).
    - apply (x_zaddr _ _ HI).
    - apply (x_addr _ _ HI).
    - intros r x Hx. rewrite Hlog, stored_app, Hsto. by apply (x_stored _ _ HI).
  Qed.

  Lemma set_stack_get st t k u : a_stack (a_set_stack st t k) u = if decide (t = u) then k else a_stack st u.
  Proof.
    unfold a_stack. simpl. destruct (decide (t = u)) as [->|].
    - by rewrite lookup_insert.
    - by rewrite lookup_insert_ne.
  Qed.
  Lemma set_stack_sum st t fs fs' k w : a_stack st t = fs ++ k ->
    msum (lsum w) (<[t:=fs' ++ k]> (a_threads st)) + lsum w fs = lsum w fs' + msum (lsum w) (a_threads st).
  Proof. intros H. pose proof (msum_astack w st t (fs' ++ k)) as H'. rewrite H, !lsum_app in H'. lia. Qed.

  (** *** Allocation *)
  Lemma a_free_addr_spec st a : a_free_addr E st a = true <->
    forall s x, a_objs st !! s = Some x -> is_zst E (ao_val x) = true \/ ao_addr x <> a.
  Proof. unfold a_free_addr. by rewrite bool_decide_eq_true. Qed.
  Lemma a_alloc_spec st a v st1 p :
    AInv st -> a_alloc E st a v = Some (st1, p) ->
    st1 = AState (<[a_next st := AObj (ip_addr p) v]> (a_objs st)) (a_arenas st) (a_locks st) (a_poison st)
            (a_threads st) (S (a_next st)) (a_nextr st) (a_log st)
    /\ p = IPtr (ip_addr p) (ie_meta E v) (a_next st)
    /\ a_objs st !! a_next st = None
    /\ addr_ok E (ip_addr p) v
    /\ (is_zst E v = false -> forall s x, a_objs st !! s = Some x -> is_zst E (ao_val x) = false -> ao_addr x <> ip_addr p).
  Proof.
    intros HI H. unfold a_alloc in H.
    destruct (is_zst E v || a_free_addr E st a) eqn:Hg; [|done]. injection H as <- <-. simpl.
    split_and!; [done|done| | |].
    - destruct (a_objs st !! a_next st) as [x|] eqn:Hx; [|done]. apply (x_fresh _ _ HI) in Hx. lia.
    - unfold addr_ok. intros ->. done.
    - intros Hz. rewrite Hz in Hg |- *. simpl in Hg. rewrite a_free_addr_spec in Hg.
      intros s x Hx Hzx. destruct (Hg _ _ Hx); [congruence|done].
  Qed.

  Lemma step_alloc st t a v st1 p fs fs' k :
    AInv st -> a_alloc E st a v = Some (st1, p) -> a_stack st t = fs ++ k ->
    (forall s, lsum (own s) fs' = lsum (own s) fs + box_is s (Some p)) ->
    (forall r s, lsum (dcnt r s) fs' = lsum (dcnt r s) fs) ->
    (forall r, lsum (dead r) fs' = lsum (dead r) fs) ->
    (forall r, lsum (has_lock r) fs' = lsum (has_lock r) fs) ->
    (apoints E (a_set_stack st1 t (fs' ++ k)) (ie_ty E v) p v ->
     (forall r, a_set (a_set_stack st1 t (fs' ++ k)) r = a_set st r) ->
     forall f, f ∈ fs' -> aframe_ok E (a_set_stack st1 t (fs' ++ k)) f) ->
    atrans st (a_set_stack st1 t (fs' ++ k)) t fs fs' k [] /\ AInv (a_set_stack st1 t (fs' ++ k)).
  Proof.
    intros HI Hal Hst Ho Hd Hdd Hh Hfs.
    destruct (a_alloc_spec _ _ _ _ _ HI Hal) as (->&Hp&Hn&Hz&Hdis).
    assert (ip_ser p = a_next st) as Hser by (by rewrite Hp).
    assert (atrans st (a_set_stack (AState (<[a_next st := AObj (ip_addr p) v]> (a_objs st)) (a_arenas st) (a_locks st)
      (a_poison st) (a_threads st) (S (a_next st)) (a_nextr st) (a_log st)) t (fs' ++ k)) t fs fs' k []) as Htr.
    { constructor; simpl; try done.
      - intros u. apply (set_stack_get (AState _ _ _ _ (a_threads st) _ _ _)).
      - intros w. by apply set_stack_sum.
      - intros s. unfold asum, alive. simpl. rewrite Ho. simpl. rewrite Hser. destruct (Nat.eqb_spec (a_next st) s) as [<-|Hne].
        + rewrite lookup_insert, Hn. lia.
        + rewrite lookup_insert_ne by done. lia.
      - intros s. unfold alive, lt1. simpl. destruct (decide (a_next st = s)) as [<-|Hne].
        + rewrite lookup_insert, Hn. destruct (Nat.ltb_spec (a_next st) (a_next st)), (Nat.ltb_spec (a_next st) (S (a_next st))); lia.
        + rewrite lookup_insert_ne by done. destruct (Nat.ltb_spec s (a_next st)), (Nat.ltb_spec s (S (a_next st))); lia.
      - intros r s. rewrite Hd. unfold a_set. simpl. lia.
      - intros r. rewrite Hdd. unfold there. simpl. lia.
      - intros r. rewrite Hh. unfold alk. simpl. lia.
      - intros s x Hx _. rewrite lookup_insert_ne; [done|]. intros <-. congruence.
      - intros r x' Hx' _. by exists x'.
      - intros r x Hx Hx'. congruence.
      - lia.
      - intros s Hs Hnone. rewrite lookup_insert_ne by lia. done.
      - intros r. by left.
      - intros r. by left. }
    split; [done|]. eapply atrans_inv; try done; simpl.
    - intros s x. rewrite lookup_insert_Some. intros [[<- <-]|[_ Hx]]; [lia|]. apply (x_fresh _ _ HI) in Hx. lia.
    - intros s x. rewrite lookup_insert_Some. intros [[<- <-]|[_ Hx]]; [done|by eapply (x_zaddr _ _ HI)].
    - intros s1 s2 x1 x2. rewrite !lookup_insert_Some.
      intros [[<- <-]|[? H1]] [[<- <-]|[? H2]] Hz1 Hz2 Heq; simpl in *.
      + done.
      + exfalso. by apply (Hdis Hz1 _ _ H2 Hz2).
      + exfalso. by apply (Hdis Hz2 _ _ H1 Hz1).
      + by eapply (x_addr _ _ HI).
    - apply (x_stored _ _ HI).
    - apply Hfs; [|done]. unfold apoints. simpl. rewrite Hser, lookup_insert. split_and!; [done| |done]. by rewrite Hp.
    - intros e He. by apply elem_of_nil in He.
  Qed.

  (** *** Freeing *)
  Lemma step_free st st' t w p fs fs' k es :
    AInv st -> a_stack st t = fs ++ k -> is_Some (a_objs st !! ip_ser p) ->
    a_objs st' = delete (ip_ser p) (a_objs st) -> a_arenas st' = a_arenas st -> a_locks st' = a_locks st ->
    a_threads st' = <[t:=fs' ++ k]> (a_threads st) -> a_next st' = a_next st -> a_nextr st' = a_nextr st ->
    a_log st' = es ++ AvFree w p :: a_log st ->
    (forall s, lsum (own s) fs' + lsum (leak s) es + box_is s (Some p) = lsum (own s) fs) ->
    (forall s, lsum (freeds s) es = 0) -> (forall r, a_stored r es = []) ->
    (forall r s, lsum (dcnt r s) fs' + lsum (leakr r s) es + freedby (V:=V) (Q:=Q) r s (AvFree w p) = lsum (dcnt r s) fs) ->
    (forall r s, lsum (freedby r s) es = 0) -> (forall r s, lsum (ins r s) es = 0) ->
    (forall r, lsum (dead r) fs' + lsum (ended r) es = lsum (dead r) fs) ->
    (forall r, lsum (has_lock r) fs' = lsum (has_lock r) fs) ->
    (forall f, f ∈ fs' -> aframe_ok E st' f) -> (forall e, e ∈ es -> aev_ok E st' e) ->
    atrans st st' t fs fs' k (es ++ [AvFree w p]) /\ AInv st'.
  Proof.
    intros HI Hst [y Hy] Ho Ha Hlk Hthr Hn Hnr Hlog Hown Hfr Hsto Hh Hfb Hins He Hlocks Hfs Hes.
    assert (atrans st st' t fs fs' k (es ++ [AvFree w p])) as Htr.
    { constructor; try done; unfold asum, alive, a_set, there, alk; rewrite ?Ho, ?Ha, ?Hn, ?Hnr, ?Hlk; try done.
      - intros u. unfold a_stack. rewrite Hthr. apply (set_stack_get st).
      - intros w'. rewrite Hthr. by apply set_stack_sum.
      - by rewrite Hlog, <- app_assoc.
      - intros s. rewrite lsum_app. specialize (Hown s). simpl in Hown |- *. destruct (Nat.eqb_spec (ip_ser p) s) as [Heq|Hne].
        + rewrite <- Heq in *. rewrite lookup_delete, Hy. lia.
        + rewrite lookup_delete_ne by done. lia.
      - intros s. rewrite lsum_app. specialize (Hfr s). simpl in Hfr |- *. destruct (Nat.eqb_spec (ip_ser p) s) as [Heq|Hne].
        + rewrite <- Heq in *. rewrite lookup_delete, Hy. lia.
        + rewrite lookup_delete_ne by done. lia.
      - intros r s. rewrite !lsum_app. specialize (Hh r s). specialize (Hfb r s). specialize (Hins r s). simpl in *. lia.
      - intros r. rewrite !lsum_app. specialize (He r). simpl. lia.
      - intros r. rewrite Hlocks. done.
      - intros s x Hx Hz. rewrite lookup_delete_ne; [done|]. intros <-. specialize (Hown (ip_ser p)). simpl in Hown.
        rewrite Nat.eqb_refl in Hown. lia.
      - intros r x' Hx' _. by exists x'.
      - intros r x Hx Hx'. congruence.
      - intros s Hs Hnone. apply lookup_delete_None. by right.
      - intros r. by left.
      - intros r. left. by rewrite stored_app, Hsto. }
    split; [done|]. eapply atrans_inv; try done; rewrite ?Ho, ?Ha, ?Hn.
    - intros s x [_ H]%lookup_delete_Some. by apply (x_fresh _ _ HI) in H.
    - intros s x [_ H]%lookup_delete_Some. by eapply (x_zaddr _ _ HI).
    - intros s1 s2 x1 x2 [_ H1]%lookup_delete_Some [_ H2]%lookup_delete_Some. by apply (x_addr _ _ HI).
    - intros r x Hx. rewrite Hlog, stored_app, Hsto. by apply (x_stored _ _ HI).
    - intros e [?| ->%elem_of_list_singleton]%elem_of_app; [by apply Hes|done].
  Qed.

  Lemma points_live st ty p v : apoints E st ty p v -> is_Some (a_objs st !! ip_ser p).
  Proof. intros (->&_). done. Qed.

  (** *** Everything a step can do. *)
  Inductive amove st t (k : list (aframe V Q)) : list (aframe V Q) -> list (aframe V Q) -> astate V Q -> Prop :=
  | ACallP r o x : a_arenas st !! r = Some x -> match o with ANew v => ie_ty E v = ar_ty x | ARef _ _ => True | _ => False end ->
      amove st t k [] [AWait r o None] (a_set_stack st t ([AWait r o None] ++ k))
  | ACallB r o x v a st1 p : a_arenas st !! r = Some x -> o = AOwned v \/ o = ABox v -> ie_ty E v = ar_ty x ->
      a_alloc E st a v = Some (st1, p) ->
      amove st t k [] [AWait r o (Some p)] (a_set_stack st1 t ([AWait r o (Some p)] ++ k))
  | ALockM r o b : a_locks st !! r = None ->
      amove st t k [AWait r o b] [AGet r o b] (a_set_stack (a_lock st r t) t ([AGet r o b] ++ k))
  | AHit r o b p : p ∈ a_cands st (a_match E o) (a_set st r) ->
      amove st t k [AGet r o b] [ARel r o b true (AP p)] (a_set_stack st t ([ARel r o b true (AP p)] ++ k))
  | AMissV r o v b : a_cands st (a_match E o) (a_set st r) = [] -> o = ANew v \/ o = AOwned v ->
      amove st t k [AGet r o b] [AStore r o v (match o with ANew _ => None | _ => b end)]
        (a_set_stack st t ([AStore r o v (match o with ANew _ => None | _ => b end)] ++ k))
  | AMissR r w q b : a_cands st (a_match E (ARef w q)) (a_set st r) = [] ->
      amove st t k [AGet r (ARef w q) b] [AConv r w q] (a_set_stack st t ([AConv r w q] ++ k))
  | AMissB r v p : a_cands st (a_match E (ABox v)) (a_set st r) = [] ->
      amove st t k [AGet r (ABox v) (Some p)] [AIns r (ABox v) (Some p) p]
        (a_set_stack st t ([AIns r (ABox v) (Some p) p] ++ k))
  | AConvM r w q v x : ie_from E w q v = true -> a_arenas st !! r = Some x -> ie_ty E v = ar_ty x ->
      amove st t k [AConv r w q] [AStore r (ARef w q) v None] (a_set_stack st t ([AStore r (ARef w q) v None] ++ k))
  | AStoreF r o v q st1 : a_free st None q = Some st1 ->
      amove st t k [AStore r o v (Some q)] [AStore r o v None] (a_set_stack st1 t ([AStore r o v None] ++ k))
  | AStoreA r o v a st1 p : a_alloc E st a v = Some (st1, p) ->
      amove st t k [AStore r o v None] [AIns r o None p] (a_set_stack st1 t ([AIns r o None p] ++ k))
  | AInsert r o b p v x : a_read st p = Some v -> a_arenas st !! r = Some x ->
      a_cands st (ins_match E v) (ar_set x) = [] ->
      amove st t k [AIns r o b p] [AMake r o b p]
        (a_set_stack (a_event (a_put st (<[r := Ar (ar_ty x) (p :: ar_set x)]> (a_arenas st))) (AvIns t r o p v)) t
           ([AMake r o b p] ++ k))
  | APresent r o b p v x p' : a_read st p = Some v -> a_arenas st !! r = Some x ->
      p' ∈ a_cands st (ins_match E v) (ar_set x) ->
      amove st t k [AIns r o b p] [AKill r o b p false] (a_set_stack st t ([AKill r o b p false] ++ k))
  | AKillP r o b p st1 : a_free st None p = Some st1 ->
      amove st t k [AKill r o b p true] [ARel r o b false APanic] (a_set_stack st1 t ([ARel r o b false APanic] ++ k))
  | AKillM r o b p st1 : a_free st None p = Some st1 ->
      amove st t k [AKill r o b p false] [AMake r o b p] (a_set_stack st1 t ([AMake r o b p] ++ k))
  | AMakeM r o b p v : a_read st p = Some v ->
      amove st t k [AMake r o b p] [ARel r o b false (AP p)] (a_set_stack st t ([ARel r o b false (AP p)] ++ k))
  | ARelM r o b m x :
      amove st t k [ARel r o b m x] [AArg r o b m x]
        (a_set_stack (a_unlock st r (match x with APanic => true | _ => false end)) t ([AArg r o b m x] ++ k))
  | AArgF r o p x st1 : a_free st None p = Some st1 ->
      amove st t k [AArg r o (Some p) true x] [] (a_event (a_set_stack st1 t k) (AvRet t r o (Some p) x))
  | AArgN r o b m x : m = false \/ b = None ->
      amove st t k [AArg r o b m x] [] (a_event (a_set_stack st t k) (AvRet t r o b x))
  | ADeadS r p ps st1 : a_free st (Some r) p = Some st1 ->
      amove st t k [ADead r (p :: ps)] [ADead r ps] (a_set_stack st1 t ([ADead r ps] ++ k))
  | ADeadE r : amove st t k [ADead r []] [] (a_event (a_set_stack st t k) (AvGone r))
  | APanG r o b : amove st t k [AGet r o b] [ARel r o b true APanic] (a_set_stack st t ([ARel r o b true APanic] ++ k))
  | APanC r w q : amove st t k [AConv r w q] [ARel r (ARef w q) None false APanic]
        (a_set_stack st t ([ARel r (ARef w q) None false APanic] ++ k))
  | APanI r o b p : amove st t k [AIns r o b p] [AKill r o b p true] (a_set_stack st t ([AKill r o b p true] ++ k))
  | APanK r o b p : amove st t k [AKill r o b p false] [AKill r o b p true] (a_set_stack st t ([AKill r o b p true] ++ k))
  | APanA r o b q : a_drops o true = true ->
      amove st t k [AArg r o b true (AP q)] [AArg r o b true APanic] (a_set_stack st t ([AArg r o b true APanic] ++ k))
  | APanD r p ps st1 : a_free st (Some r) p = Some st1 ->
      amove st t k [ADead r (p :: ps)] [] (a_event (a_set_stack st1 t k) (AvLeak r ps))
  | AArenaM ty : amove st t k [] []
        (AState (a_objs st) (<[a_nextr st := Ar ty []]> (a_arenas st)) (a_locks st) (a_poison st)
                  (a_threads st) (a_next st) (S (a_nextr st)) (AvNew (a_nextr st) ty :: a_log st))
  | AReadM r x p v : a_returned r p (a_log st) = true -> a_arenas st !! r = Some x -> a_read st p = Some v ->
      amove st t k [] [] (a_event st (AvRead r p v))
  | ADropM r x : a_arenas st !! r = Some x -> a_idle st r = true ->
      amove st t k [] [ADead r (ar_set x)]
        (a_event (a_set_stack (a_put st (delete r (a_arenas st))) t ([ADead r (ar_set x)] ++ k)) (AvDrop r)).

  Lemma astep_move_call st l st' : astep E st l = Next st' ->
    exists t fs fs' k, a_stack st t = fs ++ k /\ amove st t k fs fs' st' /\
      (t = default 0 (l_thread l) /\ match l with LCall _ _ _ _ => fs = [] | _ => True end) /\
      (fs = [] -> (fs' <> [] -> a_ready st t = true) /\
        match l with LCall _ r o _ => exists b, fs' = [AWait r o b] | _ => forall r o b, fs' <> [AWait r o b] end).
  Proof.
    intros H. destruct l as [t ty|t r o a|t a i|t v|t|r p|t r]; simpl in H.
    - destruct (a_ready st t) eqn:Hrd; [|done]. injection H as <-. exists t, [], [], (a_stack st t).
      split_and!; [done|constructor|done|done|done].
    - destruct (a_arenas st !! r) as [x|] eqn:Hx; [|done]. destruct (a_ready st t) eqn:Hrd; [|done].
      exists t, []. destruct o as [v|w q|v|v].
      + destruct (Nat.eqb_spec (ie_ty E v) (ar_ty x)); [|done]. injection H as <-.
        eexists _, _. split_and!; [done|by eapply ACallP|done|done|]; intros _; split; [done|by eexists].
      + injection H as <-. eexists _, _. split_and!; [done|by eapply ACallP|done|done|]; intros _; split; [done|by eexists].
      + destruct (Nat.eqb_spec (ie_ty E v) (ar_ty x)); [|done].
        destruct (a_alloc E st a v) as [[st1 p]|] eqn:Ha; [|done]. injection H as <-.
        eexists _, _. split_and!; [done|by eapply ACallB; eauto|done|done|]; intros _; split; [done|by eexists].
      + destruct (Nat.eqb_spec (ie_ty E v) (ar_ty x)); [|done].
        destruct (a_alloc E st a v) as [[st1 p]|] eqn:Ha; [|done]. injection H as <-.
        eexists _, _. split_and!; [done|by eapply ACallB; eauto|done|done|]; intros _; split; [done|by eexists].
    - unfold a_step_thread in H. exists t.
      destruct (a_stack st t) as [|[r o b|r o b|r w q|r o v b|r o b p|r o b p pn|r o b p|r o b m x|r o b m x|r ps] k] eqn:Hst; [done|..].
      + destruct (a_locks st !! r) eqn:Hl; [done|]. injection H as <-. eexists [_], _, k.
        split_and!; [done|by apply ALockM|done|done|done].
      + destruct (a_readable st (a_set st r)); [|done].
        destruct (ipick i _) as [p|] eqn:Hp; [apply ipick_in in Hp|apply ipick_none in Hp].
        * destruct o; injection H as <-; eexists [_], _, k; (split_and!; [done|by eapply AHit|done|done|done]).
        * destruct o as [v|w q|v|v].
          -- injection H as <-. eexists [_], _, k. split_and!; [done|apply (AMissV st t k r (ANew v)); eauto|done|done|done].
          -- injection H as <-. eexists [_], _, k. split_and!; [done|by apply AMissR|done|done|done].
          -- injection H as <-. eexists [_], _, k. split_and!; [done|apply (AMissV st t k r (AOwned v)); eauto|done|done|done].
          -- destruct b as [p|]; [|done]. injection H as <-. eexists [_], _, k. split_and!; [done|by apply AMissB|done|done|done].
      + done.
      + destruct b as [q|].
        * destruct (a_free st None q) as [st1|] eqn:Hf; [|done]. injection H as <-.
          eexists [_], _, k. split_and!; [done|by apply AStoreF|done|done|done].
        * destruct (a_alloc E st a v) as [[st1 p]|] eqn:Ha; [|done]. injection H as <-.
          eexists [_], _, k. split_and!; [done|by eapply AStoreA|done|done|done].
      + destruct (a_read st p) as [v|] eqn:Hr; [|done]. destruct (a_arenas st !! r) as [x|] eqn:Hx; [|done].
        destruct (a_readable st (ar_set x)); [|done].
        destruct (a_cands st (ins_match E v) (ar_set x)) as [|p' l] eqn:Hc; injection H as <-.
        * eexists [_], _, k. split_and!; [done|by apply AInsert|done|done|done].
        * eexists [_], _, k. split_and!; [done| |done|done|done]. eapply (APresent _ _ _ _ _ _ _ _ _ p'); [done..|]. rewrite Hc. by left.
      + destruct (a_free st None p) as [st1|] eqn:Hf; [|done]. injection H as <-.
        destruct pn; eexists [_], [_], k; (split_and!; [done|by constructor|done|done|done]).
      + destruct (a_read st p) as [v|] eqn:Hr; [|done]. injection H as <-.
        eexists [_], _, k. split_and!; [done|by eapply AMakeM|done|done|done].
      + injection H as <-. eexists [_], _, k. split_and!; [done|by apply ARelM|done|done|done].
      + destruct m; [destruct b as [p|]|]; simpl in H.
        * destruct (a_free st None p) as [st1|] eqn:Hf; [|done]. injection H as <-.
          eexists [_], [], k. split_and!; [done|by apply AArgF|done|done|done].
        * injection H as <-. eexists [_], [], k. split_and!; [done|by apply AArgN; right|done|done|done].
        * injection H as <-. eexists [_], [], k. split_and!; [done|by apply AArgN; left|done|done|done].
      + destruct ps as [|p ps].
        * injection H as <-. eexists [_], [], k. split_and!; [done|by apply ADeadE|done|done|done].
        * destruct (a_free st (Some r) p) as [st1|] eqn:Hf; [|done]. injection H as <-.
          eexists [_], _, k. split_and!; [done|by apply ADeadS|done|done|done].
    - exists t. destruct (a_stack st t) as [|f k] eqn:Hst; [done|].
      destruct f as [| |r w q| | | | | | |]; try done.
      destruct (ie_from E w q v) eqn:Hf; [|done]. simpl in H. destruct (bool_decide _) eqn:Hb; [|done].
      injection H as <-. apply bool_decide_eq_true in Hb. destruct (a_arenas st !! r) as [x|] eqn:Hx; [|done].
      simpl in Hb. injection Hb as Hb. eexists [_], _, k. split_and!; [done|by eapply AConvM|done|done|done].
    - exists t. unfold a_step_panic in H.
      destruct (a_stack st t) as [|[r o b|r o b|r w q|r o v b|r o b p|r o b p pn|r o b p|r o b m x|r o b m x|r ps] k] eqn:Hst; try done.
      + injection H as <-. eexists [_], _, k. split_and!; [done|by apply APanG|done|done|done].
      + injection H as <-. eexists [_], _, k. split_and!; [done|by apply APanC|done|done|done].
      + injection H as <-. eexists [_], _, k. split_and!; [done|by apply APanI|done|done|done].
      + destruct pn; [done|]. injection H as <-. eexists [_], _, k. split_and!; [done|by apply APanK|done|done|done].
      + destruct x as [q|]; [|done]. destruct (a_drops o m) eqn:Hd; [|done]. injection H as <-.
        assert (m = true) as -> by (by destruct m, o). eexists [_], _, k. split_and!; [done|by apply APanA|done|done|done].
      + destruct ps as [|p ps]; [done|]. destruct (a_free st (Some r) p) as [st1|] eqn:Hf; [|done]. injection H as <-.
        eexists [_], [], k. split_and!; [done|by apply APanD|done|done|done].
    - destruct (a_returned r p (a_log st)) eqn:Hr; [|done]. destruct (a_arenas st !! r) as [x|] eqn:Hx; [|done].
      destruct (a_read st p) as [v|] eqn:Hv; [|done]. injection H as <-.
      exists 0, [], [], (a_stack st 0). split_and!; [done|by eapply AReadM|done|done|done].
    - destruct (a_arenas st !! r) as [x|] eqn:Hx; [|done]. destruct (a_ready st t) eqn:Hrd; [|done].
      destruct (a_idle st r) eqn:Hi; [|done]. injection H as <-.
      exists t, [], [ADead r (ar_set x)], (a_stack st t). split_and!; [done|by apply ADropM|done|done|done].
  Qed.

  Lemma astep_move st l st' : astep E st l = Next st' ->
    exists t fs fs' k, a_stack st t = fs ++ k /\ amove st t k fs fs' st' /\
      (l_thread l = Some t \/ l_thread l = None) /\
      (forall r o b, fs = [] -> fs' = [AWait r o b] -> exists a, l = LCall t r o a).
  Proof.
    intros (t&fs&fs'&k&Hst&Hm&[Ht Hc]&Hl)%astep_move_call. exists t, fs, fs', k. split_and!; [done|done| |].
    - destruct l; simpl in *; subst; by auto.
    - intros r o b Hfs Hfs'. destruct (Hl Hfs) as [_ Hl']. destruct l as [|u r' o' a| | | | |]; try (by eapply Hl' in Hfs').
      destruct Hl' as [b' ->]. injection Hfs' as -> -> ->. simpl in Ht. subst. by exists a.
  Qed.

  (** *** Each move preserves the invariant. *)
  Lemma plain_stack st t fs fs' k :
    AInv st -> a_stack st t = fs ++ k ->
    (forall s, lsum (own s) fs' = lsum (own s) fs) ->
    (forall r s, lsum (dcnt r s) fs' = lsum (dcnt r s) fs) ->
    (forall r, lsum (dead r) fs' = lsum (dead r) fs) ->
    (forall r, lsum (has_lock r) fs' = lsum (has_lock r) fs) ->
    (forall f, f ∈ fs' -> aframe_ok E st f) ->
    exists es, atrans st (a_set_stack st t (fs' ++ k)) t fs fs' k es /\ AInv (a_set_stack st t (fs' ++ k)).
  Proof.
    intros HI Hst Ho Hd Hdd Hh Hfs. exists []. apply step_plain; try done; simpl.
    - intros u. apply set_stack_get.
    - intros w. by apply set_stack_sum.
    - intros s. rewrite Ho. lia.
    - intros r s. rewrite Hd. lia.
    - intros r. rewrite Hdd. lia.
    - intros r. rewrite Hh. done.
    - intros e He. by apply elem_of_nil in He.
  Qed.
  Lemma plain_event st st0 t fs k e :
    AInv st -> a_stack st t = fs ++ k -> st0 = a_event (a_set_stack st t k) e ->
    (forall s, leak s e = lsum (own s) fs) -> (forall s, freeds s e = 0) -> (forall r, a_stored r [e] = []) ->
    (forall r s, leakr r s e + freedby r s e = lsum (dcnt r s) fs + ins r s e) ->
    (forall r, ended r e = lsum (dead r) fs) -> (forall r, lsum (has_lock r) fs = 0) -> aev_ok E st0 e ->
    exists es, atrans st st0 t fs [] k es /\ AInv st0.
  Proof.
    intros HI Hst -> Ho Hf Hs Hd Hdd Hh He. exists [e]. apply step_plain; try done; simpl.
    - intros u. apply set_stack_get.
    - intros w. by apply (set_stack_sum st t fs [] k).
    - intros s. rewrite Ho. lia.
    - intros s. rewrite Hf. lia.
    - intros r s. specialize (Hd r s). lia.
    - intros r. rewrite Hdd. lia.
    - intros r. rewrite Hh. done.
    - intros f Hin. by apply elem_of_nil in Hin.
    - by intros e' ->%elem_of_list_singleton.
  Qed.
  Lemma free_stack st t w p st1 fs fs' k :
    AInv st -> a_stack st t = fs ++ k -> a_free st w p = Some st1 ->
    (forall s, lsum (own s) fs' + box_is s (Some p) = lsum (own s) fs) ->
    (forall r s, lsum (dcnt r s) fs' + freedby (V:=V) (Q:=Q) r s (AvFree w p) = lsum (dcnt r s) fs) ->
    (forall r, lsum (dead r) fs' = lsum (dead r) fs) ->
    (forall r, lsum (has_lock r) fs' = lsum (has_lock r) fs) ->
    (forall f, f ∈ fs' -> aframe_ok E (a_set_stack st1 t (fs' ++ k)) f) ->
    exists es, atrans st (a_set_stack st1 t (fs' ++ k)) t fs fs' k es /\ AInv (a_set_stack st1 t (fs' ++ k)).
  Proof.
    intros HI Hst Hf Ho Hd Hdd Hh Hfs. unfold a_free in Hf.
    destruct (a_objs st !! ip_ser p) as [y|] eqn:Hy; [|done]. injection Hf as <-.
    exists ([] ++ [AvFree w p]). apply step_free; try done; simpl.
    - intros s. specialize (Ho s). simpl in Ho. lia.
    - intros r s. specialize (Hd r s). simpl in Hd. lia.
    - intros r. rewrite Hdd. lia.
    - intros e He. by apply elem_of_nil in He.
  Qed.
  Lemma free_event st st0 t w p st1 fs k e :
    AInv st -> a_stack st t = fs ++ k -> a_free st w p = Some st1 -> st0 = a_event (a_set_stack st1 t k) e ->
    (forall s, leak s e + box_is s (Some p) = lsum (own s) fs) ->
    (forall s, freeds s e = 0) -> (forall r, a_stored r [e] = []) ->
    (forall r s, leakr r s e + freedby (V:=V) (Q:=Q) r s (AvFree w p) = lsum (dcnt r s) fs) ->
    (forall r s, freedby r s e = 0) -> (forall r s, ins r s e = 0) ->
    (forall r, ended r e = lsum (dead r) fs) ->
    (forall r, lsum (has_lock r) fs = 0) -> aev_ok E st0 e ->
    exists es, atrans st st0 t fs [] k es /\ AInv st0.
  Proof.
    intros HI Hst Hf -> Ho Hfr Hs Hd Hfb Hi Hdd Hh He. unfold a_free in Hf.
    destruct (a_objs st !! ip_ser p) as [y|] eqn:Hy; [|done]. injection Hf as <-.
    exists ([e] ++ [AvFree w p]). apply step_free; try done; simpl.
    - intros s. specialize (Ho s). simpl in Ho. lia.
    - intros s. rewrite Hfr. lia.
    - intros r s. specialize (Hd r s). simpl in Hd. lia.
    - intros r s. rewrite Hfb. lia.
    - intros r s. rewrite Hi. lia.
    - intros r. rewrite Hdd. lia.
    - intros f Hin. by apply elem_of_nil in Hin.
    - by intros e' ->%elem_of_list_singleton.
  Qed.

  Lemma a_cands_in st (h : V -> bool) ps p : p ∈ a_cands st h ps <-> p ∈ ps /\ exists d, a_read st p = Some d /\ h d = true.
  Proof.
    unfold a_cands. rewrite elem_of_list_In, filter_In, <- elem_of_list_In. apply and_iff_compat_l.
    destruct (a_read st p) as [d|]; split; [by exists d|by intros (?&[= ->]&?)|done|by intros (?&?&?)].
  Qed.
  Lemma free_log st w p st1 : a_free st w p = Some st1 -> a_log st1 = AvFree w p :: a_log st.
  Proof. unfold a_free. destruct (a_objs st !! ip_ser p); [|done]. by intros [= <-]. Qed.
  Lemma free_same st w p st1 : a_free st w p = Some st1 ->
    a_arenas st1 = a_arenas st /\ a_next st1 = a_next st /\ a_nextr st1 = a_nextr st /\
    a_objs st1 = delete (ip_ser p) (a_objs st) /\ is_Some (a_objs st !! ip_ser p).
  Proof. unfold a_free. destruct (a_objs st !! ip_ser p); [|done]. by intros [= <-]. Qed.
  Lemma on_of st r ty (x : arena) : a_arenas st !! r = Some x -> ar_ty x = ty -> on st r ty.
  Proof. by exists x. Qed.
  Lemma there_lt st r x : AInv st -> a_arenas st !! r = Some x -> r < a_nextr st.
  Proof.
    intros HI Hx. pose proof (x_ends _ _ HI r) as H. unfold there, lt1 in H. rewrite Hx in H.
    destruct (Nat.ltb_spec r (a_nextr st)); lia.
  Qed.
  Lemma returned_a r p (l : list (aevent V Q)) : a_returned r p l = true <-> exists t o b, AvRet t r o b (AP p) ∈ l.
  Proof.
    unfold a_returned. rewrite existsb_exists. split.
    - intros (e&Hin&He). destruct e as [|t r' o b [q|]| | | | | |]; try done.
      apply andb_true_iff in He as [Hr Hq]. apply Nat.eqb_eq in Hr as ->. apply bool_decide_eq_true in Hq as ->.
      exists t, o, b. by apply elem_of_list_In.
    - intros (t&o&b&Hin). eexists. split; [by apply elem_of_list_In|]. simpl. rewrite Nat.eqb_refl. simpl.
      by rewrite bool_decide_eq_true.
  Qed.
  Lemma stored_in r (l : list (aevent V Q)) p v : (p, v) ∈ a_stored r l <-> exists t o, AvIns t r o p v ∈ l.
  Proof.
    induction l as [|e l IH]; simpl.
    - split; [by intros ?%elem_of_nil|by intros (?&?&?%elem_of_nil)].
    - assert ((exists t o, AvIns t r o p v ∈ e :: l) <-> (exists t o, e = AvIns t r o p v) \/ exists t o, AvIns t r o p v ∈ l) as ->.
      { setoid_rewrite elem_of_cons. naive_solver. }
      rewrite <- IH. destruct e as [t r' o p' v'| | | | | | |]; try naive_solver.
      destruct (Nat.eqb_spec r' r) as [->|Hne]; [|naive_solver]. rewrite elem_of_cons. naive_solver.
  Qed.

  Lemma amove_ok st t k fs fs' st' :
    AInv st -> a_stack st t = fs ++ k -> amove st t k fs fs' st' ->
    exists es, atrans st st' t fs fs' k es /\ AInv st'.
  Proof.
    intros HI Hst Hm.
    assert (forall f, f ∈ fs -> aframe_ok E st f) as Hfr.
    { intros f Hf. apply (x_frames _ _ HI t). rewrite Hst. apply elem_of_app. by left. }
    destruct Hm.
    - (* call *) apply plain_stack; try done; try (intros; simpl; lia). intros f ->%elem_of_list_singleton. simpl.
      exists (ar_ty x). split_and!; [by apply (on_of _ _ _ x)|by destruct o|by destruct o].
    - exists []. eapply (step_alloc st t a v st1 p [] [AWait r o (Some p)] k); try done; try (intros; simpl; lia).
      intros Hp Hs f ->%elem_of_list_singleton. simpl. exists (ar_ty x).
      destruct (a_alloc_spec _ _ _ _ _ HI H2) as (->&_). split_and!.
      + by apply (on_of _ _ _ x).
      + by destruct H0; subst o.
      + rewrite H1 in Hp. destruct H0; subst o; simpl; by exists p.
    - (* lock *) exists []. apply step_plain; try done; simpl.
      + intros u. apply (set_stack_get (a_lock st r t)).
      + intros w. by apply (set_stack_sum st t [_] [_] k).
      + intros s. unfold alk. simpl. destruct (Nat.eqb_spec r s) as [<-|].
        * rewrite lookup_insert, H. lia.
        * rewrite lookup_insert_ne by done. lia.
      + intros f ->%elem_of_list_singleton. apply (Hfr (AWait r o b)). by left.
      + intros e He. by apply elem_of_nil in He.
    - (* hit *) apply plain_stack; try done; try (intros; simpl; lia). intros f ->%elem_of_list_singleton. simpl.
      destruct (Hfr (AGet r o b)) as (ty&?&?&?); [by left|]. exists ty. split_and!; try done.
      by apply a_cands_in in H as [? _].
    - (* miss *) destruct (Hfr (AGet r o b)) as (ty&?&Ht&Ha); [by left|]. apply plain_stack; try done; try (intros; simpl; lia).
      + intros s. destruct H0; subst o; simpl; [|done]. simpl in Ha. by subst b.
      + intros f ->%elem_of_list_singleton. simpl. exists ty. destruct H0; subst o; simpl in *; split_and!; try done. by right.
    - apply plain_stack; try done; try (intros; simpl; lia).
      + intros s. destruct (Hfr (AGet r (ARef w q) b)) as (ty&?&?&Ha); [by left|]. simpl in Ha. by subst b.
      + intros f ->%elem_of_list_singleton. simpl.
        destruct (Hfr (AGet r (ARef w q) b)) as (ty&?&?&?); [by left|]. by exists ty.
    - apply plain_stack; try done; try (intros; simpl; lia). intros f ->%elem_of_list_singleton. simpl.
      destruct (Hfr (AGet r (ABox v) (Some p))) as (ty&?&?&p'&[= <-]&?); [by left|]. by exists ty, v.
    - apply plain_stack; try done; try (intros; simpl; lia). intros f ->%elem_of_list_singleton. simpl.
      exists (ar_ty x). split_and!; try done. by apply (on_of _ _ _ x).
    - destruct (Hfr (AStore r o v (Some q))) as (ty&(x&Hx&Hty)&?&?&?&Hb); [by left|].
      destruct (free_same _ _ _ _ H) as (Ha&_). eapply free_stack; try done; try (intros; simpl; lia).
      + intros f ->%elem_of_list_singleton. simpl. exists ty. split_and!; try done.
        * exists x. simpl. by rewrite Ha.
        * destruct o; try done. by left.
    - destruct (Hfr (AStore r o v None)) as (ty&(x&Hx&Hty)&?&?&Hvt&Hb); [by left|].
      exists []. eapply (step_alloc st t a v st1 p); try done; try (intros; simpl; lia).
      intros Hp Hs f ->%elem_of_list_singleton. simpl. exists ty, v.
      destruct (a_alloc_spec _ _ _ _ _ HI H) as (->&_). split_and!; try done.
      + by exists x.
      + rewrite <- Hvt. exact Hp.
      + by destruct o.
    - (* insert *)
      destruct (Hfr (AIns r o b p)) as (ty&v'&(x'&Hx'&Hty)&Hot&Hp&Hs&Hb); [by left|].
      assert (x' = x) as -> by congruence. destruct Hp as (Hp&Hpm&Hpt).
      assert (v' = v) as -> by (unfold a_read in H; rewrite Hp in H; simpl in H; congruence).
      set (x2 := Ar (ar_ty x) (p :: ar_set x)).
      set (st2 := a_set_stack (a_event (a_put st (<[r := x2]> (a_arenas st))) (AvIns t r o p v)) t ([AMake r o b p] ++ k)).
      pose proof (there_lt _ _ _ HI H0) as Hlt.
      assert (forall r' s, cnt s (a_set st2 r') = cnt s (a_set st r') + if r =? r' then box_is s (Some p) else 0) as Hset.
      { intros r' s. unfold a_set. simpl. destruct (Nat.eqb_spec r r') as [<-|].
        - rewrite lookup_insert, H0. simpl. rewrite cnt_cons. lia.
        - rewrite lookup_insert_ne by done. lia. }
      assert (forall s, asum st2 s = asum st s + box_is s (Some p)) as Hasum.
      { intros s. unfold asum. simpl.
        pose proof (msum_insert_Some (λ x, cnt s (ar_set x)) (a_arenas st) r x2 x H0) as Hm. simpl in Hm. rewrite cnt_cons in Hm. simpl. lia. }
      assert (atrans st st2 t [AIns r o b p] [AMake r o b p] k [AvIns t r o p v]) as Htr.
      { constructor; simpl; try done.
        - intros u. apply (set_stack_get (a_event (a_put st _) _)).
        - intros w. by apply (set_stack_sum st t [_] [_] k).
        - intros s. rewrite Hasum. unfold alive. simpl. lia.
        - intros r' s. rewrite Hset. simpl. lia.
        - intros r'. unfold there. simpl. destruct (decide (r = r')) as [<-|].
          + rewrite lookup_insert, H0. lia.
          + rewrite lookup_insert_ne by done. lia.
        - intros r' x' Hx2 _. destruct (decide (r = r')) as [<-|].
          + rewrite lookup_insert in Hx2. injection Hx2 as <-. exists x. split_and!; try done. intros; by right.
          + rewrite lookup_insert_ne in Hx2 by done. by exists x'.
        - intros r' x' Hy Hn. destruct (decide (r = r')) as [<-|].
          + by rewrite lookup_insert in Hn.
          + rewrite lookup_insert_ne in Hn by done. congruence.
        - intros r'. destruct (Nat.eqb_spec r r') as [<-|].
          + right. left. lia.
          + left. by rewrite lookup_insert_ne.
        - intros r'. destruct (Nat.eqb_spec r r') as [<-|]; [right; lia|by left]. }
      eexists. split; [exact Htr|]. eapply atrans_inv; try done; simpl.
      + apply (x_fresh _ _ HI).
      + apply (x_zaddr _ _ HI).
      + apply (x_addr _ _ HI).
      + intros r' x' Hx2. destruct (Nat.eqb_spec r r') as [<-|].
        * rewrite lookup_insert in Hx2. injection Hx2 as <-. simpl. by rewrite (x_stored _ _ HI r x H0).
        * rewrite lookup_insert_ne in Hx2 by done. by apply (x_stored _ _ HI).
      + intros f ->%elem_of_list_singleton. simpl. exists ty. split_and!; try done.
        * exists x2. simpl. by rewrite lookup_insert.
        * by apply (x_fresh _ _ HI) in Hp.
        * left. split.
          -- unfold a_set. simpl. rewrite lookup_insert. by left.
          -- destruct o; try done. simpl in *. subst v0. split; [done|]. exists t. by left.
      + intros e ->%elem_of_list_singleton. simpl. split_and!; try done.
        * by apply (x_fresh _ _ HI) in Hp.
        * intros x' Hx2. rewrite lookup_insert in Hx2. injection Hx2 as <-. simpl. split; [by left|].
          unfold apoints. simpl. subst ty. done.
    - apply plain_stack; try done; try (intros; simpl; lia). intros f ->%elem_of_list_singleton. simpl.
      destruct (Hfr (AIns r o b p)) as (ty&v'&?&?&?&?&?); [by left|]. by exists ty, v'.
    - destruct (Hfr (AKill r o b p true)) as (ty&v'&(x&Hx&Hty)&?&?&Hb); [by left|].
      destruct (free_same _ _ _ _ H) as (Ha&_). pose proof (free_log _ _ _ _ H) as Hl. eapply free_stack; try done; try (intros; simpl; lia).
      + intros f ->%elem_of_list_singleton. simpl. exists ty. split_and!; try done.
        * exists x. simpl. by rewrite Ha.
        * destruct o; try done. simpl. exists p. split; [done|]. right. split; [done|]. rewrite Hl. by left.
    - destruct (Hfr (AKill r o b p false)) as (ty&v'&(x&Hx&Hty)&?&Hp&Hb); [by left|].
      destruct (free_same _ _ _ _ H) as (Ha&Hn&_&Ho&_). eapply free_stack; try done; try (intros; simpl; lia).
      + intros f ->%elem_of_list_singleton. simpl. exists ty. split_and!; try done.
        * exists x. simpl. by rewrite Ha.
        * rewrite Hn. destruct Hp as (Hp&_). by apply (x_fresh _ _ HI) in Hp.
        * right. rewrite Ho. apply lookup_delete.
    - destruct (Hfr (AMake r o b p)) as (ty&?&?&?&Hp); [by left|].
      apply plain_stack; try done; try (intros; simpl; lia). intros f ->%elem_of_list_singleton. simpl. exists ty. split_and!; try done.
      + destruct Hp as [[Hp _]|Hp]; [done|]. unfold a_read in H. by rewrite Hp in H.
      + destruct Hp as [[Hp Hb]|Hp]; [|unfold a_read in H; by rewrite Hp in H].
        destruct o; try done. simpl in *. destruct Hb as (->&t'&?). exists p. split; [done|]. left. split; [done|]. by exists t'.
    - exists []. apply step_plain; try done; simpl.
      + intros u. apply (set_stack_get (a_unlock st r _)).
      + intros w. by apply (set_stack_sum st t [_] [_] k).
      + intros r'. pose proof (x_locks _ _ HI r) as Hl. pose proof (msum_astack_ge (has_lock r) st t) as Hge.
        rewrite Hst in Hge. simpl in Hge. rewrite Nat.eqb_refl in Hge.
        unfold alk in *. simpl. destruct (Nat.eqb_spec r r') as [<-|].
        * rewrite lookup_delete. destruct (a_locks st !! r); lia.
        * rewrite lookup_delete_ne by done. lia.
      + intros f ->%elem_of_list_singleton. apply (Hfr (ARel r o b m x)). by left.
      + intros e He. by apply elem_of_nil in He.
    - destruct (Hfr (AArg r o (Some p) true x)) as (ty&(y&Hy&Hty)&Hot&Hi&Hb); [by left|].
      destruct (free_same _ _ _ _ H) as (Ha&_&Hn&_). pose proof (free_log _ _ _ _ H) as Hl.
      pose proof (there_lt _ _ _ HI Hy) as Hlt.
      eapply free_event; try done; simpl.
      + intros s. lia.
      + split_and!; [by rewrite Hn| |].
        * intros y' q -> Hy'. rewrite Ha in Hy'. simpl in Hi. unfold a_set in Hi. by rewrite Hy' in Hi.
        * destruct o; try done. exists p. split; [done|]. right. rewrite Hl. right. by left.
    - destruct (Hfr (AArg r o b m x)) as (ty&(y&Hy&Hty)&Hot&Hi&Hb); [by left|].
      pose proof (there_lt _ _ _ HI Hy) as Hlt.
      eapply plain_event; try done; simpl.
      + intros s. destruct H; subst; [done|by destruct m].
      + split_and!; [done| |].
        * intros y' q -> Hy'. simpl in Hi. unfold a_set in Hi. by rewrite Hy' in Hi.
        * destruct o; try done. destruct m.
          -- simpl in Hb. destruct H as [|Hn]; [done|]. subst b. naive_solver.
          -- simpl in Hb. destruct Hb as (p&->&[(->&t'&?)|[-> ?]]); exists p; (split; [done|]).
             ++ left. split; [done|]. exists t'. by right.
             ++ right. by right.
    - eapply free_stack; try done; simpl.
      + intros s. rewrite cnt_cons. lia.
      + intros r' s. rewrite cnt_cons. destruct (r =? r'); lia.
      + by intros f ->%elem_of_list_singleton.
    - eapply plain_event; try done; simpl.
      + intros r' s. by destruct (r =? r').
      + intros r'. lia.
    - apply plain_stack; try done; try (intros; simpl; lia). intros f ->%elem_of_list_singleton. simpl.
      destruct (Hfr (AGet r o b)) as (ty&?&?&?); [by left|]. by exists ty.
    - apply plain_stack; try done; try (intros; simpl; lia). intros f ->%elem_of_list_singleton. simpl.
      destruct (Hfr (AConv r w q)) as (ty&?); [by left|]. by exists ty.
    - apply plain_stack; try done; try (intros; simpl; lia). intros f ->%elem_of_list_singleton. simpl.
      destruct (Hfr (AIns r o b p)) as (ty&v'&?&?&?&?&?); [by left|]. by exists ty, v'.
    - apply plain_stack; try done; try (intros; simpl; lia). intros f ->%elem_of_list_singleton. simpl.
      destruct (Hfr (AKill r o b p false)) as (ty&v'&?&?&?&?); [by left|]. by exists ty, v'.
    - apply plain_stack; try done; try (intros; simpl; lia). intros f ->%elem_of_list_singleton. simpl.
      destruct (Hfr (AArg r o b true (AP q))) as (ty&?&?&?&?); [by left|]. by exists ty.
    - eapply free_event; try done; simpl.
      + intros s. rewrite cnt_cons. lia.
      + intros r' s. rewrite cnt_cons. destruct (r =? r'); lia.
      + intros r'. lia.
    - (* new arena *)
      assert (a_arenas st !! a_nextr st = None) as Hnone.
      { destruct (a_arenas st !! a_nextr st) as [x|] eqn:Hx; [|done]. apply (there_lt _ _ _ HI) in Hx. lia. }
      set (st2 := AState (a_objs st) (<[a_nextr st := Ar ty []]> (a_arenas st)) (a_locks st) (a_poison st)
                  (a_threads st) (a_next st) (S (a_nextr st)) (AvNew (a_nextr st) ty :: a_log st)).
      assert (atrans st st2 t [] [] k [AvNew (a_nextr st) ty]) as Htr.
      { constructor; simpl; try done.
        - intros u. destruct (decide (t = u)) as [<-|]; [|done]. exact Hst.
        - intros s. unfold asum, alive. simpl.
          pose proof (msum_insert_None (λ x, cnt s (ar_set x)) (a_arenas st) (a_nextr st) (Ar ty []) Hnone) as Hm. simpl in Hm.
          lia.
        - intros r s. unfold a_set. simpl. destruct (decide (a_nextr st = r)) as [<-|].
          + by rewrite lookup_insert, Hnone.
          + rewrite lookup_insert_ne by done. lia.
        - intros r. unfold there, lt1. simpl. destruct (decide (a_nextr st = r)) as [<-|].
          + rewrite lookup_insert, Hnone. destruct (Nat.ltb_spec (a_nextr st) (a_nextr st)), (Nat.ltb_spec (a_nextr st) (S (a_nextr st))); lia.
          + rewrite lookup_insert_ne by done. destruct (Nat.ltb_spec r (a_nextr st)), (Nat.ltb_spec r (S (a_nextr st))); lia.
        - intros r x' Hx' Hr. rewrite lookup_insert_ne in Hx' by lia. by exists x'.
        - intros r x Hx Hn. destruct (decide (a_nextr st = r)) as [<-|]; [congruence|].
          rewrite lookup_insert_ne in Hn by done. congruence.
        - lia.
        - intros r. destruct (decide (a_nextr st = r)) as [<-|].
          + right. right. by apply idle_new.
          + left. by rewrite lookup_insert_ne.
        - intros r. by left. }
      eexists. split; [exact Htr|]. eapply atrans_inv; try done; simpl.
      + apply (x_fresh _ _ HI).
      + apply (x_zaddr _ _ HI).
      + apply (x_addr _ _ HI).
      + intros r x Hx. destruct (decide (a_nextr st = r)) as [<-|].
        * rewrite lookup_insert in Hx. injection Hx as <-. simpl.
          destruct (a_stored (a_nextr st) (a_log st)) as [|[p v] l] eqn:Hs; [done|].
          assert ((p, v) ∈ a_stored (a_nextr st) (a_log st)) as Hin by (rewrite Hs; by left).
          apply stored_in in Hin as (t'&o&Hin). apply (x_log _ _ HI) in Hin as (?&_). lia.
        * rewrite lookup_insert_ne in Hx by done. by apply (x_stored _ _ HI).
      + intros f Hf. by apply elem_of_nil in Hf.
      + by intros e ->%elem_of_list_singleton.
    - (* read *)
      exists [AvRead r p v]. apply step_plain; try done; simpl.
      + intros u. destruct (decide (t = u)) as [<-|]; [|done]. exact Hst.
      + intros f Hf. by apply elem_of_nil in Hf.
      + intros e ->%elem_of_list_singleton. simpl. split; [by eapply there_lt|].
        apply returned_a in H as (t'&o&b&Hin). apply (x_log _ _ HI) in Hin as (_&Hin&_).
        specialize (Hin x p eq_refl H0). destruct (set_pts _ _ _ _ _ HI H0 Hin) as (v'&(Hp&_)&Hs).
        unfold a_read in H1. rewrite Hp in H1. injection H1 as <-.
        apply stored_in in Hs as (t1&o1&Hs). exists t1, o1. by right.
    - (* drop of an arena *)
      set (st2 := a_event (a_set_stack (a_put st (delete r (a_arenas st))) t ([ADead r (ar_set x)] ++ k)) (AvDrop r)).
      assert (atrans st st2 t [] [ADead r (ar_set x)] k [AvDrop r]) as Htr.
      { constructor; simpl; try done.
        - intros u. apply (set_stack_get (a_put st _)).
        - intros w. by apply (set_stack_sum st t [] [_] k).
        - intros s. unfold asum, alive. simpl.
          pose proof (msum_delete (λ x, cnt s (ar_set x)) (a_arenas st) r x H) as Hm. simpl in Hm. lia.
        - intros r' s. unfold a_set. simpl. destruct (Nat.eqb_spec r r') as [<-|].
          + rewrite lookup_delete, H. simpl. lia.
          + rewrite lookup_delete_ne by done. lia.
        - intros r'. unfold there. simpl. destruct (Nat.eqb_spec r r') as [<-|].
          + rewrite lookup_delete, H. lia.
          + rewrite lookup_delete_ne by done. lia.
        - intros r' x' [_ Hx']%lookup_delete_Some _. by exists x'.
        - intros r' x' Hx' [->|Hn]%lookup_delete_None; [done|congruence].
        - intros r'. destruct (decide (r = r')) as [<-|]; [by right; right|]. left. by rewrite lookup_delete_ne.
        - intros r'. by left. }
      eexists. split; [exact Htr|]. eapply atrans_inv; try done; simpl.
      + apply (x_fresh _ _ HI).
      + apply (x_zaddr _ _ HI).
      + apply (x_addr _ _ HI).
      + intros r' x' [_ Hx']%lookup_delete_Some. by apply (x_stored _ _ HI).
      + by intros f ->%elem_of_list_singleton.
      + by intros e ->%elem_of_list_singleton.
  Qed.

  Theorem astep_inv st l st' : AInv st -> astep E st l = Next st' -> AInv st'.
  Proof.
    intros HI (t&fs&fs'&k&Hst&Hm&_)%astep_move. by destruct (amove_ok _ _ _ _ _ _ HI Hst Hm) as (es&_&?).
  Qed.
  Theorem arun_inv st ls st' : AInv st -> run (astep E) st ls = Some st' -> AInv st'.
  Proof. apply run_inv_weak. intros s l s'. apply astep_inv. Qed.
  Theorem areach_inv ls st : run (astep E) ainit ls = Some st -> AInv st.
  Proof. apply arun_inv, ainv_init. Qed.

  (** *** Undefined behaviour *)
  Lemma set_readable st r x : AInv st -> a_arenas st !! r = Some x -> a_readable st (ar_set x) = true.
  Proof.
    intros HI Hx. unfold a_readable. apply forallb_forall. intros p Hp%elem_of_list_In.
    destruct (set_pts _ _ _ _ _ HI Hx Hp) as (v&(Hp'&_)&_). unfold a_read. by rewrite Hp'.
  Qed.
  Lemma owned_live st t f k p : AInv st -> a_stack st t = f :: k -> 1 <= own (ip_ser p) f -> is_Some (a_objs st !! ip_ser p).
  Proof.
    intros HI Hst Ho. pose proof (x_own _ _ HI (ip_ser p)) as H. pose proof (msum_astack_ge (own (ip_ser p)) st t) as H'.
    rewrite Hst in H'. simpl in H'. unfold alive in H. destruct (a_objs st !! ip_ser p); [done|lia].
  Qed.
  Lemma free_some st w p : is_Some (a_objs st !! ip_ser p) -> exists st1, a_free st w p = Some st1.
  Proof. intros [y Hy]. unfold a_free. rewrite Hy. by eexists. Qed.

  Theorem astep_ub st l : AInv st -> astep E st l = UB ->
    exists t a i r o b p k, l = LStep t a i /\ a_stack st t = AMake r o b p :: k /\ a_objs st !! ip_ser p = None.
  Proof.
    intros HI H. destruct l as [t ty|t r o a|t a i|t v|t|r p|t r]; simpl in H.
    - by destruct (a_ready st t).
    - destruct (a_arenas st !! r) as [x|]; [|done]. destruct (a_ready st t); [|done].
      destruct o; try done; destruct (ie_ty E v =? ar_ty x); try done; by destruct (a_alloc E st a v) as [[? ?]|].
    - unfold a_step_thread in H.
      destruct (a_stack st t) as [|[r o b|r o b|r w q|r o v b|r o b p|r o b p pn|r o b p|r o b m x|r o b m x|r ps] k] eqn:Hst; [done|..].
      all: match type of Hst with _ = ?f :: _ => assert (aframe_ok E st f) as Hok by (apply (x_frames _ _ HI t); rewrite Hst; by left);
             pose proof (λ p, owned_live st t f k p HI Hst) as Hlive end; simpl in Hok, Hlive.
      + by destruct (a_locks st !! r).
      + destruct Hok as (ty&(x&Hx&_)&_). unfold a_set in H. rewrite Hx in H. rewrite (set_readable _ _ _ HI Hx) in H.
        destruct (ipick i _); [by destruct o|]. destruct o; try done. by destruct b.
      + done.
      + destruct b as [q|]; [|by destruct (a_alloc E st a v) as [[? ?]|]].
        destruct (free_some st None q) as [st1 Hf]; [apply Hlive; simpl; by rewrite Nat.eqb_refl|]. by rewrite Hf in H.
      + destruct Hok as (ty&v&(x&Hx&_)&_&(Hp&_)&_). unfold a_read in H. rewrite Hp, Hx in H. simpl in H.
        rewrite (set_readable _ _ _ HI Hx) in H. by destruct (a_cands st _ _).
      + destruct (free_some st None p) as [st1 Hf]; [apply Hlive; by rewrite Nat.eqb_refl|]. by rewrite Hf in H.
      + exists t, a, i, r, o, b, p, k. split_and!; [done|done|]. unfold a_read in H.
        destruct (a_objs st !! ip_ser p); done.
      + done.
      + destruct m; [destruct b as [p|]|]; simpl in H; try done.
        destruct (free_some st None p) as [st1 Hf]; [apply Hlive; simpl; by rewrite Nat.eqb_refl|]. by rewrite Hf in H.
      + destruct ps as [|p ps]; [done|].
        destruct (free_some st (Some r) p) as [st1 Hf]; [apply Hlive; rewrite cnt_cons, Nat.eqb_refl; lia|]. by rewrite Hf in H.
    - destruct (a_stack st t) as [|f k] eqn:Hst; [done|]. destruct f; try done. by destruct (_ && _).
    - unfold a_step_panic in H.
      destruct (a_stack st t) as [|[r o b|r o b|r w q|r o v b|r o b p|r o b p pn|r o b p|r o b m x|r o b m x|r ps] k] eqn:Hst; try done.
      + by destruct pn.
      + destruct x; [|done]. by destruct (a_drops o m).
      + destruct ps as [|p ps]; [done|].
        destruct (free_some st (Some r) p) as [st1 Hf]; [|by rewrite Hf in H].
        apply (owned_live st t (ADead r (p :: ps)) k p HI Hst). simpl. rewrite cnt_cons, Nat.eqb_refl. lia.
    - destruct (a_returned r p (a_log st)) eqn:Hr; [|done]. destruct (a_arenas st !! r) as [x|] eqn:Hx; [|done].
      apply returned_a in Hr as (t&o&b&Hin). apply (x_log _ _ HI) in Hin as (_&Hin&_).
      destruct (set_pts _ _ _ _ _ HI Hx (Hin x p eq_refl Hx)) as (v&(Hp&_)&_). unfold a_read in H. by rewrite Hp in H.
    - destruct (a_arenas st !! r) as [x|]; [|done]. by destruct (a_ready st t && a_idle st r).
  Qed.
End step.

(** Every step of the Intern model replaces some top frames of one thread, as described by
    [trans], and preserves the invariant.  No step is undefined. *)
From stdpp Require Import gmap list numbers.
From Verif Require Import Base InternModel InternSpec InternInv.
Require Import ZifyBool ZifyNat ZifyN.

Section step.
  Context {V Q : Type} (E : ienv V Q).
  Implicit Types (st : istate V Q) (v : V) (p : iptr) (o : iop V Q) (f g : frame V Q) (t ty s : nat).
  Notation slot := (slot E).
  Notation op_ty := (op_ty E).
  Notation IInv := (IInv E).
  Notation held := (held E).

  Record trans st st' t (fs fs' k : list (frame V Q)) : Prop := {
    tr_old : get_stack st t = fs ++ k;
    tr_new : i_threads st' = <[t:=fs' ++ k]> (i_threads st);
    tr_own : forall s, lsum (owned s) fs' + own_obj st s = lsum (owned s) fs + own_obj st' s;
    tr_held : forall s, lsum (held s) fs' + lk st s = lsum (held s) fs + lk st' s;
    tr_objs : forall s x, i_objs st !! s = Some x -> lsum (owned s) fs = 0 -> i_objs st' !! s = Some x;
    tr_sets : forall ty, inserted E ty (i_log st') = inserted E ty (i_log st)
      \/ 0 < lsum (held (slot ty)) fs \/ 0 < lsum (held (slot ty)) fs';
  }.

  Lemma iinv_init : IInv iinit.
  Proof.
    constructor; simpl.
    - intros s x H. by rewrite lookup_empty in H.
    - intros s x H. by rewrite lookup_empty in H.
    - intros s1 s2 x1 x2 H. by rewrite lookup_empty in H.
    - intros s ty ps H. unfold container in H. simpl in H. rewrite lookup_empty in H. by apply elem_of_nil in H.
    - intros s. unfold container. simpl. rewrite lookup_empty. constructor.
    - intros ty. unfold set_of, container. simpl. by rewrite lookup_empty.
    - intros t f H. unfold get_stack in H. simpl in H. rewrite lookup_empty in H. by apply elem_of_nil in H.
    - intros s. unfold own_obj. simpl. by rewrite msum_empty, lookup_empty.
    - intros s. unfold lk. simpl. by rewrite msum_empty, lookup_empty.
    - intros e H. by apply elem_of_nil in H.
    - intros t f H. unfold get_stack in H. simpl in H. rewrite lookup_empty in H. by apply elem_of_nil in H.
  Qed.

  (** *** Steps that change only a stack. *)
  Lemma trans_stack st t fs fs' k :
    get_stack st t = fs ++ k ->
    (forall s, lsum (owned s) fs' = lsum (owned s) fs) ->
    (forall s, lsum (held s) fs' = lsum (held s) fs) ->
    trans st (set_stack st t (fs' ++ k)) t fs fs' k.
  Proof.
    intros Hst Ho Hh. constructor; try done.
    - intros s. rewrite Ho. done.
    - intros s. rewrite Hh. done.
    - intros ty. by left.
  Qed.
  Lemma inv_stack st t fs fs' k :
    IInv st -> trans st (set_stack st t (fs' ++ k)) t fs fs' k ->
    (forall f, f ∈ fs' -> frame_ok E st f) ->
    (forall f, f ∈ fs' -> match f with FWait _ _ => True | _ =>
      is_Some (find_set (frame_ty E f) (container st (slot (frame_ty E f)))) end) ->
    IInv (set_stack st t (fs' ++ k)).
  Proof.
    intros HI [] Hf Hh. eapply (upd_inv E st _ t fs fs' k); try done.
    - apply (v_fresh _ _ HI).
    - apply (v_zaddr _ _ HI).
    - apply (v_addr _ _ HI).
    - apply (v_slot _ _ HI).
    - apply (v_nodup _ _ HI).
    - apply (v_current _ _ HI).
    - intros e He. by left.
  Qed.

  (** *** Allocation *)
  Lemma addr_free_spec st a : addr_free E st a = true <->
    forall s x, i_objs st !! s = Some x -> is_zst E (io_val x) = true \/ io_addr x <> a.
  Proof. unfold addr_free. by rewrite bool_decide_eq_true. Qed.

  Lemma ialloc_spec st a v b st1 p :
    IInv st -> ialloc E st a v b = Some (st1, p) ->
    st1 = set_objs (IState (i_objs st) (i_slots st) (i_locks st) (i_poison st) (i_threads st) (S (i_next st)) (i_log st))
            (<[i_next st := IObj (ip_addr p) v b]> (i_objs st))
    /\ p = IPtr (ip_addr p) (ie_meta E v) (i_next st)
    /\ i_objs st !! i_next st = None
    /\ addr_ok E (ip_addr p) v
    /\ (is_zst E v = false -> forall s x, i_objs st !! s = Some x -> is_zst E (io_val x) = false -> io_addr x <> ip_addr p).
  Proof.
    intros HI H. unfold ialloc in H.
    destruct (is_zst E v || addr_free E st a) eqn:Hg; [|done]. injection H as <- <-. simpl.
    split_and!; [done|done| | |].
    - destruct (i_objs st !! i_next st) as [x|] eqn:Hx; [|done]. apply (v_fresh _ _ HI) in Hx. lia.
    - unfold addr_ok. intros ->. done.
    - intros Hz. rewrite Hz in Hg |- *. simpl in Hg. rewrite addr_free_spec in Hg.
      intros s x Hx Hzx. destruct (Hg _ _ Hx); [congruence|done].
  Qed.

  Lemma trans_alloc st t a v b st1 p fs fs' k :
    IInv st -> ialloc E st a v b = Some (st1, p) -> get_stack st t = fs ++ k ->
    (forall s, lsum (owned s) fs' = lsum (owned s) fs + if b then 0 else box_is s (Some p)) ->
    (forall s, lsum (held s) fs' = lsum (held s) fs) ->
    trans st (set_stack st1 t (fs' ++ k)) t fs fs' k /\
    points E (set_stack st1 t (fs' ++ k)) (ie_ty E v) p v b /\
    ((forall f, f ∈ fs' -> frame_ok E (set_stack st1 t (fs' ++ k)) f) ->
     (forall f, f ∈ fs' -> match f with FWait _ _ => True | _ =>
      is_Some (find_set (frame_ty E f) (container st (slot (frame_ty E f)))) end) ->
     IInv (set_stack st1 t (fs' ++ k))).
  Proof.
    intros HI Ha Hst Ho Hh. destruct (ialloc_spec _ _ _ _ _ _ HI Ha) as (->&Hp&Hn&Hz&Hd).
    assert (trans st (set_stack (set_objs (IState (i_objs st) (i_slots st) (i_locks st) (i_poison st)
      (i_threads st) (S (i_next st)) (i_log st)) (<[i_next st := IObj (ip_addr p) v b]> (i_objs st))) t (fs' ++ k))
      t fs fs' k) as Htr.
    { constructor; simpl; try done.
      - intros s. rewrite Ho. unfold own_obj. simpl. rewrite Hp. simpl.
        destruct (Nat.eqb_spec (i_next st) s) as [<-|Hne].
        + rewrite lookup_insert, Hn. simpl. destruct b; lia.
        + rewrite lookup_insert_ne by done. destruct b; lia.
      - intros s. rewrite Hh. done.
      - intros s x Hx _. rewrite lookup_insert_ne; [done|]. intros <-. congruence.
      - intros ty. by left. }
    split_and!; [done| |].
    - unfold points. simpl. rewrite Hp. simpl. rewrite lookup_insert. done.
    - intros Hf Hhas. destruct Htr. eapply (upd_inv E st _ t fs fs' k); try done; simpl.
      + intros s x. rewrite lookup_insert_Some. intros [[<- <-]|[_ Hx]]; [lia|].
        apply (v_fresh _ _ HI) in Hx. lia.
      + intros s x. rewrite lookup_insert_Some. intros [[<- <-]|[_ Hx]]; [done|by eapply (v_zaddr _ _ HI)].
      + intros s1 s2 x1 x2. rewrite !lookup_insert_Some.
        intros [[<- <-]|[? H1]] [[<- <-]|[? H2]] Hz1 Hz2 Heq; simpl in *.
        * done.
        * exfalso. by apply (Hd Hz1 _ _ H2 Hz2).
        * exfalso. by apply (Hd Hz2 _ _ H1 Hz1).
        * by eapply (v_addr _ _ HI).
      + apply (v_slot _ _ HI).
      + apply (v_nodup _ _ HI).
      + apply (v_current _ _ HI).
      + intros e He. by left.
  Qed.

  (** *** Freeing and leaking an owned box *)
  Lemma trans_free st t p v ty st1 fs fs' k :
    IInv st -> ifree st p = Some st1 -> get_stack st t = fs ++ k -> points E st ty p v false ->
    (forall s, lsum (owned s) fs = lsum (owned s) fs' + box_is s (Some p)) ->
    (forall s, lsum (held s) fs' = lsum (held s) fs) ->
    trans st (set_stack st1 t (fs' ++ k)) t fs fs' k /\
    ((forall f, f ∈ fs' -> frame_ok E (set_stack st1 t (fs' ++ k)) f) ->
     (forall f, f ∈ fs' -> match f with FWait _ _ => True | _ =>
      is_Some (find_set (frame_ty E f) (container st (slot (frame_ty E f)))) end) ->
     IInv (set_stack st1 t (fs' ++ k))).
  Proof.
    intros HI Hfr Hst (Hx&Hm&Ht) Ho Hh. unfold ifree in Hfr. rewrite Hx in Hfr. simpl in Hfr.
    injection Hfr as <-.
    assert (trans st (set_stack (set_objs st (delete (ip_ser p) (i_objs st))) t (fs' ++ k)) t fs fs' k) as Htr.
    { constructor; simpl; try done.
      - intros s. rewrite Ho. unfold own_obj. simpl.
        destruct (Nat.eqb_spec (ip_ser p) s) as [<-|Hne].
        + rewrite lookup_delete, Hx. simpl. lia.
        + rewrite lookup_delete_ne by done. lia.
      - intros s. rewrite Hh. done.
      - intros s x Hs Hz. rewrite lookup_delete_ne; [done|]. intros <-.
        rewrite Ho in Hz. simpl in Hz. rewrite Nat.eqb_refl in Hz. lia.
      - intros ty'. by left. }
    split; [done|]. intros Hf Hhas. destruct Htr. eapply (upd_inv E st _ t fs fs' k); try done; simpl.
    - intros s x [_ H]%lookup_delete_Some. by apply (v_fresh _ _ HI) in H.
    - intros s x [_ H]%lookup_delete_Some. by eapply (v_zaddr _ _ HI).
    - intros s1 s2 x1 x2 [_ H1]%lookup_delete_Some [_ H2]%lookup_delete_Some. by apply (v_addr _ _ HI).
    - apply (v_slot _ _ HI).
    - apply (v_nodup _ _ HI).
    - apply (v_current _ _ HI).
    - intros e He. by left.
  Qed.

  Lemma trans_leak st t p v ty st1 fs fs' k :
    IInv st -> ileak st p = Some st1 -> get_stack st t = fs ++ k -> points E st ty p v false ->
    (forall s, lsum (owned s) fs = lsum (owned s) fs' + box_is s (Some p)) ->
    (forall s, lsum (held s) fs' = lsum (held s) fs) ->
    trans st (set_stack st1 t (fs' ++ k)) t fs fs' k /\
    points E (set_stack st1 t (fs' ++ k)) ty p v true /\
    ((forall f, f ∈ fs' -> frame_ok E (set_stack st1 t (fs' ++ k)) f) ->
     (forall f, f ∈ fs' -> match f with FWait _ _ => True | _ =>
      is_Some (find_set (frame_ty E f) (container st (slot (frame_ty E f)))) end) ->
     IInv (set_stack st1 t (fs' ++ k))).
  Proof.
    intros HI Hfr Hst (Hx&Hm&Ht) Ho Hh. unfold ileak in Hfr. rewrite Hx in Hfr. simpl in Hfr.
    injection Hfr as <-.
    assert (trans st (set_stack (set_objs st (<[ip_ser p:=IObj (ip_addr p) v true]> (i_objs st))) t (fs' ++ k)) t fs fs' k) as Htr.
    { constructor; simpl; try done.
      - intros s. rewrite Ho. unfold own_obj. simpl.
        destruct (Nat.eqb_spec (ip_ser p) s) as [<-|Hne].
        + rewrite lookup_insert, Hx. simpl. lia.
        + rewrite lookup_insert_ne by done. lia.
      - intros s. rewrite Hh. done.
      - intros s x Hs Hz. rewrite lookup_insert_ne; [done|]. intros <-.
        rewrite Ho in Hz. simpl in Hz. rewrite Nat.eqb_refl in Hz. lia.
      - intros ty'. by left. }
    split_and!; [done| |].
    { unfold points. simpl. by rewrite lookup_insert. }
    intros Hf Hhas. destruct Htr. eapply (upd_inv E st _ t fs fs' k); try done; simpl.
    - intros s x. rewrite lookup_insert_Some. intros [[<- <-]|[_ H]]; by eapply (v_fresh _ _ HI).
    - intros s x. rewrite lookup_insert_Some. intros [[<- <-]|[_ H]]; by apply (v_zaddr _ _ HI) in H || apply (v_zaddr _ _ HI) in Hx.
    - intros s1 s2 x1 x2. rewrite !lookup_insert_Some.
      intros [[<- <-]|[? H1]] [[<- <-]|[? H2]]; simpl; intros.
      + done.
      + by apply (v_addr _ _ HI (ip_ser p) s2 _ _ Hx H2).
      + by apply (v_addr _ _ HI s1 (ip_ser p) _ _ H1 Hx).
      + by eapply (v_addr _ _ HI).
    - apply (v_slot _ _ HI).
    - apply (v_nodup _ _ HI).
    - apply (v_current _ _ HI).
    - intros e He. by left.
  Qed.

  (** *** Taking the mutex *)
  Definition locked st t ty : istate V Q :=
    set_slots (ilock st (slot ty) t) (<[slot ty := get_type_mut ty (container st (slot ty))]> (i_slots st)).
  Lemma container_insert (m : gmap nat (list (nat * list iptr))) s l s' :
    default [] (<[s:=l]> m !! s') = if decide (s = s') then l else default [] (m !! s').
  Proof. destruct (decide (s = s')) as [->|]; [by rewrite lookup_insert|by rewrite lookup_insert_ne]. Qed.
  Lemma locked_container st t ty s : container (locked st t ty) s =
    if decide (slot ty = s) then get_type_mut ty (container st s) else container st s.
  Proof.
    unfold container at 1, locked. simpl. rewrite container_insert. by destruct (decide (slot ty = s)) as [->|].
  Qed.
  Lemma locked_set_of st t ty ty' : set_of E (locked st t ty) ty' = set_of E st ty'.
  Proof.
    unfold set_of. rewrite locked_container. destruct (decide _); [|done].
    destruct (gtm_find ty ty' (container st (slot ty'))) as (->&_&_). done.
  Qed.
  Lemma locked_has st t ty : is_Some (find_set ty (container (locked st t ty) (slot ty))).
  Proof. rewrite locked_container, decide_True by done. by destruct (gtm_find ty ty (container st (slot ty))) as (_&_&?). Qed.
  Lemma locked_has' st t ty ty' : is_Some (find_set ty' (container st (slot ty'))) ->
    is_Some (find_set ty' (container (locked st t ty) (slot ty'))).
  Proof.
    rewrite locked_container. destruct (decide _); [|done].
    destruct (gtm_find ty ty' (container st (slot ty'))) as (_&H&_).
    destruct (find_set ty' (get_type_mut ty _)); [done|]. intros [? H']. by rewrite H in H'.
  Qed.

  Lemma ok_lock st t o b f k :
    IInv st -> get_stack st t = FWait o b :: k -> i_locks st !! slot (op_ty o) = None ->
    (forall s, held s f = if slot (op_ty o) =? s then 1 else 0) -> frame_ty E f = op_ty o ->
    (forall s, owned s f = box_is s b) -> frame_ok E st f ->
    trans st (set_stack (locked st t (op_ty o)) t (f :: k)) t [FWait o b] [f] k /\
    IInv (set_stack (locked st t (op_ty o)) t (f :: k)).
  Proof.
    intros HI Hst Hl Hh Hty Ho Hok.
    assert (trans st (set_stack (locked st t (op_ty o)) t (f :: k)) t [FWait o b] [f] k) as Htr.
    { constructor; simpl; try done.
      - intros s. rewrite Ho. unfold own_obj. simpl. lia.
      - intros s. rewrite Hh. unfold lk. simpl. destruct (Nat.eqb_spec (slot (op_ty o)) s) as [<-|].
        + rewrite lookup_insert, Hl. lia.
        + rewrite lookup_insert_ne by done. lia.
      - intros ty. by left. }
    split; [done|]. destruct Htr. eapply (upd_inv E st _ t [FWait o b] [f] k); try done; simpl.
    - apply (v_fresh _ _ HI).
    - apply (v_zaddr _ _ HI).
    - apply (v_addr _ _ HI).
    - intros s ty ps. change (container _ s) with (container (locked st t (op_ty o)) s).
      rewrite locked_container. destruct (decide _) as [<-|]; [|apply (v_slot _ _ HI)].
      intros [?| ->]%gtm_in; [by eapply (v_slot _ _ HI)|done].
    - intros s. change (container _ s) with (container (locked st t (op_ty o)) s).
      rewrite locked_container. destruct (decide _) as [<-|]; [|apply (v_nodup _ _ HI)].
      apply gtm_nodup, (v_nodup _ _ HI).
    - intros ty. change (set_of E _ ty) with (set_of E (locked st t (op_ty o)) ty).
      rewrite locked_set_of. apply (v_current _ _ HI).
    - intros g ->%elem_of_list_singleton. exact Hok.
    - intros e He. by left.
    - intros ty Hty'. by apply (locked_has' st t (op_ty o)).
    - intros g ->%elem_of_list_singleton. pose proof (locked_has st t (op_ty o)) as H.
      destruct f; [done|..]; rewrite Hty; exact H.
  Qed.

  (** *** Writing a set *)
  Lemma put_container st ty ps s : container (put_set E st ty ps) s =
    if decide (slot ty = s) then write_set ty ps (container st s) else container st s.
  Proof.
    unfold container at 1, put_set. simpl. rewrite container_insert. by destruct (decide (slot ty = s)) as [->|].
  Qed.
  Lemma put_set_of st ty ps ty' : is_Some (find_set ty (container st (slot ty))) ->
    set_of E (put_set E st ty ps) ty' = if ty' =? ty then ps else set_of E st ty'.
  Proof.
    intros [x Hx]. unfold set_of. rewrite put_container. destruct (decide _) as [Heq|Hne].
    - rewrite find_write. destruct (Nat.eqb_spec ty' ty) as [->|]; [|done]. by rewrite Hx.
    - destruct (Nat.eqb_spec ty' ty) as [->|]; done.
  Qed.
  Lemma put_has st ty ps ty' : is_Some (find_set ty (container st (slot ty))) ->
    is_Some (find_set ty' (container st (slot ty'))) ->
    is_Some (find_set ty' (container (put_set E st ty ps) (slot ty'))).
  Proof.
    intros [x Hx] H. rewrite put_container. destruct (decide _) as [Heq|Hne]; [|done].
    rewrite find_write. destruct (Nat.eqb_spec ty' ty) as [->|]; [|done]. by rewrite Hx.
  Qed.

  Lemma ok_put st t ps e f f' k :
    IInv st -> get_stack st t = f :: k -> (forall o b, f <> FWait o b) ->
    is_Some (find_set (frame_ty E f) (container st (slot (frame_ty E f)))) ->
    (forall s, held s f = if slot (frame_ty E f) =? s then 1 else 0) ->
    (forall s, held s f' = held s f) -> frame_ty E f' = frame_ty E f ->
    (forall s, owned s f' = owned s f) -> frame_ok E st f' -> ev_ok E st e ->
    ps = (inserted E (frame_ty E f) (e :: i_log st)).*1 ->
    (forall ty, ty <> frame_ty E f -> inserted E ty (e :: i_log st) = inserted E ty (i_log st)) ->
    let st' := set_stack (add_event (put_set E st (frame_ty E f) ps) e) t (f' :: k) in
    trans st st' t [f] [f'] k /\ IInv st'.
  Proof.
    intros HI Hst Hnw Hhas Hhf Hh Hty Ho Hok He Hps Hins st'.
    assert (trans st st' t [f] [f'] k) as Htr.
    { constructor; simpl; try done.
      - intros s. rewrite Ho. unfold own_obj. simpl. lia.
      - intros s. rewrite Hh. unfold lk. simpl. lia.
      - intros ty. destruct (decide (ty = frame_ty E f)) as [->|Hne].
        + right. left. rewrite Hhf, Nat.eqb_refl. lia.
        + left. by apply Hins. }
    split; [done|]. destruct Htr. eapply (upd_inv E st _ t [f] [f'] k); try done; simpl.
    - apply (v_fresh _ _ HI).
    - apply (v_zaddr _ _ HI).
    - apply (v_addr _ _ HI).
    - intros s ty ps'. change (container _ s) with (container (put_set E st (frame_ty E f) ps) s).
      rewrite put_container. destruct (decide _) as [<-|]; [|apply (v_slot _ _ HI)].
      intros [ps'' ?]%elem_write. by eapply (v_slot _ _ HI).
    - intros s. change (container _ s) with (container (put_set E st (frame_ty E f) ps) s).
      rewrite put_container. destruct (decide _) as [<-|]; [|apply (v_nodup _ _ HI)].
      rewrite write_set_keys. apply (v_nodup _ _ HI).
    - intros ty. change (set_of E _ ty) with (set_of E (put_set E st (frame_ty E f) ps) ty).
      rewrite put_set_of by done. destruct (Nat.eqb_spec ty (frame_ty E f)) as [->|]; [done|].
      rewrite (v_current _ _ HI). change (match e with EvIns _ _ _ _ => _ | _ => _ end) with (inserted E ty (e :: i_log st)).
      by rewrite Hins.
    - intros g ->%elem_of_list_singleton. exact Hok.
    - intros e' [->|?]%elem_of_cons; [right|by left]. exact He.
    - intros ty Hty'. by apply (put_has st (frame_ty E f) ps).
    - intros g ->%elem_of_list_singleton. pose proof (put_has st (frame_ty E f) ps (frame_ty E f) Hhas Hhas) as H.
      destruct f'; [done|..]; rewrite Hty; exact H.
  Qed.

  (** *** Everything a step can do, apart from a dereference: the frames [fs] on top of
      [t]'s stack become [fs'], the rest of the state becomes that of [st1]. *)
  Inductive move st t : list (frame V Q) -> list (frame V Q) -> istate V Q -> Prop :=
  | MCall o : (forall v, o <> OBox v) -> move st t [] [FWait o None] st
  | MCallBox v a st1 p : ialloc E st a v false = Some (st1, p) -> move st t [] [FWait (OBox v) (Some p)] st1
  | MLock o b : i_locks st !! slot (op_ty o) = None ->
      match o with OLen _ | OClear _ => False | _ => True end ->
      move st t [FWait o b] [FGet o b] (locked st t (op_ty o))
  | MLen ty b : i_locks st !! slot ty = None ->
      move st t [FWait (OLen ty) b] [FDone (OLen ty) (RNum (length (set_of E (locked st t ty) ty)))] (locked st t ty)
  | MClear ty b : i_locks st !! slot ty = None ->
      move st t [FWait (OClear ty) b] [FDone (OClear ty) RUnit]
        (add_event (put_set E (locked st t ty) ty []) (EvClr ty))
  | MHitDup o b p : p ∈ candidates st (key_match E o) (set_of E st (op_ty o)) ->
      match o with ONew _ | OBox _ => True | _ => False end -> move st t [FGet o b] [FDup o b (RPtr p)] st
  | MHit o b p : p ∈ candidates st (key_match E o) (set_of E st (op_ty o)) ->
      match o with OVia _ | ORef _ _ _ => True | _ => False end -> move st t [FGet o b] [FDone o (RPtr p)] st
  | MIsHit ty w q b p : p ∈ candidates st (key_match E (OIs ty w q)) (set_of E st ty) ->
      move st t [FGet (OIs ty w q) b] [FDone (OIs ty w q) (RBool true)] st
  | MMiss o v b : candidates st (key_match E o) (set_of E st (op_ty o)) = [] ->
      (o = ONew v \/ o = OVia v) -> move st t [FGet o b] [FStore o v] st
  | MMissBox v p st1 : candidates st (key_match E (OBox v)) (set_of E st (ie_ty E v)) = [] ->
      ileak st p = Some st1 -> move st t [FGet (OBox v) (Some p)] [FIns (OBox v) p] st1
  | MMissRef ty w q b : candidates st (key_match E (ORef ty w q)) (set_of E st ty) = [] ->
      move st t [FGet (ORef ty w q) b] [FConv ty w q] st
  | MIsMiss ty w q b : candidates st (key_match E (OIs ty w q)) (set_of E st ty) = [] ->
      move st t [FGet (OIs ty w q) b] [FDone (OIs ty w q) (RBool false)] st
  | MConv ty w q v : ie_from E w q v = true -> ie_ty E v = ty ->
      move st t [FConv ty w q] [FStore (ORef ty w q) v] st
  | MStore o v a st1 p : ialloc E st a v true = Some (st1, p) -> move st t [FStore o v] [FIns o p] st1
  | MInsert o p v : iread st p = Some v ->
      candidates st (ins_match E v) (set_of E st (op_ty o)) = [] ->
      move st t [FIns o p] [FDone o (RPtr p)]
        (add_event (put_set E st (op_ty o) (p :: set_of E st (op_ty o))) (EvIns t o p v))
  | MPresent o p v p' : iread st p = Some v ->
      p' ∈ candidates st (ins_match E v) (set_of E st (op_ty o)) ->
      move st t [FIns o p] [FDone o (RPtr p)] st
  | MFree o p r st1 : ifree st p = Some st1 -> move st t [FDup o (Some p) r] [FDone o r] st1
  | MDrop o r : move st t [FDup o None r] [FDone o r] st
  | MRet o r : move st t [FDone o r] []
      (add_event (iunlock st (slot (op_ty o)) (match r with RPanic => true | _ => false end)) (EvRet t o r))
  | MPanicGet o b : move st t [FGet o b] [FDup o b RPanic] st
  | MPanicConv ty w q : move st t [FConv ty w q] [FDone (ORef ty w q) RPanic] st
  | MPanicIns o p : move st t [FIns o p] [FDone o RPanic] st
  | MPanicDup o b r : move st t [FDup o b r] [FDup o b RPanic] st.

  Lemma ipick_in i l p : ipick i l = Some p -> p ∈ l.
  Proof.
    unfold ipick. destruct (nth_error l i) as [q|] eqn:Hn.
    - intros [= ->]. apply elem_of_list_In. by eapply nth_error_In.
    - destruct l; simpl; [done|]. intros [= ->]. by left.
  Qed.
  Lemma ipick_none i l : ipick i l = None -> l = [].
  Proof. unfold ipick. destruct (nth_error l i); [done|]. by destruct l. Qed.

  Lemma istep_move st l st' :
    istep E st l = Next st' ->
    (exists p v, returned p (i_log st) = true /\ iread st p = Some v /\ l = IDeref p /\ st' = add_event st (EvRead p v)) \/
    exists t fs fs' k st1, get_stack st t = fs ++ k /\ move st t fs fs' st1 /\ st' = set_stack st1 t (fs' ++ k) /\
      lab_thread l = Some t /\
      (fs = [] -> exists o b a, l = ICall t o a /\ fs' = [FWait o b]).
  Proof.
    intros H. destruct l as [t o a|t a i|t v|t|p]; simpl in H.
    - right. exists t. destruct (match get_stack st t with [] => true | _ => _ end); [|done].
      destruct o as [v|v|v|ty w q|ty w q|ty|ty].
      3: { destruct (ialloc E st a v false) as [[st1 p]|] eqn:Ha; [|done]. injection H as <-.
           eexists [], [_], _, _; (split_and!; [reflexivity|by eapply MCallBox|reflexivity|done|by repeat eexists]). }
      all: injection H as <-; match goal with |- context [FWait ?o None] =>
        exists [], [FWait o None], (get_stack st t), st end; (split_and!; [done|by apply MCall|done|done|by repeat eexists]).
    - right. exists t. unfold istep_thread in H.
      destruct (get_stack st t) as [|[o b|o b|ty w q|o v|o p|o b r|o r] k] eqn:Hst; [done|..].
      + destruct (i_locks st !! slot (op_ty o)) eqn:Hl; [done|].
        destruct o; injection H as <-; eexists [_], [_], k, _; (split_and!; [reflexivity|by constructor|reflexivity|done|done]).
      + destruct (ireadable st (set_of E st (op_ty o))); [|done].
        destruct (ipick i _) as [p|] eqn:Hp; [apply ipick_in in Hp|apply ipick_none in Hp].
        * destruct o; try done; injection H as <-; eexists [_], [_], k, _;
            (split_and!; [reflexivity| |reflexivity|done|done]); first [by apply MHitDup|by apply MHit|by eapply MIsHit].
        * destruct o; try done.
          3:{ destruct b as [p|]; [|done]. destruct (ileak st p) as [st1|] eqn:Hlk; [|done]. injection H as <-.
              eexists [_], [_], k, _; (split_and!; [reflexivity|by apply MMissBox|reflexivity|done|done]). }
          all: injection H as <-; eexists [_], [_], k, _; (split_and!; [reflexivity| |reflexivity|done|done]).
          -- apply MMiss; [done|by left].
          -- apply MMiss; [done|by right].
          -- by apply MMissRef.
          -- by apply MIsMiss.
      + done.
      + destruct (ialloc E st a v true) as [[st1 p]|] eqn:Ha; [|done]. injection H as <-.
        eexists [_], [_], k, _; (split_and!; [reflexivity|by eapply MStore|reflexivity|done|done]).
      + destruct (iread st p) as [v|] eqn:Hr; [|done].
        destruct (ireadable st (set_of E st (op_ty o))); [|done].
        destruct (candidates st (ins_match E v) (set_of E st (op_ty o))) as [|p' l] eqn:Hc; injection H as <-.
        * eexists [_], [_], k, _; (split_and!; [reflexivity|by apply MInsert|reflexivity|done|done]).
        * eexists [_], [_], k, _; (split_and!; [reflexivity| |reflexivity|done|done]).
          eapply (MPresent _ _ _ _ _ p'); [done|]. rewrite Hc. by left.
      + destruct b as [p|].
        * destruct (ifree st p) as [st1|] eqn:Hf; [|done]. injection H as <-.
          eexists [_], [_], k, _; (split_and!; [reflexivity|by apply MFree|reflexivity|done|done]).
        * injection H as <-. eexists [_], [_], k, _; (split_and!; [reflexivity|by apply MDrop|reflexivity|done|done]).
      + injection H as <-. eexists [_], [], k, _; (split_and!; [reflexivity|by apply MRet|reflexivity|done|done]).
    - right. exists t. destruct (get_stack st t) as [|[] k] eqn:Hst; try done.
      destruct (ie_from E w q v) eqn:Hf; [|done]. destruct (Nat.eqb_spec (ie_ty E v) ty); [|done].
      injection H as <-. eexists [_], [_], k, _; (split_and!; [reflexivity|by apply MConv|reflexivity|done|done]).
    - right. exists t. unfold istep_panic in H.
      destruct (get_stack st t) as [|[o b|o b|ty w q|o v|o p|o b r|o r] k] eqn:Hst; try done.
      4: destruct r; try done.
      all: injection H as <-; eexists [_], [_], k, _; (split_and!; [reflexivity|by constructor|reflexivity|done|done]).
    - left. destruct (returned p (i_log st)) eqn:Hr; [|done].
      destruct (iread st p) as [v|] eqn:Hv; [|done]. injection H as <-. by exists p, v.
  Qed.

  (** *** Pointers in a set are good. *)
  Lemma inserted_in ty (l : list (ievent V Q)) p v :
    (p, v) ∈ inserted E ty l -> exists t o, EvIns t o p v ∈ l /\ op_ty o = ty.
  Proof.
    induction l as [|e l IH]; simpl; [intros H; by apply elem_of_nil in H|].
    assert (forall x, x -> (exists t o, EvIns t o p v ∈ l /\ op_ty o = ty) ->
       exists t o, EvIns t o p v ∈ e :: l /\ op_ty o = ty) as Hw.
    { intros _ _ (t&o&?&?). exists t, o. split; [by right|done]. }
    destruct e as [t o p' v'|u|t o r|p' v'].
    - destruct (Nat.eqb_spec (op_ty o) ty) as [<-|].
      + intros [[= -> ->]|H]%elem_of_cons; [exists t, o; split; [by left|done]|by apply (Hw _ I), IH].
      + intros H. by apply (Hw _ I), IH.
    - destruct (u =? ty); [intros H; by apply elem_of_nil in H|]. intros H. by apply (Hw _ I), IH.
    - intros H. by apply (Hw _ I), IH.
    - intros H. by apply (Hw _ I), IH.
  Qed.
  Lemma set_points st ty p : IInv st -> p ∈ set_of E st ty ->
    exists v, points E st ty p v true /\ (p, v) ∈ inserted E ty (i_log st).
  Proof.
    intros HI Hp. rewrite (v_current _ _ HI) in Hp. apply elem_of_list_fmap in Hp as ([p' v]&Heq&Hp).
    simpl in Heq. subst p'. exists v. split; [|done]. apply inserted_in in Hp as (t&o&Hin&<-).
    apply (v_log _ _ HI) in Hin as [? _]. done.
  Qed.
  Lemma set_readable st ty : IInv st -> ireadable st (set_of E st ty) = true.
  Proof.
    intros HI. unfold ireadable. apply forallb_forall. intros p Hp%elem_of_list_In.
    destruct (set_points st ty p HI Hp) as (v&(Hx&_)&_). unfold iread. by rewrite Hx.
  Qed.
  Lemma cand_in st (h : V -> bool) l p : p ∈ candidates st h l <-> p ∈ l /\ exists d, iread st p = Some d /\ h d = true.
  Proof.
    unfold candidates. rewrite elem_of_list_In, filter_In, <- elem_of_list_In.
    destruct (iread st p) as [d|]; naive_solver.
  Qed.
  Lemma points_read st ty p v b : points E st ty p v b -> iread st p = Some v.
  Proof. intros (Hx&_). unfold iread. by rewrite Hx. Qed.
  Lemma cand_good st (h : V -> bool) ty p : IInv st -> p ∈ candidates st h (set_of E st ty) -> good E st ty p.
  Proof. intros HI [Hp _]%cand_in. destruct (set_points st ty p HI Hp) as (v&?&_). by exists v. Qed.

  Lemma ok_simple st t f f' k :
    IInv st -> get_stack st t = f :: k -> (forall o b, f <> FWait o b) ->
    frame_ty E f' = frame_ty E f -> (forall o b, f' <> FWait o b) ->
    (forall s, owned s f' = owned s f) -> frame_ok E st f' ->
    trans st (set_stack st t ([f'] ++ k)) t [f] [f'] k /\ IInv (set_stack st t ([f'] ++ k)).
  Proof.
    intros HI Hst Hw Hty Hw' Ho Hf.
    assert (forall s, held s f' = held s f) as Hh.
    { intros s. unfold InternInv.held. rewrite Hty. destruct f; [by edestruct Hw|..]; destruct f'; try done; by edestruct Hw'. }
    assert (trans st (set_stack st t ([f'] ++ k)) t [f] [f'] k) as Htr.
    { apply trans_stack; [done|..]; intros s; simpl; [by rewrite Ho|by rewrite Hh]. }
    split; [done|]. apply (inv_stack st t [f] [f'] k HI Htr).
    - by intros g ->%elem_of_list_singleton.
    - intros g ->%elem_of_list_singleton.
      assert (f ∈ get_stack st t) as Hin by (rewrite Hst; by left).
      pose proof (v_has _ _ HI t f Hin) as Hx. rewrite Hty.
      destruct f; [by edestruct Hw|..]; destruct f'; done.
  Qed.

  Lemma set_stack_twice st t k k' : set_stack (set_stack st t k) t k' = set_stack st t k'.
  Proof. unfold set_stack. simpl. by rewrite insert_insert. Qed.

  Lemma ok_clear st t ty b k :
    IInv st -> get_stack st t = FWait (OClear ty) b :: k -> i_locks st !! slot ty = None ->
    let st' := set_stack (add_event (put_set E (locked st t ty) ty []) (EvClr ty)) t ([FDone (OClear ty) RUnit] ++ k) in
    trans st st' t [FWait (OClear ty) b] [FDone (OClear ty) RUnit] k /\ IInv st'.
  Proof.
    intros HI Hst Hl st'.
    assert (box_ok E st (OClear ty) b) as Hb.
    { apply (v_frames _ _ HI t (FWait (OClear ty) b)). rewrite Hst. by left. }
    simpl in Hb. subst b.
    destruct (ok_lock st t (OClear ty) None (FDone (OClear ty) RUnit) k HI Hst Hl) as [Htr HI1]; try done.
    set (st1 := set_stack (locked st t (op_ty (OClear ty))) t (FDone (OClear ty) RUnit :: k)) in *.
    destruct (ok_put st1 t [] (EvClr ty) (FDone (OClear ty) RUnit) (FDone (OClear ty) RUnit) k) as [Htr' HI2]; try done.
    { unfold st1. rewrite get_stack_set. by rewrite decide_True. }
    { apply (locked_has st t). }
    { simpl. by rewrite Nat.eqb_refl. }
    { simpl. intros ty' Hne. by destruct (Nat.eqb_spec ty ty'). }
    simpl in HI2. replace (set_stack _ t _) with st' in HI2.
    2:{ unfold st'. symmetry. apply (set_stack_twice (add_event (put_set E (locked st t ty) ty []) (EvClr ty))). }
    split; [|done]. destruct Htr. constructor; try done.
    intros ty'. destruct (decide (ty' = ty)) as [->|Hne].
    - right. right. simpl. rewrite Nat.eqb_refl. lia.
    - left. simpl. by destruct (Nat.eqb_spec ty ty').
  Qed.

  Lemma ok_ret st t o r k :
    IInv st -> get_stack st t = FDone o r :: k ->
    let st' := set_stack (add_event (iunlock st (slot (op_ty o)) (match r with RPanic => true | _ => false end)) (EvRet t o r)) t k in
    trans st st' t [FDone o r] [] k /\ IInv st'.
  Proof.
    intros HI Hst st'.
    assert (FDone o r ∈ get_stack st t) as Hin by (rewrite Hst; by left).
    assert (trans st st' t [FDone o r] [] k) as Htr.
    { constructor; simpl; try done.
      - intros s. pose proof (v_locks _ _ HI s) as H. pose proof (msum_stack_ge (held s) st t) as H'.
        rewrite Hst in H'. simpl in H'. unfold lk in *. simpl.
        destruct (Nat.eqb_spec (slot (op_ty o)) s) as [<-|].
        + rewrite lookup_delete. destruct (i_locks st !! slot (op_ty o)); lia.
        + rewrite lookup_delete_ne by done. lia.
      - intros ty. by left. }
    split; [done|]. destruct Htr. eapply (upd_inv E st _ t [FDone o r] [] k); try done; simpl.
    - apply (v_fresh _ _ HI).
    - apply (v_zaddr _ _ HI).
    - apply (v_addr _ _ HI).
    - apply (v_slot _ _ HI).
    - apply (v_nodup _ _ HI).
    - apply (v_current _ _ HI).
    - intros f H. by apply elem_of_nil in H.
    - intros e [->|?]%elem_of_cons; [right|by left].
      pose proof (v_frames _ _ HI t _ Hin) as H. simpl in H. destruct r; try done.
    - intros f H. by apply elem_of_nil in H.
  Qed.

  Lemma move_ok st t fs fs' k st1 :
    IInv st -> get_stack st t = fs ++ k -> move st t fs fs' st1 ->
    trans st (set_stack st1 t (fs' ++ k)) t fs fs' k /\ IInv (set_stack st1 t (fs' ++ k)).
  Proof.
    intros HI Hst Hm.
    assert (forall f, f ∈ fs -> frame_ok E st f) as Hfr.
    { intros f Hf. apply (v_frames _ _ HI t). rewrite Hst. apply elem_of_app. by left. }
    assert (forall f, f ∈ fs -> match f with FWait _ _ => True | _ =>
      is_Some (find_set (frame_ty E f) (container st (slot (frame_ty E f)))) end) as Hhas.
    { intros f Hf. apply (v_has _ _ HI t). rewrite Hst. apply elem_of_app. by left. }
    destruct Hm.
    - (* MCall *)
      assert (trans st (set_stack st t ([FWait o None] ++ k)) t [] [FWait o None] k) as Htr.
      { by apply trans_stack. }
      split; [done|]. apply (inv_stack st t [] [FWait o None] k HI Htr).
      + intros g ->%elem_of_list_singleton. simpl. destruct o; try done. by edestruct H.
      + by intros g ->%elem_of_list_singleton.
    - (* MCallBox *)
      destruct (trans_alloc st t a v false st1 p [] [FWait (OBox v) (Some p)] k) as (Htr&Hp&Hi); try done.
      { intros s. simpl. lia. }
      split; [done|]. apply Hi.
      + intros g ->%elem_of_list_singleton. by exists p.
      + by intros g ->%elem_of_list_singleton.
    - (* MLock *)
      apply ok_lock; try done. split; [|done]. apply (Hfr (FWait o b)). by left.
    - (* MLen *)
      assert (b = None) as -> by (apply (Hfr (FWait (OLen ty) b)); by left).
      by apply (ok_lock st t (OLen ty) None).
    - (* MClear *) by apply ok_clear.
    - (* MHitDup *)
      apply ok_simple; try done. destruct (Hfr (FGet o b)) as [? ?]; [by left|].
      split; [done|]. by eapply cand_good.
    - (* MHit *)
      destruct (Hfr (FGet o b)) as [Hb ?]; [by left|].
      apply ok_simple; try done.
      + intros s. destruct o; simpl in *; try done; by subst b.
      + by eapply cand_good.
    - (* MIsHit *)
      destruct (Hfr (FGet (OIs ty w q) b)) as [Hb ?]; [by left|]. simpl in Hb. subst b. by apply ok_simple.
    - (* MMiss *)
      destruct (Hfr (FGet o b)) as [Hb ?]; [by left|].
      apply ok_simple; try done.
      + intros s. destruct H0; subst o; simpl in *; by subst b.
      + destruct H0; subst o; simpl; done.
    - (* MMissBox *)
      destruct (Hfr (FGet (OBox v) (Some p))) as [(p'&[= <-]&Hp) ?]; [by left|].
      destruct (trans_leak st t p v (ie_ty E v) st1 [FGet (OBox v) (Some p)] [FIns (OBox v) p] k) as (Htr&Hp'&Hi); try done.
      { intros s. simpl. lia. }
      split; [done|]. apply Hi.
      + intros g ->%elem_of_list_singleton. by exists v.
      + intros g ->%elem_of_list_singleton. apply (Hhas (FGet (OBox v) (Some p))). by left.
    - (* MMissRef *)
      destruct (Hfr (FGet (ORef ty w q) b)) as [Hb ?]; [by left|]. simpl in Hb. subst b. by apply ok_simple.
    - (* MIsMiss *)
      destruct (Hfr (FGet (OIs ty w q) b)) as [Hb ?]; [by left|]. simpl in Hb. subst b. by apply ok_simple.
    - (* MConv *) by apply ok_simple.
    - (* MStore *)
      destruct (Hfr (FStore o v)) as [Hty Hs]; [by left|].
      destruct (trans_alloc st t a v true st1 p [FStore o v] [FIns o p] k) as (Htr&Hp&Hi); try done.
      split; [done|]. apply Hi.
      + intros g ->%elem_of_list_singleton. exists v. rewrite <- Hty. done.
      + intros g ->%elem_of_list_singleton. apply (Hhas (FStore o v)). by left.
    - (* MInsert *)
      destruct (Hfr (FIns o p)) as (v'&Hp&Hs); [by left|].
      assert (v' = v) as ->. { apply points_read in Hp. congruence. }
      apply (ok_put st t (p :: set_of E st (op_ty o)) (EvIns t o p v) (FIns o p) (FDone o (RPtr p)) k); try done.
      + apply (Hhas (FIns o p)). by left.
      + by exists v.
      + simpl. rewrite Nat.eqb_refl. csimpl. by rewrite (v_current _ _ HI).
      + simpl. intros ty Hne. by destruct (Nat.eqb_spec (op_ty o) ty).
    - (* MPresent *)
      destruct (Hfr (FIns o p)) as (v'&Hp&Hs); [by left|]. apply ok_simple; try done. by exists v'.
    - (* MFree *)
      destruct (Hfr (FDup o (Some p) r)) as (Hb&Hr); [by left|].
      assert (exists v, points E st (ie_ty E v) p v false) as (v&Hp).
      { destruct o; simpl in Hb; try done. destruct Hb as (p'&[= <-]&Hp). by exists v. }
      destruct (trans_free st t p v (ie_ty E v) st1 [FDup o (Some p) r] [FDone o r] k) as (Htr&Hi); try done.
      { intros s. simpl. lia. }
      split; [done|]. apply Hi.
      + intros g ->%elem_of_list_singleton. simpl. destruct Htr. by eapply upd_res.
      + intros g ->%elem_of_list_singleton. apply (Hhas (FDup o (Some p) r)). by left.
    - (* MDrop *)
      destruct (Hfr (FDup o None r)) as (Hb&Hr); [by left|]. by apply ok_simple.
    - (* MRet *) by apply ok_ret.
    - (* MPanicGet *)
      destruct (Hfr (FGet o b)) as (Hb&Hr); [by left|]. by apply ok_simple.
    - by apply ok_simple.
    - by apply ok_simple.
    - destruct (Hfr (FDup o b r)) as (Hb&Hr); [by left|]. by apply ok_simple.
  Qed.

  Lemma returned_in p (l : list (ievent V Q)) : returned p l = true <-> exists t o, EvRet t o (RPtr p) ∈ l.
  Proof.
    unfold returned. rewrite existsb_exists. split.
    - intros (e&He&H). destruct e as [| |t o []|]; try done. rewrite bool_decide_eq_true in H. subst.
      exists t, o. by apply elem_of_list_In.
    - intros (t&o&H). exists (EvRet t o (RPtr p)). split; [by apply elem_of_list_In|].
      by rewrite bool_decide_eq_true.
  Qed.

  Lemma inv_deref st p v : IInv st -> returned p (i_log st) = true -> iread st p = Some v ->
    IInv (add_event st (EvRead p v)).
  Proof.
    intros HI (t&o&Hin)%returned_in Hr. apply (v_log _ _ HI) in Hin as [v' Hp].
    assert (v' = v) as ->. { apply points_read in Hp. congruence. }
    destruct HI. constructor; try done. simpl. intros e [->|He]%elem_of_cons; [by exists (op_ty o)|].
    apply v_log in He. done.
  Qed.

  Theorem istep_inv st l st' : IInv st -> istep E st l = Next st' -> IInv st'.
  Proof.
    intros HI [(p&v&?&?&_&->)|(t&fs&fs'&k&st1&Hst&Hm&->&_&_)]%istep_move; [by apply inv_deref|].
    by eapply move_ok.
  Qed.

  Theorem istep_safe st l : IInv st -> istep E st l <> UB.
  Proof.
    intros HI. destruct l as [t o a|t a i|t v|t|p]; simpl.
    - destruct (match get_stack st t with [] => true | _ => _ end); [|done].
      destruct o; try done. by destruct (ialloc _ _ _ _ _) as [[]|].
    - unfold istep_thread.
      assert (forall f, f ∈ get_stack st t -> frame_ok E st f) as Hfr by apply (v_frames _ _ HI).
      destruct (get_stack st t) as [|[o b|o b|ty w q|o v|o p|o b r|o r] k] eqn:Hst; [done|..].
      + destruct (i_locks st !! slot (op_ty o)); [done|]. by destruct o.
      + rewrite set_readable by done. destruct (Hfr (FGet o b)) as [Hb _]; [by left|].
        destruct (ipick i _) as [p|]; destruct o; try done. destruct Hb as (p&->&Hx&_). unfold ileak. by rewrite Hx.
      + done.
      + by destruct (ialloc _ _ _ _ _) as [[]|].
      + destruct (Hfr (FIns o p)) as (v&Hp&_); [by left|]. rewrite (points_read _ _ _ _ _ Hp).
        rewrite set_readable by done. by destruct (candidates _ _ _).
      + destruct (Hfr (FDup o b r)) as [Hb _]; [by left|]. destruct b as [p|]; [|done].
        destruct o; simpl in Hb; try done. destruct Hb as (p'&[= <-]&Hx&_). unfold ifree. by rewrite Hx.
      + done.
    - destruct (get_stack st t) as [|[] k]; try done. by destruct (_ && _).
    - unfold istep_panic. destruct (get_stack st t) as [|[] k]; try done. by destruct r.
    - destruct (returned p (i_log st)) eqn:Hr; [|done]. apply returned_in in Hr as (t&o&Hin).
      apply (v_log _ _ HI) in Hin as [v Hp]. by rewrite (points_read _ _ _ _ _ Hp).
  Qed.

  Theorem irun_inv st ls st' : IInv st -> run (istep E) st ls = Some st' -> IInv st'.
  Proof.
    revert st. induction ls as [|l ls IH]; intros st HI; simpl; [by intros [= ->]|].
    unfold exec. destruct (istep E st l) as [st1| | |] eqn:Hs; try done; [|by apply IH..].
    apply IH. by eapply istep_inv.
  Qed.
  Theorem irun_safe st ls : IInv st -> run (istep E) st ls <> None.
  Proof.
    revert st. induction ls as [|l ls IH]; intros st HI; simpl; [done|].
    unfold exec. destruct (istep E st l) as [st1| | |] eqn:Hs; [|by apply IH..|by apply istep_safe in Hs].
    apply IH. by eapply istep_inv.
  Qed.
End step.

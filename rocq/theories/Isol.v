(** Proofs for C73: noninterference between the types of [Intern]. *)
From stdpp Require Import gmap list numbers.
From Verif Require Import Base InternModel InternSpec InternInv InternStep IsolSpec.
Require Import ZifyBool ZifyNat ZifyN.

(** Number of serials below [n] that are kept. *)
Fixpoint rank (D : nat -> bool) (n : nat) : nat :=
  match n with 0 => 0 | S n => if D n then rank D n else S (rank D n) end.
Lemma rank_mono D n m : n <= m -> rank D n <= rank D m.
Proof. induction 1; simpl; [lia|]. destruct (D _); lia. Qed.
Lemma rank_lt D n m : n < m -> D n = false -> rank D n < rank D m.
Proof. intros H Hn. apply (rank_mono D) in H. simpl in H. rewrite Hn in H. lia. Qed.
Lemma rank_inj D n m : D n = false -> D m = false -> rank D n = rank D m -> n = m.
Proof.
  intros Hn Hm H. destruct (Nat.lt_trichotomy n m) as [Hl|[Hl|Hl]]; [|done|].
  - apply (rank_lt D) in Hl; [lia|done].
  - apply (rank_lt D) in Hl; [lia|done].
Qed.

Section isol.
  Context {V Q : Type} (E : ienv V Q) (keep : nat -> bool) (D : nat -> bool).
  Implicit Types (st : istate V Q) (v : V) (p : iptr) (o : iop V Q) (f g : frame V Q) (t ty s : nat).
  Notation ρ := (rank D).
  Notation slot := (slot E).
  Notation op_ty := (op_ty E).
  Notation IInv := (IInv E).
  Notation kf := (λ f, keep (frame_ty E f)).
  Notation ke := (λ e, keep (event_ty E e)).
  Notation mp := (ren_ptr ρ).
  Notation mf := (ren_frame ρ).
  Notation me := (ren_event ρ).
  Notation mr := (ren_res ρ).

  Definition stk (k : list (frame V Q)) : list (frame V Q) := map mf (about (frame_ty E) keep k).
  Definition found st ty : option (list iptr) := find_set ty (container st (slot ty)).

  Record proj st st' : Prop := {
    p_D : forall n x, i_objs st !! n = Some x -> D n = negb (keep (ie_ty E (io_val x)));
    p_next : i_next st' = ρ (i_next st);
    p_objs : forall n, D n = false -> i_objs st' !! ρ n = i_objs st !! n;
    p_dom : forall m x, i_objs st' !! m = Some x -> exists n, D n = false /\ m = ρ n;
    p_sets : forall ty, keep ty = true -> found st' ty = map mp <$> found st ty;
    p_locks : forall s, i_locks st !! s = None -> i_locks st' !! s = None;
    p_threads : forall t, get_stack st' t = stk (get_stack st t);
    p_log : i_log st' = map me (about (event_ty E) keep (i_log st));
  }.

  (** ** Frames *)
  Lemma stk_keep f k : keep (frame_ty E f) = true -> stk (f :: k) = mf f :: stk k.
  Proof. intros H. unfold stk, about. simpl. by rewrite H. Qed.
  Lemma stk_drop f k : keep (frame_ty E f) = false -> stk (f :: k) = stk k.
  Proof. intros H. unfold stk, about. simpl. by rewrite H. Qed.
  Lemma stk_app k k' : stk (k ++ k') = stk k ++ stk k'.
  Proof. unfold stk, about. by rewrite List.filter_app, map_app. Qed.
  Lemma stk_in g k : g ∈ stk k -> exists f, g = mf f /\ f ∈ k /\ keep (frame_ty E f) = true.
  Proof.
    unfold stk, about. rewrite elem_of_list_In, in_map_iff. intros (f&<-&H). apply filter_In in H as [H ?].
    exists f. by rewrite elem_of_list_In.
  Qed.
  Lemma mf_ty f : frame_ty E (mf f) = frame_ty E f.
  Proof. by destruct f. Qed.
  Lemma mf_user f : in_user (mf f) = in_user f.
  Proof. by destruct f. Qed.
  Lemma mf_held s f : held E s (mf f) = held E s f.
  Proof. by destruct f. Qed.

  (** ** The parts of the state *)
  Lemma proj_stack st st' t k : proj st st' -> proj (set_stack st t k) (set_stack st' t (stk k)).
  Proof.
    intros []. constructor; try done. intros u. rewrite !get_stack_set. by destruct (decide (t = u)).
  Qed.
  Lemma proj_stack_l st st' t k : proj st st' -> stk k = stk (get_stack st t) -> proj (set_stack st t k) st'.
  Proof.
    intros [] Hk. constructor; try done. intros u. rewrite !get_stack_set. destruct (decide (t = u)) as [<-|]; [|done].
    rewrite Hk. done.
  Qed.
  Lemma proj_event st st' e : proj st st' -> keep (event_ty E e) = true -> proj (add_event st e) (add_event st' (me e)).
  Proof. intros [] He. constructor; try done. simpl. unfold about in *. simpl. by rewrite He, p_log0. Qed.
  Lemma proj_event_l st st' e : proj st st' -> keep (event_ty E e) = false -> proj (add_event st e) st'.
  Proof. intros [] He. constructor; try done. simpl. unfold about in *. simpl. by rewrite He, p_log0. Qed.
  Lemma proj_unlock st st' s b : proj st st' -> proj (iunlock st s b) (iunlock st' s b).
  Proof.
    intros []. constructor; try done. simpl. intros u. destruct (decide (s = u)) as [->|].
    - by rewrite !lookup_delete.
    - rewrite !lookup_delete_ne by done. apply p_locks0.
  Qed.
  Lemma proj_unlock_l st st' s b : proj st st' -> i_locks st' !! s = None -> proj (iunlock st s b) st'.
  Proof.
    intros [] Hs. constructor; try done. simpl. intros u. destruct (decide (s = u)) as [->|]; [done|].
    rewrite !lookup_delete_ne by done. apply p_locks0.
  Qed.

  (** *** Sets *)
  Lemma found_locked st t ty ty' : found (locked E st t ty) ty' =
    match found st ty' with Some x => Some x | None => if ty =? ty' then Some [] else None end.
  Proof.
    unfold found. rewrite locked_container. destruct (decide (slot ty = slot ty')) as [He|Hne].
    - rewrite <- He. unfold get_type_mut. destruct (find_set ty (container st (slot ty))) eqn:Hf.
      + destruct (find_set ty' (container st (slot ty))) eqn:Hf'; [done|].
        destruct (Nat.eqb_spec ty ty') as [->|]; [congruence|done].
      + induction (container st (slot ty)) as [|[u x] l IH]; simpl in *; [done|].
        destruct (u =? ty); [done|]. destruct (u =? ty'); [done|by apply IH].
    - destruct (find_set ty' (container st (slot ty'))); [done|]. by destruct (Nat.eqb_spec ty ty') as [->|].
  Qed.
  Lemma found_put st ty ps ty' : found (put_set E st ty ps) ty' =
    if ty' =? ty then (match found st ty with Some _ => Some ps | None => None end) else found st ty'.
  Proof.
    unfold found. rewrite put_container. destruct (decide (slot ty = slot ty')) as [He|Hne].
    - rewrite find_write, <- He. done.
    - by destruct (Nat.eqb_spec ty' ty) as [->|].
  Qed.
  Lemma proj_locked st st' t ty : proj st st' -> keep ty = true -> proj (locked E st t ty) (locked E st' t ty).
  Proof.
    intros H Hk. pose proof (p_sets _ _ H) as Hs. destruct H. constructor; try done.
    - intros ty' Hk'. rewrite !found_locked, (Hs ty') by done. destruct (found st ty'); simpl; [done|]. by destruct (ty =? ty').
    - simpl. intros s. destruct (decide (slot ty = s)) as [->|].
      + by rewrite lookup_insert.
      + rewrite !lookup_insert_ne by done. apply p_locks0.
  Qed.
  Lemma proj_locked_l st st' t ty : proj st st' -> keep ty = false -> proj (locked E st t ty) st'.
  Proof.
    intros H Hk. pose proof (p_sets _ _ H) as Hs. destruct H. constructor; try done.
    - intros ty' Hk'. rewrite found_locked, (Hs ty') by done. destruct (found st ty'); simpl; [done|].
      destruct (Nat.eqb_spec ty ty') as [->|]; [congruence|done].
    - simpl. intros s. destruct (decide (slot ty = s)) as [->|].
      + by rewrite lookup_insert.
      + rewrite !lookup_insert_ne by done. apply p_locks0.
  Qed.
  Lemma proj_put st st' ty ps : proj st st' -> keep ty = true -> proj (put_set E st ty ps) (put_set E st' ty (map mp ps)).
  Proof.
    intros H Hk. pose proof (p_sets _ _ H) as Hs. destruct H. constructor; try done.
    intros ty' Hk'. rewrite !found_put, !Hs by done. destruct (ty' =? ty); [|done]. by destruct (found st ty).
  Qed.
  Lemma proj_put_l st st' ty ps : proj st st' -> keep ty = false -> proj (put_set E st ty ps) st'.
  Proof.
    intros H Hk. pose proof (p_sets _ _ H) as Hs. destruct H. constructor; try done.
    intros ty' Hk'. rewrite !found_put, !Hs by done. destruct (Nat.eqb_spec ty' ty) as [->|]; [congruence|done].
  Qed.
  Lemma set_of_found st ty : set_of E st ty = default [] (found st ty).
  Proof. done. Qed.
  Lemma proj_set_of st st' ty : proj st st' -> keep ty = true -> set_of E st' ty = map mp (set_of E st ty).
  Proof. intros H Hk. rewrite !set_of_found, (p_sets _ _ H) by done. by destruct (found st ty). Qed.

  (** *** Memory *)
  Lemma proj_read st st' p : proj st st' -> D (ip_ser p) = false -> iread st' (mp p) = iread st p.
  Proof. intros H Hp. unfold iread. simpl. by rewrite (p_objs _ _ H). Qed.
  Lemma proj_free st st' a : proj st st' -> addr_free E st a = true -> addr_free E st' a = true.
  Proof.
    intros H. rewrite !addr_free_spec. intros Ha m x Hx. destruct (p_dom _ _ H m x Hx) as (n&Hn&->).
    rewrite (p_objs _ _ H) in Hx by done. by eapply Ha.
  Qed.
  Lemma proj_alloc st st' a v b st1 p : proj st st' -> D (i_next st) = negb (keep (ie_ty E v)) -> keep (ie_ty E v) = true ->
    ialloc E st a v b = Some (st1, p) -> exists st1', ialloc E st' a v b = Some (st1', mp p) /\ proj st1 st1'.
  Proof.
    intros H HD Hk. unfold ialloc. destruct (is_zst E v || addr_free E st a) eqn:Hc; [|done].
    intros [= <- <-]. assert (is_zst E v || addr_free E st' a = true) as ->.
    { apply orb_true_iff in Hc as [->|Hc]; [done|]. rewrite (proj_free _ _ _ H Hc). apply orb_true_r. }
    rewrite Hk in HD. simpl in HD.
    eexists. split; [unfold ren_ptr; simpl; rewrite (p_next _ _ H); reflexivity|].
    pose proof (p_next _ _ H) as Hn. destruct H. constructor; try done; simpl.
    - intros n x. destruct (decide (i_next st = n)) as [<-|].
      + rewrite lookup_insert. intros [= <-]. simpl. by rewrite Hk.
      + rewrite lookup_insert_ne by done. apply p_D0.
    - by rewrite HD.
    - intros n Hd. destruct (decide (i_next st = n)) as [<-|].
      + by rewrite !lookup_insert.
      + rewrite !lookup_insert_ne; [by apply p_objs0|done|]. intros Heq. by apply rank_inj in Heq.
    - intros m x. destruct (decide (ρ (i_next st) = m)) as [<-|].
      + intros _. by exists (i_next st).
      + rewrite lookup_insert_ne by done. apply p_dom0.
  Qed.
  Lemma proj_alloc_l st st' a v b st1 p : proj st st' -> D (i_next st) = negb (keep (ie_ty E v)) -> keep (ie_ty E v) = false ->
    ialloc E st a v b = Some (st1, p) -> proj st1 st'.
  Proof.
    intros H HD Hk. unfold ialloc. destruct (is_zst E v || addr_free E st a) eqn:Hc; [|done].
    intros [= <- <-]. rewrite Hk in HD. simpl in HD. destruct H. constructor; try done; simpl.
    - intros n x. destruct (decide (i_next st = n)) as [<-|].
      + rewrite lookup_insert. intros [= <-]. simpl. by rewrite Hk.
      + rewrite lookup_insert_ne by done. apply p_D0.
    - by rewrite HD.
    - intros n Hd. rewrite lookup_insert_ne; [by apply p_objs0|]. intros <-. congruence.
  Qed.
  (** Removing an object, or changing it without changing its value. *)
  Definition alter_obj (f : iobj V -> option (iobj V)) n (m : gmap nat (iobj V)) : gmap nat (iobj V) :=
    partial_alter (λ x, x ≫= f) n m.
  Lemma proj_alter st st' n (f : iobj V -> option (iobj V)) : proj st st' -> D n = false ->
    (forall x y, f x = Some y -> io_val y = io_val x) ->
    proj (set_objs st (alter_obj f n (i_objs st))) (set_objs st' (alter_obj f (ρ n) (i_objs st'))).
  Proof.
    intros [] Hn Hf. constructor; try done; simpl; unfold alter_obj.
    - intros m x. destruct (decide (n = m)) as [<-|].
      + rewrite lookup_partial_alter. destruct (i_objs st !! n) as [y|] eqn:Hy; simpl; [|done].
        intros ->%Hf. by apply p_D0.
      + rewrite lookup_partial_alter_ne by done. apply p_D0.
    - intros m Hm. destruct (decide (n = m)) as [<-|].
      + rewrite !lookup_partial_alter. by rewrite p_objs0.
      + rewrite !lookup_partial_alter_ne; [by apply p_objs0|done|]. intros Heq. by apply rank_inj in Heq.
    - intros m x. destruct (decide (ρ n = m)) as [<-|]; [by exists n|].
      rewrite lookup_partial_alter_ne by done. apply p_dom0.
  Qed.
  Lemma proj_alter_l st st' n (f : iobj V -> option (iobj V)) : proj st st' -> D n = true ->
    (forall x y, f x = Some y -> io_val y = io_val x) ->
    proj (set_objs st (alter_obj f n (i_objs st))) st'.
  Proof.
    intros [] Hn Hf. constructor; try done; simpl; unfold alter_obj.
    - intros m x. destruct (decide (n = m)) as [<-|].
      + rewrite lookup_partial_alter. destruct (i_objs st !! n) as [y|] eqn:Hy; simpl; [|done].
        intros ->%Hf. by apply p_D0.
      + rewrite lookup_partial_alter_ne by done. apply p_D0.
    - intros m Hm. rewrite !lookup_partial_alter_ne; [by apply p_objs0|]. intros <-. congruence.
  Qed.
  Lemma ifree_alter st p st1 : ifree st p = Some st1 ->
    (exists x, i_objs st !! ip_ser p = Some x /\ io_leaked x = false) /\
    st1 = set_objs st (alter_obj (λ _, None) (ip_ser p) (i_objs st)).
  Proof.
    unfold ifree. destruct (i_objs st !! ip_ser p) as [x|] eqn:Hx; [|done]. destruct (io_leaked x) eqn:Hl; [done|].
    intros [= <-]. split; [by exists x|]. f_equal. apply map_eq. intros n. unfold alter_obj.
    destruct (decide (ip_ser p = n)) as [<-|].
    - by rewrite lookup_delete, lookup_partial_alter, Hx.
    - by rewrite lookup_delete_ne, lookup_partial_alter_ne.
  Qed.
  Lemma ileak_alter st p st1 : ileak st p = Some st1 ->
    (exists x, i_objs st !! ip_ser p = Some x /\ io_leaked x = false) /\
    st1 = set_objs st (alter_obj (λ x, Some (IObj (io_addr x) (io_val x) true)) (ip_ser p) (i_objs st)).
  Proof.
    unfold ileak. destruct (i_objs st !! ip_ser p) as [x|] eqn:Hx; [|done]. destruct (io_leaked x) eqn:Hl; [done|].
    intros [= <-]. split; [by exists x|]. f_equal. apply map_eq. intros n. unfold alter_obj.
    destruct (decide (ip_ser p = n)) as [<-|].
    - by rewrite lookup_insert, lookup_partial_alter, Hx.
    - by rewrite lookup_insert_ne, lookup_partial_alter_ne.
  Qed.
  Lemma proj_ifree st st' p st1 : proj st st' -> D (ip_ser p) = false -> ifree st p = Some st1 ->
    exists st1', ifree st' (mp p) = Some st1' /\ proj st1 st1'.
  Proof.
    intros H Hp Hf. pose proof (ifree_alter _ _ _ Hf) as [(x&Hx&Hl) ->].
    pose proof (p_objs _ _ H _ Hp) as Hx'. rewrite Hx in Hx'.
    destruct (ifree st' (mp p)) as [st1'|] eqn:Hf'.
    - exists st1'. split; [done|]. apply ifree_alter in Hf' as [_ ->]. simpl. by apply proj_alter.
    - unfold ifree in Hf'. simpl in Hf'. by rewrite Hx', Hl in Hf'.
  Qed.
  Lemma proj_ileak st st' p st1 : proj st st' -> D (ip_ser p) = false -> ileak st p = Some st1 ->
    exists st1', ileak st' (mp p) = Some st1' /\ proj st1 st1'.
  Proof.
    intros H Hp Hf. pose proof (ileak_alter _ _ _ Hf) as [(x&Hx&Hl) ->].
    pose proof (p_objs _ _ H _ Hp) as Hx'. rewrite Hx in Hx'.
    destruct (ileak st' (mp p)) as [st1'|] eqn:Hf'.
    - exists st1'. split; [done|]. apply ileak_alter in Hf' as [_ ->]. simpl. apply proj_alter; [done..|]. by intros ? ? [= <-].
    - unfold ileak in Hf'. simpl in Hf'. by rewrite Hx', Hl in Hf'.
  Qed.
  Lemma points_D st st' ty p v b : proj st st' -> points E st ty p v b -> D (ip_ser p) = negb (keep ty).
  Proof. intros H (Hx&_&<-). by apply (p_D _ _ H) in Hx. Qed.
  Lemma good_D st st' ty p : proj st st' -> good E st ty p -> D (ip_ser p) = negb (keep ty).
  Proof. intros H [v Hp]. by eapply points_D. Qed.

  (** *** Searching *)
  Lemma proj_cand st st' (h : V -> bool) l : proj st st' -> (forall p, p ∈ l -> D (ip_ser p) = false) ->
    candidates st' h (map mp l) = map mp (candidates st h l).
  Proof.
    intros H Hl. unfold candidates. induction l as [|p l IH]; simpl; [done|].
    rewrite (proj_read st st') by (first [done|apply Hl; by left]). rewrite IH by (intros; apply Hl; by right).
    by destruct (iread st p) as [d|]; [destruct (h d)|].
  Qed.
  Lemma proj_pick i l : ipick i (map mp l) = mp <$> ipick i l.
  Proof.
    unfold ipick. rewrite nth_error_map. destruct (nth_error l i); simpl; [done|]. by destruct l.
  Qed.
  Lemma set_D st st' ty p : proj st st' -> IInv st -> keep ty = true -> p ∈ set_of E st ty -> D (ip_ser p) = false.
  Proof.
    intros H HI Hk Hp. destruct (set_points E st ty p HI Hp) as (v&Hv&_). rewrite (points_D _ _ _ _ _ _ H Hv). by rewrite Hk.
  Qed.
  Lemma proj_search st st' (h : V -> bool) ty : proj st st' -> IInv st -> keep ty = true ->
    candidates st' h (set_of E st' ty) = map mp (candidates st h (set_of E st ty)).
  Proof.
    intros H HI Hk. rewrite (proj_set_of st st') by done. apply proj_cand; [done|]. intros p Hp. by eapply set_D.
  Qed.

  (** ** Removed steps *)
  Lemma in_stack st t f k : get_stack st t = f :: k -> f ∈ get_stack st t.
  Proof. intros ->. by left. Qed.
  Lemma lk_le st s : lk st s <= 1.
  Proof. unfold lk. destruct (i_locks st !! s); lia. Qed.
  Lemma removed_lock st st' t f k s : proj st st' -> IInv st -> IInv st' ->
    get_stack st t = f :: k -> keep (frame_ty E f) = false -> held E s f = 1 -> i_locks st' !! s = None.
  Proof.
    intros H HI HI' Hst Hf Hs. destruct (i_locks st' !! s) eqn:Hl; [exfalso|done].
    assert (0 < msum (lsum (held E s)) (i_threads st')) as Hp.
    { rewrite (v_locks _ _ HI'). unfold lk. rewrite Hl. lia. }
    apply msum_pos in Hp as (u&k'&Hu&Hp). apply lsum_pos in Hp as (g'&Hg'&Hh).
    assert (g' ∈ get_stack st' u) as Hin by (unfold get_stack; by rewrite Hu).
    rewrite (p_threads _ _ H) in Hin. apply stk_in in Hin as (g&->&Hg&Hk). rewrite mf_held in Hh.
    pose proof (lk_le st s) as Hle. rewrite <- (v_locks _ _ HI) in Hle.
    destruct (decide (t = u)) as [<-|Hne].
    - pose proof (msum_stack_ge (held E s) st t) as Hge. rewrite Hst in Hg, Hge. simpl in Hge.
      apply elem_of_cons in Hg as [->|Hg]; [congruence|]. apply (lsum_ge (held E s)) in Hg. lia.
    - pose proof (msum_stack_ge2 (held E s) st t u Hne) as Hge. rewrite Hst in Hge. simpl in Hge.
      apply (lsum_ge (held E s)) in Hg. lia.
  Qed.

  (** The step allocates for the type the prophecy says. *)
  Definition foreseen st st2 : Prop :=
    forall x, i_objs st2 !! i_next st = Some x -> D (i_next st) = negb (keep (ie_ty E (io_val x))).
  Lemma alloc_foreseen st a v b st1 p st2 : ialloc E st a v b = Some (st1, p) -> i_objs st2 = i_objs st1 -> foreseen st st2 ->
    D (i_next st) = negb (keep (ie_ty E v)).
  Proof.
    unfold ialloc. destruct (_ || _); [|done]. intros [= <- <-] Ho Hf. simpl in Ho.
    eapply (Hf (IObj _ v b)). rewrite Ho. apply lookup_insert.
  Qed.

  Lemma removed_step st st' t fs fs' k st1 : proj st st' -> IInv st -> IInv st' ->
    get_stack st t = fs ++ k -> move E st t fs fs' st1 -> foreseen st (set_stack st1 t (fs' ++ k)) ->
    (forall f, f ∈ fs ++ fs' -> keep (frame_ty E f) = false) -> proj (set_stack st1 t (fs' ++ k)) st'.
  Proof.
    intros H HI HI' Hst Hm Hfs Hk.
    assert (proj st1 st') as H1.
    { destruct Hm as [o Ho|v a st1 p Ha|o b Hl Ho|ty b Hl|ty b Hl|o b p Hc Ho|o b p Hc Ho|ty w q b p Hc|o v b Hc Ho
        |v p st1 Hc Hlk|ty w q b Hc|ty w q b Hc|ty w q v Hf Hty|o v a st1 p Ha|o p v Hr Hc|o p v p' Hr Hc|o p r st1 Hf|o r|o r| | | | ];
        try done.
      - eapply (proj_alloc_l st st'); [done| |apply (Hk (FWait (OBox v) (Some p))); by left|done].
        by eapply alloc_foreseen; [exact Ha| |exact Hfs].
      - apply proj_locked_l; [done|]. apply (Hk (FWait o b)). by left.
      - apply proj_locked_l; [done|]. apply (Hk (FWait (OLen ty) b)). by left.
      - assert (keep ty = false) by (apply (Hk (FWait (OClear ty) b)); by left).
        apply proj_event_l; [|done]. apply proj_put_l; [|done]. by apply proj_locked_l.
      - pose proof (v_frames _ _ HI t (FGet (OBox v) (Some p))) as Hfr. rewrite Hst in Hfr.
        destruct Hfr as [(p'&[= <-]&Hp) _]; [by left|]. apply ileak_alter in Hlk as [_ ->].
        apply proj_alter_l; [done| |by intros ? ? [= <-]]. rewrite (points_D _ _ _ _ _ _ H Hp).
        apply negb_true_iff. apply (Hk (FGet (OBox v) (Some p))). by left.
      - pose proof (v_frames _ _ HI t (FStore o v)) as Hfr. rewrite Hst in Hfr.
        destruct Hfr as [Hty _]; [by left|].
        eapply (proj_alloc_l st st'); [done| | |done].
        + by eapply alloc_foreseen; [exact Ha| |exact Hfs].
        + rewrite Hty. apply (Hk (FStore o v)). by left.
      - assert (keep (op_ty o) = false) by (apply (Hk (FIns o p)); by left).
        apply proj_event_l; [|done]. by apply proj_put_l.
      - pose proof (v_frames _ _ HI t (FDup o (Some p) r)) as Hfr. rewrite Hst in Hfr.
        destruct Hfr as [Hb _]; [by left|]. destruct o as [| |v| | | |]; simpl in Hb; try done.
        destruct Hb as (p'&[= <-]&Hp). apply ifree_alter in Hf as [_ ->].
        apply proj_alter_l; [done| |done]. rewrite (points_D _ _ _ _ _ _ H Hp).
        apply negb_true_iff. apply (Hk (FDup (OBox v) (Some p) r)). by left.
      - assert (keep (op_ty o) = false) as Hko by (apply (Hk (FDone o r)); by left).
        apply proj_event_l; [|done]. apply proj_unlock_l; [done|].
        eapply (removed_lock st st' t (FDone o r) k); try done. simpl. by rewrite Nat.eqb_refl. }
    apply proj_stack_l; [done|].
    assert (get_stack st1 t = get_stack st t) as ->.
    { destruct Hm; try done; repeat match goal with
      | Ha : ialloc _ _ _ _ _ = Some _ |- _ => unfold ialloc in Ha; destruct (_ || _); [|done]; injection Ha as <- <-
      | Ha : ileak _ _ = Some _ |- _ => apply ileak_alter in Ha as [_ ->]
      | Ha : ifree _ _ = Some _ |- _ => apply ifree_alter in Ha as [_ ->] end; done. }
    rewrite Hst, !stk_app. f_equal. assert (forall l, (forall f, f ∈ l -> keep (frame_ty E f) = false) -> stk l = []) as Hn.
    { intros l. induction l as [|f l IH]; [done|]. intros Hl. rewrite stk_drop by (apply Hl; by left).
      apply IH. intros g Hg. apply Hl. by right. }
    rewrite !Hn; [done|intros f Hf; apply Hk, elem_of_app; by left|intros f Hf; apply Hk, elem_of_app; by right].
  Qed.

  (** ** Kept steps *)
  Lemma kept_thread st st' t a i st2 f k : proj st st' -> IInv st -> get_stack st t = f :: k -> keep (frame_ty E f) = true ->
    istep_thread E st t a i = Next st2 -> foreseen st st2 ->
    exists st2', istep_thread E st' t a i = Next st2' /\ proj st2 st2'.
  Proof.
    intros H HI Hst Hk Hs Hfs. pose proof (p_threads _ _ H t) as Hst'. rewrite Hst, stk_keep in Hst' by done.
    pose proof (v_frames _ _ HI t f (in_stack _ _ _ _ Hst)) as Hfr.
    unfold istep_thread in *. rewrite Hst in Hs. rewrite Hst'.
    destruct f as [o b|o b|ty w q|o v|o p|o b r|o r]; cbn [ren_frame]; simpl in Hk.
    - destruct (i_locks st !! slot (op_ty o)) eqn:Hl; [done|]. rewrite (p_locks _ _ H _ Hl).
      fold (locked E st t (op_ty o)) in Hs. fold (locked E st' t (op_ty o)).
      pose proof (proj_locked st st' t (op_ty o) H Hk) as HL.
      destruct o as [v|v|v|ty w q|ty w q|ty|ty]; injection Hs as <-; (eexists; split; [reflexivity|]); simpl in Hk.
      1-5: match goal with |- proj (set_stack _ _ ?l) _ => pose proof (proj_stack _ _ t l HL) as HS end;
        rewrite stk_keep in HS by done; exact HS.
      + rewrite (proj_set_of _ _ ty HL Hk), map_length. simpl in HL.
        match goal with |- proj (set_stack _ _ ?l) _ => pose proof (proj_stack _ _ t l HL) as HS end.
        rewrite stk_keep in HS by done; exact HS.
      + pose proof (proj_event _ _ (EvClr ty) (proj_put _ _ ty [] HL Hk) Hk) as HP.
        match goal with |- proj (set_stack _ _ ?l) _ => pose proof (proj_stack _ _ t l HP) as HS end.
        rewrite stk_keep in HS by done; exact HS.
    - rewrite (set_readable E st) in Hs by done.
      assert (ireadable st' (set_of E st' (op_ty o)) = true) as ->.
      { unfold ireadable. rewrite (proj_set_of st st') by done. apply forallb_forall. intros p' Hp'.
        apply in_map_iff in Hp' as (p&<-&Hp%elem_of_list_In). rewrite (proj_read st st') by (first [done|by eapply set_D]).
        destruct (set_points E st _ p HI Hp) as (v&Hv&_). by rewrite (points_read _ _ _ _ _ _ Hv). }
      rewrite (proj_search st st') by done. rewrite proj_pick.
      destruct Hfr as [Hb _].
      destruct (ipick i _) as [p|] eqn:Hpk; cbn [fmap option_fmap option_map].
      + destruct o as [v|v|v|ty w q|ty w q|ty|ty]; try done; injection Hs as <-; (eexists; split; [reflexivity|]); simpl in Hk;
        match goal with |- proj (set_stack _ _ ?l) _ => pose proof (proj_stack _ _ t l H) as HS end;
        rewrite stk_keep in HS by done; exact HS.
      + destruct o as [v|v|v|ty w q|ty w q|ty|ty]; try done; simpl in Hk, Hb.
        3:{ destruct Hb as (p&->&Hp). destruct (ileak st p) as [st1|] eqn:Hlk; [|done]. injection Hs as <-.
            apply (proj_ileak st st') in Hlk as (st1'&Hlk'&H1); [|done|by rewrite (points_D _ _ _ _ _ _ H Hp), Hk].
            cbn [fmap option_fmap option_map]. rewrite Hlk'. eexists; split; [reflexivity|].
            match goal with |- proj (set_stack _ _ ?l) _ => pose proof (proj_stack _ _ t l H1) as HS end.
            rewrite stk_keep in HS by done; exact HS. }
        all: injection Hs as <-; (eexists; split; [reflexivity|]);
          match goal with |- proj (set_stack _ _ ?l) _ => pose proof (proj_stack _ _ t l H) as HS end;
          rewrite stk_keep in HS by done; exact HS.
    - done.
    - destruct Hfr as [Hty _]. destruct (ialloc E st a v true) as [[st1 p]|] eqn:Ha; [|done]. injection Hs as <-.
      pose proof (alloc_foreseen _ _ _ _ _ _ _ Ha eq_refl Hfs) as HD.
      destruct (proj_alloc st st' a v true st1 p H HD ltac:(by rewrite Hty) Ha) as (st1'&Ha'&H1). rewrite Ha'.
      eexists; split; [reflexivity|].
      match goal with |- proj (set_stack _ _ ?l) _ => pose proof (proj_stack _ _ t l H1) as HS end.
      rewrite stk_keep in HS by done; exact HS.
    - destruct Hfr as (v&Hp&_). rewrite (points_read _ _ _ _ _ _ Hp) in Hs.
      rewrite (proj_read st st'), (points_read _ _ _ _ _ _ Hp) by (first [done|by rewrite (points_D _ _ _ _ _ _ H Hp), Hk]).
      rewrite (set_readable E st) in Hs by done.
      assert (ireadable st' (set_of E st' (op_ty o)) = true) as ->.
      { unfold ireadable. rewrite (proj_set_of st st') by done. apply forallb_forall. intros p' Hp'.
        apply in_map_iff in Hp' as (p1&<-&Hp1%elem_of_list_In). rewrite (proj_read st st') by (first [done|by eapply set_D]).
        destruct (set_points E st _ p1 HI Hp1) as (v1&Hv&_). by rewrite (points_read _ _ _ _ _ _ Hv). }
      rewrite (proj_search st st') by done.
      destruct (candidates st (ins_match E v) (set_of E st (op_ty o))) as [|p1 l]; cbn [map]; injection Hs as <-;
        (eexists; split; [reflexivity|]).
      + pose proof (proj_event _ _ (EvIns t o p v) (proj_put _ _ (op_ty o) (p :: set_of E st (op_ty o)) H Hk) Hk) as HP.
        rewrite (proj_set_of st st') by done.
        match goal with |- proj (set_stack _ _ ?l) _ => pose proof (proj_stack _ _ t l HP) as HS end.
        rewrite stk_keep in HS by done; exact HS.
      + match goal with |- proj (set_stack _ _ ?l) _ => pose proof (proj_stack _ _ t l H) as HS end.
        rewrite stk_keep in HS by done; exact HS.
    - destruct Hfr as [Hb _]. destruct b as [p|]; cbn [fmap option_fmap option_map].
      + destruct o as [| |v| | | |]; simpl in Hb; try done. destruct Hb as (p'&[= <-]&Hp).
        destruct (ifree st p) as [st1|] eqn:Hf; [|done]. injection Hs as <-.
        apply (proj_ifree st st') in Hf as (st1'&Hf'&H1); [|done|rewrite (points_D _ _ _ _ _ _ H Hp); simpl in Hk; by rewrite Hk].
        rewrite Hf'. eexists; split; [reflexivity|].
        match goal with |- proj (set_stack _ _ ?l) _ => pose proof (proj_stack _ _ t l H1) as HS end.
        rewrite stk_keep in HS by done; exact HS.
      + injection Hs as <-. eexists; split; [reflexivity|].
        match goal with |- proj (set_stack _ _ ?l) _ => pose proof (proj_stack _ _ t l H) as HS end.
        rewrite stk_keep in HS by done; exact HS.
    - injection Hs as <-. eexists; split; [reflexivity|].
      assert (match mr r with RPanic => true | _ => false end = match r with RPanic => true | _ => false end) as -> by (by destruct r).
      pose proof (proj_unlock _ _ (slot (op_ty o)) (match r with RPanic => true | _ => false end) H) as HU.
      exact (proj_event _ _ (EvRet t o r) (proj_stack _ _ t k HU) Hk).
  Qed.
  Lemma kept_panic st st' t st2 f k : proj st st' -> get_stack st t = f :: k -> keep (frame_ty E f) = true ->
    istep_panic st t = Next st2 -> exists st2', istep_panic st' t = Next st2' /\ proj st2 st2'.
  Proof.
    intros H Hst Hk Hs. pose proof (p_threads _ _ H t) as Hst'. rewrite Hst, stk_keep in Hst' by done.
    unfold istep_panic in *. rewrite Hst in Hs. rewrite Hst'.
    destruct f as [o b|o b|ty w q|o v|o p|o b r|o r]; cbn [ren_frame]; simpl in Hk; try done.
    4: destruct r; try done; cbn [ren_res].
    all: injection Hs as <-; (eexists; split; [reflexivity|]);
      match goal with |- proj (set_stack _ _ ?l) _ => pose proof (proj_stack _ _ t l H) as HS end;
      rewrite stk_keep in HS by done; exact HS.
  Qed.
  Definition below st : Prop := forall t f k, get_stack st t = f :: k -> Forall (λ g, in_user g = true) k.
  Lemma kept_call st st' t o a st2 : proj st st' -> IInv st -> below st -> keep (op_ty o) = true ->
    istep E st (ICall t o a) = Next st2 -> foreseen st st2 ->
    exists st2', istep E st' (ICall t o a) = Next st2' /\ proj st2 st2'.
  Proof.
    intros H HI HB Hk Hs Hfs. simpl in *.
    destruct (match get_stack st t with f :: _ => in_user f | [] => true end) eqn:Hu; [|done].
    assert (match get_stack st' t with f :: _ => in_user f | [] => true end = true) as ->.
    { assert (forall g, g ∈ get_stack st t -> in_user g = true) as Hall.
      { intros g Hg. destruct (get_stack st t) as [|f k] eqn:Hst; [by apply elem_of_nil in Hg|].
        apply elem_of_cons in Hg as [->|Hg]; [done|]. specialize (HB t f k Hst). by eapply list.Forall_forall in HB. }
      rewrite (p_threads _ _ H). destruct (stk (get_stack st t)) as [|g l] eqn:Hg; [done|].
      destruct (stk_in g (get_stack st t)) as (f&->&Hf&_); [rewrite Hg; by left|]. rewrite mf_user. by apply Hall. }
    rewrite (p_threads _ _ H).
    destruct o as [v|v|v|ty w q|ty w q|ty|ty]; simpl in Hk.
    3:{ destruct (ialloc E st a v false) as [[st1 p]|] eqn:Ha; [|done]. injection Hs as <-.
        pose proof (alloc_foreseen _ _ _ _ _ _ _ Ha eq_refl Hfs) as HD.
        destruct (proj_alloc st st' a v false st1 p H HD Hk Ha) as (st1'&Ha'&H1). rewrite Ha'.
        eexists; split; [reflexivity|].
        match goal with |- proj (set_stack _ _ ?l) _ => pose proof (proj_stack _ _ t l H1) as HS end.
        rewrite stk_keep in HS by done; exact HS. }
    all: injection Hs as <-; (eexists; split; [reflexivity|]);
      match goal with |- proj (set_stack _ _ ?l) _ => pose proof (proj_stack _ _ t l H) as HS end;
      rewrite stk_keep in HS by done; exact HS.
  Qed.
  Lemma kept_conv st st' t v st2 f k : proj st st' -> get_stack st t = f :: k -> keep (frame_ty E f) = true ->
    istep E st (IConv t v) = Next st2 -> exists st2', istep E st' (IConv t v) = Next st2' /\ proj st2 st2'.
  Proof.
    intros H Hst Hk Hs. pose proof (p_threads _ _ H t) as Hst'. rewrite Hst, stk_keep in Hst' by done.
    simpl in *. rewrite Hst in Hs. rewrite Hst'.
    destruct f as [o b|o b|ty w q|o v'|o p|o b r|o r]; cbn [ren_frame]; simpl in Hk; try done.
    destruct (ie_from E w q v && (ie_ty E v =? ty)); [|done].
    injection Hs as <-; (eexists; split; [reflexivity|]);
      match goal with |- proj (set_stack _ _ ?l) _ => pose proof (proj_stack _ _ t l H) as HS end;
      rewrite stk_keep in HS by done; exact HS.
  Qed.
  Lemma kept_deref st st' p v : proj st st' -> IInv st -> returned p (i_log st) = true -> iread st p = Some v ->
    keep (ie_ty E v) = true ->
    istep E st' (IDeref (mp p)) = Next (add_event st' (EvRead (mp p) v)) /\
    proj (add_event st (EvRead p v)) (add_event st' (EvRead (mp p) v)).
  Proof.
    intros H HI (t&o&Hin)%returned_in Hr Hk. pose proof (v_log _ _ HI _ Hin) as [v' Hp].
    assert (v' = v) as ->. { apply points_read in Hp. congruence. }
    assert (op_ty o = ie_ty E v) as Ho by (by destruct Hp as (_&_&->)).
    split; [|by apply (proj_event _ _ (EvRead p v))].
    simpl. assert (returned (mp p) (i_log st') = true) as ->.
    { apply returned_in. exists t, o. rewrite (p_log _ _ H). apply elem_of_list_In, in_map_iff.
      exists (EvRet t o (RPtr p)). split; [done|]. apply filter_In. split; [by apply elem_of_list_In|].
      simpl. by rewrite Ho. }
    rewrite (proj_read st st'), Hr; [done|done|]. rewrite (points_D _ _ _ _ _ _ H Hp). by rewrite Ho, Hk.
  Qed.

  Lemma below_step st l st' : below st -> istep E st l = Next st' -> below st'.
  Proof.
    intros HB Hs. pose proof Hs as Hs0.
    apply istep_move in Hs as [(p&v&_&_&_&->)|(t&fs&fs'&k&st1&Hst&Hm&->&Ht&Hnil)]; [exact HB|].
    intros u f k' Hu. rewrite get_stack_set in Hu.
    assert (forall u, get_stack st1 u = get_stack st u) as Hsame.
    { destruct Hm; try done; repeat match goal with
      | Ha : ialloc _ _ _ _ _ = Some _ |- _ => unfold ialloc in Ha; destruct (_ || _); [|done]; injection Ha as <- <-
      | Ha : ileak _ _ = Some _ |- _ => apply ileak_alter in Ha as [_ ->]
      | Ha : ifree _ _ = Some _ |- _ => apply ifree_alter in Ha as [_ ->] end; done. }
    destruct (decide (t = u)) as [<-|]; [|rewrite Hsame in Hu; by eapply HB].
    destruct fs as [|f0 fs0].
    - destruct Hnil as (o&b&a&->&->); [done|]. simpl in Hst, Hu. injection Hu as <- <-. subst k.
      simpl in Hs0. destruct (get_stack st t) as [|f0 k0] eqn:Hg; [by constructor|].
      constructor; [|by eapply HB]. by destruct (in_user f0).
    - assert (fs0 = []) as ->. { by inversion Hm. }
      specialize (HB t f0 k Hst).
      assert (fs' = [] \/ exists f1, fs' = [f1]) as [->|[f1 ->]] by (inversion Hm; eauto).
      + simpl in Hu. subst k. by inversion HB.
      + simpl in Hu. injection Hu as <- <-. done.
  Qed.

  Lemma move_ty st t fs fs' st1 : move E st t fs fs' st1 -> forall f g, f ∈ fs -> g ∈ fs' -> frame_ty E g = frame_ty E f.
  Proof.
    intros Hm f g Hf Hg. destruct Hm; repeat match goal with
      | H : _ ∈ [] |- _ => by apply elem_of_nil in H
      | H : _ ∈ [_] |- _ => apply elem_of_list_singleton in H as -> end; try done.
  Qed.

  Lemma call_len st t o a st2 : istep E st (ICall t o a) = Next st2 -> length (get_stack st2 t) = S (length (get_stack st t)).
  Proof.
    simpl. destruct (match get_stack st t with f :: _ => in_user f | [] => true end); [|done].
    destruct o as [v|v|v|ty w q|ty w q|ty|ty].
    3: destruct (ialloc E st a v false) as [[? ?]|]; [|done].
    all: intros [= <-]; rewrite get_stack_set; by destruct (decide (t = t)).
  Qed.

  (** ** One step *)
  Lemma proj_step st st' l st2 : proj st st' -> IInv st -> IInv st' -> below st ->
    istep E st l = Next st2 -> foreseen st st2 ->
    proj st2 st' \/
    (exists st2', istep E st' (ren_label ρ l) = Next st2' /\ proj st2 st2') /\
      forall t o a, l = ICall t o a -> keep (op_ty o) = true.
  Proof.
    intros H HI HI' HB Hs Hfs. pose proof Hs as Hs0.
    apply istep_move in Hs as [(p&v&Hr&Hrd&->&->)|(t&fs&fs'&k&st1&Hst&Hm&->&Ht&Hnil)].
    - destruct (keep (ie_ty E v)) eqn:Hk.
      + right. split; [|done]. destruct (kept_deref st st' p v) as [H1 H2]; [done..|]. eauto.
      + left. by apply proj_event_l.
    - destruct fs as [|f fs0].
      + destruct Hnil as (o&b&a&->&->); [done|]. destruct (keep (op_ty o)) eqn:Hk.
        * right. split; [|by intros ? ? ? [= <- <- <-]]. by apply (kept_call st st').
        * left. apply (removed_step st st' t [] [FWait o b] k st1); try done. simpl. by intros f ->%elem_of_list_singleton.
      + assert (fs0 = []) as ->. { by inversion Hm. } simpl in Hst.
        destruct (keep (frame_ty E f)) eqn:Hk.
        * right. split; [|intros ? ? ? ->; simpl in Ht].
          { destruct l as [u o a|u a i|u v|u|p]; simpl in Ht; try done; injection Ht as ->.
            - exfalso. apply call_len in Hs0. rewrite get_stack_set in Hs0. destruct (decide (t = t)); [|done]. rewrite Hst in Hs0.
              rewrite app_length in Hs0. inversion Hm; subst; simpl in Hs0; lia.
            - simpl in *. by eapply kept_thread.
            - by eapply kept_conv.
            - simpl in *. by eapply kept_panic. }
          exfalso. injection Ht as ->. apply call_len in Hs0. rewrite get_stack_set in Hs0.
          destruct (decide (t = t)); [|done]. rewrite Hst in Hs0.
          rewrite app_length in Hs0. inversion Hm; subst; simpl in Hs0; lia.
        * left. apply (removed_step st st' t [f] fs' k st1); try done. intros g [Hg|Hg]%elem_of_app.
          -- by apply elem_of_list_singleton in Hg as ->.
          -- rewrite (move_ty _ _ _ _ _ Hm f g); [done|by left|done].
  Qed.

  (** ** Executions *)
  Fixpoint foresees st (ls : list (ilabel V Q)) : Prop :=
    match ls with
    | [] => True
    | l :: ls => match istep E st l with Next st1 => foreseen st st1 /\ foresees st1 ls | _ => foresees st ls end
    end.
  Lemma proj_run ls : forall st st' st2, proj st st' -> IInv st -> IInv st' -> below st -> foresees st ls ->
    run (istep E) st ls = Some st2 ->
    exists ls' st2', run (istep E) st' ls' = Some st2' /\ proj st2 st2' /\ ls' `sublist_of` map (ren_label ρ) ls /\
      forall t o a, ICall t o a ∈ ls' -> keep (op_ty o) = true.
  Proof.
    induction ls as [|l ls IH]; intros st st' st2 H HI HI' HB HF Hr.
    - simpl in Hr. injection Hr as <-. exists [], st'. split_and!; [done|done|constructor|]. intros t o a Hin. by apply elem_of_nil in Hin.
    - simpl in Hr, HF. unfold exec in Hr. destruct (istep E st l) as [st1| | |] eqn:Hs; [|..|done].
      + destruct HF as [Hf HF]. pose proof (istep_inv _ _ _ _ HI Hs) as HI1. pose proof (below_step _ _ _ HB Hs) as HB1.
        destruct (proj_step st st' l st1) as [H1|[(st1'&Hs'&H1) Hc]]; [done..| |].
        * destruct (IH st1 st' st2) as (ls'&st2'&?&?&?&?); [done..|]. exists ls', st2'. split_and!; [done|done|by constructor|done].
        * pose proof (istep_inv _ _ _ _ HI' Hs') as HI1'.
          destruct (IH st1 st1' st2) as (ls'&st2'&?&?&?&Hk); [done..|].
          exists (ren_label ρ l :: ls'), st2'. split_and!; [|done|by constructor|].
          -- simpl. unfold exec. by rewrite Hs'.
          -- intros t o a [Heq|Hin]%elem_of_cons; [|by eapply Hk]. apply (Hc t o a). by destruct l.
      + destruct (IH st st' st2) as (ls'&st2'&?&?&?&?); [done..|]. exists ls', st2'. split_and!; [done|done|by constructor|done].
      + destruct (IH st st' st2) as (ls'&st2'&?&?&?&?); [done..|]. exists ls', st2'. split_and!; [done|done|by constructor|done].
  Qed.
  Lemma proj_init : proj iinit iinit.
  Proof. by constructor. Qed.
End isol.

Section prophecy.
  Context {V Q : Type} (E : ienv V Q) (keep : nat -> bool).
  Implicit Types (st : istate V Q).
  Lemma next_mono st l st' : istep E st l = Next st' -> i_next st <= i_next st'.
  Proof.
    intros [(p&v&_&_&_&->)|(t&fs&fs'&k&st1&_&Hm&->&_&_)]%istep_move; [done|]. simpl.
    destruct Hm; try (simpl; lia); repeat match goal with
      | Ha : ialloc _ _ _ _ _ = Some _ |- _ => unfold ialloc in Ha; destruct (_ || _); [|done]; injection Ha as <- <-
      | Ha : ileak _ _ = Some _ |- _ => apply ileak_alter in Ha as [_ ->]
      | Ha : ifree _ _ = Some _ |- _ => apply ifree_alter in Ha as [_ ->] end; simpl; lia.
  Qed.
  Lemma foresees_ext D D' ls : forall st, (forall n, i_next st <= n -> D n = D' n) -> foresees E keep D st ls -> foresees E keep D' st ls.
  Proof.
    induction ls as [|l ls IH]; intros st Hd; simpl; [done|].
    destruct (istep E st l) as [st1| | |] eqn:Hs; [|by apply IH..]. intros [Hf HF]. split.
    - intros x Hx. rewrite <- (Hd (i_next st)) by lia. by apply Hf.
    - apply (IH st1); [|done]. intros n Hn. apply Hd. apply next_mono in Hs. lia.
  Qed.
  Lemma foresees_exists ls : forall st, IInv E st -> exists D, foresees E keep D st ls.
  Proof.
    induction ls as [|l ls IH]; intros st HI; simpl; [by exists (λ _, false)|].
    destruct (istep E st l) as [st1| | |] eqn:Hs; [|by apply IH..].
    pose proof (istep_inv _ _ _ _ HI Hs) as HI1. destruct (IH st1 HI1) as [D1 H1].
    destruct (i_objs st1 !! i_next st) as [x|] eqn:Hx.
    - exists (λ n, if n =? i_next st then negb (keep (ie_ty E (io_val x))) else D1 n). split.
      + intros y Hy. rewrite Nat.eqb_refl. by simplify_eq.
      + eapply foresees_ext; [|exact H1]. intros n Hn. apply (v_fresh _ _ HI1) in Hx.
        destruct (Nat.eqb_spec n (i_next st)) as [->|]; [lia|done].
    - exists D1. split; [|done]. intros y Hy. congruence.
  Qed.
End prophecy.

Theorem types_isolated {V Q : Type} (E : ienv V Q) keep ls st :
  run (istep E) iinit ls = Some st ->
  exists (ρ : nat -> nat) ls' st',
    run (istep E) iinit ls' = Some st' /\
    ls' `sublist_of` map (ren_label ρ) ls /\
    (forall t o a, ICall t o a ∈ ls' -> keep (op_ty E o) = true) /\
    i_log st' = map (ren_event ρ) (about (event_ty E) keep (i_log st)) /\
    (forall t, get_stack st' t = map (ren_frame ρ) (about (frame_ty E) keep (get_stack st t))) /\
    (forall ty, keep ty = true -> set_of E st' ty = map (ren_ptr ρ) (set_of E st ty)) /\
    (forall n x, i_objs st !! n = Some x -> keep (ie_ty E (io_val x)) = true -> i_objs st' !! ρ n = Some x) /\
    (forall m x, i_objs st' !! m = Some x -> exists n, m = ρ n /\ i_objs st !! n = Some x /\ keep (ie_ty E (io_val x)) = true) /\
    (forall n m x y, i_objs st !! n = Some x -> i_objs st !! m = Some y ->
      keep (ie_ty E (io_val x)) = true -> keep (ie_ty E (io_val y)) = true -> ρ n = ρ m -> n = m).
Proof.
  intros Hr. destruct (foresees_exists E keep ls iinit (iinv_init E)) as [D HD].
  destruct (proj_run E keep D ls iinit iinit st) as (ls'&st'&Hr'&H&Hsub&Hc);
    [apply proj_init|apply iinv_init|apply iinv_init|done|done|done|].
  assert (forall n x, i_objs st !! n = Some x -> keep (ie_ty E (io_val x)) = true -> D n = false) as HDk.
  { intros n x Hx Hk. rewrite (p_D _ _ _ _ _ H n x Hx). by rewrite Hk. }
  exists (rank D), ls', st'. split_and!; try done.
  - apply (p_log _ _ _ _ _ H).
  - apply (p_threads _ _ _ _ _ H).
  - intros ty Hk. by apply (proj_set_of E keep D).
  - intros n x Hx Hk. rewrite (p_objs _ _ _ _ _ H) by by eapply HDk. done.
  - intros m x Hx. destruct (p_dom _ _ _ _ _ H m x Hx) as (n&Hn&->). rewrite (p_objs _ _ _ _ _ H) in Hx by done.
    exists n. split_and!; [done|done|]. rewrite (p_D _ _ _ _ _ H n x Hx) in Hn. by apply negb_false_iff.
  - intros n m x y Hx Hy Hkx Hky Heq. eapply rank_inj; [by eapply HDk|by eapply HDk|done].
Qed.

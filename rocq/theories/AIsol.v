(** Proofs for C73: noninterference between arenas. *)
From stdpp Require Import gmap list numbers.
From Verif Require Import Base InternModel ArenaModel ArenaSpec ArenaInv IsolSpec Isol AIsolSpec.
Require Import ZifyBool ZifyNat ZifyN.

Section isol.
  Context {V Q : Type} (E : ienv V Q) (keep : nat -> bool) (D : nat -> bool).
  Implicit Types (st : astate V Q) (v : V) (p : iptr) (o : aop V Q) (f g : aframe V Q) (t r : nat) (e : aevent V Q).
  Notation ρ := (rank D).
  Notation ours := (λ n, negb (D n)).
  Notation mp := (ren_ptr ρ).
  Notation mf := (ren_aframe ρ).
  Notation me := (ren_aevent ρ).

  Definition astk (k : list (aframe V Q)) : list (aframe V Q) := map mf (about f_arena keep k).
  Definition opt (b : option iptr) : list iptr := match b with Some p => [p] | None => [] end.
  Definition rptr (x : ares) : list iptr := match x with AP p => [p] | APanic => [] end.
  Definition fptrs f : list iptr :=
    match f with
    | AWait _ _ b | AGet _ _ b | AStore _ _ _ b => opt b
    | AConv _ _ _ => []
    | AIns _ _ b p | AKill _ _ b p _ | AMake _ _ b p => p :: opt b
    | ARel _ _ b _ x | AArg _ _ b _ x => opt b ++ rptr x
    | ADead _ ps => ps
    end.
  Definition side r p : Prop := D (ip_ser p) = negb (keep r).
  Definition fok f : Prop := Forall (side (f_arena f)) (fptrs f).
  Definition mar (x : arena) : arena := Ar (ar_ty x) (map mp (ar_set x)).

  Record aproj st st' : Prop := {
    q_next : a_next st' = ρ (a_next st);
    q_nextr : a_nextr st' = a_nextr st;
    q_objs : forall n, D n = false -> a_objs st' !! ρ n = a_objs st !! n;
    q_dom : forall m x, a_objs st' !! m = Some x -> exists n, D n = false /\ m = ρ n;
    q_arenas : forall r, keep r = true -> a_arenas st' !! r = mar <$> a_arenas st !! r;
    q_locks : forall r, keep r = true -> a_locks st' !! r = a_locks st !! r;
    q_threads : forall t, a_stack st' t = astk (a_stack st t);
    q_log : a_log st' = map me (List.filter (aev_kept keep ours) (a_log st));
    q_frames : forall t, Forall fok (a_stack st t);
    q_sets : forall r x, a_arenas st !! r = Some x -> Forall (side r) (ar_set x);
    q_rets : forall t r o b p, AvRet t r o b (AP p) ∈ a_log st -> side r p;
  }.

  Lemma astk_keep f k : keep (f_arena f) = true -> astk (f :: k) = mf f :: astk k.
  Proof. intros H. unfold astk, about. simpl. by rewrite H. Qed.
  Lemma astk_drop f k : keep (f_arena f) = false -> astk (f :: k) = astk k.
  Proof. intros H. unfold astk, about. simpl. by rewrite H. Qed.
  Lemma astk_in g k : g ∈ astk k -> exists f, g = mf f /\ f ∈ k /\ keep (f_arena f) = true.
  Proof.
    unfold astk, about. rewrite elem_of_list_In, in_map_iff. intros (f&<-&H). apply filter_In in H as [H ?].
    exists f. by rewrite elem_of_list_In.
  Qed.
  Lemma maf_user f : a_user (mf f) = a_user f.
  Proof. destruct f as [| | | | | | | | |r [|? ?]]; done. Qed.
  Lemma maf_arena f : a_arena (mf f) = a_arena f.
  Proof. by destruct f. Qed.

  Lemma a_stack_set st t u k : a_stack (a_set_stack st t k) u = if decide (t = u) then k else a_stack st u.
  Proof.
    unfold a_stack. simpl. destruct (decide (t = u)) as [->|].
    - by rewrite lookup_insert.
    - by rewrite lookup_insert_ne.
  Qed.

  (** ** The parts of the state *)
  Lemma aproj_stack st st' t k : aproj st st' -> Forall fok k -> aproj (a_set_stack st t k) (a_set_stack st' t (astk k)).
  Proof.
    intros [] Hk. constructor; try done; intros u; rewrite !a_stack_set; by destruct (decide (t = u)).
  Qed.
  Lemma aproj_stack_l st st' t k : aproj st st' -> Forall fok k -> astk k = astk (a_stack st t) -> aproj (a_set_stack st t k) st'.
  Proof.
    intros [] Hf Hk. constructor; try done; intros u; rewrite !a_stack_set; destruct (decide (t = u)) as [<-|]; try done.
    by rewrite Hk.
  Qed.
  Definition eok e : Prop := match e with AvRet _ r _ _ (AP p) => side r p | _ => True end.
  Lemma aproj_event st st' e : aproj st st' -> eok e -> aev_kept keep ours e = true -> aproj (a_event st e) (a_event st' (me e)).
  Proof.
    intros [] He Hk. constructor; try done; simpl.
    - by rewrite Hk, q_log0.
    - intros t r o b p [<-|Hin]%elem_of_cons; [exact He|by eapply q_rets0].
  Qed.
  Lemma aproj_event_l st st' e : aproj st st' -> eok e -> aev_kept keep ours e = false -> aproj (a_event st e) st'.
  Proof.
    intros [] He Hk. constructor; try done; simpl.
    - by rewrite Hk, q_log0.
    - intros t r o b p [<-|Hin]%elem_of_cons; [exact He|by eapply q_rets0].
  Qed.
  Lemma aproj_lock st st' r t : aproj st st' -> aproj (a_lock st r t) (a_lock st' r t).
  Proof.
    intros []. constructor; try done. simpl. intros u Hu. destruct (decide (r = u)) as [->|].
    - by rewrite !lookup_insert.
    - rewrite !lookup_insert_ne by done. by apply q_locks0.
  Qed.
  Lemma aproj_lock_l st st' r t : aproj st st' -> keep r = false -> aproj (a_lock st r t) st'.
  Proof.
    intros [] Hr. constructor; try done. simpl. intros u Hu. rewrite lookup_insert_ne by congruence. by apply q_locks0.
  Qed.
  Lemma aproj_unlock st st' r b : aproj st st' -> aproj (a_unlock st r b) (a_unlock st' r b).
  Proof.
    intros []. constructor; try done. simpl. intros u Hu. destruct (decide (r = u)) as [->|].
    - by rewrite !lookup_delete.
    - rewrite !lookup_delete_ne by done. by apply q_locks0.
  Qed.
  Lemma aproj_unlock_l st st' r b : aproj st st' -> keep r = false -> aproj (a_unlock st r b) st'.
  Proof.
    intros [] Hr. constructor; try done. simpl. intros u Hu. rewrite lookup_delete_ne by congruence. by apply q_locks0.
  Qed.
  Lemma aproj_put st st' r x : aproj st st' -> Forall (side r) (ar_set x) ->
    aproj (a_put st (<[r:=x]> (a_arenas st))) (a_put st' (<[r:=mar x]> (a_arenas st'))).
  Proof.
    intros [] Hx. constructor; try done; simpl; intros u; destruct (decide (r = u)) as [->|].
    - by rewrite !lookup_insert.
    - rewrite !lookup_insert_ne by done. apply q_arenas0.
    - rewrite lookup_insert. by intros ? [= <-].
    - rewrite lookup_insert_ne by done. apply q_sets0.
  Qed.
  Lemma aproj_put_l st st' r x : aproj st st' -> Forall (side r) (ar_set x) -> keep r = false ->
    aproj (a_put st (<[r:=x]> (a_arenas st))) st'.
  Proof.
    intros [] Hx Hr. constructor; try done; simpl; intros u.
    - intros Hu. rewrite lookup_insert_ne by congruence. by apply q_arenas0.
    - destruct (decide (r = u)) as [->|].
      + rewrite lookup_insert. by intros ? [= <-].
      + rewrite lookup_insert_ne by done. apply q_sets0.
  Qed.
  Lemma aproj_del st st' r : aproj st st' ->
    aproj (a_put st (delete r (a_arenas st))) (a_put st' (delete r (a_arenas st'))).
  Proof.
    intros []. constructor; try done; simpl; intros u; destruct (decide (r = u)) as [->|].
    - by rewrite !lookup_delete.
    - rewrite !lookup_delete_ne by done. apply q_arenas0.
    - by rewrite lookup_delete.
    - rewrite lookup_delete_ne by done. apply q_sets0.
  Qed.
  Lemma aproj_del_l st st' r : aproj st st' -> keep r = false -> aproj (a_put st (delete r (a_arenas st))) st'.
  Proof.
    intros [] Hr. constructor; try done; simpl; intros u.
    - intros Hu. rewrite lookup_delete_ne by congruence. by apply q_arenas0.
    - intros x [_ Hx]%lookup_delete_Some. by apply q_sets0.
  Qed.
  Lemma aproj_new st st' ty : aproj st st' ->
    aproj (AState (a_objs st) (<[a_nextr st := Ar ty []]> (a_arenas st)) (a_locks st) (a_poison st)
             (a_threads st) (a_next st) (S (a_nextr st)) (AvNew (a_nextr st) ty :: a_log st))
          (AState (a_objs st') (<[a_nextr st' := Ar ty []]> (a_arenas st')) (a_locks st') (a_poison st')
             (a_threads st') (a_next st') (S (a_nextr st')) (AvNew (a_nextr st') ty :: a_log st')).
  Proof.
    intros H. pose proof (q_nextr _ _ H) as Hn. destruct H. constructor; try done; simpl.
    - by rewrite Hn.
    - intros r Hr. rewrite Hn. destruct (decide (a_nextr st = r)) as [->|].
      + by rewrite !lookup_insert.
      + rewrite !lookup_insert_ne by done. by apply q_arenas0.
    - by rewrite q_log0, Hn.
    - intros r x. destruct (decide (a_nextr st = r)) as [->|].
      + rewrite lookup_insert. intros [= <-]. by constructor.
      + rewrite lookup_insert_ne by done. apply q_sets0.
    - intros t r o b p [?|Hin]%elem_of_cons; [done|by eapply q_rets0].
  Qed.

  (** *** Memory *)
  Lemma aproj_read st st' p : aproj st st' -> D (ip_ser p) = false -> a_read st' (mp p) = a_read st p.
  Proof. intros H Hp. unfold a_read. simpl. by rewrite (q_objs _ _ H). Qed.
  Lemma aproj_free_addr st st' a : aproj st st' -> a_free_addr E st a = true -> a_free_addr E st' a = true.
  Proof.
    intros H. unfold a_free_addr. rewrite !bool_decide_eq_true. intros Ha m x Hx. destruct (q_dom _ _ H m x Hx) as (n&Hn&->).
    rewrite (q_objs _ _ H) in Hx by done. by apply (Ha n).
  Qed.
  Lemma aproj_alloc st st' a v st1 p : aproj st st' -> D (a_next st) = false ->
    a_alloc E st a v = Some (st1, p) -> exists st1', a_alloc E st' a v = Some (st1', mp p) /\ aproj st1 st1' /\ ip_ser p = a_next st.
  Proof.
    intros H HD. unfold a_alloc. destruct (is_zst E v || a_free_addr E st a) eqn:Hc; [|done].
    intros [= <- <-]. assert (is_zst E v || a_free_addr E st' a = true) as ->.
    { apply orb_true_iff in Hc as [->|Hc]; [done|]. rewrite (aproj_free_addr _ _ _ H Hc). apply orb_true_r. }
    eexists. split_and!; [unfold ren_ptr; simpl; rewrite (q_next _ _ H); reflexivity| |done].
    pose proof (q_next _ _ H) as Hn. destruct H. constructor; try done; simpl.
    - by rewrite HD.
    - intros n Hd. destruct (decide (a_next st = n)) as [<-|].
      + by rewrite !lookup_insert.
      + rewrite !lookup_insert_ne; [by apply q_objs0|done|]. intros Heq. by apply rank_inj in Heq.
    - intros m x. destruct (decide (ρ (a_next st) = m)) as [<-|].
      + intros _. by exists (a_next st).
      + rewrite lookup_insert_ne by done. apply q_dom0.
  Qed.
  Lemma aproj_alloc_l st st' a v st1 p : aproj st st' -> D (a_next st) = true ->
    a_alloc E st a v = Some (st1, p) -> aproj st1 st' /\ ip_ser p = a_next st.
  Proof.
    intros H HD. unfold a_alloc. destruct (is_zst E v || a_free_addr E st a) eqn:Hc; [|done].
    intros [= <- <-]. split; [|done]. destruct H. constructor; try done; simpl.
    - by rewrite HD.
    - intros n Hd. rewrite lookup_insert_ne; [by apply q_objs0|]. intros <-. congruence.
  Qed.
  Lemma aproj_free st st' w p st1 : aproj st st' -> D (ip_ser p) = false ->
    match w with Some r => keep r = true | None => True end -> a_free st w p = Some st1 ->
    exists st1', a_free st' w (mp p) = Some st1' /\ aproj st1 st1'.
  Proof.
    intros H Hp Hw. unfold a_free. simpl. rewrite (q_objs _ _ H) by done.
    destruct (a_objs st !! ip_ser p); [|done]. intros [= <-]. eexists; split; [done|].
    destruct H. constructor; try done; simpl.
    - intros n Hn. destruct (decide (ip_ser p = n)) as [<-|].
      + by rewrite !lookup_delete.
      + rewrite !lookup_delete_ne; [by apply q_objs0|done|]. intros Heq. by apply rank_inj in Heq.
    - intros m x [_ Hx]%lookup_delete_Some. by eapply q_dom0.
    - destruct w as [r|]; [by rewrite Hw, q_log0|by rewrite Hp, q_log0].
    - intros t r o b p' [?|Hin]%elem_of_cons; [done|by eapply q_rets0].
  Qed.
  Lemma aproj_free_l st st' w p st1 : aproj st st' -> D (ip_ser p) = true ->
    match w with Some r => keep r = false | None => True end -> a_free st w p = Some st1 -> aproj st1 st'.
  Proof.
    intros H Hp Hw. unfold a_free. destruct (a_objs st !! ip_ser p); [|done]. intros [= <-].
    destruct H. constructor; try done; simpl.
    - intros n Hn. rewrite !lookup_delete_ne; [by apply q_objs0|]. intros <-. congruence.
    - destruct w as [r|]; [by rewrite Hw, q_log0|by rewrite Hp, q_log0].
    - intros t r o b p' [?|Hin]%elem_of_cons; [done|by eapply q_rets0].
  Qed.
  Lemma free_threads st w p st1 : a_free st w p = Some st1 -> a_threads st1 = a_threads st /\ a_next st1 = a_next st.
  Proof. unfold a_free. destruct (a_objs st !! ip_ser p); [|done]. by intros [= <-]. Qed.
  Lemma alloc_threads st a v st1 p : a_alloc E st a v = Some (st1, p) -> a_threads st1 = a_threads st /\ a_next st1 = S (a_next st).
  Proof. unfold a_alloc. destruct (_ || _); [|done]. by intros [= <- <-]. Qed.

  (** *** Searching *)
  Lemma aproj_readable st st' l : aproj st st' -> Forall (λ p, D (ip_ser p) = false) l -> a_readable st' (map mp l) = a_readable st l.
  Proof.
    intros H. unfold a_readable. induction 1 as [|p l Hp Hl IH]; simpl; [done|].
    rewrite IH. by rewrite (aproj_read st st') by done.
  Qed.
  Lemma aproj_cands st st' (h : V -> bool) l : aproj st st' -> Forall (λ p, D (ip_ser p) = false) l ->
    a_cands st' h (map mp l) = map mp (a_cands st h l).
  Proof.
    intros H. unfold a_cands. induction 1 as [|p l Hp Hl IH]; simpl; [done|].
    rewrite IH. rewrite (aproj_read st st') by done. by destruct (a_read st p) as [d|]; [destruct (h d)|].
  Qed.
  Lemma cands_sub st (h : V -> bool) l P : Forall P l -> Forall P (a_cands st h l).
  Proof. intros H. apply List.Forall_forall. intros p [Hp _]%filter_In. rewrite List.Forall_forall in H. by apply H. Qed.
  Lemma pick_sub i l p (P : iptr -> Prop) : Forall P l -> ipick i l = Some p -> P p.
  Proof.
    intros H. unfold ipick. destruct (nth_error l i) as [q|] eqn:Hn.
    - intros [= ->]. apply nth_error_In in Hn. rewrite List.Forall_forall in H. by apply H.
    - destruct H; simpl; [done|]. by intros [= ->].
  Qed.
  Lemma set_side st st' r : aproj st st' -> Forall (side r) (a_set st r).
  Proof. intros H. unfold a_set. destruct (a_arenas st !! r) as [x|] eqn:Hx; [by eapply (q_sets _ _ H)|constructor]. Qed.
  Lemma aproj_set st st' r : aproj st st' -> keep r = true -> a_set st' r = map mp (a_set st r).
  Proof. intros H Hr. unfold a_set. rewrite (q_arenas _ _ H) by done. by destruct (a_arenas st !! r). Qed.
  Lemma side_D r l : keep r = true -> Forall (side r) l -> Forall (λ p, D (ip_ser p) = false) l.
  Proof. intros Hr H. eapply list.Forall_impl; [exact H|]. intros p Hp. unfold side in Hp. by rewrite Hp, Hr. Qed.

  Definition foreseen_a st (w : option nat) st2 : Prop :=
    a_next st2 = S (a_next st) -> forall r, w = Some r -> D (a_next st) = negb (keep r).

  Lemma akept_thread st st' t a i st2 f k : aproj st st' -> a_stack st t = f :: k -> keep (f_arena f) = true ->
    a_step_thread E st t a i = Next st2 -> foreseen_a st (Some (f_arena f)) st2 ->
    exists st2', a_step_thread E st' t a i = Next st2' /\ aproj st2 st2'.
  Proof.
    intros H Hst Hk Hs Hfs. pose proof (q_threads _ _ H t) as Hst'. rewrite Hst, astk_keep in Hst' by done.
    pose proof (q_frames _ _ H t) as HF. rewrite Hst in HF. apply Forall_cons_1 in HF as [Hf HF]. unfold fok in Hf.
    unfold a_step_thread in *. rewrite Hst in Hs. rewrite Hst'.
    assert (forall st0 st0' f' , aproj st0 st0' -> f_arena f' = f_arena f -> fok f' ->
      aproj (a_set_stack st0 t (f' :: k)) (a_set_stack st0' t (mf f' :: astk k))) as Hgo.
    { intros st0 st0' f' H0 Hr Hf'. rewrite <- astk_keep by (by rewrite Hr). apply aproj_stack; [done|]. by constructor. }
    assert (forall p, side (f_arena f) p -> D (ip_ser p) = false) as HD.
    { intros p Hp. unfold side in Hp. by rewrite Hp, Hk. }
    pose proof (side_D _ _ Hk (set_side st st' (f_arena f) H)) as HS.
    destruct f as [r o b|r o b|r w q|r o v b|r o b p|r o b p pn|r o b p|r o b m x|r o b m x|r ps]; cbn [ren_aframe];
      cbn [f_arena fptrs] in *.
    - rewrite (q_locks _ _ H) by done. destruct (a_locks st !! r); [done|]. injection Hs as <-.
      eexists; split; [reflexivity|]. apply (Hgo _ _ (AGet r o b)); [by apply aproj_lock|done|done].
    - rewrite (aproj_set st st') by done. rewrite (aproj_readable st st') by done.
      destruct (a_readable st (a_set st r)); [|done]. rewrite (aproj_cands st st'), proj_pick by done.
      destruct (ipick i _) as [p|] eqn:Hp; cbn [fmap option_fmap option_map].
      + injection Hs as <-. eexists; split; [reflexivity|]. apply (Hgo _ _ (ARel r o b true (AP p))); [done|done|].
        unfold fok. simpl. apply Forall_app. split; [done|]. constructor; [|constructor].
        eapply (pick_sub i _ p (side r)); [|exact Hp]. apply cands_sub. by eapply set_side.
      + destruct o as [v|w q|v|v].
        * injection Hs as <-. eexists; split; [reflexivity|]. apply (Hgo _ _ (AStore r (ANew v) v None)); [done|done|]. constructor.
        * injection Hs as <-. eexists; split; [reflexivity|]. apply (Hgo _ _ (AConv r w q)); [done|done|]. constructor.
        * injection Hs as <-. eexists; split; [reflexivity|]. apply (Hgo _ _ (AStore r (AOwned v) v b)); [done|done|]. done.
        * destruct b as [p|]; [|done]. injection Hs as <-. eexists; split; [reflexivity|].
          apply (Hgo _ _ (AIns r (ABox v) (Some p) p)); [done|done|]. unfold fok. simpl in *. by constructor; [inversion Hf|].
    - done.
    - destruct b as [q|]; cbn [fmap option_fmap option_map].
      + destruct (a_free st None q) as [st1|] eqn:Hfr; [|done]. injection Hs as <-.
        apply (aproj_free st st') in Hfr as (st1'&->&H1); [|done|apply HD; by inversion Hf|done].
        eexists; split; [reflexivity|]. apply (Hgo _ _ (AStore r o v None)); [done|done|]. constructor.
      + destruct (a_alloc E st a v) as [[st1 p]|] eqn:Ha; [|done]. injection Hs as <-.
        assert (D (a_next st) = negb (keep r)) as Hd.
        { apply Hfs; [|done]. simpl. by apply alloc_threads in Ha as [_ ->]. }
        apply (aproj_alloc st st') in Ha as (st1'&->&H1&Hser); [|done|by rewrite Hd, Hk].
        eexists; split; [reflexivity|]. apply (Hgo _ _ (AIns r o None p)); [done|done|].
        unfold fok. simpl. constructor; [|constructor]. unfold side. by rewrite Hser.
    - rewrite (q_arenas _ _ H) by done. inversion Hf as [|? ? Hp Hb]; subst.
      rewrite (aproj_read st st') by (first [done|by apply HD]).
      destruct (a_read st p) as [v|]; [|done]. destruct (a_arenas st !! r) as [x|] eqn:Hx; [|done].
      rewrite (a_set_some _ _ _ Hx) in HS. pose proof (q_sets _ _ H r x Hx) as Hsx.
      cbn [fmap option_fmap option_map mar ar_set ar_ty]. rewrite (aproj_readable st st') by done.
      destruct (a_readable st (ar_set x)); [|done]. rewrite (aproj_cands st st') by done.
      destruct (a_cands st (ins_match E v) (ar_set x)) as [|p1 l]; cbn [map]; injection Hs as <-; (eexists; split; [reflexivity|]).
      + apply (Hgo _ _ (AMake r o b p)); [|done|by unfold fok; constructor].
        apply (aproj_event _ _ (AvIns t r o p v)); [|done|done].
        apply (aproj_put _ _ r (Ar (ar_ty x) (p :: ar_set x))); [done|]. by constructor.
      + apply (Hgo _ _ (AKill r o b p false)); [done|done|]. by unfold fok; constructor.
    - inversion Hf as [|? ? Hp Hb]; subst. destruct (a_free st None p) as [st1|] eqn:Hfr; [|done]. injection Hs as <-.
      apply (aproj_free st st') in Hfr as (st1'&->&H1); [|done|by apply HD|done]. eexists; split; [reflexivity|].
      destruct pn.
      + apply (Hgo _ _ (ARel r o b false APanic)); [done|done|]. unfold fok. simpl. by rewrite app_nil_r.
      + apply (Hgo _ _ (AMake r o b p)); [done|done|]. by unfold fok; constructor.
    - inversion Hf as [|? ? Hp Hb]; subst. rewrite (aproj_read st st') by (first [done|by apply HD]).
      destruct (a_read st p); [|done]. injection Hs as <-. eexists; split; [reflexivity|].
      apply (Hgo _ _ (ARel r o b false (AP p))); [done|done|]. unfold fok. simpl. apply Forall_app. split; [done|]. by repeat constructor.
    - injection Hs as <-. assert (match ren_ares ρ x with APanic => true | _ => false end = match x with APanic => true | _ => false end) as -> by (by destruct x).
      eexists; split; [reflexivity|]. apply (Hgo _ _ (AArg r o b m x)); [by apply aproj_unlock|done|done].
    - apply Forall_app in Hf as [Hb Hx].
      assert (eok (AvRet t r o b x)) as Hev. { destruct x; [|done]. simpl in *. by inversion Hx. }
      destruct (a_free_opt st (if m then b else None)) as [st1|] eqn:Hfr; [|done]. injection Hs as <-.
      assert (exists st1', a_free_opt st' (if m then mp <$> b else None) = Some st1' /\ aproj st1 st1') as (st1'&->&H1).
      { destruct m; [|injection Hfr as <-; by exists st']. destruct b as [p|]; [|injection Hfr as <-; by exists st'].
        simpl in *. apply (aproj_free st st' None p st1); [done|apply HD; by inversion Hb|done|done]. }
      eexists; split; [reflexivity|].
      apply (aproj_event _ _ (AvRet t r o b x)); [|done|done]. by apply aproj_stack.
    - destruct ps as [|p ps]; cbn [map].
      + injection Hs as <-. eexists; split; [reflexivity|]. apply (aproj_event _ _ (AvGone r)); [|done|done]. by apply aproj_stack.
      + inversion Hf as [|? ? Hp Hb]; subst. destruct (a_free st (Some r) p) as [st1|] eqn:Hfr; [|done]. injection Hs as <-.
        apply (aproj_free st st') in Hfr as (st1'&->&H1); [|done|by apply HD|done]. eexists; split; [reflexivity|].
        by apply (Hgo _ _ (ADead r ps)).
  Qed.

  Lemma aremoved_thread st st' t a i st2 f k : aproj st st' -> a_stack st t = f :: k -> keep (f_arena f) = false ->
    a_step_thread E st t a i = Next st2 -> foreseen_a st (Some (f_arena f)) st2 -> aproj st2 st'.
  Proof.
    intros H Hst Hk Hs Hfs.
    pose proof (q_frames _ _ H t) as HF. rewrite Hst in HF. apply Forall_cons_1 in HF as [Hf HF]. unfold fok in Hf.
    unfold a_step_thread in *. rewrite Hst in Hs.
    assert (forall st0 f', aproj st0 st' -> a_threads st0 = a_threads st -> f_arena f' = f_arena f -> fok f' ->
      aproj (a_set_stack st0 t (f' :: k)) st') as Hgo.
    { intros st0 f' H0 Ht Hr Hf'. apply aproj_stack_l; [done|by constructor|].
      assert (a_stack st0 t = f :: k) as -> by (unfold a_stack; by rewrite Ht).
      by rewrite !astk_drop by (first [done|by rewrite Hr]). }
    assert (forall st0, aproj st0 st' -> a_threads st0 = a_threads st -> aproj (a_set_stack st0 t k) st') as Hgo'.
    { intros st0 H0 Ht. apply aproj_stack_l; [done..|].
      assert (a_stack st0 t = f :: k) as -> by (unfold a_stack; by rewrite Ht). by rewrite !astk_drop. }
    assert (forall p, side (f_arena f) p -> D (ip_ser p) = true) as HD.
    { intros p Hp. unfold side in Hp. by rewrite Hp, Hk. }
    destruct f as [r o b|r o b|r w q|r o v b|r o b p|r o b p pn|r o b p|r o b m x|r o b m x|r ps];
      cbn [f_arena fptrs] in *.
    - destruct (a_locks st !! r); [done|]. injection Hs as <-.
      apply (Hgo _ (AGet r o b)); [by apply aproj_lock_l|done|done|done].
    - destruct (a_readable st (a_set st r)); [|done].
      destruct (ipick i _) as [p|] eqn:Hp.
      + injection Hs as <-. apply (Hgo _ (ARel r o b true (AP p))); [done|done|done|].
        unfold fok. simpl. apply Forall_app. split; [done|]. constructor; [|constructor].
        eapply (pick_sub i _ p (side r)); [|exact Hp]. apply cands_sub. by eapply set_side.
      + destruct o as [v|w q|v|v].
        * injection Hs as <-. apply (Hgo _ (AStore r (ANew v) v None)); [done..|]. constructor.
        * injection Hs as <-. apply (Hgo _ (AConv r w q)); [done..|]. constructor.
        * injection Hs as <-. apply (Hgo _ (AStore r (AOwned v) v b)); [done..|]. done.
        * destruct b as [p|]; [|done]. injection Hs as <-.
          apply (Hgo _ (AIns r (ABox v) (Some p) p)); [done..|]. unfold fok. simpl in *. by constructor; [inversion Hf|].
    - done.
    - destruct b as [q|].
      + destruct (a_free st None q) as [st1|] eqn:Hfr; [|done]. injection Hs as <-. pose proof (free_threads _ _ _ _ Hfr) as [? _].
        apply (aproj_free_l st st') in Hfr; [|done|apply HD; by inversion Hf|done].
        apply (Hgo _ (AStore r o v None)); [done..|]. constructor.
      + destruct (a_alloc E st a v) as [[st1 p]|] eqn:Ha; [|done]. injection Hs as <-. pose proof (alloc_threads _ _ _ _ _ Ha) as [Ht Hn].
        assert (D (a_next st) = negb (keep r)) as Hd by (by apply Hfs).
        apply (aproj_alloc_l st st') in Ha as [H1 Hser]; [|done|by rewrite Hd, Hk].
        apply (Hgo _ (AIns r o None p)); [done..|].
        unfold fok. simpl. constructor; [|constructor]. unfold side. by rewrite Hser.
    - inversion Hf as [|? ? Hp Hb]; subst.
      destruct (a_read st p) as [v|]; [|done]. destruct (a_arenas st !! r) as [x|] eqn:Hx; [|done].
      pose proof (q_sets _ _ H r x Hx) as Hsx.
      destruct (a_readable st (ar_set x)); [|done].
      destruct (a_cands st (ins_match E v) (ar_set x)) as [|p1 l]; injection Hs as <-.
      + apply (Hgo _ (AMake r o b p)); [|done|done|by unfold fok; constructor].
        apply (aproj_event_l _ _ (AvIns t r o p v)); [|done|done].
        apply (aproj_put_l _ _ r (Ar (ar_ty x) (p :: ar_set x))); [done| |done]. by constructor.
      + apply (Hgo _ (AKill r o b p false)); [done..|]. by unfold fok; constructor.
    - inversion Hf as [|? ? Hp Hb]; subst. destruct (a_free st None p) as [st1|] eqn:Hfr; [|done]. injection Hs as <-.
      pose proof (free_threads _ _ _ _ Hfr) as [? _].
      apply (aproj_free_l st st') in Hfr; [|done|by apply HD|done].
      destruct pn.
      + apply (Hgo _ (ARel r o b false APanic)); [done..|]. unfold fok. simpl. by rewrite app_nil_r.
      + apply (Hgo _ (AMake r o b p)); [done..|]. by unfold fok; constructor.
    - inversion Hf as [|? ? Hp Hb]; subst.
      destruct (a_read st p); [|done]. injection Hs as <-.
      apply (Hgo _ (ARel r o b false (AP p))); [done..|]. unfold fok. simpl. apply Forall_app. split; [done|]. by repeat constructor.
    - injection Hs as <-. apply (Hgo _ (AArg r o b m x)); [by apply aproj_unlock_l|done|done|done].
    - apply Forall_app in Hf as [Hb Hx].
      assert (eok (AvRet t r o b x)) as Hev. { destruct x; [|done]. simpl in *. by inversion Hx. }
      destruct (a_free_opt st (if m then b else None)) as [st1|] eqn:Hfr; [|done]. injection Hs as <-.
      assert (aproj st1 st' /\ a_threads st1 = a_threads st) as [H1 Ht].
      { destruct m; [|by injection Hfr as <-]. destruct b as [p|]; [|by injection Hfr as <-].
        simpl in *. split; [|by apply free_threads in Hfr as [? _]].
        apply (aproj_free_l st st' None p st1); [done|apply HD; by inversion Hb|done|done]. }
      apply (aproj_event_l _ _ (AvRet t r o b x)); [|done|done]. by apply Hgo'.
    - destruct ps as [|p ps].
      + injection Hs as <-. apply (aproj_event_l _ _ (AvGone r)); [|done|done]. by apply Hgo'.
      + inversion Hf as [|? ? Hp Hb]; subst. destruct (a_free st (Some r) p) as [st1|] eqn:Hfr; [|done]. injection Hs as <-.
        pose proof (free_threads _ _ _ _ Hfr) as [? _].
        apply (aproj_free_l st st') in Hfr; [|done|by apply HD|done]. by apply (Hgo _ (ADead r ps)).
  Qed.

  Lemma akept_panic st st' t st2 f k : aproj st st' -> a_stack st t = f :: k -> keep (f_arena f) = true ->
    a_step_panic st t = Next st2 -> exists st2', a_step_panic st' t = Next st2' /\ aproj st2 st2'.
  Proof.
    intros H Hst Hk Hs. pose proof (q_threads _ _ H t) as Hst'. rewrite Hst, astk_keep in Hst' by done.
    pose proof (q_frames _ _ H t) as HF. rewrite Hst in HF. apply Forall_cons_1 in HF as [Hf HF]. unfold fok in Hf.
    unfold a_step_panic in *. rewrite Hst in Hs. rewrite Hst'.
    assert (forall st0 st0' f' , aproj st0 st0' -> f_arena f' = f_arena f -> fok f' ->
      aproj (a_set_stack st0 t (f' :: k)) (a_set_stack st0' t (mf f' :: astk k))) as Hgo.
    { intros st0 st0' f' H0 Hr Hf'. rewrite <- astk_keep by (by rewrite Hr). apply aproj_stack; [done|]. by constructor. }
    assert (forall p, side (f_arena f) p -> D (ip_ser p) = false) as HD.
    { intros p Hp. unfold side in Hp. by rewrite Hp, Hk. }
    destruct f as [r o b|r o b|r w q|r o v b|r o b p|r o b p pn|r o b p|r o b m x|r o b m x|r ps]; cbn [ren_aframe];
      cbn [f_arena fptrs] in *; try done.
    - injection Hs as <-. eexists; split; [reflexivity|]. apply (Hgo _ _ (ARel r o b true APanic)); [done|done|].
      unfold fok. simpl. by rewrite app_nil_r.
    - injection Hs as <-. eexists; split; [reflexivity|]. apply (Hgo _ _ (ARel r (ARef w q) None false APanic)); [done|done|]. constructor.
    - injection Hs as <-. eexists; split; [reflexivity|]. by apply (Hgo _ _ (AKill r o b p true)).
    - destruct pn; [done|]. injection Hs as <-. eexists; split; [reflexivity|]. by apply (Hgo _ _ (AKill r o b p true)).
    - destruct x as [q|]; [|done]. cbn [ren_ares]. destruct (a_drops o m); [|done]. injection Hs as <-. eexists; split; [reflexivity|].
      apply (Hgo _ _ (AArg r o b m APanic)); [done|done|]. unfold fok. simpl. rewrite app_nil_r. by apply Forall_app in Hf as [? _].
    - destruct ps as [|p ps]; [done|]. cbn [map]. inversion Hf as [|? ? Hp Hb]; subst.
      destruct (a_free st (Some r) p) as [st1|] eqn:Hfr; [|done]. injection Hs as <-.
      apply (aproj_free st st') in Hfr as (st1'&->&H1); [|done|by apply HD|done]. eexists; split; [reflexivity|].
      apply (aproj_event _ _ (AvLeak r ps)); [|done|done]. by apply aproj_stack.
  Qed.
  Lemma aremoved_panic st st' t st2 f k : aproj st st' -> a_stack st t = f :: k -> keep (f_arena f) = false ->
    a_step_panic st t = Next st2 -> aproj st2 st'.
  Proof.
    intros H Hst Hk Hs.
    pose proof (q_frames _ _ H t) as HF. rewrite Hst in HF. apply Forall_cons_1 in HF as [Hf HF]. unfold fok in Hf.
    unfold a_step_panic in *. rewrite Hst in Hs.
    assert (forall st0 f', aproj st0 st' -> a_threads st0 = a_threads st -> f_arena f' = f_arena f -> fok f' ->
      aproj (a_set_stack st0 t (f' :: k)) st') as Hgo.
    { intros st0 f' H0 Ht Hr Hf'. apply aproj_stack_l; [done|by constructor|].
      assert (a_stack st0 t = f :: k) as -> by (unfold a_stack; by rewrite Ht).
      by rewrite !astk_drop by (first [done|by rewrite Hr]). }
    assert (forall p, side (f_arena f) p -> D (ip_ser p) = true) as HD.
    { intros p Hp. unfold side in Hp. by rewrite Hp, Hk. }
    destruct f as [r o b|r o b|r w q|r o v b|r o b p|r o b p pn|r o b p|r o b m x|r o b m x|r ps];
      cbn [f_arena fptrs] in *; try done.
    - injection Hs as <-. apply (Hgo _ (ARel r o b true APanic)); [done..|]. unfold fok. simpl. by rewrite app_nil_r.
    - injection Hs as <-. apply (Hgo _ (ARel r (ARef w q) None false APanic)); [done..|]. constructor.
    - injection Hs as <-. by apply (Hgo _ (AKill r o b p true)).
    - destruct pn; [done|]. injection Hs as <-. by apply (Hgo _ (AKill r o b p true)).
    - destruct x as [q|]; [|done]. destruct (a_drops o m); [|done]. injection Hs as <-.
      apply (Hgo _ (AArg r o b m APanic)); [done..|]. unfold fok. simpl. rewrite app_nil_r. by apply Forall_app in Hf as [? _].
    - destruct ps as [|p ps]; [done|]. inversion Hf as [|? ? Hp Hb]; subst.
      destruct (a_free st (Some r) p) as [st1|] eqn:Hfr; [|done]. injection Hs as <-. pose proof (free_threads _ _ _ _ Hfr) as [Ht _].
      apply (aproj_free_l st st') in Hfr; [|done|by apply HD|done].
      apply (aproj_event_l _ _ (AvLeak r ps)); [|done|done]. apply aproj_stack_l; [done..|].
      assert (a_stack st1 t = ADead r (p :: ps) :: k) as -> by (unfold a_stack; by rewrite Ht). by rewrite astk_drop.
  Qed.

  (** Frames below the top are in user code. *)
  Definition abelow st : Prop := forall t f k, a_stack st t = f :: k -> Forall (λ g, a_user g = true) k.
  Lemma ready_proj st st' t : aproj st st' -> abelow st -> a_ready st t = true -> a_ready st' t = true.
  Proof.
    intros H HB Hu. unfold a_ready in *.
    assert (forall g, g ∈ a_stack st t -> a_user g = true) as Hall.
    { intros g Hg. destruct (a_stack st t) as [|f k] eqn:Hst; [by apply elem_of_nil in Hg|].
      apply elem_of_cons in Hg as [->|Hg]; [done|]. specialize (HB t f k Hst). by eapply list.Forall_forall in HB. }
    rewrite (q_threads _ _ H). destruct (astk (a_stack st t)) as [|g l] eqn:Hg; [done|].
    destruct (astk_in g (a_stack st t)) as (f&->&Hf&_); [rewrite Hg; by left|]. rewrite maf_user. by apply Hall.
  Qed.
  Lemma idle_proj st st' r : aproj st st' -> a_idle st r = true -> a_idle st' r = true.
  Proof.
    intros H. rewrite !a_idle_spec. intros Hi t f Hf. rewrite (q_threads _ _ H) in Hf.
    apply astk_in in Hf as (g&->&Hg&_). rewrite maf_arena. by eapply Hi.
  Qed.

  (** ** One step *)
  Lemma aproj_step st st' l st2 : aproj st st' -> abelow st ->
    astep E st l = Next st2 -> foreseen_a st (l_arena st l) st2 ->
    aproj st2 st' \/
    (exists st2', astep E st' (ren_alabel ρ l) = Next st2' /\ aproj st2 st2') /\ uses_only keep l.
  Proof.
    intros H HB Hs Hfs. destruct l as [t ty|t r o a|t a i|t v|t|r p|t r].
    - right. split; [|done]. simpl in *. destruct (a_ready st t) eqn:Hu; [|done]. rewrite (ready_proj _ _ _ H HB Hu).
      injection Hs as <-. eexists; split; [reflexivity|]. by apply aproj_new.
    - simpl in Hs, Hfs. destruct (a_arenas st !! r) as [x|] eqn:Hx; [|done]. destruct (a_ready st t) eqn:Hu; [|done].
      pose proof (q_frames _ _ H t) as HF. destruct (keep r) eqn:Hk.
      + right. split; [|done]. cbn [ren_alabel astep]. rewrite (q_arenas _ _ H), Hx by done. cbn [fmap option_fmap option_map].
        rewrite (ready_proj _ _ _ H HB Hu), (q_threads _ _ H). simpl.
        assert (forall st0 st0' b, aproj st0 st0' -> Forall (side r) (opt b) ->
          aproj (a_set_stack st0 t (AWait r o b :: a_stack st t)) (a_set_stack st0' t (AWait r o (mp <$> b) :: astk (a_stack st t)))) as Hgo.
        { intros st0 st0' b H0 Hb. change (AWait r o (mp <$> b)) with (mf (AWait r o b)). rewrite <- astk_keep by done.
          apply aproj_stack; [done|]. by constructor. }
        destruct o as [v|w q|v|v].
        * destruct (ie_ty E v =? ar_ty x); [|done]. injection Hs as <-. eexists; split; [reflexivity|]. apply (Hgo _ _ None); [done|constructor].
        * injection Hs as <-. eexists; split; [reflexivity|]. apply (Hgo _ _ None); [done|constructor].
        * destruct (ie_ty E v =? ar_ty x); [|done]. destruct (a_alloc E st a v) as [[st1 p]|] eqn:Ha; [|done]. injection Hs as <-.
          assert (D (a_next st) = negb (keep r)) as Hd. { apply Hfs; [|done]. simpl. by apply alloc_threads in Ha as [_ ->]. }
          apply (aproj_alloc st st') in Ha as (st1'&->&H1&Hser); [|done|by rewrite Hd, Hk].
          eexists; split; [reflexivity|]. apply (Hgo _ _ (Some p)); [done|]. constructor; [|constructor]. unfold side. by rewrite Hser.
        * destruct (ie_ty E v =? ar_ty x); [|done]. destruct (a_alloc E st a v) as [[st1 p]|] eqn:Ha; [|done]. injection Hs as <-.
          assert (D (a_next st) = negb (keep r)) as Hd. { apply Hfs; [|done]. simpl. by apply alloc_threads in Ha as [_ ->]. }
          apply (aproj_alloc st st') in Ha as (st1'&->&H1&Hser); [|done|by rewrite Hd, Hk].
          eexists; split; [reflexivity|]. apply (Hgo _ _ (Some p)); [done|]. constructor; [|constructor]. unfold side. by rewrite Hser.
      + left.
        assert (forall st0 b, aproj st0 st' -> a_threads st0 = a_threads st -> Forall (side r) (opt b) ->
          aproj (a_set_stack st0 t (AWait r o b :: a_stack st t)) st') as Hgo.
        { intros st0 b H0 Ht Hb. apply aproj_stack_l; [done|by constructor|].
          assert (a_stack st0 t = a_stack st t) as -> by (unfold a_stack; by rewrite Ht). by rewrite astk_drop. }
        destruct o as [v|w q|v|v].
        * destruct (ie_ty E v =? ar_ty x); [|done]. injection Hs as <-. apply Hgo; [done|done|constructor].
        * injection Hs as <-. apply Hgo; [done|done|constructor].
        * destruct (ie_ty E v =? ar_ty x); [|done]. destruct (a_alloc E st a v) as [[st1 p]|] eqn:Ha; [|done]. injection Hs as <-.
          pose proof (alloc_threads _ _ _ _ _ Ha) as [Ht Hn]. assert (D (a_next st) = negb (keep r)) as Hd by (by apply Hfs).
          apply (aproj_alloc_l st st') in Ha as [H1 Hser]; [|done|by rewrite Hd, Hk].
          apply Hgo; [done..|]. constructor; [|constructor]. unfold side. by rewrite Hser.
        * destruct (ie_ty E v =? ar_ty x); [|done]. destruct (a_alloc E st a v) as [[st1 p]|] eqn:Ha; [|done]. injection Hs as <-.
          pose proof (alloc_threads _ _ _ _ _ Ha) as [Ht Hn]. assert (D (a_next st) = negb (keep r)) as Hd by (by apply Hfs).
          apply (aproj_alloc_l st st') in Ha as [H1 Hser]; [|done|by rewrite Hd, Hk].
          apply Hgo; [done..|]. constructor; [|constructor]. unfold side. by rewrite Hser.
    - simpl in Hs, Hfs. destruct (a_stack st t) as [|f k] eqn:Hst; [unfold a_step_thread in Hs; by rewrite Hst in Hs|].
      simpl in Hfs. destruct (keep (f_arena f)) eqn:Hk.
      + right. split; [|done]. by eapply akept_thread.
      + left. by eapply aremoved_thread.
    - simpl in Hs. destruct (a_stack st t) as [|[] k] eqn:Hst; try done.
      destruct (ie_from E w q v && _) eqn:Hc; [|done]. injection Hs as <-.
      pose proof (q_frames _ _ H t) as HF. rewrite Hst in HF. apply Forall_cons_1 in HF as [Hf HF].
      destruct (keep r) eqn:Hk.
      + right. split; [|done]. cbn [ren_alabel astep]. rewrite (q_threads _ _ H), Hst, astk_keep by done. cbn [ren_aframe].
        rewrite (q_arenas _ _ H) by done. rewrite <- option_fmap_compose.
        assert (forall x : option arena, (ar_ty ∘ mar) <$> x = ar_ty <$> x) as Hty by (by intros [[]|]).
        rewrite Hty, Hc. eexists; split; [reflexivity|].
        change (AStore r (ARef w q) v None) with (mf (AStore r (ARef w q) v None)) at 2. rewrite <- astk_keep by done.
        apply aproj_stack; [done|]. constructor; [constructor|done].
      + left. apply aproj_stack_l; [done|constructor; [constructor|done]|]. rewrite Hst. by rewrite !astk_drop by done.
    - simpl in Hs. destruct (a_stack st t) as [|f k] eqn:Hst; [unfold a_step_panic in Hs; by rewrite Hst in Hs|].
      destruct (keep (f_arena f)) eqn:Hk.
      + right. split; [|done]. by eapply akept_panic.
      + left. by eapply aremoved_panic.
    - simpl in Hs. destruct (a_returned r p (a_log st)) eqn:Hr; [|done]. destruct (a_arenas st !! r) as [x|] eqn:Hx; [|done].
      destruct (a_read st p) as [v|] eqn:Hv; [|done]. injection Hs as <-.
      unfold a_returned in Hr. apply existsb_exists in Hr as (e&He%elem_of_list_In&Hm). destruct e as [|u r' o b [q|]| | | | | |]; try done.
      apply andb_true_iff in Hm as [->%Nat.eqb_eq ->%bool_decide_eq_true]. pose proof (q_rets _ _ H _ _ _ _ _ He) as Hsd. unfold side in Hsd.
      destruct (keep r) eqn:Hk.
      + right. split; [|done]. cbn [ren_alabel astep].
        assert (a_returned r (mp p) (a_log st') = true) as ->.
        { unfold a_returned. apply existsb_exists. exists (me (AvRet u r o b (AP p))). split.
          - rewrite (q_log _ _ H). apply in_map. apply filter_In. split; [by apply elem_of_list_In|done].
          - simpl. rewrite Nat.eqb_refl. by apply bool_decide_eq_true. }
        rewrite (q_arenas _ _ H), Hx by done. rewrite (aproj_read st st'), Hv by done.
        eexists; split; [reflexivity|]. by apply (aproj_event _ _ (AvRead r p v)).
      + left. by apply (aproj_event_l _ _ (AvRead r p v)).
    - simpl in Hs. destruct (a_arenas st !! r) as [x|] eqn:Hx; [|done]. destruct (a_ready st t && a_idle st r) eqn:Hc; [|done].
      apply andb_true_iff in Hc as [Hu Hi]. injection Hs as <-. pose proof (q_frames _ _ H t) as HF. pose proof (q_sets _ _ H r x Hx) as Hsx.
      destruct (keep r) eqn:Hk.
      + right. split; [|done]. cbn [ren_alabel astep]. rewrite (q_arenas _ _ H), Hx by done. cbn [fmap option_fmap option_map].
        rewrite (ready_proj _ _ _ H HB Hu), (idle_proj _ _ _ H Hi), (q_threads _ _ H). simpl.
        eexists; split; [reflexivity|]. apply (aproj_event _ _ (AvDrop r)); [|done|done].
        change (ADead r (map mp (ar_set x)) : aframe V Q) with (mf (ADead r (ar_set x) : aframe V Q)). rewrite <- astk_keep by done.
        apply aproj_stack; [by apply aproj_del|]. by constructor.
      + left. apply (aproj_event_l _ _ (AvDrop r)); [|done|done]. apply aproj_stack_l; [by apply aproj_del_l|by constructor|].
        change (a_stack (a_put st (delete r (a_arenas st))) t) with (a_stack st t). by rewrite astk_drop.
  Qed.

  Lemma abelow_step st l st' : abelow st -> astep E st l = Next st' -> abelow st'.
  Proof.
    intros HB Hs. intros u g k' Hu.
    assert (forall st1 t kk, a_threads st' = <[t:=kk]> (a_threads st1) -> a_threads st1 = a_threads st ->
      (exists f, (kk = f :: a_stack st t /\ a_ready st t = true) \/ (exists f0 k0, a_stack st t = f0 :: k0 /\ (kk = f :: k0 \/ kk = k0))) ->
      Forall (λ g, a_user g = true) k') as Hgo.
    { intros st1 t kk Ht1 Ht2 Hkk. rewrite Ht2 in Ht1. unfold a_stack in Hu. rewrite Ht1 in Hu.
      destruct (decide (t = u)) as [<-|]; [|rewrite lookup_insert_ne in Hu by done; by eapply HB].
      rewrite lookup_insert in Hu. simpl in Hu. subst kk. destruct Hkk as (f&[[[= -> ->] Hr]|(f0&k0&Hst&[[= -> ->]|Hk0])]).
      - unfold a_ready in Hr. destruct (a_stack st t) as [|f1 k1] eqn:Hst; [constructor|]. constructor; [done|]. by eapply HB.
      - by eapply HB.
      - subst k0. specialize (HB _ _ _ Hst). by inversion HB. }
    destruct l as [t ty|t r o a|t a i|t v|t|r p|t r]; simpl in Hs.
    - destruct (a_ready st t); [|done]. injection Hs as <-. by eapply HB.
    - destruct (a_arenas st !! r) as [x|]; [|done]. destruct (a_ready st t) eqn:Hr; [|done].
      destruct o as [v|w q|v|v].
      2: injection Hs as <-; eapply Hgo; [reflexivity|done|]; eexists; left; done.
      all: destruct (ie_ty E v =? ar_ty x); [|done].
      1: injection Hs as <-; eapply Hgo; [reflexivity|done|]; eexists; left; done.
      all: destruct (a_alloc E st a v) as [[st1 p]|] eqn:Ha; [|done]; injection Hs as <-; apply alloc_threads in Ha as [Ha _];
        eapply Hgo; [reflexivity|done|]; eexists; left; done.
    - unfold a_step_thread in Hs. destruct (a_stack st t) as [|f0 k] eqn:Hst; [done|].
      assert (forall f, exists f', (f :: k = f' :: f0 :: k /\ a_ready st t = true) \/ (exists f1 k0, f0 :: k = f1 :: k0 /\ (f :: k = f' :: k0 \/ f :: k = k0))) as Hs1.
      { intros f. exists f. right. exists f0, k. split; [done|by left]. }
      assert (exists f', (k = f' :: f0 :: k /\ a_ready st t = true) \/ (exists f1 k0, f0 :: k = f1 :: k0 /\ (k = f' :: k0 \/ k = k0))) as Hs2.
      { exists f0. right. exists f0, k. split; [done|by right]. }
      rewrite <- Hst in Hs1, Hs2.
      destruct f0 as [r o b|r o b|r w q|r o v b|r o b p|r o b p pn|r o b p|r o b m x|r o b m x|r ps].
      + destruct (a_locks st !! r); [done|]. injection Hs as <-. eapply Hgo; [reflexivity|done|apply Hs1].
      + destruct (a_readable st (a_set st r)); [|done]. destruct (ipick i _) as [p|].
        * injection Hs as <-. eapply Hgo; [reflexivity|done|apply Hs1].
        * destruct o; [..|destruct b; [|done]]; injection Hs as <-; eapply Hgo; (reflexivity || done || apply Hs1).
      + done.
      + destruct b as [q|].
        * destruct (a_free st None q) as [st1|] eqn:Hfr; [|done]. injection Hs as <-. apply free_threads in Hfr as [? _].
          eapply Hgo; [reflexivity|done|apply Hs1].
        * destruct (a_alloc E st a v) as [[st1 p]|] eqn:Ha; [|done]. injection Hs as <-. apply alloc_threads in Ha as [? _].
          eapply Hgo; [reflexivity|done|apply Hs1].
      + destruct (a_read st p) as [v|]; [|done]. destruct (a_arenas st !! r) as [x|]; [|done].
        destruct (a_readable st (ar_set x)); [|done].
        destruct (a_cands st (ins_match E v) (ar_set x)); injection Hs as <-; (eapply Hgo; [reflexivity|done|apply Hs1]).
      + destruct (a_free st None p) as [st1|] eqn:Hfr; [|done]. injection Hs as <-. apply free_threads in Hfr as [? _].
        eapply Hgo; [reflexivity|done|apply Hs1].
      + destruct (a_read st p); [|done]. injection Hs as <-. eapply Hgo; [reflexivity|done|apply Hs1].
      + injection Hs as <-. eapply Hgo; [reflexivity|done|apply Hs1].
      + destruct (a_free_opt st (if m then b else None)) as [st1|] eqn:Hfr; [|done]. injection Hs as <-.
        assert (a_threads st1 = a_threads st) as Ht.
        { destruct m; [|by injection Hfr as <-]. destruct b as [p|]; [|by injection Hfr as <-]. by apply free_threads in Hfr as [? _]. }
        eapply Hgo; [reflexivity|exact Ht|apply Hs2].
      + destruct ps as [|p ps].
        * injection Hs as <-. eapply Hgo; [reflexivity|done|apply Hs2].
        * destruct (a_free st (Some r) p) as [st1|] eqn:Hfr; [|done]. injection Hs as <-. apply free_threads in Hfr as [? _].
          eapply Hgo; [reflexivity|done|apply Hs1].
    - destruct (a_stack st t) as [|f0 k] eqn:Hst; [done|]. destruct f0; try done. destruct (_ && _); [|done]. injection Hs as <-.
      eapply Hgo; [reflexivity|done|]. eexists; right. rewrite Hst. eexists _, _. split; [done|by left].
    - unfold a_step_panic in Hs. destruct (a_stack st t) as [|f0 k] eqn:Hst; [done|].
      assert (forall f, exists f', (f :: k = f' :: f0 :: k /\ a_ready st t = true) \/ (exists f1 k0, f0 :: k = f1 :: k0 /\ (f :: k = f' :: k0 \/ f :: k = k0))) as Hs1.
      { intros f. exists f. right. exists f0, k. split; [done|by left]. }
      assert (exists f', (k = f' :: f0 :: k /\ a_ready st t = true) \/ (exists f1 k0, f0 :: k = f1 :: k0 /\ (k = f' :: k0 \/ k = k0))) as Hs2.
      { exists f0. right. exists f0, k. split; [done|by right]. }
      rewrite <- Hst in Hs1, Hs2.
      destruct f0 as [r o b|r o b|r w q|r o v b|r o b p|r o b p pn|r o b p|r o b m x|r o b m x|r ps]; try done.
      1-3: injection Hs as <-; (eapply Hgo; [reflexivity|done|apply Hs1]).
      + destruct pn; [done|]. injection Hs as <-; (eapply Hgo; [reflexivity|done|apply Hs1]).
      + destruct x; [|done]. destruct (a_drops o m); [|done]. injection Hs as <-; (eapply Hgo; [reflexivity|done|apply Hs1]).
      + destruct ps as [|p ps]; [done|]. destruct (a_free st (Some r) p) as [st1|] eqn:Hfr; [|done]. injection Hs as <-.
        apply free_threads in Hfr as [? _]. eapply Hgo; [reflexivity|done|apply Hs2].
    - destruct (a_returned r p (a_log st)); [|done]. destruct (a_arenas st !! r); [|done]. destruct (a_read st p); [|done].
      injection Hs as <-. by eapply HB.
    - destruct (a_arenas st !! r) as [x|]; [|done]. destruct (a_ready st t) eqn:Hr; [|done]. destruct (a_idle st r); [|done].
      injection Hs as <-. eapply Hgo; [reflexivity|done|]. eexists; left; done.
  Qed.

  Fixpoint foresees_a st (ls : list (alabel V Q)) : Prop :=
    match ls with
    | [] => True
    | l :: ls => match astep E st l with Next st1 => foreseen_a st (l_arena st l) st1 /\ foresees_a st1 ls | _ => foresees_a st ls end
    end.
  Lemma aproj_run ls : forall st st' st2, aproj st st' -> abelow st -> foresees_a st ls ->
    run (astep E) st ls = Some st2 ->
    exists ls' st2', run (astep E) st' ls' = Some st2' /\ aproj st2 st2' /\ ls' `sublist_of` map (ren_alabel ρ) ls /\
      Forall (uses_only keep) ls'.
  Proof.
    induction ls as [|l ls IH]; intros st st' st2 H HB HF Hr.
    - simpl in Hr. injection Hr as <-. exists [], st'. split_and!; [done|done|constructor|constructor].
    - simpl in Hr, HF. unfold exec in Hr. destruct (astep E st l) as [st1| | |] eqn:Hs; [|..|done].
      + destruct HF as [Hf HF]. pose proof (abelow_step _ _ _ HB Hs) as HB1.
        destruct (aproj_step st st' l st1) as [H1|[(st1'&Hs'&H1) Hc]]; [done..| |].
        * destruct (IH st1 st' st2) as (ls'&st2'&?&?&?&?); [done..|]. exists ls', st2'. split_and!; [done|done|by constructor|done].
        * destruct (IH st1 st1' st2) as (ls'&st2'&?&?&?&Hk); [done..|].
          exists (ren_alabel ρ l :: ls'), st2'. split_and!; [|done|by constructor|].
          -- simpl. unfold exec. by rewrite Hs'.
          -- constructor; [|done]. by destruct l.
      + destruct (IH st st' st2) as (ls'&st2'&?&?&?&?); [done..|]. exists ls', st2'. split_and!; [done|done|by constructor|done].
      + destruct (IH st st' st2) as (ls'&st2'&?&?&?&?); [done..|]. exists ls', st2'. split_and!; [done|done|by constructor|done].
  Qed.
  Lemma aproj_init : aproj ainit ainit.
  Proof. constructor; try done; try (intros; constructor). intros t r o b p Hin. by apply elem_of_nil in Hin. Qed.
  (** ** Undefined behaviour *)
  Lemma free_None st st' w p : aproj st st' -> D (ip_ser p) = false -> a_free st w p = None -> a_free st' w (mp p) = None.
  Proof. intros H Hp. unfold a_free. simpl. rewrite (q_objs _ _ H) by done. by destruct (a_objs st !! ip_ser p). Qed.
  Lemma aproj_ub st st' l r : aproj st st' -> astep E st l = UB -> l_arena st l = Some r -> keep r = true ->
    astep E st' (ren_alabel ρ l) = UB /\ uses_only keep l.
  Proof.
    intros H Hs Hl Hk. destruct l as [t ty|t r0 o a|t a i|t v|t|r0 p|t r0].
    - simpl in Hs. by destruct (a_ready st t).
    - simpl in Hs. destruct (a_arenas st !! r0) as [x|]; [|done]. destruct (a_ready st t); [|done].
      destruct o; try done; destruct (_ =? _); try done; by destruct (a_alloc _ _ _ _) as [[]|].
    - split; [|done]. simpl in Hl. destruct (a_stack st t) as [|f k] eqn:Hst; [done|]. simpl in Hl. injection Hl as <-.
      pose proof (q_threads _ _ H t) as Hst'. rewrite Hst, astk_keep in Hst' by done.
      pose proof (q_frames _ _ H t) as HF. rewrite Hst in HF. apply Forall_cons_1 in HF as [Hf HF]. unfold fok in Hf.
      simpl in *. unfold a_step_thread in *. rewrite Hst in Hs. rewrite Hst'.
      assert (forall p, side (f_arena f) p -> D (ip_ser p) = false) as HD.
      { intros p Hp. unfold side in Hp. by rewrite Hp, Hk. }
      pose proof (side_D _ _ Hk (set_side st st' (f_arena f) H)) as HS.
      destruct f as [r o b|r o b|r w q|r o v b|r o b p|r o b p pn|r o b p|r o b m x|r o b m x|r ps]; cbn [ren_aframe];
        cbn [f_arena fptrs] in *.
      + by destruct (a_locks st !! r).
      + rewrite (aproj_set st st') by done. rewrite (aproj_readable st st') by done.
        destruct (a_readable st (a_set st r)); [|done]. destruct (ipick i _); [done|]. destruct o; try done. by destruct b.
      + done.
      + destruct b as [q|]; cbn [fmap option_fmap option_map].
        * destruct (a_free st None q) eqn:Hfr; [done|]. rewrite (free_None st st'); [done|done|apply HD; by inversion Hf|done].
        * by destruct (a_alloc E st a v) as [[]|].
      + rewrite (q_arenas _ _ H) by done. inversion Hf as [|? ? Hp Hb]; subst.
        rewrite (aproj_read st st') by (first [done|by apply HD]).
        destruct (a_read st p) as [v|]; [|done]. destruct (a_arenas st !! r) as [x|] eqn:Hx; [|done].
        rewrite (a_set_some _ _ _ Hx) in HS. cbn [fmap option_fmap option_map mar ar_set ar_ty]. rewrite (aproj_readable st st') by done.
        destruct (a_readable st (ar_set x)); [|done]. by destruct (a_cands st (ins_match E v) (ar_set x)).
      + inversion Hf as [|? ? Hp Hb]; subst. destruct (a_free st None p) eqn:Hfr; [done|].
        rewrite (free_None st st'); [done|done|by apply HD|done].
      + inversion Hf as [|? ? Hp Hb]; subst. rewrite (aproj_read st st') by (first [done|by apply HD]). by destruct (a_read st p).
      + done.
      + apply Forall_app in Hf as [Hb Hx]. destruct m; [|done]. destruct b as [p|]; [|done]. simpl in *.
        destruct (a_free st None p) eqn:Hfr; [done|]. rewrite (free_None st st'); [done|done|apply HD; by inversion Hb|done].
      + destruct ps as [|p ps]; [done|]. cbn [map]. inversion Hf as [|? ? Hp Hb]; subst. destruct (a_free st (Some r) p) eqn:Hfr; [done|].
        rewrite (free_None st st'); [done|done|by apply HD|done].
    - simpl in Hs. destruct (a_stack st t) as [|[] k]; try done. by destruct (_ && _).
    - split; [|done]. simpl in Hl. destruct (a_stack st t) as [|f k] eqn:Hst; [done|]. simpl in Hl. injection Hl as <-.
      pose proof (q_threads _ _ H t) as Hst'. rewrite Hst, astk_keep in Hst' by done.
      pose proof (q_frames _ _ H t) as HF. rewrite Hst in HF. apply Forall_cons_1 in HF as [Hf HF]. unfold fok in Hf.
      simpl in *. unfold a_step_panic in *. rewrite Hst in Hs. rewrite Hst'.
      destruct f as [r o b|r o b|r w q|r o v b|r o b p|r o b p pn|r o b p|r o b m x|r o b m x|r ps]; cbn [ren_aframe];
        cbn [f_arena fptrs] in *; try done.
      + by destruct pn.
      + destruct x; [|done]. by destruct (a_drops o m).
      + destruct ps as [|p ps]; [done|]. cbn [map]. inversion Hf as [|? ? Hp Hb]; subst. destruct (a_free st (Some r) p) eqn:Hfr; [done|].
        rewrite (free_None st st'); [done|done| |done]. unfold side in Hp. by rewrite Hp, Hk.
    - simpl in Hl. injection Hl as ->. split; [|done]. simpl in Hs. destruct (a_returned r p (a_log st)) eqn:Hr; [|done].
      destruct (a_arenas st !! r) as [x|] eqn:Hx; [|done]. destruct (a_read st p) as [v|] eqn:Hv; [done|].
      unfold a_returned in Hr. apply existsb_exists in Hr as (e&He%elem_of_list_In&Hm). destruct e as [|u r' o b [q|]| | | | | |]; try done.
      apply andb_true_iff in Hm as [->%Nat.eqb_eq ->%bool_decide_eq_true]. pose proof (q_rets _ _ H _ _ _ _ _ He) as Hsd. unfold side in Hsd.
      cbn [ren_alabel astep].
      assert (a_returned r (mp p) (a_log st') = true) as ->.
      { unfold a_returned. apply existsb_exists. exists (me (AvRet u r o b (AP p))). split.
        - rewrite (q_log _ _ H). apply in_map. apply filter_In. split; [by apply elem_of_list_In|done].
        - simpl. rewrite Nat.eqb_refl. by apply bool_decide_eq_true. }
      rewrite (q_arenas _ _ H), Hx by done. rewrite (aproj_read st st'), Hv; [done|done|by rewrite Hsd, Hk].
    - simpl in Hs. destruct (a_arenas st !! r0) as [x|]; [|done]. by destruct (_ && _).
  Qed.
End isol.

Section prophecy.
  Context {V Q : Type} (E : ienv V Q) (keep : nat -> bool).
  Implicit Types (st : astate V Q).
  Lemma anext_mono st l st' : astep E st l = Next st' -> a_next st' = a_next st \/ a_next st' = S (a_next st).
  Proof.
    intros Hs. destruct l as [t ty|t r o a|t a i|t v|t|r p|t r]; simpl in Hs.
    - destruct (a_ready st t); [|done]. injection Hs as <-. by left.
    - destruct (a_arenas st !! r) as [x|]; [|done]. destruct (a_ready st t); [|done].
      destruct o as [v|w q|v|v]; [destruct (_ =? _); [|done]; injection Hs as <-; by left|injection Hs as <-; by left|..].
      all: destruct (_ =? _); [|done]; destruct (a_alloc E st a v) as [[st1 p]|] eqn:Ha; [|done]; injection Hs as <-;
        apply alloc_threads in Ha as [_ Ha]; by right.
    - unfold a_step_thread in Hs. destruct (a_stack st t) as [|f0 k] eqn:Hst; [done|].
      destruct f0 as [r o b|r o b|r w q|r o v b|r o b p|r o b p pn|r o b p|r o b m x|r o b m x|r ps].
      + destruct (a_locks st !! r); [done|]. injection Hs as <-. by left.
      + destruct (a_readable st (a_set st r)); [|done]. destruct (ipick i _) as [p|]; [injection Hs as <-; by left|].
        destruct o; [..|destruct b; [|done]]; injection Hs as <-; by left.
      + done.
      + destruct b as [q|].
        * destruct (a_free st None q) as [st1|] eqn:Hfr; [|done]. injection Hs as <-. apply free_threads in Hfr as [_ ?]. by left.
        * destruct (a_alloc E st a v) as [[st1 p]|] eqn:Ha; [|done]. injection Hs as <-. apply alloc_threads in Ha as [_ ?]. by right.
      + destruct (a_read st p) as [v|]; [|done]. destruct (a_arenas st !! r) as [x|]; [|done].
        destruct (a_readable st (ar_set x)); [|done]. destruct (a_cands st (ins_match E v) (ar_set x)); injection Hs as <-; by left.
      + destruct (a_free st None p) as [st1|] eqn:Hfr; [|done]. injection Hs as <-. apply free_threads in Hfr as [_ ?]. by left.
      + destruct (a_read st p); [|done]. injection Hs as <-. by left.
      + injection Hs as <-. by left.
      + destruct (a_free_opt st (if m then b else None)) as [st1|] eqn:Hfr; [|done]. injection Hs as <-. left.
        destruct m; [|by injection Hfr as <-]. destruct b as [p|]; [|by injection Hfr as <-]. by apply free_threads in Hfr as [_ ?].
      + destruct ps as [|p ps]; [injection Hs as <-; by left|].
        destruct (a_free st (Some r) p) as [st1|] eqn:Hfr; [|done]. injection Hs as <-. apply free_threads in Hfr as [_ ?]. by left.
    - destruct (a_stack st t) as [|[] k]; try done. destruct (_ && _); [|done]. injection Hs as <-. by left.
    - unfold a_step_panic in Hs. destruct (a_stack st t) as [|f0 k]; [done|].
      destruct f0 as [r o b|r o b|r w q|r o v b|r o b p|r o b p pn|r o b p|r o b m x|r o b m x|r ps]; try done.
      1-3: injection Hs as <-; by left.
      + destruct pn; [done|]. injection Hs as <-. by left.
      + destruct x; [|done]. destruct (a_drops o m); [|done]. injection Hs as <-. by left.
      + destruct ps as [|p ps]; [done|]. destruct (a_free st (Some r) p) as [st1|] eqn:Hfr; [|done]. injection Hs as <-.
        apply free_threads in Hfr as [_ ?]. by left.
    - destruct (a_returned r p (a_log st)); [|done]. destruct (a_arenas st !! r); [|done]. destruct (a_read st p); [|done].
      injection Hs as <-. by left.
    - destruct (a_arenas st !! r) as [x|]; [|done]. destruct (_ && _); [|done]. injection Hs as <-. by left.
  Qed.
  Lemma foresees_a_ext D D' ls : forall st, (forall n, a_next st <= n -> D n = D' n) -> foresees_a E keep D st ls -> foresees_a E keep D' st ls.
  Proof.
    induction ls as [|l ls IH]; intros st Hd; simpl; [done|].
    destruct (astep E st l) as [st1| | |] eqn:Hs; [|by apply IH..]. intros [Hf HF]. split.
    - intros Hn r Hr. rewrite <- (Hd (a_next st)) by lia. by apply Hf.
    - apply (IH st1); [|done]. intros n Hn. apply Hd. apply anext_mono in Hs as [Hs|Hs]; lia.
  Qed.
  Lemma foresees_a_exists ls : forall st, exists D, foresees_a E keep D st ls.
  Proof.
    induction ls as [|l ls IH]; intros st; simpl; [by exists (λ _, false)|].
    destruct (astep E st l) as [st1| | |] eqn:Hs; [|by apply IH..].
    destruct (IH st1) as [D1 H1]. destruct (anext_mono _ _ _ Hs) as [Hn|Hn].
    - exists D1. split; [|done]. intros Hn'. lia.
    - exists (λ n, if n =? a_next st then match l_arena st l with Some r => negb (keep r) | None => false end else D1 n). split.
      + intros _ r ->. by rewrite Nat.eqb_refl.
      + eapply foresees_a_ext; [|exact H1]. intros n Hle. destruct (Nat.eqb_spec n (a_next st)) as [->|]; [lia|done].
  Qed.
End prophecy.

Theorem arenas_isolated {V Q : Type} (E : ienv V Q) keep ls st :
  run (astep E) ainit ls = Some st ->
  exists (ρ : nat -> nat) (ours : nat -> bool) ls' st',
    run (astep E) ainit ls' = Some st' /\
    ls' `sublist_of` map (ren_alabel ρ) ls /\ Forall (uses_only keep) ls' /\
    a_log st' = map (ren_aevent ρ) (List.filter (aev_kept keep ours) (a_log st)) /\
    (forall t, a_stack st' t = map (ren_aframe ρ) (about f_arena keep (a_stack st t))) /\
    (forall r, keep r = true -> a_locks st' !! r = a_locks st !! r /\
      a_arenas st' !! r = (λ x, Ar (ar_ty x) (map (ren_ptr ρ) (ar_set x))) <$> a_arenas st !! r) /\
    (forall r x p, a_arenas st !! r = Some x -> p ∈ ar_set x -> ours (ip_ser p) = keep r) /\
    (forall n, ours n = true -> a_objs st' !! ρ n = a_objs st !! n) /\
    (forall m x, a_objs st' !! m = Some x -> exists n, m = ρ n /\ ours n = true) /\
    (forall n m, ours n = true -> ours m = true -> ρ n = ρ m -> n = m).
Proof.
  intros Hr. destruct (foresees_a_exists E keep ls ainit) as [D HD].
  destruct (aproj_run E keep D ls ainit ainit st) as (ls'&st'&Hr'&H&Hsub&Hc); [apply aproj_init|done|done|done|].
  exists (rank D), (λ n, negb (D n)), ls', st'. split_and!; try done.
  - apply (q_log _ _ _ _ H).
  - apply (q_threads _ _ _ _ H).
  - intros r Hk. split; [by apply (q_locks _ _ _ _ H)|by apply (q_arenas _ _ _ _ H)].
  - intros r x p Hx Hp. pose proof (q_sets _ _ _ _ H r x Hx) as Hs. eapply list.Forall_forall in Hs; [|exact Hp].
    unfold side in Hs. rewrite Hs. apply negb_involutive.
  - intros n Hn%negb_true_iff. by apply (q_objs _ _ _ _ H).
  - intros m x Hx. destruct (q_dom _ _ _ _ H m x Hx) as (n&Hn&->). exists n. by rewrite Hn.
  - intros n m Hn%negb_true_iff Hm%negb_true_iff. by apply rank_inj.
Qed.

(** Undefined behaviour is the doing of one arena. *)
Lemma run_None {V Q : Type} (E : ienv V Q) ls : forall st, run (astep E) st ls = None ->
  exists ls1 l ls2 st1, ls = ls1 ++ l :: ls2 /\ run (astep E) st ls1 = Some st1 /\ astep E st1 l = UB.
Proof.
  induction ls as [|l ls IH]; intros st; simpl; [done|]. unfold exec.
  destruct (astep E st l) as [st1| | |] eqn:Hs.
  - intros (ls1&l'&ls2&st2&->&Hr&?)%IH. exists (l :: ls1), l', ls2, st2. split_and!; [done| |done]. simpl. unfold exec. by rewrite Hs.
  - intros (ls1&l'&ls2&st2&->&Hr&?)%IH. exists (l :: ls1), l', ls2, st2. split_and!; [done| |done]. simpl. unfold exec. by rewrite Hs.
  - intros (ls1&l'&ls2&st2&->&Hr&?)%IH. exists (l :: ls1), l', ls2, st2. split_and!; [done| |done]. simpl. unfold exec. by rewrite Hs.
  - intros _. exists [], l, ls, st. done.
Qed.
Theorem ub_of_one_arena {V Q : Type} (E : ienv V Q) ls :
  run (astep E) ainit ls = None ->
  exists r (ρ : nat -> nat) ls', run (astep E) ainit ls' = None /\
    ls' `sublist_of` map (ren_alabel ρ) ls /\ Forall (uses_only (λ u, u =? r)) ls'.
Proof.
  intros (ls1&l&ls2&st&->&Hr&Hu)%run_None.
  assert (exists r, l_arena st l = Some r) as [r Hl].
  { destruct l as [t ty|t r o a|t a i|t v|t|r p|t r]; simpl in *; eauto.
    - unfold a_step_thread in Hu. destruct (a_stack st t); simpl; [done|eauto].
    - destruct (a_stack st t); simpl; [done|eauto].
    - unfold a_step_panic in Hu. destruct (a_stack st t); simpl; [done|eauto]. }
  destruct (foresees_a_exists E (λ u, u =? r) ls1 ainit) as [D HD].
  destruct (aproj_run E (λ u, u =? r) D ls1 ainit ainit st) as (ls'&st'&Hr'&H&Hsub&Hc); [apply aproj_init|done|done|done|].
  destruct (aproj_ub E (λ u, u =? r) D st st' l r H Hu Hl (Nat.eqb_refl r)) as [Hu' Hc'].
  exists r, (rank D), (ls' ++ [ren_alabel (rank D) l]). split_and!.
  - rewrite run_app, Hr'. simpl. unfold exec. by rewrite Hu'.
  - rewrite map_app. simpl. apply sublist_app; [done|]. apply sublist_skip, sublist_nil_l.
  - apply Forall_app. split; [done|]. constructor; [|constructor]. by destruct l.
Qed.

(** The steps of [Intern] and [NewIntern] follow the automaton of [InternAliasSafe]. *)
From stdpp Require Import gmap list numbers.
From Verif Require Import Base InternModel InternSpec InternInv InternStep NewModel NewSim NewStep.
From Verif Require Import AliasModel ArcAliasModel InternAliasModel InternAliasSafe.

Section frame.
  Context {V Q : Type} (E : ienv V Q).
  Implicit Types (p : iptr) (ps : list iptr) (S : gmap nat bool) (o : iop V Q) (b : option iptr).

  Definition trues S ps : Prop := forall p, p ∈ ps -> S !! ip_ser p = Some true.
  Definition boxed S o b : Prop := match b with Some p => S !! ip_ser p = Some false /\ exists v, o = OBox v | None => True end.

  Lemma look_ok S j w p : S !! ip_ser p = Some true -> a_applys (j_look j w p) S = Some S.
  Proof. intros Hp. unfold j_look. cbn [a_applys]. rewrite !a_true by done. done. Qed.
  Lemma looks_ok S j w ps : trues S ps -> a_applys (j_looks j w ps) S = Some S.
  Proof.
    induction ps as [|p ps IH]; intros Hps; [done|]. unfold j_looks. rewrite bind_cons, a_applys_app, look_ok.
    - apply IH. intros q Hq. apply Hps. by right.
    - apply Hps. by left.
  Qed.
  Lemma box_ok_ops S o w b : boxed S o b -> a_applys (j_box w b) S = Some S.
  Proof.
    destruct b as [p|]; [|done]. intros [Hp _]. unfold j_box. cbn [a_applys]. rewrite a_false by done.
    destruct w; [|done]. cbn [a_applys]. by rewrite a_false.
  Qed.
  Lemma kill_ok S o b : boxed S o b -> a_applys (j_kill b) S = Some (match b with Some p => delete (ip_ser p) S | None => S end).
  Proof. destruct b as [p|]; [|done]. intros [Hp _]. unfold j_kill, a_applys, a_apply, j_at. cbn [fst snd]. by rewrite Hp. Qed.
  Lemma get_ok S mem ps i j w o b : boxed S o b -> trues S ps ->
    a_applys (f_ops E mem ps i j w (FGet o b)) S =
      Some (match ipick i (candidates mem (key_match E o) ps), b with None, Some p => <[ip_ser p:=true]> S | _, _ => S end).
  Proof.
    intros Hb Hps. cbn [f_ops]. rewrite a_applys_app, (box_ok_ops _ _ _ _ Hb), a_applys_app, looks_ok by done.
    destruct (ipick _ _) as [p|] eqn:Hpk.
    - apply ipick_in, cand_in in Hpk as [Hp _]. apply Hps in Hp. destruct o; try done; cbn [a_applys]; by rewrite a_true.
    - destruct b as [p|]; [|by destruct o]. destruct Hb as [Hp [v ->]]. unfold a_applys, a_apply, j_at. cbn [fst snd]. by rewrite Hp.
  Qed.
  Lemma store_ok S mem ps i j w o v : a_applys (f_ops E mem ps i j w (FStore o v)) S = Some (<[i_next mem:=true]> S).
  Proof. unfold f_ops, a_applys, a_apply. cbn [fst snd]. rewrite lookup_insert. cbn [j_next]. by rewrite insert_insert. Qed.
  Lemma ins_ok S mem ps i j w o p : S !! ip_ser p = Some true -> trues S ps ->
    a_applys (f_ops E mem ps i j w (FIns o p)) S = Some S.
  Proof.
    intros Hp Hps. cbn [f_ops]. cbn [a_applys]. rewrite a_true by done. rewrite a_applys_app, look_ok, a_applys_app, looks_ok by done.
    destruct o; try done. cbn [a_applys]. by rewrite a_true.
  Qed.
  Lemma panic_get_ok S ps j w o b : boxed S o b -> trues S ps -> a_applys (f_panic ps j w (FGet o b)) S = Some S.
  Proof. intros Hb Hps. cbn [f_panic]. by rewrite a_applys_app, (box_ok_ops _ _ _ _ Hb), looks_ok. Qed.
  Lemma panic_ins_ok S ps j w o p : S !! ip_ser p = Some true -> trues S ps -> a_applys (f_panic ps j w (FIns o p)) S = Some S.
  Proof. intros Hp Hps. cbn [f_panic a_applys]. rewrite a_true by done. by rewrite a_applys_app, look_ok, looks_ok. Qed.

  (** ** From the invariant *)
  Definition lk_of (st : istate V Q) : gmap nat bool := io_leaked <$> i_objs st.
  Lemma points_lk st ty p v l : points E st ty p v l -> lk_of st !! ip_ser p = Some l.
  Proof. intros (Hx&_). unfold lk_of. by rewrite lookup_fmap, Hx. Qed.
  Lemma boxed_of st o b : InternInv.box_ok E st o b -> boxed (lk_of st) o b.
  Proof.
    destruct b as [p|]; [|done]. unfold InternInv.box_ok. destruct o; try done. intros (p'&[= <-]&Hp). split; [|by eexists].
    by eapply points_lk.
  Qed.
  Lemma trues_of st ty : IInv E st -> trues (lk_of st) (set_of E st ty).
  Proof. intros HI p Hp. destruct (set_points E st ty p HI Hp) as (v&?&_). by eapply points_lk. Qed.
  Lemma ret_of st p : IInv E st -> returned p (i_log st) = true -> lk_of st !! ip_ser p = Some true.
  Proof. intros HI (t&o&Hin)%returned_in. apply (v_log _ _ HI) in Hin as [v Hp]. by eapply points_lk. Qed.
  Lemma alloc_lk st a v l st1 p : ialloc E st a v l = Some (st1, p) -> lk_of st1 = <[i_next st:=l]> (lk_of st).
  Proof. unfold ialloc. destruct (_ || _); [|done]. intros [= <- _]. unfold lk_of. simpl. by rewrite fmap_insert. Qed.
  Lemma free_lk st p st1 : ifree st p = Some st1 -> lk_of st1 = delete (ip_ser p) (lk_of st).
  Proof.
    unfold ifree. destruct (i_objs st !! _) as [x|]; [|done]. destruct (io_leaked x); [done|]. intros [= <-].
    unfold lk_of. simpl. by rewrite fmap_delete.
  Qed.
  Lemma leak_lk st p st1 : ileak st p = Some st1 -> lk_of st1 = <[ip_ser p:=true]> (lk_of st).
  Proof.
    unfold ileak. destruct (i_objs st !! _) as [x|]; [|done]. destruct (io_leaked x); [done|]. intros [= <-].
    unfold lk_of. simpl. by rewrite fmap_insert.
  Qed.

  Lemma iops_ok st l st' j w : IInv E st -> istep E st l = Next st' -> a_applys (i_ops E st l j w) (lk_of st) = Some (lk_of st').
  Proof.
    intros HI. destruct l as [t o a|t a i|t v|t|p]; cbn [istep i_ops].
    - destruct (match get_stack st t with [] => true | f :: _ => in_user f end); [|done].
      destruct o; try (by intros [= <-]). destruct (ialloc _ _ _ _ _) as [[st1 p]|] eqn:Ha; [|done]. intros [= <-].
      cbn [a_applys]. unfold a_apply. cbn [fst snd]. rewrite <- (alloc_lk _ _ _ _ _ _ Ha). done.
    - unfold istep_thread. destruct (get_stack st t) as [|f k] eqn:Hk; [done|].
      assert (frame_ok E st f) as Hf by (apply (v_frames _ _ HI t); rewrite Hk; by left).
      pose proof (λ ty, trues_of st ty HI) as HT.
      destruct f as [o b|o b|ty q0 q|o v|o p|o b r|o r]; cbn [frame_ok] in Hf.
      + destruct (i_locks st !! _); [done|]. destruct o; by intros [= <-].
      + destruct (ireadable _ _); [|done]. destruct Hf as [Hb _].
        rewrite get_ok by (by apply boxed_of || by apply HT). unfold f_ty.
        destruct (ipick _ _) as [p|] eqn:Hp.
        * intros Hs. f_equal. destruct o; simplify_eq/=; done.
        * destruct o; try (rewrite Hb; by intros [= <-]); try done. destruct b as [p|]; [|done].
          destruct (ileak _ _) as [st1|] eqn:Hl; [|done]. intros [= <-]. f_equal. rewrite <- (leak_lk _ _ _ Hl). done.
      + done.
      + destruct (ialloc _ _ _ _ _) as [[st1 p]|] eqn:Ha; [|done]. intros [= <-]. rewrite store_ok, <- (alloc_lk _ _ _ _ _ _ Ha). done.
      + destruct Hf as (v&Hp&_). rewrite ins_ok by (by eapply points_lk || by apply HT).
        destruct (iread _ _); [|done]. destruct (ireadable _ _); [|done]. destruct (candidates _ _ _); by intros [= <-].
      + destruct Hf as [Hb _]. cbn [f_ops]. rewrite (kill_ok _ o) by (by apply boxed_of). destruct b as [p|]; [|by intros [= <-]].
        destruct (ifree _ _) as [st1|] eqn:Hl; [|done]. intros [= <-]. rewrite <- (free_lk _ _ _ Hl). done.
      + by intros [= <-].
    - destruct (get_stack st t) as [|[] k]; try done. destruct (_ && _); [|done]. by intros [= <-].
    - unfold istep_panic. destruct (get_stack st t) as [|f k] eqn:Hk; [done|].
      assert (frame_ok E st f) as Hf by (apply (v_frames _ _ HI t); rewrite Hk; by left).
      pose proof (λ ty, trues_of st ty HI) as HT.
      destruct f as [o b|o b|ty q0 q|o v|o p|o b r|o r]; cbn [frame_ok] in Hf; try done.
      + intros [= <-]. destruct Hf as [Hb _]. by rewrite panic_get_ok by (by apply boxed_of || by apply HT).
      + by intros [= <-].
      + intros [= <-]. destruct Hf as (v&Hp&_). by rewrite panic_ins_ok by (by eapply points_lk || by apply HT).
      + destruct r; try done; by intros [= <-].
    - destruct (returned _ _) eqn:Hr; [|done]. destruct (iread _ _); [|done]. intros [= <-]. cbn [a_applys].
      rewrite a_true; [done|by apply ret_of|done].
  Qed.
  Lemma intern_spec : hspec (intern_host E) (IInv E) lk_of.
  Proof.
    constructor; cbn.
    - split; [apply iinv_init|]. unfold lk_of. simpl. by rewrite fmap_empty.
    - apply istep_inv.
    - apply istep_safe.
    - intros. by apply iops_ok.
    - intros. by apply ret_of.
  Qed.
End frame.

Section new.
  Context {V Q : Type} (E : ienv V Q).
  Implicit Types (p : iptr) (s : nstate V Q).
  Definition nlk s : gmap nat bool := lk_of (nmem s).
  Lemma nlk_of s st : R E s st -> lk_of st = nlk s.
  Proof. intros HR. unfold nlk, lk_of. simpl. by rewrite (r_objs _ _ _ (r_base _ _ _ HR)). Qed.
  Lemma nframe_of s st t f k : IInv (E1 E) st -> R E s st -> nstack s t = f :: k -> frame_ok (E1 E) st (erase f) /\ fr_ok E s f.
  Proof.
    intros HI HR Hk. split; [|apply (r_frames _ _ _ HR t); rewrite Hk; by left].
    apply (v_frames _ _ HI t). rewrite (R_stack _ _ _ _ HR), Hk. csimpl. by left.
  Qed.
  Lemma ntrues_of s st i g : IInv (E1 E) st -> R E s st -> fr_ok E s (NIn i g) ->
    trues (nlk s) (nset s (slot E (f_ty E g), i)).
  Proof.
    intros HI HR [Hi _]. rewrite <- (nlk_of _ _ HR). pose proof (r_sets _ _ _ (r_base _ _ _ HR) (f_ty E g)) as Hs.
    change (first E s (f_ty E g) = Some i) in Hi. rewrite Hi in Hs. rewrite <- Hs. by apply trues_of.
  Qed.
  Lemma nret_of s p : NInv E s -> returned p (n_log s) = true -> nlk s !! ip_ser p = Some true.
  Proof.
    intros (st&HI&_&HR). rewrite <- (nlk_of _ _ HR), <- (r_log _ _ _ (r_base _ _ _ HR)). by apply (ret_of (E1 E)).
  Qed.
  Lemma nops_ok s l s' j w : NInv E s -> nstep E s l = Next s' -> a_applys (n_ops E s l j w) (nlk s) = Some (nlk s').
  Proof.
    intros HN. pose proof HN as (st&HI&_&HR). destruct l as [t o a|t a i|t v|t|p]; cbn [nstep n_ops].
    - destruct (match nstack s t with [] => true | f :: _ => nin_user f end); [|done].
      destruct o; try (by intros [= <-]). destruct (ialloc _ _ _ _ _) as [[m p]|] eqn:Ha; [|done]. intros [= <-].
      cbn [a_applys]. unfold a_apply. cbn [fst snd]. f_equal. symmetry. apply (alloc_lk _ _ _ _ _ _ _ Ha).
    - unfold nstep_thread. destruct (nstack s t) as [|f k] eqn:Hk; [done|].
      destruct (nframe_of _ _ _ _ _ HI HR Hk) as [Hf Hfr].
      destruct f as [o b again|o b|o b c|o b c|o b|c g].
      + destruct (find_ty _ _); [destruct (_ || _)|destruct again]; try done; by intros [= <-].
      + by intros [= <-].
      + destruct (_ =? _); [|done]. by intros [= <-].
      + destruct (n_locks s !! _); [done|]. destruct (bool_decide _); [destruct (existsb _ _); [done|by intros [= <-]]|].
        destruct o; by intros [= <-].
      + cbn [erase frame_ok] in Hf. apply boxed_of in Hf. rewrite (nlk_of _ _ HR) in Hf. rewrite (kill_ok _ _ _ Hf).
        destruct b as [p|]; [|by intros [= <-]]. destruct (ifree _ _) as [m|] eqn:Hl; [|done]. intros [= <-].
        f_equal. symmetry. apply (free_lk _ _ _ Hl).
      + pose proof (ntrues_of _ _ _ _ HI HR Hfr) as HT.
        destruct g as [o b|o b|ty q0 q|o v|o p|o b r|o r]; cbn [erase frame_ok] in Hf; try done.
        * destruct (ireadable _ _); [|done]. destruct Hf as [Hb Ho]. pose proof (boxed_of _ _ _ _ Hb) as Hb'.
          rewrite (nlk_of _ _ HR) in Hb'. rewrite get_ok by done. unfold f_ty.
          destruct (ipick _ _) as [p|] eqn:Hp.
          -- intros Hs. f_equal. destruct o; simplify_eq/=; done.
          -- destruct o; try (rewrite Hb; by intros [= <-]); try done. destruct b as [p|]; [|done].
             destruct (ileak _ _) as [m|] eqn:Hl; [|done]. intros [= <-]. f_equal. symmetry. apply (leak_lk _ _ _ Hl).
        * destruct (ialloc _ _ _ _ _) as [[m p]|] eqn:Ha; [|done]. intros [= <-]. rewrite store_ok. f_equal. symmetry.
          apply (alloc_lk _ _ _ _ _ _ _ Ha).
        * destruct Hf as (v&Hp&_). apply points_lk in Hp. rewrite (nlk_of _ _ HR) in Hp. rewrite ins_ok by done.
          destruct (iread _ _); [|done]. destruct (ireadable _ _); [|done]. destruct (candidates _ _ _); by intros [= <-].
        * destruct Hf as [Hb _]. apply boxed_of in Hb. rewrite (nlk_of _ _ HR) in Hb. cbn [f_ops]. rewrite (kill_ok _ _ _ Hb).
          destruct b as [p|]; [|by intros [= <-]]. destruct (ifree _ _) as [m|] eqn:Hl; [|done]. intros [= <-].
          f_equal. symmetry. apply (free_lk _ _ _ Hl).
        * by intros [= <-].
    - destruct (nstack s t) as [|[| | | | |c []] k]; try done. destruct (_ && _); [|done]. by intros [= <-].
    - unfold nstep_panic. destruct (nstack s t) as [|f k] eqn:Hk; [done|]. destruct (existsb _ _); [done|].
      destruct (nframe_of _ _ _ _ _ HI HR Hk) as [Hf Hfr]. destruct f as [| | | | |c g]; try done.
      pose proof (ntrues_of _ _ _ _ HI HR Hfr) as HT.
      destruct g as [o b|o b|ty q0 q|o v|o p|o b r|o r]; cbn [erase frame_ok] in Hf; try done.
      + intros [= <-]. destruct Hf as [Hb _]. apply boxed_of in Hb. rewrite (nlk_of _ _ HR) in Hb. by rewrite panic_get_ok.
      + by intros [= <-].
      + intros [= <-]. destruct Hf as (v&Hp&_). apply points_lk in Hp. rewrite (nlk_of _ _ HR) in Hp. by rewrite panic_ins_ok.
      + by intros [= <-].
    - destruct (returned _ _) eqn:Hr; [|done]. destruct (iread _ _); [|done]. intros [= <-]. cbn [a_applys].
      rewrite a_true; [done|by apply nret_of|done].
  Qed.
  Lemma new_spec : hspec (new_host E) (NInv E) nlk.
  Proof.
    constructor; cbn.
    - split; [apply ninv_init|]. unfold nlk, lk_of. simpl. by rewrite fmap_empty.
    - apply nstep_inv.
    - apply nstep_noub.
    - intros. by apply nops_ok.
    - intros. by apply nret_of.
  Qed.
End new.

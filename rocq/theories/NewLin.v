(** The model of [NewIntern] does what the atomic interner of SetSpec.v does. *)
From stdpp Require Import gmap list numbers.
From Verif Require Import Base InternModel InternSpec InternInv InternStep InternLaw NewModel NewSpec NewSim NewStep NewFinal
  SetSpec InternLin.
Require Import ZifyBool ZifyNat ZifyN.

Section lin.
  Context {V Q : Type} (E : ienv V Q).
  Context (HL : ilawful E) (HC : icoherent E) (HZ : zst_eq E).
  Implicit Types (s : nstate V Q) (st : istate V Q) (a : sset V Q) (v : V) (p : iptr) (o : iop V Q) (t ty : nat).
  Notation E1 := (E1 E).

  Lemma satoms1 a xs a' : satoms E1 a xs a' -> satoms E a xs a'.
  Proof.
    induction 1 as [|a x a1 xs a2 Hx _ IH]; [constructor|]. eapply sas_cons; [|exact IH]. clear IH.
    destruct Hx as [t o Hw|t o k p d Hc Hno Hin Ha|t o k p v Hc Hs Ha Hno Hf|t ty w q k b Hc Hb|t ty k n Hc Hn|t ty k Hc|t o r k Hc|t o k Hc|p v Hin].
    - by apply sa_call.
    - by eapply sa_hit.
    - by eapply sa_miss.
    - by apply sa_is.
    - by apply sa_len.
    - by apply (sa_clear E a t ty k).
    - by apply sa_ret.
    - by apply sa_panic.
    - by apply sa_read.
  Qed.

  Lemma give_lin st a t st' : IInv E1 st -> Sim E1 st a -> give_up st t st' ->
    (forall u, length (get_stack st' u) <= length (get_stack st u)) /\
    does E1 a (new_event (i_log st) (i_log st')) st'.
  Proof.
    intros HI HS Hg. pose proof Hg as (o&b&k&Htr&HI'&Hlog)%(give_up_trans E); [|done].
    pose proof Htr as []. split.
    { intros u. rewrite (stack_upd st st' t _ u tr_new). destruct (decide (t = u)) as [<-|]; [|done]. rewrite tr_old. simpl. lia. }
    rewrite Hlog, new_event_one. simpl.
    eapply (does_one E1 a (SRet t o RPanic)); [eapply (sa_panic E1 a t o (absf <$> k))| |done].
    { by rewrite (m_calls _ _ _ HS), tr_old. }
    apply (sim_calls E1 st a st' t [FWait o b] [] k HI HS Htr); simpl.
    - intros ty. by rewrite Hlog.
    - intros e. rewrite Hlog. intros [->|?]%elem_of_cons; [by right|by left].
    - intros ? ? Hin. by apply elem_of_nil in Hin.
    - intros ? ? ? Hin. by apply elem_of_nil in Hin.
    - intros x. destruct Hg as [o' k' Hst|o' p k' st1 Hst Hf]; [done|].
      change (lko st x <= lko st1 x). by rewrite (lko_free _ _ _ _ Hf).
  Qed.

  Lemma nstep_lin s st l s' a : IInv E1 st -> LInv E1 st -> R E s st -> Sim E1 st a -> nstep E s l = Next s' ->
    exists st', IInv E1 st' /\ LInv E1 st' /\ R E s' st' /\ does E1 a (sight l (n_log s) (n_log s')) st'.
  Proof.
    intros HI HW HR HS H. destruct (nstep_sim E _ _ _ _ HI HR H) as (st'&Hs&HR'). exists st'.
    split_and!; [by eapply sim_inv|by eapply sim_law; [apply lawful1|..]|done|].
    assert (n_log s = i_log st) as -> by (symmetry; apply (r_log _ _ _ (r_base _ _ _ HR))).
    assert (n_log s' = i_log st') as -> by (symmetry; apply (r_log _ _ _ (r_base _ _ _ HR'))).
    assert ((exists t o b x, l = ICall t o x /\ get_stack st' t = FWait o b :: get_stack st t /\
        match get_stack st t with [] => True | f :: _ => (absf f).2 = None end) \/
      ((forall t o b, l <> ICall t o b) /\ forall u, length (get_stack st' u) <= length (get_stack st u))) as Hsh.
    { destruct (nstep_shape E _ _ _ H) as [p v -> ->|t o b x -> Hth Hu _ _ _ _|t f fs' k Hl Hn Hst Hth Hf _ _ _].
      - right. split; [done|]. intros u. rewrite (R_stack E _ _ u HR), (R_stack E _ _ u HR'), !fmap_length. done.
      - left. exists t, o, b, x. rewrite (R_stack E _ _ t HR), (R_stack E _ _ t HR'). split_and!; [done| |].
        + unfold nstack at 1. rewrite Hth, lookup_insert. done.
        + destruct (nstack s t) as [|f k]; [done|]. simpl. by destruct f as [| | | | |i []].
      - right. split.
        + intros u o b ->. injection Hl as ->. by eapply Hn.
        + intros u. rewrite (R_stack E _ _ u HR), (R_stack E _ _ u HR'), !fmap_length.
          rewrite (stack_ins s s' t _ u Hth). destruct (decide (t = u)) as [<-|]; [|done]. rewrite Hst, app_length.
          destruct Hf as [->|(f'&->&_)]; simpl; lia. }
    destruct Hsh as [(t&o&b&x&->&Hst&Hab)|[Hnc Hlen]].
    - destruct Hs as [|u fs fs' k st1 Hfs Hm|p v Hr Hv|u st' Hg].
      + by discriminate_list Hst.
      + destruct (move_ok E1 _ _ _ _ _ _ HI Hfs Hm) as [[_ Hnew _ _ _ _] _].
        rewrite (stack_upd st _ u _ t Hnew) in Hst.
        destruct (move_sight E1 _ _ _ _ _ HI Hm) as [[-> (o2&b2&->)]|(_&Hle&_)].
        * destruct (decide (u = t)) as [->|].
          2:{ by discriminate_list Hst. }
          simpl in Hst. injection Hst as -> -> Hk. simpl.
          apply (move_lin E1 (lawful1 E HL) HC HZ st a t [] [FWait o b] k st1); try done.
        * destruct (decide (u = t)) as [->|].
          -- rewrite Hfs in Hst. apply (f_equal length) in Hst. simpl in Hst. rewrite !app_length in Hst. lia.
          -- by discriminate_list Hst.
      + change (get_stack (add_event st (EvRead p v)) t) with (get_stack st t) in Hst. by discriminate_list Hst.
      + destruct (give_lin _ _ _ _ HI HS Hg) as [Hle _]. specialize (Hle t). rewrite Hst in Hle. simpl in Hle. lia.
    - assert (sight l (i_log st) (i_log st') = new_event (i_log st) (i_log st')) as ->.
      { destruct l as [t o b| | | |]; try done. by destruct (Hnc t o b). }
      destruct Hs as [|u fs fs' k st1 Hfs Hm|p v Hr Hv|u st' Hg].
      + rewrite new_event_same. by apply does_nil.
      + eapply (move_new E1 (lawful1 E HL) HC HZ st a u fs fs' k st1); try done. intros ->.
        destruct (move_sight E1 _ _ _ _ _ HI Hm) as [[_ (o2&b2&->)]|[? _]]; [|done].
        specialize (Hlen u). rewrite get_stack_set, decide_True in Hlen by done. simpl in Hfs, Hlen. rewrite Hfs in Hlen. lia.
      + simpl. rewrite Nat.eqb_refl. by apply read_lin.
      + by apply (give_lin _ _ u).
  Qed.

  Lemma nrun_lin s st a ls s' : IInv E1 st -> LInv E1 st -> R E s st -> Sim E1 st a -> run (nstep E) s ls = Some s' ->
    exists st', IInv E1 st' /\ R E s' st' /\ does E1 a (nsights E s ls) st'.
  Proof.
    revert s st a. induction ls as [|l ls IH]; intros s st a HI HW HR HS; simpl.
    - intros [= ->]. exists st. split_and!; [done|done|by apply does_nil].
    - unfold exec. destruct (nstep E s l) as [s1| | |] eqn:Hs; try done; [|by eapply IH..]. intros Hr.
      destruct (nstep_lin _ _ _ _ _ HI HW HR HS Hs) as (st1&HI1&HW1&HR1&(xs&a1&H1&<-&HS1)).
      destruct (IH _ _ _ HI1 HW1 HR1 HS1 Hr) as (st2&HI2&HR2&(ys&a2&H2&<-&HS2)).
      exists st2. split_and!; [done|done|]. exists (xs ++ ys), a2. split_and!; [|by rewrite shown_app|done].
      by eapply satoms_app.
  Qed.
  Theorem new_linearizable ls s : run (nstep E) ninit ls = Some s ->
    exists xs a, satoms E sinit xs a /\ shown xs = nsights E ninit ls /\
      (forall ty i p, find_ty ty (nvec s (slot E ty)) = Some i ->
        (p ∈ nset s (slot E ty, i) <-> exists v, (p, v) ∈ ss_vals a /\ ie_ty E v = ty)) /\
      (forall p v, (p, v) ∈ ss_made a -> iread (nmem s) p = Some v).
  Proof.
    intros Hr. destruct (nrun_lin ninit iinit sinit ls s) as (st&HI&HR&(xs&a&H1&H2&HS)); try done.
    - apply iinv_init.
    - apply linv_init.
    - apply R_init.
    - apply sim_init.
    - exists xs, a. destruct (sim_sets E1 st a HI HS) as [H3 H4]. split_and!; [by apply satoms1|done| |].
      + intros ty i p Hi. rewrite <- (H3 ty p), (r_sets _ _ _ (r_base _ _ _ HR)). unfold first. by rewrite Hi.
      + intros p v Hp. rewrite (mem_read E s st p (r_base _ _ _ HR)). by apply H4.
  Qed.
End lin.

(** C60 from the invariant. *)
From stdpp Require Import gmap list numbers.
From Verif Require Import Base InternModel InternSpec InternInv InternEx ArenaModel ArenaSpec ArenaInv ArenaStep ArenaLawful ArenaMore ArenaEx
  HbSpec HbLib HbModel HbThm HbArenaModel HbArena.

Section thm.
  Context {V Q : Type} (E : ienv V Q).
  Notation ahstep := (hstep (astep E) a_by a_does a_looks).
  Definition safe_client (evs : acts) : Prop := handles_travel evs /\ arenas_travel evs /\ drops_are_last evs.

  Lemma ah_inv ls s : run ahstep (ainit, []) ls = Some s -> safe_client s.2 -> AInv E s.1 /\ RA s.1 [] s.2.
  Proof.
    apply (hrun_inv _ _ _ _ safe_client (λ s evs, AInv E s /\ RA s [] evs)).
    - intros evs l (H1&H2&H3). split_and!; [by eapply travel_prefix|by eapply arenas_prefix|by eapply drops_prefix].
    - split; [apply ainv_init|apply ra_init].
    - clear ls s. intros [s evs] l [s' evs'] (HI&HR) Hs (H1&H2&H3). simpl in *. destruct l as [t l|t|t m|t m]; simpl in Hs.
      + destruct (a_by l t) eqn:Hby; [|done]. destruct (astep E s l) as [s1| | |] eqn:Hst; try done. injection Hs as <- <-.
        assert (AInv E s1) by (by eapply astep_inv). split; [done|]. by eapply ra_step.
      + injection Hs as <- <-. split; [done|]. apply ra_add; [done..|]. by eapply alooks_ok.
      + injection Hs as <- <-. split; [done|]. by apply ra_quiet.
      + injection Hs as <- <-. split; [done|]. by apply ra_quiet.
  Qed.
  Theorem arena_race_free ls st evs :
    run ahstep (ainit, []) ls = Some (st, evs) ->
    handles_travel evs -> arenas_travel evs -> drops_are_last evs -> race_free evs.
  Proof. intros Hr H1 H2 H3. by destruct (ah_inv _ _ Hr (conj H1 (conj H2 H3))) as [_ []]. Qed.
  Theorem arena_defined ls : ilawful E -> icoherent E -> is_Some (run ahstep (ainit, []) ls).
  Proof.
    intros HL HC. destruct (run ahstep (ainit, []) ls) as [s|] eqn:Hr; [by eexists|].
    apply hrun_none in Hr as [ks Hr]. simpl in Hr. destruct (arena_no_ub E ks HL HC) as [s Hs]. congruence.
  Qed.
  Definition a_thread (l : alabel V Q) : nat :=
    match l with LArena t _ | LCall t _ _ _ | LStep t _ _ | LConv t _ | LPanic t | LDrop t _ => t | LRead _ _ => 0 end.
  Theorem arena_exact s :
    (exists ls, run (astep E) ainit ls = Some s) <-> (exists ls evs, run ahstep (ainit, []) ls = Some (s, evs)).
  Proof. apply (hrun_exact _ _ _ _ a_thread). intros l. destruct l; simpl; try apply Nat.eqb_refl. done. Qed.
End thm.

(** ** Examples *)
Notation atoy_events := (hevents (astep toyE) a_by a_does a_looks ainit).
Definition hsteps (t a n : nat) : list (hlabel (alabel ival (nat * nat))) := replicate n (HDo t (LStep t a 0)).
(** Thread 1 creates an arena and lends it to 2.  Both intern, 30 and 31, which are Eq.  Thread 2
    reads its handle and gives the arena back; 1 reads, and drops the arena. *)
Definition ahb_ls : list (hlabel (alabel ival (nat * nat))) :=
  [HDo 1 (LArena 1 0); HSend 1 7; HRecv 2 7; HDo 1 (LCall 1 0 (ANew (IV 0 30 0)) 0); HDo 2 (LCall 2 0 (ABox (IV 0 31 0)) 200)]
  ++ hsteps 1 100 1 ++ [HLook 1] ++ hsteps 1 100 6 ++ hsteps 2 0 1 ++ [HLook 2] ++ hsteps 2 0 3
  ++ [HDo 2 (LRead 0 (IPtr 100 0 1)); HSend 2 8; HRecv 1 8; HDo 1 (LRead 0 (IPtr 100 0 1)); HDo 1 (LDrop 1 0)] ++ hsteps 1 0 2.
Notation ahrun := (run (hstep (astep toyE) a_by a_does a_looks) (ainit, [])).
Lemma ahb_run ls : (if ahrun ls then true else false) = true -> exists st, ahrun ls = Some (st, atoy_events ls).
Proof. unfold hevents. destruct (ahrun ls) as [[st evs]|]; [|done]. intros _. by exists st. Qed.

Definition is_recv (t m : nat) (l : hlabel (alabel ival (nat * nat))) : bool :=
  match l with HRecv t' m' => (t' =? t) && (m' =? m) | _ => false end.
(** Thread 1 does not wait for thread 2 before the drop; thread 2 does not receive the arena from
    thread 1; thread 3 reads a handle that it was not given. *)
Definition ahb_drop := List.filter (λ l, negb (is_recv 1 8 l)) ahb_ls.
Definition ahb_arena := List.filter (λ l, negb (is_recv 2 7 l)) ahb_ls.
Definition ahb_handle := take 18 ahb_ls ++ [HDo 3 (LRead 0 (IPtr 100 0 1)); HSend 3 9; HRecv 1 9] ++ drop 18 ahb_ls.
Lemma drop_race : exists st evs, ahrun ahb_drop = Some (st, evs) /\ handles_travel evs /\ arenas_travel evs /\ data_race evs.
Proof.
  destruct (ahb_run ahb_drop) as [st Hs]; [by vm_compute|]. exists st, (atoy_events ahb_drop).
  split_and!; [done|apply travelb_spec; by vm_compute|apply arenasb_spec; by vm_compute|].
  apply (race_at _ 29 36 (2, ARead (IPtr 100 0 1)) (1, ATouch [(LSet (0, 0), false); (LVal 1, true)])); [lia|by vm_compute..].
Qed.
Lemma arena_race : exists st evs, ahrun ahb_arena = Some (st, evs) /\ handles_travel evs /\ drops_are_last evs /\ data_race evs.
Proof.
  destruct (ahb_run ahb_arena) as [st Hs]; [by vm_compute|]. exists st, (atoy_events ahb_arena).
  split_and!; [done|apply travelb_spec; by vm_compute|apply dropsb_spec; by vm_compute|].
  apply (race_at _ 0 19 (1, ATouch [(LElt (0, 0), true); (LSet (0, 0), true)]) (2, ATouch [(LElt (0, 0), false)])); [lia|by vm_compute..].
Qed.
Lemma handle_race : exists st evs, ahrun ahb_handle = Some (st, evs) /\ arenas_travel evs /\ drops_are_last evs /\ data_race evs.
Proof.
  destruct (ahb_run ahb_handle) as [st Hs]; [by vm_compute|]. exists st, (atoy_events ahb_handle).
  split_and!; [done|apply arenasb_spec; by vm_compute|apply dropsb_spec; by vm_compute|].
  apply (race_at _ 12 29 (1, ATouch [(LVal 1, true)]) (3, ARead (IPtr 100 0 1))); [lia|by vm_compute..].
Qed.
Lemma ano_lock_race : data_race (List.filter (λ e : nat * act, match e.2 with AAcq (SLock _) | ARel (SLock _) => false | _ => true end)
                         (atoy_events ahb_ls)).
Proof. apply (race_at _ 11 20 (1, ATouch [(LVal 1, true)])
  (2, ATouch [(LSet (0, 0), false); (LVal 1, false); (LVal 0, false)])); [lia|by vm_compute..]. Qed.

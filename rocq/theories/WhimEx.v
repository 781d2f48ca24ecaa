(** Examples for C76. *)
From stdpp Require Import gmap list numbers.
From Verif Require Import Base InternModel InternSpec InternInv InternStep InternLaw InternFinal InternMore InternLive InternEx
  NewModel NewSpec NewSim NewStep NewFinal NewWait NewLive NewEx NewWaitEx
  ArenaModel ArenaSpec ArenaLaw ArenaFinal ArenaMore ArenaLawful ArenaEx ArcModel TermSpec Term TermIntern TermNew TermEx WhimSpec Whim.
Require Import ZifyBool ZifyNat ZifyN.

(** Eq now ignores the last bit of the number, now it does not. *)
Definition loose : code ival (nat * nat) := some_code fullE.
Definition strict : code ival (nat * nat) := Code
  (λ u v, (iv_ty u =? iv_ty v) && (iv_n u =? iv_n v) && (iv_len u =? iv_len v)) (λ _, 0) (λ _ v, (iv_n v, iv_len v))
  (λ a b, (a.1 =? b.1) && (a.2 =? b.2)) (λ _, 0) (λ _ _, true).
(** Eq that says no, even to itself, and Eq that says yes. *)
Definition never : code ival (nat * nat) := Code (λ _ _, false) (λ _, 0) (λ _ v, (iv_n v, iv_len v)) (λ _ _, false) (λ _, 0) (λ _ _, true).
Definition always : code ival (nat * nat) := Code (λ _ _, true) (λ _, 0) (λ _ v, (iv_n v, iv_len v)) (λ _ _, true) (λ _, 0) (λ _ _, true).
Lemma loose_lawful : ilawful (with_code fullE loose).
Proof. exact fullE_lawful. Qed.
Lemma strict_lawful : ilawful (with_code fullE strict).
Proof.
  constructor; simpl.
  - intros v. by rewrite !Nat.eqb_refl.
  - intros u v. rewrite !andb_true_iff, !Nat.eqb_eq. intuition congruence.
  - intros u v w. rewrite !andb_true_iff, !Nat.eqb_eq. intuition congruence.
  - done.
  - intros u v. rewrite !andb_true_iff, !Nat.eqb_eq. intuition congruence.
  - intros u v w. rewrite !andb_true_iff, !Nat.eqb_eq. intuition congruence.
  - done.
  - intros _ u v ->. by rewrite Nat.eqb_refl.
  - done.
Qed.

Definition wlabels := list (code ival (nat * nat) * ilabel ival (nat * nat)).
(** 30 and 31 are interned; then 31 again. *)
Definition w_call (c : code ival (nat * nat)) (n a m : nat) : wlabels :=
  (c, ICall 1 (ONew (IV 0 n 0)) 0) :: replicate m (c, IStep 1 a 0).
Definition w_dup : wlabels := w_call strict 30 100 5 ++ w_call strict 31 101 5 ++ w_call loose 31 102 4.
Definition wn_dup : wlabels := w_call strict 30 100 9 ++ w_call strict 31 101 6 ++ w_call loose 31 102 5.
(** Thread 1 interns a reference whose value its search misses and its insertion finds; it converts
    while it makes another call; thread 2 waits. *)
Definition w_odd : wlabels :=
  w_call always 8 99 9 ++
  [(never, ICall 1 (ORef 0 0 (8, 0)) 0); (never, IStep 1 0 0); (never, IStep 1 0 0); (always, ICall 1 (ONew (IV 1 3 0)) 0); (never, ICall 2 (OLen 0) 0)].
Definition w_odd_end : wlabels :=
  (always, IStep 2 0 0) :: replicate 5 (never, IStep 1 100 0) ++ [(never, IConv 1 (IV 0 8 0))] ++ replicate 3 (always, IStep 1 101 0) ++
  replicate 3 (never, IStep 2 0 0).
Definition wn_odd : wlabels :=
  w_call always 8 99 9 ++
  [(never, ICall 1 (ORef 0 0 (8, 0)) 0); (never, IStep 1 0 0); (never, IStep 1 0 0); (never, IStep 1 0 0); (always, ICall 1 (ONew (IV 1 3 0)) 0); (never, ICall 2 (OLen 0) 0)].
Definition wn_odd_end : wlabels :=
  replicate 2 (always, IStep 2 0 0) ++ replicate 9 (never, IStep 1 100 0) ++ [(never, IConv 1 (IV 0 8 0))] ++ replicate 3 (always, IStep 1 101 0) ++
  replicate 3 (never, IStep 2 0 0).

Definition wafter {S L} (step : S -> L -> outcome S) (st : S) (ls : list L) : S := default st (run step st ls).
Lemma wafter_run {S L} (step : S -> L -> outcome S) st ls : (if run step st ls then true else false) = true ->
  run step st ls = Some (wafter step st ls).
Proof. unfold wafter. by destruct (run step st ls). Qed.
Notation iw := (whim istep fullE).
Notation nw := (whim nstep fullE).
Notation ow := (whim_own i_own).
Definition w_all (ls : wlabels) : Prop := Forall (λ cl, match cl.2 with ICall _ _ _ | IDeref _ => false | _ => true end = true) ls.
Lemma w_all_own ls : w_all ls -> forall cl, cl ∈ ls -> exists t, whim_own i_own t cl.
Proof.
  intros H [c lb] Hl. unfold w_all in H. rewrite list.Forall_forall in H. specialize (H _ Hl). destruct lb; try done; by eexists.
Qed.
Lemma iw_ended ls0 ls : (if run iw iinit (ls0 ++ ls) then true else false) = true -> w_all ls ->
  map_fold (λ _ k acc, length k + acc) 0 (i_threads (wafter iw iinit (ls0 ++ ls))) = 0 ->
  exists s x, runs_on iw ow (wafter iw iinit ls0) s x /\ fair iw ow s x.
Proof.
  intros Hr Ho He.
  assert (forall t, get_stack (wafter iw iinit (ls0 ++ ls)) t = []) as Hn.
  { intros t. unfold get_stack. destruct (i_threads _ !! t) as [k|] eqn:Ht; [|done].
    pose proof (msum_ge length _ _ _ Ht) as Hge. unfold msum in Hge. rewrite He in Hge. simpl. destruct k; [done|simpl in Hge; lia]. }
  pose proof (wafter_run _ _ _ Hr) as Hrun. revert Hn Hrun. generalize (wafter iw iinit (ls0 ++ ls)) as st'. intros st' Hn Hrun.
  rewrite run_app in Hrun. unfold wafter. destruct (run iw iinit ls0) as [st|]; [|done]. cbn [default from_option id] in Hrun |- *.
  destruct (ended iw ow st ls (never, IStep 1 0 0) st') as (H1&H2&_); try done.
  - by apply w_all_own.
  - by exists 1.
  - unfold exec, whim. simpl. unfold istep_thread. by rewrite Hn.
  - intros t ([c lb]&st2&Ho'&Hs'). by apply (i_idle (with_code fullE c) st' t (Hn t)); exists lb, st2.
  - by eexists _, _.
Qed.
Lemma nw_ended ls0 ls : (if run nw ninit (ls0 ++ ls) then true else false) = true -> w_all ls ->
  map_fold (λ _ k acc, length k + acc) 0 (n_threads (wafter nw ninit (ls0 ++ ls))) = 0 ->
  exists s x, runs_on nw ow (wafter nw ninit ls0) s x /\ fair nw ow s x.
Proof.
  intros Hr Ho He.
  assert (forall t, nstack (wafter nw ninit (ls0 ++ ls)) t = []) as Hn.
  { intros t. unfold nstack. destruct (n_threads _ !! t) as [k|] eqn:Ht; [|done].
    pose proof (msum_ge length _ _ _ Ht) as Hge. unfold msum in Hge. rewrite He in Hge. simpl. destruct k; [done|simpl in Hge; lia]. }
  pose proof (wafter_run _ _ _ Hr) as Hrun. revert Hn Hrun. generalize (wafter nw ninit (ls0 ++ ls)) as st'. intros st' Hn Hrun.
  rewrite run_app in Hrun. unfold wafter. destruct (run nw ninit ls0) as [st|]; [|done]. cbn [default from_option id] in Hrun |- *.
  destruct (ended nw ow st ls (never, IStep 1 0 0) st') as (H1&H2&_); try done.
  - by apply w_all_own.
  - by exists 1.
  - unfold exec, whim. simpl. unfold nstep_thread. by rewrite Hn.
  - intros t ([c lb]&st2&Ho'&Hs'). by apply (n_idle (with_code fullE c) st' t (Hn t)); exists lb, st2.
  - by eexists _, _.
Qed.

(** ** Arena: the search misses, the insertion hits *)
Definition aw_dangle : list (code ival (nat * nat) * alabel ival (nat * nat)) :=
  (pair strict <$> [LArena 1 0; LCall 1 0 (ANew (IV 0 30 0)) 0] ++ steps 1 100 7 ++ [LCall 1 0 (ANew (IV 0 31 0)) 0] ++ steps 1 101 3)
  ++ (pair loose <$> steps 1 101 3).

(** The same Eq and Borrow, any Hash, tables that compare with every entry. *)
Definition rehash (h : ival -> nat) : code ival (nat * nat) :=
  Code (co_eq loose) h (co_borrow loose) (co_qeq loose) (λ q, q.1) (λ _ _, true).
Definition aw_hash : list (code ival (nat * nat) * alabel ival (nat * nat)) :=
  (pair (rehash iv_n) <$> [LArena 1 0; LCall 1 0 (ANew (IV 0 30 0)) 0] ++ steps 1 100 7)
  ++ (pair (rehash iv_len) <$> LCall 2 0 (ABox (IV 0 31 0)) 101 :: steps 2 0 2) ++ (pair (rehash iv_ty) <$> steps 2 0 2).
Lemma rehash_agree c c' o v d : (exists h, c = rehash h) -> (exists h, c' = rehash h) -> a_supplies fullE o v ->
  ie_ty fullE v = ie_ty fullE d -> ins_match (with_code fullE c') v d = true -> a_match (with_code fullE c) o d = true.
Proof.
  intros [h ->] [h' ->] Hs Ht Hi. apply andb_true_iff in Hi as [_ Hi].
  assert (a_match fullE o d = true) as Hm.
  { apply (lawful_sound fullE fullE_lawful fullE_coherent o v d Hs Ht). unfold ins_match. apply andb_true_iff. split; [|exact Hi].
    unfold seen. rewrite (il_hash _ fullE_lawful v d Hi), Nat.eqb_refl. done. }
  destruct o; apply andb_true_iff in Hm as [_ Hm]; apply andb_true_iff; (split; [|exact Hm]); unfold seen; simpl; by rewrite orb_true_r.
Qed.

(** ** ArcIntern: 0 and 1 are kept apart, then Eq holds all values for equal *)
Definition arcE : tyenv nat := TyEnv nat Nat.eqb (λ _, 0) (λ _, 0) (λ _, []) (λ _ _, true) 4 256.
Definition arc_whim : list ((nat -> nat -> bool) * label nat) :=
  (pair Nat.eqb <$> ArcModel.LNew 1 KSized 0 :: replicate 6 (ArcModel.LStep 1 10 0)
    ++ ArcModel.LNew 1 KSized 1 :: replicate 6 (ArcModel.LStep 1 20 0))
  ++ (pair (λ _ _, true) <$> ArcModel.LDrop 1 (Ptr 10 0) :: replicate 5 (ArcModel.LStep 1 0 0)
    ++ [ArcModel.LDeref (Ptr 20 1) []]).

Lemma w_odd_ordered : ordered fullE (wafter iw iinit w_odd).
Proof.
  assert (get_stack (wafter iw iinit w_odd) 1 = [FWait (ONew (IV 1 3 0)) None; FConv 0 0 (8, 0)]) as H1 by (by vm_compute).
  assert (get_stack (wafter iw iinit w_odd) 2 = [FWait (OLen 0) None]) as H2 by (by vm_compute).
  assert ((map_to_list (i_threads (wafter iw iinit w_odd))).*1 = [1; 2]) as H3 by (by vm_compute).
  revert H1 H2 H3. generalize (wafter iw iinit w_odd) as st. intros st H1 H2 H3 t k1 o b k2 Hst g Hg.
  destruct (i_threads_in st _ t H3) as [Hin|Hn]; [|rewrite Hn in Hst; by destruct k1].
  apply elem_of_list_In in Hin as [<-|[<-|[]]]; [rewrite H1 in Hst|rewrite H2 in Hst].
  - destruct k1 as [|? [|? k1]]; simplify_eq/=; [|by destruct k1]. apply elem_of_list_singleton in Hg as ->. by vm_compute.
  - destruct k1 as [|? k1]; simplify_eq/=; [by apply elem_of_nil in Hg|by destruct k1].
Qed.
Lemma wn_odd_ordered : n_ordered fullE id (wafter nw ninit wn_odd) /\ n_calm (wafter nw ninit wn_odd).
Proof.
  assert (nstack (wafter nw ninit wn_odd) 1 = [NScan (ONew (IV 1 3 0)) None false; NIn 0 (FConv 0 0 (8, 0))]) as H1 by (by vm_compute).
  assert (nstack (wafter nw ninit wn_odd) 2 = [NScan (OLen 0) None false]) as H2 by (by vm_compute).
  assert ((map_to_list (n_threads (wafter nw ninit wn_odd))).*1 = [1; 2]) as H3 by (by vm_compute).
  revert H1 H2 H3. generalize (wafter nw ninit wn_odd) as st. intros st H1 H2 H3.
  assert (forall t, t = 1 \/ t = 2 \/ nstack st t = []) as Ht.
  { intros t. unfold nstack. destruct (n_threads st !! t) as [k|] eqn:Ht; [|by auto].
    assert (t ∈ [1; 2]) as Hin; [|apply elem_of_list_In in Hin as [<-|[<-|[]]]; by auto].
    rewrite <- H3. apply elem_of_list_fmap. exists (t, k). split; [done|]. by apply elem_of_map_to_list. }
  split.
  - intros t k1 f k2 Hst g ty Hg Hh. destruct (Ht t) as [->|[->|Hn]]; [rewrite H1 in Hst|rewrite H2 in Hst|rewrite Hn in Hst; by destruct k1].
    + destruct k1 as [|? [|? k1]]; simplify_eq/=; [|by apply elem_of_nil in Hg|by destruct k1].
      apply elem_of_list_singleton in Hg as ->. destruct Hh as [_ <-]. cbn. unfold id. lia.
    + destruct k1 as [|? k1]; simplify_eq/=; [by apply elem_of_nil in Hg|by destruct k1].
  - intros t f k g Hst Hg. destruct (Ht t) as [->|[->|Hn]]; [rewrite H1 in Hst|rewrite H2 in Hst|by rewrite Hn in Hst]; simplify_eq.
    + apply elem_of_list_singleton in Hg as ->. by intros [].
    + by apply elem_of_nil in Hg.
Qed.

(** ** Refutations *)
Lemma all_pair {L : Type} (P : code ival (nat * nat) -> Prop) (c : code ival (nat * nat)) (ls : list L) :
  P c -> forall cl, cl ∈ pair c <$> ls -> P cl.1.
Proof. intros H cl (l&->&_)%elem_of_list_fmap. done. Qed.
Lemma aw_ub : exists (E : ienv ival (nat * nat)) ls,
  (forall cl, cl ∈ ls -> ilawful (with_code E cl.1)) /\ no_refs ls.*2 /\ run (whim astep E) ainit ls = None.
Proof.
  exists fullE, aw_dangle. split_and!.
  - intros cl [H|H]%elem_of_app; revert H; apply (all_pair (λ c, ilawful (with_code fullE c))); [apply strict_lawful|apply loose_lawful].
  - intros t r w q a H%elem_of_list_In. vm_compute in H. intuition discriminate.
  - by vm_compute.
Qed.
Lemma arc_whim_ub : exists (E : tyenv nat) ls,
  (forall cl, cl ∈ ls -> equivalence cl.1) /\ (forall u v, te_hash E u = te_hash E v /\ te_ty E u = te_ty E v) /\
  (N.of_nat (length ls) < te_mod E)%N /\ run (whim_arc E) init ls = None.
Proof.
  exists arcE, arc_whim. split_and!; [|done|by vm_compute|by vm_compute].
  intros cl [H|H]%elem_of_app; apply elem_of_list_fmap in H as (l&->&_); simpl.
  - split_and!; intros *; rewrite ?Nat.eqb_eq; congruence.
  - by split_and!.
Qed.
Lemma w_not_unique : exists (E : ienv ival (nat * nat)) ls st t o p v t' o' p' v' c,
  (forall cl, cl ∈ ls -> ilawful (with_code E cl.1)) /\ run (whim istep E) iinit ls = Some st /\
  EvRet t o (RPtr p) ∈ i_log st /\ EvRet t' o' (RPtr p') ∈ i_log st /\ p <> p' /\
  whim istep E st (c, IDeref p) = Next (add_event st (EvRead p v)) /\
  whim istep E st (c, IDeref p') = Next (add_event st (EvRead p' v')) /\
  ilawful (with_code E c) /\ ie_ty E v = ie_ty E v' /\ co_eq c v v' = true.
Proof.
  assert (run iw iinit w_dup = Some (wafter iw iinit w_dup)) as Hr by (by apply wafter_run; vm_compute).
  assert (EvRet 1 (ONew (IV 0 30 0)) (RPtr (IPtr 100 0 0)) ∈ i_log (wafter iw iinit w_dup)) as H1 by (vm_compute; do 3 right; by left).
  assert (EvRet 1 (ONew (IV 0 31 0)) (RPtr (IPtr 101 0 1)) ∈ i_log (wafter iw iinit w_dup)) as H2 by (vm_compute; by left).
  assert (iread (wafter iw iinit w_dup) (IPtr 100 0 0) = Some (IV 0 30 0)) as H3 by (by vm_compute).
  assert (iread (wafter iw iinit w_dup) (IPtr 101 0 1) = Some (IV 0 31 0)) as H4 by (by vm_compute).
  assert (forall cl, cl ∈ w_dup -> ilawful (with_code fullE cl.1)) as Hl.
  { intros cl Hin. assert (cl.1 = strict \/ cl.1 = loose) as [->| ->]; [|apply strict_lawful|apply loose_lawful].
    unfold w_dup, w_call in Hin. rewrite !elem_of_app, !elem_of_cons in Hin.
    destruct Hin as [[->|H]|[[->|H]|[->|H]]]; [by left|left|by left|left|by right|right];
      apply elem_of_replicate in H as [-> _]; reflexivity. }
  revert Hr H1 H2 H3 H4. generalize (wafter iw iinit w_dup) as st. revert Hl. generalize w_dup as ls. intros ls Hl st Hr H1 H2 H3 H4.
  exists fullE, ls, st, 1, (ONew (IV 0 30 0)), (IPtr 100 0 0), (IV 0 30 0), 1, (ONew (IV 0 31 0)), (IPtr 101 0 1), (IV 0 31 0), loose.
  assert (returned (IPtr 100 0 0) (i_log st) = true) as H5 by (apply returned_in; by eauto).
  assert (returned (IPtr 101 0 1) (i_log st) = true) as H6 by (apply returned_in; by eauto).
  split_and!; try done.
  - unfold whim. cbn [fst snd istep]. by rewrite H5, H3.
  - unfold whim. cbn [fst snd istep]. by rewrite H6, H4.
  - apply loose_lawful.
Qed.

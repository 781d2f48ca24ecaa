(** C75 for the Intern of typearena.rs: every step of a running call brings it closer to its end. *)
From stdpp Require Import gmap list numbers.
From Verif Require Import Base InternModel InternSpec InternInv InternStep InternLaw InternFinal InternMore NewModel NewSpec NewSim NewStep NewFinal NewWait NewLive TermSpec Term.
Require Import ZifyBool ZifyNat ZifyN.

Section term.
  Context {V Q : Type} (E : ienv V Q).
  Implicit Types (s : nstate V Q) (o : iop V Q) (f g : nframe V Q) (t ty : nat) (lb : ilabel V Q) (rk : nat -> nat).
  Notation slot := (slot E).
  Notation op_ty := (op_ty E).

  (** How many steps a call can take, counting panics. *)
  Definition nleft f : nat :=
    match f with
    | NScan _ _ false => 10 | NPush _ _ => 9 | NPub _ _ _ => 8 | NScan _ _ true => 7 | NLock _ _ _ => 6
    | NIn _ (FWait _ _) => 6 | NIn _ (FGet _ _) => 5 | NIn _ (FConv _ _ _) => 4 | NIn _ (FStore _ _) => 3 | NIn _ (FIns _ _) => 2
    | NIn _ (FDup _ _ RPanic) => 2 | NIn _ (FDup _ _ _) => 3 | NIn _ (FDone _ _) => 1 | NPanic _ _ => 1
    end.
  Lemma nleft_le f : nleft f <= 10.
  Proof. destruct f as [? ? []|? ?|? ? ?|? ? ?|? ?|? [| | | | |? ? []|]]; simpl; lia. Qed.

  Lemma nown_thread lb t : i_own t lb -> lab_thread lb = Some t.
  Proof. destruct lb; simpl; try done; by intros ->. Qed.
  Lemma nown_left s t lb s' f k : i_own t lb -> nstep E s lb = Next s' -> nstack s t = f :: k ->
    nstack s' t = k \/ exists f', nstack s' t = f' :: k /\ nleft f' < nleft f.
  Proof.
    intros Ho Hs Hst.
    assert (forall s1 k', nstack (nset_stack s1 t k') t = k') as Hset.
    { intros s1 k'. unfold nstack. simpl. by rewrite lookup_insert. }
    assert (forall s1 e, nstack (nevent s1 e) t = nstack s1 t) as Hev by done.
    destruct lb as [t' o a|t' a j|t' v|t'|p]; try done; simpl in Ho; subst t'; simpl in Hs.
    - unfold nstep_thread in Hs. rewrite Hst in Hs.
      destruct f as [o b []|o b|o b i|o b i|o b|i g]; [..|destruct g as [o b|o b|ty w q|o v|o p|o b r|o r]];
        repeat (case_match; try done); try done; injection Hs as <-; rewrite ?Hev, ?Hset;
        first [by left|right; eexists; (split; [reflexivity|simpl; repeat case_match; lia])].
    - rewrite Hst in Hs. repeat (case_match; try done). injection Hs as <-. rewrite Hset. right. eexists. split; [done|]. simpl. lia.
    - unfold nstep_panic in Hs. rewrite Hst in Hs. destruct (existsb unwinds (f :: k)) eqn:Hu; [done|].
      destruct f as [o b []|o b|o b i|o b i|o b|i [o b|o b|ty w q|o v|o p|o b r|o r]]; try done; injection Hs as <-; rewrite Hset;
        right; eexists; (split; [reflexivity|]); try (simpl; lia). destruct r; simpl in *; first [lia|done].
  Qed.
  Lemma nown_step s t lb s' : i_own t lb -> nstep E s lb = Next s' ->
    exists f k fs, nstack s t = f :: k /\ n_threads s' = <[t := fs ++ k]> (n_threads s) /\ lsum nleft fs < nleft f /\
      (fs = [] \/ exists f', fs = [f'] /\ call_of f' = call_of f).
  Proof.
    intros Ho Hs.
    destruct (nstep_shape E _ _ _ Hs) as [p v -> ->|t' o b a -> _ _ _ _ _ _|t' f fs k Hl' _ Hst Hth Hf _ _ _]; [done|done|].
    rewrite (nown_thread _ _ Ho) in Hl'. injection Hl' as <-. exists f, k, fs. split_and!; try done.
    - pose proof (nown_left _ _ _ _ _ _ Ho Hs Hst) as Hrk. rewrite (stack_ins s s' t _ t Hth), decide_True in Hrk by done.
      destruct Hf as [->|(f'&->&_)]; [destruct f as [? ? []|? ?|? ? ?|? ? ?|? ?|? [| | | | |? ? []|]]; simpl; lia|].
      destruct Hrk as [Hk|(f2&Hk&Hlt)].
      + simpl in Hk. exfalso. apply (f_equal length) in Hk. simpl in Hk. lia.
      + injection Hk as ->. simpl. lia.
    - destruct Hf as [->|(f'&->&Hcall&_)]; [by left|right; by exists f'].
  Qed.

  Definition nmu s : nat := msum (lsum nleft) (n_threads s).
  Lemma nown_inv s t lb s' : LI E s -> i_own t lb -> nstep E s lb = Next s' -> LI E s'.
  Proof. intros HI _ Hs. by eapply LI_step. Qed.
  Lemma nown_mu s t lb s' : LI E s -> i_own t lb -> nstep E s lb = Next s' -> nmu s' < nmu s.
  Proof.
    intros _ Ho Hs. destruct (nown_step _ _ _ _ Ho Hs) as (f&k&fs&Hst&Hth&Hlt&_). unfold nmu. rewrite Hth. by eapply msum_top.
  Qed.
  Lemma nown_stack s t lb s' : i_own t lb -> nstep E s lb = Next s' -> forall u, nstack s' u = nstack s u \/
    exists f k, nstack s u = f :: k /\ (nstack s' u = k \/ exists f', nstack s' u = f' :: k /\ call_of f' = call_of f).
  Proof.
    intros Ho Hs u. destruct (nown_step _ _ _ _ Ho Hs) as (f&k&fs&Hst&Hth&_&Hf).
    rewrite (stack_ins s s' t _ u Hth). destruct (decide (t = u)) as [<-|]; [|by left].
    right. exists f, k. split; [done|]. destruct Hf as [->|(f'&->&?)]; [by left|right; by exists f'].
  Qed.
  Lemma nown_ordered rk s t lb s' : LI E s -> i_own t lb -> nstep E s lb = Next s' -> n_ordered E rk s -> n_ordered E rk s'.
  Proof.
    intros _ Ho Hs Hord u k1 f k2 Hst' g ty Hg Hh. destruct (nown_stack _ _ _ _ Ho Hs u) as [Heq|(f0&k&Hst&[Hk|(f'&Hk&Hc)])].
    - rewrite Heq in Hst'. by eapply Hord.
    - rewrite Hk in Hst'. subst k. by apply (Hord u (f0 :: k1) f k2 Hst g ty).
    - rewrite Hk in Hst'. destruct k1 as [|x k1]; simpl in Hst'; injection Hst' as <- ->.
      + replace (NewSpec.type_of E f') with (NewSpec.type_of E f0) by (unfold NewSpec.type_of; by rewrite Hc). by apply (Hord u [] f0 k2 Hst g ty).
      + by apply (Hord u (f0 :: k1) f k2 Hst g ty).
  Qed.
  Lemma nown_calm s t lb s' : LI E s -> i_own t lb -> nstep E s lb = Next s' -> n_calm s -> n_calm s'.
  Proof.
    intros _ Ho Hs Hc u f k2 g Hst' Hg. destruct (nown_stack _ _ _ _ Ho Hs u) as [Heq|(f0&k&Hst&[Hk|(f'&Hk&_)])].
    - rewrite Heq in Hst'. by eapply Hc.
    - rewrite Hk in Hst'. subst k. apply (Hc u f0 (f :: k2) g Hst). by right.
    - rewrite Hk in Hst'. injection Hst' as <- ->. by apply (Hc u f0 k2 g Hst).
  Qed.

  Lemma nquiet_own lb t : quiet lb -> lab_thread lb = Some t -> i_own t lb.
  Proof. destruct lb; try done; simpl; congruence. Qed.
  Lemma nable s t f k : LI E s -> total_from E -> nstack s t = f :: k -> n_can E s (f :: k) = true -> able (nstep E) i_own s t.
  Proof.
    intros HI HT Hst Hc. destruct (nthread_next E s t f k HI HT Hst Hc) as (lb&s'&Hq&Hl&Hs).
    exists lb, s'. split; [by apply nquiet_own|done].
  Qed.
  Lemma stuck_of s : LI E s -> total_from E -> (forall t, ~ able (nstep E) i_own s t) -> stuck E s.
  Proof.
    intros HI HT Hna t k Ht. destruct k as [|f k]; [by left|right]. destruct (n_can E s (f :: k)) eqn:Hc; [|done].
    destruct (Hna t). apply (nable s t f k); try done. unfold nstack. by rewrite Ht.
  Qed.

  Lemma nstuck s : LI E s -> stuck E s ->
    (forall t, nstack s t = []) \/ (exists t, n_aborts E s t) \/
    ((exists t, nstack s t <> []) /\ n_deadlocked E s (λ t, nstack s t <> [])).
  Proof.
    intros HI HS.
    destruct (decide (map_Forall (λ _ k, k = []) (n_threads s))) as [Hemp|Hne].
    { left. intros t. unfold nstack. destruct (n_threads s !! t) as [k|] eqn:Ht; [|done]. by apply Hemp in Ht. }
    right. destruct (abort_dec E s) as [?|Hna]; [by left|right]. split.
    { apply map_not_Forall in Hne as (t&k&Ht&Hk); [|intros ? []; [by left|by right]]. exists t. unfold nstack. by rewrite Ht. }
    assert (forall t, nstack s t <> [] -> exists o b i k, nstack s t = NLock o b i :: k /\ is_Some (n_locks s !! (slot (op_ty o), i))) as Hw.
    { intros t Ht. destruct (nstack s t) as [|f k] eqn:Hst; [done|].
      destruct (stuck_cases E s t f k HI HS Hst) as [Hab|(o&b&i&->&Hl)]; [by destruct (Hna t)|by exists o, b, i, k]. }
    intros t Ht. destruct (Hw t Ht) as (o&b&i&k&Hst&Hl). destruct (nholder E s o b i t HI) as (u&g&Hg&Hh); [rewrite Hst; by left|done|].
    assert (nstack s u <> []) as Hu. { intros Hu. rewrite Hu in Hg. by apply elem_of_nil in Hg. }
    destruct (Hw u Hu) as (o'&b'&i'&k'&Hstu&_). exists o, b, i, k, u, (NLock o' b' i'), k', g. split_and!; try done.
    rewrite Hstu in Hg. apply elem_of_cons in Hg as [->|Hg]; [by destruct Hh|done].
  Qed.
  Lemma nable_dec s : LI E s -> total_from E -> (exists t, able (nstep E) i_own s t) \/ forall t, ~ able (nstep E) i_own s t.
  Proof.
    intros HI HT. set (P := λ (_ : nat) (k : list (nframe V Q)), (match k with [] => false | _ => n_can E s k end) = false).
    assert (forall t k, Decision (P t k)) as Hdec by (intros; unfold P; apply _).
    destruct (decide (map_Forall P (n_threads s))) as [Hall|Hsome].
    - right. intros t (lb&s'&Ho&Hs). destruct (nown_step _ _ _ _ Ho Hs) as (f&k&fs&Hst&_).
      pose proof Hst as Ht. unfold nstack in Ht. destruct (n_threads s !! t) as [k'|] eqn:Hk; [|done]. simpl in Ht. subst k'.
      apply Hall in Hk. unfold P in Hk.
      destruct f as [o b again|o b|o b i|o b i|o b|i g]; try done; simpl in Hk.
      + destruct lb; try done; simpl in Ho; subst; simpl in Hs; unfold nstep_thread, nstep_panic in Hs; rewrite Hst in Hs; try done.
        * by rewrite Hk in Hs.
        * cbn in Hs. by destruct (existsb unwinds k).
      + destruct lb; try done; simpl in Ho; subst; simpl in Hs; unfold nstep_thread, nstep_panic in Hs; rewrite Hst in Hs; try done.
        * destruct (n_locks s !! _); [done|]. destruct (bool_decide _); [|done]. by destruct (existsb unwinds k).
        * cbn in Hs. by destruct (existsb unwinds k).
    - left. apply map_not_Forall in Hsome as (t&k&Ht&Hk); [|apply Hdec]. unfold P in Hk. exists t.
      destruct k as [|f k]; [done|]. apply (nable s t f k); [done|done|unfold nstack; by rewrite Ht|].
      by destruct (n_can E s (f :: k)).
  Qed.

  (** ** The theorems *)
  Lemma n_bounded ls0 s ls : run (nstep E) ninit ls0 = Some s -> (forall lb, lb ∈ ls -> exists t, i_own t lb) ->
    taken (nstep E) s ls <= 10 * weigh (λ _, 1) (n_threads s).
  Proof.
    intros Hr Ho. rewrite weigh_msum, <- msum_const.
    pose proof (taken_le (nstep E) i_own (LI E) nmu nown_inv nown_mu ls s (LI_reach E ls0 s Hr) Ho) as Hle.
    pose proof (msum_lsum_mono nleft (λ _, 10) (n_threads s) nleft_le). unfold nmu in Hle. lia.
  Qed.
  Lemma n_stuck ls0 s : run (nstep E) ninit ls0 = Some s -> total_from E -> (forall t, ~ able (nstep E) i_own s t) ->
    (forall t, nstack s t = []) \/ (exists t, n_aborts E s t) \/
    ((exists t, nstack s t <> []) /\ n_deadlocked E s (λ t, nstack s t <> [])).
  Proof. intros Hr HT Hna. pose proof (LI_reach E ls0 s Hr). apply nstuck; [done|]. by apply stuck_of. Qed.
  Lemma n_settles ls0 s z x : run (nstep E) ninit ls0 = Some s -> total_from E ->
    runs_on (nstep E) i_own s z x -> fair (nstep E) i_own z x ->
    exists n, (forall m, n <= m -> x m = x n) /\
      ((forall t, nstack (x n) t = []) \/ (exists t, n_aborts E (x n) t) \/
       ((exists t, nstack (x n) t <> []) /\ n_deadlocked E (x n) (λ t, nstack (x n) t <> []))).
  Proof.
    intros Hr HT Hx Hf. pose proof (LI_reach E ls0 s Hr) as HI.
    destruct (settles (nstep E) i_own (LI E) nmu nown_inv nown_mu s z x Hx HI Hf) as (n&Hn&Hm); [by intros; apply nable_dec|].
    exists n. split; [done|]. pose proof (on_inv (nstep E) i_own (LI E) nmu nown_inv nown_mu s z x Hx HI n).
    apply nstuck; [done|]. by apply stuck_of.
  Qed.
  Lemma n_returns ls0 s rk z x : run (nstep E) ninit ls0 = Some s -> total_from E -> n_ordered E rk s -> n_calm s ->
    runs_on (nstep E) i_own s z x -> fair (nstep E) i_own z x ->
    exists n, forall m, n <= m -> forall t, nstack (x m) t = [].
  Proof.
    intros Hr HT Hord Hc Hx Hf. pose proof (LI_reach E ls0 s Hr) as HI.
    destruct (settles (nstep E) i_own (LI E) nmu nown_inv nown_mu s z x Hx HI Hf) as (n&Hn&Hm); [by intros; apply nable_dec|].
    exists n. intros m Hle t. rewrite (Hm m Hle). revert t.
    pose proof (on_inv (nstep E) i_own (LI E) nmu nown_inv nown_mu s z x Hx HI n).
    apply (ordered_stuck E rk); try done; [by apply stuck_of| |].
    - by apply (kept (nstep E) i_own (LI E) nmu nown_inv nown_mu s z x Hx HI); [apply nown_ordered|].
    - intros t. apply calm_no_abort. by apply (kept (nstep E) i_own (LI E) nmu nown_inv nown_mu s z x Hx HI); [apply nown_calm|].
  Qed.
End term.

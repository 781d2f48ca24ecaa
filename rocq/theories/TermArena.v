(** C75 for Arena: every step of a running call, or of the drop of an arena, brings it closer to
    its end. *)
From stdpp Require Import gmap list numbers.
From Verif Require Import Base InternModel InternSpec InternInv InternMore ArenaModel ArenaSpec ArenaInv ArenaStep ArenaWait ArenaLive TermSpec Term.
Require Import ZifyBool ZifyNat ZifyN.

Section term.
  Context {V Q : Type} (E : ienv V Q).
  Implicit Types (st : astate V Q) (o : aop V Q) (f g : aframe V Q) (t r : nat) (lb : alabel V Q) (rk : nat -> nat).
  Notation AInv := (AInv E).

  Definition aleft f : nat :=
    match f with
    | AWait _ _ _ => 9 | AGet _ _ _ => 8 | AConv _ _ _ => 7 | AStore _ _ _ (Some _) => 7 | AStore _ _ _ None => 6
    | AIns _ _ _ _ => 5 | AKill _ _ _ _ false => 4 | AKill _ _ _ _ true => 3 | AMake _ _ _ _ => 3
    | ARel _ _ _ true (AP _) => 3 | ARel _ _ _ _ _ => 2 | AArg _ _ _ true (AP _) => 2 | AArg _ _ _ _ _ => 1
    | ADead _ ps => S (length ps)
    end.
  Lemma aleft_le f : aleft f <= a_most f.
  Proof. destruct f as [| | |? ? ? []| |? ? ? ? []| |? ? ? [] []|? ? ? [] []|]; simpl; lia. Qed.

  Lemma aalloc_threads st a v st1 p : a_alloc E st a v = Some (st1, p) -> a_threads st1 = a_threads st.
  Proof. unfold a_alloc. case_match; [|done]. by intros [= <- _]. Qed.
  Lemma afree_threads st w p st1 : a_free st w p = Some st1 -> a_threads st1 = a_threads st.
  Proof. unfold a_free. repeat case_match; try done. by intros [= <-]. Qed.

  Lemma aown_step st t lb st' : a_own t lb -> astep E st lb = Next st' ->
    exists f k fs, a_stack st t = f :: k /\ a_threads st' = <[t := fs ++ k]> (a_threads st) /\ lsum aleft fs < aleft f /\
      (forall r o b, AWait r o b ∉ fs).
  Proof.
    intros Ho Hs.
    assert (forall st1 f k, a_stack st t = f :: k -> a_threads st1 = a_threads st -> forall f', aleft f' < aleft f ->
      match f' with AWait _ _ _ => False | _ => True end -> a_threads st' = <[t := f' :: k]> (a_threads st1) ->
      exists f k fs, a_stack st t = f :: k /\ a_threads st' = <[t := fs ++ k]> (a_threads st) /\ lsum aleft fs < aleft f /\
      (forall r o b, AWait r o b ∉ fs)) as H1.
    { intros st1 f k Hst Hth f' Hlt Hnw Hth'. exists f, k, [f']. rewrite Hth', Hth. split_and!; [done|done|simpl; lia|].
      intros r o b <-%elem_of_list_singleton. done. }
    assert (forall st1 f k, a_stack st t = f :: k -> a_threads st1 = a_threads st -> 0 < aleft f ->
      a_threads st' = <[t := k]> (a_threads st1) ->
      exists f k fs, a_stack st t = f :: k /\ a_threads st' = <[t := fs ++ k]> (a_threads st) /\ lsum aleft fs < aleft f /\
      (forall r o b, AWait r o b ∉ fs)) as H0.
    { intros st1 f k Hst Hth Hlt Hth'. exists f, k, []. rewrite Hth', Hth. split_and!; [done|done|simpl; lia|].
      intros r o b Hin. by apply elem_of_nil in Hin. }
    destruct lb as [u ty|u r o a|u a i|u v|u|r p|u r]; try done; simpl in Ho; subst u; simpl in Hs.
    - unfold a_step_thread in Hs.
      destruct (a_stack st t) as [|[r o b|r o b|r w q|r o v b|r o b p|r o b p pn|r o b p|r o b m x|r o b m x|r ps] k] eqn:Hst in Hs; try done.
      + case_match; [done|]. injection Hs as <-. (eapply (H1 st); [exact Hst|done| | |reflexivity]); first [(simpl; lia)|done].
      + case_match; [|done]. destruct (ipick i _) as [p|]; [|destruct o; try done; [..|destruct b; [|done]]]; injection Hs as <-;
          (eapply (H1 st); [exact Hst|done| | |reflexivity]); first [done|(simpl; repeat case_match; lia)].
      + destruct b as [p|].
        * destruct (a_free st None p) as [st1|] eqn:Hf; [|done]. injection Hs as <-.
          (eapply (H1 st1); [exact Hst|by eapply afree_threads| | |reflexivity]); first [(simpl; lia)|done].
        * destruct (a_alloc E st a v) as [[st1 p]|] eqn:Ha; [|done]. injection Hs as <-.
          (eapply (H1 st1); [exact Hst|by eapply aalloc_threads| | |reflexivity]); first [(simpl; lia)|done].
      + repeat (case_match; try done); injection Hs as <-;
          (eapply (H1 st); [exact Hst|done| | |reflexivity]); first [(simpl; lia)|done].
      + destruct (a_free st None p) as [st1|] eqn:Hf; [|done]. injection Hs as <-.
        (eapply (H1 st1); [exact Hst|by eapply afree_threads| | |reflexivity]); destruct pn; first [(simpl; lia)|done].
      + case_match; [|done]. injection Hs as <-.
        (eapply (H1 st); [exact Hst|done| | |reflexivity]); first [(simpl; lia)|done].
      + injection Hs as <-. (eapply (H1 st); [exact Hst|done| | |reflexivity]); destruct x, m; first [(simpl; lia)|done].
      + destruct (a_free_opt st _) as [st1|] eqn:Hf; [|done]. injection Hs as <-.
        apply (H0 st1 _ k Hst); [|destruct x, m; simpl; lia|done].
        unfold a_free_opt in Hf. repeat case_match; try (by injection Hf as <-); by eapply afree_threads.
      + destruct ps as [|p ps].
        * injection Hs as <-. by apply (H0 st _ k Hst); [|simpl; lia|].
        * destruct (a_free st _ p) as [st1|] eqn:Hf; [|done]. injection Hs as <-.
          (eapply (H1 st1); [exact Hst|by eapply afree_threads| | |reflexivity]); first [(simpl; lia)|done].
    - destruct (a_stack st t) as [|[] k] eqn:Hst in Hs; try done. case_match; [|done]. injection Hs as <-.
      (eapply (H1 st); [exact Hst|done| | |reflexivity]); first [(simpl; lia)|done].
    - unfold a_step_panic in Hs.
      destruct (a_stack st t) as [|[r o b|r o b|r w q|r o v b|r o b p|r o b p pn|r o b p|r o b m x|r o b m x|r ps] k] eqn:Hst in Hs; try done.
      + injection Hs as <-. (eapply (H1 st); [exact Hst|done| | |reflexivity]); first [(simpl; lia)|done].
      + injection Hs as <-. (eapply (H1 st); [exact Hst|done| | |reflexivity]); first [(simpl; lia)|done].
      + injection Hs as <-. (eapply (H1 st); [exact Hst|done| | |reflexivity]); first [(simpl; lia)|done].
      + destruct pn; [done|]. injection Hs as <-. (eapply (H1 st); [exact Hst|done| | |reflexivity]); first [(simpl; lia)|done].
      + destruct x; [|done]. destruct m; [|by destruct o]. destruct (a_drops o true); [|done]. injection Hs as <-.
        (eapply (H1 st); [exact Hst|done| | |reflexivity]); first [(simpl; lia)|done].
      + destruct ps as [|p ps]; [done|]. destruct (a_free st _ p) as [st1|] eqn:Hf; [|done]. injection Hs as <-.
        apply (H0 st1 _ k Hst); [by eapply afree_threads|simpl; lia|done].
  Qed.

  Definition amu st : nat := msum (lsum aleft) (a_threads st).
  Definition AS st : Prop := AInv st /\ a_safe E st.
  Lemma aown_inv st t lb st' : AInv st -> a_own t lb -> astep E st lb = Next st' -> AInv st'.
  Proof. intros HI _ Hs. by eapply astep_inv. Qed.
  Lemma aown_mu st t lb st' : AInv st -> a_own t lb -> astep E st lb = Next st' -> amu st' < amu st.
  Proof.
    intros _ Ho Hs. destruct (aown_step _ _ _ _ Ho Hs) as (f&k&fs&Hst&Hth&Hlt&_). unfold amu. rewrite Hth. by eapply msum_top.
  Qed.
  Lemma as_inv st t lb st' : AS st -> a_own t lb -> astep E st lb = Next st' -> AS st'.
  Proof. intros [HI HS] _ Hs. split; [by eapply astep_inv|by eapply a_safe_step]. Qed.
  Lemma as_mu st t lb st' : AS st -> a_own t lb -> astep E st lb = Next st' -> amu st' < amu st.
  Proof. intros [HI _]. by apply aown_mu. Qed.
  Lemma aown_ordered rk st t lb st' : AS st -> a_own t lb -> astep E st lb = Next st' -> a_ordered rk st -> a_ordered rk st'.
  Proof.
    intros _ Ho Hs Hord. destruct (aown_step _ _ _ _ Ho Hs) as (f&k&fs&Hst&Hth&_&Hnw).
    intros u k1 r o b k2 Hst' g r' Hg. unfold a_stack in Hst'. rewrite Hth in Hst'.
    destruct (decide (t = u)) as [<-|Hne]; [|rewrite lookup_insert_ne in Hst' by done; by apply (Hord u k1 r o b k2)].
    rewrite lookup_insert in Hst'. simpl in Hst'.
    assert (exists k0, k = k0 ++ AWait r o b :: k2) as [k0 ->].
    { clear -Hst' Hnw. revert k1 Hst'. induction fs as [|x fs IH]; intros k1 Heq; [by exists k1|].
      destruct k1 as [|y k1]; simpl in Heq; injection Heq as Hx Heq; subst x.
      - exfalso. apply (Hnw r o b). by left.
      - apply IH in Heq; [done|]. intros r1 o' b' Hin. apply (Hnw r1 o' b'). by right. }
    by apply (Hord t (f :: k0) r o b k2).
  Qed.

  Lemma aquiet_own lb t : a_quiet lb -> l_thread lb = Some t -> a_own t lb.
  Proof. destruct lb; try done; simpl; congruence. Qed.
  Lemma aable st t f k : AS st -> total_from E -> a_stack st t = f :: k -> ~ a_waiting st f -> able (astep E) a_own st t.
  Proof.
    intros [HI HS] HT Hst Hw. destruct (athread_steps E st t f k HI HT Hst Hw) as (lb&Hq&Hl&[Hu|(st'&fs'&Hs&_)]).
    { exfalso. apply (HS [lb]). simpl. unfold exec. by rewrite Hu. }
    exists lb, st'. split; [by apply aquiet_own|done].
  Qed.
  Lemma awaiting_dec st f : a_waiting st f \/ ~ a_waiting st f.
  Proof.
    destruct f as [r o b| | | | | | | | |]; try (right; intros (?&?&?&?&?); done).
    destruct (a_locks st !! r) eqn:Hl.
    - left. exists r, o, b. by rewrite Hl.
    - right. intros (r'&o'&b'&[= <- <- <-]&Hw). rewrite Hl in Hw. by destruct Hw.
  Qed.

  Lemma astuck st : AS st -> total_from E -> (forall t, ~ able (astep E) a_own st t) ->
    (forall t, a_stack st t = []) \/
    ((exists t, a_stack st t <> []) /\ a_deadlocked st (λ t, a_stack st t <> [])).
  Proof.
    intros HI HT Hna.
    destruct (decide (map_Forall (λ _ k, k = []) (a_threads st))) as [Hemp|Hne].
    { left. intros t. unfold a_stack. destruct (a_threads st !! t) as [k|] eqn:Ht; [|done]. by apply Hemp in Ht. }
    right. split.
    { apply map_not_Forall in Hne as (t&k&Ht&Hk); [|intros ? []; [by left|by right]]. exists t. unfold a_stack. by rewrite Ht. }
    assert (forall t, a_stack st t <> [] -> exists r o b k, a_stack st t = AWait r o b :: k /\ is_Some (a_locks st !! r)) as Hw.
    { intros t Ht. destruct (a_stack st t) as [|f k] eqn:Hst; [done|].
      destruct (awaiting_dec st f) as [(r&o&b&->&Hw)|Hw]; [by exists r, o, b, k|]. destruct (Hna t). by eapply aable. }
    intros t Ht. destruct (Hw t Ht) as (r&o&b&k&Hst&Hl). destruct (aholder E st _ (proj1 HI) Hl) as (u&g&Hg&Hh).
    assert (a_stack st u <> []) as Hu. { intros Hu. rewrite Hu in Hg. by apply elem_of_nil in Hg. }
    destruct (Hw u Hu) as (r'&o'&b'&k'&Hstu&_). exists r, o, b, k, u, (AWait r' o' b'), k', g. split_and!; try done.
    rewrite Hstu in Hg. apply elem_of_cons in Hg as [->|Hg]; [by destruct Hh|done].
  Qed.
  Lemma astuck_ordered rk st : AS st -> total_from E -> (forall t, ~ able (astep E) a_own st t) -> a_ordered rk st ->
    forall t, a_stack st t = [].
  Proof.
    intros HI HT Hna Ho t. destruct (a_stack st t) as [|f k] eqn:Hst; [done|exfalso].
    destruct (awaiting_dec st f) as [(r&o&b&->&Hw)|Hw]; [|apply (Hna t); by eapply aable].
    destruct (a_some_can_step E rk st _ (proj1 HI) Ho Hw) as (u&f'&k'&Hu&Hn). apply (Hna u). by eapply aable.
  Qed.
  Lemma aable_dec st : AS st -> total_from E -> (exists t, able (astep E) a_own st t) \/ forall t, ~ able (astep E) a_own st t.
  Proof.
    intros HI HT.
    set (P := λ (_ : nat) (k : list (aframe V Q)), match k with
      | AWait r _ _ :: _ => match a_locks st !! r with Some _ => true | None => false end
      | [] => true | _ => false end = true).
    assert (forall t k, Decision (P t k)) as Hdec by (intros; unfold P; apply _).
    destruct (decide (map_Forall P (a_threads st))) as [Hall|Hsome].
    - right. intros t (lb&st'&Ho&Hs). destruct (aown_step _ _ _ _ Ho Hs) as (f&k&fs&Hst&_).
      pose proof Hst as Ht. unfold a_stack in Ht. destruct (a_threads st !! t) as [k'|] eqn:Hk; [|done]. simpl in Ht. subst k'.
      apply Hall in Hk as Hp. unfold P in Hp. destruct f as [r o b| | | | | | | | |]; try done.
      destruct (a_locks st !! r) eqn:Hl; [|done].
      destruct lb; try done; simpl in Ho; subst; simpl in Hs; unfold a_step_thread, a_step_panic in Hs; rewrite Hst in Hs; try done.
      by rewrite Hl in Hs.
    - left. apply map_not_Forall in Hsome as (t&k&Ht&Hk); [|apply Hdec]. unfold P in Hk. exists t.
      destruct k as [|f k]; [done|]. apply (aable st t f k); [done|done|unfold a_stack; by rewrite Ht|].
      intros (r&o&b&->&[x Hx]). by rewrite Hx in Hk.
  Qed.

  (** ** The theorems *)
  Lemma a_bounded ls0 st ls : run (astep E) ainit ls0 = Some st -> (forall lb, lb ∈ ls -> exists t, a_own t lb) ->
    taken (astep E) st ls <= weigh a_most (a_threads st).
  Proof.
    intros Hr Ho. rewrite weigh_msum.
    pose proof (taken_le (astep E) a_own AInv amu aown_inv aown_mu ls st (areach_inv E ls0 st Hr) Ho) as Hle.
    pose proof (msum_lsum_mono aleft a_most (a_threads st) aleft_le). unfold amu in Hle. lia.
  Qed.
  Lemma as_reach ls0 st : (forall o, a_sound E o) -> run (astep E) ainit ls0 = Some st -> AS st.
  Proof. intros HS Hr. split; [by eapply areach_inv|by eapply a_safe_reach]. Qed.
  Lemma a_stuck ls0 st : (forall o, a_sound E o) -> run (astep E) ainit ls0 = Some st -> total_from E ->
    (forall t, ~ able (astep E) a_own st t) ->
    (forall t, a_stack st t = []) \/
    ((exists t, a_stack st t <> []) /\ a_deadlocked st (λ t, a_stack st t <> [])).
  Proof. intros HS Hr. apply astuck. by eapply as_reach. Qed.
  Lemma a_settles ls0 st s x : (forall o, a_sound E o) -> run (astep E) ainit ls0 = Some st -> total_from E ->
    runs_on (astep E) a_own st s x -> fair (astep E) a_own s x ->
    exists n, (forall m, n <= m -> x m = x n) /\
      ((forall t, a_stack (x n) t = []) \/
       ((exists t, a_stack (x n) t <> []) /\ a_deadlocked (x n) (λ t, a_stack (x n) t <> []))).
  Proof.
    intros HS Hr HT Hx Hf. pose proof (as_reach ls0 st HS Hr) as HI.
    destruct (settles (astep E) a_own AS amu as_inv as_mu st s x Hx HI Hf) as (n&Hn&Hm); [by intros; apply aable_dec|].
    exists n. split; [done|]. apply astuck; try done. by apply (on_inv (astep E) a_own AS amu as_inv as_mu st s x Hx HI).
  Qed.
  Lemma a_returns ls0 st rk s x : (forall o, a_sound E o) -> run (astep E) ainit ls0 = Some st -> total_from E -> a_ordered rk st ->
    runs_on (astep E) a_own st s x -> fair (astep E) a_own s x ->
    exists n, forall m, n <= m -> forall t, a_stack (x m) t = [].
  Proof.
    intros HS Hr HT Hord Hx Hf. pose proof (as_reach ls0 st HS Hr) as HI.
    destruct (settles (astep E) a_own AS amu as_inv as_mu st s x Hx HI Hf) as (n&Hn&Hm); [by intros; apply aable_dec|].
    exists n. intros m Hle t. rewrite (Hm m Hle). revert t. apply (astuck_ordered rk); try done.
    - by apply (on_inv (astep E) a_own AS amu as_inv as_mu st s x Hx HI).
    - by apply (kept (astep E) a_own AS amu as_inv as_mu st s x Hx HI); [apply aown_ordered|].
  Qed.
End term.

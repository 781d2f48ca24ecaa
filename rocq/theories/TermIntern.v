(** C75 for Intern: every step of a running call brings it closer to its end. *)
From stdpp Require Import gmap list numbers.
From Verif Require Import Base InternModel InternSpec InternInv InternStep InternLaw InternFinal InternMore InternLive TermSpec Term.
Require Import ZifyBool ZifyNat ZifyN.

Section term.
  Context {V Q : Type} (E : ienv V Q).
  Implicit Types (st : istate V Q) (o : iop V Q) (f g : frame V Q) (t ty : nat) (lb : ilabel V Q).
  Notation slot := (slot E).
  Notation op_ty := (op_ty E).
  Notation IInv := (IInv E).

  (** How many steps a call can take, counting panics. *)
  Definition ileft f : nat :=
    match f with
    | FWait _ _ => 6 | FGet _ _ => 5 | FConv _ _ _ => 4 | FStore _ _ => 3 | FIns _ _ => 2
    | FDup _ _ RPanic => 2 | FDup _ _ _ => 3 | FDone _ _ => 1
    end.
  Lemma ileft_le f : ileft f <= 6.
  Proof. destruct f as [| | | | |? ? []|]; simpl; lia. Qed.

  Lemma ialloc_threads st a v b st1 p : ialloc E st a v b = Some (st1, p) -> i_threads st1 = i_threads st.
  Proof. unfold ialloc. case_match; [|done]. by intros [= <- _]. Qed.
  Lemma ifree_threads st p st1 : ifree st p = Some st1 -> i_threads st1 = i_threads st.
  Proof. unfold ifree. repeat case_match; try done. by intros [= <-]. Qed.
  Lemma ileak_threads st p st1 : ileak st p = Some st1 -> i_threads st1 = i_threads st.
  Proof. unfold ileak. repeat case_match; try done. by intros [= <-]. Qed.

  Lemma iown_step st t lb st' : i_own t lb -> istep E st lb = Next st' ->
    exists f k fs, get_stack st t = f :: k /\ i_threads st' = <[t := fs ++ k]> (i_threads st) /\ lsum ileft fs < ileft f /\
      (forall o b, FWait o b ∉ fs).
  Proof.
    intros Ho Hs.
    assert (forall st1 f k, get_stack st t = f :: k -> i_threads st1 = i_threads st -> forall f', ileft f' < ileft f ->
      match f' with FWait _ _ => False | _ => True end -> i_threads st' = <[t := f' :: k]> (i_threads st1) ->
      exists f k fs, get_stack st t = f :: k /\ i_threads st' = <[t := fs ++ k]> (i_threads st) /\ lsum ileft fs < ileft f /\
      (forall o b, FWait o b ∉ fs)) as H1.
    { intros st1 f k Hst Hth f' Hlt Hnw Hth'. exists f, k, [f']. rewrite Hth', Hth. split_and!; [done|done|simpl; lia|].
      intros o b <-%elem_of_list_singleton. done. }
    destruct lb as [u o a|u a i|u v|u|p]; try done; simpl in Ho; subst u; simpl in Hs.
    - unfold istep_thread in Hs. destruct (get_stack st t) as [|[o b|o b|ty w q|o v|o p|o b r|o r] k] eqn:Hst in Hs; try done.
      + repeat (case_match; try done); injection Hs as <-; (eapply (H1 st); [exact Hst|reflexivity| | |reflexivity]); first [(simpl; lia)|done].
      + destruct (ireadable st _); [|done].
        destruct (ipick i _) as [p|]; destruct o; try done;
          try (injection Hs as <-; (eapply (H1 st); [exact Hst|reflexivity| | |reflexivity]); first [(simpl; lia)|done]).
        destruct b as [p|]; [|done]. destruct (ileak st p) as [st1|] eqn:Hl; [|done]. injection Hs as <-.
        (eapply (H1 st1); [exact Hst|by eapply ileak_threads| | |reflexivity]); first [(simpl; lia)|done].
      + destruct (ialloc E st a v true) as [[st1 p]|] eqn:Ha; [|done]. injection Hs as <-.
        (eapply (H1 st1); [exact Hst|by eapply ialloc_threads| | |reflexivity]); first [(simpl; lia)|done].
      + repeat (case_match; try done); injection Hs as <-; (eapply (H1 st); [exact Hst|reflexivity| | |reflexivity]); first [(simpl; lia)|done].
      + destruct b as [p|].
        * destruct (ifree st p) as [st1|] eqn:Hl; [|done]. injection Hs as <-.
          (eapply (H1 st1); [exact Hst|by eapply ifree_threads| | |reflexivity]); first [(destruct r; simpl; lia)|done].
        * injection Hs as <-. (eapply (H1 st); [exact Hst|reflexivity| | |reflexivity]); first [(destruct r; simpl; lia)|done].
      + injection Hs as <-. exists (FDone o r), k, []. split_and!; [done|done|simpl; lia|].
        intros o' b' Hin. by apply elem_of_nil in Hin.
    - destruct (get_stack st t) as [|[o b|o b|ty w q|o v'|o p|o b r|o r] k] eqn:Hst in Hs; try done.
      destruct (ie_from E w q v && _); [|done]. injection Hs as <-. (eapply (H1 st); [exact Hst|reflexivity| | |reflexivity]); first [(simpl; lia)|done].
    - unfold istep_panic in Hs. destruct (get_stack st t) as [|[o b|o b|ty w q|o v|o p|o b r|o r] k] eqn:Hst in Hs; try done.
      all: try (injection Hs as <-; (eapply (H1 st); [exact Hst|reflexivity| | |reflexivity]); first [(simpl; lia)|done]).
      destruct r; try done; injection Hs as <-; (eapply (H1 st); [exact Hst|reflexivity| | |reflexivity]); first [(simpl; lia)|done].
  Qed.

  Definition imu st : nat := msum (lsum ileft) (i_threads st).
  Lemma iown_inv st t lb st' : IInv st -> i_own t lb -> istep E st lb = Next st' -> IInv st'.
  Proof. intros HI _ Hs. by eapply istep_inv. Qed.
  Lemma iown_mu st t lb st' : IInv st -> i_own t lb -> istep E st lb = Next st' -> imu st' < imu st.
  Proof.
    intros _ Ho Hs. destruct (iown_step _ _ _ _ Ho Hs) as (f&k&fs&Hst&Hth&Hlt&_). unfold imu. rewrite Hth. by eapply msum_top.
  Qed.
  Lemma iown_ordered st t lb st' : IInv st -> i_own t lb -> istep E st lb = Next st' -> ordered E st -> ordered E st'.
  Proof.
    intros _ Ho Hs Hord. destruct (iown_step _ _ _ _ Ho Hs) as (f&k&fs&Hst&Hth&_&Hnw).
    intros u k1 o b k2 Hst' g Hg. unfold get_stack in Hst'. rewrite Hth in Hst'.
    destruct (decide (t = u)) as [<-|Hne]; [|rewrite lookup_insert_ne in Hst' by done; by apply (Hord u k1 o b k2)].
    rewrite lookup_insert in Hst'. simpl in Hst'.
    assert (exists k0, k = k0 ++ FWait o b :: k2) as [k0 ->].
    { clear -Hst' Hnw. revert k1 Hst'. induction fs as [|x fs IH]; intros k1 Heq; [by exists k1|].
      destruct k1 as [|y k1]; simpl in Heq; injection Heq as Hx Heq; subst x.
      - exfalso. apply (Hnw o b). by left.
      - apply IH in Heq; [done|]. intros o' b' Hin. apply (Hnw o' b'). by right. }
    by apply (Hord t (f :: k0) o b k2).
  Qed.

  Lemma quiet_own lb t : quiet lb -> lab_thread lb = Some t -> i_own t lb.
  Proof. destruct lb; try done; simpl; congruence. Qed.
  Lemma iable st t f k : IInv st -> total_from E -> get_stack st t = f :: k -> ~ waiting E st f -> able (istep E) i_own st t.
  Proof.
    intros HI HT Hst Hw. destruct (thread_steps E st t f k HI HT Hst Hw) as (lb&st'&fs'&st1&Hs&Hq&Hlb&_).
    exists lb, st'. split; [by apply quiet_own|done].
  Qed.
  Lemma waiting_dec st f : waiting E st f \/ ~ waiting E st f.
  Proof.
    destruct f as [o b|o b|ty w q|o v|o p|o b r|o r]; try (right; intros (?&?&?&?); done).
    destruct (i_locks st !! slot (op_ty o)) eqn:Hl.
    - left. exists o, b. by rewrite Hl.
    - right. intros (o'&b'&[= <- <-]&Hw). rewrite Hl in Hw. by destruct Hw.
  Qed.

  (** When nobody can step, everything is finished or deadlocked. *)
  Lemma istuck st : IInv st -> total_from E -> (forall t, ~ able (istep E) i_own st t) ->
    (forall t, get_stack st t = []) \/
    ((exists t, get_stack st t <> []) /\ deadlocked E st (λ t, get_stack st t <> [])).
  Proof.
    intros HI HT Hna.
    destruct (decide (map_Forall (λ _ k, k = []) (i_threads st))) as [Hemp|Hne].
    { left. intros t. unfold get_stack. destruct (i_threads st !! t) as [k|] eqn:Ht; [|done]. by apply Hemp in Ht. }
    right. split.
    { apply map_not_Forall in Hne as (t&k&Ht&Hk); [|apply _]. exists t. unfold get_stack. by rewrite Ht. }
    assert (forall t, get_stack st t <> [] -> exists o b k, get_stack st t = FWait o b :: k /\ is_Some (i_locks st !! slot (op_ty o))) as Hw.
    { intros t Ht. destruct (get_stack st t) as [|f k] eqn:Hst; [done|].
      destruct (waiting_dec st f) as [(o&b&->&Hw)|Hw]; [by exists o, b, k|]. destruct (Hna t). by eapply iable. }
    intros t Ht. destruct (Hw t Ht) as (o&b&k&Hst&Hl). destruct (holder E st _ HI Hl) as (u&g&Hg&Hh).
    assert (get_stack st u <> []) as Hu. { intros Hu. rewrite Hu in Hg. by apply elem_of_nil in Hg. }
    destruct (Hw u Hu) as (o'&b'&k'&Hstu&_). exists o, b, k, u, (FWait o' b'), k', g. split_and!; try done.
    - rewrite Hstu in Hg. by apply elem_of_cons in Hg as [->|Hg].
    - by apply holds_held.
  Qed.
  Lemma istuck_ordered st : IInv st -> total_from E -> (forall t, ~ able (istep E) i_own st t) -> ordered E st ->
    forall t, get_stack st t = [].
  Proof.
    intros HI HT Hna Ho t. destruct (get_stack st t) as [|f k] eqn:Hst; [done|exfalso].
    destruct (waiting_dec st f) as [(o&b&->&Hw)|Hw]; [|apply (Hna t); by eapply iable].
    destruct (some_can_step E st _ HI Ho Hw) as (u&f'&k'&Hu&Hn). apply (Hna u). by eapply iable.
  Qed.
  (** Somebody can step or nobody can. *)
  Lemma iable_dec st : IInv st -> total_from E -> (exists t, able (istep E) i_own st t) \/ forall t, ~ able (istep E) i_own st t.
  Proof.
    intros HI HT.
    set (P := λ (_ : nat) (k : list (frame V Q)), match k with
      | FWait o _ :: _ => match i_locks st !! slot (op_ty o) with Some _ => true | None => false end
      | [] => true | _ => false end = true).
    assert (forall t k, Decision (P t k)) as Hdec by (intros; unfold P; apply _).
    destruct (decide (map_Forall P (i_threads st))) as [Hall|Hsome].
    - right. intros t (lb&st'&Ho&Hs). destruct (iown_step _ _ _ _ Ho Hs) as (f&k&fs&Hst&_).
      unfold get_stack in Hst. destruct (i_threads st !! t) as [k'|] eqn:Ht; [|done]. simpl in Hst. subst k'.
      apply Hall in Ht as Hp. unfold P in Hp. destruct f as [o b|o b|ty w q|o v|o p|o b r|o r]; try done.
      destruct (i_locks st !! slot (op_ty o)) eqn:Hl; [|done].
      assert (get_stack st t = FWait o b :: k) as Hst by (unfold get_stack; by rewrite Ht).
      destruct lb; try done; simpl in Ho; subst; simpl in Hs; unfold istep_thread, istep_panic in Hs; rewrite Hst in Hs; try done.
      by rewrite Hl in Hs.
    - left. apply map_not_Forall in Hsome as (t&k&Ht&Hk); [|apply Hdec]. unfold P in Hk. exists t.
      destruct k as [|f k]; [done|]. apply (iable st t f k); [done|done|unfold get_stack; by rewrite Ht|].
      intros (o&b&->&[x Hx]). by rewrite Hx in Hk.
  Qed.

  (** ** The theorems *)
  Lemma i_bounded ls0 st ls : run (istep E) iinit ls0 = Some st -> (forall lb, lb ∈ ls -> exists t, i_own t lb) ->
    taken (istep E) st ls <= 6 * weigh (λ _, 1) (i_threads st).
  Proof.
    intros Hr Ho. rewrite weigh_msum, <- msum_const.
    pose proof (taken_le (istep E) i_own IInv imu iown_inv iown_mu ls st (reach_inv E ls0 st Hr) Ho) as Hle.
    pose proof (msum_lsum_mono ileft (λ _, 6) (i_threads st) ileft_le). unfold imu in Hle. lia.
  Qed.
  Lemma i_stuck ls0 st : run (istep E) iinit ls0 = Some st -> total_from E -> (forall t, ~ able (istep E) i_own st t) ->
    (forall t, get_stack st t = []) \/
    ((exists t, get_stack st t <> []) /\ deadlocked E st (λ t, get_stack st t <> [])).
  Proof. intros Hr. apply istuck. by eapply reach_inv. Qed.
  Lemma i_settles ls0 st s x : run (istep E) iinit ls0 = Some st -> total_from E ->
    runs_on (istep E) i_own st s x -> fair (istep E) i_own s x ->
    exists n, (forall m, n <= m -> x m = x n) /\
      ((forall t, get_stack (x n) t = []) \/
       ((exists t, get_stack (x n) t <> []) /\ deadlocked E (x n) (λ t, get_stack (x n) t <> []))).
  Proof.
    intros Hr HT Hx Hf. pose proof (reach_inv E ls0 st Hr) as HI.
    destruct (settles (istep E) i_own IInv imu iown_inv iown_mu st s x Hx HI Hf) as (n&Hn&Hm); [by intros; apply iable_dec|].
    exists n. split; [done|]. apply istuck; try done. by apply (on_inv (istep E) i_own IInv imu iown_inv iown_mu st s x Hx HI).
  Qed.
  Lemma i_returns ls0 st s x : run (istep E) iinit ls0 = Some st -> total_from E -> ordered E st ->
    runs_on (istep E) i_own st s x -> fair (istep E) i_own s x ->
    exists n, forall m, n <= m -> forall t, get_stack (x m) t = [].
  Proof.
    intros Hr HT Hord Hx Hf. pose proof (reach_inv E ls0 st Hr) as HI.
    destruct (settles (istep E) i_own IInv imu iown_inv iown_mu st s x Hx HI Hf) as (n&Hn&Hm); [by intros; apply iable_dec|].
    exists n. intros m Hle t. rewrite (Hm m Hle). revert t. apply istuck_ordered; try done.
    - by apply (on_inv (istep E) i_own IInv imu iown_inv iown_mu st s x Hx HI).
    - by apply (kept (istep E) i_own IInv imu iown_inv iown_mu st s x Hx HI); [apply iown_ordered|].
  Qed.
End term.

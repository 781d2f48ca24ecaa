(** Whenever a program reads through a reference of an arena, the machine of its block knows a reference
    that was handed out: the reads of [AliasArenaModel] are there. *)
From stdpp Require Import gmap list numbers.
From Verif Require Import Base InternModel InternSpec InternInv InternStep ArenaModel ArenaSpec ArenaInv ArenaStep ArenaFinal AliasModel AliasArenaModel AliasTrack AliasStackArena AliasStackBad.

Section hands.
  Context (M : machine) (n m : nat) {V Q : Type} (E : ienv V Q).
  Implicit Types (st : astate V Q) (g : gmap nat (bobj M)) (x : bobj M).

  Lemma ev_hands e x x' : b_ev M e x = Some x' -> bo_hands x' = bo_hands x.
  Proof. unfold b_ev. case_match; [|done]. by intros [= <-]. Qed.
  Lemma ref_hands k t pr x x' t' : b_ref M k t pr x = Some (x', t') -> bo_hands x' = bo_hands x.
  Proof. unfold b_ref. case_match; [|done]. by intros [= <- _]. Qed.
  Lemma enter_hands i : forall x x', b_enter M i x = Some x' -> bo_hands x' = bo_hands x.
  Proof.
    induction i as [|i IH]; intros x x'; cbn [b_enter]; [congruence|].
    destruct (b_ref M _ _ _ x) as [[x1 t]|] eqn:H1; [|done]. intros ->%IH. simpl. by eapply ref_hands.
  Qed.
  Lemma leave_hands i : forall t x x', b_leave M i t x = Some x' -> bo_hands x' = bo_hands x.
  Proof.
    induction i as [|i IH]; intros t x x'; cbn [b_leave]; [congruence|].
    destruct (b_ev M _ x) as [x1|] eqn:H1; [|done]. intros ->%IH. by eapply ev_hands.
  Qed.
  Lemma look_hands x x' : b_look M x = Some x' -> bo_hands x' = bo_hands x.
  Proof.
    unfold b_look. destruct (b_ref M _ _ _ x) as [[x1 k]|] eqn:H1; [|done]. destruct (b_ev M _ x1) as [x2|] eqn:H2; [|done].
    intros H3. by rewrite (ev_hands _ _ _ H3), (ev_hands _ _ _ H2), (ref_hands _ _ _ _ _ _ H1).
  Qed.
  Lemma do_hands o x x' : b_do M n m o x = Some x' -> o <> OAlloc -> exists ks, bo_hands x' = bo_hands x ++ ks /\
    match o with OHit | ODeref => ks <> [] | _ => True end.
  Proof.
    intros H Ho. destruct o as [| | | | | |j|]; cbn [b_do] in H; [done| | | | | | |].
    - exists []. rewrite app_nil_r. split; [by apply look_hands|done].
    - destruct (b_enter M m x) as [x1|] eqn:H1; [|done]. destruct (b_leave M m _ x1) as [x2|] eqn:H2; [|done].
      destruct (b_ref M _ _ _ x2) as [[x3 k]|] eqn:H3; [|done]. simplify_eq. exists []. rewrite app_nil_r. simpl.
      by rewrite (ref_hands _ _ _ _ _ _ H3), (leave_hands _ _ _ _ H2), (enter_hands _ _ _ H1).
    - destruct (b_enter M n x) as [x1|] eqn:H1; [|done]. destruct (b_look M x1) as [x2|] eqn:H2; [|done].
      exists []. rewrite app_nil_r. by rewrite (leave_hands _ _ _ _ H), (look_hands _ _ H2), (enter_hands _ _ _ H1).
    - destruct (b_ref M _ _ _ x) as [[x1 k]|] eqn:H1; [|done]. simplify_eq. exists [k]. simpl. by rewrite (ref_hands _ _ _ _ _ _ H1).
    - destruct (b_ref M _ _ _ x) as [[x1 k]|] eqn:H1; [|done]. destruct (b_ref M _ _ _ x1) as [[x2 k']|] eqn:H2; [|done].
      simplify_eq. exists [k']. simpl. by rewrite (ref_hands _ _ _ _ _ _ H2), (ref_hands _ _ _ _ _ _ H1).
    - destruct (bo_hands x !! _) as [k|] eqn:Hk; [|simplify_eq; exists []; by rewrite app_nil_r].
      destruct (b_ref M _ _ _ x) as [[x1 k']|] eqn:H1; [|done]. destruct (b_ev M _ x1) as [x2|] eqn:H2; [|done].
      destruct (b_ev M _ x2) as [x3|] eqn:H3; [|done]. simplify_eq. exists [k']. simpl.
      by rewrite (ev_hands _ _ _ H3), (ev_hands _ _ _ H2), (ref_hands _ _ _ _ _ _ H1).
    - destruct (b_enter M m x) as [x1|] eqn:H1; [|done]. destruct (b_leave M m _ x1) as [x2|] eqn:H2; [|done].
      destruct (b_ref M _ _ _ x2) as [[x3 k]|] eqn:H3; [|done]. destruct (b_ev M _ x3) as [x4|] eqn:H4; [|done].
      destruct (b_ev M _ x4) as [x5|] eqn:H5; [|done]. exists []. rewrite app_nil_r.
      by rewrite (ev_hands _ _ _ H), (ev_hands _ _ _ H5), (ev_hands _ _ _ H4), (ref_hands _ _ _ _ _ _ H3), (leave_hands _ _ _ _ H2), (enter_hands _ _ _ H1).
  Qed.

  Definition fine g s : Prop := forall x, g !! s = Some x -> bo_hands x <> [].
  Definition gives (o : bop) : Prop := match o with OHit | ODeref => True | _ => False end.
  Lemma fine_apply g g' y s : b_apply M n m g y = Some g' -> y <> (s, OAlloc) -> fine g s \/ (y.1 = s /\ gives y.2) -> fine g' s.
  Proof.
    destruct y as [s' o]. unfold b_apply. cbn [fst snd]. intros H Hy Hf.
    destruct (decide (s' = s)) as [->|Hne].
    - assert (o <> OAlloc) as Ho by congruence. destruct (g !! s) as [x|] eqn:Hx.
      + assert (o = OKill \/ o <> OKill) as [->|Hk] by (destruct o; (by left) || by right).
        { destruct (b_do M n m OKill x); [|done]. simplify_eq. intros y. by rewrite lookup_delete. }
        destruct (b_do M n m o x) as [x'|] eqn:Hd.
        2:{ destruct o; try done; by rewrite ?Hd in H. }
        assert (g' = <[s:=x']> g) as -> by (destruct o; try done; rewrite ?Hd in H; by simplify_eq).
        destruct (do_hands _ _ _ Hd Ho) as (ks&Hks&Hg). intros y. rewrite lookup_insert. intros [= <-]. rewrite Hks.
        intros [Hnil ->]%app_eq_nil. destruct Hf as [Hf|[_ Hf]]; [by apply (Hf x)|]. by destruct o.
      + assert (g' = g) as -> by (destruct o; by simplify_eq). intros x. by rewrite Hx.
    - destruct Hf as [Hf|[? _]]; [|done]. intros x Hx. apply (Hf x). rewrite <- Hx.
      destruct o, (g !! s') as [x0|]; repeat (case_match; try done); simplify_eq; rewrite ?lookup_insert_ne, ?lookup_delete_ne by done; done.
  Qed.
  Lemma fine_applys ys : forall g g' s, b_applys M n m ys g = Some g' -> (s, OAlloc) ∉ ys ->
    fine g s \/ (exists o, gives o /\ (s, o) ∈ ys) -> fine g' s.
  Proof.
    induction ys as [|y ys IH]; intros g g' s H Hn Hf; cbn [b_applys] in H.
    - simplify_eq. destruct Hf as [?|(o&_&?%elem_of_nil)]; done.
    - destruct (b_apply M n m g y) as [g1|] eqn:H1; [|done]. apply not_elem_of_cons in Hn as [Hy Hn].
      apply (IH g1 g' s H Hn). destruct Hf as [Hf|(o&Ho&Hin)].
      + left. by eapply fine_apply; [..|left].
      + apply elem_of_cons in Hin as [<-|Hin]; [|right; by exists o]. left. by eapply fine_apply; [..|right].
  Qed.

  (** Where results come from. *)
  Lemma ret_move st st' t fs fs' k es r p : is_ret st' r p -> a_stack st t = fs ++ k -> a_threads st' = <[t:=fs' ++ k]> (a_threads st) ->
    a_log st' = es ++ a_log st ->
    (exists f, f ∈ fs' /\ f_ret f = Some (r, p)) \/ (exists u o b, AvRet u r o b (AP p) ∈ es) \/ is_ret st r p.
  Proof.
    intros [(u&f&Hf&Hp)|(u&o&b&Hin)] Hst Ht Hl.
    - rewrite (stack_of _ _ _ _ _ Ht) in Hf. destruct (decide (t = u)) as [<-|].
      + apply elem_of_app in Hf as [Hf|Hf]; [left; by exists f|]. right. right. left. exists t, f. split; [|done]. rewrite Hst.
        apply elem_of_app. by right.
      + right. right. left. by exists u, f.
    - rewrite Hl in Hin. apply elem_of_app in Hin as [Hin|Hin]; [right; left; by exists u, o, b|]. right. right. right. by exists u, o, b.
  Qed.
  Lemma ret_none st st' t fs fs' k es r p : is_ret st' r p -> a_stack st t = fs ++ k -> a_threads st' = <[t:=fs' ++ k]> (a_threads st) ->
    a_log st' = es ++ a_log st -> Forall (λ f, f_ret f = None) fs' ->
    Forall (λ e, match e with AvRet _ _ _ _ (AP _) => False | _ => True end) es -> is_ret st r p.
  Proof.
    intros Hr Hst Ht Hl Hfs Hes. destruct (ret_move _ _ _ _ _ _ _ _ _ Hr Hst Ht Hl) as [(f&Hf&Hp)|[(u&o&b&Hin)|?]]; [| |done].
    - rewrite Forall_forall in Hfs. apply elem_of_list_In, Hfs in Hf. congruence.
    - rewrite Forall_forall in Hes. by apply elem_of_list_In, Hes in Hin.
  Qed.
  Lemma ret_step st l j st' r p : astep E st l = Next st' -> is_ret st' r p ->
    is_ret st r p \/ exists o, gives o /\ (ip_ser p, o) ∈ b_ops E st l j.
  Proof.
    intros H Hr. destruct l as [t ty|t r0 o a|t a i|t v|t|r0 p0|t r0]; cbn [astep b_ops] in *.
    - left. destruct (a_ready st t); [|done]. simplify_eq. destruct Hr as [?|(u&o&b&Hin)]; [by left|]. simpl in Hin.
      apply elem_of_cons in Hin as [?|?]; [done|]. right. by exists u, o, b.
    - left. case_match; [|done]. destruct (a_ready st t); [|done].
      assert (forall o b st1, a_threads st1 = a_threads st -> a_log st1 = a_log st ->
        is_ret (a_set_stack st1 t (AWait r0 o b :: a_stack st t)) r p -> is_ret st r p) as Hgo.
      { intros o1 b st1 Ht Hl Hr1.
        eapply (ret_none st _ t [] [AWait _ _ _] (a_stack st t) []); [exact Hr1|done|simpl; by rewrite Ht|done|by repeat constructor|constructor]. }
      destruct o as [v|w q|v|v].
      + destruct (_ =? _); [|done]. simplify_eq. by eapply Hgo.
      + simplify_eq. by eapply Hgo.
      + destruct (_ =? _); [|done]. unfold a_alloc in H. destruct (is_zst E v || _); [|done]. simplify_eq. by eapply Hgo; [| |exact Hr].
      + destruct (_ =? _); [|done]. unfold a_alloc in H. destruct (is_zst E v || _); [|done]. simplify_eq. by eapply Hgo; [| |exact Hr].
    - unfold a_step_thread in H. destruct (a_stack st t) as [|f k] eqn:Hst; [done|].
      destruct f as [r1 o b|r1 o b|r1 w q|r1 o v b|r1 o b p1|r1 o b p1 pn|r1 o b p1|r1 o b mi x|r1 o b mi x|r1 ps].
      + left. case_match; [done|]. simplify_eq. eapply (ret_none st _ t [AWait r1 o b] [AGet r1 o b] k []); [exact Hr|done|done|done|by repeat constructor|constructor].
      + case_match; [|done]. destruct (ipick _ _) as [p1|] eqn:Hpick.
        { simplify_eq. destruct (ret_move st _ t [AGet r1 o b] [ARel r1 o b true (AP p1)] k [] r p Hr Hst eq_refl eq_refl) as [(f&->%elem_of_list_singleton&Hp)|[(?&?&?&?%elem_of_nil)|?]]; [|done|by left].
          simpl in Hp. simplify_eq. right. exists OHit. split; [done|]. rewrite !elem_of_app. right. right. by left. }
        left. assert (exists f, a_threads st' = <[t:=[f] ++ k]> (a_threads st) /\ a_log st' = a_log st /\ f_ret f = None) as (f&Ht&Hl&Hf).
        { destruct o; simplify_eq; try (eexists; split_and!; [done|done|done]). destruct b; [|done]. simplify_eq. by eexists. }
        eapply (ret_none st st' t [AGet r1 o b] [f] k []); [exact Hr|done|done|done|by repeat constructor|constructor].
      + done.
      + left. destruct b as [q|].
        * destruct (a_free st None q) as [st1|] eqn:Hf; [|done]. simplify_eq. pose proof (free_threads _ _ _ _ Hf) as Ht. pose proof (free_log _ _ _ _ Hf) as Hl.
          eapply (ret_none st _ t [AStore r1 o v (Some q)] [AStore r1 o v None] k [_]);
            [exact Hr|done|simpl; by rewrite Ht|simpl; by rewrite Hl|by repeat constructor|by repeat constructor].
        * destruct (a_alloc E st a v) as [[st1 p1]|] eqn:Ha; [|done]. unfold a_alloc in Ha. case_match; [|done]. simplify_eq.
          eapply (ret_none st _ t [AStore r1 o v None] [AIns r1 o None _] k []); [exact Hr|done|done|done|by repeat constructor|constructor].
      + left. assert (exists f es, a_threads st' = <[t:=[f] ++ k]> (a_threads st) /\ a_log st' = es ++ a_log st /\ f_ret f = None /\
          Forall (λ e : aevent V Q, match e with AvRet _ _ _ _ (AP _) => False | _ => True end) es) as (f&es&Ht&Hl&Hf&Hes).
        { repeat case_match; simplify_eq; simpl; try done.
          - eexists _, [_]. split_and!; [done|done|done|by repeat constructor].
          - eexists _, []. split_and!; [done|done|done|by repeat constructor]. }
        eapply (ret_none st st' t [AIns r1 o b p1] [f] k es); [exact Hr|done|done|done|by repeat constructor|done].
      + left. destruct (a_free st None p1) as [st1|] eqn:Hf; [|done]. simplify_eq. pose proof (free_threads _ _ _ _ Hf) as Ht. pose proof (free_log _ _ _ _ Hf) as Hl.
        eapply (ret_none st _ t [AKill r1 o b p1 pn] [if pn then ARel r1 o b false APanic else AMake r1 o b p1] k [_]);
            [exact Hr|done|simpl; by rewrite Ht|simpl; by rewrite Hl|destruct pn; by repeat constructor|by repeat constructor].
      + destruct (a_read st p1) as [v|] eqn:Hrd; [|done]. simplify_eq.
        destruct (ret_move st _ t [AMake r1 o b p1] [ARel r1 o b false (AP p1)] k [] r p Hr Hst eq_refl eq_refl) as [(f&->%elem_of_list_singleton&Hp)|[(?&?&?&?%elem_of_nil)|?]]; [|done|by left].
        simpl in Hp. simplify_eq. right. exists ODeref. split; [done|]. by left.
      + left. simplify_eq.
        destruct (ret_move st _ t [ARel r1 o b mi x] [AArg r1 o b mi x] k [] r p Hr Hst eq_refl eq_refl) as [(f&->%elem_of_list_singleton&Hp)|[(?&?&?&?%elem_of_nil)|?]]; [|done|done].
        left. exists t, (ARel r1 o b mi x). split; [rewrite Hst; by left|]. by destruct x.
      + left. assert (exists es, a_threads st' = <[t:=[] ++ k]> (a_threads st) /\ a_log st' = (AvRet t r1 o b x :: es) ++ a_log st /\
          (forall u r o b p, AvRet u r o b (AP p) ∉ es)) as (es&Ht&Hl&Hes).
        { destruct mi; simpl in *.
          - destruct b as [q|]; simpl in *.
            + destruct (a_free st None q) as [st1|] eqn:Hf; [|done]. simplify_eq. pose proof (free_threads _ _ _ _ Hf) as Ht. pose proof (free_log _ _ _ _ Hf) as Hl.
              exists [AvFree None q]. simpl. rewrite Ht, Hl. split_and!; [done|done|]. by intros u r2 o2 b2 p2 ?%elem_of_list_singleton.
            + simplify_eq. exists []. split_and!; [done|done|]. by intros u r2 o2 b2 p2 ?%elem_of_nil.
          - simplify_eq. exists []. split_and!; [done|done|]. by intros u r2 o2 b2 p2 ?%elem_of_nil. }
        destruct (ret_move st st' t [AArg r1 o b mi x] [] k _ r p Hr Hst Ht Hl) as [(f&?%elem_of_nil&Hp)|[(u&o2&b2&Hin)|?]]; [done| |done].
        apply elem_of_cons in Hin as [Hin|Hin]; [|by apply Hes in Hin]. injection Hin as -> -> -> -> <-.
        left. exists t, (AArg r1 o b mi (AP p)). split; [rewrite Hst; by left|done].
      + left. destruct ps as [|p1 ps].
        * simplify_eq. eapply (ret_none st _ t [ADead r1 []] [] k [_]); [exact Hr|done|done|done|by repeat constructor|by repeat constructor].
        * destruct (a_free st (Some r1) p1) as [st1|] eqn:Hf; [|done]. simplify_eq. pose proof (free_threads _ _ _ _ Hf) as Ht. pose proof (free_log _ _ _ _ Hf) as Hl.
          eapply (ret_none st _ t [ADead r1 (p1 :: ps)] [ADead r1 ps] k [_]);
            [exact Hr|done|simpl; by rewrite Ht|simpl; by rewrite Hl|by repeat constructor|by repeat constructor].
    - left. destruct (a_stack st t) as [|f k] eqn:Hst; [done|]. destruct f; try done. case_match; [|done]. simplify_eq.
      eapply (ret_none st _ t [AConv _ _ _] [AStore _ _ _ _] k []); [exact Hr|done|done|done|by repeat constructor|constructor].
    - left. unfold a_step_panic in H. destruct (a_stack st t) as [|f k] eqn:Hst; [done|].
      destruct f as [r1 o b|r1 o b|r1 w q|r1 o v b|r1 o b p1|r1 o b p1 pn|r1 o b p1|r1 o b mi x|r1 o b mi x|r1 ps]; try done.
      + simplify_eq. eapply (ret_none st _ t [AGet r1 o b] [ARel r1 o b true APanic] k []); [exact Hr|done|done|done|by repeat constructor|constructor].
      + simplify_eq. eapply (ret_none st _ t [AConv r1 w q] [ARel _ _ _ _ APanic] k []); [exact Hr|done|done|done|by repeat constructor|constructor].
      + simplify_eq. eapply (ret_none st _ t [AIns r1 o b p1] [AKill _ _ _ _ _] k []); [exact Hr|done|done|done|by repeat constructor|constructor].
      + destruct pn; [done|]. simplify_eq. eapply (ret_none st _ t [AKill r1 o b p1 false] [AKill _ _ _ _ _] k []); [exact Hr|done|done|done|by repeat constructor|constructor].
      + destruct x; [|done]. case_match; [|done]. simplify_eq. eapply (ret_none st _ t [AArg r1 o b mi _] [AArg _ _ _ _ APanic] k []); [exact Hr|done|done|done|by repeat constructor|constructor].
      + destruct ps as [|p1 ps]; [done|].
        destruct (a_free st (Some r1) p1) as [st1|] eqn:Hf; [|done]. simplify_eq. pose proof (free_threads _ _ _ _ Hf) as Ht. pose proof (free_log _ _ _ _ Hf) as Hl.
        eapply (ret_none st _ t [ADead r1 (p1 :: ps)] [] k [_; _]);
            [exact Hr|done|simpl; by rewrite Ht|simpl; by rewrite Hl|by repeat constructor|by repeat constructor].
    - left. repeat (case_match; [|done]). simplify_eq. destruct Hr as [?|(u&o&b&Hin)]; [by left|]. simpl in Hin.
      apply elem_of_cons in Hin as [?|?]; [done|]. right. by exists u, o, b.
    - left. case_match; [|done]. case_match; [|done]. simplify_eq.
      eapply (ret_none st _ t [] [ADead r0 _] (a_stack st t) [_]); [exact Hr|done|done|done|by repeat constructor|by repeat constructor].
  Qed.
  Lemma alloc_op st l j s : (s, OAlloc) ∈ b_ops E st l j -> s = a_next st.
  Proof.
    assert (forall ps : list iptr, (s, OAlloc) ∉ (b_at OLook <$> ps : list (nat * bop))) as Hlook.
    { intros ps Hin. apply elem_of_list_fmap in Hin as (p&Hp&_). done. }
    assert (forall o b, o <> OAlloc -> (s, OAlloc) ∉ b_opt o b) as Hopt.
    { intros o [p|] Ho; simpl; [|by intros ?%elem_of_nil]. intros [= _ <-]%elem_of_list_singleton. done. }
    assert (forall v, (s, OAlloc) ∈ b_alloc E (a_next st) v [] -> s = a_next st) as Hal.
    { intros v. unfold b_alloc. case_match; [by intros ?%elem_of_nil|]. by intros [= ->]%elem_of_list_singleton. }
    destruct l as [t ty|t r0 o a|t a i|t v|t|r0 p0|t r0]; cbn [b_ops]; try (by intros ?%elem_of_nil).
    - destruct o; try (by intros ?%elem_of_nil); apply Hal.
    - destruct (a_stack st t) as [|f k]; [by intros ?%elem_of_nil|].
      destruct f as [r1 o b|r1 o b|r1 w q|r1 o v b|r1 o b p1|r1 o b p1 pn|r1 o b p1|r1 o b mi x|r1 o b mi x|r1 ps]; try (by intros ?%elem_of_nil).
      + rewrite !elem_of_app. intros [?%Hlook|[?%Hopt|Hin]]; [done|done|done|].
        destruct (ipick _ _); [by apply elem_of_list_singleton in Hin|]. destruct o; try by apply elem_of_nil in Hin. by apply Hopt in Hin.
      + destruct b; [by intros ?%elem_of_list_singleton|]. unfold b_alloc. case_match; [by intros ?%elem_of_nil|].
        intros [[= ->]|?%elem_of_list_singleton]%elem_of_cons; done.
      + rewrite elem_of_app. intros [?%Hlook|?%elem_of_list_singleton]; done.
      + by intros ?%elem_of_list_singleton.
      + by intros ?%elem_of_list_singleton.
      + destruct mi; [|by intros ?%elem_of_nil]. by intros ?%Hopt.
      + destruct ps; [by intros ?%elem_of_nil|]. by intros ?%elem_of_list_singleton.
    - destruct (a_stack st t) as [|f k]; [by intros ?%elem_of_nil|].
      destruct f as [r1 o b|r1 o b|r1 w q|r1 o v b|r1 o b p1|r1 o b p1 pn|r1 o b p1|r1 o b mi x|r1 o b mi x|r1 ps]; try (by intros ?%elem_of_nil).
      + rewrite !elem_of_app. intros [?%Hlook|?%Hopt]; done.
      + rewrite elem_of_app. intros [?%Hlook|?%elem_of_list_singleton]; done.
      + destruct ps; [by intros ?%elem_of_nil|]. by intros ?%elem_of_list_singleton.
    - by intros ?%elem_of_list_singleton.
  Qed.
  Lemma gives_lt st l j s o : AInv E st -> gives o -> (s, o) ∈ b_ops E st l j -> s < a_next st.
  Proof.
    intros HI Ho.
    assert (forall ps : list iptr, (s, o) ∉ (b_at OLook <$> ps : list (nat * bop))) as Hlook.
    { intros ps Hin. apply elem_of_list_fmap in Hin as (p&[= -> ->]&_). done. }
    assert (forall o' b, ~ gives o' -> (s, o) ∉ b_opt o' b) as Hopt.
    { intros o' [p|] Ho'; simpl; [|by intros ?%elem_of_nil]. intros [= _ <-]%elem_of_list_singleton. done. }
    assert (forall p o', ~ gives o' -> (s, o) ∉ [b_at o' p]) as Hat.
    { intros p o' Ho' [= _ <-]%elem_of_list_singleton. done. }
    assert (forall v, (s, o) ∉ b_alloc E (a_next st) v []) as Hal.
    { intros v. unfold b_alloc. case_match; [by intros ?%elem_of_nil|]. intros [= -> ->]%elem_of_list_singleton. done. }
    destruct l as [t ty|t r0 o0 a|t a i|t v|t|r0 p0|t r0]; cbn [b_ops]; try (by intros ?%elem_of_nil).
    - destruct o0; try (by intros ?%elem_of_nil); by intros ?%Hal.
    - destruct (a_stack st t) as [|f k] eqn:Hst; [by intros ?%elem_of_nil|].
      assert (aframe_ok E st f) as Hok by (apply (x_frames _ _ HI t); rewrite Hst; by left).
      destruct f as [r1 o1 b|r1 o1 b|r1 w q|r1 o1 v b|r1 o1 b p1|r1 o1 b p1 pn|r1 o1 b p1|r1 o1 b mi x|r1 o1 b mi x|r1 ps]; try (by intros ?%elem_of_nil).
      + rewrite !elem_of_app. intros [?%Hlook|[?%Hopt|Hin]]; [done|done|by intros []|].
        destruct (ipick _ _) as [p|] eqn:Hp.
        * apply elem_of_list_singleton in Hin as [= -> ->]. apply ipick_in, a_cands_in in Hp as [Hp _].
          destruct (set_ins E st r1 p HI Hp) as (u&o'&v&Hi&_). by apply (x_log _ _ HI) in Hi as (_&_&?&_).
        * destruct o1; try by apply elem_of_nil in Hin. apply Hopt in Hin; [done|by intros []].
      + destruct b; [intros ?%Hat; [done|by intros []]|]. unfold b_alloc. case_match; [by intros ?%elem_of_nil|].
        intros [[= _ ->]|[= _ ->]%elem_of_list_singleton]%elem_of_cons; done.
      + rewrite elem_of_app. intros [?%Hlook|?%Hat]; [done|done|by intros []].
      + intros ?%Hat; [done|by intros []].
      + intros [= -> ->]%elem_of_list_singleton. by destruct Hok as (ty&_&_&?&_).
      + destruct mi; [|by intros ?%elem_of_nil]. intros ?%Hopt; [done|by intros []].
      + destruct ps; [by intros ?%elem_of_nil|]. intros ?%Hat; [done|by intros []].
    - destruct (a_stack st t) as [|f k]; [by intros ?%elem_of_nil|].
      destruct f as [r1 o1 b|r1 o1 b|r1 w q|r1 o1 v b|r1 o1 b p1|r1 o1 b p1 pn|r1 o1 b p1|r1 o1 b mi x|r1 o1 b mi x|r1 ps]; try (by intros ?%elem_of_nil).
      + rewrite !elem_of_app. intros [?%Hlook|?%Hopt]; [done|done|by intros []].
      + rewrite elem_of_app. intros [?%Hlook|?%Hat]; [done|done|by intros []].
      + destruct ps; [by intros ?%elem_of_nil|]. intros ?%Hat; [done|by intros []].
    - intros ?%Hat; [done|by intros []].
  Qed.

  Definition hinv (bs : bstate M (V:=V) (Q:=Q)) : Prop :=
    AInv E (bs_arena bs) /\ forall r p, is_ret (bs_arena bs) r p -> ip_ser p < a_next (bs_arena bs) /\ fine (bs_objs bs) (ip_ser p).
  Lemma hinv_step bs l bs' : hinv bs -> bstep M n m E bs l = Next bs' -> hinv bs'.
  Proof.
    intros [HI Hh] H. unfold bstep in H. destruct (astep E (bs_arena bs) l.1) as [st| | |] eqn:Hs; try done.
    destruct (b_applys _ _ _ _ _) as [g|] eqn:Ha; [|done]. simplify_eq. split; [by eapply astep_inv|]. simpl.
    intros r p Hr. assert (a_next (bs_arena bs) <= a_next st) as Hle.
    { pose proof Hs as (t&fs&fs'&k&Hst&Hm&_)%astep_move_call. destruct (amove_ok _ _ _ _ _ _ _ HI Hst Hm) as (es0&Htr&_).
      by apply (y_next _ _ _ _ _ _ _ Htr). }
    assert (ip_ser p < a_next (bs_arena bs)) as Hlt.
    { destruct (ret_step _ _ l.2 _ _ _ Hs Hr) as [Hr0|(o&Ho&Hin)]; [by apply (Hh r p)|by eapply gives_lt]. }
    split; [lia|]. eapply fine_applys; [done| |].
    - intros Hin%alloc_op. lia.
    - destruct (ret_step _ _ l.2 _ _ _ Hs Hr) as [Hr0|?]; [left; by apply (Hh r p)|by right].
  Qed.
  Lemma hands_run ls bs r p (x : arena) v : run (bstep M n m E) binit ls = Some bs -> a_returned r p (a_log (bs_arena bs)) = true ->
    a_arenas (bs_arena bs) !! r = Some x -> a_read (bs_arena bs) p = Some v -> is_zst E v = false ->
    exists y, bs_objs bs !! ip_ser p = Some y /\ bo_hands y <> [].
  Proof.
    intros Hr (t&o&b&Hret)%returned_a Hx Hv Hz.
    assert (hinv bs) as [HI Hh].
    { revert Hr. apply run_inv_weak; [intros s l s'; apply hinv_step|]. split; [apply ainv_init|].
      intros r' p' [(u&f&Hf&_)|(u&o'&b'&Hin)]; [|by apply elem_of_nil in Hin]. unfold a_stack in Hf. simpl in Hf.
      rewrite lookup_empty in Hf. by apply elem_of_nil in Hf. }
    unfold a_read in Hv. destruct (a_objs (bs_arena bs) !! ip_ser p) as [z|] eqn:Hz1; [|done]. simpl in Hv. injection Hv as Hv.
    destruct (track_run n m E M ls bs Hr (ip_ser p)) as [_ [y Hy]]; [exists z; by rewrite Hv|]. exists y. split; [done|].
    destruct (Hh r p) as [_ Hf]; [right; by exists t, o, b|]. by apply Hf.
  Qed.
End hands.

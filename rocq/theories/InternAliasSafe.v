(** [Intern] does nothing an aliasing machine objects to.  The operations on a block follow an automaton of
    two states: a box, and leaked. *)
From stdpp Require Import gmap list numbers.
From Verif Require Import Base InternModel NewModel AliasModel AliasTree ArcAliasModel ArcAliasLoc ArcAliasTree ArcAliasOps.
From Verif Require Import InternAliasModel.

Section block.
  Context (M : machine) (tb : bool) (G : bool -> nat -> tag -> tag -> list tag -> list tag -> mst M -> Prop).
  Context (HS : lspec M tb G) (im : bool) (n m r : list bool) (early : bool).
  Context (Hearly : early = false \/ n = []).
  Notation Bk := (Bk M G).
  Notation jdo := (j_do M im n m r early).

  Definition jfine (b : bool) (x : cobj M) : Prop :=
    if b then Bk (co_hands x) x /\ co_hands x <> [] else Bk [] x /\ co_hands x = [].
  Definition j_next (b : bool) (o : jop) : option bool :=
    match b, o with
    | false, (JLook | JCellBox) => Some false
    | false, JLeak => Some true
    | true, (JPoint | JPass _ | JRead _ | JCell _ _) => Some true
    | _, _ => None
    end.

  (** ** Passing a reference *)
  Fixpoint y_prots (l : list bool) (nx : nat) (t : tag) : list tag :=
    match l with [] => [] | b :: l' => y_prots l' (S nx) (nx :: t) ++ (if b then [nx :: t] else []) end.
  Lemma y_leave_prots l : forall N t, y_leave l N t = XEnd <$> y_prots l N t.
  Proof. induction l as [|b l IH]; intros N t; [done|]. simpl. rewrite IH, fmap_app. by destruct b. Qed.
  Lemma run_yenter cnt l : forall N A B H P s t, G cnt N A B H P s -> t ∈ B :: H ->
    exists s' H', a_run M im cnt (y_enter l N t) s = Some s' /\
      G cnt (length l + N) A B H' (if cnt then P else y_prots l N t ++ P) s' /\
      (forall g, g ∈ H -> g ∈ H') /\ (forall g, g ∈ y_prots l N t -> g ∈ H') /\ (t ∈ H -> x_top l N t ∈ H').
  Proof.
    induction l as [|b l IH]; intros N A B H P s t HG Ht; cbn [y_enter a_run].
    - exists s, H. split_and!; [done|by destruct cnt|done|by intros g ?%elem_of_nil|done].
    - destruct (run_ref M tb G HS im cnt N A B H P s t b HG Ht) as (s1&->&HG1).
      destruct (IH _ _ _ _ _ _ (N :: t) HG1) as (s2&H'&E2&HG2&H1&H2&H3); [right; by left|].
      exists s2, H'. split; [done|]. cbn [length x_top y_prots]. split_and!.
      + replace (S (length l) + N) with (length l + S N) by lia. rewrite <- app_assoc. destruct cnt, b; exact HG2.
      + intros g Hg. apply H1. by right.
      + intros g [Hg|Hg]%elem_of_app; [by apply H2|]. destruct b; [|by apply elem_of_nil in Hg].
        apply elem_of_list_singleton in Hg as ->. apply H1. by left.
      + intros _. apply H3. by left.
  Qed.
  Lemma run_yleave cnt N A B H P T : forall s, G cnt N A B H (if cnt then P else T ++ P) s ->
    (forall t, t ∈ T -> t ∈ H) -> exists s', a_run M im cnt (XEnd <$> T) s = Some s' /\ G cnt N A B H P s'.
  Proof.
    induction T as [|t T IH]; intros s HG HT; [exists s; split; [done|by destruct cnt]|]. rewrite fmap_cons. cbn [a_run].
    destruct cnt.
    - apply IH; [done|]. intros g Hg. apply HT. by right.
    - destruct (l_end _ _ _ HS false N A B H (T ++ P) s t HG) as (s1&E1&HG1); [left; apply HT; by left|].
      replace (m_opt M (x_loc im false (XEnd t)) s) with (Some s1) by done.
      apply IH; [done|]. intros g Hg. apply HT. by right.
  Qed.
  Lemma do_pass_ref j x : Bk (co_hands x) x -> co_hands x <> [] ->
    exists x', j_pass M im r j x = Some x' /\ Bk (co_hands x') x' /\ co_hands x' <> [].
  Proof.
    intros [HG1 HG2] Hn. destruct (hand_in _ j Hn) as (h&Hh&Hin). unfold j_pass. rewrite Hh.
    assert (forall cnt s, G cnt (co_next x) (co_box x) (co_box x) (co_hands x) [] s ->
      exists s', a_run M im cnt (y_enter r (co_next x) h ++ y_leave r (co_next x) h) s = Some s' /\
        G cnt (length r + co_next x) (co_box x) (co_box x) (co_hands x ++ [x_top r (co_next x) h]) [] s') as Hr.
    { intros cnt s HG. destruct (run_yenter cnt r _ _ _ _ _ _ h HG ltac:(by right)) as (s1&H'&E1&HG'&H1&H2&H3).
      rewrite a_run_app, E1, y_leave_prots. destruct (run_yleave _ _ _ _ _ _ _ _ HG' H2) as (s2&->&HG3).
      exists s2. split; [done|]. eapply (l_weak _ _ _ HS); [exact HG3|]. intros g [Hg| ->%elem_of_list_singleton]%elem_of_app; auto. }
    destruct (Hr _ _ HG1) as (c&E1&HG1'). destruct (Hr _ _ HG2) as (d&E2&HG2').
    rewrite (c_run_split _ _ _ _ _ _ _ E1 E2). eexists. split; [done|]. split; [by split|]. simpl. by intros [_ ?]%app_eq_nil.
  Qed.

  Lemma fine_next b o b' x : j_next b o = Some b' -> jfine b x -> exists x', jdo o x = Some x' /\ jfine b' x'.
  Proof.
    intros Ho Hx. destruct b, o; simplify_eq/=; destruct Hx as [HB Hh].
    - destruct (do_point M tb G HS im n m [] x HB) as (x'&->&HB'&Hh'). eexists. split; [done|]. split; [done|].
      rewrite Hh'. by intros [_ ?]%app_eq_nil.
    - destruct (do_pass_ref j x HB Hh) as (x'&->&?&?). by eexists.
    - destruct (do_read M tb G HS im n m [] j x HB Hh) as (x'&->&HB'&Hh'). eexists. split; [done|]. split; [done|by rewrite Hh'].
    - destruct (do_use M tb G HS im n m [] j w x HB Hh) as (x'&->&HB'&Hh'). eexists. split; [done|]. split; [done|by rewrite Hh'].
    - destruct (do_look M tb G HS im n m [] _ x HB) as (x'&->&HB'&Hh'). eexists. split; [done|]. split; [done|congruence].
    - destruct (do_bump M tb G HS im n m [] _ x HB) as (x'&->&HB'&Hh'). eexists. split; [done|]. split; [done|congruence].
    - destruct early.
      + destruct Hearly as [?|Hn]; [done|]. rewrite <- Hh in HB.
        destruct (do_point M tb G HS im n m [] x HB) as (x1&->&HB1&Hh1). cbn [mbind option_bind].
        destruct (do_insert_nil M G im n m [] _ x1 Hn HB1) as (x2&->&HB2&Hh2). eexists. split; [done|]. rewrite Hh2.
        split; [done|]. rewrite Hh1, Hh. done.
      + destruct (do_insert M tb G HS im n m [] x HB) as (x1&->&HB1&Hh1). cbn [mbind option_bind]. rewrite Hh in Hh1.
        rewrite <- Hh1 in HB1. destruct (do_point M tb G HS im n m [] x1 HB1) as (x2&->&HB2&Hh2). eexists. split; [done|].
        split; [done|]. rewrite Hh2, Hh1. done.
  Qed.
  Lemma fine_alloc w : exists x, jdo (JAlloc w) (c_new M) = Some x /\ jfine false x.
  Proof. destruct (do_alloc M tb G HS im n m [] w) as (x&H1&H2&H3). by exists x. Qed.
  Lemma fine_kill x : jfine false x -> is_Some (jdo JKill x).
  Proof. intros [HB _]. by apply (do_kill M tb G HS im n m []). Qed.

  (** ** All blocks; [S]: their states. *)
  Definition a_apply (S : gmap nat bool) (y : nat * jop) : option (gmap nat bool) :=
    match y.2 with
    | JAlloc _ => Some (<[y.1:=false]> S)
    | JKill => match S !! y.1 with Some false => Some (delete y.1 S) | _ => None end
    | o => match S !! y.1 with
           | Some b => match j_next b o with Some b' => Some (<[y.1:=b']> S) | None => None end
           | None => None
           end
    end.
  Fixpoint a_applys (ys : list (nat * jop)) (S : gmap nat bool) : option (gmap nat bool) :=
    match ys with
    | [] => Some S
    | y :: ys' => match a_apply S y with Some S1 => a_applys ys' S1 | None => None end
    end.
  Definition gok (S : gmap nat bool) (g : gmap nat (cobj M)) : Prop :=
    forall s b, S !! s = Some b -> exists x, g !! s = Some x /\ jfine b x.
  Lemma apply_ok S S' g y : a_apply S y = Some S' -> gok S g ->
    exists g', j_apply M im n m r early g y = Some g' /\ gok S' g'.
  Proof.
    destruct y as [s o]. intros Ha HG.
    assert (forall b', S !! s ≫= (λ b, j_next b o) = Some b' -> exists x x', g !! s = Some x /\ jdo o x = Some x' /\ jfine b' x') as Hn.
    { intros b'. destruct (S !! s) as [b|] eqn:Hb; [|done]. cbn [mbind option_bind]. intros Hb'. destruct (HG _ _ Hb) as (x&Hx&Hf).
      destruct (fine_next _ _ _ _ Hb' Hf) as (x'&?&?). by exists x, x'. }
    assert (forall b' x', jfine b' x' -> gok (<[s:=b']> S) (<[s:=x']> g)) as Hi.
    { intros b' x' Hf s' b. destruct (decide (s' = s)) as [->|Hne].
      - rewrite !lookup_insert. intros [= <-]. by exists x'.
      - rewrite !lookup_insert_ne by done. apply HG. }
    unfold a_apply, j_apply in *. cbn [fst snd] in *.
    destruct o; try (destruct (S !! s) as [b|] eqn:Hb; [|done]; destruct (j_next b _) as [b'|] eqn:Hb'; [|done]; injection Ha as <-;
      destruct (Hn b') as (x&x'&->&->&Hf); [done|]; eexists; split; [done|]; by apply Hi).
    - injection Ha as <-. destruct (fine_alloc w) as (x&->&Hf). eexists. split; [done|]. by apply Hi.
    - destruct (S !! s) as [[]|] eqn:Hb; [done| |done]. injection Ha as <-. destruct (HG _ _ Hb) as (x&->&Hf).
      destruct (fine_kill x Hf) as (x'&->). eexists. split; [done|]. intros s' b [Hne Hs']%lookup_delete_Some.
      rewrite lookup_delete_ne by done. by apply HG.
  Qed.
  Lemma applys_ok ys : forall S S' g, a_applys ys S = Some S' -> gok S g ->
    exists g', j_applys M im n m r early ys g = Some g' /\ gok S' g'.
  Proof.
    induction ys as [|y ys IH]; intros S S' g; cbn [a_applys j_applys]; [intros [= <-] ?; by exists g|].
    destruct (a_apply S y) as [S1|] eqn:H1; [|done]. intros Ha HG. destruct (apply_ok _ _ _ _ H1 HG) as (g1&->&HG1). by eapply IH.
  Qed.
End block.

Lemma a_applys_app xs ys S : a_applys (xs ++ ys) S = match a_applys xs S with Some S1 => a_applys ys S1 | None => None end.
Proof. revert S. induction xs as [|x xs IH]; intros S; [done|]. simpl. destruct (a_apply S x); [apply IH|done]. Qed.
Lemma a_true p o S : S !! ip_ser p = Some true -> j_next true o = Some true -> a_apply S (j_at o p) = Some S.
Proof. intros Hp Ho. unfold a_apply, j_at. cbn [fst snd]. rewrite Hp. destruct o; try done; by rewrite Ho, insert_id. Qed.
Lemma a_false p o S : S !! ip_ser p = Some false -> j_next false o = Some false -> a_apply S (j_at o p) = Some S.
Proof. intros Hp Ho. unfold a_apply, j_at. cbn [fst snd]. rewrite Hp. destruct o; try done; by rewrite Ho, insert_id. Qed.

(** ** The two programs *)
Section host.
  Context {V Q : Type}.
  (** What is required of a program. *)
  Record hspec (H : host V Q) (I : h_st H -> Prop) (L : h_st H -> gmap nat bool) : Prop := {
    hs_init : I (h_init H) /\ L (h_init H) = ∅;
    hs_step : forall st l st', I st -> h_step H st l = Next st' -> I st';
    hs_noub : forall st l, I st -> h_step H st l <> UB;
    hs_ops : forall st l st' j w, I st -> h_step H st l = Next st' -> a_applys (h_ops H st l j w) (L st) = Some (L st');
    hs_ret : forall st p, I st -> returned p (h_log H st) = true -> L st !! ip_ser p = Some true;
  }.

  Section run.
    Context (H : host V Q) (I : h_st H -> Prop) (L : h_st H -> gmap nat bool) (HH : hspec H I L).
    Context (M : machine) (tb : bool) (G : bool -> nat -> tag -> tag -> list tag -> list tag -> mst M -> Prop).
    Context (HS : lspec M tb G) (im : bool) (n m r : list bool) (early : bool).
    Context (Hearly : early = false \/ n = []).
    Notation jst := (jstep M im n m r early H).

    Definition jgood (js : jstate M H) : Prop := I (js_st js) /\ gok M G (L (js_st js)) (js_objs js).
    Lemma jgood_step js l : jgood js -> jst js l <> UB /\ forall js', jst js l = Next js' -> jgood js'.
    Proof.
      intros [HI HG]. unfold jstep.
      assert (forall st', j_host H (js_st js) l = Next st' -> I st' /\ a_applys (j_ops M H js l) (L (js_st js)) = Some (L st')) as Hn.
      { intros st'. destruct l as [l j w|p j w|p j]; cbn [j_host j_ops].
        - intros Hs. split; [by eapply (hs_step _ _ _ HH)|by apply (hs_ops _ _ _ HH)].
        - destruct (returned p _) eqn:Hr; [|done]. intros [= <-]. split; [done|]. cbn [a_applys]. rewrite a_true; [done| |done].
          by apply (hs_ret _ _ _ HH).
        - destruct (returned p _) eqn:Hr; [|done]. intros [= <-]. split; [done|]. cbn [a_applys]. rewrite a_true; [done| |done].
          by apply (hs_ret _ _ _ HH). }
      assert (j_host H (js_st js) l <> UB) as Hu.
      { destruct l as [l j w|p j w|p j]; cbn [j_host]; [by apply (hs_noub _ _ _ HH)|by destruct (returned _ _)..]. }
      destruct (j_host H (js_st js) l) as [st'| | |]; try done.
      destruct (Hn st' eq_refl) as [HI' Ha]. destruct (applys_ok M tb G HS im n m r early Hearly _ _ _ _ Ha HG) as (g&->&HG').
      split; [done|]. by intros js' [= <-].
    Qed.
    Lemma jgood_run ls : forall js, jgood js -> exists js', run jst js ls = Some js' /\ jgood js'.
    Proof.
      induction ls as [|l ls IH]; intros js Hg; [by exists js|]. cbn [run]. unfold exec.
      destruct (jgood_step js l Hg) as [Hu Hn]. destruct (jst js l) as [js1| | |]; try done; [|by apply IH..].
      apply IH. by apply Hn.
    Qed.
    Lemma jsafe ls : exists js, run jst jinit ls = Some js.
    Proof.
      destruct (jgood_run ls jinit) as (js&?&_); [|by exists js]. destruct (hs_init _ _ _ HH) as [H1 H2]. split; [done|].
      simpl. rewrite H2. by intros s b ?%lookup_empty_Some.
    Qed.
  End run.
End host.

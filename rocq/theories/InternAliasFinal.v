(** [Intern] under the two aliasing models, and what becomes of it if the reference is taken from the Box
    before [Box::leak]. *)
From stdpp Require Import gmap list numbers.
From Verif Require Import Base InternModel InternSpec InternInv InternStep NewModel NewSim NewStep.
From Verif Require Import AliasModel AliasTree ArcAliasModel ArcAliasLoc ArcAliasTree ArcAliasOps ArcAliasSafe ArcAliasBad.
From Verif Require Import InternAliasModel InternAliasSpec InternAliasSafe InternAliasHost.
Require Import ZifyBool ZifyNat ZifyN.

Section same.
  Context (M : machine) (im : bool) (n m r : list bool) (early : bool) {V Q : Type} (H : host V Q).
  Lemma jstep_same js l js' : jstep M im n m r early H js l = Next js' ->
    j_host H (js_st js) l = Next (js_st js').
  Proof.
    unfold jstep. destruct (j_host H (js_st js) l) as [st| | |]; try done. destruct (j_applys _ _ _ _ _ _ _ _); [|done].
    by intros [= <-].
  Qed.
  Lemma same_from ls : forall js js', run (jstep M im n m r early H) js ls = Some js' ->
    run (h_step H) (js_st js) (ls ≫= j_label) = Some (js_st js').
  Proof.
    induction ls as [|l ls IH]; intros js js'; [by intros [= ->]|]. rewrite bind_cons. cbn [run]. unfold exec at 1.
    assert (forall js1, (j_host H (js_st js) l = Next (js_st js1) \/
        (js1 = js /\ (j_host H (js_st js) l = Blocked \/ j_host H (js_st js) l = Illegal))) ->
      run (jstep M im n m r early H) js1 ls = Some js' ->
      run (h_step H) (js_st js) (j_label l ++ (ls ≫= j_label)) = Some (js_st js')) as Hn.
    { intros js1 H1 Hr. specialize (IH _ _ Hr). destruct l as [l j w|p j w|p j]; cbn [j_label j_host app] in *.
      - cbn [run]. unfold exec. by destruct H1 as [->|[-> [->| ->]]].
      - destruct (returned _ _); [|by destruct H1 as [?|[-> ?]]]. destruct H1 as [[= ->]|[_ [?|?]]]; done.
      - destruct (returned _ _); [|by destruct H1 as [?|[-> ?]]]. destruct H1 as [[= ->]|[_ [?|?]]]; done. }
    destruct (jstep M im n m r early H js l) as [js1| | |] eqn:Hs; try done.
    - intros Hr. apply (Hn js1); [left; by apply jstep_same in Hs|done].
    - intros Hr. apply (Hn js); [|done]. right. split; [done|]. left. unfold jstep in Hs.
      destruct (j_host _ _ _); try done. by destruct (j_applys _ _ _ _ _ _ _ _).
    - intros Hr. apply (Hn js); [|done]. right. split; [done|]. right. unfold jstep in Hs.
      destruct (j_host _ _ _); try done. by destruct (j_applys _ _ _ _ _ _ _ _).
  Qed.
  Lemma same ls js : run (jstep M im n m r early H) jinit ls = Some js ->
    run (h_step H) (h_init H) (ls ≫= j_label) = Some (js_st js).
  Proof. apply (same_from ls jinit). Qed.
End same.

Section safe.
  Context {V Q : Type} (M : machine) (HM : M = stacked \/ M = trees) (im : bool) (n m r : list bool) (early : bool).
  Context (Hearly : early = false \/ n = []).
  Lemma safe_host (H : host V Q) I L ls : hspec H I L ->
    exists js, run (jstep M im n m r early H) jinit ls = Some js /\ run (h_step H) (h_init H) (ls ≫= j_label) = Some (js_st js).
  Proof.
    intros HH. assert (exists js, run (jstep M im n m r early H) jinit ls = Some js) as [js Hjs].
    { destruct HM as [->| ->].
      - by apply (jsafe H I L HH stacked false SG stacked_spec).
      - by apply (jsafe H I L HH trees true TG trees_spec). }
    exists js. split; [done|]. by eapply same.
  Qed.
  Lemma safe_intern (E : ienv V Q) ls : exists js, run (jstep M im n m r early (intern_host E)) jinit ls = Some js /\
    run (istep E) iinit (ls ≫= j_label) = Some (js_st js).
  Proof. exact (safe_host _ _ _ ls (intern_spec E)). Qed.
  Lemma safe_new (E : ienv V Q) ls : exists js, run (jstep M im n m r early (new_host E)) jinit ls = Some js /\
    run (nstep E) ninit (ls ≫= j_label) = Some (js_st js).
  Proof. exact (safe_host _ _ _ ls (new_spec E)). Qed.
End safe.

Lemma early_both {V Q : Type} (M : machine) im m r (E : ienv V Q) ls : M = stacked \/ M = trees ->
  (exists js, run (jstep M im [] m r true (intern_host E)) jinit ls = Some js) /\
  (exists js, run (jstep M im [] m r true (new_host E)) jinit ls = Some js).
Proof.
  intros HM. destruct (safe_intern M HM im [] m r true (or_intror eq_refl) E ls) as (js&Hj&_).
  destruct (safe_new M HM im [] m r true (or_intror eq_refl) E ls) as (js'&Hj'&_). by split; eexists.
Qed.

(** ** Every allocation has its machines, and what was leaked a reference *)
Section shown.
  Context {V Q : Type} (M : machine) (HM : M = stacked \/ M = trees) (im : bool) (n m r : list bool) (early : bool).
  Context (Hearly : early = false \/ n = []).
  Lemma shown_host (H : host V Q) I L ls js : hspec H I L -> run (jstep M im n m r early H) jinit ls = Some js ->
    forall s b, L (js_st js) !! s = Some b ->
      exists x, js_objs js !! s = Some x /\ (if b : bool then exists h, h ∈ co_hands x else co_hands x = []).
  Proof.
    intros HH Hr s b Hb.
    assert (exists tb G, lspec M tb G) as (tb&G&HS).
    { destruct HM as [->| ->]; [exists false, SG; apply stacked_spec|exists true, TG; apply trees_spec]. }
    destruct (jgood_run H I L HH M tb G HS im n m r early Hearly ls jinit) as (js'&Hr'&Hg).
    { destruct (hs_init _ _ _ HH) as [H1 H2]. split; [done|]. simpl. rewrite H2. by intros s' b' ?%lookup_empty_Some. }
    rewrite Hr in Hr'. injection Hr' as <-. destruct Hg as [_ HG]. destruct (HG _ _ Hb) as (x&Hx&Hf). exists x. split; [done|].
    destruct b; [|by destruct Hf]. destruct Hf as [_ Hh]. destruct (co_hands x) as [|h hs]; [done|]. exists h. by left.
  Qed.
  Lemma shown_intern (E : ienv V Q) ls js s y : run (jstep M im n m r early (intern_host E)) jinit ls = Some js ->
    i_objs (js_st js) !! s = Some y ->
    exists x, js_objs js !! s = Some x /\ (if io_leaked y then exists h, h ∈ co_hands x else co_hands x = []).
  Proof.
    intros Hr Hy. apply (shown_host _ _ _ ls js (intern_spec E) Hr). unfold lk_of. cbn. by rewrite lookup_fmap, Hy.
  Qed.
  Lemma shown_new (E : ienv V Q) ls js s y : run (jstep M im n m r early (new_host E)) jinit ls = Some js ->
    n_objs (js_st js) !! s = Some y ->
    exists x, js_objs js !! s = Some x /\ (if io_leaked y then exists h, h ∈ co_hands x else co_hands x = []).
  Proof.
    intros Hr Hy. apply (shown_host _ _ _ ls js (new_spec E) Hr). unfold nlk, lk_of. cbn. by rewrite lookup_fmap, Hy.
  Qed.
End shown.

(** ** The reference taken too early *)
Section bad.
  Context (im : bool) (n m r : list bool) (Hn : n <> []).
  Notation cdo := (c_do stacked im n m []).
  Notation jdo := (j_do stacked im n m r true).

  Lemma yenter_in l : forall N t x, x ∈ y_enter l N t -> exists N' u b, x = XRef u (N' :: u) b /\ N <= N'.
  Proof.
    induction l as [|b l IH]; intros N t x; cbn [y_enter]; [by intros ?%elem_of_nil|]. intros [->|Hx]%elem_of_cons.
    - by exists N, t, b.
    - destruct (IH _ _ _ Hx) as (N'&u&b'&->&?). exists N', u, b'. split; [done|lia].
  Qed.
  Lemma ypass_young l N t : young N (y_enter l N t ++ y_leave l N t).
  Proof.
    intros x t' [Hx|Hx]%elem_of_app Hm.
    - destruct (yenter_in _ _ _ _ Hx) as (N'&u&b&->&?). injection Hm as <-. eauto.
    - rewrite y_leave_prots in Hx. by apply elem_of_list_fmap in Hx as (u&->&_).
  Qed.
  Lemma lost_pass j x x' : lost x -> j_pass stacked im r j x = Some x' -> lost x'.
  Proof.
    intros (h&hs&Hh&Hb&Hg). unfold j_pass. destruct (c_hand _ _) as [h'|]; [|done].
    destruct (c_run _ _ _ _) as [[c d]|] eqn:Hr; [|done]. intros [= <-]. apply c_run_cnt in Hr.
    exists h, (hs ++ [x_top r (co_next x) h']). cbn. split_and!; [by rewrite Hh|eapply below_mono; [|exact Hb]; lia|].
    eapply run_gone; [exact Hr|apply ypass_young|done|done].
  Qed.
  Definition jbad (b : bool) (x : cobj stacked) : Prop :=
    if b then lost x else Bk stacked SG [] x /\ co_hands x = [].
  Lemma bad_next b o b' x x' : j_next b o = Some b' -> jbad b x -> jdo o x = Some x' -> jbad b' x'.
  Proof.
    intros Ho Hx Hd. destruct b, o; simplify_eq/=.
    - by eapply (lost_keep im n m [] CPoint).
    - by eapply lost_pass.
    - by eapply (lost_keep im n m [] (CRead j)).
    - by eapply (lost_keep im n m [] (CUse j w)).
    - destruct Hx as [HB Hh]. destruct (do_look _ _ _ stacked_spec im n m [] _ x HB) as (x1&H1&HB'&Hh').
      rewrite Hd in H1. injection H1 as <-. split; [done|congruence].
    - destruct Hx as [HB Hh]. destruct (do_bump _ _ _ stacked_spec im n m [] _ x HB) as (x1&H1&HB'&Hh').
      rewrite Hd in H1. injection H1 as <-. split; [done|congruence].
    - destruct Hx as [HB Hh]. destruct (cdo CPoint x) as [x1|] eqn:H1; [|done]. cbn [mbind option_bind] in Hd. by eapply insert_lost.
  Qed.

  Definition bok (S : gmap nat bool) (g : gmap nat (cobj stacked)) : Prop :=
    forall s b, S !! s = Some b -> exists x, g !! s = Some x /\ jbad b x.
  Lemma apply_bad S S' g y g' : a_apply S y = Some S' -> bok S g ->
    j_apply stacked im n m r true g y = Some g' -> bok S' g'.
  Proof.
    destruct y as [s o]. intros Ha HG Hj.
    assert (forall b' x', jbad b' x' -> bok (<[s:=b']> S) (<[s:=x']> g)) as Hi.
    { intros b' x' Hf s' b. destruct (decide (s' = s)) as [->|Hne].
      - rewrite !lookup_insert. intros [= <-]. by exists x'.
      - rewrite !lookup_insert_ne by done. apply HG. }
    unfold a_apply, j_apply in *. cbn [fst snd] in *.
    destruct o; try (destruct (S !! s) as [b|] eqn:Hb; [|done]; destruct (j_next b _) as [b'|] eqn:Hb'; [|done]; injection Ha as <-;
      destruct (HG _ _ Hb) as (x&Hx&Hf); rewrite Hx in Hj; destruct (jdo _ x) as [x'|] eqn:Hd; [|done]; injection Hj as <-;
      apply Hi; by eapply bad_next).
    - injection Ha as <-. destruct (do_alloc _ _ _ stacked_spec im n m [] w) as (x&H1&H2&H3).
      change (jdo (JAlloc w) (c_new stacked)) with (cdo (CAlloc w) (c_new stacked)) in Hj. rewrite H1 in Hj. injection Hj as <-. by apply Hi.
    - destruct (S !! s) as [[]|] eqn:Hb; [done| |done]. injection Ha as <-. destruct (HG _ _ Hb) as (x&Hx&Hf). rewrite Hx in Hj.
      destruct (jdo _ x) as [x'|]; [|done]. injection Hj as <-. intros s' b [Hne Hs']%lookup_delete_Some.
      rewrite lookup_delete_ne by done. by apply HG.
  Qed.
  Lemma applys_bad ys : forall S S' g g', a_applys ys S = Some S' -> bok S g ->
    j_applys stacked im n m r true ys g = Some g' -> bok S' g'.
  Proof.
    induction ys as [|y ys IH]; intros S S' g g'; cbn [a_applys j_applys]; [intros [= <-] ? [= <-]; done|].
    destruct (a_apply S y) as [S1|] eqn:H1; [|done]. destruct (j_apply _ _ _ _ _ _ g y) as [g1|] eqn:H2; [|done].
    intros Ha HG. eapply IH; [exact Ha|]. by eapply apply_bad.
  Qed.
  Lemma use_bad S g p w rest : bok S g -> S !! ip_ser p = Some true ->
    j_applys stacked im n m r true (j_at (JPass 0) p :: j_at (JRead 0) p :: j_at (JCell 0 w) p :: rest) g = None.
  Proof.
    intros HG Hp. destruct (HG _ _ Hp) as (x&Hx&Hl). cbn [j_applys].
    destruct (j_apply _ _ _ _ _ _ g _) as [g1|] eqn:H1; [|done].
    unfold j_apply, j_at in H1. cbn [fst snd] in H1. rewrite Hx in H1.
    destruct (jdo (JPass 0) x) as [x'|] eqn:Hd; [|done]. apply (lost_pass 0) in Hd; [|done]. injection H1 as <-.
    destruct (j_apply _ _ _ _ _ _ _ (j_at (JRead 0) p)) as [g2|] eqn:H2; [|done].
    unfold j_apply, j_at in H2. cbn [fst snd] in H2. rewrite lookup_insert in H2. change (jdo (JRead 0) x') with (cdo (CRead 0) x') in H2.
    rewrite lost_use in H2; [done|done|]. right. by left.
  Qed.

  Context {V Q : Type} (H : host V Q) (I : h_st H -> Prop) (L : h_st H -> gmap nat bool) (HH : hspec H I L).
  Notation jst := (jstep stacked im n m r true H).
  Definition jlost (js : jstate stacked H) : Prop := I (js_st js) /\ bok (L (js_st js)) (js_objs js).
  Lemma jlost_step js l js' : jlost js -> jst js l = Next js' -> jlost js'.
  Proof.
    intros [HI HG]. unfold jstep.
    assert (forall st', j_host H (js_st js) l = Next st' -> I st' /\ a_applys (j_ops stacked H js l) (L (js_st js)) = Some (L st')) as Hx.
    { intros st'. destruct l as [l j w|p j w|p j]; cbn [j_host j_ops].
      - intros Hs. split; [by eapply (hs_step _ _ _ HH)|by apply (hs_ops _ _ _ HH)].
      - destruct (returned p _) eqn:Hr; [|done]. intros [= <-]. split; [done|]. cbn [a_applys]. rewrite a_true; [done| |done].
        by apply (hs_ret _ _ _ HH).
      - destruct (returned p _) eqn:Hr; [|done]. intros [= <-]. split; [done|]. cbn [a_applys]. rewrite a_true; [done| |done].
        by apply (hs_ret _ _ _ HH). }
    destruct (j_host H (js_st js) l) as [st'| | |]; try done. destruct (Hx st' eq_refl) as [HI' Ha].
    destruct (j_applys _ _ _ _ _ _ _ _) as [g|] eqn:Hg; [|done]. intros [= <-]. split; [done|]. by eapply applys_bad.
  Qed.
  Lemma jlost_run ls : forall js js', jlost js -> run jst js ls = Some js' -> jlost js'.
  Proof.
    induction ls as [|l ls IH]; intros js js' Hg; [by intros [= <-]|]. cbn [run]. unfold exec.
    destruct (jst js l) as [js1| | |] eqn:Hs; try done; [|by apply IH..]. apply IH. by eapply jlost_step.
  Qed.
  Lemma jlost_init : jlost jinit.
  Proof. destruct (hs_init _ _ _ HH) as [H1 H2]. split; [done|]. simpl. rewrite H2. by intros s b ?%lookup_empty_Some. Qed.
End bad.

Section bad_programs.
  Context {V Q : Type} (E : ienv V Q) (im : bool) (n m r : list bool) (Hn : n <> []).
  Lemma bad_intern ls js t o p k a i j w : run (jstep stacked im n m r true (intern_host E)) jinit ls = Some js ->
    get_stack (js_st js) t = FIns o p :: k -> j (ip_ser p) = 0 ->
    jstep stacked im n m r true (intern_host E) js (JRun (IStep t a i) j w) = UB.
  Proof.
    intros Hr Hk Hj. destruct (jlost_run im n m r Hn _ _ _ (intern_spec E) ls _ _ (jlost_init _ _ _ (intern_spec E)) Hr) as [HI HG].
    unfold jstep. cbn [j_host j_ops h_step h_ops intern_host i_ops]. rewrite Hk.
    destruct (istep E (js_st js) (IStep t a i)) as [st'| | |] eqn:Hs; try done.
    - cbn [f_ops]. unfold j_look. rewrite Hj. cbn [app]. erewrite use_bad; [done|done|].
      destruct (v_frames _ _ HI t (FIns o p)) as (v&Hp&_); [rewrite Hk; by left|]. by eapply points_lk.
    - cbn [istep] in Hs. unfold istep_thread in Hs. rewrite Hk in Hs. destruct (iread _ _); [|done].
      destruct (ireadable _ _); [|done]. by destruct (candidates _ _ _).
    - cbn [istep] in Hs. unfold istep_thread in Hs. rewrite Hk in Hs. destruct (iread _ _); [|done].
      destruct (ireadable _ _); [|done]. by destruct (candidates _ _ _).
  Qed.
  Lemma bad_new ls js t c o p k a i j w : run (jstep stacked im n m r true (new_host E)) jinit ls = Some js ->
    nstack (js_st js) t = NIn c (FIns o p) :: k -> j (ip_ser p) = 0 ->
    jstep stacked im n m r true (new_host E) js (JRun (IStep t a i) j w) = UB.
  Proof.
    intros Hr Hk Hj. destruct (jlost_run im n m r Hn _ _ _ (new_spec E) ls _ _ (jlost_init _ _ _ (new_spec E)) Hr) as [HI HG].
    unfold jstep. cbn [j_host j_ops h_step h_ops new_host n_ops]. rewrite Hk.
    destruct (nstep E (js_st js) (IStep t a i)) as [st'| | |] eqn:Hs; try done.
    - cbn [f_ops]. unfold j_look. rewrite Hj. cbn [app]. erewrite use_bad; [done|done|].
      destruct HI as (st&HI&_&HR). destruct (nframe_of _ _ _ _ _ _ HI HR Hk) as [(v&Hp&_) _].
      rewrite <- (nlk_of _ _ _ HR). by eapply points_lk.
    - cbn [nstep] in Hs. unfold nstep_thread in Hs. rewrite Hk in Hs. destruct (iread _ _); [|done].
      destruct (ireadable _ _); [|done]. by destruct (candidates _ _ _).
    - cbn [nstep] in Hs. unfold nstep_thread in Hs. rewrite Hk in Hs. destruct (iread _ _); [|done].
      destruct (ireadable _ _); [|done]. by destruct (candidates _ _ _).
  Qed.
End bad_programs.

(** ** For the examples *)
Definition jafter {V Q} (M : machine) im n m r early (H : host V Q) ls : jstate M H := default jinit (run (jstep M im n m r early H) jinit ls).
Lemma jafter_run {V Q} (M : machine) im n m r early (H : host V Q) ls :
  (if run (jstep M im n m r early H) jinit ls then true else false) = true ->
  run (jstep M im n m r early H) jinit ls = Some (jafter M im n m r early H ls).
Proof. unfold jafter. by destruct (run (jstep M im n m r early H) jinit ls). Qed.

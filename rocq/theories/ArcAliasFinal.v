(** [ArcIntern] under the two aliasing models: where there is no undefined behaviour. *)
From stdpp Require Import gmap list numbers.
From Verif Require Import Base ArcModel ArcSpec ArcInv ArcStep ArcSafe ArcReach RaceModel RaceInv RaceStep RaceSafe RaceFinal.
From Verif Require Import AliasModel AliasTree ArcAliasModel ArcAliasLoc ArcAliasTree ArcAliasOps ArcAliasSafe.
Require Import ZifyBool ZifyNat ZifyN.

Section spec.
  Context (M : machine) (tb : bool) (G : bool -> nat -> tag -> tag -> list tag -> list tag -> mst M -> Prop).
  Context (HS : lspec M tb G) (im : bool) (n m k : list bool) (late : bool).
  Context (Hlate : late = true \/ n = []) (Hk : tb = true \/ k = []).
  Notation Bk := (Bk M G).
  Notation cdo := (c_do M im n m k).

  Definition fine (b : bstat) (x : cobj M) : Prop :=
    match b with
    | Loose => Bk [] x /\ co_hands x = []
    | Tabled => Bk (co_hands x) x /\ co_hands x <> []
    | Dead => Bk [] x
    end.
  Lemma bk_nil H x : Bk H x -> Bk [] x.
  Proof. intros [H1 H2]. split; (eapply (l_weak _ _ _ HS); [done|]; by intros t ?%elem_of_nil). Qed.
  Lemma wp_do o x (Q : cobj M -> Prop) x' : cdo o x = Some x' -> Q x' -> wp true (cdo o x) Q.
  Proof. by intros ->. Qed.

  Lemma fine_spec : bspec M im n m k late true fine.
  Proof.
    split.
    - intros b o x Hc Hb. destruct b, o; try done; destruct Hb as [HB Hh].
      + destruct (do_look M tb G HS im n m k _ x HB) as (x'&->&HB'&Hh'). split; [done|congruence].
      + destruct (do_pass M tb G HS im n m k x HB) as (x'&->&HB'&Hh'). split; [done|congruence].
      + destruct (do_look M tb G HS im n m k _ x HB) as (x'&->&HB'&Hh'). split; [first [done|by rewrite Hh']|by rewrite Hh'].
      + destruct (do_point M tb G HS im n m k x HB) as (x'&->&HB'&Hh'). split; [done|]. rewrite Hh'. by intros [_ ?]%app_eq_nil.
      + destruct (do_bump M tb G HS im n m k _ x HB) as (x'&->&HB'&Hh'). split; [first [done|by rewrite Hh']|by rewrite Hh'].
      + destruct (do_use M tb G HS im n m k j w x HB Hh) as (x'&->&HB'&Hh'). split; [first [done|by rewrite Hh']|by rewrite Hh'].
      + destruct (do_read M tb G HS im n m k j x HB Hh) as (x'&->&HB'&Hh'). split; [first [done|by rewrite Hh']|by rewrite Hh'].
    - intros w. destruct (do_alloc M tb G HS im n m k w) as (x&->&HB&Hh). done.
    - intros x [HB Hh]. unfold ins_ops. destruct late; cbn [fst snd].
      + destruct (do_insert M tb G HS im n m k x HB) as (x1&->&HB1&Hh1). cbn [wp]. rewrite Hh in Hh1.
        rewrite <- Hh1 in HB1. destruct (do_point M tb G HS im n m k x1 HB1) as (x2&->&HB2&Hh2). split; [done|]. by rewrite Hh2, Hh1.
      + destruct Hlate as [?|Hn]; [done|]. rewrite <- Hh in HB.
        destruct (do_point M tb G HS im n m k x HB) as (x1&->&HB1&Hh1). cbn [wp].
        destruct (do_insert_nil M G im n m k _ x1 Hn HB1) as (x2&->&HB2&Hh2). split; [by rewrite Hh2|]. by rewrite Hh2, Hh1, Hh.
    - intros x j [HB Hh]. destruct (do_take M tb G HS im n m k j x Hk HB Hh) as (x'&->&HB'&_). done.
    - intros b o x Ho Hb. assert (Bk [] x) as HB.
      { destruct b; [by destruct Hb|destruct Hb as [Hb _]; by eapply bk_nil|done]. }
      destruct Ho as [->| ->].
      + destruct (do_move M tb G HS im n m k x HB) as [x' ->]. done.
      + destruct (do_kill M tb G HS im n m k x HB) as [x' ->]. done.
    - intros b x Hb. destruct b; [by destruct Hb|destruct Hb as [Hb _]; by eapply bk_nil|done].
  Qed.
End spec.

Section runs.
  Context (M : machine) (im : bool) (n m k : list bool) (late : bool) {V : Type} (E : tyenv V).
  Notation cst := (cstep M im n m k late E).
  Context (HL : coherent E) (HW : wide E).

  (** The aliasing machines do not influence the program. *)
  Lemma cstep_arc cs l cs' : cst cs l = Next cs' -> step E (cs_arc cs) l.1 = Next (cs_arc cs').
  Proof.
    unfold cstep. destruct (step E (cs_arc cs) l.1); try done. destruct (c_applys _ _ _ _ _ _ _); [by intros [= <-]|done].
  Qed.
  Lemma run_arc_from ls : forall cs cs', run cst cs ls = Some cs' -> run (step E) (cs_arc cs) (fst <$> ls) = Some (cs_arc cs').
  Proof.
    induction ls as [|l ls IH]; intros cs cs'; [by intros [= <-]|]. rewrite fmap_cons. cbn [run].
    unfold exec. destruct (cst cs l) as [cs1| | |] eqn:Hs; [| | |done].
    - intros Hr. rewrite (cstep_arc _ _ _ Hs). by apply IH.
    - intros Hr. unfold cstep in Hs. destruct (step E (cs_arc cs) l.1) eqn:H; try done; [by destruct (c_applys _ _ _ _ _ _ _)|]. by apply IH.
    - intros Hr. unfold cstep in Hs. destruct (step E (cs_arc cs) l.1) eqn:H; try done; [by destruct (c_applys _ _ _ _ _ _ _)|]. by apply IH.
  Qed.

  Context (tot : bool) (bok : bstat -> cobj M -> Prop) (HB : bspec M im n m k late tot bok).
  Lemma good_run ls : bounded E (fst <$> ls) ->
    match run cst cinit ls with
    | Some cs => good M bok E cs /\ run (step E) init (fst <$> ls) = Some (cs_arc cs)
    | None => tot = false
    end.
  Proof.
    induction ls as [|l ls IH] using rev_ind; intros Hb.
    - split; [apply good_init|done].
    - rewrite fmap_app in Hb. specialize (IH ltac:(by eapply bounded_app)).
      rewrite run_snoc. destruct (run cst cinit ls) as [cs|] eqn:Hr; [|done]. destruct IH as [Hg Hr'].
      pose proof (good_step M im n m k late tot bok HB E cs l Hg HL HW) as Hs.
      assert (fits E (cs_arc cs)) as Hf by (eapply bounded_fits; [by eapply bounded_app|exact Hr']).
      specialize (Hs Hf). rewrite fmap_app. change (fst <$> [l]) with [l.1]. rewrite run_snoc, Hr'.
      unfold exec. destruct (cst cs l) as [cs'| | |]; [destruct Hs as [? ->]|rewrite Hs..|]; done.
  Qed.
End runs.

(** ** No undefined behaviour *)
Section safe.
  Context (im : bool) (n m k : list bool) (late : bool) {V : Type} (E : tyenv V).
  Lemma safe_with M tb G (HS : lspec M tb G) ls : late = true \/ n = [] -> tb = true \/ k = [] ->
    coherent E -> wide E -> bounded E (fst <$> ls) ->
    exists cs, run (cstep M im n m k late E) cinit ls = Some cs /\ run (step E) init (fst <$> ls) = Some (cs_arc cs).
  Proof.
    intros Hl Hk HL HW Hb. pose proof (good_run M im n m k late E HL HW true _ (fine_spec M tb G HS im n m k late Hl Hk) ls Hb) as Hg.
    destruct (run _ cinit ls) as [cs|]; [|done]. exists cs. by destruct Hg.
  Qed.
  Lemma safe_trees ls : late = true \/ n = [] -> coherent E -> wide E -> bounded E (fst <$> ls) ->
    exists cs, run (cstep trees im n m k late E) cinit ls = Some cs /\ run (step E) init (fst <$> ls) = Some (cs_arc cs).
  Proof. intros Hl. apply (safe_with trees true TG trees_spec); [done|by left]. Qed.
  Lemma safe_stacked ls : late = true \/ n = [] -> k = [] -> coherent E -> wide E -> bounded E (fst <$> ls) ->
    exists cs, run (cstep stacked im n m k late E) cinit ls = Some cs /\ run (step E) init (fst <$> ls) = Some (cs_arc cs).
  Proof. intros Hl Hk. apply (safe_with stacked false SG stacked_spec); [done|by right]. Qed.
End safe.

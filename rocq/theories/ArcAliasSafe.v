(** [ArcIntern] does nothing an aliasing machine objects to, if the pointer of a handle is made from the Box
    that is in the table. *)
From stdpp Require Import gmap list numbers.
From Verif Require Import Base ArcModel ArcSpec ArcInv ArcStep ArcSafe ArcReach RaceModel RaceInv RaceStep RaceSafe RaceFinal.
From Verif Require Import AliasModel AliasTree ArcAliasModel ArcAliasLoc ArcAliasOps.
Require Import ZifyBool ZifyNat ZifyN.

(** A block is owned by a call, by the table, or being dropped. *)
Inductive bstat := Loose | Tabled | Dead.

(** What is required of the outcome of an operation: with [tot], that there is one. *)
Definition wp {A} (tot : bool) (r : option A) (Q : A -> Prop) : Prop :=
  match r with Some x => Q x | None => tot = false end.
Lemma wp_mono {A} tot (r : option A) (Q Q' : A -> Prop) : (forall x, Q x -> Q' x) -> wp tot r Q -> wp tot r Q'.
Proof. intros H. destruct r; simpl; auto. Qed.

Definition calm (b : bstat) (o : cop) : Prop :=
  match b, o with
  | Tabled, (CLook | CBump | CPoint | CUse _ _ | CRead _) => True
  | Loose, (CLook | CPass) => True
  | _, _ => False
  end.
Definition ins_ops (late : bool) : cop * cop := if late then (CInsert, CPoint) else (CPoint, CInsert).

(** What the operations have to do to a block. *)
Record bspec (M : machine) (im : bool) (n m k : list bool) (late tot : bool) (bok : bstat -> cobj M -> Prop) : Prop := {
  b_calm : forall b o x, calm b o -> bok b x -> wp tot (c_do M im n m k o x) (bok b);
  b_new : forall w, wp tot (c_do M im n m k (CAlloc w) (c_new M)) (bok Loose);
  b_ins : forall x, bok Loose x ->
    wp tot (c_do M im n m k (ins_ops late).1 x) (λ x1, wp tot (c_do M im n m k (ins_ops late).2 x1) (bok Tabled));
  b_take : forall x j, bok Tabled x -> wp tot (c_do M im n m k (CTake j) x) (bok Dead);
  b_end : forall b o x, o = CMove \/ o = CKill -> bok b x -> wp tot (c_do M im n m k o x) (λ _, True);
  b_dead : forall b x, bok b x -> bok Dead x;
}.

Section steps.
  Context (M : machine) (im : bool) (n m k : list bool) (late tot : bool) (bok : bstat -> cobj M -> Prop).
  Context (HB : bspec M im n m k late tot bok).
  Notation gmap_ := (gmap nat (cobj M)).

  Definition gok (S : nat -> bstat -> Prop) (g : gmap_) : Prop :=
    forall s b, S s b -> exists x, g !! s = Some x /\ bok b x.
  Definition funct (S : nat -> bstat -> Prop) : Prop := forall s b b', S s b -> S s b' -> b = b'.
  Definition keeps (o : cop) : bool := match o with CAlloc _ | CMove | CKill => false | _ => true end.
  Lemma calm_keeps b o : calm b o -> keeps o = true.
  Proof. by destruct b, o. Qed.
  Lemma apply_keep (S S' : nat -> bstat -> Prop) g s o x b : keeps o = true -> gok S g -> g !! s = Some x ->
    wp tot (c_do M im n m k o x) (bok b) ->
    (forall s' b', S' s' b' -> (s' = s /\ b' = b) \/ (s' <> s /\ S s' b')) ->
    wp tot (c_apply M im n m k g (s, o)) (gok S').
  Proof.
    intros Hko HG Hx Hd HSS. unfold c_apply. cbn [fst snd].
    assert (wp tot (match c_do M im n m k o x with Some x' => Some (<[s:=x']> g) | None => None end) (gok S')) as Hw.
    { destruct (c_do M im n m k o x) as [x'|]; [|done]. intros s' b' [[-> ->]|[Hne Hs']]%HSS.
      - exists x'. by rewrite lookup_insert.
      - rewrite lookup_insert_ne by done. by apply HG. }
    destruct o; try done; rewrite Hx; exact Hw.
  Qed.
  Lemma apply_calm (S : nat -> bstat -> Prop) g s o b : funct S -> gok S g -> S s b -> calm b o ->
    wp tot (c_apply M im n m k g (s, o)) (gok S).
  Proof.
    intros HF HG Hs Hc. destruct (HG s b Hs) as (x&Hx&Hb).
    eapply apply_keep; [by eapply calm_keeps|done|done|by apply (b_calm _ _ _ _ _ _ _ _ HB b)|].
    intros s' b' Hs'. destruct (decide (s' = s)) as [->|]; [|by right]. left. split; [done|]. by eapply HF.
  Qed.
  Lemma applys_calm (S : nat -> bstat -> Prop) ys g : funct S -> gok S g ->
    (forall y, y ∈ ys -> exists b, S y.1 b /\ calm b y.2) -> wp tot (c_applys M im n m k ys g) (gok S).
  Proof.
    intros HF. revert g. induction ys as [|[s o] ys IH]; intros g HG Hy; [done|]. cbn [c_applys].
    destruct (Hy (s, o)) as (b&Hb&Hc); [by left|]. pose proof (apply_calm S g s o b HF HG Hb Hc) as Hw.
    destruct (c_apply M im n m k g (s, o)) as [g1|]; [|done].
    apply IH; [done|]. intros y Hin. apply Hy. by right.
  Qed.
  Lemma applys_one y (Q : gmap_ -> Prop) g : wp tot (c_apply M im n m k g y) Q -> wp tot (c_applys M im n m k [y] g) Q.
  Proof. cbn [c_applys]. by destruct (c_apply M im n m k g y). Qed.
  Lemma apply_end (S S' : nat -> bstat -> Prop) g s o b : o = CMove \/ o = CKill -> gok S g -> S s b ->
    (forall s' b', S' s' b' -> s' <> s /\ S s' b') -> wp tot (c_apply M im n m k g (s, o)) (gok S').
  Proof.
    intros Ho HG Hs HSS. destruct (HG s b Hs) as (x&Hx&Hb). pose proof (b_end _ _ _ _ _ _ _ _ HB b o x Ho Hb) as Hw.
    unfold c_apply. cbn [fst snd]. 
    assert (gok S' (delete s g)) as HG'. { intros s' b' [Hne Hs']%HSS. rewrite lookup_delete_ne by done. by apply HG. }
    destruct Ho as [->| ->]; rewrite Hx; destruct (c_do M im n m k _ x); done.
  Qed.
  Lemma apply_alloc (S S' : nat -> bstat -> Prop) g s w : gok S g ->
    (forall s' b', S' s' b' -> (s' = s /\ b' = Loose) \/ (s' <> s /\ S s' b')) ->
    wp tot (c_apply M im n m k g (s, CAlloc w)) (gok S').
  Proof.
    intros HG HSS. pose proof (b_new _ _ _ _ _ _ _ _ HB w) as Hw. unfold c_apply. cbn [fst snd].
    destruct (c_do M im n m k (CAlloc w) (c_new M)) as [x|]; [|done].
    intros s' b' [[-> ->]|[Hne Hs']]%HSS; [exists x; by rewrite lookup_insert|]. rewrite lookup_insert_ne by done. by apply HG.
  Qed.
  (** The Box goes into the table, and a handle is made. *)
  Lemma apply_insert (S S' : nat -> bstat -> Prop) g s : gok S g -> S s Loose ->
    (forall s' b', S' s' b' -> (s' = s /\ b' = Tabled) \/ (s' <> s /\ S s' b')) ->
    wp tot (c_applys M im n m k (if late then [(s, CInsert); (s, CPoint)] else [(s, CPoint); (s, CInsert)]) g) (gok S').
  Proof.
    intros HG Hs HSS. destruct (HG s _ Hs) as (x&Hx&Hb). pose proof (b_ins _ _ _ _ _ _ _ _ HB x Hb) as Hw.
    assert (forall x2, bok Tabled x2 -> gok S' (<[s:=x2]> g)) as HG'.
    { intros x2 Hb2 s' b' [[-> ->]|[Hne Hs']]%HSS; [exists x2; by rewrite lookup_insert|]. rewrite lookup_insert_ne by done. by apply HG. }
    unfold ins_ops in Hw. destruct late; cbn [fst snd] in Hw; unfold c_applys, c_apply; cbn [fst snd]; rewrite Hx;
      (destruct (c_do M im n m k _ x) as [x1|]; [|done]); rewrite lookup_insert; cbn [wp] in Hw;
      (destruct (c_do M im n m k _ x1) as [x2|]; [|done]); rewrite insert_insert; by apply HG'.
  Qed.
  Lemma apply_take (S S' : nat -> bstat -> Prop) g s j : gok S g -> S s Tabled ->
    (forall s' b', S' s' b' -> (s' = s /\ b' = Dead) \/ (s' <> s /\ S s' b')) ->
    wp tot (c_apply M im n m k g (s, CTake j)) (gok S').
  Proof.
    intros HG Hs HSS. destruct (HG s _ Hs) as (x&Hx&Hb).
    by apply (apply_keep S S' g s (CTake j) x Dead); [..|apply (b_take _ _ _ _ _ _ _ _ HB)|].
  Qed.

  Context {V : Type} (E : tyenv V).
  Implicit Types (st : state V) (p q : ptr) (h : gmap nat (cell V)).
  Notation Inv := (Inv E).
  Notation hc := (handles_to E).

  Definition stat h (tab : list ptr) (s : nat) (b : bstat) : Prop :=
    exists a c, h !! a = Some c /\ c_ser c = s /\
      b = match c_data c with None => Dead | Some _ => if decide (Ptr a s ∈ tab) then Tabled else Loose end.
  Lemma stat_funct h tab : heap_inj h -> funct (stat h tab).
  Proof.
    intros HI s b b' (a&c&Ha&<-&->) (a'&c'&Ha'&Hs&->). assert (a' = a) as -> by (by eapply HI).
    rewrite Ha in Ha'. by simplify_eq.
  Qed.
  Lemma stat_data st p d : data st p = Some d ->
    stat (st_heap st) (st_table st) (p_ser p) (if decide (p ∈ st_table st) then Tabled else Loose).
  Proof.
    intros (c&[Hc Hs]%deref_Some&Hd)%data_Some. exists (p_addr p), c. split_and!; [done..|]. rewrite Hd. by destruct p.
  Qed.
  Lemma stat_tab st p : Inv st -> p ∈ st_table st -> stat (st_heap st) (st_table st) (p_ser p) Tabled.
  Proof.
    intros HI Hp. destruct (inv_live _ _ HI p Hp) as [d Hd]. pose proof (stat_data st p d Hd) as Hs. by rewrite decide_True in Hs.
  Qed.
  Lemma stat_loose st p d : data st p = Some d -> p ∉ st_table st -> stat (st_heap st) (st_table st) (p_ser p) Loose.
  Proof. intros Hd Hp. pose proof (stat_data st p d Hd) as Hs. by rewrite decide_False in Hs. Qed.
  Lemma stat_own st t p d : Inv st -> data st p = Some d -> 0 < pc_oc (p_addr p) (get_pc st t) ->
    stat (st_heap st) (st_table st) (p_ser p) Loose.
  Proof.
    intros HI Hd Ho. eapply stat_loose; [done|]. intros Ht. rewrite (table_not_box _ _ HI) in Ho by done. lia.
  Qed.
  Lemma stat_count h tab a c N s b : h !! a = Some c -> stat (<[a := Cell (c_ser c) N (c_data c)]> h) tab s b -> stat h tab s b.
  Proof.
    intros Ha (a'&c'&[[<- <-]|[Hne Hc']]%lookup_insert_Some&<-&->); [by exists a, c|by exists a', c'].
  Qed.
  Lemma stat_take h tab a c N s b : heap_inj h -> h !! a = Some c -> stat (<[a := Cell (c_ser c) N None]> h) tab s b ->
    (s = c_ser c /\ b = Dead) \/ (s <> c_ser c /\ stat h tab s b).
  Proof.
    intros HI Ha (a'&c'&[[<- <-]|[Hne Hc']]%lookup_insert_Some&<-&->); [by left|]. right. split; [|by exists a', c'].
    intros Heq. apply Hne. by eapply HI.
  Qed.
  Lemma stat_delete h tab a c s b : heap_inj h -> h !! a = Some c -> stat (delete a h) tab s b -> s <> c_ser c /\ stat h tab s b.
  Proof.
    intros HI Ha (a'&c'&[Hne Hc']%lookup_delete_Some&<-&->). split; [|by exists a', c'].
    intros Heq. apply Hne. by eapply HI.
  Qed.
  Lemma stat_new st a v s b : Inv st -> st_heap st !! a = None ->
    stat (<[a := Cell (st_next st) 1%N (Some v)]> (st_heap st)) (st_table st) s b ->
    (s = st_next st /\ b = Loose) \/ (s <> st_next st /\ stat (st_heap st) (st_table st) s b).
  Proof.
    intros HI Ha (a'&c'&[[<- <-]|[Hne Hc']]%lookup_insert_Some&<-&->).
    - left. split; [done|]. simpl. rewrite decide_False; [done|]. intros Hp.
      destruct (inv_live _ _ HI _ Hp) as [d (c&[Hc _]%deref_Some&_)%data_Some]. simpl in Hc. congruence.
    - right. split; [|by exists a', c']. intros Heq. pose proof (inv_ser _ _ HI _ _ Hc'). lia.
  Qed.
  Lemma stat_put st q d s b : ser_inj st -> data st q = Some d -> stat (st_heap st) (q :: st_table st) s b ->
    (s = p_ser q /\ b = Tabled) \/ (s <> p_ser q /\ stat (st_heap st) (st_table st) s b).
  Proof.
    intros HI%ser_inj_heap Hd (a&c&Ha&<-&->). apply data_Some in Hd as (c0&[Hc0 Hs]%deref_Some&Hd).
    destruct (decide (c_ser c = p_ser q)) as [He|He].
    - left. split; [done|]. assert (a = p_addr q) as -> by (eapply HI; [done..|congruence]). rewrite Hc0 in Ha. simplify_eq.
      rewrite Hd, decide_True; [done|]. rewrite Hs. destruct q. by left.
    - right. split; [done|]. exists a, c. split_and!; [done..|]. destruct (c_data c); [|done].
      destruct (decide (Ptr a (c_ser c) ∈ st_table st)) as [Ht|Ht].
      + rewrite decide_True; [done|]. by right.
      + rewrite decide_False; [done|]. intros [E1|?]%elem_of_cons; [|done]. apply He. by rewrite <- E1.
  Qed.
  Lemma stat_remove st q c s b : ser_inj st -> deref st q = Some c ->
    stat (<[p_addr q := Cell (c_ser c) (c_count c) None]> (st_heap st)) (remove_entry q (st_table st)) s b ->
    (s = p_ser q /\ b = Dead) \/ (s <> p_ser q /\ stat (st_heap st) (st_table st) s b).
  Proof.
    intros HI%ser_inj_heap [Hc Hs]%deref_Some Hst. apply (stat_take _ _ _ _ _ _ _ HI Hc) in Hst as [[-> ->]|[Hne Hst]].
    - left. by rewrite Hs.
    - right. rewrite <- Hs. split; [done|]. destruct Hst as (a&c'&Ha&<-&->). exists a, c'. split_and!; [done..|].
      destruct (c_data c'); [|done]. unfold remove_entry.
      destruct (decide (Ptr a (c_ser c') ∈ st_table st)) as [Ht|Ht].
      + rewrite decide_True; [done|]. apply elem_of_list_filter. split; [|done]. intros Hq. apply Hne. rewrite Hs. by rewrite <- Hq.
      + rewrite decide_False; [done|]. by intros [_ ?]%elem_of_list_filter.
  Qed.

  Notation sof st := (stat (st_heap st) (st_table st)).

  Lemma looks_calm st y : Inv st -> y ∈ c_looks st -> exists b, sof st y.1 b /\ calm b y.2.
  Proof. intros HI (q&->&Hq)%elem_of_list_fmap. exists Tabled. split; [by apply stat_tab|done]. Qed.
  Lemma path_calm st j o p ks q y : Inv st -> (forall i, calm Tabled (o i)) -> 0 < hc st p -> follow E st p ks = Next q ->
    y ∈ c_path j o p ks -> exists b, sof st y.1 b /\ calm b y.2.
  Proof.
    intros HI Ho. revert p. induction ks as [|q' ks IH]; intros p Hp Hf.
    - intros ->%elem_of_list_singleton. exists Tabled. split; [|apply Ho]. apply stat_tab; [done|]. by apply (inv_hand _ _ HI).
    - simpl in Hf. destruct (data st p) as [d|] eqn:Hd; [|done]. destruct (decide _) as [Hin|]; [|done].
      cbn [c_path]. intros [->|Hy]%elem_of_cons.
      + exists Tabled. split; [|done]. apply stat_tab; [done|]. by apply (inv_hand _ _ HI).
      + apply (IH q'); [|done..]. apply data_Some in Hd as (c&[Hc _]%deref_Some&Hcd). by eapply hc_ge_kids.
  Qed.
  Lemma borrow_calm st j o p ks q y : Inv st -> (forall i, calm Tabled (o i)) -> borrow E st p ks = Next q ->
    y ∈ c_path j o p ks -> exists b, sof st y.1 b /\ calm b y.2.
  Proof.
    intros HI Ho Hb. unfold borrow in Hb. destruct (decide _) as [Hp|]; [|done]. eapply path_calm; [done..| |done].
    by apply hc_ge_pool.
  Qed.

  Notation capps := (c_applys M im n m k).
  Notation cops := (c_ops late E).

  Lemma quiet st st' ys g : Inv st -> ser_inj st -> gok (sof st) g ->
    (forall y, y ∈ ys -> exists b, sof st y.1 b /\ calm b y.2) -> (forall s b, sof st' s b -> sof st s b) ->
    wp tot (capps ys g) (gok (sof st')).
  Proof.
    intros HI HSI%ser_inj_heap HG Hy HSS. eapply wp_mono, (applys_calm _ ys g (stat_funct _ _ HSI) HG Hy).
    intros g' HG' s b Hs. by apply HG', HSS.
  Qed.

  Lemma entry_calm st t kd v q y : Inv st -> get_pc st t = PEntry kd v q ->
    y ∈ c_at CPass q :: c_looks st ++ [c_at CLook q] -> exists b, sof st y.1 b /\ calm b y.2.
  Proof.
    intros HI Hpc Hy. pose proof (inv_pc _ _ HI t) as Hok. rewrite Hpc in Hok. destruct Hok as [Hb _].
    assert (sof st (p_ser q) Loose) as Hq.
    { eapply (stat_own st t q v HI); [|rewrite Hpc; simpl; rewrite at_addr_self; lia]. unfold data. by rewrite Hb. }
    rewrite elem_of_cons, elem_of_app, elem_of_list_singleton in Hy.
    destruct Hy as [->|[Hy| ->]]; [by exists Loose|by apply looks_calm|by exists Loose].
  Qed.

  Lemma steps_step st l j st' g : Inv st -> ser_inj st -> gok (sof st) g -> step E st l = Next st' ->
    wp tot (capps (cops st l j) g) (gok (sof st')).
  Proof.
    intros HI HSI HG Hs.
    assert (forall y, y ∈ ([] : list (nat * cop)) -> exists b, sof st y.1 b /\ calm b y.2) as Hnil by (by intros y ?%elem_of_nil).
    assert (forall p, p ∈ st_table st -> forall o y, y ∈ [c_at o p] -> calm Tabled o -> exists b, sof st y.1 b /\ calm b y.2) as Hone.
    { intros p Hp o y ->%elem_of_list_singleton Ho. exists Tabled. split; [by apply stat_tab|done]. }
    destruct l as [t kd v|t p|p ks|p|p ks|p ks|t ty|t ty|t a i|t]; cbn [step c_ops] in *.
    - destruct (get_pc st t); try done. destruct kd; [destruct (rem_all _ _)|destruct (te_kids E v)]; try done; injection Hs as <-;
        by apply (quiet st).
    - destruct (get_pc st t); try done. destruct (rem1 _ _); [|done]. injection Hs as <-. by apply (quiet st).
    - destruct (borrow E st p ks) as [q| | |] eqn:Hb; try done. destruct (deref st q) as [c|] eqn:Hc; [|done]. injection Hs as <-.
      apply (quiet st); [done..| |].
      + intros y Hy. eapply (borrow_calm st j (λ i, CUse i true)); done.
      + intros s b. apply stat_count. by apply deref_Some in Hc as [? _].
    - destruct (rem1 _ _); [|done]. injection Hs as <-. by apply (quiet st).
    - destruct (borrow E st p ks) as [q| | |] eqn:Hb; try done. destruct (deref st q) as [c|] eqn:Hc; [|done]. injection Hs as <-.
      apply (quiet st); [done..| |done]. intros y Hy. eapply (borrow_calm st j (λ i, CUse i false)); done.
    - destruct (borrow E st p ks) as [q| | |] eqn:Hb; try done. destruct (data st q) as [c|] eqn:Hc; [|done]. injection Hs as <-.
      apply (quiet st); [done..| |done]. intros y Hy. eapply (borrow_calm st j CRead); done.
    - destruct (get_pc st t); try done. injection Hs as <-. by apply (quiet st).
    - destruct (get_pc st t); try done. injection Hs as <-. by apply (quiet st).
    - pose proof (inv_pc _ _ HI t) as Hok. unfold step_thread in Hs.
      destruct (get_pc st t) as [|kd v b|kd v b p|kd v b p old|kd v b p|kd v b|kd v q|kd v q|kd v q|kd v q|lk q w r|w r|ty i0 acc|ty i0] eqn:Hpc; try done.
      + (* PLookup *)
        destruct (st_locks st !! _); [done|]. destruct (readable st); [|done].
        assert (st_heap st' = st_heap st /\ st_table st' = st_table st) as [E1 E2].
        { destruct (pick _ _); by injection Hs as <-. }
        apply (quiet st); [done..|by intros; apply looks_calm|]. by rewrite E1, E2.
      + (* PHit *)
        destruct (deref st p) as [c|] eqn:Hc; [|done]. injection Hs as <-. destruct Hok as [_ [Hp _]].
        apply (quiet st); [done..|by intros y Hy; eapply (Hone p Hp); [exact Hy|]|]. intros s b'. apply stat_count. by apply deref_Some in Hc as [? _].
      + (* PInc *)
        destruct Hok as (_&[Hp _]&_). destruct (old =? 0)%N.
        * destruct (deref st p) as [c|] eqn:Hc; [|done]. injection Hs as <-.
          apply (quiet st); [done..|by intros y Hy; eapply (Hone p Hp); [exact Hy|]|]. intros s b'. apply stat_count. by apply deref_Some in Hc as [? _].
        * injection Hs as <-. apply (quiet st); [done..|by intros y Hy; eapply (Hone p Hp); [exact Hy|]|done].
      + (* PUndo *)
        injection Hs as <-. by apply (quiet st).
      + (* PAlloc *)
        assert (forall w, match st_heap st !! a with Some _ => Illegal | None =>
            Next (set_pc (alloc st a v) t (PEntry kd v (Ptr a (st_next st)))) end = Next st' ->
          wp tot (capps [(st_next st, CAlloc w)] g) (gok (sof st'))) as Hnew.
        { intros w Hw. destruct (st_heap st !! a) eqn:Ha; [done|]. injection Hw as <-. apply applys_one, (apply_alloc (sof st)); [done|].
          intros s b' Hst. eapply stat_new; [done|exact Ha|exact Hst]. }
        destruct kd; [by apply Hnew|]. destruct b as [q|]; [|by apply Hnew]. injection Hs as <-. by apply (quiet st).
      + (* PEntry *)
        destruct (data st q) as [d|]; [|done]. destruct (st_locks st !! _); [done|]. destruct (readable st); [|done].
        assert (st_heap st' = st_heap st /\ st_table st' = st_table st) as [E1 E2].
        { destruct (pick _ _); by injection Hs as <-. }
        apply (quiet st); [done..|by intros y; eapply entry_calm|]. by rewrite E1, E2.
      + (* PVac *)
        injection Hs as <-. destruct Hok as (Hb&_&_). assert (data st q = Some v) as Hd by (unfold data; by rewrite Hb).
        assert (sof st (p_ser q) Loose) as Hq.
        { eapply (stat_own st t q v HI); [done|rewrite Hpc; simpl; rewrite at_addr_self; lia]. }
        apply (apply_insert (sof st)); [done..|]. intros s b' Hst. by apply (stat_put st q v).
      + (* POcc *)
        destruct Hok as [Hb _]. assert (data st q = Some v) as Hd by (unfold data; by rewrite Hb).
        assert (sof st (p_ser q) Loose) as Hq.
        { eapply (stat_own st t q v HI); [done|rewrite Hpc; simpl; rewrite at_addr_self; lia]. }
        destruct kd.
        * destruct (deref st q) as [c|] eqn:Hc; [|done]. destruct (c_data c) as [d|] eqn:Hcd; [|done]. injection Hs as <-.
          apply deref_Some in Hc as [Hc Hsq]. apply applys_one, (apply_end (sof st) _ _ _ _ Loose); [by left|done..|].
          intros s b' Hst. rewrite <- Hsq. eapply stat_delete; [by apply ser_inj_heap|done..].
        * injection Hs as <-. apply (quiet st); [done..| |done]. intros y ->%elem_of_list_singleton. by exists Loose.
      + (* PIns *)
        injection Hs as <-. by apply (quiet st).
      + (* PRem *)
        destruct (deref st q) as [c|] eqn:Hc; [|done]. destruct (c_data c) as [d|] eqn:Hcd; [|done]. injection Hs as <-.
        destruct Hok as (Hq&_). apply applys_one, (apply_take (sof st)); [done|by apply stat_tab|].
        intros s b' Hst. by apply (stat_remove st q c).
      + (* PWork *)
        destruct w as [|[p|p|q] w].
        * assert (st_heap st' = st_heap st /\ st_table st' = st_table st) as [E1 E2].
          { destruct r as [[??]|]; by injection Hs as <-. }
          apply (quiet st); [done..|]. by rewrite E1, E2.
        * destruct (deref st p) as [c|] eqn:Hc; [|done]. injection Hs as <-.
          apply (quiet st); [done..| |intros s b'; apply stat_count; by apply deref_Some in Hc as [? _]].
          intros y Hy. eapply (Hone p); [|exact Hy|done]. apply (inv_hand _ _ HI). pose proof (hc_ge_pc E st t p) as Hge. rewrite Hpc in Hge. simpl in Hge.
          rewrite is_p_self in Hge. lia.
        * destruct (data st p) as [d|] eqn:Hd; [|done]. destruct (st_locks st !! _); [done|]. destruct (readable st); [|done].
          assert (st_heap st' = st_heap st /\ st_table st' = st_table st) as [E1 E2].
          { destruct (pick _ _); by injection Hs as <-. }
          apply (quiet st); [done..| |by rewrite E1, E2]. intros y [->|Hy]%elem_of_cons; [|by apply looks_calm].
          exists Tabled. split; [|done]. apply stat_tab; [done|]. apply (rem_hand E st t p HI). rewrite Hpc. simpl. rewrite is_p_self. lia.
        * destruct (deref st q) as [c|] eqn:Hc; [|done]. injection Hs as <-.
          assert (sof st (p_ser q) (match c_data c with None => Dead | Some _ => if decide (q ∈ st_table st) then Tabled else Loose end)) as Hq.
          { apply deref_Some in Hc as [Hc Hsq]. exists (p_addr q), c. split_and!; [done..|]. by destruct q. }
          eapply applys_one, (apply_end (sof st)); [by right|done|exact Hq|].
          apply deref_Some in Hc as [Hc Hsq]. intros s b' Hst. rewrite <- Hsq.
          eapply stat_delete; [by apply ser_inj_heap|done..].
      + (* PLen *)
        assert (st_heap st' = st_heap st /\ st_table st' = st_table st) as [E1 E2].
        { destruct (_ <? _); [destruct (st_locks st !! _); [done|]|]; by injection Hs as <-. }
        apply (quiet st); [done..|]. by rewrite E1, E2.
      + (* PShrink *)
        assert (st_heap st' = st_heap st /\ st_table st' = st_table st) as [E1 E2].
        { destruct (_ <? _); [destruct (st_locks st !! _); [done|]|]; by injection Hs as <-. }
        apply (quiet st); [done..| |by rewrite E1, E2]. destruct (_ <? _); [by intros; apply looks_calm|done].
    - unfold step_panic in Hs.
      destruct (get_pc st t) as [|kd v b|kd v b p|kd v b p old|kd v b p|kd v b|kd v q|kd v q|kd v q|kd v q|lk q w r|w r|ty i0 acc|ty i0] eqn:Hpc; try done.
      + injection Hs as <-. apply (quiet st); [done..|by intros; apply looks_calm|done].
      + destruct (deref st q) as [c|] eqn:Hc; [|done]. destruct (c_data c) as [d|] eqn:Hcd; [|done]. injection Hs as <-.
        eapply wp_mono, (quiet st st); [|done..|by intros y; eapply entry_calm|done]. intros g' HG'.
        apply deref_Some in Hc as [Hc Hsq]. intros s b'. cbn [st_heap st_table take_data set_heap set_pc].
        intros [[-> ->]|[Hne Hst]]%stat_take; [| |by apply ser_inj_heap|done].
        * assert (sof st (c_ser c) (if decide (q ∈ st_table st) then Tabled else Loose)) as Hq.
          { exists (p_addr q), c. split_and!; [done..|]. rewrite Hcd, Hsq. by destruct q. }
          destruct (HG' _ _ Hq) as (x&Hx&Hb). exists x. split; [done|]. by eapply (b_dead _ _ _ _ _ _ _ _ HB).
        * by apply HG'.
      + destruct w as [|[p|p|q] w]; try done. injection Hs as <-.
        apply (quiet st); [done..| |done]. intros y [->|Hy]%elem_of_cons; [|by apply looks_calm].
        exists Tabled. split; [|done]. apply stat_tab; [done|]. apply (rem_hand E st t p HI). rewrite Hpc. simpl. rewrite is_p_self. lia.
  Qed.

  Definition good (cs : cstate M) : Prop := Inv (cs_arc cs) /\ ser_inj (cs_arc cs) /\ gok (sof (cs_arc cs)) (cs_objs cs).
  Lemma good_init : good cinit.
  Proof.
    split_and!.
    - apply inv_init.
    - apply ser_inj_heap. intros a b c c' Ha. simpl in Ha. by rewrite lookup_empty in Ha.
    - intros s b (a&c&Ha&_). simpl in Ha. by rewrite lookup_empty in Ha.
  Qed.
  Lemma good_step cs l : good cs -> coherent E -> wide E -> fits E (cs_arc cs) ->
    match cstep M im n m k late E cs l with
    | Next cs' => good cs' /\ step E (cs_arc cs) l.1 = Next (cs_arc cs')
    | UB => tot = false
    | Blocked => step E (cs_arc cs) l.1 = Blocked
    | Illegal => step E (cs_arc cs) l.1 = Illegal
    end.
  Proof.
    intros (HI&HSI&HG) HC HW HF. destruct l as [l j]. unfold cstep. cbn [fst snd].
    destruct (step E (cs_arc cs) l) as [st'| | |] eqn:Hs; [|done|done|by apply step_no_ub in Hs].
    pose proof (steps_step _ _ j _ _ HI HSI HG Hs) as Hw.
    destruct (capps (cops (cs_arc cs) l j) (cs_objs cs)) as [g'|]; [|done].
    split; [|done]. split_and!; [by eapply step_inv|by eapply step_ser_inj|done].
  Qed.
End steps.

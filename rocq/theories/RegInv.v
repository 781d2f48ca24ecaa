(** Invariant of the registry model and its consequences. *)
From stdpp Require Import gmap list numbers.
From Verif Require Import Base RegModel.

Section inv.
  Context (common : list nat) (shard : nat -> nat).
  Notation step := (gstep common shard).
  Implicit Types (st : gstate) (t ty c i s : nat).

  Lemma find_entry_Some ty l c : find_entry ty l = Some c -> (ty, c) ∈ l.
  Proof.
    induction l as [|[x d] l IH]; simpl; [done|].
    destruct (Nat.eqb_spec x ty) as [->|]; [intros [= ->]; by left|]. intros H. right. by apply IH.
  Qed.
  Lemma find_entry_None ty l : find_entry ty l = None -> ty ∉ l.*1.
  Proof.
    induction l as [|[x d] l IH]; csimpl; [intros _ H; by apply elem_of_nil in H|].
    destruct (Nat.eqb_spec x ty) as [->|]; [done|]. intros H [->|Hin]%elem_of_cons; [done|]. by apply IH.
  Qed.
  Lemma position_lookup ty l i : position ty l = Some i -> l !! i = Some ty.
  Proof.
    revert i. induction l as [|x l IH]; simpl; intros i; [done|].
    destruct (Nat.eqb_spec x ty) as [->|]; [by intros [= <-]|].
    destruct (position ty l) as [j|]; [|done]. intros [= <-]. simpl. by apply IH.
  Qed.

  Definition reads s (x : gpc) : nat :=
    match x with GRead ty _ => if shard ty =? s then 1 else 0 | _ => 0 end.

  Definition pc_ok st t (x : gpc) : Prop :=
    match x with
    | GFree => True
    | GOnce ty i => position ty common = Some i
    | GOnceRun ty i => position ty common = Some i /\ g_statics st !! i = Some (ORun t)
    | GMap ty => position ty common = None
    | GMapRun ty => position ty common = None /\ g_map st = Some (ORun t)
    | GGet ty | GEntry ty => position ty common = None
    | GVac ty => position ty common = None /\ ty ∉ (g_entries st).*1 /\ g_locks st !! shard ty = Some (LWrite t)
    | GOcc ty c => (ty, c) ∈ g_entries st /\ g_locks st !! shard ty = Some (LWrite t)
    | GRead ty c => (ty, c) ∈ g_entries st
    end.

  Definition holds_write s (x : gpc) : Prop :=
    match x with GVac ty | GOcc ty _ => shard ty = s | _ => False end.

  Record GInv st : Prop := {
    gi_nodup : NoDup (g_entries st).*1;
    gi_entries : forall ty c, (ty, c) ∈ g_entries st ->
      g_boxes st !! c = Some ty /\ position ty common = None;
    gi_statics : forall i c, g_statics st !! i = Some (ODone c) ->
      exists ty, position ty common = Some i /\ g_boxes st !! c = Some ty;
    gi_boxes : forall c ty, g_boxes st !! c = Some ty ->
      (exists i, position ty common = Some i /\ g_statics st !! i = Some (ODone c)) \/ (ty, c) ∈ g_entries st;
    gi_pc : forall t, pc_ok st t (get_gpc st t);
    gi_read : forall s, msum (reads s) (g_threads st)
      = match g_locks st !! s with Some (LRead n) => n | _ => 0 end;
    gi_readpos : forall s n, g_locks st !! s = Some (LRead n) -> 0 < n;
    gi_write : forall s t, g_locks st !! s = Some (LWrite t) -> holds_write s (get_gpc st t);
    gi_once : forall i t, g_statics st !! i = Some (ORun t) -> exists ty, get_gpc st t = GOnceRun ty i;
    gi_map : forall t, g_map st = Some (ORun t) -> exists ty, get_gpc st t = GMapRun ty;
    gi_log : forall e, e ∈ g_log st -> match e with EvGot _ ty c => g_boxes st !! c = Some ty | EvPanic _ _ => False end;
  }.

  Lemma get_set st t u x : get_gpc (set_gpc st t x) u = if decide (t = u) then x else get_gpc st u.
  Proof.
    unfold get_gpc. simpl. destruct (decide (t = u)) as [->|].
    - by rewrite lookup_insert.
    - by rewrite lookup_insert_ne.
  Qed.

  Lemma reads_set st t x s :
    msum (reads s) (<[t:=x]> (g_threads st)) + reads s (get_gpc st t) = reads s x + msum (reads s) (g_threads st).
  Proof. apply msum_insert_default. done. Qed.

  Lemma ginv_init : GInv ginit.
  Proof.
    constructor; simpl.
    - constructor.
    - intros ty c H. by apply elem_of_nil in H.
    - intros i c H. by rewrite lookup_empty in H.
    - intros c ty H. done.
    - intros t. unfold get_gpc. simpl. by rewrite lookup_empty.
    - intros s. by rewrite msum_empty, lookup_empty.
    - intros s n H. by rewrite lookup_empty in H.
    - intros s n H. by rewrite lookup_empty in H.
    - intros s n H. by rewrite lookup_empty in H.
    - done.
    - intros e H. by apply elem_of_nil in H.
  Qed.

  Lemma ginv_call st t ty :
    GInv st -> get_gpc st t = GFree ->
    forall x, (x = GMap ty /\ position ty common = None \/ exists i, x = GOnce ty i /\ position ty common = Some i) ->
    GInv (set_gpc st t x).
  Proof.
    intros [] Hp x Hx. constructor; simpl; try done.
    - intros u. rewrite get_set. destruct (decide (t = u)) as [<-|].
      + destruct Hx as [[-> ?]|(i&->&?)]; done.
      + exact (gi_pc0 u).
    - intros s. pose proof (reads_set st t x s) as H. rewrite Hp in H.
      assert (reads s x = 0) as Hz by (destruct Hx as [[-> ?]|(i&->&?)]; done).
      rewrite <- gi_read0. simpl in H. lia.
    - intros s u H. rewrite get_set. destruct (decide (t = u)) as [<-|]; [|by apply gi_write0].
      apply gi_write0 in H. by rewrite Hp in H.
    - intros i u H. rewrite get_set. destruct (decide (t = u)) as [<-|]; [|by apply gi_once0].
      apply gi_once0 in H as [? H]. by rewrite Hp in H.
    - intros u H. rewrite get_set. destruct (decide (t = u)) as [<-|]; [|by apply gi_map0].
      apply gi_map0 in H as [? H]. by rewrite Hp in H.
  Qed.

  Lemma other_pc st st' u x :
    pc_ok st u x ->
    (forall i, g_statics st !! i = Some (ORun u) -> g_statics st' !! i = Some (ORun u)) ->
    (g_map st = Some (ORun u) -> g_map st' = Some (ORun u)) ->
    (forall e, e ∈ g_entries st -> e ∈ g_entries st') ->
    (forall s, g_locks st !! s = Some (LWrite u) -> g_locks st' !! s = Some (LWrite u)) ->
    (forall ty, g_locks st !! shard ty = Some (LWrite u) -> ty ∉ (g_entries st).*1 -> ty ∉ (g_entries st').*1) ->
    pc_ok st' u x.
  Proof. intros H Hs Hm He Hl Hv. destruct x; simpl in *; naive_solver. Qed.

  (** Steps that change only the program counter, the log and one entry of the locks. *)
  Lemma ginv_lock st t x s l lg :
    GInv st -> s = s ->
    let st' := GState (g_statics st) (g_map st) (g_entries st) l (g_boxes st) (<[t:=x]> (g_threads st)) lg in
    (forall s', s' <> s -> l !! s' = g_locks st !! s') ->
    (forall u, u <> t -> g_locks st !! s = Some (LWrite u) -> l !! s = Some (LWrite u)) ->
    (forall u, u <> t -> l !! s = Some (LWrite u) -> g_locks st !! s = Some (LWrite u)) ->
    pc_ok st' t x ->
    (forall s', s' <> s -> reads s' x = reads s' (get_gpc st t)) ->
    (forall s', s' <> s -> g_locks st !! s' = Some (LWrite t) -> holds_write s' x) ->
    match l !! s with
    | Some (LRead n) => 0 < n /\ n + reads s (get_gpc st t)
        = reads s x + match g_locks st !! s with Some (LRead n) => n | _ => 0 end
    | Some (LWrite u) => (u = t -> holds_write s x) /\ reads s (get_gpc st t)
        = reads s x + match g_locks st !! s with Some (LRead n) => n | _ => 0 end
    | None => reads s (get_gpc st t) = reads s x + match g_locks st !! s with Some (LRead n) => n | _ => 0 end
    end ->
    (forall i, g_statics st !! i = Some (ORun t) -> exists ty, x = GOnceRun ty i) ->
    (g_map st = Some (ORun t) -> exists ty, x = GMapRun ty) ->
    (forall e, e ∈ lg -> match e with EvGot _ ty c => g_boxes st !! c = Some ty | EvPanic _ _ => False end) ->
    GInv st'.
  Proof.
    intros [] _ st' Hl Hlo Hlo' Hx Hr Hw Hs Hst Hm Hlg.
    constructor; simpl; try done.
    - intros u. change (get_gpc st' u) with (get_gpc (set_gpc st t x) u). rewrite get_set.
      destruct (decide (t = u)) as [<-|Hne]; [done|].
      apply (other_pc st); simpl; auto.
      intros s' Hs'. destruct (decide (s' = s)) as [->|Hns]; [by apply Hlo|]. by rewrite Hl.
    - intros s'. pose proof (reads_set st t x s') as H. specialize (gi_read0 s').
      destruct (decide (s' = s)) as [->|Hns].
      + destruct (l !! s) as [[n|u]|]; lia.
      + rewrite Hr in H by done. rewrite Hl by done. lia.
    - intros s' n H. destruct (decide (s' = s)) as [->|Hns].
      + rewrite H in Hs. lia.
      + rewrite Hl in H by done. by eapply gi_readpos0.
    - intros s' u H. change (get_gpc st' u) with (get_gpc (set_gpc st t x) u). rewrite get_set.
      destruct (decide (t = u)) as [<-|Hne].
      + destruct (decide (s' = s)) as [->|Hns]; [rewrite H in Hs; naive_solver|].
        rewrite Hl in H by done. by apply Hw.
      + destruct (decide (s' = s)) as [->|Hns]; [by apply gi_write0, Hlo'|].
        rewrite Hl in H by done. by apply gi_write0.
    - intros i u H. change (get_gpc st' u) with (get_gpc (set_gpc st t x) u). rewrite get_set.
      destruct (decide (t = u)) as [<-|Hne]; [by apply Hst|by apply gi_once0].
    - intros u H. change (get_gpc st' u) with (get_gpc (set_gpc st t x) u). rewrite get_set.
      destruct (decide (t = u)) as [<-|Hne]; [by apply Hm|by apply gi_map0].
  Qed.

  Lemma ginv_idle st t :
    GInv st -> (forall ty i, get_gpc st t <> GOnceRun ty i) -> forall i, g_statics st !! i <> Some (ORun t).
  Proof. intros [] H i Hi. apply gi_once0 in Hi as [ty Hi]. by eapply H. Qed.
  Lemma ginv_idle_map st t :
    GInv st -> (forall ty, get_gpc st t <> GMapRun ty) -> g_map st <> Some (ORun t).
  Proof. intros [] H Hi. apply gi_map0 in Hi as [ty Hi]. by eapply H. Qed.
  Lemma ginv_nowrite st t :
    GInv st -> (forall s, ~ holds_write s (get_gpc st t)) -> forall s, g_locks st !! s <> Some (LWrite t).
  Proof. intros [] H s Hi. apply gi_write0 in Hi. by eapply H. Qed.

  Lemma ginv_step st l st' : GInv st -> step st l = Next st' -> GInv st'.
  Proof.
    intros HI Hs. destruct l as [t ty|t]; simpl in Hs.
    { destruct (get_gpc st t) eqn:Hp; try done.
      destruct (position ty common) as [i|] eqn:Hpos; injection Hs as <-;
        (eapply ginv_call; [done|done|]); [right; by exists i|by left]. }
    unfold gstep_thread in Hs. pose proof (gi_pc _ HI t) as Hok.
    destruct (get_gpc st t) as [|ty i|ty i|ty|ty|ty|ty|ty|ty c|ty c] eqn:Hp; simpl in Hok; [done|..].
    - (* GOnce *)
      pose proof (ginv_idle st t HI ltac:(rewrite Hp; done)) as Hno.
      pose proof (ginv_idle_map st t HI ltac:(rewrite Hp; done)) as Hnm.
      pose proof (ginv_nowrite st t HI ltac:(intros s0; rewrite Hp; simpl; tauto)) as Hnw.
      destruct (g_statics st !! i) as [[u|c]|] eqn:Hi; [done| |]; injection Hs as <-.
      + apply (ginv_lock st t GFree 0 (g_locks st)); auto; simpl; try naive_solver.
        * by rewrite Hp.
        * rewrite Hp. simpl. destruct (g_locks st !! 0) as [[n|u]|] eqn:Hl; try lia.
          { apply (gi_readpos _ HI) in Hl. lia. }
          split; [|done]. intros ->. by destruct (Hnw 0).
        * intros e [->|He]%elem_of_cons; [|by apply (gi_log _ HI)].
          destruct (gi_statics _ HI _ _ Hi) as (ty'&Hpos'&?).
          apply position_lookup in Hpos', Hok. by simplify_eq.
      + destruct HI. constructor; simpl; try done.
        * intros j c. destruct (decide (i = j)) as [->|]; [by rewrite lookup_insert|].
          rewrite lookup_insert_ne by done. apply gi_statics0.
        * intros c ty' Hb. destruct (gi_boxes0 _ _ Hb) as [(j&?&?)|?]; [left|by right].
          exists j. split; [done|]. rewrite lookup_insert_ne; [done|]. by intros ->; simplify_eq.
        * intros u. rewrite get_set. destruct (decide (t = u)) as [<-|Hne].
          { simpl. by rewrite lookup_insert. }
          apply (other_pc st); simpl; [exact (gi_pc0 u)|auto..]. intros j Hj.
          rewrite lookup_insert_ne; [done|]. by intros ->; simplify_eq.
        * intros s. pose proof (reads_set st t (GOnceRun ty i) s) as H. rewrite Hp in H. simpl in H.
          rewrite <- gi_read0. lia.
        * intros s u Hw. rewrite get_set. destruct (decide (t = u)) as [<-|]; [by destruct (Hnw s)|by apply gi_write0].
        * intros j u Hj. rewrite get_set. destruct (decide (t = u)) as [<-|].
          { destruct (decide (i = j)) as [->|]; [by exists ty|]. rewrite lookup_insert_ne in Hj by done.
            by destruct (Hno j). }
          destruct (decide (i = j)) as [->|]; [rewrite lookup_insert in Hj; by simplify_eq|].
          rewrite lookup_insert_ne in Hj by done. by apply gi_once0.
        * intros u Hu. rewrite get_set. destruct (decide (t = u)) as [<-|]; [done|by apply gi_map0].
    - (* GOnceRun *)
      destruct Hok as [Hpos Hrun]. rewrite (position_lookup _ _ _ Hpos) in Hs. injection Hs as <-.
      pose proof (ginv_idle_map st t HI ltac:(rewrite Hp; done)) as Hnm.
      pose proof (ginv_nowrite st t HI ltac:(intros s0; rewrite Hp; simpl; tauto)) as Hnw.
      assert (forall c ty', g_boxes st !! c = Some ty' -> (g_boxes st ++ [ty]) !! c = Some ty') as Hmono
        by (intros; by apply lookup_app_l_Some).
      assert ((g_boxes st ++ [ty]) !! fresh st = Some ty) as Hnew.
      { unfold fresh. rewrite lookup_app_r by lia. by rewrite Nat.sub_diag. }
      destruct HI. constructor; simpl; try done.
      + intros ty' c H. destruct (gi_entries0 _ _ H). auto.
      + intros j c. destruct (decide (i = j)) as [->|].
        * rewrite lookup_insert. intros [= <-]. by exists ty.
        * rewrite lookup_insert_ne by done. intros H. destruct (gi_statics0 _ _ H) as (ty'&?&?). exists ty'. auto.
      + intros c ty' [Hb|[Hge Hb]]%lookup_app_Some.
        * destruct (gi_boxes0 _ _ Hb) as [(j&?&?)|?]; [left|by right].
          exists j. split; [done|]. rewrite lookup_insert_ne; [done|]. by intros ->; simplify_eq.
        * apply list_lookup_singleton_Some in Hb as [Hz <-]. left. exists i. split; [done|].
          rewrite lookup_insert. do 2 f_equal. unfold fresh. lia.
      + intros u. change (get_gpc _ u) with (get_gpc (set_gpc st t GFree) u).
        rewrite get_set. destruct (decide (t = u)) as [<-|Hne]; [done|].
        apply (other_pc st); simpl; [exact (gi_pc0 u)|auto..]. intros j Hj.
        rewrite lookup_insert_ne; [done|]. by intros ->; simplify_eq.
      + intros s. pose proof (reads_set st t GFree s) as H. rewrite Hp in H. simpl in H.
        rewrite <- gi_read0. lia.
      + intros s u Hw. change (get_gpc _ u) with (get_gpc (set_gpc st t GFree) u).
        rewrite get_set. destruct (decide (t = u)) as [<-|]; [by destruct (Hnw s)|by apply gi_write0].
      + intros j u Hj. change (get_gpc _ u) with (get_gpc (set_gpc st t GFree) u). rewrite get_set.
        destruct (decide (i = j)) as [->|]; [by rewrite lookup_insert in Hj|].
        rewrite lookup_insert_ne in Hj by done. destruct (decide (t = u)) as [<-|]; [|by apply gi_once0].
        destruct (gi_once0 _ _ Hj) as [? H]. rewrite Hp in H. by simplify_eq.
      + intros u Hu. change (get_gpc _ u) with (get_gpc (set_gpc st t GFree) u). rewrite get_set.
        destruct (decide (t = u)) as [<-|]; [done|by apply gi_map0].
      + intros e [->|He]%elem_of_cons; [done|]. specialize (gi_log0 e He). destruct e; auto.
    - (* GMap *)
      pose proof (ginv_idle st t HI ltac:(rewrite Hp; done)) as Hno.
      pose proof (ginv_idle_map st t HI ltac:(rewrite Hp; done)) as Hnm.
      pose proof (ginv_nowrite st t HI ltac:(intros s0; rewrite Hp; simpl; tauto)) as Hnw.
      destruct (g_map st) as [[u|c]|] eqn:Hm; [done| |]; injection Hs as <-.
      + apply (ginv_lock st t (GGet ty) 0 (g_locks st)); auto; simpl; try naive_solver.
        * by rewrite Hp.
        * rewrite Hp. simpl. destruct (g_locks st !! 0) as [[n|u]|] eqn:Hl; try lia.
          { apply (gi_readpos _ HI) in Hl. lia. }
          split; [|done]. intros ->. by destruct (Hnw 0).
        * intros e He. by apply (gi_log _ HI).
      + destruct HI. constructor; simpl; try done.
        * intros u. rewrite get_set. destruct (decide (t = u)) as [<-|Hne]; [done|].
          apply (other_pc st); simpl; [exact (gi_pc0 u)|auto..]. rewrite Hm. done.
        * intros s. pose proof (reads_set st t (GMapRun ty) s) as H. rewrite Hp in H. simpl in H.
          rewrite <- gi_read0. lia.
        * intros s u Hw. rewrite get_set. destruct (decide (t = u)) as [<-|]; [by destruct (Hnw s)|by apply gi_write0].
        * intros j u Hj. rewrite get_set. destruct (decide (t = u)) as [<-|]; [by destruct (Hno j)|by apply gi_once0].
        * intros u [= <-]. rewrite get_set. rewrite decide_True by done. by exists ty.
    - (* GMapRun *)
      destruct Hok as [Hpos Hrun]. injection Hs as <-.
      pose proof (ginv_idle st t HI ltac:(rewrite Hp; done)) as Hno.
      pose proof (ginv_nowrite st t HI ltac:(intros s0; rewrite Hp; simpl; tauto)) as Hnw.
      destruct HI. constructor; simpl; try done.
      + intros u. rewrite get_set. destruct (decide (t = u)) as [<-|Hne]; [done|].
        apply (other_pc st); simpl; [exact (gi_pc0 u)|auto..]. rewrite Hrun. congruence.
      + intros s. pose proof (reads_set st t (GGet ty) s) as H. rewrite Hp in H. simpl in H.
        rewrite <- gi_read0. lia.
      + intros s u Hw. rewrite get_set. destruct (decide (t = u)) as [<-|]; [by destruct (Hnw s)|by apply gi_write0].
      + intros j u Hj. rewrite get_set. destruct (decide (t = u)) as [<-|]; [by destruct (Hno j)|by apply gi_once0].
    - (* GGet *)
      pose proof (ginv_idle st t HI ltac:(rewrite Hp; done)) as Hno.
      pose proof (ginv_idle_map st t HI ltac:(rewrite Hp; done)) as Hnm.
      pose proof (ginv_nowrite st t HI ltac:(intros s0; rewrite Hp; simpl; tauto)) as Hnw.
      unfold read_lock in Hs.
      destruct (find_entry ty (g_entries st)) as [c|] eqn:Hf.
      + apply find_entry_Some in Hf.
        destruct (g_locks st !! shard ty) as [[n|u]|] eqn:Hl; [|done|]; injection Hs as <-.
        * apply (ginv_lock st t (GRead ty c) (shard ty) (<[shard ty:=LRead (S n)]> (g_locks st))); auto; simpl; try naive_solver.
          { intros s' Hs'. by rewrite lookup_insert_ne. }
          { intros u Hne. rewrite lookup_insert. done. }
          { intros s' Hs'. rewrite Hp. simpl. by destruct (Nat.eqb_spec (shard ty) s'). }
          { rewrite lookup_insert, Hp, Hl. simpl. rewrite Nat.eqb_refl. lia. }
          { intros e He. by apply (gi_log _ HI). }
        * apply (ginv_lock st t (GRead ty c) (shard ty) (<[shard ty:=LRead 1]> (g_locks st))); auto; simpl; try naive_solver.
          { intros s' Hs'. by rewrite lookup_insert_ne. }
          { intros u Hne. rewrite lookup_insert. done. }
          { intros s' Hs'. rewrite Hp. simpl. by destruct (Nat.eqb_spec (shard ty) s'). }
          { rewrite lookup_insert, Hp, Hl. simpl. rewrite Nat.eqb_refl. lia. }
          { intros e He. by apply (gi_log _ HI). }
      + assert (Next (set_gpc st t (GEntry ty)) = Next st') as Hs'.
        { by destruct (g_locks st !! shard ty) as [[n|u]|]. }
        clear Hs. injection Hs' as <-.
        apply (ginv_lock st t (GEntry ty) 0 (g_locks st)); auto; simpl; try naive_solver.
        * by rewrite Hp.
        * rewrite Hp. simpl. destruct (g_locks st !! 0) as [[n|u]|] eqn:Hl; try lia.
          { apply (gi_readpos _ HI) in Hl. lia. }
          split; [|done]. intros ->. by destruct (Hnw 0).
        * intros e He. by apply (gi_log _ HI).
    - (* GEntry *)
      pose proof (ginv_idle st t HI ltac:(rewrite Hp; done)) as Hno.
      pose proof (ginv_idle_map st t HI ltac:(rewrite Hp; done)) as Hnm.
      pose proof (ginv_nowrite st t HI ltac:(intros s0; rewrite Hp; simpl; tauto)) as Hnw.
      destruct (g_locks st !! shard ty) as [?|] eqn:Hl; [done|].
      destruct (find_entry ty (g_entries st)) as [c|] eqn:Hf; injection Hs as <-.
      + apply find_entry_Some in Hf.
        apply (ginv_lock st t (GOcc ty c) (shard ty) (<[shard ty:=LWrite t]> (g_locks st))); auto; simpl; try naive_solver.
        * intros s' Hs'. by rewrite lookup_insert_ne.
        * rewrite lookup_insert. congruence.
        * by rewrite lookup_insert.
        * intros s' Hs'. by rewrite Hp.
        * by rewrite lookup_insert, Hp, Hl.
        * intros e He. by apply (gi_log _ HI).
      + apply find_entry_None in Hf.
        apply (ginv_lock st t (GVac ty) (shard ty) (<[shard ty:=LWrite t]> (g_locks st))); auto; simpl; try naive_solver.
        * intros s' Hs'. by rewrite lookup_insert_ne.
        * rewrite lookup_insert. congruence.
        * by rewrite lookup_insert.
        * intros s' Hs'. by rewrite Hp.
        * by rewrite lookup_insert, Hp, Hl.
        * intros e He. by apply (gi_log _ HI).
    - (* GVac *)
      destruct Hok as (Hpos&Hnin&Hl). injection Hs as <-.
      pose proof (ginv_idle st t HI ltac:(rewrite Hp; done)) as Hno.
      pose proof (ginv_idle_map st t HI ltac:(rewrite Hp; done)) as Hnm.
      assert (forall c ty', g_boxes st !! c = Some ty' -> (g_boxes st ++ [ty]) !! c = Some ty') as Hmono
        by (intros; by apply lookup_app_l_Some).
      assert ((g_boxes st ++ [ty]) !! fresh st = Some ty) as Hnew.
      { unfold fresh. rewrite lookup_app_r by lia. by rewrite Nat.sub_diag. }
      destruct HI. constructor; simpl; try done.
      + csimpl. by constructor.
      + intros ty' c [[= -> ->]|H]%elem_of_cons; [done|]. destruct (gi_entries0 _ _ H). auto.
      + intros j c H. destruct (gi_statics0 _ _ H) as (ty'&?&?). exists ty'. auto.
      + intros c ty' [Hb|[Hge Hb]]%lookup_app_Some.
        * destruct (gi_boxes0 _ _ Hb) as [(j&?&?)|?]; [left; by exists j|right; by right].
        * apply list_lookup_singleton_Some in Hb as [Hz <-]. right. assert (c = fresh st) as -> by (unfold fresh; lia). by left.
      + intros u. rewrite get_set. destruct (decide (t = u)) as [<-|Hne].
        { simpl. split; [by left|done]. }
        apply (other_pc st); simpl; [exact (gi_pc0 u)|auto..]; [by right|]. csimpl.
        intros ty' Hl' Hni' [->|?]%elem_of_cons; [congruence|done].
      + intros s. pose proof (reads_set st t (GOcc ty (fresh st)) s) as H. rewrite Hp in H. simpl in H.
        rewrite <- gi_read0. lia.
      + intros s u Hw. rewrite get_set. destruct (decide (t = u)) as [<-|]; [|by apply gi_write0].
        apply gi_write0 in Hw. rewrite Hp in Hw. done.
      + intros j u Hj. rewrite get_set. destruct (decide (t = u)) as [<-|]; [by destruct (Hno j)|by apply gi_once0].
      + intros u Hj. rewrite get_set. destruct (decide (t = u)) as [<-|]; [done|by apply gi_map0].
      + intros e He. specialize (gi_log0 e He). destruct e; auto.
    - (* GOcc *)
      destruct Hok as (Hin&Hl). injection Hs as <-.
      pose proof (ginv_idle st t HI ltac:(rewrite Hp; done)) as Hno.
      pose proof (ginv_idle_map st t HI ltac:(rewrite Hp; done)) as Hnm.
      apply (ginv_lock st t (GRead ty c) (shard ty) (<[shard ty:=LRead 1]> (g_locks st))); auto; simpl; try naive_solver.
      + intros s' Hs'. by rewrite lookup_insert_ne.
      + intros u Hu. by rewrite lookup_insert.
      + intros s' Hs'. rewrite Hp. simpl. by destruct (Nat.eqb_spec (shard ty) s').
      + intros s' Hs' Hw. apply (gi_write _ HI) in Hw. rewrite Hp in Hw. simpl in Hw. congruence.
      + rewrite lookup_insert, Hp, Hl. simpl. rewrite Nat.eqb_refl. lia.
      + intros e He. by apply (gi_log _ HI).
    - (* GRead *)
      destruct (gi_entries _ HI _ _ Hok) as [Hb Hpos]. rewrite Hb, Nat.eqb_refl in Hs. injection Hs as <-.
      pose proof (ginv_idle st t HI ltac:(rewrite Hp; done)) as Hno.
      pose proof (ginv_idle_map st t HI ltac:(rewrite Hp; done)) as Hnm.
      pose proof (ginv_nowrite st t HI ltac:(intros s0; rewrite Hp; simpl; tauto)) as Hnw.
      pose proof (gi_read _ HI (shard ty)) as Hr.
      assert (1 <= msum (reads (shard ty)) (g_threads st)) as Hge.
      { unfold get_gpc in Hp. destruct (g_threads st !! t) as [x|] eqn:Ht; [|done]. simpl in Hp. subst x.
        pose proof (msum_ge (reads (shard ty)) _ _ _ Ht) as H. simpl in H. by rewrite Nat.eqb_refl in H. }
      unfold read_unlock. destruct (g_locks st !! shard ty) as [[n|u]|] eqn:Hl; [|lia|lia].
      destruct n as [|[|n]]; [lia| |].
      + apply (ginv_lock st t GFree (shard ty) (delete (shard ty) (g_locks st))); auto; simpl; try naive_solver.
        * intros s' Hs'. by rewrite lookup_delete_ne.
        * rewrite lookup_delete. done.
        * intros s' Hs'. rewrite Hp. simpl. by destruct (Nat.eqb_spec (shard ty) s').
        * rewrite lookup_delete, Hp, Hl. simpl. by rewrite Nat.eqb_refl.
        * intros e [->|He]%elem_of_cons; [done|]. by apply (gi_log _ HI).
      + apply (ginv_lock st t GFree (shard ty) (<[shard ty:=LRead (S n)]> (g_locks st))); auto; simpl; try naive_solver.
        * intros s' Hs'. by rewrite lookup_insert_ne.
        * rewrite lookup_insert. done.
        * intros s' Hs'. rewrite Hp. simpl. by destruct (Nat.eqb_spec (shard ty) s').
        * rewrite lookup_insert, Hp, Hl. simpl. rewrite Nat.eqb_refl. lia.
        * intros e [->|He]%elem_of_cons; [done|]. by apply (gi_log _ HI).
  Qed.

  Lemma ginv_no_ub st l : GInv st -> step st l <> UB.
  Proof.
    intros HI. destruct l as [t ty|t]; simpl.
    { destruct (get_gpc st t); try done. by destruct (position ty common). }
    unfold gstep_thread. pose proof (gi_pc _ HI t) as Hok.
    destruct (get_gpc st t) as [|ty i|ty i|ty|ty|ty|ty|ty|ty c|ty c]; simpl in Hok; try done.
    - by destruct (g_statics st !! i) as [[]|].
    - by destruct (common !! i).
    - by destruct (g_map st) as [[]|].
    - destruct (read_lock _ _); [|done]. by destruct (find_entry _ _).
    - destruct (g_locks st !! _); [done|]. by destruct (find_entry _ _).
    - destruct (gi_entries _ HI _ _ Hok) as [-> _]. done.
  Qed.

  Lemma greach ls : exists st, run step ginit ls = Some st /\ GInv st.
  Proof. apply run_inv; [intros; by apply ginv_no_ub|intros; by eapply ginv_step|apply ginv_init]. Qed.

  (** One container per type. *)
  Lemma ginv_one st t1 ty1 c1 t2 ty2 c2 :
    GInv st -> EvGot t1 ty1 c1 ∈ g_log st -> EvGot t2 ty2 c2 ∈ g_log st -> c1 = c2 <-> ty1 = ty2.
  Proof.
    intros HI H1%(gi_log _ HI) H2%(gi_log _ HI). split; [intros ->; congruence|]. intros ->.
    destruct (gi_boxes _ HI _ _ H1) as [(i&Hp&Hs)|He], (gi_boxes _ HI _ _ H2) as [(j&Hp'&Hs')|He'].
    - congruence.
    - destruct (gi_entries _ HI _ _ He'). congruence.
    - destruct (gi_entries _ HI _ _ He). congruence.
    - pose proof (gi_nodup _ HI) as Hn. clear -Hn He He'.
      apply elem_of_list_lookup in He as [i Hi], He' as [j Hj].
      assert (i = j) as ->.
      { eapply (NoDup_lookup _ i j ty2 Hn); by rewrite list_lookup_fmap, ?Hi, ?Hj. }
      congruence.
  Qed.

  Lemma ginv_boxes_nodup st : GInv st -> NoDup (g_boxes st).
  Proof.
    intros HI. apply NoDup_alt. intros i j ty Hi Hj.
    destruct (gi_boxes _ HI _ _ Hi) as [(k&Hp&Hs)|He], (gi_boxes _ HI _ _ Hj) as [(k'&Hp'&Hs')|He'].
    - congruence.
    - destruct (gi_entries _ HI _ _ He'). congruence.
    - destruct (gi_entries _ HI _ _ He). congruence.
    - pose proof (gi_nodup _ HI) as Hn. clear -Hn He He'.
      apply elem_of_list_lookup in He as [m Hi], He' as [n Hj].
      assert (m = n) as ->.
      { eapply (NoDup_lookup _ m n ty Hn); by rewrite list_lookup_fmap, ?Hi, ?Hj. }
      congruence.
  Qed.

  (** ** Progress *)
  Definition gcan st t : Prop := exists st', step st (GStep t) = Next st'.

  Lemma write_can st s t : GInv st -> g_locks st !! s = Some (LWrite t) -> gcan st t.
  Proof.
    intros HI H%(gi_write _ HI). unfold gcan. simpl. unfold gstep_thread.
    destruct (get_gpc st t); try done; by eexists.
  Qed.
  Lemma read_can st s n : GInv st -> g_locks st !! s = Some (LRead n) -> exists t, gcan st t.
  Proof.
    intros HI H. pose proof (gi_read _ HI s) as Hr. rewrite H in Hr. apply (gi_readpos _ HI) in H.
    destruct (msum_pos (reads s) (g_threads st)) as (t&x&Ht&Hx); [lia|].
    destruct x as [| | | | | | | | |ty c]; simpl in Hx; try lia.
    exists t. unfold gcan. simpl. unfold gstep_thread, get_gpc. rewrite Ht. simpl.
    pose proof (gi_pc _ HI t) as Hok. unfold get_gpc in Hok. rewrite Ht in Hok. simpl in Hok.
    destruct (gi_entries _ HI _ _ Hok) as [-> _]. by eexists.
  Qed.
  Lemma once_can st i t : GInv st -> g_statics st !! i = Some (ORun t) -> gcan st t.
  Proof.
    intros HI H. destruct (gi_once _ HI _ _ H) as [ty Hp]. pose proof (gi_pc _ HI t) as Hok.
    unfold gcan. simpl. unfold gstep_thread. rewrite Hp in Hok |- *. destruct Hok as [Hok _].
    rewrite (position_lookup _ _ _ Hok). by eexists.
  Qed.
  Lemma map_can st t : GInv st -> g_map st = Some (ORun t) -> gcan st t.
  Proof.
    intros HI H. destruct (gi_map _ HI _ H) as [ty Hp].
    unfold gcan. simpl. unfold gstep_thread. rewrite Hp. by eexists.
  Qed.

  Lemma gprogress st t : GInv st -> get_gpc st t <> GFree -> exists u, gcan st u.
  Proof.
    intros HI Hne. pose proof (gi_pc _ HI t) as Hok. unfold gcan.
    destruct (get_gpc st t) as [|ty i|ty i|ty|ty|ty|ty|ty|ty c|ty c] eqn:Hp; [done|..].
    - destruct (g_statics st !! i) as [[u|c]|] eqn:Hi.
      + exists u. by eapply once_can.
      + exists t. simpl. unfold gstep_thread. rewrite Hp, Hi. by eexists.
      + exists t. simpl. unfold gstep_thread. rewrite Hp, Hi. by eexists.
    - exists t. destruct Hok as [_ Hok]. by eapply once_can.
    - destruct (g_map st) as [[u|c]|] eqn:Hi.
      + exists u. by eapply map_can.
      + exists t. simpl. unfold gstep_thread. rewrite Hp, Hi. by eexists.
      + exists t. simpl. unfold gstep_thread. rewrite Hp, Hi. by eexists.
    - exists t. destruct Hok as [_ Hok]. by eapply map_can.
    - destruct (g_locks st !! shard ty) as [[n|u]|] eqn:Hl.
      + exists t. simpl. unfold gstep_thread, read_lock. rewrite Hp, Hl.
        destruct (find_entry ty (g_entries st)); by eexists.
      + exists u. by eapply write_can.
      + exists t. simpl. unfold gstep_thread, read_lock. rewrite Hp, Hl.
        destruct (find_entry ty (g_entries st)); by eexists.
    - destruct (g_locks st !! shard ty) as [[n|u]|] eqn:Hl.
      + by eapply read_can.
      + exists u. by eapply write_can.
      + exists t. simpl. unfold gstep_thread. rewrite Hp, Hl.
        destruct (find_entry ty (g_entries st)); by eexists.
    - exists t. simpl. unfold gstep_thread. rewrite Hp. by eexists.
    - exists t. simpl. unfold gstep_thread. rewrite Hp. by eexists.
    - exists t. simpl. unfold gstep_thread. rewrite Hp.
      destruct (gi_entries _ HI _ _ Hok) as [-> _]. by eexists.
  Qed.

  (** Each step of a call uses up fuel, so that calls finish. *)
  Definition gfuel (x : gpc) : nat :=
    match x with
    | GFree => 0 | GOnceRun _ _ => 1 | GOnce _ _ => 2
    | GRead _ _ => 1 | GOcc _ _ => 2 | GVac _ => 3 | GEntry _ => 4 | GGet _ => 5 | GMapRun _ => 6 | GMap _ => 7
    end.
  Lemma gfuel_step st t st' :
    step st (GStep t) = Next st' ->
    exists x, g_threads st' = <[t:=x]> (g_threads st) /\ gfuel x < gfuel (get_gpc st t).
  Proof.
    simpl. unfold gstep_thread, read_lock, read_unlock.
    destruct (get_gpc st t) as [|ty i|ty i|ty|ty|ty|ty|ty|ty c|ty c]; simpl; intros Hs; [done|..];
      repeat case_match; simplify_eq; simpl; eexists; (split; [reflexivity|simpl; lia]).
  Qed.

  Lemma gfinish n st : GInv st -> msum gfuel (g_threads st) <= n ->
    exists ts st', run step st (GStep <$> ts) = Some st' /\ GInv st' /\ forall t, get_gpc st' t = GFree.
  Proof.
    revert st. induction n as [|n IH]; intros st HI Hn.
    - exists [], st. split_and!; [done|done|]. intros t. unfold get_gpc.
      destruct (g_threads st !! t) as [x|] eqn:Ht; [|done]. simpl.
      pose proof (msum_ge gfuel _ _ _ Ht). destruct x; simpl in *; try lia. done.
    - destruct (decide (msum gfuel (g_threads st) = 0)) as [Hz|Hz]; [apply IH; [done|lia]|].
      destruct (msum_pos gfuel (g_threads st)) as (t&x&Ht&Hx); [lia|].
      destruct (gprogress st t HI) as (u&st1&Hs).
      { unfold get_gpc. rewrite Ht. simpl. intros ->. simpl in Hx. lia. }
      destruct (gfuel_step _ _ _ Hs) as (y&Hth&Hlt).
      destruct (IH st1) as (ts&st'&Hr&HI'&Hf).
      { by eapply ginv_step. }
      { rewrite Hth. pose proof (msum_insert_default gfuel (g_threads st) u y GFree eq_refl) as H.
        unfold get_gpc in Hlt. lia. }
      exists (u :: ts), st'. split_and!; [|done|done]. csimpl. unfold exec. by rewrite Hs.
  Qed.
End inv.

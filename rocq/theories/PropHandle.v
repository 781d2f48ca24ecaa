(** Eq, Hash and Ord of handles: property C49.  Statements only; vocabulary in HandleSpec.v. *)
From stdpp Require Import gmap list numbers.
From Verif Require Import Base ArcModel ArcSpec ArcEx ArcFinal InternModel InternSpec InternEx NewModel NewEx
  HandleModel HandleSpec HandleFinal.
From Verif Require ArenaModel ArenaEx.

(** C49, ArcIntern.  [O]: the values' own impls of Ord and PartialOrd, whatever they do. *)
Theorem C49_arc_compares_values {V : Type} (E : tyenv V) (O : ops V) ls st p q :
  lawful E -> wide E -> bounded E ls -> run (step E) init ls = Some st -> alive E st p -> alive E st q ->
  exists u v, data st p = Some u /\ data st q = Some v /\ same_results (handle_ops (data st) O) O p q u v.
Proof. exact (λ HL HW, arc_same E HL HW O ls st p q). Qed.
Print Assumptions C49_arc_compares_values.
(** If the values of a type are totally ordered in agreement with their Eq, so are the live
    handles of that type, in agreement with theirs. *)
Theorem C49_arc_order {V : Type} (E : tyenv V) (O : ops V) ls st ty :
  lawful E -> wide E -> bounded E ls -> run (step E) init ls = Some st ->
  total_order (λ v, te_ty E v = ty) (te_eq E) O ->
  total_order (live_object E st ty) handle_eqb (handle_ops (data st) O).
Proof. exact (λ HL HW, arc_order E HL HW O ls st ty). Qed.
Print Assumptions C49_arc_order.
(** == handles feed the same words to a hasher, others do not; comparing the metadata of fat
    pointers as well makes no difference. *)
Theorem C49_arc_hash {V : Type} (E : tyenv V) (meta : V -> list nat) ls st p q :
  lawful E -> wide E -> bounded E ls -> run (step E) init ls = Some st -> alive E st p -> alive E st q ->
  is_Some (arc_hash_words meta st p) /\
  (handle_eqb p q = true <-> arc_hash_words meta st p = arc_hash_words meta st q) /\
  arc_ptr_eq meta st p q = Some (handle_eqb p q).
Proof. exact (λ HL HW, arc_hash_iff E HL HW meta ls st p q). Qed.
Print Assumptions C49_arc_hash.
(** Leaves 4 and 8 at addresses 20 and 10 (the order of addresses is not that of values);
    leaves are ordered by half their number. *)
Definition by_nat {A} (f : A -> nat) : ops A :=
  Ops (λ u v, Some (f u ?= f v)) (λ u v, Some (Some (f u ?= f v))) (λ u v, Some (f u <? f v)) (λ u v, Some (f u <=? f v))
    (λ u v, Some (f v <? f u)) (λ u v, Some (f v <=? f u)).
Lemma by_nat_order {A} (H : A -> Prop) eqb (f : A -> nat) :
  (forall u v, H u -> H v -> (eqb u v = true <-> f u = f v)) -> total_order H eqb (by_nat f).
Proof.
  intros He. split; simpl.
  - intros p q Hp Hq. exists (f p ?= f q). rewrite (He p q Hp Hq). rewrite (Nat.compare_antisym (f p) (f q)).
    destruct (Nat.compare_spec (f p) (f q)) as [Hc|Hc|Hc]; (split_and!; [done..| | | | |split; intros; first [done|lia|exfalso; lia]]); f_equal;
    match goal with
    | |- (_ <? _) = bool_decide _ => apply eq_true_iff_eq; rewrite Nat.ltb_lt, bool_decide_eq_true
    | |- (_ <=? _) = bool_decide _ => apply eq_true_iff_eq; rewrite Nat.leb_le, bool_decide_eq_true
    end; split; intros; first [done|lia|exfalso; lia].
  - intros p q r c _ _ _ [= <-]. intros [= Hc]. f_equal.
    destruct (Nat.compare_spec (f p) (f q)), (Nat.compare_spec (f q) (f r)); try done;
      destruct (Nat.compare_spec (f p) (f r)); try done; lia.
Qed.
Definition ex_ord_arc : list (label node) := intern 1 20 KSized (Node 0 4 []) ++ intern 1 10 KSized (Node 0 8 []).
Definition ex_leaf_ord : ops node := by_nat (λ x, n_val x / 2).
Example C49_arc_example :
  let st := after exE ex_ord_arc in
  lawful exE /\ wide exE /\ bounded exE ex_ord_arc /\ run (step exE) init ex_ord_arc = Some st /\
  alive exE st (Ptr 20 0) /\ alive exE st (Ptr 10 1) /\
  o_cmp (handle_ops (data st) ex_leaf_ord) (Ptr 20 0) (Ptr 10 1) = Some Lt /\
  o_ge (handle_ops (data st) ex_leaf_ord) (Ptr 20 0) (Ptr 20 0) = Some true /\
  arc_hash_words (λ x, [n_val x]) st (Ptr 20 0) = Some [20; 4].
Proof.
  split_and!; [apply nodes_lawful|done|by apply ex_bounded|by apply after_run; vm_compute|by apply alive_b; vm_compute|by apply alive_b; vm_compute
    |by vm_compute..].
Qed.
(** Nodes without children, say: the type's values are totally ordered. *)
Definition flatE : tyenv nat := TyEnv nat (λ x y, x / 2 =? y / 2) (λ x, x / 2) (λ _, 0) (λ _, []) (λ _ _, true) 2 256.
Example C49_arc_order_example :
  lawful flatE /\ total_order (λ v, te_ty flatE v = 0) (te_eq flatE) (by_nat (λ x, x / 2)).
Proof.
  split.
  - constructor; cbn -[Nat.div]; intros *; rewrite ?Nat.eqb_eq; congruence.
  - apply by_nat_order. intros u v _ _. apply Nat.eqb_eq.
Qed.

(** C49, Intern: any time after both handles have been returned. *)
Theorem C49_intern_compares_values {V Q : Type} (E : ienv V Q) (O : ops V) ls1 ls2 st1 st2 t1 o1 p1 t2 o2 p2 :
  run (istep E) iinit ls1 = Some st1 -> EvRet t1 o1 (RPtr p1) ∈ i_log st1 -> EvRet t2 o2 (RPtr p2) ∈ i_log st1 ->
  run (istep E) st1 ls2 = Some st2 ->
  exists v1 v2, iread st1 p1 = Some v1 /\ iread st1 p2 = Some v2 /\
    same_results (handle_ops (iread st2) O) O p1 p2 v1 v2.
Proof. exact (intern_same E O ls1 ls2 st1 st2 t1 o1 p1 t2 o2 p2). Qed.
Print Assumptions C49_intern_compares_values.
Theorem C49_intern_order {V Q : Type} (E : ienv V Q) (O : ops V) ls st ty :
  ilawful E -> icoherent E -> zst_eq E -> no_clear ls -> run (istep E) iinit ls = Some st ->
  total_order (λ v, ie_ty E v = ty) (ie_eq E) O ->
  total_order (λ p, exists t o, EvRet t o (RPtr p) ∈ i_log st /\ op_ty E o = ty) iptr_eqb (handle_ops (iread st) O).
Proof. exact (intern_order E O ls st ty). Qed.
Print Assumptions C49_intern_order.
(** A thin pointer's type has one metadata. *)
Theorem C49_intern_hash {V Q : Type} (E : ienv V Q) (fat : bool) ls st t1 o1 p1 t2 o2 p2 :
  (fat = false -> forall u v, ie_ty E u = op_ty E o1 -> ie_ty E v = op_ty E o1 -> ie_meta E u = ie_meta E v) ->
  run (istep E) iinit ls = Some st -> EvRet t1 o1 (RPtr p1) ∈ i_log st -> EvRet t2 o2 (RPtr p2) ∈ i_log st ->
  op_ty E o1 = op_ty E o2 ->
  (iptr_eqb p1 p2 = true <-> hash_words fat p1 = hash_words fat p2).
Proof. exact (intern_hash E fat ls st t1 o1 p1 t2 o2 p2). Qed.
Print Assumptions C49_intern_hash.
Definition ex_ival_ord : ops ival := by_nat (λ v, iv_n v / 2).
Example C49_intern_example :
  let st := iafter toyE ex_all in
  run (istep toyE) iinit ex_all = Some st /\
  EvRet 2 (ONew (IV 0 5 0)) (RPtr pA) ∈ i_log st /\ EvRet 1 (ORef 0 0 (8, 0)) (RPtr pD) ∈ i_log st /\
  o_pcmp (handle_ops (iread st) ex_ival_ord) pA pD = Some (Some Lt) /\
  o_gt (handle_ops (iread st) ex_ival_ord) pD pA = Some true /\ hash_words true pB = [ip_addr pB; 3].
Proof.
  split_and!; [by apply iafter_run; vm_compute|apply elem_of_list_In; vm_compute; tauto|apply elem_of_list_In; vm_compute; tauto
    |by vm_compute..].
Qed.
Definition flatI : ienv nat nat := IEnv (λ _, 0) Nat.eqb (λ v, v) (λ _ v, v) Nat.eqb (λ v, v) (λ _ q v, q =? v)
  (λ _ _, true) (λ _, 0) (λ _ _, false) (λ _ _, 1) (λ _, 0%N) (2 ^ 64) 32.
Example C49_intern_order_example :
  ilawful flatI /\ icoherent flatI /\ zst_eq flatI /\ total_order (λ v, ie_ty flatI v = 0) (ie_eq flatI) (by_nat id).
Proof.
  split_and!.
  - constructor; simpl; intros *; rewrite ?Nat.eqb_eq; try congruence; done.
  - intros w q v. simpl. rewrite !Nat.eqb_eq. congruence.
  - intros u v. done.
  - apply by_nat_order. intros u v _ _. apply Nat.eqb_eq.
Qed.

(** C49, the Intern of typearena.rs. *)
Theorem C49_new_compares_values {V Q : Type} (E : ienv V Q) (O : ops V) ls1 ls2 s1 s2 t1 o1 p1 t2 o2 p2 :
  run (nstep E) ninit ls1 = Some s1 -> EvRet t1 o1 (RPtr p1) ∈ n_log s1 -> EvRet t2 o2 (RPtr p2) ∈ n_log s1 ->
  run (nstep E) s1 ls2 = Some s2 ->
  exists v1 v2, iread (nmem s1) p1 = Some v1 /\ iread (nmem s1) p2 = Some v2 /\
    same_results (handle_ops (iread (nmem s2)) O) O p1 p2 v1 v2.
Proof. exact (new_same E O ls1 ls2 s1 s2 t1 o1 p1 t2 o2 p2). Qed.
Print Assumptions C49_new_compares_values.
Theorem C49_new_order {V Q : Type} (E : ienv V Q) (O : ops V) ls s ty :
  ilawful E -> icoherent E -> zst_eq E -> no_clear ls -> run (nstep E) ninit ls = Some s ->
  total_order (λ v, ie_ty E v = ty) (ie_eq E) O ->
  total_order (λ p, exists t o, EvRet t o (RPtr p) ∈ n_log s /\ op_ty E o = ty) iptr_eqb (handle_ops (iread (nmem s)) O).
Proof. exact (new_order E O ls s ty). Qed.
Print Assumptions C49_new_order.
Theorem C49_new_hash {V Q : Type} (E : ienv V Q) (fat : bool) ls s t1 o1 p1 t2 o2 p2 :
  (fat = false -> forall u v, ie_ty E u = op_ty E o1 -> ie_ty E v = op_ty E o1 -> ie_meta E u = ie_meta E v) ->
  run (nstep E) ninit ls = Some s -> EvRet t1 o1 (RPtr p1) ∈ n_log s -> EvRet t2 o2 (RPtr p2) ∈ n_log s ->
  op_ty E o1 = op_ty E o2 ->
  (iptr_eqb p1 p2 = true <-> hash_words fat p1 = hash_words fat p2).
Proof. exact (new_hash E fat ls s t1 o1 p1 t2 o2 p2). Qed.
Print Assumptions C49_new_hash.
Example C49_new_example :
  let s := nafter toyE ex_nall in
  run (nstep toyE) ninit ex_nall = Some s /\
  EvRet 1 (ONew (IV 0 4 0)) (RPtr (IPtr 100 0 1)) ∈ n_log s /\ EvRet 2 (ORef 0 0 (5, 0)) (RPtr (IPtr 100 0 1)) ∈ n_log s /\
  o_cmp (handle_ops (iread (nmem s)) ex_ival_ord) (IPtr 100 0 1) (IPtr 100 0 1) = Some Eq.
Proof. split_and!; [by apply nafter_run; vm_compute|apply elem_of_list_In; vm_compute; tauto..|by vm_compute]. Qed.

(** C49, ArenaIntern: no Ord; Hash. *)
Import ArenaModel ArenaEx.
Theorem C49_arena_hash {V Q : Type} (E : ienv V Q) (fat : bool) ls st r x t1 o1 b1 p1 t2 o2 b2 p2 :
  (fat = false -> forall u v, ie_ty E u = ar_ty x -> ie_ty E v = ar_ty x -> ie_meta E u = ie_meta E v) ->
  run (astep E) ainit ls = Some st -> a_arenas st !! r = Some x ->
  AvRet t1 r o1 b1 (AP p1) ∈ a_log st -> AvRet t2 r o2 b2 (AP p2) ∈ a_log st ->
  (iptr_eqb p1 p2 = true <-> hash_words fat p1 = hash_words fat p2).
Proof. exact (arena_hash E fat ls st r x t1 o1 b1 p1 t2 o2 b2 p2). Qed.
Print Assumptions C49_arena_hash.
Example C49_arena_example :
  let st := aafter toyE ex_arena in
  run (astep toyE) ainit ex_arena = Some st /\ ar_ty <$> a_arenas st !! 0 = Some 0 /\
  AvRet 1 0 (ANew (IV 0 30 0)) None (AP (IPtr 100 0 1)) ∈ a_log st /\
  AvRet 1 0 (ARef 0 (8, 0)) None (AP (IPtr 101 0 2)) ∈ a_log st /\
  hash_words false (IPtr 100 0 1) = [100] /\ hash_words false (IPtr 101 0 2) = [101].
Proof. split_and!; [by apply aafter_run; vm_compute|by vm_compute|apply elem_of_list_In; vm_compute; tauto..|done|done]. Qed.

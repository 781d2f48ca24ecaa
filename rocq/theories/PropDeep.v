(** deepsize: properties C47, C48.  Statements only; vocabulary in DeepSpec.v. *)
From stdpp Require Import gmap list numbers.
From Verif Require Import Base InternModel InternSpec InternEx ArenaModel ArenaSpec ArenaEx ArcModel ArcSpec ArcEx ArcFinal
  DstModel DeepModel DeepSpec DeepFinal.
Local Open Scope N_scope.

(** C47.  [inserted E ty (i_log st)]: what the log says is interned.  Whatever the order of
    iteration, every interned value counts once and every Arc reachable from some of them counts
    once. *)
Theorem C47_interned_counts_once {V Q : Type} (D : denv V) (E : ienv V Q) ls st ty ks hdr cap :
  run (istep E) iinit ls = Some st -> ks ≡ₚ set_of E st ty ->
  let vs := (inserted E ty (i_log st)).*2 in
  heap_valid D -> values_valid D vs -> no_arena_handles D vs ->
  exists R, arcs_of_all D vs R /\
    deep_size_of_interned D st ks hdr cap = Some (hdr + cap * d_word D + nsum (own_size D) vs + nsum (shared_size D) R).
Proof. exact (intern_plain D E ls st ty ks hdr cap). Qed.
Print Assumptions C47_interned_counts_once.
(** A toy value owns 3 bytes, an Arc and an Intern handle: numbers below 20 share Arc 0, others
    have Arc 1; both Arcs hold Arc 2, and Arc 2 holds Arc 0. *)
Definition ex_heap : gmap nat (N * list piece) :=
  {[ 0%nat := (100, [PShared 2]); 1%nat := (1000, [POwn 5; PShared 2]); 2%nat := (10000, [PShared 0]) ]}.
Definition ex_deep : denv ival :=
  DEnv (λ _, 24) (λ v, [POwn 3; PShared (if (iv_n v <? 20)%nat then 0 else 1); PIntern]) ex_heap 8.
Lemma ex_heap_cases a n k : ex_heap !! a = Some (n, k) ->
  (a, n, k) = (0%nat, 100, [PShared 2]) \/ (a, n, k) = (1%nat, 1000, [POwn 5; PShared 2]) \/
  (a, n, k) = (2%nat, 10000, [PShared 0]).
Proof.
  destruct a as [|[|[|a]]]; [by intros [= <- <-]; auto..|]. unfold ex_heap.
  by rewrite !lookup_insert_ne, lookup_singleton_ne by lia.
Qed.
Lemma ex_heap_valid {V} (s : V -> N) f w : heap_valid (DEnv s f ex_heap w).
Proof.
  intros a n k [[= -> -> ->]|[[= -> -> ->]|[= -> -> ->]]]%ex_heap_cases b Hb; simpl;
  (assert (b = 0%nat \/ b = 2%nat) as [-> | ->] by set_solver); vm_compute; by eexists.
Qed.
Lemma ex_deep_valid vs : values_valid ex_deep vs.
Proof.
  intros v _ a Hb. simpl in *.
  assert (a = 0%nat \/ a = 1%nat) as [-> | ->] by (destruct (_ <? _)%nat; set_solver); vm_compute; by eexists.
Qed.
Lemma ex_deep_plain vs : no_arena_handles ex_deep vs.
Proof.
  split.
  - intros v fat _. simpl. rewrite !elem_of_cons, elem_of_nil. naive_solver.
  - intros a n k fat [[= -> -> ->]|[[= -> -> ->]|[= -> -> ->]]]%ex_heap_cases; set_solver.
Qed.
(** 16, 12 and 30 are interned: 27 bytes each, and the three Arcs once. *)
Definition ex_deep_ls : list (ilabel ival (nat * nat)) :=
  icall 1 100 (ONew (IV 0 16 0)) 12 ++ icall 1 101 (ONew (IV 0 12 0)) 12 ++ icall 2 102 (ONew (IV 0 30 0)) 12.
Example C47_interned_example :
  let st := iafter toyE ex_deep_ls in
  run (istep toyE) iinit ex_deep_ls = Some st /\ (inserted toyE 0 (i_log st)).*2 = [IV 0 30 0; IV 0 12 0; IV 0 16 0] /\
  heap_valid ex_deep /\ values_valid ex_deep (inserted toyE 0 (i_log st)).*2 /\
  no_arena_handles ex_deep (inserted toyE 0 (i_log st)).*2 /\
  deep_size_of_interned ex_deep st (set_of toyE st 0) 48 7 = Some (48 + 7 * 8 + 3 * 27 + (100 + 1005 + 10000)) /\
  deep_size_of_interned ex_deep st (rev (set_of toyE st 0)) 48 7 = Some (48 + 7 * 8 + 3 * 27 + (100 + 1005 + 10000)).
Proof.
  split_and!; [by apply iafter_run; vm_compute|by vm_compute|apply ex_heap_valid|apply ex_deep_valid|apply ex_deep_plain
    |by vm_compute..].
Qed.

Theorem C47_arena_counts_once {V Q : Type} (D : denv V) (E : ienv V Q) ls st r x ks fat hdr cap :
  run (astep E) ainit ls = Some st -> a_arenas st !! r = Some x -> ks ≡ₚ ar_set x ->
  let vs := (a_stored r (a_log st)).*2 in
  heap_valid D -> values_valid D vs -> no_arena_handles D vs ->
  exists R, arcs_of_all D vs R /\
    deep_size_of_arena D st ks fat hdr cap
    = Some (hdr + cap * ref_bytes D fat + nsum (own_size D) vs + nsum (shared_size D) R).
Proof. exact (arena_plain D E ls st r x ks fat hdr cap). Qed.
Print Assumptions C47_arena_counts_once.
(** Arena 0 holds 30, 8 and 40, arena 1 holds 30. *)
Example C47_arena_example :
  let st := aafter toyE ex_arena in
  run (astep toyE) ainit ex_arena = Some st /\
  (a_stored 0 (a_log st)).*2 = [IV 0 40 0; IV 0 8 0; IV 0 30 0] /\
  (λ x, deep_size_of_arena ex_deep st (ar_set x) false 56 7) <$> a_arenas st !! 0%nat
    = Some (Some (56 + 7 * 8 + 3 * 27 + (100 + 1005 + 10000))) /\
  (λ x, deep_size_of_arena ex_deep st (ar_set x) false 56 3) <$> a_arenas st !! 1%nat
    = Some (Some (56 + 3 * 8 + 27 + (1005 + 10000 + 100))).
Proof. split_and!; [by apply aafter_run; vm_compute|by vm_compute..]. Qed.

(** A handle to an interned object reports itself only. *)
Theorem C47_handles_add_nothing {V : Type} (D : denv V) (fat : bool) :
  handle_size D PIntern fat = Some (ref_bytes D fat) /\ handle_size D PArcIntern fat = Some (ref_bytes D fat).
Proof. exact (handles_nothing D fat). Qed.
Print Assumptions C47_handles_add_nothing.
Example C47_handles_example : handle_size ex_deep PIntern false = Some 8 /\ handle_size ex_deep PArcIntern true = Some 16.
Proof. by vm_compute. Qed.

(** C48.  [Rs] lists for every value the Arcs reachable from it: each counts as many times as
    there are values that reach it.  If an ArenaIntern handle occurs, its pointer counts again
    ([own_surplus], [shared_surplus]). *)
Theorem C48_arc_counts_per_object {V : Type} (D : denv V) (E : tyenv V) ls st ty ks fat cap :
  coherent E -> wide E -> bounded E ls -> run (step E) init ls = Some st ->
  ks ≡ₚ List.filter (key_of_type E st ty) (st_table st) ->
  exists vs, values (data st) ks = Some vs /\ (forall v, v ∈ vs -> te_ty E v = ty) /\
    (heap_valid D -> values_valid D vs -> exists Rs R,
      Forall2 (arcs_of D) vs Rs /\ arcs_of_all D vs R /\ (forall a, a ∈ R -> 1 <= times Rs a) /\
      deep_size_of_arc_interned D st ks fat cap = Some (cap * ref_bytes D fat
        + nsum (λ v, d_word D + own_size D v + own_surplus D v) vs
        + nsum (λ a, times Rs a * (shared_size D a + shared_surplus D a)) R)).
Proof. exact (arc_times D E ls st ty ks fat cap). Qed.
Print Assumptions C48_arc_counts_per_object.
(** Two leaves, 4 and 8, both hold Arc 1; a parent. *)
Definition ex_deep_arc : denv node := DEnv (λ _, 32) (λ v, [PShared 1; POwn 3]) ex_heap 8.
Definition ex_two : list (label node) := intern 1 10 KSized (Node 0 4 []) ++ intern 1 20 KSized (Node 0 8 []).
Example C48_arc_example :
  let st := after exE ex_two in
  let ks := List.filter (key_of_type exE st 0) (st_table st) in
  coherent exE /\ wide exE /\ bounded exE ex_two /\ run (step exE) init ex_two = Some st /\
  values (data st) ks = Some [Node 0 8 []; Node 0 4 []] /\
  deep_size_of_arc_interned ex_deep_arc st ks false 28 = Some (28 * 8 + 2 * (8 + 35) + 2 * (1005 + 10000 + 100)).
Proof.
  split_and!; [apply lawful_coherent, nodes_lawful|done|by apply ex_bounded|by apply after_run; vm_compute|by vm_compute..].
Qed.

(** When no call is in progress and none has panicked the keys are the live objects. *)
Theorem C48_arc_counts_live_objects {V : Type} (E : tyenv V) ls st ty ks :
  coherent E -> wide E -> bounded E ls -> run (step E) init ls = Some st -> quiescent st -> st_zombies st = [] ->
  ks ≡ₚ List.filter (key_of_type E st ty) (st_table st) ->
  NoDup ks /\ forall p, p ∈ ks <-> live_object E st ty p.
Proof. exact (arc_keys_live E ls st ty ks). Qed.
Print Assumptions C48_arc_counts_live_objects.
Example C48_live_example :
  let st := after exE ex_two in
  st_zombies st = [] /\ get_pc st 1 = PFree /\ List.filter (key_of_type exE st 0) (st_table st) = [Ptr 20 1; Ptr 10 0].
Proof. by vm_compute. Qed.

Theorem C48_arena_handle_counts_twice {V : Type} (D : denv V) (fat : bool) :
  handle_size D (PArenaIntern fat) fat = Some (2 * ref_bytes D fat).
Proof. exact (arena_handle_twice D fat). Qed.
Print Assumptions C48_arena_handle_counts_twice.
Example C48_arena_handle_example :
  handle_size ex_deep (PArenaIntern false) false = Some 16 /\ handle_size ex_deep (PArenaIntern true) true = Some 32.
Proof. by vm_compute. Qed.

(** So does every ArenaIntern handle inside interned values and inside the Arcs they reach. *)
Theorem C48_surplus_in_interned {V Q : Type} (D : denv V) (E : ienv V Q) ls st ty ks hdr cap :
  run (istep E) iinit ls = Some st -> ks ≡ₚ set_of E st ty ->
  let vs := (inserted E ty (i_log st)).*2 in
  heap_valid D -> values_valid D vs ->
  exists R, arcs_of_all D vs R /\
    deep_size_of_interned D st ks hdr cap = Some (hdr + cap * d_word D + nsum (own_size D) vs + nsum (shared_size D) R
      + (nsum (own_surplus D) vs + nsum (shared_surplus D) R)).
Proof. exact (intern_once D E ls st ty ks hdr cap). Qed.
Print Assumptions C48_surplus_in_interned.
Definition ex_deep_handles : denv ival := DEnv (λ _, 24) (λ v, [PArenaIntern true; PShared 0]) ex_heap 8.
Example C48_surplus_example :
  let st := iafter toyE ex_deep_ls in
  deep_size_of_interned ex_deep_handles st (set_of toyE st 0) 48 7 = Some (48 + 7 * 8 + 3 * 24 + 10100 + 3 * 16).
Proof. by vm_compute. Qed.
Theorem C48_surplus_in_arena {V Q : Type} (D : denv V) (E : ienv V Q) ls st r x ks fat hdr cap :
  run (astep E) ainit ls = Some st -> a_arenas st !! r = Some x -> ks ≡ₚ ar_set x ->
  let vs := (a_stored r (a_log st)).*2 in
  heap_valid D -> values_valid D vs ->
  exists R, arcs_of_all D vs R /\
    deep_size_of_arena D st ks fat hdr cap = Some (hdr + cap * ref_bytes D fat + nsum (own_size D) vs + nsum (shared_size D) R
      + (nsum (own_surplus D) vs + nsum (shared_surplus D) R)).
Proof. exact (arena_once D E ls st r x ks fat hdr cap). Qed.
Print Assumptions C48_surplus_in_arena.
Example C48_surplus_arena_example :
  let st := aafter toyE ex_arena in
  (λ x, deep_size_of_arena ex_deep_handles st (ar_set x) false 56 7) <$> a_arenas st !! 0%nat
    = Some (Some (56 + 7 * 8 + 3 * 24 + 10100 + 3 * 16)).
Proof. by vm_compute. Qed.

(** What is reported per ArcIntern object besides Arcs, a word and the size of the value, is
    not more than its block, and less only by padding ([2^j]: bytes of a usize; [esz], [2^k],
    [n]: size, alignment and number of elements; [n = 1] for a sized value). *)
Theorem C48_padding_not_counted j esz k n :
  word j + esz * n <= dst_size j esz k n < word j + esz * n + 2 ^ k + N.max (word j) (2 ^ k).
Proof. exact (block_bounds j esz k n). Qed.
Print Assumptions C48_padding_not_counted.
(** A u128 takes 32 bytes of which 24 are reported; a u64 takes the 16 that are reported. *)
Example C48_padding_example :
  (word 3 + 16 * 1, dst_size 3 16 4 1) = (24, 32) /\ (word 3 + 8 * 1, dst_size 3 8 3 1) = (16, 16).
Proof. by vm_compute. Qed.

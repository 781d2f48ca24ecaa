(** Send and Sync: property C36.  Statements only; vocabulary in TraitSpec.v. *)
From stdpp Require Import gmap list numbers.
From Verif Require Import Base InternModel InternSpec InternEx NewModel NewEx ArcModel ArcEx.
From Verif Require Import ArenaModel ArenaSpec ArenaEx TraitModel TraitSpec TraitArc TraitFinal.

(** C36.  If every call satisfies the trait bounds, every reference that Intern ever returns is
    to an object of a Send and Sync type, whoever holds it. *)
Theorem C36_intern_is_send_and_sync {V Q : Type} (B : traits) (E : ienv V Q) ls st t o p :
  intern_compiles B E ls -> run (istep E) iinit ls = Some st -> EvRet t o (RPtr p) ∈ i_log st ->
  exists v, iread st p = Some v /\ sends B (tr_type B (ie_ty E v)) /\ syncs B (tr_type B (ie_ty E v)).
Proof. exact (intern_traits B E ls st t o p). Qed.
Print Assumptions C36_intern_is_send_and_sync.
(** Of the user's types, number 0 is Send and Sync, 1 only Send, 2 only Sync, others neither.
    Type 0 of the toy types is [RBase 0]; type 1 is [Intern<Mutex<RBase 1>>]; type 2 is
    [ArcIntern<Box<RBase 0>>]; type 3 is [RBase 1], others are [RBase 3]. *)
Definition ex_traits : traits := Traits (λ i, (i =? 0) || (i =? 1)) (λ i, (i =? 0) || (i =? 2))
  (λ ty, match ty with
         | 0 => RBase 0 | 1 => RIntern (RMutex (RBase 1)) | 2 => RArcIntern (RBox (RBase 0)) | 3 => RBase 1 | _ => RBase 3
         end).
Example C36_intern_example :
  intern_compiles ex_traits toyE ex_all /\ run (istep toyE) iinit ex_all = Some (iafter toyE ex_all) /\
  EvRet 1 (ONew (IV 0 4 0)) (RPtr pA) ∈ i_log (iafter toyE ex_all) /\
  EvRet 2 (ONew (IV 0 5 0)) (RPtr pA) ∈ i_log (iafter toyE ex_all).
Proof.
  split_and!; [|by apply iafter_run; vm_compute|apply elem_of_list_In; vm_compute; tauto..].
  intros t o a Hin%elem_of_list_In. vm_compute in Hin. repeat (destruct Hin as [Hin|Hin]; [by simplify_eq|]). done.
Qed.

(** C36, NewIntern. *)
Theorem C36_new_is_send_and_sync {V Q : Type} (B : traits) (E : ienv V Q) ls s t o p :
  intern_compiles B E ls -> run (nstep E) ninit ls = Some s -> EvRet t o (RPtr p) ∈ n_log s ->
  exists x, n_objs s !! ip_ser p = Some x /\ sends B (tr_type B (ie_ty E (io_val x))) /\ syncs B (tr_type B (ie_ty E (io_val x))).
Proof. exact (new_traits B E ls s t o p). Qed.
Print Assumptions C36_new_is_send_and_sync.
Example C36_new_example :
  intern_compiles ex_traits toyE ex_nall /\ run (nstep toyE) ninit ex_nall = Some (nafter toyE ex_nall) /\
  EvRet 1 (ONew (IV 0 4 0)) (RPtr (IPtr 100 0 1)) ∈ n_log (nafter toyE ex_nall) /\
  EvRet 2 (ORef 0 0 (5, 0)) (RPtr (IPtr 100 0 1)) ∈ n_log (nafter toyE ex_nall).
Proof.
  split_and!; [|by apply nafter_run; vm_compute|apply elem_of_list_In; vm_compute; tauto..].
  intros t o a Hin%elem_of_list_In. vm_compute in Hin. repeat (destruct Hin as [Hin|Hin]; [by simplify_eq|]). done.
Qed.

(** C36, ArcIntern: every value in an allocation of the crate, so every value that any handle
    or any internal reference points to. *)
Theorem C36_arc_is_send_and_sync {V : Type} (B : traits) (E : tyenv V) ls st p d :
  arc_compiles B E ls -> run (step E) init ls = Some st -> data st p = Some d ->
  sends B (tr_type B (te_ty E d)) /\ syncs B (tr_type B (te_ty E d)).
Proof. exact (arc_traits B E ls st p d). Qed.
Print Assumptions C36_arc_is_send_and_sync.
Example C36_arc_example :
  arc_compiles ex_traits exE ex_ls /\ run (step exE) init ex_ls = Some (after exE ex_ls) /\
  data (after exE ex_ls) exA = Some leaf4 /\ data (after exE ex_ls) exB = Some parent /\
  EvNew 1 leaf4 exA ∈ st_log (after exE ex_ls) /\ EvNew 2 leaf5 exA ∈ st_log (after exE ex_ls).
Proof.
  split_and!; [|by apply after_run; vm_compute|by vm_compute..|apply elem_of_list_In; vm_compute; tauto
    |apply elem_of_list_In; vm_compute; tauto].
  intros t o a Hin%elem_of_list_In. vm_compute in Hin. repeat (destruct Hin as [Hin|Hin]; [by simplify_eq|]). done.
Qed.

(** C36, the handles.  Through a handle another thread can read the value, so it may only go there
    (be Send, or be shared: Sync) if the value is Sync; dropping the last ArcIntern, or emptying
    an arena, drops the value, so that thread must be allowed to do that too: the value is Send. *)
Theorem C36_handles_sound (B : traits) (T : rty) :
  (sends B (RArcIntern T) \/ syncs B (RArcIntern T) -> sends B T /\ syncs B T) /\
  (sends B (RIntern T) \/ syncs B (RIntern T) -> syncs B T) /\
  (sends B (RArenaIntern T) \/ syncs B (RArenaIntern T) -> syncs B T) /\
  (sends B (RArena T) \/ syncs B (RArena T) -> sends B T).
Proof. exact (handles_sound B T). Qed.
Print Assumptions C36_handles_sound.
(** And handles to what may go to other threads may go there, nested as deep as one likes. *)
Theorem C36_handles_complete (B : traits) (T : rty) : sends B T -> syncs B T ->
  forall H, H ∈ [RArcIntern T; RIntern T; RArenaIntern T; RArena T] -> sends B H /\ syncs B H.
Proof. exact (handles_complete B T). Qed.
Print Assumptions C36_handles_complete.
Example C36_handles_example :
  sends ex_traits (RArcIntern (RIntern (RBase 0))) /\ syncs ex_traits (RArcIntern (RIntern (RBase 0))) /\
  ~ sends ex_traits (RArcIntern (RBase 1)) /\ ~ sends ex_traits (RArcIntern (RBase 2)) /\
  sends ex_traits (RIntern (RBase 2)) /\ ~ sends ex_traits (RIntern (RBase 1)) /\ syncs ex_traits (RArena (RBase 1)).
Proof. by vm_compute. Qed.

(** C36, Arena: it fails.  In a program that compiles, two threads have references to the same
    object of a live arena, and its type is not Sync. *)
Theorem C36_arena_refuted : exists B ls st r u ty p t1 t2, ~ syncs B (tr_type B ty) /\
  arena_compiles B toyE ls /\ run (astep toyE) ainit ls = Some st /\
  made_by toyE ls r u ty /\ is_Some (a_arenas st !! r) /\ is_Some (a_read st p) /\
  got B (a_log st) r ty p t1 /\ got B (a_log st) r ty p t2 /\ t1 <> t2.
Proof. exact arena_not_sync. Qed.
Print Assumptions C36_arena_refuted.
(** It fails for every type that is Send but not Sync. *)
Theorem C36_arena_shares_every_send_type (B : traits) : sends B (tr_type B 0) -> ~ syncs B (tr_type B 0) ->
  exists ls st r u p t1 t2, arena_compiles B toyE ls /\ run (astep toyE) ainit ls = Some st /\
    made_by toyE ls r u 0 /\ is_Some (a_arenas st !! r) /\ is_Some (a_read st p) /\
    got B (a_log st) r 0 p t1 /\ got B (a_log st) r 0 p t2 /\ t1 <> t2.
Proof. exact (arena_shares B). Qed.
Print Assumptions C36_arena_shares_every_send_type.
Example C36_arena_shares_example :
  let B := Traits (tr_send ex_traits) (tr_sync ex_traits) (λ _, RBase 1) in
  sends B (tr_type B 0) /\ ~ syncs B (tr_type B 0).
Proof. done. Qed.
(** But for no others: whatever two threads have is Sync or at least Send. *)
Theorem C36_arena_shared_is_send_or_sync {V Q : Type} (B : traits) (E : ienv V Q) ls st r u ty p t1 t2 :
  arena_compiles B E ls -> run (astep E) ainit ls = Some st -> made_by E ls r u ty ->
  got B (a_log st) r ty p t1 -> got B (a_log st) r ty p t2 -> t1 <> t2 ->
  sends B (tr_type B ty) \/ syncs B (tr_type B ty).
Proof. exact (arena_traits B E ls st r u ty p t1 t2). Qed.
Print Assumptions C36_arena_shared_is_send_or_sync.
(** Two threads call the arena; and a reference to a Sync object is passed on. *)
Example C36_arena_example :
  let st := aafter toyE ex_arena in
  arena_compiles ex_traits toyE ex_arena /\ run (astep toyE) ainit ex_arena = Some st /\ made_by toyE ex_arena 0 1 0 /\
  got ex_traits (a_log st) 0 0 (IPtr 100 0 1) 1 /\ got ex_traits (a_log st) 0 0 (IPtr 100 0 1) 2 /\
  got ex_traits (a_log st) 0 0 (IPtr 100 0 1) 7.
Proof.
  assert (got ex_traits (a_log (aafter toyE ex_arena)) 0 0 (IPtr 100 0 1) 1) as H1.
  { apply (got_call _ _ _ _ _ _ (ANew (IV 0 30 0)) None). apply elem_of_list_In; vm_compute; tauto. }
  split_and!; [by apply ex_arena_compiles|by apply aafter_run; vm_compute|apply ex_arena_made|done| |].
  - apply (got_call _ _ _ _ _ _ (ABox (IV 0 31 0)) (Some (IPtr 200 0 0))). apply elem_of_list_In; vm_compute; tauto.
  - eapply got_passed; [exact H1|]. by left.
Qed.

(** Display, Debug and Pointer of handles: property C77.  Statements only; vocabulary in FmtSpec.v. *)
From stdpp Require Import gmap list numbers.
From Verif Require Import Base ArcModel ArcSpec ArcEx ArcFinal InternModel InternSpec InternEx NewModel NewEx
  FmtModel FmtSpec FmtFinal.
From Verif Require ArenaModel ArenaSpec ArenaEx.

(** C77, the text of {:p}, for all options: fill, sign, 0x, zeros, the address in base 16, fill. *)
Theorem C77_pointer_layout (W : nat) (o : fopts) (a : N) : laid_out W o a (pointer_fmt W o a).
Proof. exact (pointer_laid_out W o a). Qed.
Print Assumptions C77_pointer_layout.
(** +0x1f in the middle of eight stars. *)
Example C77_layout_example :
  pointer_fmt 64 plain 31 = [48; 120; 49; 102]%N /\
  pointer_fmt 16 sharp 31 = [48; 120; 48; 48; 49; 102]%N /\
  pointer_fmt 64 (FOpts 42 FCenter true false false (Some 8)) 31 = [42; 43; 48; 120; 49; 102; 42; 42]%N /\
  pointer_fmt 64 (FOpts 42 FLeft true false true (Some 8)) 31 = [43; 48; 120; 48; 48; 48; 49; 102]%N.
Proof. by vm_compute. Qed.
(** Exactly the [legible] options let the address be read off. *)
Theorem C77_pointer_legible (W : nat) (o : fopts) :
  (legible o -> forall a b, pointer_fmt W o a = pointer_fmt W o b -> a = b) /\
  (~ legible o -> exists a b, (a < 1000 /\ b < 1000)%N /\ a <> b /\ pointer_fmt W o a = pointer_fmt W o b).
Proof. exact (legible_exact W o). Qed.
Print Assumptions C77_pointer_legible.
(** {:0<8p} prints 0x100000 for 1 and for 16. *)
Example C77_legible_example :
  let o := FOpts 48 FLeft false false false (Some 8) in
  legible plain /\ legible sharp /\ ~ legible o /\ pointer_fmt 64 o 1 = pointer_fmt 64 o 16 /\
  pointer_fmt 64 sharp 1 <> pointer_fmt 64 sharp 16.
Proof.
  split_and!; [right; right; by left|by left| |by vm_compute|by vm_compute].
  intros [H|[H|[H|[H|[H|H]]]]]; try done. simpl in H. lia.
Qed.

(** C77, ArcIntern: at any time, two live handles have the same {:p} iff their values are Eq. *)
Theorem C77_arc_pointer {V : Type} (E : tyenv V) (W : nat) (o : fopts) ls st p q :
  lawful E -> wide E -> legible o -> bounded E ls -> run (step E) init ls = Some st -> alive E st p -> alive E st q ->
  exists u v, data st p = Some u /\ data st q = Some v /\
    (arc_ptr_text W o p = arc_ptr_text W o q <-> te_eq E u v = true).
Proof. exact (λ HL HW, arc_text_iff E HL HW W o ls st p q). Qed.
Print Assumptions C77_arc_pointer.
(** Display and Debug of a live handle: the value's, the same as long as there is a handle to the object. *)
Theorem C77_arc_display_fixed {V T : Type} (E : tyenv V) (show : fopts -> V -> T) (o : fopts) ls1 ls2 st1 st2 p :
  lawful E -> wide E -> bounded E (ls1 ++ ls2) -> run (step E) init ls1 = Some st1 -> run (step E) st1 ls2 = Some st2 ->
  alive E st1 p -> alive E st2 p ->
  exists v, data st1 p = Some v /\ fmt_value (data st2) show o p = Some (show o v).
Proof. exact (λ HL HW, arc_shows_always E HL HW show o ls1 ls2 st1 st2 p). Qed.
Print Assumptions C77_arc_display_fixed.
(** Display and Debug of a live handle that interning [v] has returned: the text of [v], if Eq values have the same. *)
Theorem C77_arc_display {V T : Type} (E : tyenv V) (show : fopts -> V -> T) (o : fopts) (x : T) ls st t v p :
  lawful E -> wide E -> bounded E ls -> run (step E) init ls = Some st -> EvNew t v p ∈ st_log st -> alive E st p ->
  (forall d, te_eq E v d = true -> show o d = x) ->
  fmt_value (data st) show o p = Some x.
Proof. exact (λ HL HW, arc_shows E HL HW show o x ls st t v p). Qed.
Print Assumptions C77_arc_display.
Definition half_text (_ : fopts) (x : node) : list N := hex (N.of_nat (n_val x / 2)).
Example C77_arc_example :
  let st := after exE ex_ls in
  lawful exE /\ wide exE /\ bounded exE ex_ls /\ run (step exE) init ex_ls = Some st /\
  alive exE st exA /\ alive exE st exB /\ EvNew 2 leaf5 exA ∈ st_log st /\
  (forall d, te_eq exE leaf5 d = true -> half_text plain d = [50%N]) /\
  arc_ptr_text 64 plain exA = [48; 120; 97]%N /\ arc_ptr_text 64 plain exB = [48; 120; 49; 52]%N /\
  fmt_value (data st) half_text plain exA = Some [50%N].
Proof.
  split_and!; [apply nodes_lawful|done|by apply ex_bounded|by apply after_run; vm_compute|by apply alive_b; vm_compute|by apply alive_b; vm_compute
    |apply elem_of_list_In; vm_compute; tauto| |by vm_compute..].
  intros d. simpl. unfold node_eqb. rewrite !andb_true_iff, !Nat.eqb_eq. intros [[_ H] _]. unfold half_text. by rewrite <- H.
Qed.
Definition val_text (_ : fopts) (x : node) : list N := hex (N.of_nat (n_val x)).
(** The thread that interned it first drops its handle in between: the others show the same text as before. *)
Example C77_fixed_example :
  let st1 := after exE ex_ls in let st2 := after exE (ex_ls ++ LDrop 1 exA :: ArcEx.steps 1 0 2) in
  run (step exE) st1 (LDrop 1 exA :: ArcEx.steps 1 0 2) = Some st2 /\
  bounded exE (ex_ls ++ LDrop 1 exA :: ArcEx.steps 1 0 2) /\ alive exE st1 exA /\ alive exE st2 exA /\
  fmt_value (data st1) val_text plain exA = Some [52%N] /\ fmt_value (data st2) val_text plain exA = Some [52%N].
Proof.
  split_and!; [by vm_compute|by apply ex_bounded|by apply alive_b; vm_compute
    |by apply alive_b; vm_compute|by vm_compute|by vm_compute].
Qed.
(** Eq values with different texts: the handle shows the value interned first, 4 here, not the
    one that was passed, 5. *)
Theorem C77_arc_display_own_text_refuted :
  exists (ls : list (label node)) st t v p,
    lawful exE /\ wide exE /\ bounded exE ls /\ run (step exE) init ls = Some st /\ EvNew t v p ∈ st_log st /\ alive exE st p /\
    fmt_value (data st) val_text plain p <> Some (val_text plain v).
Proof.
  exists ex_ls, (after exE ex_ls), 2, leaf5, exA.
  split_and!; [apply nodes_lawful|done|by apply ex_bounded|by apply after_run; vm_compute
    |apply elem_of_list_In; vm_compute; tauto|by apply alive_b; vm_compute|by vm_compute].
Qed.
Print Assumptions C77_arc_display_own_text_refuted.
(** At different times the same {:p} may belong to values that are not Eq: the memory of a dropped
    value is used again. *)
Definition ex_reuse1 : list (label node) := intern 1 10 KSized leaf4.
Definition ex_reuse2 : list (label node) := LDrop 1 exA :: ArcEx.steps 1 0 7 ++ intern 1 10 KSized (Node 0 8 []).
Theorem C77_arc_pointer_over_time_refuted :
  exists (ls1 ls2 : list (label node)) st1 st2 p q u v,
    lawful exE /\ wide exE /\ bounded exE (ls1 ++ ls2) /\ run (step exE) init ls1 = Some st1 /\ run (step exE) st1 ls2 = Some st2 /\
    alive exE st1 p /\ alive exE st2 q /\ data st1 p = Some u /\ data st2 q = Some v /\ te_eq exE u v = false /\
    forall W o, arc_ptr_text W o p = arc_ptr_text W o q.
Proof.
  exists ex_reuse1, ex_reuse2, (after exE ex_reuse1), (after exE (ex_reuse1 ++ ex_reuse2)), exA, (Ptr 10 1), leaf4, (Node 0 8 []).
  split_and!; [apply nodes_lawful|done|by apply ex_bounded|by apply after_run; vm_compute|by vm_compute
    |by apply alive_b; vm_compute|by apply alive_b; vm_compute|by vm_compute|by vm_compute|by vm_compute|done].
Qed.
Print Assumptions C77_arc_pointer_over_time_refuted.

(** C77, Intern: the same {:p} iff Eq; where only the address of a fat pointer is written, the values must
    not be zero-sized or have the same metadata. *)
Theorem C77_intern_pointer {V Q : Type} (E : ienv V Q) (full : bool) (W : nat) (o : fopts) ls st t1 o1 p1 v1 t2 o2 p2 v2 :
  legible o -> ilawful E -> icoherent E -> zst_eq E -> no_clear ls -> run (istep E) iinit ls = Some st ->
  EvRet t1 o1 (RPtr p1) ∈ i_log st -> EvRet t2 o2 (RPtr p2) ∈ i_log st -> op_ty E o1 = op_ty E o2 ->
  iread st p1 = Some v1 -> iread st p2 = Some v2 ->
  full = true \/ ie_meta E v1 = ie_meta E v2 \/ is_zst E v1 = false /\ is_zst E v2 = false ->
  (ptr_text full W o p1 = ptr_text full W o p2 <-> ie_eq E v1 v2 = true).
Proof. exact (intern_text_iff E full W o ls st t1 o1 p1 v1 t2 o2 p2 v2). Qed.
Print Assumptions C77_intern_pointer.
(** Display and Debug: at any later time the text of the value then stored, whatever the user's code
    does; and if what the call asked for determines the text, that one. *)
Theorem C77_intern_display_fixed {V Q T : Type} (E : ienv V Q) (show : fopts -> V -> T) (fo : fopts) ls1 ls2 st1 st2 t o p :
  run (istep E) iinit ls1 = Some st1 -> EvRet t o (RPtr p) ∈ i_log st1 -> run (istep E) st1 ls2 = Some st2 ->
  exists v, iread st1 p = Some v /\ fmt_value (iread st2) show fo p = Some (show fo v).
Proof. exact (intern_shows_always E show fo ls1 ls2 st1 st2 t o p). Qed.
Print Assumptions C77_intern_display_fixed.
Theorem C77_intern_display {V Q T : Type} (E : ienv V Q) (show : fopts -> V -> T) (fo : fopts) (x : T) ls1 ls2 st1 st2 t o p :
  ilawful E -> icoherent E -> run (istep E) iinit ls1 = Some st1 -> EvRet t o (RPtr p) ∈ i_log st1 ->
  run (istep E) st1 ls2 = Some st2 -> (forall d, asks E o d -> show fo d = x) ->
  fmt_value (iread st2) show fo p = Some x.
Proof. exact (intern_shows E show fo x ls1 ls2 st1 st2 t o p). Qed.
Print Assumptions C77_intern_display.
Definition half_text_i (_ : fopts) (x : ival) : list N := hex (N.of_nat (eff some_zst x / 2)).
Example C77_intern_example :
  let st := iafter toyE ex_all in
  ilawful toyE /\ icoherent toyE /\ zst_eq toyE /\ no_clear ex_all /\ run (istep toyE) iinit ex_all = Some st /\
  EvRet 2 (ONew (IV 0 5 0)) (RPtr pA) ∈ i_log st /\ EvRet 1 (ORef 0 0 (8, 0)) (RPtr pD) ∈ i_log st /\
  iread st pA = Some (IV 0 4 0) /\ iread st pD = Some (IV 0 8 0) /\
  (forall d, asks toyE (ONew (IV 0 5 0)) d -> half_text_i plain d = [50%N]) /\
  ptr_text false 64 plain pA = ([48; 120; 54; 52]%N, []) /\ ptr_text true 64 plain pB = ([48; 120; 99; 56]%N, [3]) /\
  fmt_value (iread st) half_text_i plain pA = Some [50%N].
Proof.
  split_and!; [apply toyE_lawful|apply toyE_coherent|apply toyE_zst_eq|by apply no_clear_check; vm_compute|by apply iafter_run; vm_compute
    |apply elem_of_list_In; vm_compute; tauto|apply elem_of_list_In; vm_compute; tauto|by vm_compute|by vm_compute| |by vm_compute..].
  intros d [_ He]. cbn -[Nat.div eff] in He. apply andb_true_iff in He as [[_ He]%andb_true_iff _]. apply Nat.eqb_eq in He.
  unfold half_text_i. by rewrite He.
Qed.
(** Two slices of zero-sized elements, of lengths 3 and 5: not Eq, but the same address. *)
Definition ex_units : list (ilabel ival (nat * nat)) := icall 1 100 (OBox (IV 3 0 3)) 5 ++ icall 1 200 (OBox (IV 3 0 5)) 5.
Theorem C77_intern_address_only_refuted :
  exists (ls : list (ilabel ival (nat * nat))) st t1 o1 p1 v1 t2 o2 p2 v2,
    ilawful toyE /\ icoherent toyE /\ zst_eq toyE /\ no_clear ls /\ run (istep toyE) iinit ls = Some st /\
    EvRet t1 o1 (RPtr p1) ∈ i_log st /\ EvRet t2 o2 (RPtr p2) ∈ i_log st /\ op_ty toyE o1 = op_ty toyE o2 /\
    iread st p1 = Some v1 /\ iread st p2 = Some v2 /\ ie_eq toyE v1 v2 = false /\
    forall W o, ptr_text false W o p1 = ptr_text false W o p2.
Proof.
  exists ex_units, (iafter toyE ex_units), 1, (OBox (IV 3 0 3)), (IPtr 16 3 0), (IV 3 0 3), 1, (OBox (IV 3 0 5)), (IPtr 16 5 1), (IV 3 0 5).
  split_and!; [apply toyE_lawful|apply toyE_coherent|apply toyE_zst_eq|by apply no_clear_check; vm_compute|by apply iafter_run; vm_compute
    |apply elem_of_list_In; vm_compute; tauto|apply elem_of_list_In; vm_compute; tauto|done|by vm_compute|by vm_compute|done|done].
Qed.
Print Assumptions C77_intern_address_only_refuted.

(** C77, the Intern of typearena.rs. *)
Theorem C77_new_pointer {V Q : Type} (E : ienv V Q) (full : bool) (W : nat) (o : fopts) ls s t1 o1 p1 v1 t2 o2 p2 v2 :
  legible o -> ilawful E -> icoherent E -> zst_eq E -> no_clear ls -> run (nstep E) ninit ls = Some s ->
  EvRet t1 o1 (RPtr p1) ∈ n_log s -> EvRet t2 o2 (RPtr p2) ∈ n_log s -> op_ty E o1 = op_ty E o2 ->
  iread (nmem s) p1 = Some v1 -> iread (nmem s) p2 = Some v2 ->
  full = true \/ ie_meta E v1 = ie_meta E v2 \/ is_zst E v1 = false /\ is_zst E v2 = false ->
  (ptr_text full W o p1 = ptr_text full W o p2 <-> ie_eq E v1 v2 = true).
Proof. exact (new_text_iff E full W o ls s t1 o1 p1 v1 t2 o2 p2 v2). Qed.
Print Assumptions C77_new_pointer.
Theorem C77_new_display_fixed {V Q T : Type} (E : ienv V Q) (show : fopts -> V -> T) (fo : fopts) ls1 ls2 s1 s2 t o p :
  run (nstep E) ninit ls1 = Some s1 -> EvRet t o (RPtr p) ∈ n_log s1 -> run (nstep E) s1 ls2 = Some s2 ->
  exists v, iread (nmem s1) p = Some v /\ fmt_value (iread (nmem s2)) show fo p = Some (show fo v).
Proof. exact (new_shows_always E show fo ls1 ls2 s1 s2 t o p). Qed.
Print Assumptions C77_new_display_fixed.
Theorem C77_new_display {V Q T : Type} (E : ienv V Q) (show : fopts -> V -> T) (fo : fopts) (x : T) ls1 ls2 s1 s2 t o p :
  ilawful E -> icoherent E -> run (nstep E) ninit ls1 = Some s1 -> EvRet t o (RPtr p) ∈ n_log s1 ->
  run (nstep E) s1 ls2 = Some s2 -> (forall d, asks E o d -> show fo d = x) ->
  fmt_value (iread (nmem s2)) show fo p = Some x.
Proof. exact (new_shows E show fo x ls1 ls2 s1 s2 t o p). Qed.
Print Assumptions C77_new_display.
Example C77_new_example :
  let s := nafter toyE ex_nall in
  run (nstep toyE) ninit ex_nall = Some s /\
  EvRet 1 (ONew (IV 0 4 0)) (RPtr (IPtr 100 0 1)) ∈ n_log s /\ EvRet 2 (ORef 0 0 (5, 0)) (RPtr (IPtr 100 0 1)) ∈ n_log s /\
  iread (nmem s) (IPtr 100 0 1) = Some (IV 0 4 0) /\
  fmt_value (iread (nmem s)) half_text_i plain (IPtr 100 0 1) = Some [50%N].
Proof. split_and!; [by apply nafter_run; vm_compute|apply elem_of_list_In; vm_compute; tauto..|by vm_compute|by vm_compute]. Qed.

(** C77, ArenaIntern (no Pointer): while its arena exists. *)
Import ArenaModel ArenaSpec ArenaEx.
Theorem C77_arena_display_fixed {V Q T : Type} (E : ienv V Q) (show : fopts -> V -> T) (fo : fopts) ls1 ls2 st1 st2 t r o b p :
  run (astep E) ainit ls1 = Some st1 -> AvRet t r o b (AP p) ∈ a_log st1 -> run (astep E) st1 ls2 = Some st2 ->
  is_Some (a_arenas st2 !! r) ->
  exists v, a_read st1 p = Some v /\ fmt_value (a_read st2) show fo p = Some (show fo v).
Proof. exact (arena_shows_always E show fo ls1 ls2 st1 st2 t r o b p). Qed.
Print Assumptions C77_arena_display_fixed.
Theorem C77_arena_display {V Q T : Type} (E : ienv V Q) (show : fopts -> V -> T) (fo : fopts) (x : T) ls st t r o b p :
  ilawful E -> icoherent E -> run (astep E) ainit ls = Some st -> AvRet t r o b (AP p) ∈ a_log st ->
  is_Some (a_arenas st !! r) -> (forall d, a_asks E o d -> show fo d = x) ->
  fmt_value (a_read st) show fo p = Some x.
Proof. exact (arena_shows E show fo x ls st t r o b p). Qed.
Print Assumptions C77_arena_display.
(** After the drop of the arena there is nothing to show. *)
Example C77_arena_example :
  let st := aafter toyE ex_arena in let st' := aafter toyE ex_dropped in
  run (astep toyE) ainit ex_arena = Some st /\ run (astep toyE) ainit ex_dropped = Some st' /\
  (if a_arenas st !! 0 then true else false) = true /\
  AvRet 1 0 (ANew (IV 0 30 0)) None (AP (IPtr 100 0 1)) ∈ a_log st /\
  fmt_value (a_read st) half_text_i plain (IPtr 100 0 1) = Some [102%N] /\
  fmt_value (a_read st') half_text_i plain (IPtr 100 0 1) = None.
Proof.
  split_and!; [by apply aafter_run; vm_compute|by apply aafter_run; vm_compute|by vm_compute|apply elem_of_list_In; vm_compute; tauto
    |by vm_compute|by vm_compute].
Qed.

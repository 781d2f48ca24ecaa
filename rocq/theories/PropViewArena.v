(** Strings and paths in an Arena: property C78.  Statements only; vocabulary in ViewSpec.v.  ArenaIntern has no AsRef to
    another type; [view] is a dereference followed by as_ref or as_os_str of std. *)
From stdpp Require Import gmap list numbers.
From Verif Require Import Base InternModel InternSpec ArenaModel ArenaSpec ViewModel ViewSpec ViewEx ViewArena.

(** str and OsStr: the bytes that were interned, as long as the arena exists. *)
Theorem C78_arena_text_views (x : os) ls st t r o b p v to :
  run (astep (str_env x)) ainit ls = Some st -> AvRet t r o b (AP p) ∈ a_log st -> is_Some (a_arenas st !! r) ->
  o = AOwned v \/ o = ABox v \/ (exists w, o = ARef w v) -> s_ty v <> TPath ->
  view (a_read st) to p = Some (Str to (s_bytes v)).
Proof. exact (arena_text x ls st t r o b p v to). Qed.
Print Assumptions C78_arena_text_views.
(** Path: a spelling of the path that was interned. *)
Theorem C78_arena_path_views (x : os) ls st t r o b p v to :
  run (astep (str_env x)) ainit ls = Some st -> AvRet t r o b (AP p) ∈ a_log st -> is_Some (a_arenas st !! r) ->
  o = AOwned v \/ o = ABox v \/ (exists w, o = ARef w v) -> s_ty v = TPath ->
  exists c, view (a_read st) to p = Some (Str to c) /\ same_path c (s_bytes v).
Proof. exact (arena_path x ls st t r o b p v to). Qed.
Print Assumptions C78_arena_path_views.
(** It never changes. *)
Theorem C78_arena_views_fixed (x : os) ls1 ls2 st1 st2 t r o b p to :
  run (astep (str_env x)) ainit ls1 = Some st1 -> AvRet t r o b (AP p) ∈ a_log st1 -> run (astep (str_env x)) st1 ls2 = Some st2 ->
  is_Some (a_arenas st2 !! r) ->
  exists w, view (a_read st1) to p = Some w /\ view (a_read st2) to p = Some w.
Proof. exact (arena_fixed x ls1 ls2 st1 st2 t r o b p to). Qed.
Print Assumptions C78_arena_views_fixed.
(** Handles of one arena are equal iff the same bytes, or the same path, were interned. *)
Theorem C78_arena_handles (x : os) ls st r t1 o1 b1 p1 v1 t2 o2 b2 p2 v2 :
  run (astep (str_env x)) ainit ls = Some st ->
  AvRet t1 r o1 b1 (AP p1) ∈ a_log st -> o1 = AOwned v1 \/ o1 = ABox v1 \/ (exists w, o1 = ARef w v1) ->
  AvRet t2 r o2 b2 (AP p2) ∈ a_log st -> o2 = AOwned v2 \/ o2 = ABox v2 \/ (exists w, o2 = ARef w v2) ->
  is_Some (a_arenas st !! r) -> s_ty v1 = s_ty v2 ->
  (s_ty v1 <> TPath -> (iptr_eqb p1 p2 = true <-> s_bytes v1 = s_bytes v2)) /\
  (s_ty v1 = TPath -> (iptr_eqb p1 p2 = true <-> same_path (s_bytes v1) (s_bytes v2))).
Proof. exact (arena_same x ls st r t1 o1 b1 p1 v1 t2 o2 b2 p2 v2). Qed.
Print Assumptions C78_arena_handles.
(** Arena 0 has paths, arena 1 strings. *)
Example C78_arena_example :
  run (astep exV) ainit av_ls = Some av_st /\ is_Some (a_arenas av_st !! 0) /\ is_Some (a_arenas av_st !! 1) /\
  AvRet 1 0 (AOwned (Str TPath ab)) None (AP (IPtr 110 3 1)) ∈ a_log av_st /\
  AvRet 2 0 (ABox (Str TPath ab')) (Some (IPtr 101 5 2)) (AP (IPtr 110 3 1)) ∈ a_log av_st /\
  AvRet 1 1 (ABox (Str TStr ab)) (Some (IPtr 102 3 3)) (AP (IPtr 102 3 3)) ∈ a_log av_st /\
  AvRet 2 1 (AOwned (Str TStr ab')) None (AP (IPtr 113 5 5)) ∈ a_log av_st /\
  view (a_read av_st) TOs (IPtr 110 3 1) = Some (Str TOs ab) /\ view (a_read av_st) TPath (IPtr 113 5 5) = Some (Str TPath ab').
Proof.
  split_and!; first [by vm_compute|apply elem_of_list_In; vm_compute; tauto|eexists; by vm_compute].
Qed.

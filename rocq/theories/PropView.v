(** AsRef conversions between handles' contents: property C78.  Statements only; vocabulary in ViewSpec.v. *)
From stdpp Require Import gmap list numbers.
From Verif Require Import Base InternModel InternSpec InternEx NewModel ViewModel ViewSpec ViewFinal ViewEx.
From Verif Require ArcModel ArcSpec.

(** Eq of Path means: the same path, spelt in any way. *)
Theorem C78_path_eq a b : str_eqb (Str TPath a) (Str TPath b) = true <-> same_path a b.
Proof. exact (path_eq a b). Qed.
Print Assumptions C78_path_eq.
Example C78_path_eq_example :
  str_eqb (Str TPath ab) (Str TPath ab') = true /\ str_eqb (Str TPath [97; 47; 46]%N) (Str TPath [97]%N) = true /\
  str_eqb (Str TPath [46; 47; 97]%N) (Str TPath [97]%N) = false /\ str_eqb (Str TPath [47]%N) (Str TPath []) = false /\
  str_eqb (Str TPath [97; 47; 46; 46]%N) (Str TPath []) = false.
Proof. split_and!; by vm_compute. Qed.

(** Intern: str and OsStr: the bytes that were interned, at any time.  Path: the same path, maybe spelt differently.
    Handles are equal iff the views are the same (the same path, for handles of paths). *)
Theorem C78_intern_text_views (x : os) ls1 ls2 st1 st2 t o p v to :
  run (istep (str_env x)) iinit ls1 = Some st1 -> EvRet t o (RPtr p) ∈ i_log st1 ->
  o = ONew v \/ o = OVia v \/ o = OBox v -> s_ty v <> TPath -> run (istep (str_env x)) st1 ls2 = Some st2 ->
  view (iread st2) to p = Some (Str to (s_bytes v)).
Proof. exact (intern_text x ls1 ls2 st1 st2 t o p v to). Qed.
Print Assumptions C78_intern_text_views.
Theorem C78_intern_path_views (x : os) ls1 ls2 st1 st2 t o p v to :
  run (istep (str_env x)) iinit ls1 = Some st1 -> EvRet t o (RPtr p) ∈ i_log st1 ->
  o = ONew v \/ o = OVia v \/ o = OBox v -> s_ty v = TPath -> run (istep (str_env x)) st1 ls2 = Some st2 ->
  exists b, view (iread st2) to p = Some (Str to b) /\ same_path b (s_bytes v).
Proof. exact (intern_path x ls1 ls2 st1 st2 t o p v to). Qed.
Print Assumptions C78_intern_path_views.
Theorem C78_intern_handles_and_views (x : os) ls st t1 o1 p1 v1 t2 o2 p2 v2 to :
  no_clear ls -> run (istep (str_env x)) iinit ls = Some st ->
  EvRet t1 o1 (RPtr p1) ∈ i_log st -> o1 = ONew v1 \/ o1 = OVia v1 \/ o1 = OBox v1 ->
  EvRet t2 o2 (RPtr p2) ∈ i_log st -> o2 = ONew v2 \/ o2 = OVia v2 \/ o2 = OBox v2 -> s_ty v1 = s_ty v2 ->
  (s_ty v1 <> TPath -> (iptr_eqb p1 p2 = true <-> view (iread st) to p1 = view (iread st) to p2)) /\
  (s_ty v1 = TPath -> (iptr_eqb p1 p2 = true <->
     exists b c, view (iread st) to p1 = Some (Str to b) /\ view (iread st) to p2 = Some (Str to c) /\ same_path b c)).
Proof. exact (intern_views x ls st t1 o1 p1 v1 t2 o2 p2 v2 to). Qed.
Print Assumptions C78_intern_handles_and_views.
(** In terms of what was interned. *)
Theorem C78_intern_handles (x : os) ls st t1 o1 p1 v1 t2 o2 p2 v2 :
  no_clear ls -> run (istep (str_env x)) iinit ls = Some st ->
  EvRet t1 o1 (RPtr p1) ∈ i_log st -> o1 = ONew v1 \/ o1 = OVia v1 \/ o1 = OBox v1 ->
  EvRet t2 o2 (RPtr p2) ∈ i_log st -> o2 = ONew v2 \/ o2 = OVia v2 \/ o2 = OBox v2 -> s_ty v1 = s_ty v2 ->
  (s_ty v1 <> TPath -> (iptr_eqb p1 p2 = true <-> s_bytes v1 = s_bytes v2)) /\
  (s_ty v1 = TPath -> (iptr_eqb p1 p2 = true <-> same_path (s_bytes v1) (s_bytes v2))).
Proof. exact (intern_same x ls st t1 o1 p1 v1 t2 o2 p2 v2). Qed.
Print Assumptions C78_intern_handles.
(** A view never changes, and its spelling is that of the one call that stored it. *)
Theorem C78_intern_views_fixed (x : os) ls1 ls2 st1 st2 t o p to :
  run (istep (str_env x)) iinit ls1 = Some st1 -> EvRet t o (RPtr p) ∈ i_log st1 -> run (istep (str_env x)) st1 ls2 = Some st2 ->
  exists w, view (iread st1) to p = Some w /\ view (iread st2) to p = Some w.
Proof. exact (intern_fixed x ls1 ls2 st1 st2 t o p to). Qed.
Print Assumptions C78_intern_views_fixed.
Theorem C78_intern_first_spelling (x : os) ls st t o p to :
  no_clear ls -> run (istep (str_env x)) iinit ls = Some st -> EvRet t o (RPtr p) ∈ i_log st ->
  exists t0 o0 d l1 l2, i_log st = l1 ++ EvIns t0 o0 p d :: l2 /\
    (o0 = ONew d \/ o0 = OVia d \/ o0 = OBox d \/ exists ty w, o0 = ORef ty w d) /\
    view (iread st) to p = Some (Str to (s_bytes d)) /\
    forall t' o' p' d', EvIns t' o' p' d' ∈ l1 ++ l2 -> op_ty (str_env x) o' = op_ty (str_env x) o -> str_eqb d' d = false.
Proof. exact (intern_first x ls st t o p to). Qed.
Print Assumptions C78_intern_first_spelling.
Example C78_intern_example :
  no_clear (v_ls 6) /\ run (istep exV) iinit (v_ls 6) = Some v_int /\
  EvIns 1 (OVia (Str TPath ab)) pPath (Str TPath ab) ∈ i_log v_int /\ EvRet 2 (OVia (Str TPath ab')) (RPtr pPath) ∈ i_log v_int /\ EvRet 2 (OVia (Str TStr ab')) (RPtr pStr') ∈ i_log v_int /\
  EvRet 3 (OBox (Str TOs ab')) (RPtr pOs') ∈ i_log v_int /\
  view (iread v_int) TOs pPath = Some (Str TOs ab) /\ view (iread v_int) TPath pStr' = Some (Str TPath ab') /\
  view (iread v_int) TPath pOs' = Some (Str TPath ab').
Proof.
  split; [by apply no_clear_check|]. split; [by vm_compute|].
  split_and!; [apply elem_of_list_In; vm_compute; tauto..|by vm_compute|by vm_compute|by vm_compute].
Qed.
(** The spelling may be another one than that given. *)
Theorem C78_intern_spelling_kept_refuted :
  exists x ls st t v p, run (istep (str_env x)) iinit ls = Some st /\ EvRet t (OVia v) (RPtr p) ∈ i_log st /\ s_ty v = TPath /\
    view (iread st) TOs p <> Some (Str TOs (s_bytes v)).
Proof. exact spelling_refuted. Qed.
Print Assumptions C78_intern_spelling_kept_refuted.
(** Different strings, hence different handles; but the same path. *)
Theorem C78_intern_str_paths_refuted :
  exists x ls st t1 v1 p1 t2 v2 p2 w1 w2, no_clear ls /\ run (istep (str_env x)) iinit ls = Some st /\
    EvRet t1 (OVia v1) (RPtr p1) ∈ i_log st /\ EvRet t2 (OVia v2) (RPtr p2) ∈ i_log st /\ s_ty v1 = TStr /\ s_ty v2 = TStr /\
    view (iread st) TPath p1 = Some w1 /\ view (iread st) TPath p2 = Some w2 /\ str_eqb w1 w2 = true /\ iptr_eqb p1 p2 = false.
Proof. exact str_paths_refuted. Qed.
Print Assumptions C78_intern_str_paths_refuted.

(** The Intern of typearena.rs: the same. *)
Theorem C78_new_text_views (x : os) ls1 ls2 s1 s2 t o p v to :
  run (nstep (str_env x)) ninit ls1 = Some s1 -> EvRet t o (RPtr p) ∈ n_log s1 ->
  o = ONew v \/ o = OVia v \/ o = OBox v -> s_ty v <> TPath -> run (nstep (str_env x)) s1 ls2 = Some s2 ->
  view (iread (nmem s2)) to p = Some (Str to (s_bytes v)).
Proof. exact (new_text x ls1 ls2 s1 s2 t o p v to). Qed.
Print Assumptions C78_new_text_views.
Theorem C78_new_path_views (x : os) ls1 ls2 s1 s2 t o p v to :
  run (nstep (str_env x)) ninit ls1 = Some s1 -> EvRet t o (RPtr p) ∈ n_log s1 ->
  o = ONew v \/ o = OVia v \/ o = OBox v -> s_ty v = TPath -> run (nstep (str_env x)) s1 ls2 = Some s2 ->
  exists b, view (iread (nmem s2)) to p = Some (Str to b) /\ same_path b (s_bytes v).
Proof. exact (new_path x ls1 ls2 s1 s2 t o p v to). Qed.
Print Assumptions C78_new_path_views.
Theorem C78_new_handles_and_views (x : os) ls s t1 o1 p1 v1 t2 o2 p2 v2 to :
  no_clear ls -> run (nstep (str_env x)) ninit ls = Some s ->
  EvRet t1 o1 (RPtr p1) ∈ n_log s -> o1 = ONew v1 \/ o1 = OVia v1 \/ o1 = OBox v1 ->
  EvRet t2 o2 (RPtr p2) ∈ n_log s -> o2 = ONew v2 \/ o2 = OVia v2 \/ o2 = OBox v2 -> s_ty v1 = s_ty v2 ->
  (s_ty v1 <> TPath -> (iptr_eqb p1 p2 = true <-> view (iread (nmem s)) to p1 = view (iread (nmem s)) to p2)) /\
  (s_ty v1 = TPath -> (iptr_eqb p1 p2 = true <->
     exists b c, view (iread (nmem s)) to p1 = Some (Str to b) /\ view (iread (nmem s)) to p2 = Some (Str to c) /\ same_path b c)).
Proof. exact (new_views x ls s t1 o1 p1 v1 t2 o2 p2 v2 to). Qed.
Print Assumptions C78_new_handles_and_views.
(** In terms of what was interned. *)
Theorem C78_new_handles (x : os) ls s t1 o1 p1 v1 t2 o2 p2 v2 :
  no_clear ls -> run (nstep (str_env x)) ninit ls = Some s ->
  EvRet t1 o1 (RPtr p1) ∈ n_log s -> o1 = ONew v1 \/ o1 = OVia v1 \/ o1 = OBox v1 ->
  EvRet t2 o2 (RPtr p2) ∈ n_log s -> o2 = ONew v2 \/ o2 = OVia v2 \/ o2 = OBox v2 -> s_ty v1 = s_ty v2 ->
  (s_ty v1 <> TPath -> (iptr_eqb p1 p2 = true <-> s_bytes v1 = s_bytes v2)) /\
  (s_ty v1 = TPath -> (iptr_eqb p1 p2 = true <-> same_path (s_bytes v1) (s_bytes v2))).
Proof. exact (new_same x ls s t1 o1 p1 v1 t2 o2 p2 v2). Qed.
Print Assumptions C78_new_handles.
(** A view never changes, and its spelling is that of the one call that stored it. *)
Theorem C78_new_views_fixed (x : os) ls1 ls2 s1 s2 t o p to :
  run (nstep (str_env x)) ninit ls1 = Some s1 -> EvRet t o (RPtr p) ∈ n_log s1 -> run (nstep (str_env x)) s1 ls2 = Some s2 ->
  exists w, view (iread (nmem s1)) to p = Some w /\ view (iread (nmem s2)) to p = Some w.
Proof. exact (new_fixed x ls1 ls2 s1 s2 t o p to). Qed.
Print Assumptions C78_new_views_fixed.
Theorem C78_new_first_spelling (x : os) ls s t o p to :
  no_clear ls -> run (nstep (str_env x)) ninit ls = Some s -> EvRet t o (RPtr p) ∈ n_log s ->
  exists t0 o0 d l1 l2, n_log s = l1 ++ EvIns t0 o0 p d :: l2 /\
    (o0 = ONew d \/ o0 = OVia d \/ o0 = OBox d \/ exists ty w, o0 = ORef ty w d) /\
    view (iread (nmem s)) to p = Some (Str to (s_bytes d)) /\
    forall t' o' p' d', EvIns t' o' p' d' ∈ l1 ++ l2 -> op_ty (str_env x) o' = op_ty (str_env x) o -> str_eqb d' d = false.
Proof. exact (new_first x ls s t o p to). Qed.
Print Assumptions C78_new_first_spelling.
Example C78_new_example :
  no_clear (v_ls 12) /\ run (nstep exV) ninit (v_ls 12) = Some v_new /\
  EvIns 1 (OVia (Str TPath ab)) pPath (Str TPath ab) ∈ n_log v_new /\ EvRet 2 (OVia (Str TPath ab')) (RPtr pPath) ∈ n_log v_new /\ EvRet 2 (OVia (Str TStr ab')) (RPtr pStr') ∈ n_log v_new /\
  EvRet 3 (OBox (Str TOs ab')) (RPtr pOs') ∈ n_log v_new /\
  view (iread (nmem v_new)) TOs pPath = Some (Str TOs ab) /\ view (iread (nmem v_new)) TPath pStr' = Some (Str TPath ab') /\
  view (iread (nmem v_new)) TPath pOs' = Some (Str TPath ab').
Proof.
  split; [by apply no_clear_check|]. split; [by vm_compute|].
  split_and!; [apply elem_of_list_In; vm_compute; tauto..|by vm_compute|by vm_compute|by vm_compute].
Qed.

(** ArcIntern: the same while the handles live. *)
Theorem C78_arc_text_views (x : os) ls st t v p to :
  (2 <= os_usize x)%N -> ArcSpec.bounded (str_tyenv x) ls -> run (ArcModel.step (str_tyenv x)) ArcModel.init ls = Some st ->
  ArcModel.EvNew t v p ∈ ArcModel.st_log st -> ArcSpec.alive (str_tyenv x) st p -> s_ty v <> TPath ->
  view (ArcModel.data st) to p = Some (Str to (s_bytes v)).
Proof. exact (λ Hw, arc_text x Hw ls st t v p to). Qed.
Print Assumptions C78_arc_text_views.
Theorem C78_arc_path_views (x : os) ls st t v p to :
  (2 <= os_usize x)%N -> ArcSpec.bounded (str_tyenv x) ls -> run (ArcModel.step (str_tyenv x)) ArcModel.init ls = Some st ->
  ArcModel.EvNew t v p ∈ ArcModel.st_log st -> ArcSpec.alive (str_tyenv x) st p -> s_ty v = TPath ->
  exists b, view (ArcModel.data st) to p = Some (Str to b) /\ same_path b (s_bytes v).
Proof. exact (λ Hw, arc_path x Hw ls st t v p to). Qed.
Print Assumptions C78_arc_path_views.
Theorem C78_arc_handles_and_views (x : os) ls st t1 v1 p1 t2 v2 p2 to :
  (2 <= os_usize x)%N -> ArcSpec.bounded (str_tyenv x) ls -> run (ArcModel.step (str_tyenv x)) ArcModel.init ls = Some st ->
  ArcModel.EvNew t1 v1 p1 ∈ ArcModel.st_log st -> ArcSpec.alive (str_tyenv x) st p1 ->
  ArcModel.EvNew t2 v2 p2 ∈ ArcModel.st_log st -> ArcSpec.alive (str_tyenv x) st p2 -> s_ty v1 = s_ty v2 ->
  (s_ty v1 <> TPath -> (ArcModel.handle_eqb p1 p2 = true <-> view (ArcModel.data st) to p1 = view (ArcModel.data st) to p2)) /\
  (s_ty v1 = TPath -> (ArcModel.handle_eqb p1 p2 = true <->
     exists b c, view (ArcModel.data st) to p1 = Some (Str to b) /\ view (ArcModel.data st) to p2 = Some (Str to c) /\ same_path b c)).
Proof. exact (λ Hw, arc_views x Hw ls st t1 v1 p1 t2 v2 p2 to). Qed.
Print Assumptions C78_arc_handles_and_views.
Theorem C78_arc_views_fixed (x : os) ls1 ls2 st1 st2 p to :
  (2 <= os_usize x)%N -> ArcSpec.bounded (str_tyenv x) (ls1 ++ ls2) -> run (ArcModel.step (str_tyenv x)) ArcModel.init ls1 = Some st1 ->
  run (ArcModel.step (str_tyenv x)) st1 ls2 = Some st2 -> ArcSpec.alive (str_tyenv x) st1 p -> ArcSpec.alive (str_tyenv x) st2 p ->
  exists w, view (ArcModel.data st1) to p = Some w /\ view (ArcModel.data st2) to p = Some w.
Proof. exact (λ Hw, arc_fixed x Hw ls1 ls2 st1 st2 p to). Qed.
Print Assumptions C78_arc_views_fixed.
Example C78_arc_example :
  ArcSpec.bounded exT v_arc_ls /\ run (ArcModel.step exT) ArcModel.init v_arc_ls = Some v_arc /\
  ArcModel.EvNew 2 (Str TStr ab) (ArcModel.Ptr 10 0) ∈ ArcModel.st_log v_arc /\ ArcSpec.alive exT v_arc (ArcModel.Ptr 10 0) /\
  ArcModel.EvNew 1 (Str TPath ab') (ArcModel.Ptr 20 1) ∈ ArcModel.st_log v_arc /\ ArcSpec.alive exT v_arc (ArcModel.Ptr 20 1) /\
  view (ArcModel.data v_arc) TPath (ArcModel.Ptr 10 0) = Some (Str TPath ab) /\
  view (ArcModel.data v_arc) TOs (ArcModel.Ptr 20 1) = Some (Str TOs ab').
Proof. exact v_arc_ok. Qed.
Example C78_arc_fixed_example : exists st1,
  ArcSpec.bounded exT (take 7 v_arc_ls ++ drop 7 v_arc_ls) /\ run (ArcModel.step exT) ArcModel.init (take 7 v_arc_ls) = Some st1 /\
  run (ArcModel.step exT) st1 (drop 7 v_arc_ls) = Some v_arc /\
  ArcSpec.alive exT st1 (ArcModel.Ptr 10 0) /\ ArcSpec.alive exT v_arc (ArcModel.Ptr 10 0).
Proof. exact v_arc_ok2. Qed.

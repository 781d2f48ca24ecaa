(** Examples for C78. *)
From stdpp Require Import gmap list numbers.
From Verif Require Import Base InternModel InternSpec InternEx NewModel ViewModel ViewFinal.
From Verif Require ArcModel ArcSpec ArcReach ArcFinal.

Definition ex_os : os := Os (λ _ b, length b) (λ c, length c.2) (λ h h', h mod 2 =? h' mod 2) (λ _ _, 16) (λ n, N.of_nat n) (2 ^ 64) 32 2.
Notation exV := (str_env ex_os).
Definition ab : list N := [97; 47; 98]%N.            (* a/b *)
Definition ab' : list N := [97; 47; 47; 98; 47]%N.   (* a//b/ *)
Definition v_call (t a : nat) (o : iop str str) (n : nat) : list (ilabel str str) := ICall t o a :: replicate n (IStep t a 0).
(** Both spellings as paths, by different threads, and as strings. *)
Definition v_ls (n : nat) : list (ilabel str str) :=
  v_call 1 10 (OVia (Str TPath ab)) n ++ v_call 2 11 (OVia (Str TPath ab')) n ++
  v_call 1 12 (OVia (Str TStr ab)) n ++ v_call 2 13 (OVia (Str TStr ab')) n ++ v_call 3 14 (OBox (Str TOs ab')) n.
Definition v_int : istate str str := default iinit (run (istep exV) iinit (v_ls 6)).
Definition v_new : nstate str str := default ninit (run (nstep exV) ninit (v_ls 12)).
Definition pPath := IPtr 10 3 0.
Definition pStr := IPtr 12 3 1.
Definition pStr' := IPtr 13 5 2.
Definition pOs' := IPtr 14 5 3.
(** ArcIntern<str>: one thread interns a/b; another one gets a second handle; the first is dropped. Then a path. *)
Notation exT := (str_tyenv ex_os).
Definition v_arc_ls : list (ArcModel.label str) :=
  (ArcModel.LNew 1 ArcModel.KDst (Str TStr ab) :: replicate 6 (ArcModel.LStep 1 10 0)) ++
  (ArcModel.LNew 2 ArcModel.KDst (Str TStr ab) :: replicate 4 (ArcModel.LStep 2 11 0)) ++
  (ArcModel.LDrop 1 (ArcModel.Ptr 10 0) :: replicate 2 (ArcModel.LStep 1 0 0)) ++
  (ArcModel.LNew 1 ArcModel.KDst (Str TPath ab') :: replicate 6 (ArcModel.LStep 1 20 0)).
Definition v_arc : ArcModel.state str := default ArcModel.init (run (ArcModel.step exT) ArcModel.init v_arc_ls).
Lemma v_arc_ok :
  ArcSpec.bounded exT v_arc_ls /\ run (ArcModel.step exT) ArcModel.init v_arc_ls = Some v_arc /\
  ArcModel.EvNew 2 (Str TStr ab) (ArcModel.Ptr 10 0) ∈ ArcModel.st_log v_arc /\ ArcSpec.alive exT v_arc (ArcModel.Ptr 10 0) /\
  ArcModel.EvNew 1 (Str TPath ab') (ArcModel.Ptr 20 1) ∈ ArcModel.st_log v_arc /\ ArcSpec.alive exT v_arc (ArcModel.Ptr 20 1) /\
  view (ArcModel.data v_arc) TPath (ArcModel.Ptr 10 0) = Some (Str TPath ab) /\
  view (ArcModel.data v_arc) TOs (ArcModel.Ptr 20 1) = Some (Str TOs ab').
Proof.
  split_and!; [apply ArcReach.short_bounded; [apply ArcSpec.lawful_coherent, str_tlawful|done|done]|by vm_compute
    |apply elem_of_list_In; vm_compute; tauto|by apply ArcFinal.alive_b; vm_compute
    |apply elem_of_list_In; vm_compute; tauto|by apply ArcFinal.alive_b; vm_compute|by vm_compute..].
Qed.
Lemma spelling_refuted :
  exists x ls st t v p, run (istep (str_env x)) iinit ls = Some st /\ EvRet t (OVia v) (RPtr p) ∈ i_log st /\ s_ty v = TPath /\
    view (iread st) TOs p <> Some (Str TOs (s_bytes v)).
Proof.
  exists ex_os, (v_ls 6), v_int, 2, (Str TPath ab'), pPath.
  split_and!; [by vm_compute|apply elem_of_list_In; vm_compute; tauto|done|by vm_compute].
Qed.
Lemma str_paths_refuted :
  exists x ls st t1 v1 p1 t2 v2 p2 w1 w2, no_clear ls /\ run (istep (str_env x)) iinit ls = Some st /\
    EvRet t1 (OVia v1) (RPtr p1) ∈ i_log st /\ EvRet t2 (OVia v2) (RPtr p2) ∈ i_log st /\ s_ty v1 = TStr /\ s_ty v2 = TStr /\
    view (iread st) TPath p1 = Some w1 /\ view (iread st) TPath p2 = Some w2 /\ str_eqb w1 w2 = true /\ iptr_eqb p1 p2 = false.
Proof.
  exists ex_os, (v_ls 6), v_int, 1, (Str TStr ab), pStr, 2, (Str TStr ab'), pStr', (Str TPath ab), (Str TPath ab').
  split_and!; [by apply no_clear_check|by vm_compute|apply elem_of_list_In; vm_compute; tauto|apply elem_of_list_In; vm_compute; tauto|done|done|by vm_compute..].
Qed.
Lemma v_arc_ok2 : exists st1,
  ArcSpec.bounded exT (take 7 v_arc_ls ++ drop 7 v_arc_ls) /\ run (ArcModel.step exT) ArcModel.init (take 7 v_arc_ls) = Some st1 /\
  run (ArcModel.step exT) st1 (drop 7 v_arc_ls) = Some v_arc /\
  ArcSpec.alive exT st1 (ArcModel.Ptr 10 0) /\ ArcSpec.alive exT v_arc (ArcModel.Ptr 10 0).
Proof.
  exists (default ArcModel.init (run (ArcModel.step exT) ArcModel.init (take 7 v_arc_ls))). rewrite take_drop.
  split_and!; [apply v_arc_ok|by vm_compute|by vm_compute|by apply ArcFinal.alive_b; vm_compute|apply v_arc_ok].
Qed.

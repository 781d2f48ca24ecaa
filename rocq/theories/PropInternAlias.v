(** Property C70: [Intern] and the aliasing models of Rust. *)
From stdpp Require Import gmap list numbers.
From Verif Require Import Base InternModel InternSpec InternEx NewModel NewEx AliasModel ArcAliasModel.
From Verif Require Import InternAliasModel InternAliasSpec InternAliasFinal InternAliasSeen.

(** C70.  Nothing [Intern] does with the references it makes from its boxes is undefined behaviour, under
    Stacked Borrows and under Tree Borrows, whatever calls retag the boxes and references and however: for
    any user code, panics and re-entrant calls, values with and without cells, any threads and clients
    that write to these cells and pass their handles on. *)
Theorem C70_intern {V Q : Type} (M : machine) im n m r (E : ienv V Q) ls :
  M = stacked \/ M = trees ->
  exists js, run (jstep M im n m r false (intern_host E)) jinit ls = Some js /\
    run (istep E) iinit (ls ≫= j_label) = Some (js_st js).
Proof. intros HM. exact (safe_intern M HM im n m r false (or_introl eq_refl) E ls). Qed.
Print Assumptions C70_intern.
(** The same for [NewIntern]. *)
Theorem C70_typearena {V Q : Type} (M : machine) im n m r (E : ienv V Q) ls :
  M = stacked \/ M = trees ->
  exists js, run (jstep M im n m r false (new_host E)) jinit ls = Some js /\
    run (nstep E) ninit (ls ≫= j_label) = Some (js_st js).
Proof. intros HM. exact (safe_new M HM im n m r false (or_introl eq_refl) E ls). Qed.
Print Assumptions C70_typearena.

(** Every live allocation has its machines; what was leaked has a reference, and what is still a box has
    none. *)
Theorem C70_references {V Q : Type} (M : machine) im n m r (E : ienv V Q) ls js s y :
  M = stacked \/ M = trees -> run (jstep M im n m r false (intern_host E)) jinit ls = Some js ->
  i_objs (js_st js) !! s = Some y ->
  exists x, js_objs js !! s = Some x /\ (if io_leaked y then exists h, h ∈ co_hands x else co_hands x = []).
Proof. intros HM. exact (shown_intern M HM im n m r false (or_introl eq_refl) E ls js s y). Qed.
Print Assumptions C70_references.
Theorem C70_typearena_references {V Q : Type} (M : machine) im n m r (E : ienv V Q) ls js s y :
  M = stacked \/ M = trees -> run (jstep M im n m r false (new_host E)) jinit ls = Some js ->
  n_objs (js_st js) !! s = Some y ->
  exists x, js_objs js !! s = Some x /\ (if io_leaked y then exists h, h ∈ co_hands x else co_hands x = []).
Proof. intros HM. exact (shown_new M HM im n m r false (or_introl eq_refl) E ls js s y). Qed.
Print Assumptions C70_typearena_references.

(** No use of an allocation is kept from them: a step that would be undefined if the allocation were not
    there is undefined if it has no machines. *)
Theorem C70_no_use_missed {V Q : Type} (M : machine) im n m r early (E : ienv V Q) (js : jstate M (intern_host E)) l st' s j w :
  istep E (js_st js) l = Next st' -> istep E (i_without (js_st js) s) l = UB -> js_objs js !! s = None ->
  jstep M im n m r early (intern_host E) js (JRun l j w) = UB.
Proof. exact (intern_seen M im n m r early E js l st' s j w). Qed.
Print Assumptions C70_no_use_missed.
Theorem C70_typearena_no_use_missed {V Q : Type} (M : machine) im n m r early (E : ienv V Q) (js : jstate M (new_host E)) l st' s j w :
  nstep E (js_st js) l = Next st' -> nstep E (n_without (js_st js) s) l = UB -> js_objs js !! s = None ->
  jstep M im n m r early (new_host E) js (JRun l j w) = UB.
Proof. exact (new_seen M im n m r early E js l st' s j w). Qed.
Print Assumptions C70_typearena_no_use_missed.

(** It matters that the reference is what [Box::leak] returns.  Taken from the Box before, it is as good
    if [Box::leak] does not retag the Box ... *)
Theorem C70_early {V Q : Type} (M : machine) im m r (E : ienv V Q) ls :
  M = stacked \/ M = trees ->
  (exists js, run (jstep M im [] m r true (intern_host E)) jinit ls = Some js) /\
  (exists js, run (jstep M im [] m r true (new_host E)) jinit ls = Some js).
Proof. exact (early_both M im m r E ls). Qed.
Print Assumptions C70_early.
(** ... and otherwise, under Stacked Borrows, nothing new can be put into a set. *)
Theorem C70_early_undefined {V Q : Type} im n m r (E : ienv V Q) ls js t o p k a i j w :
  n <> [] -> run (jstep stacked im n m r true (intern_host E)) jinit ls = Some js ->
  get_stack (js_st js) t = FIns o p :: k -> j (ip_ser p) = 0 ->
  jstep stacked im n m r true (intern_host E) js (JRun (IStep t a i) j w) = UB.
Proof. intros Hn. exact (bad_intern E im n m r Hn ls js t o p k a i j w). Qed.
Print Assumptions C70_early_undefined.
Theorem C70_typearena_early_undefined {V Q : Type} im n m r (E : ienv V Q) ls js t c o p k a i j w :
  n <> [] -> run (jstep stacked im n m r true (new_host E)) jinit ls = Some js ->
  nstack (js_st js) t = NIn c (FIns o p) :: k -> j (ip_ser p) = 0 ->
  jstep stacked im n m r true (new_host E) js (JRun (IStep t a i) j w) = UB.
Proof. intros Hn. exact (bad_new E im n m r Hn ls js t c o p k a i j w). Qed.
Print Assumptions C70_typearena_early_undefined.

(** Threads race to intern, box and convert; cells are written by Hash and Eq and by the client, and a
    handle is passed on. *)
Definition ex_jall (w : bool) : list (jlabel ival (nat * nat)) :=
  ((λ l, JRun l (λ s, s) w) <$> ex_all) ++ [JUse pA 3 true; JCopy pA 1; JRun (IDeref pA) (λ _, 7) w; JCopy pD 0; JUse pD 1 true].
Example C70_intern_example :
  let js := jafter stacked false [true] [false] [true; false] false (intern_host toyE) (ex_jall true) in
  run (jstep stacked false [true] [false] [true; false] false (intern_host toyE)) jinit (ex_jall true) = Some js /\
  (length ∘ co_hands <$> js_objs js !! 0) = Some 4 /\ (length ∘ co_hands <$> js_objs js !! 4) = Some 4 /\ js_objs js !! 3 = None.
Proof. split_and!; [by apply jafter_run; vm_compute|by vm_compute..]. Qed.
Example C70_intern_tree_example :
  let js := jafter trees true [true; true] [true] [true] false (intern_host toyE) (ex_jall true) in
  run (jstep trees true [true; true] [true] [true] false (intern_host toyE)) jinit (ex_jall true) = Some js /\
  (length ∘ co_hands <$> js_objs js !! 0) = Some 4.
Proof. split_and!; [by apply jafter_run; vm_compute|by vm_compute..]. Qed.
Definition ex_jnew : list (jlabel ival (nat * nat)) :=
  ((λ l, JRun l (λ s, s) true) <$> ex_nall) ++ [JUse (IPtr 100 0 1) 3 true; JRun (IDeref (IPtr 100 0 1)) (λ _, 7) true].
Example C70_typearena_example :
  let js := jafter stacked false [true] [false] [true; false] false (new_host toyE) ex_jnew in
  run (jstep stacked false [true] [false] [true; false] false (new_host toyE)) jinit ex_jnew = Some js /\
  (length ∘ co_hands <$> js_objs js !! 1) = Some 3.
Proof. split_and!; [by apply jafter_run; vm_compute|by vm_compute..]. Qed.
(** A value was stored and is about to be put into the set. *)
Example C70_early_example :
  let ls := (λ l, JRun l (λ _, 0) true) <$> icall 1 100 (ONew (IV 0 4 0)) 3 in
  let js := jafter stacked false [false] [] [] true (intern_host toyE) ls in
  run (jstep stacked false [false] [] [] true (intern_host toyE)) jinit ls = Some js /\
  get_stack (js_st js) 1 = [FIns (ONew (IV 0 4 0)) pA].
Proof. split_and!; [by apply jafter_run; vm_compute|by vm_compute..]. Qed.
Example C70_typearena_early_example :
  let ls := (λ l, JRun l (λ _, 0) true) <$> ICall 1 (ONew (IV 0 4 0)) 0 :: nsteps 1 100 7 in
  let js := jafter stacked false [false] [] [] true (new_host toyE) ls in
  run (jstep stacked false [false] [] [] true (new_host toyE)) jinit ls = Some js /\
  nstack (js_st js) 1 = [NIn 0 (FIns (ONew (IV 0 4 0)) pA)].
Proof. split_and!; [by apply jafter_run; vm_compute|by vm_compute..]. Qed.
(** A search reads what is in the set: type 0 has values 4 and 8. *)
Example C70_no_use_missed_example :
  let st := iafter toyE (ex_all ++ icall 1 600 (ONew (IV 0 20 0)) 1) in
  match istep toyE st (IStep 1 0 0) with Next _ => True | _ => False end /\
  istep toyE (i_without st 0) (IStep 1 0 0) = UB /\
  istep toyE (i_without st 4) (IStep 1 0 0) = UB /\
  match istep toyE (i_without st 1) (IStep 1 0 0) with UB => False | _ => True end.
Proof. by vm_compute. Qed.
Example C70_typearena_no_use_missed_example :
  let st := nafter toyE (ex_nall ++ ICall 1 (OBox (IV 0 20 0)) 600 :: nsteps 1 0 2) in
  match nstep toyE st (IStep 1 0 0) with Next _ => True | _ => False end /\
  nstep toyE (n_without st 1) (IStep 1 0 0) = UB /\
  nstep toyE (n_without st 3) (IStep 1 0 0) = UB /\
  match nstep toyE (n_without st 0) (IStep 1 0 0) with UB => False | _ => True end.
Proof. by vm_compute. Qed.

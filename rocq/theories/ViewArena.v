(** Proofs and an example for C78: Arena<str>, Arena<OsStr>, Arena<Path>. *)
From stdpp Require Import gmap list numbers.
From Verif Require Import Base InternModel InternSpec ArenaModel ArenaSpec ArenaFinal FmtModel FmtFinal ViewModel ViewSpec ViewFinal ViewEx.

Notation dummy := (FOpts 32 FNone false false false None).
Section arena.
  Context (x : os).
  Notation E := (str_env x).
  Lemma a_gives v o d : o = AOwned v \/ o = ABox v \/ (exists w, o = ARef w v) -> a_asks E o d -> str_eqb d v = true.
  Proof. intros [->|[->|[w ->]]] H; exact H. Qed.
  Theorem arena_text ls st t r o b p v to : run (astep E) ainit ls = Some st -> AvRet t r o b (AP p) ∈ a_log st ->
    is_Some (a_arenas st !! r) -> o = AOwned v \/ o = ABox v \/ (exists w, o = ARef w v) -> s_ty v <> TPath ->
    view (a_read st) to p = Some (Str to (s_bytes v)).
  Proof.
    intros Hr Hin Hx Hg Hn.
    apply (arena_shows E (λ _ d, Str to (s_bytes d)) dummy (Str to (s_bytes v)) ls st t r o b p (str_lawful x) (str_coherent x) Hr Hin Hx).
    intros d Hd. f_equal. by apply eq_bytes; [by eapply a_gives|].
  Qed.
  Theorem arena_path ls st t r o b p v to : run (astep E) ainit ls = Some st -> AvRet t r o b (AP p) ∈ a_log st ->
    is_Some (a_arenas st !! r) -> o = AOwned v \/ o = ABox v \/ (exists w, o = ARef w v) -> s_ty v = TPath ->
    exists c, view (a_read st) to p = Some (Str to c) /\ same_path c (s_bytes v).
  Proof.
    intros Hr Hin Hx Hg Hn. apply view_spell.
    apply (arena_shows E (λ _ d, comps (s_bytes d)) dummy (comps (s_bytes v)) ls st t r o b p (str_lawful x) (str_coherent x) Hr Hin Hx).
    intros d Hd. apply comps_iff. by apply eq_path; [by eapply a_gives|].
  Qed.
  Theorem arena_fixed ls1 ls2 st1 st2 t r o b p to : run (astep E) ainit ls1 = Some st1 -> AvRet t r o b (AP p) ∈ a_log st1 ->
    run (astep E) st1 ls2 = Some st2 -> is_Some (a_arenas st2 !! r) ->
    exists w, view (a_read st1) to p = Some w /\ view (a_read st2) to p = Some w.
  Proof.
    intros Hr1 Hin Hr2 Hx.
    destruct (arena_shows_always E (λ _ d, Str to (s_bytes d)) dummy ls1 ls2 st1 st2 t r o b p Hr1 Hin Hr2 Hx) as (v&H1&H2).
    exists (Str to (s_bytes v)). split; [unfold view; by rewrite H1|exact H2].
  Qed.
  Theorem arena_same ls st r t1 o1 b1 p1 v1 t2 o2 b2 p2 v2 : run (astep E) ainit ls = Some st ->
    AvRet t1 r o1 b1 (AP p1) ∈ a_log st -> o1 = AOwned v1 \/ o1 = ABox v1 \/ (exists w, o1 = ARef w v1) ->
    AvRet t2 r o2 b2 (AP p2) ∈ a_log st -> o2 = AOwned v2 \/ o2 = ABox v2 \/ (exists w, o2 = ARef w v2) ->
    is_Some (a_arenas st !! r) -> s_ty v1 = s_ty v2 ->
    (s_ty v1 <> TPath -> (iptr_eqb p1 p2 = true <-> s_bytes v1 = s_bytes v2)) /\
    (s_ty v1 = TPath -> (iptr_eqb p1 p2 = true <-> same_path (s_bytes v1) (s_bytes v2))).
  Proof.
    intros Hr H1 G1 H2 G2 Hx Ht.
    destruct (arena_result_asked E _ _ _ _ _ _ _ (str_lawful x) (str_coherent x) Hr H1 Hx) as (d1&R1&A1).
    destruct (arena_result_asked E _ _ _ _ _ _ _ (str_lawful x) (str_coherent x) Hr H2 Hx) as (d2&R2&A2).
    apply (a_gives v1) in A1; [|done]. apply (a_gives v2) in A2; [|done].
    rewrite (arena_handles_eq E ls st r t1 o1 b1 p1 t2 o2 b2 p2 d1 d2 (str_lawful x) (str_coherent x) (str_zst x) Hr H1 H2 Hx R1 R2).
    assert (ie_eq E d1 d2 = true <-> str_eqb v1 v2 = true) as ->.
    { simpl. split; intros H.
      - eapply str_trans; [by apply str_sym|]. by eapply str_trans.
      - eapply str_trans; [done|]. eapply str_trans; [done|]. by apply str_sym. }
    rewrite str_eqb_spec. split; intros Hk.
    - rewrite decide_False by done. tauto.
    - rewrite decide_True by done. rewrite comps_iff. tauto.
  Qed.
End arena.

(** An Arena<Path> and an Arena<str>; both spellings in each. *)
Definition av_steps (t a n : nat) : list (alabel str str) := replicate n (LStep t a 0).
Definition av_ls : list (alabel str str) :=
  [LArena 1 2; LArena 1 0; LCall 1 0 (AOwned (Str TPath ab)) 100] ++ av_steps 1 110 8 ++
  [LCall 2 0 (ABox (Str TPath ab')) 101] ++ av_steps 2 0 4 ++
  [LCall 1 1 (ABox (Str TStr ab)) 102] ++ av_steps 1 0 6 ++
  [LCall 2 1 (AOwned (Str TStr ab')) 103] ++ av_steps 2 113 8.
Definition av_st : astate str str := default ainit (run (astep exV) ainit av_ls).

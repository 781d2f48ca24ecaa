(** Proofs for C45, C46. *)
From stdpp Require Import gmap list numbers.
From Verif Require Import Base ArcModel ArcSpec ArcCtorModel ArcCtorSpec ArcFinal InternModel InternSpec InternFinal
  NewModel NewSpec NewFinal SerdeModel SerdeSpec.

Section arc.
  Context {V Q W : Type} (E : tyenv V) (HL : lawful E) (HW : wide E) (F : format W).

  (** A call whose argument is Eq to what a handle reads returns an == handle. *)
  Lemma call_gives_same ls1 ls2 st1 st2 p d t v p' :
    bounded E (ls1 ++ ls2) -> run (step E) init ls1 = Some st1 -> run (step E) st1 ls2 = Some st2 ->
    alive E st1 p -> alive E st2 p -> alive E st2 p' -> data st1 p = Some d -> te_eq E d v = true ->
    EvNew t v p' ∈ st_log st2 -> handle_eqb p p' = true.
  Proof.
    intros HB H1 H2 A1 A2 A' Hd Hv Hev.
    assert (run (step E) init (ls1 ++ ls2) = Some st2) as H12 by (by rewrite run_app, H1).
    destruct (same_object E HL HW ls1 ls2 st1 st2 p HB H1 H2 A1 A2) as (d' & Hd' & Hd2). simplify_eq.
    destruct (new_reads E HL HW _ _ _ _ _ HB H12 Hev A') as (d' & Hd' & Hvd).
    destruct (handles_eq_iff E HL HW _ _ _ _ HB H12 A2 A') as (u & u' & Hu & Hu' & ->). simplify_eq.
    by eapply law_trans.
  Qed.

  Lemma arc_round_trip (ser : V -> dval) (de : W -> option V) (of_slice : nat -> list N -> V) (conv : Q -> V)
      ls1 ls2 st1 st2 p m w :
    bounded E (ls1 ++ ls2) -> run (step E) init ls1 = Some st1 -> run (step E) st1 ls2 = Some st2 ->
    alive E st1 p -> alive E st2 p -> round_trips F (λ u v, te_eq E u v = true) ser de ->
    ser_arc ser st1 p = Some m -> f_enc F m = Some w ->
    exists c, de_arc de w = Some c /\
      forall t p', EvNew t (snd (call of_slice conv c)) p' ∈ st_log st2 -> alive E st2 p' -> handle_eqb p p' = true.
  Proof.
    intros HB H1 H2 A1 A2 HR Hs Hw. unfold ser_arc in Hs. apply fmap_Some in Hs as (d & Hd & ->).
    destruct (HR _ _ Hw) as (v & Hv & He). exists (CDeserializeT v). unfold de_arc. rewrite Hv. split; [done|].
    intros t p' Hev A'. by eapply (call_gives_same ls1 ls2 st1 st2 p d t v p').
  Qed.

  Lemma visit_text e s : text e = Some s -> exists c, str_visitor e = Some c /\ full_slice c = s.
  Proof. destruct e; simpl; intros [= <-]; eauto. Qed.
  Lemma visit_octets e s : octets e = Some s -> exists c, bytes_visitor e = Some c /\ full_slice c = s.
  Proof. destruct e; simpl; intros [= <-]; eauto. Qed.
  Lemma no_octets e : octets e = None -> bytes_visitor e = None.
  Proof. by destruct e. Qed.
  Lemma from_source_val (of_slice : nat -> list N -> V) ty c :
    snd (from_source of_slice ty c) = of_slice ty (full_slice c).
  Proof. by destruct c. Qed.

  Lemma str_round_trip (of_slice : nat -> list N -> V) (conv : Q -> V) (ser : V -> dval) ty ls1 ls2 st1 st2 p s w :
    bounded E (ls1 ++ ls2) -> run (step E) init ls1 = Some st1 -> run (step E) st1 ls2 = Some st2 ->
    alive E st1 p -> alive E st2 p -> keeps_strings F -> (forall s', ser (of_slice ty s') = ser_str s') ->
    data st1 p = Some (of_slice ty s) ->
    ser_arc ser st1 p = Some (DStr s) /\
    (f_enc F (DStr s) = Some w ->
     exists c, de_arc_str F ty w = Some c /\ ctor_content of_slice conv c = of_slice ty s /\
       forall t p', EvNew t (snd (call of_slice conv c)) p' ∈ st_log st2 -> alive E st2 p' -> handle_eqb p p' = true).
  Proof.
    intros HB H1 H2 A1 A2 HF Hser Hd. split; [by unfold ser_arc; rewrite Hd; simpl; rewrite Hser|]. intros Hw.
    destruct (HF _ _ Hw) as (e & He & Ht). destruct (visit_text _ _ Ht) as (c & Hc & Hs).
    exists (CVisit ty c). unfold de_arc_str. rewrite He, Hc. split_and!; [done|by destruct c; simpl in *; subst|].
    intros t p' Hev A'. simpl in Hev. rewrite from_source_val, Hs in Hev.
    eapply (call_gives_same ls1 ls2 st1 st2 p _ t _ p'); eauto. apply HL.
  Qed.

  Lemma bytes_fail (ser : V -> dval) (of_slice : nat -> list N -> V) ty st p l w :
    tells_seqs_from_bytes F -> (forall l', ser (of_slice ty l') = ser_u8s l') -> data st p = Some (of_slice ty l) ->
    ser_arc ser st p = Some (DSeq (DU8 <$> l)) /\
    (f_enc F (DSeq (DU8 <$> l)) = Some w -> de_arc_bytes F ty w = None (A := ctor V N Q)).
  Proof.
    intros HF Hser Hd. split; [by unfold ser_arc; rewrite Hd; simpl; rewrite Hser|]. intros Hw. unfold de_arc_bytes.
    destruct (f_bytes F w) as [e|] eqn:He; [|done]. by destruct (HF _ _ _ Hw He) as [l' ->].
  Qed.

  Lemma bytes_round_trip (of_slice : nat -> list N -> V) (conv : Q -> V) (ser : V -> dval) ty ls1 ls2 st1 st2 p l w :
    bounded E (ls1 ++ ls2) -> run (step E) init ls1 = Some st1 -> run (step E) st1 ls2 = Some st2 ->
    alive E st1 p -> alive E st2 p -> writes_seqs_like_bytes F -> (forall l', ser (of_slice ty l') = ser_u8s l') ->
    data st1 p = Some (of_slice ty l) ->
    ser_arc ser st1 p = Some (DSeq (DU8 <$> l)) /\
    (f_enc F (DSeq (DU8 <$> l)) = Some w ->
     exists c, de_arc_bytes F ty w = Some c /\ ctor_content of_slice conv c = of_slice ty l /\
       forall t p', EvNew t (snd (call of_slice conv c)) p' ∈ st_log st2 -> alive E st2 p' -> handle_eqb p p' = true).
  Proof.
    intros HB H1 H2 A1 A2 [HF1 HF2] Hser Hd. split; [by unfold ser_arc; rewrite Hd; simpl; rewrite Hser|]. intros Hw.
    rewrite HF1 in Hw.
    destruct (HF2 _ _ Hw) as (e & He & Ht). destruct (visit_octets _ _ Ht) as (c & Hc & Hs).
    exists (CVisit ty c). unfold de_arc_bytes. rewrite He, Hc. split_and!; [done|by destruct c; simpl in *; subst|].
    intros t p' Hev A'. simpl in Hev. rewrite from_source_val, Hs in Hev.
    eapply (call_gives_same ls1 ls2 st1 st2 p _ t _ p'); eauto. apply HL.
  Qed.
End arc.

(** Whatever the format: deserialising succeeds iff the format hands over bytes. *)
Lemma bytes_iff {V Q W} (F : format W) ty w :
  is_Some (de_arc_bytes F ty w : option (ctor V N Q)) <-> exists e s, f_bytes F w = Some e /\ octets e = Some s.
Proof.
  unfold de_arc_bytes. destruct (f_bytes F w) as [e|]; [|split; [by intros [? [=]]|by intros (? & ? & [=] & _)]].
  destruct (octets e) as [s|] eqn:He.
  - destruct (visit_octets _ _ He) as (c & -> & _). split; eauto.
  - rewrite (no_octets _ He). split; [by intros [? [=]]|]. intros (? & ? & [= <-] & ?). congruence.
Qed.

(** What is read, from any format. *)
Lemma no_text e : text e = None -> str_visitor e = None.
Proof. by destruct e. Qed.
Lemma str_reads {V Q W} (F : format W) (of_slice : nat -> list N -> V) (conv : Q -> V) ty w :
  match f_str F w ≫= text with
  | Some s => exists c, de_arc_str F ty w = Some c /\ ctor_content of_slice conv c = of_slice ty s
  | None => de_arc_str F ty w = None (A := ctor V N Q)
  end.
Proof.
  unfold de_arc_str. destruct (f_str F w) as [e|]; [|done]. cbn [mbind option_bind]. destruct (text e) as [s|] eqn:He.
  - destruct (visit_text _ _ He) as (c&->&Hs). exists (CVisit ty c). split; [done|]. by destruct c; simpl in *; subst.
  - by rewrite (no_text _ He).
Qed.
Lemma bytes_read {V Q W} (F : format W) (of_slice : nat -> list N -> V) (conv : Q -> V) ty w :
  match f_bytes F w ≫= octets with
  | Some s => exists c, de_arc_bytes F ty w = Some c /\ ctor_content of_slice conv c = of_slice ty s
  | None => de_arc_bytes F ty w = None (A := ctor V N Q)
  end.
Proof.
  unfold de_arc_bytes. destruct (f_bytes F w) as [e|]; [|done]. cbn [mbind option_bind]. destruct (octets e) as [s|] eqn:He.
  - destruct (visit_octets _ _ He) as (c&->&Hs). exists (CVisit ty c). split; [done|]. by destruct c; simpl in *; subst.
  - by rewrite (no_octets _ He).
Qed.

Section intern.
  Context {V Q W : Type} (E : ienv V Q) (F : format W).
  Lemma intern_round_trip (ser : V -> dval) (de : W -> option V) ls1 ls2 st1 st2 t1 o1 p1 m w :
    ilawful E -> icoherent E -> no_clear (ls1 ++ ls2) ->
    run (istep E) iinit ls1 = Some st1 -> run (istep E) st1 ls2 = Some st2 ->
    round_trips F (λ u v, ie_ty E u = ie_ty E v /\ ie_eq E u v = true) ser de ->
    EvRet t1 o1 (RPtr p1) ∈ i_log st1 -> ser_intern ser st1 p1 = Some m -> f_enc F m = Some w ->
    exists o, de_intern de w = Some o /\ forall t p, EvRet t o (RPtr p) ∈ i_log st2 -> p = p1.
  Proof.
    intros HL HC Hn H1 H2 HR Hr1 Hs Hw. unfold ser_intern in Hs. apply fmap_Some in Hs as (d & Hd & ->).
    destruct (HR _ _ Hw) as (v & Hv & Ht & He). exists (ONew v). unfold de_intern. rewrite Hv. split; [done|].
    intros t p Hr. assert (run (istep E) iinit (ls1 ++ ls2) = Some st2) as H12 by (by rewrite run_app, H1).
    destruct (run_log E _ _ _ (reach_inv E _ _ H1) H2) as [l Hl].
    destruct (handle_valid E ls1 ls2 st1 st2 t1 o1 p1 H1 Hr1 H2) as (d' & _ & _ & Hd1 & Hd2 & _).
    unfold iread in Hd. rewrite Hd1 in Hd. injection Hd as ->.
    apply (same_class E _ st2 t1 o1 p1 t (ONew v) p d HL HC Hn H12); [|done|unfold iread; by rewrite Hd2|done].
    rewrite Hl. apply elem_of_app. by right.
  Qed.

  (** NewIntern *)
  Lemma new_round_trip (ser : V -> dval) (de : W -> option V) ls1 ls2 s1 s2 t1 o1 p1 m w :
    ilawful E -> icoherent E -> zst_eq E -> no_clear (ls1 ++ ls2) ->
    run (nstep E) ninit ls1 = Some s1 -> run (nstep E) s1 ls2 = Some s2 ->
    round_trips F (λ u v, ie_ty E u = ie_ty E v /\ ie_eq E u v = true) ser de ->
    EvRet t1 o1 (RPtr p1) ∈ n_log s1 -> ser_intern ser (nmem s1) p1 = Some m -> f_enc F m = Some w ->
    exists o, de_intern de w = Some o /\ forall t p, EvRet t o (RPtr p) ∈ n_log s2 -> iptr_eqb p1 p = true.
  Proof.
    intros HL HC HZ Hn H1 H2 HR Hr1 Hs Hw. unfold ser_intern in Hs. apply fmap_Some in Hs as (d & Hd & ->).
    destruct (HR _ _ Hw) as (v & Hv & Ht & He). exists (ONew v). unfold de_intern. rewrite Hv. split; [done|].
    intros t p Hr. assert (run (nstep E) ninit (ls1 ++ ls2) = Some s2) as H12 by (by rewrite run_app, H1).
    destruct (run_log_n E _ _ _ (nreach_inv E _ _ H1) H2) as [l Hl].
    destruct (n_handle_valid E ls1 ls2 s1 s2 t1 o1 p1 H1 Hr1 H2) as (d' & Hty & _ & Hd1 & Hd2 & _).
    unfold iread in Hd. change (i_objs (nmem s1)) with (n_objs s1) in Hd. rewrite Hd1 in Hd. injection Hd as ->.
    destruct (n_result E _ s2 t (ONew v) p HL HC H12 Hr) as (d2 & Hr2 & _ & Ha).
    rewrite (n_unique E _ s2 t1 o1 p1 t (ONew v) p d d2 HL HC HZ Hn H12); try done.
    - eapply il_trans; [done|done|]. by apply il_sym.
    - rewrite Hl. apply elem_of_app. by right.
    - simpl. congruence.
    - unfold iread. change (i_objs (nmem s2)) with (n_objs s2). by rewrite Hd2.
  Qed.
End intern.

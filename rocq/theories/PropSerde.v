(** Serde: properties C45, C46.  Statements only; vocabulary in SerdeSpec.v, the formats of
    the examples in SerdeEx.v. *)
From stdpp Require Import gmap list numbers.
From Verif Require Import Base ArcModel ArcSpec ArcCtorModel ArcCtorSpec ArcEx ArcFinal
  InternModel InternSpec InternFinal InternEx NewModel NewSpec NewEx SerdeModel SerdeSpec SerdeFinal SerdeEx.

(** C45.  [w] is what a live handle serialises to at some moment; whoever deserialises it, then
    or later while the handle lives, gets an == handle. *)
Theorem C45_arc_round_trip {V Q W : Type} (E : tyenv V) (F : format W) (ser : V -> dval) (de : W -> option V)
    (of_slice : nat -> list N -> V) (conv : Q -> V) ls1 ls2 st1 st2 p m w :
  lawful E -> wide E -> bounded E (ls1 ++ ls2) ->
  run (step E) init ls1 = Some st1 -> run (step E) st1 ls2 = Some st2 -> alive E st1 p -> alive E st2 p ->
  round_trips F (λ u v, te_eq E u v = true) ser de ->
  ser_arc ser st1 p = Some m -> f_enc F m = Some w ->
  exists c, de_arc de w = Some c /\
    forall t p', EvNew t (snd (call of_slice conv c)) p' ∈ st_log st2 -> alive E st2 p' -> handle_eqb p p' = true.
Proof. exact (λ HL HW, arc_round_trip E HL HW F ser de of_slice conv ls1 ls2 st1 st2 p m w). Qed.
Print Assumptions C45_arc_round_trip.
(** A leaf with number 5 is interned (as 4), written and read back as 4; the parent, which
    owns a handle, likewise. *)
Definition ex_read (v : node) (t : nat) : list (label node) := LNew t KSized v :: steps t 0 6.
Example C45_arc_example :
  let st1 := after exE ex_ls in
  let ls2 := ex_read (Node 0 4 []) 3 ++ [LClone exA []] ++ ex_read (Node 1 6 [exA]) 2 in
  round_trips tree (λ u v, te_eq exE u v = true) node_ser node_de /\
  bounded exE (ex_ls ++ ls2) /\ alive exE st1 exA /\ alive exE st1 exB /\
  de_arc (Q := nat) node_de <$> ser_arc node_ser st1 exA = Some (Some (CDeserializeT (Node 0 4 []))) /\
  de_arc (Q := nat) node_de <$> ser_arc node_ser st1 exB = Some (Some (CDeserializeT (Node 1 6 [exA]))) /\
  take 2 ∘ st_log <$> run (step exE) st1 ls2 = Some [EvNew 2 (Node 1 6 [exA]) exB; EvNew 3 (Node 0 4 []) exA].
Proof.
  split_and!; [apply node_round_trips|by apply ex_bounded|by apply alive_b; vm_compute|by apply alive_b; vm_compute
    |by vm_compute..].
Qed.

Theorem C45_str_round_trip {V Q W : Type} (E : tyenv V) (F : format W) (of_slice : nat -> list N -> V) (conv : Q -> V)
    (ser : V -> dval) ty ls1 ls2 st1 st2 p s w :
  lawful E -> wide E -> bounded E (ls1 ++ ls2) ->
  run (step E) init ls1 = Some st1 -> run (step E) st1 ls2 = Some st2 -> alive E st1 p -> alive E st2 p ->
  keeps_strings F -> (forall s', ser (of_slice ty s') = ser_str s') -> data st1 p = Some (of_slice ty s) ->
  ser_arc ser st1 p = Some (DStr s) /\
  (f_enc F (DStr s) = Some w ->
   exists c, de_arc_str F ty w = Some c /\ ctor_content of_slice conv c = of_slice ty s /\
     forall t p', EvNew t (snd (call of_slice conv c)) p' ∈ st_log st2 -> alive E st2 p' -> handle_eqb p p' = true).
Proof. exact (λ HL HW, str_round_trip E HL HW F of_slice conv ser ty ls1 ls2 st1 st2 p s w). Qed.
Print Assumptions C45_str_round_trip.
(** A string of three characters, the second a quotation mark; type number 7. *)
Definition ex_text : list N := [97; 34; 98]%N.
Definition str_ser (v : slc) : dval := ser_str (s_l v).
Definition ex_strs : list (label slc) := LNew 1 KDst (Slc 7 ex_text) :: replicate 6 (LStep 1 10 0).
Definition ex_again : list (label slc) := LNew 2 KDst (Slc 7 ex_text) :: replicate 4 (LStep 2 20 0).
Example C45_str_example :
  lawful slcE /\ keeps_strings json /\ keeps_strings bin /\ (forall s', str_ser (Slc 7 s') = ser_str s') /\
  data (after slcE ex_strs) (Ptr 10 0) = Some (Slc 7 ex_text) /\
  f_enc json (DStr ex_text) = Some [34; 97; 92; 34; 98; 34]%N /\
  de_arc_str (V := slc) (Q := nat) json 7 [34; 97; 92; 34; 98; 34]%N = Some (CVisit 7 (SRef ex_text)) /\
  st_log (after slcE (ex_strs ++ ex_again)) = [EvNew 2 (Slc 7 ex_text) (Ptr 10 0); EvNew 1 (Slc 7 ex_text) (Ptr 10 0)].
Proof.
  split_and!; [apply slcE_lawful|apply json_keeps_strings|apply bin_keeps_strings|done|by vm_compute..].
Qed.

(** From any input of any format: ArcIntern<str> is read iff the format hands over a string, and its contents are that
    string's. *)
Theorem C45_str_reads {V Q W : Type} (F : format W) (of_slice : nat -> list N -> V) (conv : Q -> V) ty w :
  match f_str F w ≫= text with
  | Some s => exists c, de_arc_str F ty w = Some c /\ ctor_content of_slice conv c = of_slice ty s
  | None => de_arc_str F ty w = None (A := ctor V N Q)
  end.
Proof. exact (str_reads F of_slice conv ty w). Qed.
Print Assumptions C45_str_reads.
Example C45_str_reads_example :
  f_str json [34; 97; 92; 34; 98; 34]%N ≫= text = Some ex_text /\
  f_str (Format (W := unit) (λ _, Some tt) (λ _, Some (VBytes ex_text)) (λ _, None)) tt ≫= text = None /\
  f_str (Format (W := unit) (λ _, Some tt) (λ _, Some (VString (ex_text ++ [0%N]) 3)) (λ _, None)) tt ≫= text = Some ex_text.
Proof. split_and!; by vm_compute. Qed.

Theorem C45_intern_round_trip {V Q W : Type} (E : ienv V Q) (F : format W) (ser : V -> dval) (de : W -> option V)
    ls1 ls2 st1 st2 t1 o1 p1 m w :
  ilawful E -> icoherent E -> no_clear (ls1 ++ ls2) ->
  run (istep E) iinit ls1 = Some st1 -> run (istep E) st1 ls2 = Some st2 ->
  round_trips F (λ u v, ie_ty E u = ie_ty E v /\ ie_eq E u v = true) ser de ->
  EvRet t1 o1 (RPtr p1) ∈ i_log st1 -> ser_intern ser st1 p1 = Some m -> f_enc F m = Some w ->
  exists o, de_intern de w = Some o /\ forall t p, EvRet t o (RPtr p) ∈ i_log st2 -> p = p1.
Proof. exact (intern_round_trip E F ser de ls1 ls2 st1 st2 t1 o1 p1 m w). Qed.
Print Assumptions C45_intern_round_trip.
Example C45_intern_example :
  let st1 := iafter toyE ex_all in
  round_trips tree (λ u v, ie_ty toyE u = ie_ty toyE v /\ ie_eq toyE u v = true) ival_ser ival_de /\
  EvRet 3 (OVia (IV 2 9 3)) (RPtr pB) ∈ i_log st1 /\
  de_intern (Q := nat * nat) ival_de <$> ser_intern ival_ser st1 pB = Some (Some (ONew (IV 2 8 3))) /\
  head ∘ i_log <$> run (istep toyE) st1 (icall 3 0 (ONew (IV 2 8 3)) 4) = Some (Some (EvRet 3 (ONew (IV 2 8 3)) (RPtr pB))).
Proof. split_and!; [apply ival_round_trips|apply elem_of_list_In; vm_compute; tauto|by vm_compute..]. Qed.

(** NewIntern *)
Theorem C45_new_intern_round_trip {V Q W : Type} (E : ienv V Q) (F : format W) (ser : V -> dval) (de : W -> option V)
    ls1 ls2 s1 s2 t1 o1 p1 m w :
  ilawful E -> icoherent E -> zst_eq E -> no_clear (ls1 ++ ls2) ->
  run (nstep E) ninit ls1 = Some s1 -> run (nstep E) s1 ls2 = Some s2 ->
  round_trips F (λ u v, ie_ty E u = ie_ty E v /\ ie_eq E u v = true) ser de ->
  EvRet t1 o1 (RPtr p1) ∈ n_log s1 -> ser_intern ser (nmem s1) p1 = Some m -> f_enc F m = Some w ->
  exists o, de_intern de w = Some o /\ forall t p, EvRet t o (RPtr p) ∈ n_log s2 -> iptr_eqb p1 p = true.
Proof. exact (new_round_trip E F ser de ls1 ls2 s1 s2 t1 o1 p1 m w). Qed.
Print Assumptions C45_new_intern_round_trip.
Example C45_new_intern_example :
  let ls := ICall 1 (ONew (IV 2 9 3)) 0 :: nsteps 1 300 12 in
  let ls' := ICall 2 (ONew (IV 2 8 3)) 0 :: nsteps 2 400 12 in
  head (n_log (nafter toyE ls)) = Some (EvRet 1 (ONew (IV 2 9 3)) (RPtr (IPtr 300 3 0))) /\
  de_intern (Q := nat * nat) ival_de <$> ser_intern ival_ser (nmem (nafter toyE ls)) (IPtr 300 3 0) =
    Some (Some (ONew (IV 2 8 3))) /\
  head (n_log (nafter toyE (ls ++ ls'))) = Some (EvRet 2 (ONew (IV 2 8 3)) (RPtr (IPtr 300 3 0))).
Proof. split_and!; by vm_compute. Qed.

(** C46.  Every slice is written as a sequence, and reading that fails... *)
Theorem C46_bytes_fail {V Q W : Type} (F : format W) (ser : V -> dval) (of_slice : nat -> list N -> V) ty st p l w :
  tells_seqs_from_bytes F -> (forall l', ser (of_slice ty l') = ser_u8s l') -> data st p = Some (of_slice ty l) ->
  ser_arc ser st p = Some (DSeq (DU8 <$> l)) /\
  (f_enc F (DSeq (DU8 <$> l)) = Some w -> de_arc_bytes F ty w = None (A := ctor V N Q)).
Proof. exact (bytes_fail F ser of_slice ty st p l w). Qed.
Print Assumptions C46_bytes_fail.
Definition u8s_ser (v : slc) : dval := ser_u8s (s_l v).
Example C46_fail_example :
  tells_seqs_from_bytes json /\ tells_seqs_from_bytes tree /\
  data (after slcE ex_strs) (Ptr 10 0) = Some (Slc 7 ex_text) /\
  f_enc json (ser_u8s ex_text) = Some [91; 48; 57; 55; 44; 48; 51; 52; 44; 48; 57; 56; 44; 93]%N.
Proof. split_and!; [apply json_tells|apply tree_tells|by vm_compute..]. Qed.
(** ... except in formats that write sequences of octets like bytes. *)
Theorem C46_bytes_round_trip {V Q W : Type} (E : tyenv V) (F : format W) (of_slice : nat -> list N -> V) (conv : Q -> V)
    (ser : V -> dval) ty ls1 ls2 st1 st2 p l w :
  lawful E -> wide E -> bounded E (ls1 ++ ls2) ->
  run (step E) init ls1 = Some st1 -> run (step E) st1 ls2 = Some st2 -> alive E st1 p -> alive E st2 p ->
  writes_seqs_like_bytes F -> (forall l', ser (of_slice ty l') = ser_u8s l') -> data st1 p = Some (of_slice ty l) ->
  ser_arc ser st1 p = Some (DSeq (DU8 <$> l)) /\
  (f_enc F (DSeq (DU8 <$> l)) = Some w ->
   exists c, de_arc_bytes F ty w = Some c /\ ctor_content of_slice conv c = of_slice ty l /\
     forall t p', EvNew t (snd (call of_slice conv c)) p' ∈ st_log st2 -> alive E st2 p' -> handle_eqb p p' = true).
Proof. exact (λ HL HW, bytes_round_trip E HL HW F of_slice conv ser ty ls1 ls2 st1 st2 p l w). Qed.
Print Assumptions C46_bytes_round_trip.
(** Which formats are which: reading succeeds iff the format hands over bytes. *)
Theorem C46_succeeds_iff {V Q W : Type} (F : format W) ty w :
  is_Some (de_arc_bytes F ty w : option (ctor V N Q)) <-> exists e s, f_bytes F w = Some e /\ octets e = Some s.
Proof. exact (bytes_iff F ty w). Qed.
Print Assumptions C46_succeeds_iff.
(** ... and these bytes are what is read. *)
Theorem C46_bytes_read {V Q W : Type} (F : format W) (of_slice : nat -> list N -> V) (conv : Q -> V) ty w :
  match f_bytes F w ≫= octets with
  | Some s => exists c, de_arc_bytes F ty w = Some c /\ ctor_content of_slice conv c = of_slice ty s
  | None => de_arc_bytes F ty w = None (A := ctor V N Q)
  end.
Proof. exact (bytes_read F of_slice conv ty w). Qed.
Print Assumptions C46_bytes_read.
Example C46_bytes_read_example :
  f_bytes bin [3; 0; 0; 0; 0; 0; 0; 0; 97; 34; 98]%N ≫= octets = Some ex_text /\
  f_bytes json [91; 48; 57; 55; 44; 48; 51; 52; 44; 48; 57; 56; 44; 93]%N ≫= octets = None.
Proof. split_and!; by vm_compute. Qed.
Example C46_round_trip_example :
  writes_seqs_like_bytes bin /\
  f_enc bin (ser_u8s ex_text) = Some [3; 0; 0; 0; 0; 0; 0; 0; 97; 34; 98]%N /\
  de_arc_bytes (V := slc) (Q := nat) bin 7 [3; 0; 0; 0; 0; 0; 0; 0; 97; 34; 98]%N = Some (CVisit 7 (SVec (ex_text ++ [0%N]) 3)).
Proof. split_and!; [apply bin_alike|by vm_compute..]. Qed.

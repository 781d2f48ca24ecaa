(** Property C56: Arena is linearizable (src/arena.rs 51-427).  The atomic arenas and what is
    visible of an execution: ArenaAtom.v. *)
From stdpp Require Import gmap list numbers.
From Verif Require Import Base InternModel InternSpec InternEx ArenaModel ArenaSpec ArenaEx ArenaAtom ArenaLin.

(** ** C56.  Whatever the threads and the user code called by them do, the calls, returns with
    their results, panics, reads and drops the clients see are those of an execution of the
    atomic arenas, in the same order; in the end the two have the same arenas with the same
    values. *)
Theorem C56_arena_linearizable {V Q : Type} (E : ienv V Q) ls st :
  ilawful E -> icoherent E -> zst_eq E -> run (astep E) ainit ls = Some st ->
  exists ys a, vatoms E vinit ys a /\ vshown ys = vsights E ainit ls /\
    (forall r, vtype a r = ar_ty <$> a_arenas st !! r) /\
    (forall r p, p ∈ a_set st r <-> exists v, (p, v) ∈ vals a r) /\
    (forall r p v, (p, v) ∈ vals a r -> a_read st p = Some v).
Proof. exact (λ HL HC HZ, arena_linearizable E HL HC HZ ls st). Qed.
Print Assumptions C56_arena_linearizable.

(** Thread 1 asks for 8; its conversion interns a value in another arena.  Thread 2 passes a box
    with 9, which is Eq to 8, waits, finds 8, and then the Drop of its box panics.  It drops
    arena 0; the Drop of 8 makes a call on arena 1.  The drop of arena 1 panics. *)
Definition ex_lin : list (alabel ival (nat * nat)) :=
  [LArena 1 0; LArena 2 1; LCall 1 0 (ARef 0 (8, 0)) 0] ++ steps 1 0 2 ++
  [LCall 1 1 (ANew (IV 1 3 0)) 0; LCall 2 0 (ABox (IV 0 9 0)) 700] ++ steps 2 0 1 ++ steps 1 300 7 ++
  [LConv 1 (IV 0 8 0)] ++ steps 1 500 5 ++ steps 2 0 3 ++ [LPanic 2] ++ steps 2 0 1 ++ [LRead 0 (IPtr 500 0 2); LDrop 2 0;
   LCall 2 1 (AOwned (IV 1 3 0)) 800] ++ steps 2 0 4 ++ steps 2 0 2 ++ [LDrop 1 1; LPanic 1].
Example C56_example :
  ilawful toyE /\ icoherent toyE /\ zst_eq toyE /\ run (astep toyE) ainit ex_lin = Some (aafter toyE ex_lin) /\
  vsights toyE ainit ex_lin =
    [VNew 0 0; VNew 1 1; VCall 1 0 (ARef 0 (8, 0)); VCall 1 1 (ANew (IV 1 3 0)); VCall 2 0 (ABox (IV 0 9 0));
     VRet 1 1 (ANew (IV 1 3 0)) (AP (IPtr 300 0 1)); VRet 1 0 (ARef 0 (8, 0)) (AP (IPtr 500 0 2));
     VRet 2 0 (ABox (IV 0 9 0)) APanic; VRead 0 (IPtr 500 0 2) (IV 0 8 0);
     VDrop 2 0; VCall 2 1 (AOwned (IV 1 3 0)); VRet 2 1 (AOwned (IV 1 3 0)) (AP (IPtr 300 0 1));
     VFree 2 0 (IPtr 500 0 2); VGone 2 0; VDrop 1 1; VFree 1 1 (IPtr 300 0 1); VLeak 1 1].
Proof.
  split_and!; [apply toyE_lawful|apply toyE_coherent|apply toyE_zst_eq|by apply aafter_run; vm_compute|by vm_compute].
Qed.
(** Two arenas, which both have 30. *)
Example C56_example_alive :
  run (astep toyE) ainit ex_arena = Some (aafter toyE ex_arena) /\
  a_set (aafter toyE ex_arena) 0 = [IPtr 102 0 3; IPtr 101 0 2; IPtr 100 0 1] /\ a_set (aafter toyE ex_arena) 1 = [IPtr 103 0 4].
Proof. split_and!; [by apply aafter_run; vm_compute|by vm_compute..]. Qed.

(** In the atomic arenas a call that returns takes effect exactly once, between its call and its
    return, after all calls and drops made by the user code it runs; a call that panics has no
    effect. *)
Theorem C56_one_effect {V Q : Type} (E : ienv V Q) ys t r o x a :
  vatoms E vinit (ys ++ [VRet t r o x]) a ->
  exists ys1 ys2, ys = ys1 ++ VCall t r o :: ys2 /\
    ((x = APanic /\ vcomplete t None ys2) \/
     exists p ys3 e ys4, x = AP p /\ ys2 = ys3 ++ e :: ys4 /\ vcomplete t None ys3 /\
       veffect e = Some (t, p) /\ not_of t ys4).
Proof. exact (arena_one_effect E ys t r o x a). Qed.
Print Assumptions C56_one_effect.
(** Two arenas; the user code in a call on the first one makes a call on the second one; the
    first one is dropped. *)
Definition two : list (vaction ival (nat * nat)) :=
  [VNew 0 0; VNew 1 1; VCall 1 0 (ARef 0 (8, 0)); VCall 1 1 (ANew (IV 1 3 0)); VMiss 1 (IPtr 300 0 0) (IV 1 3 0);
   VRet 1 1 (ANew (IV 1 3 0)) (AP (IPtr 300 0 0)); VMiss 1 (IPtr 500 0 1) (IV 0 8 0)].
Definition two_ret := two ++ [VRet 1 0 (ARef 0 (8, 0)) (AP (IPtr 500 0 1))].
Lemma vals_else (a : vstate ival (nat * nat)) r c : v_sets a !! r = None -> ~ c ∈ vals a r.
Proof. intros Ha Hc. unfold vals in Hc. rewrite Ha in Hc. by apply elem_of_nil in Hc. Qed.
Example C56_two : exists a, vatoms toyE vinit two_ret a /\ vals a 0 = [(IPtr 500 0 1, IV 0 8 0)] /\
  vals a 1 = [(IPtr 300 0 0, IV 1 3 0)] /\ acts a 1 = [] /\ acts a 2 = [].
Proof.
  eexists. split.
  - unfold two_ret, two. simpl. eapply vas_cons. { apply (va_new toyE vinit 0). }
    eapply vas_cons. { exact (va_new toyE (VState _ 1 _) 1). }
    eapply vas_cons. { apply (va_call toyE _ 1 0); [by eexists|done]. }
    eapply vas_cons. { apply (va_call toyE _ 1 1); [by eexists|done]. }
    eapply vas_cons.
    { eapply (va_miss toyE _ 1 1 (ANew (IV 1 3 0)) _ _ _ 1 []); try done; [intros q d Hq; by apply elem_of_nil in Hq|].
      intros [|[|r']] q d Hq; [by vm_compute in Hq; apply elem_of_nil in Hq..|apply vals_else in Hq; [done|]; simpl; by rewrite !lookup_insert_ne, lookup_empty by done]. }
    eapply vas_cons. { by eapply (va_ret toyE _ 1). }
    eapply vas_cons.
    { eapply (va_miss toyE _ 1 0 (ARef 0 (8, 0)) _ _ (IV 0 8 0) 0 []); try done; [intros q d Hq; by apply elem_of_nil in Hq|].
      intros [|[|r']] q d Hq; [vm_compute in Hq..|apply vals_else in Hq; [done|]; simpl; by rewrite !lookup_insert_ne, lookup_empty by done];
        first [by apply elem_of_nil in Hq|by apply elem_of_list_singleton in Hq as [= -> ->]]. }
    eapply vas_cons. { by eapply (va_ret toyE _ 1). }
    apply vas_nil.
  - by vm_compute.
Qed.
Theorem C56_all_complete {V Q : Type} (E : ienv V Q) ys t a :
  vatoms E vinit ys a -> acts a t = [] -> vcomplete t None ys.
Proof. exact (arena_all_complete E ys t a). Qed.
Print Assumptions C56_all_complete.

(** A drop of an arena that finishes drops each of its values, once; one that panics some of
    them, each once. *)
Theorem C56_drop_frees_all {V Q : Type} (E : ienv V Q) ys t r a :
  vatoms E vinit (ys ++ [VGone t r]) a ->
  exists ys1 ys2 a1, ys = ys1 ++ VDrop t r :: ys2 /\ vatoms E vinit ys1 a1 /\ is_Some (v_sets a1 !! r) /\
    freed_in r ys2 ≡ₚ (vals a1 r).*1.
Proof. exact (arena_drop_frees E ys t r a). Qed.
Print Assumptions C56_drop_frees_all.
Theorem C56_panicking_drop_frees {V Q : Type} (E : ienv V Q) ys t r a :
  vatoms E vinit (ys ++ [VLeak t r]) a ->
  exists ys1 ys2 a1 l, ys = ys1 ++ VDrop t r :: ys2 /\ vatoms E vinit ys1 a1 /\ is_Some (v_sets a1 !! r) /\
    freed_in r ys2 ++ l ≡ₚ (vals a1 r).*1.
Proof. exact (arena_leak_frees E ys t r a). Qed.
Print Assumptions C56_panicking_drop_frees.
Example C56_drop_example : exists a a',
  vatoms toyE vinit (two_ret ++ [VDrop 2 0; VFree 2 0 (IPtr 500 0 1); VGone 2 0]) a /\
  vatoms toyE vinit (two_ret ++ [VDrop 2 0; VLeak 2 0]) a'.
Proof.
  destruct C56_two as (a&Ha&H0&H1&H2&H3).
  assert (exists x, v_sets a !! 0 = Some x /\ x.2 = [(IPtr 500 0 1, IV 0 8 0)]) as (x&Hx&Hx2).
  { unfold vals in H0. destruct (v_sets a !! 0) as [x|]; [by exists x|done]. }
  assert (vatom toyE a (VDrop 2 0) (put_acts (VState (delete 0 (v_sets a)) (v_next a) (v_acts a)) 2 (CDrop 0 x.2 :: acts a 2))) as Hd.
  { apply (va_drop toyE a 2 0 x); [done|by rewrite H3|]. intros u c Hc Hon. destruct (decide (u = 1)) as [->|Hu].
    - rewrite H2 in Hc. by apply elem_of_nil in Hc.
    - pose proof (sim_others toyE two_ret a u Ha) as Hn. rewrite Hn in Hc; [by apply elem_of_nil in Hc|].
      repeat (constructor; [intros [=]; congruence|]). constructor. }
  rewrite Hx2, H3 in Hd. eexists _, _. split.
  - eapply vatoms_app; [done|]. eapply vas_cons; [done|].
    eapply vas_cons; [apply (va_free toyE _ 2 0 [] _ (IV 0 8 0) [] []); by rewrite acts_put|].
    eapply vas_cons; [apply (va_gone toyE _ 2 0 []); by rewrite acts_put|]. apply vas_nil.
  - eapply vatoms_app; [done|]. eapply vas_cons; [done|].
    eapply vas_cons; [eapply (va_leak toyE _ 2 0); by rewrite acts_put|]. apply vas_nil.
Qed.

(** Within an arena, Eq values are one value with one handle, and so are those with Eq handles;
    no value is there twice. *)
Theorem C56_atomic_unique {V Q : Type} (E : ienv V Q) ys a r p q u v :
  ilawful E -> vatoms E vinit ys a -> (p, u) ∈ vals a r -> (q, v) ∈ vals a r ->
  ie_eq E u v = true \/ iptr_eqb p q = true -> p = q /\ u = v.
Proof. exact (arena_atomic_unique E ys a r p q u v). Qed.
Print Assumptions C56_atomic_unique.
Theorem C56_atomic_no_duplicates {V Q : Type} (E : ienv V Q) ys a r :
  ilawful E -> vatoms E vinit ys a -> NoDup (vals a r).*1.
Proof. exact (arena_atomic_nodup E ys a r). Qed.
Print Assumptions C56_atomic_no_duplicates.
(** Eq handles of different arenas (of zero-sized values) have Eq values. *)
Theorem C56_atomic_apart {V Q : Type} (E : ienv V Q) ys a r1 r2 p q u v :
  ilawful E -> vatoms E vinit ys a -> (p, u) ∈ vals a r1 -> (q, v) ∈ vals a r2 -> ie_ty E u = ie_ty E v ->
  iptr_eqb p q = true -> ie_eq E u v = true.
Proof. exact (arena_atomic_apart E ys a r1 r2 p q u v). Qed.
Print Assumptions C56_atomic_apart.
(** The empty slice in two arenas. *)
Example C56_apart_example : ilawful toyE /\ exists a,
  vatoms toyE vinit [VNew 0 2; VNew 1 2; VCall 1 0 (ANew (IV 2 1 0)); VMiss 1 (IPtr 16 0 0) (IV 2 1 0);
    VCall 2 1 (ANew (IV 2 5 0)); VMiss 2 (IPtr 16 0 1) (IV 2 5 0)] a /\
  vals a 0 = [(IPtr 16 0 0, IV 2 1 0)] /\ vals a 1 = [(IPtr 16 0 1, IV 2 5 0)] /\
  ie_ty toyE (IV 2 1 0) = ie_ty toyE (IV 2 5 0) /\ iptr_eqb (IPtr 16 0 0) (IPtr 16 0 1) = true.
Proof.
  split; [apply toyE_lawful|]. eexists. split.
  - eapply vas_cons. { apply (va_new toyE vinit 2). }
    eapply vas_cons. { exact (va_new toyE (VState _ 1 _) 2). }
    eapply vas_cons. { apply (va_call toyE _ 1 0); [by eexists|done]. }
    eapply vas_cons.
    { eapply (va_miss toyE _ 1 0 (ANew (IV 2 1 0)) _ _ _ 2 []); try done; [intros q d Hq; by apply elem_of_nil in Hq|].
      intros [|[|r']] q d Hq; [by vm_compute in Hq; apply elem_of_nil in Hq..|apply vals_else in Hq; [done|]; simpl; by rewrite !lookup_insert_ne, lookup_empty by done]. }
    eapply vas_cons. { apply (va_call toyE _ 2 1); [by eexists|done]. }
    eapply vas_cons.
    { eapply (va_miss toyE _ 2 1 (ANew (IV 2 5 0)) _ _ _ 2 []); try done; [intros q d Hq; by apply elem_of_nil in Hq|].
      intros [|[|r']] q d Hq; [vm_compute in Hq..|apply vals_else in Hq; [done|]; simpl; by rewrite !lookup_insert_ne, lookup_empty by done];
        first [by apply elem_of_nil in Hq|by apply elem_of_list_singleton in Hq as [= -> ->]]. }
    apply vas_nil.
  - by vm_compute.
Qed.

(** A call, or a drop of an arena, panics only when user code running in it panics: in each thread
    there are at most as many of the former as of the latter. *)
Theorem C56_panics_from_user_code {V Q : Type} (E : ienv V Q) ls st t :
  run (astep E) ainit ls = Some st ->
  vpanics t (vsights E ainit ls) <= length (List.filter (λ l, match l with LPanic u => u =? t | _ => false end) ls).
Proof. exact (arena_panics_from_user E ls st t). Qed.
Print Assumptions C56_panics_from_user_code.
Example C56_panics_example :
  run (astep toyE) ainit ex_lin = Some (aafter toyE ex_lin) /\
  vpanics 2 (vsights toyE ainit ex_lin) = 1 /\ vpanics 1 (vsights toyE ainit ex_lin) = 1.
Proof. split; [by apply aafter_run; vm_compute|by vm_compute]. Qed.

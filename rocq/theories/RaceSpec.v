(** Vocabulary of the data race property: the memory operations an execution performs, in
    order, happens-before on them as the C++20/Rust memory model defines it, and data races. *)
From stdpp Require Import gmap list numbers.
From Verif Require Import Base ArcModel ArcSpec RaceModel.

(** The objects an operation touches, and how. *)
Definition touched (m : mop) : list (nat * how) :=
  match m with
  | MTouch l => l
  | MRmw k _ | MLoad k _ => [(k, TAtomic)]
  | _ => []
  end.

(** The first operation synchronises with the second, if it comes first: unlock with a later
    lock, a releasing write of a count with a later acquiring read of it, and the clients' own
    releases with acquires.  All writes of a count after its creation are read-modify-writes,
    so a read of the latest value reads from the release sequences of all earlier ones.  (The
    load of [refcount()] may also read an older value, and then synchronise with fewer of them:
    no more than that happens with [o_load] = [Relaxed].) *)
Definition syncs (m m' : mop) : Prop :=
  match m, m' with
  | MRel l, MAcq l' => l = l'
  | MRmw k o, MRmw k' o' | MRmw k o, MLoad k' o' => k = k' /\ releases o = true /\ acquires o' = true
  | MSend x, MRecv x' => x = x'
  | _, _ => False
  end.

(** Events: which thread does what; [evs] lists them in the order in which they happen.
    Happens-before: the transitive closure of program order and synchronises-with. *)
Notation event := (nat * mop)%type.
Inductive hb (evs : list event) : nat -> nat -> Prop :=
| hb_edge i j e f : i < j -> evs !! i = Some e -> evs !! j = Some f ->
    e.1 = f.1 \/ syncs e.2 f.2 -> hb evs i j
| hb_trans i j k : hb evs i j -> hb evs j k -> hb evs i k.

(** Two operations conflict: they touch the same object and one of them creates or destroys
    it (reads of the data, and atomic accesses of the count, do not conflict with one
    another). *)
Definition conflict (m m' : mop) : Prop :=
  exists k w w', (k, w) ∈ touched m /\ (k, w') ∈ touched m' /\ (w = TWrite \/ w' = TWrite).

(** There is a data race: conflicting operations not ordered by happens-before. *)
Definition data_race (evs : list event) : Prop :=
  exists i j e f, i < j /\ evs !! i = Some e /\ evs !! j = Some f /\
    conflict e.2 f.2 /\ ~ hb evs i j.
Definition race_free (evs : list event) : Prop :=
  forall i j e f, i < j -> evs !! i = Some e -> evs !! j = Some f ->
    conflict e.2 f.2 -> hb evs i j.

Section spec.
  Context {V : Type} (E : tyenv V) (O : orders).
  Implicit Types (s : rstate V) (l : rlabel V).

  (** The operations of one step of RaceModel. *)
  Definition actor l : nat :=
    match l with
    | RNew t _ _ _ | RDrop t _ | RClone t _ _ _ | RForget t _ | RRef t _ _ | RDeref t _ _
    | RLen t _ | RShrink t _ | RStep t _ _ _ | RPanic t | RSend t _ | RRecv t _ => t
    end.
  Definition ops s l : list mop :=
    match l with
    | RClone t h ks h' =>
        match r_hands s !! h with
        | Some x => [MTouch ((λ n, (n, TRead)) <$> path (h_ptr x) ks);
                     MRmw (p_ser (target (h_ptr x) ks)) (o_clone O)]
        | None => []
        end
    | RRef t h ks =>
        match r_hands s !! h with
        | Some x => [MTouch ((λ n, (n, TRead)) <$> path (h_ptr x) ks);
                     MLoad (p_ser (target (h_ptr x) ks)) (o_load O)]
        | None => []
        end
    | RDeref t h ks =>
        match r_hands s !! h with
        | Some x => [MTouch ((λ n, (n, TRead)) <$> path (h_ptr x) ks ++ [p_ser (target (h_ptr x) ks)])]
        | None => []
        end
    | RStep t a i h => mops E O (r_st s) t i
    | RPanic t => panic_mops E (r_st s) t
    | RSend t m => [MSend m]
    | RRecv t m => [MRecv m]
    | _ => []
    end.

  (** The events of the execution that [run] makes of [ls], from [s]. *)
  Fixpoint events_from s (ls : list (rlabel V)) : list event :=
    match ls with
    | [] => []
    | l :: ls' =>
        match rstep E O s l with
        | Next s' => ((λ m, (actor l, m)) <$> ops s l) ++ events_from s' ls'
        | UB => []
        | _ => events_from s ls'
        end
    end.
  Definition events (ls : list (rlabel V)) : list event := events_from rinit ls.

  (** At most 2^W - 1 = usize::MAX handles to any one object ever coexist. *)
  Definition rbounded (ls : list (rlabel V)) : Prop :=
    forall ls1 ls2 s1, ls = ls1 ++ ls2 -> run (rstep E O) rinit ls1 = Some s1 ->
    forall p, (N.of_nat (handles_to E (r_st s1) p) < te_mod E)%N.
End spec.

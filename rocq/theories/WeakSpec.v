(** Vocabulary of C66: the operations of an execution of WeakModel and happens-before on them. *)
From stdpp Require Import gmap list numbers.
From Verif Require Import Base ArcModel ArcSpec RaceModel RaceSpec WeakModel.

(** The operations of RaceModel, and loads of the count of object [k] that return value number
    [w], that is, what the [w]-th read-modify-write of it wrote, or its initial value. *)
Inductive wop := Op (m : mop) | ReadCount (k : nat) (o : ordering) (w : nat).
Notation wevent := (nat * wop)%type.

(** How many of [evs] are read-modify-writes of the count of [k]; event [i] of [evs], if it is one, is
    number [S (rmws k (take i evs))]. *)
Definition is_rmw (k : nat) (e : wevent) : bool :=
  match e.2 with Op (MRmw k' _) => k' =? k | _ => false end.
Definition rmws (k : nat) (evs : list wevent) : nat := length (List.filter (is_rmw k) evs).

(** Event [i], which is [e], synchronises with the later event [f]: as in RaceSpec, and a
    releasing write of a count with the acquiring loads of it that read it or a later one. *)
Definition wsyncs (evs : list wevent) (i : nat) (e f : wevent) : Prop :=
  match e.2, f.2 with
  | Op m, Op m' => syncs m m'
  | Op (MRmw k o), ReadCount k' o' w =>
      k = k' /\ releases o = true /\ acquires o' = true /\ rmws k (take i evs) < w
  | _, _ => False
  end.
Inductive whb (evs : list wevent) : nat -> nat -> Prop :=
| whb_edge i j e f : i < j -> evs !! i = Some e -> evs !! j = Some f ->
    e.1 = f.1 \/ wsyncs evs i e f -> whb evs i j
| whb_trans i j k : whb evs i j -> whb evs j k -> whb evs i k.

(** Event [i] happens before whatever thread [t] does next. *)
Definition wknown (evs : list wevent) (t i : nat) : Prop :=
  exists j e, evs !! j = Some e /\ e.1 = t /\ (i = j \/ whb evs i j).

Definition wtouched (o : wop) : list (nat * how) :=
  match o with Op m => touched m | ReadCount k _ _ => [(k, TAtomic)] end.
Definition wrace_free (evs : list wevent) : Prop :=
  forall i j e f k w w', i < j -> evs !! i = Some e -> evs !! j = Some f ->
    (k, w) ∈ wtouched e.2 -> (k, w') ∈ wtouched f.2 -> w = TWrite \/ w' = TWrite -> whb evs i j.

Section spec.
  Context {V : Type} (E : tyenv V) (O : orders).
  Implicit Types (x : wstate V) (l : wlabel V).

  Definition wactor l : nat := match l with WL l => actor l | WRef t _ _ _ => t end.
  Definition wops x l : list wop :=
    match l with
    | WL l => Op <$> ops E O (w_race x) l
    | WRef t h ks w =>
        match r_hands (w_race x) !! h with
        | Some y => [Op (MTouch ((λ n, (n, TRead)) <$> path (h_ptr y) ks));
                     ReadCount (p_ser (target (h_ptr y) ks)) (o_load O) w]
        | None => []
        end
    end.
  Fixpoint wevents_from x (ls : list (wlabel V)) : list wevent :=
    match ls with
    | [] => []
    | l :: ls' =>
        match wstep E O x l with
        | Next x' => ((λ o, (wactor l, o)) <$> wops x l) ++ wevents_from x' ls'
        | UB => []
        | _ => wevents_from x ls'
        end
    end.
  Definition wevents (ls : list (wlabel V)) : list wevent := wevents_from winit ls.

  (** The number of handles to [p] in a state of WeakModel. *)
  Definition whandles x p : nat := handles_to E (r_st (w_race x)) p.

  (** At most 2^W - 1 = usize::MAX handles to any one object ever coexist. *)
  Definition wbounded (ls : list (wlabel V)) : Prop :=
    forall ls1 ls2 x1, ls = ls1 ++ ls2 -> run (wstep E O) winit ls1 = Some x1 ->
    forall p, (N.of_nat (whandles x1 p) < te_mod E)%N.
End spec.

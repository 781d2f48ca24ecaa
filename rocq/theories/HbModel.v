(** What the threads of an execution of [InternModel] do to memory: accesses, locking, and the
    synchronisation of the clients themselves.  The same for [NewModel] is in HbNewModel.v, for
    [ArenaModel] in HbArenaModel.v. *)
From stdpp Require Import gmap list numbers.
From Verif Require Import Base InternModel HbSpec.

(** One step of an execution: thread [t] takes step [l] of the model; the user code running in
    [t] accesses what it has been given references to (any number of times during a step of
    the model); clients synchronise through an object [m] of their own (a channel, a mutex,
    spawning or joining a thread).
    What is called is intern.rs:151-257; the rest is clients' code, not in /repo. *)
Inductive hlabel (L : Type) :=
| HDo (t : nat) (l : L)
| HLook (t : nat)
| HSend (t m : nat)
| HRecv (t m : nat).
Global Arguments HDo {L}.
Global Arguments HLook {L}.
Global Arguments HSend {L}.
Global Arguments HRecv {L}.

Section instrument.
  (** [by_thread l t]: [l] can be a step of thread [t]; [does]: what the step does, in order;
      [looks]: what the user code that runs in a thread can access. *)
  Context {S L : Type} (step : S -> L -> outcome S) (by_thread : L -> nat -> bool)
    (does : S -> nat -> L -> list act) (looks : S -> nat -> list (mloc * bool)).

  (** A step of the model (here intern.rs:151-257) with what it does to memory. *)
  Definition hstep (s : S * acts) (l : hlabel L) : outcome (S * acts) :=
    match l with
    | HDo t l =>
        if by_thread l t then
          match step s.1 l with
          | Next st => Next (st, s.2 ++ (pair t <$> does s.1 t l))
          | Blocked => Blocked
          | Illegal => Illegal
          | UB => UB
          end
        else Illegal
    | HLook t => Next (s.1, s.2 ++ [(t, ATouch (looks s.1 t))])
    | HSend t m => Next (s.1, s.2 ++ [(t, ARel (SMsg m))])
    | HRecv t m => Next (s.1, s.2 ++ [(t, AAcq (SMsg m))])
    end.
  (** What happened in an execution from [st]. Bookkeeping of the model, no counterpart in /repo. *)
  Definition hevents (st : S) (ls : list (hlabel L)) : acts := default [] (snd <$> run hstep (st, []) ls).
End instrument.

Section intern.
  Context {V Q : Type} (E : ienv V Q).
  Implicit Types (st : istate V Q) (o : iop V Q) (p : iptr).

  (** Bookkeeping of the model, no counterpart in /repo. *)
  Definition i_by (l : ilabel V Q) (t : nat) : bool :=
    match l with ICall u _ _ | IStep u _ _ | IConv u _ | IPanic u => u =? t | IDeref _ => true end.

  (** The mutex of a container and what it protects: the vector and all its sets
      (container.rs:13, 36-41). *)
  Definition i_mutex o : sobj := SLock (slot E (op_ty E o), 0).
  (** container.rs:13, 36-41. *)
  Definition i_data o : mloc := LSet (slot E (op_ty E o), 0).
  (** What the pointer of intern.rs:56 points to. *)
  Definition val (p : iptr) : mloc := LVal (ip_ser p).
  (** Bookkeeping of the model, no counterpart in /repo. *)
  Definition val_opt (b : option iptr) (w : bool) : list (mloc * bool) :=
    match b with Some p => [(val p, w)] | None => [] end.

  (** A search reads the table, the elements (Hash and Eq, boxedset.rs:53-67, 78-84) and its key. *)
  Definition i_search st o : list (mloc * bool) :=
    (i_data o, false) :: ((λ p, (val p, false)) <$> set_of E st (op_ty E o)).
  (** Hash and Eq are called at intern.rs:157-161, 212-216; Drop when the argument is not needed. *)
  Definition i_looks st (t : nat) : list (mloc * bool) :=
    match get_stack st t with
    | FGet o b :: _ => i_search st o ++ val_opt b false
    | FIns o p :: _ => i_search st o ++ [(val p, false)]
    | FDup _ b _ :: _ => val_opt b true     (* Drop *)
    | _ => []
    end.

  Definition i_does st (t : nat) (l : ilabel V Q) : list act :=
    match l with
    | ICall _ (OBox _) _ => [ATouch [(LVal (i_next st), true)]]  (* the client makes a box *)
    | ICall _ _ _ | IConv _ _ => []
    | IPanic _ => [ATouch (i_looks st t)]
    | IDeref p => [ARead p]
    | IStep _ _ _ =>
        match get_stack st t with
        | FWait o _ :: _ =>                 (* lock (container.rs:53-62) and get_type_mut, len, clear *)
            [AAcq (i_mutex o); ATouch [(i_data o, true)]]
        | FStore _ _ :: _ => [ATouch [(LVal (i_next st), true)]]
        | FIns o _ :: _ => [ATouch ((i_data o, true) :: i_looks st t)]
        | FDone o r :: _ =>                 (* the guard is dropped (container.rs:119-123) *)
            ARel (i_mutex o) :: match r with RPtr p => [AGot p] | _ => [] end
        | _ => [ATouch (i_looks st t)]
        end
    end.

  Notation ihstep := (hstep (istep E) i_by i_does i_looks).
  Notation ihevents := (hevents (istep E) i_by i_does i_looks iinit).
End intern.

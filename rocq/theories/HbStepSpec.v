(** Vocabulary to say that the acts given to a step (HbModel.v, HbNewModel.v, HbArenaModel.v)
    account for everything the step does. *)
From stdpp Require Import gmap list numbers.
From Verif Require Import Base InternModel NewModel ArenaModel HbSpec.

Definition does_write (d : list act) (k : mloc) : Prop := exists a, a ∈ d /\ (k, true) ∈ touched a.
Definition does_access (d : list act) (k : mloc) : Prop := exists a w, a ∈ d /\ (k, w) ∈ touched a.

Section pokes.
  Context {V Q : Type} (E : ienv V Q).

  (** The value of an allocation. *)
  Definition i_value (st : istate V Q) s : option V := io_val <$> i_objs st !! s.
  Definition n_value (st : nstate V Q) s : option V := io_val <$> n_objs st !! s.
  Definition a_value (st : astate V Q) s : option V := ao_val <$> a_objs st !! s.

  (** States that differ from [st] in the value of allocation [s] only. *)
  Definition i_other_value (st : istate V Q) s v : istate V Q :=
    IState (alter (λ x, IObj (io_addr x) v (io_leaked x)) s (i_objs st))
      (i_slots st) (i_locks st) (i_poison st) (i_threads st) (i_next st) (i_log st).
  Definition n_other_value (st : nstate V Q) s v : nstate V Q :=
    NState (alter (λ x, IObj (io_addr x) v (io_leaked x)) s (n_objs st))
      (n_vecs st) (n_resv st) (n_sets st) (n_locks st) (n_poison st) (n_threads st) (n_next st) (n_log st).
  Definition a_other_value (st : astate V Q) s v : astate V Q :=
    AState (alter (λ x, AObj (ao_addr x) v) s (a_objs st))
      (a_arenas st) (a_locks st) (a_poison st) (a_threads st) (a_next st) (a_nextr st) (a_log st).

  (** States that differ in the contents of one container, set, or arena. *)
  Definition i_other_set (st : istate V Q) c l : istate V Q :=
    IState (i_objs st) (<[c := l]> (i_slots st)) (i_locks st) (i_poison st) (i_threads st) (i_next st) (i_log st).
  Definition n_other_set (st : nstate V Q) x l : nstate V Q :=
    NState (n_objs st) (n_vecs st) (n_resv st) (<[x := l]> (n_sets st))
      (n_locks st) (n_poison st) (n_threads st) (n_next st) (n_log st).
  Definition a_other_set (st : astate V Q) r l : astate V Q :=
    AState (a_objs st) (alter (λ x, Ar (ar_ty x) l) r (a_arenas st))
      (a_locks st) (a_poison st) (a_threads st) (a_next st) (a_nextr st) (a_log st).
  (** In the type of one element of a vector. *)
  Definition n_other_elt (st : nstate V Q) c i ty : nstate V Q :=
    NState (n_objs st) (alter (<[i := ty]>) c (n_vecs st)) (n_resv st) (n_sets st)
      (n_locks st) (n_poison st) (n_threads st) (n_next st) (n_log st).
End pokes.

(** [d] accounts for what a step from [st] to [st'] changes in memory. *)
Definition i_written {V Q} (st : istate V Q) d (st' : istate V Q) : Prop :=
  (forall k, i_value st' k <> i_value st k -> does_write d (LVal k)) /\
  (forall c, i_slots st' !! c <> i_slots st !! c -> does_write d (LSet (c, 0))).
Definition n_written {V Q} (s : nstate V Q) d (s' : nstate V Q) : Prop :=
  (forall k, n_value s' k <> n_value s k -> does_write d (LVal k)) /\
  (forall x, nset s' x <> nset s x -> does_write d (LSet x)) /\
  (forall c, nresv s' c <> nresv s c -> does_write d (LElt (c, nresv s c)) /\ does_write d (LSet (c, nresv s c))).
(** A mutex and its set are written when an arena is created and when its drop ends. *)
Definition a_written {V Q} (st : astate V Q) d (st' : astate V Q) : Prop :=
  (forall k, a_value st' k <> a_value st k -> does_write d (LVal k)) /\
  (forall r, is_Some (a_arenas st' !! r) -> a_arenas st' !! r <> a_arenas st !! r -> does_write d (LSet (r, 0))) /\
  (forall r, ar_ty <$> a_arenas st' !! r <> ar_ty <$> a_arenas st !! r -> does_write d (LElt (r, 0))) /\
  (forall r e l, a_log st' = e :: l -> a_log st' <> a_log st -> e = AvGone r \/ (exists ps, e = AvLeak r ps) ->
    does_write d (LSet (r, 0)) /\ does_write d (LElt (r, 0))).

(** The acquires and releases of [d] are the changes of the locks (and vectors); what a lock
    protects is accessed with the lock; what a call returns, and what the client does with it,
    is in the log. *)
Definition i_synced {V Q} (st : istate V Q) t d (st' : istate V Q) : Prop :=
  (forall x, AAcq x ∈ d <-> exists c, x = SLock (c, 0) /\ i_locks st !! c = None /\ i_locks st' !! c = Some t) /\
  (forall x, ARel x ∈ d <-> exists c, x = SLock (c, 0) /\ i_locks st !! c = Some t /\ i_locks st' !! c = None) /\
  (forall x, does_access d (LSet x) -> exists c, x = (c, 0) /\ (i_locks st !! c = Some t \/ i_locks st' !! c = Some t)) /\
  (forall p, AGot p ∈ d <-> exists o, i_log st' = EvRet t o (RPtr p) :: i_log st) /\
  (forall p, ARead p ∈ d <-> exists v, i_log st' = EvRead p v :: i_log st).
(** Finding a mutex poisoned takes and releases it; a set is created without its lock. *)
Definition n_synced {V Q} (s : nstate V Q) t d (s' : nstate V Q) : Prop :=
  (forall x, AAcq (SLock x) ∈ d <-> n_locks s !! x = None /\ (n_locks s' !! x = Some t \/ x ∈ n_poison s /\ ARel (SLock x) ∈ d)) /\
  (forall x, ARel (SLock x) ∈ d <-> n_locks s !! x = Some t /\ n_locks s' !! x = None \/ x ∈ n_poison s /\ AAcq (SLock x) ∈ d) /\
  (forall c i, AAcq (SElt (c, i)) ∈ d -> i < length (nvec s c)) /\
  (forall c i, ARel (SElt (c, i)) ∈ d <-> i = length (nvec s c) /\ length (nvec s' c) = S i) /\
  (forall x, does_access d (LSet x) -> n_locks s !! x = Some t \/ n_locks s' !! x = Some t \/ x.2 = nresv s x.1 /\ nresv s' x.1 = S x.2) /\
  (forall p, AGot p ∈ d <-> exists o, n_log s' = EvRet t o (RPtr p) :: n_log s) /\
  (forall p, ARead p ∈ d <-> exists v, n_log s' = EvRead p v :: n_log s).
(** The set of an arena is accessed without its lock only while nobody else can: before the
    arena is there, or after.  An event of the log is the end of a use of an arena. *)
Definition a_tells {V Q} t (e : aevent V Q) : list act :=
  match e with
  | AvRet u r _ _ x => if u =? t then match x with AP p => [AGot p] | APanic => [] end ++ [AEnd r] else []
  | AvRead r p _ => [ARead p; AEnd r]
  | AvNew r _ => [AMade r; AEnd r]
  | AvDrop r => [ADrop r]
  | _ => []
  end.
Definition a_told (a : act) : bool := match a with ATouch _ | AAcq _ | ARel _ | AUse _ => false | _ => true end.
Definition a_synced {V Q} (st : astate V Q) t (l : alabel V Q) d (st' : astate V Q) : Prop :=
  (forall x, AAcq x ∈ d <-> exists r, x = SLock (r, 0) /\ a_locks st !! r = None /\ a_locks st' !! r = Some t) /\
  (forall x, ARel x ∈ d <-> exists r, x = SLock (r, 0) /\ a_locks st !! r = Some t /\ a_locks st' !! r = None) /\
  (forall x, does_access d (LSet x) -> exists r, x = (r, 0) /\
    (a_locks st !! r = Some t \/ a_nextr st <= r < a_nextr st' \/ a_arenas st' !! r = None)) /\
  (forall r, AUse r ∈ d <-> exists o a, l = LCall t r o a) /\
  (exists es, a_log st' = es ++ a_log st /\ forall a, a_told a = true -> a ∈ d <-> exists e, e ∈ es /\ a ∈ a_tells t e).

(** Vocabulary for the properties of [Intern]. *)
From stdpp Require Import gmap list numbers.
From Verif Require Import Base InternModel.

Section spec.
  Context {V Q : Type} (E : ienv V Q).
  Implicit Types (st : istate V Q) (v : V) (q : Q) (p : iptr) (o : iop V Q).

  (** The documented contracts of Eq, Hash and Borrow. *)
  Record ilawful : Prop := ILawful {
    il_refl : forall v, ie_eq E v v = true;
    il_sym : forall u v, ie_eq E u v = true -> ie_eq E v u = true;
    il_trans : forall u v w, ie_eq E u v = true -> ie_eq E v w = true -> ie_eq E u w = true;
    il_hash : forall u v, ie_eq E u v = true -> ie_hash E u = ie_hash E v;
    il_qsym : forall a b, ie_qeq E a b = true -> ie_qeq E b a = true;
    il_qtrans : forall a b c, ie_qeq E a b = true -> ie_qeq E b c = true -> ie_qeq E a c = true;
    il_qhash : forall a b, ie_qeq E a b = true -> ie_qhash E a = ie_qhash E b;
    il_borrow_eq : forall w u v, ie_ty E u = ie_ty E v ->
      ie_qeq E (ie_borrow E w u) (ie_borrow E w v) = ie_eq E u v;
    il_borrow_hash : forall w v, ie_qhash E (ie_borrow E w v) = ie_hash E v;
  }.
  (** [T::from(&q)] borrows back as something Eq to [q]. *)
  Definition icoherent : Prop :=
    forall w q v, ie_from E w q v = true -> ie_qeq E (ie_borrow E w v) q = true.
  (** Zero-sized values of the same type and length are Eq. *)
  Definition zst_eq : Prop :=
    forall u v, is_zst E u = true -> ie_ty E u = ie_ty E v -> ie_meta E u = ie_meta E v -> ie_eq E u v = true.

  (** The same for one type. *)
  Definition zst_eq_at (ty : nat) : Prop :=
    forall u v, ie_ty E u = ty -> ie_ty E v = ty -> is_zst E u = true -> ie_meta E u = ie_meta E v -> ie_eq E u v = true.

  (** The bench-only clear is not used. *)
  Definition no_clear (ls : list (ilabel V Q)) : Prop := forall t ty a, ICall t (OClear ty) a ∉ ls.

  (** [d] is a value that call [o] asks for. *)
  Definition asks o (d : V) : Prop :=
    match o with
    | ONew v | OVia v | OBox v => ie_ty E d = ie_ty E v /\ ie_eq E d v = true
    | ORef ty w q | OIs ty w q => ie_ty E d = ty /\ ie_qeq E (ie_borrow E w d) q = true
    | OLen _ | OClear _ => False
    end.

  (** [d] is a value that call [o] would store. *)
  Definition supplies o (d : V) : Prop :=
    match o with
    | ONew v | OVia v | OBox v => d = v
    | ORef ty w q => ie_ty E d = ty /\ ie_from E w q d = true
    | OIs _ _ _ | OLen _ | OClear _ => False
    end.

  (** The values of type [ty] whose insertion is recorded in a log (newest first), since
      the last clear. *)
  Fixpoint inserted (ty : nat) (l : list (ievent V Q)) : list (iptr * V) :=
    match l with
    | [] => []
    | EvIns _ o p v :: l' => if op_ty E o =? ty then (p, v) :: inserted ty l' else inserted ty l'
    | EvClr u :: l' => if u =? ty then [] else inserted ty l'
    | _ :: l' => inserted ty l'
    end.

  (** Every element satisfies [f] with respect to the elements after it (the older ones). *)
  Fixpoint each_suffix {A} (f : A -> list A -> Prop) (l : list A) : Prop :=
    match l with
    | [] => True
    | x :: l' => f x l' /\ each_suffix f l'
    end.
  (** ** Threads *)
  (** The thread that takes a step. *)
  Definition lab_thread (l : ilabel V Q) : option nat :=
    match l with ICall t _ _ | IStep t _ _ | IConv t _ | IPanic t => Some t | IDeref _ => None end.
  (** A step of a running call that is not a panic. *)
  Definition quiet (l : ilabel V Q) : Prop := match l with IStep _ _ _ | IConv _ _ => True | _ => False end.
  (** The type whose container a frame works on. *)
  Definition frame_ty (f : frame V Q) : nat :=
    match f with
    | FWait o _ | FGet o _ | FStore o _ | FIns o _ | FDup o _ _ | FDone o _ => op_ty E o
    | FConv ty _ _ => ty
    end.
  (** A frame that has the mutex of container [s]. *)
  Definition holds (s : nat) (f : frame V Q) : Prop :=
    (forall o b, f <> FWait o b) /\ slot E (frame_ty f) = s.
  (** [T::from] can return. *)
  Definition total_from : Prop := forall ty w q, exists v, ie_from E w q v = true /\ ie_ty E v = ty.
  (** Nested calls go to containers of higher number than the calls they are nested in. *)
  Definition ordered st : Prop := forall t k1 o b k2,
    get_stack st t = k1 ++ FWait o b :: k2 -> forall g, g ∈ k2 -> slot E (frame_ty g) < slot E (op_ty E o).
  (** The threads [D] wait for each other: everyone waits for a mutex that one of them
      (possibly the same) took in a call that its current call is nested in. *)
  Definition deadlocked st (D : nat -> Prop) : Prop := forall t, D t ->
    exists o b k u f k' g, get_stack st t = FWait o b :: k /\
      D u /\ get_stack st u = f :: k' /\ g ∈ k' /\ holds (slot E (op_ty E o)) g.

  (** The state with other mutexes poisoned. *)
  Definition with_poison st (P : gset nat) : istate V Q :=
    IState (i_objs st) (i_slots st) (i_locks st) P (i_threads st) (i_next st) (i_log st).
End spec.

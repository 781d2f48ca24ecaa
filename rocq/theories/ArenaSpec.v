(** Vocabulary for the properties of [Arena]; the laws of user types are those of
    InternSpec.v. *)
From stdpp Require Import gmap list numbers.
From Verif Require Import Base InternModel InternSpec ArenaModel.

Section spec.
  Context {V Q : Type} (E : ienv V Q).
  Implicit Types (st : astate V Q) (v d : V) (q : Q) (p : iptr) (o : aop V Q) (l : list (aevent V Q)).

  (** What the log says was stored in arena [r]: references and values, the latest first. *)
  Fixpoint a_stored r (l : list (aevent V Q)) : list (iptr * V) :=
    match l with
    | [] => []
    | AvIns _ r' _ p v :: l' => if r' =? r then (p, v) :: a_stored r l' else a_stored r l'
    | _ :: l' => a_stored r l'
    end.

  (** [d] is Eq to what call [o] was given. *)
  Definition a_asks o d : Prop :=
    match o with
    | ANew v | AOwned v | ABox v => ie_eq E d v = true
    | ARef w q => ie_qeq E (ie_borrow E w d) q = true
    end.
  (** [d] is a value that call [o] would store. *)
  Definition a_supplies o d : Prop :=
    match o with
    | ANew v | AOwned v | ABox v => d = v
    | ARef w q => ie_from E w q d = true
    end.

  (** What safety needs of a call: if [insert] finds an entry Eq to a value that the call
      supplies, the call's own search finds that entry.  ([seen] only says which entries are
      compared.) *)
  Definition a_sound o : Prop := forall v d,
    a_supplies o v -> ie_ty E v = ie_ty E d -> ins_match E v d = true -> a_match E o d = true.
  (** Eq is symmetric (nothing is said about reflexivity, transitivity or Hash). *)
  Definition eq_sym : Prop := forall u v, ie_eq E u v = true -> ie_eq E v u = true.
  (** No call of [intern_ref] or [intern_from]. *)
  Definition no_refs (ls : list (alabel V Q)) : Prop := forall t r w q a, LCall t r (ARef w q) a ∉ ls.

  (** How often a box was freed. *)
  Definition freed1 p (e : aevent V Q) : nat :=
    match e with AvFree _ p' => if ip_ser p' =? ip_ser p then 1 else 0 | _ => 0 end.
  Fixpoint freed p l : nat := match l with [] => 0 | e :: l' => freed1 p e + freed p l' end.

  (** The arena that a label works on. *)
  Definition f_arena (f : aframe V Q) : nat :=
    match f with
    | AWait r _ _ | AGet r _ _ | AConv r _ _ | AStore r _ _ _ | AIns r _ _ _ | AKill r _ _ _ _
    | AMake r _ _ _ | ARel r _ _ _ _ | AArg r _ _ _ _ | ADead r _ => r
    end.
  Definition l_arena st (l : alabel V Q) : option nat :=
    match l with
    | LArena _ _ => Some (a_nextr st)
    | LCall _ r _ _ | LRead r _ | LDrop _ r => Some r
    | LStep t _ _ | LConv t _ | LPanic t => f_arena <$> head (a_stack st t)
    end.
  Definition l_thread (l : alabel V Q) : option nat :=
    match l with
    | LArena t _ | LCall t _ _ _ | LStep t _ _ | LConv t _ | LPanic t | LDrop t _ => Some t
    | LRead _ _ => None
    end.

  Definition a_with_poison st (P : gset nat) : astate V Q :=
    AState (a_objs st) (a_arenas st) (a_locks st) P (a_threads st) (a_next st) (a_nextr st) (a_log st).
  (** A step of a running call that is not a panic. *)
  Definition a_quiet (l : alabel V Q) : Prop := match l with LStep _ _ _ | LConv _ _ => True | _ => False end.
End spec.

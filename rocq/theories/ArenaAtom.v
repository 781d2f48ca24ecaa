(** The atomic arenas: what [Arena] (/repo/src/arena.rs) is supposed to be.  No locks, no
    heap: the values of every live arena, and every call takes effect in one indivisible
    action.  User code that runs inside a call, or inside the drop of an arena, may make
    further calls, so a thread has a stack.  And what a client can see of an execution of
    ArenaModel. *)
From stdpp Require Import gmap list numbers.
From Verif Require Import Base InternModel ArenaModel ArenaSpec.

(** An activity of a thread: a call on arena [r], with its result once it has taken effect, or
    a drop of arena [r], with the values that are still to be dropped. *)
Inductive vact (V Q : Type) :=
| CCall (r : nat) (o : aop V Q) (x : option iptr)
| CDrop (r : nat) (l : list (iptr * V)).
Global Arguments CCall {V Q}.
Global Arguments CDrop {V Q}.

Record vstate (V Q : Type) := VState {
  v_sets : gmap nat (nat * list (iptr * V));   (* the live arenas: their types and values *)
  v_next : nat;                                (* the number of arenas made so far *)
  v_acts : gmap nat (list (vact V Q));         (* innermost first *)
}.
Global Arguments VState {V Q}.
Global Arguments v_sets {V Q}.
Global Arguments v_next {V Q}.
Global Arguments v_acts {V Q}.

(** Actions; [VHit] and [VMiss] are internal. *)
Inductive vaction (V Q : Type) :=
| VNew (r ty : nat)                            (* an arena is made *)
| VCall (t r : nat) (o : aop V Q)              (* a call *)
| VHit (t : nat) (p : iptr)                    (* it takes effect: the value is there *)
| VMiss (t : nat) (p : iptr) (v : V)           (* or it is not, and is stored *)
| VRet (t r : nat) (o : aop V Q) (x : ares)    (* a call returns, or panics *)
| VRead (r : nat) (p : iptr) (v : V)           (* a handle is dereferenced *)
| VDrop (t r : nat)                            (* the drop of an arena begins *)
| VFree (t r : nat) (p : iptr)                 (* it drops a value *)
| VGone (t r : nat)                            (* the drop has finished *)
| VLeak (t r : nat).                           (* or panicked *)
Global Arguments VNew {V Q}.
Global Arguments VCall {V Q}.
Global Arguments VHit {V Q}.
Global Arguments VMiss {V Q}.
Global Arguments VRet {V Q}.
Global Arguments VRead {V Q}.
Global Arguments VDrop {V Q}.
Global Arguments VFree {V Q}.
Global Arguments VGone {V Q}.
Global Arguments VLeak {V Q}.

Section spec.
  Context {V Q : Type} (E : ienv V Q).
  Implicit Types (a : vstate V Q) (v d : V) (p : iptr) (o : aop V Q) (y : vaction V Q).

  Definition vinit : vstate V Q := VState ∅ 0 ∅.
  Definition acts a t : list (vact V Q) := default [] (v_acts a !! t).
  Definition put_acts a t k : vstate V Q := VState (v_sets a) (v_next a) (<[t:=k]> (v_acts a)).
  (** The values in arena [r]. *)
  Definition vals a r : list (iptr * V) := match v_sets a !! r with Some x => x.2 | None => [] end.
  Definition vtype a r : option nat := fst <$> v_sets a !! r.
  (** Is the thread outside, or in user code? *)
  Definition may_call (k : list (vact V Q)) : Prop :=
    match k with CCall _ _ (Some _) :: _ | CDrop _ [] :: _ => False | _ => True end.
  Definition calls_on r (c : vact V Q) : Prop := match c with CCall r' _ _ => r' = r | CDrop _ _ => False end.

  Inductive vatom a : vaction V Q -> vstate V Q -> Prop :=
  | va_new ty :
      vatom a (VNew (v_next a) ty) (VState (<[v_next a := (ty, [])]> (v_sets a)) (S (v_next a)) (v_acts a))
  | va_call t r o :
      is_Some (v_sets a !! r) -> may_call (acts a t) ->
      vatom a (VCall t r o) (put_acts a t (CCall r o None :: acts a t))
  | va_hit t r o k p d :
      acts a t = CCall r o None :: k -> (p, d) ∈ vals a r -> a_asks E o d ->
      vatom a (VHit t p) (put_acts a t (CCall r o (Some p) :: k))
  | va_miss t r o k p v ty l :
      acts a t = CCall r o None :: k -> v_sets a !! r = Some (ty, l) -> ie_ty E v = ty ->
      a_supplies E o v -> a_asks E o v -> (forall q d, (q, d) ∈ l -> ~ a_asks E o d) ->
      (* the new handle is not Eq to a handle for another value, of any live arena *)
      (forall r' q d, (q, d) ∈ vals a r' -> q <> p /\
        (ie_ty E d = ie_ty E v -> iptr_eqb q p = true -> ie_eq E d v = true)) ->
      vatom a (VMiss t p v)
        (put_acts (VState (<[r := (ty, (p, v) :: l)]> (v_sets a)) (v_next a) (v_acts a)) t (CCall r o (Some p) :: k))
  | va_ret t r o p k :
      acts a t = CCall r o (Some p) :: k -> vatom a (VRet t r o (AP p)) (put_acts a t k)
  | va_panic t r o k :
      (* a call that panics has had no effect *)
      acts a t = CCall r o None :: k -> vatom a (VRet t r o APanic) (put_acts a t k)
  | va_read r p v : (p, v) ∈ vals a r -> vatom a (VRead r p v) a
  | va_drop t r x :
      v_sets a !! r = Some x -> may_call (acts a t) -> (forall u c, c ∈ acts a u -> ~ calls_on r c) ->
      vatom a (VDrop t r)
        (put_acts (VState (delete r (v_sets a)) (v_next a) (v_acts a)) t (CDrop r x.2 :: acts a t))
  | va_free t r l1 p v l2 k :
      acts a t = CDrop r (l1 ++ (p, v) :: l2) :: k ->
      vatom a (VFree t r p) (put_acts a t (CDrop r (l1 ++ l2) :: k))
  | va_gone t r k : acts a t = CDrop r [] :: k -> vatom a (VGone t r) (put_acts a t k)
  | va_leak t r l k : acts a t = CDrop r l :: k -> vatom a (VLeak t r) (put_acts a t k).

  Inductive vatoms : vstate V Q -> list (vaction V Q) -> vstate V Q -> Prop :=
  | vas_nil a : vatoms a [] a
  | vas_cons a y a' ys a'' : vatom a y a' -> vatoms a' ys a'' -> vatoms a (y :: ys) a''.

  Definition vvisible y : bool := match y with VHit _ _ | VMiss _ _ _ => false | _ => true end.
  Definition vshown (ys : list (vaction V Q)) : list (vaction V Q) := List.filter vvisible ys.

  (** The thread of an action; whose call it makes take effect, with which result. *)
  Definition vthread y : option nat :=
    match y with
    | VCall t _ _ | VHit t _ | VMiss t _ _ | VRet t _ _ _ | VDrop t _ | VFree t _ _ | VGone t _ | VLeak t _ => Some t
    | VNew _ _ | VRead _ _ _ => None
    end.
  Definition veffect y : option (nat * iptr) :=
    match y with VHit t p | VMiss t p _ => Some (t, p) | _ => None end.
  Definition not_of t (ys : list (vaction V Q)) : Prop := Forall (λ y, vthread y <> Some t) ys.
  (** Sequences of complete calls and drops of thread [t], with actions of others in between.  A
      call is its beginning, further complete calls and drops (made by user code), at the end
      of which it takes effect, and its return; or a panic instead of effect and return.  A
      drop is its beginning, drops of values and further calls, and its end.  If [w] is an
      arena, the sequence is part of its drop. *)
  Inductive vcomplete (t : nat) : option nat -> list (vaction V Q) -> Prop :=
  | vc_nil w : vcomplete t w []
  | vc_other w y ys : vthread y <> Some t -> vcomplete t w ys -> vcomplete t w (y :: ys)
  | vc_call w r o p xs e ys zs :
      vcomplete t None xs -> veffect e = Some (t, p) -> not_of t ys -> vcomplete t w zs ->
      vcomplete t w (VCall t r o :: xs ++ e :: ys ++ VRet t r o (AP p) :: zs)
  | vc_panic w r o xs zs :
      vcomplete t None xs -> vcomplete t w zs -> vcomplete t w (VCall t r o :: xs ++ VRet t r o APanic :: zs)
  | vc_free r p ys : vcomplete t (Some r) ys -> vcomplete t (Some r) (VFree t r p :: ys)
  | vc_drop w r xs e zs :
      vcomplete t (Some r) xs -> e = VGone t r \/ e = VLeak t r -> vcomplete t w zs ->
      vcomplete t w (VDrop t r :: xs ++ e :: zs).

  (** The values that drops of arena [r] have dropped. *)
  Definition freed_in r (ys : list (vaction V Q)) : list iptr :=
    List.flat_map (λ y, match y with VFree _ r' p => if r' =? r then [p] else [] | _ => [] end) ys.

  (** ** What a client sees of a step: the call, or what the step appends to the log. *)
  Definition vevent t (e : aevent V Q) : list (vaction V Q) :=
    match e with
    | AvRet u r o _ x => [VRet u r o x]
    | AvRead r p v => [VRead r p v]
    | AvFree (Some r) p => [VFree t r p]
    | AvNew r ty => [VNew r ty]
    | AvDrop r => [VDrop t r]
    | AvGone r => [VGone t r]
    | AvLeak r _ => [VLeak t r]
    | AvFree None _ | AvIns _ _ _ _ _ => []
    end.
  Definition vsight (l : alabel V Q) (log log' : list (aevent V Q)) : list (vaction V Q) :=
    match l with LCall t r o _ => [VCall t r o] | _ => [] end ++
    List.flat_map (vevent (default 0 (l_thread l))) (rev (take (length log' - length log) log')).
  Fixpoint vsights (st : astate V Q) (ls : list (alabel V Q)) : list (vaction V Q) :=
    match ls with
    | [] => []
    | l :: ls' =>
        match astep E st l with
        | Next st' => vsight l (a_log st) (a_log st') ++ vsights st' ls'
        | UB => []
        | _ => vsights st ls'
        end
    end.
  (** How many calls of thread [t], and drops of arenas by it, have panicked. *)
  Fixpoint vpanics t (ys : list (vaction V Q)) : nat :=
    match ys with
    | [] => 0
    | VRet u _ _ APanic :: ys' | VLeak u _ :: ys' => (if u =? t then 1 else 0) + vpanics t ys'
    | _ :: ys' => vpanics t ys'
    end.
End spec.

(** The atomic interner of leaked values: what [Intern] (/repo/src/intern.rs) and [NewIntern]
    (/repo/src/typearena.rs) are supposed to be.  No locks, no containers, no heap: the
    values that are interned, and every call takes effect in one indivisible action.  User
    code that runs inside a call may make further calls, so a thread has a stack of calls.
    And what a client can see of an execution of InternModel or NewModel. *)
From stdpp Require Import gmap list numbers.
From Verif Require Import Base InternModel InternSpec NewModel.

(** A thread's stack: the calls that have not returned, innermost first, and the results of
    those that have taken effect. *)
Record sset (V Q : Type) := SSet {
  ss_vals : list (iptr * V);                              (* the values interned now *)
  ss_made : list (iptr * V);                              (* the values ever interned *)
  ss_calls : gmap nat (list (iop V Q * option ires));
}.
Global Arguments SSet {V Q}.
Global Arguments ss_vals {V Q}.
Global Arguments ss_made {V Q}.
Global Arguments ss_calls {V Q}.

(** Actions; [SHit], [SMiss], [SSay] and [SClear] are internal. *)
Inductive sact (V Q : Type) :=
| SCall (t : nat) (o : iop V Q)               (* a call *)
| SHit (t : nat) (p : iptr)                   (* it takes effect: the value is there *)
| SMiss (t : nat) (p : iptr) (v : V)          (* or it is not, and is interned *)
| SSay (t : nat) (r : ires)                   (* is_interned and num_objects_interned *)
| SClear (t : nat)                            (* the benchmarks' clear *)
| SRet (t : nat) (o : iop V Q) (r : ires)     (* a call returns, or panics *)
| SRead (p : iptr) (v : V).                   (* a handle is dereferenced *)
Global Arguments SCall {V Q}.
Global Arguments SHit {V Q}.
Global Arguments SMiss {V Q}.
Global Arguments SSay {V Q}.
Global Arguments SClear {V Q}.
Global Arguments SRet {V Q}.
Global Arguments SRead {V Q}.

Section spec.
  Context {V Q : Type} (E : ienv V Q).
  Implicit Types (a : sset V Q) (v d : V) (p : iptr) (o : iop V Q) (x : sact V Q).

  Definition sinit : sset V Q := SSet [] [] ∅.
  Definition calls a t : list (iop V Q * option ires) := default [] (ss_calls a !! t).
  Definition put_calls a t k : sset V Q := SSet (ss_vals a) (ss_made a) (<[t:=k]> (ss_calls a)).
  Definition of_type ty (l : list (iptr * V)) : list (iptr * V) := List.filter (λ y, ie_ty E y.2 =? ty) l.
  Definition not_of_type ty (l : list (iptr * V)) : list (iptr * V) :=
    List.filter (λ y, negb (ie_ty E y.2 =? ty)) l.

  Inductive satom a : sact V Q -> sset V Q -> Prop :=
  | sa_call t o :
      (* from outside, or from user code inside a call that has not yet taken effect *)
      match calls a t with (_, Some _) :: _ => False | _ => True end ->
      satom a (SCall t o) (put_calls a t ((o, None) :: calls a t))
  | sa_hit t o k p d :
      calls a t = (o, None) :: k -> (forall ty w q, o <> OIs ty w q) ->
      (p, d) ∈ ss_vals a -> asks E o d ->
      satom a (SHit t p) (put_calls a t ((o, Some (RPtr p)) :: k))
  | sa_miss t o k p v :
      calls a t = (o, None) :: k -> supplies E o v -> asks E o v ->
      (forall q d, (q, d) ∈ ss_vals a -> ~ asks E o d) ->
      (* the new handle is not Eq to a handle for another value *)
      (forall q d, (q, d) ∈ ss_made a -> q <> p /\
        (ie_ty E d = ie_ty E v -> iptr_eqb q p = true -> ie_eq E d v = true)) ->
      satom a (SMiss t p v)
        (put_calls (SSet ((p, v) :: ss_vals a) ((p, v) :: ss_made a) (ss_calls a)) t ((o, Some (RPtr p)) :: k))
  | sa_is t ty w q k b :
      calls a t = (OIs ty w q, None) :: k ->
      (b = true <-> exists p d, (p, d) ∈ ss_vals a /\ asks E (OIs ty w q) d) ->
      satom a (SSay t (RBool b)) (put_calls a t ((OIs ty w q, Some (RBool b)) :: k))
  | sa_len t ty k n :
      calls a t = (OLen ty, None) :: k -> n = length (of_type ty (ss_vals a)) ->
      satom a (SSay t (RNum n)) (put_calls a t ((OLen ty, Some (RNum n)) :: k))
  | sa_clear t ty k :
      calls a t = (OClear ty, None) :: k ->
      satom a (SClear t)
        (put_calls (SSet (not_of_type ty (ss_vals a)) (ss_made a) (ss_calls a)) t ((OClear ty, Some RUnit) :: k))
  | sa_ret t o r k :
      calls a t = (o, Some r) :: k -> satom a (SRet t o r) (put_calls a t k)
  | sa_panic t o k :
      (* a call that panics has had no effect *)
      calls a t = (o, None) :: k -> satom a (SRet t o RPanic) (put_calls a t k)
  | sa_read p v : (p, v) ∈ ss_made a -> satom a (SRead p v) a.

  Inductive satoms : sset V Q -> list (sact V Q) -> sset V Q -> Prop :=
  | sas_nil a : satoms a [] a
  | sas_cons a x a' xs a'' : satom a x a' -> satoms a' xs a'' -> satoms a (x :: xs) a''.

  Definition seen_by_client x : bool :=
    match x with SCall _ _ | SRet _ _ _ | SRead _ _ => true | _ => false end.
  Definition shown (xs : list (sact V Q)) : list (sact V Q) := List.filter seen_by_client xs.

  (** The thread of an action; whose call it makes take effect, with which result. *)
  Definition sthread x : option nat :=
    match x with
    | SCall t _ | SHit t _ | SMiss t _ _ | SSay t _ | SClear t | SRet t _ _ => Some t
    | SRead _ _ => None
    end.
  Definition effect x : option (nat * ires) :=
    match x with
    | SHit t p | SMiss t p _ => Some (t, RPtr p)
    | SSay t r => Some (t, r)
    | SClear t => Some (t, RUnit)
    | _ => None
    end.
  (** Sequences of complete calls of thread [t], with actions of others in between.  A call is
      its beginning, further complete calls (made by user code), at the end of which it takes
      effect, and its return; or a panic instead of effect and return. *)
  Inductive complete (t : nat) : list (sact V Q) -> Prop :=
  | cp_nil : complete t []
  | cp_other x xs : sthread x <> Some t -> complete t xs -> complete t (x :: xs)
  | cp_call o r xs e ys zs :
      complete t xs -> effect e = Some (t, r) -> Forall (λ x, sthread x <> Some t) ys -> complete t zs ->
      complete t (SCall t o :: xs ++ e :: ys ++ SRet t o r :: zs)
  | cp_panic o xs zs :
      complete t xs -> complete t zs -> complete t (SCall t o :: xs ++ SRet t o RPanic :: zs).

  (** ** What a client sees of a step: the call, or the return or the read that the step
      appends to the log. *)
  Definition event_act (e : ievent V Q) : list (sact V Q) :=
    match e with EvRet t o r => [SRet t o r] | EvRead p v => [SRead p v] | _ => [] end.
  Definition new_event (log log' : list (ievent V Q)) : list (sact V Q) :=
    match log' with
    | e :: log0 => if length log0 =? length log then event_act e else []
    | [] => []
    end.
  Definition sight (l : ilabel V Q) (log log' : list (ievent V Q)) : list (sact V Q) :=
    match l with ICall t o _ => [SCall t o] | _ => new_event log log' end.
  (** How many calls of thread [u] have panicked. *)
  Fixpoint panics (u : nat) (log : list (ievent V Q)) : nat :=
    match log with
    | [] => 0
    | EvRet t _ RPanic :: log' => (if t =? u then 1 else 0) + panics u log'
    | _ :: log' => panics u log'
    end.
  Fixpoint isights (st : istate V Q) (ls : list (ilabel V Q)) : list (sact V Q) :=
    match ls with
    | [] => []
    | l :: ls' =>
        match istep E st l with
        | Next st' => sight l (i_log st) (i_log st') ++ isights st' ls'
        | UB => []
        | _ => isights st ls'
        end
    end.
  Fixpoint nsights (s : nstate V Q) (ls : list (ilabel V Q)) : list (sact V Q) :=
    match ls with
    | [] => []
    | l :: ls' =>
        match nstep E s l with
        | Next s' => sight l (n_log s) (n_log s') ++ nsights s' ls'
        | UB => []
        | _ => nsights s ls'
        end
    end.
End spec.

(** The two aliasing models of Rust, for one location of memory: Stacked Borrows (Jung, Dang, Kang,
    Dreyer, POPL 2020) and Tree Borrows (Villani, Hostert, Dreyer, Jung, PLDI 2025), with the retagging
    of boxes that Miri does.  There is no code of the repository in this file. *)
From stdpp Require Import gmap list numbers.

(** What a pointer is allowed to do depends on how it was made.  A tag lists the pointers it is derived
    from, the youngest first; [[]] is the allocation. A rule of Rust: no counterpart in /repo. *)
Definition tag := list nat.

(** [KShr]: [&T] without interior mutability.  [KUni]: [&mut T] or [Box<T>]; [im]: [T] has interior
    mutability.  [KCell]: the part of [&T] that is inside an UnsafeCell.
    The pointers of arc.rs:55, 105, arena.rs:53, 82 and intern.rs:56 are of these kinds. *)
Inductive bkind := KShr | KUni (im : bool) | KCell.

(** [BRef k t t' prot]: [t'] is made from [t]; [prot]: it is the argument of a function, and protected
    until the function returns ([BEnd]).
    Which of these the code does is in [AliasArenaModel] (arena.rs:118-174), [ArcAliasModel] (arc.rs:224-330) and [InternAliasModel] (intern.rs:151-237). *)
Inductive bev :=
| BRead (t : tag)
| BWrite (t : tag)
| BRef (k : bkind) (t t' : tag) (prot : bool)
| BEnd (t : tag)
| BFree (t : tag).

(** [None]: undefined behaviour. A rule of Rust: no counterpart in /repo. *)
Record machine := Machine {
  mst : Type;
  m_new : mst;                      (* after the allocation *)
  m_do : mst -> bev -> option mst;
}.

(** ** Stacked Borrows *)
(** A rule of Rust: no counterpart in /repo. *)
Inductive sperm := SUniq | SRW | SRO | SDis.
(** A rule of Rust: no counterpart in /repo. *)
Record sitem := SItem { si_tag : tag; si_perm : sperm; si_prot : bool }.

(** A rule of Rust: no counterpart in /repo. *)
Definition s_grants (w : bool) (x : sperm) : bool :=
  match x with SUniq | SRW => true | SRO => negb w | SDis => false end.
(** A rule of Rust: no counterpart in /repo. *)
Definition s_is_uniq (x : sitem) : bool := match si_perm x with SUniq => true | _ => false end.
(** A rule of Rust: no counterpart in /repo. *)
Definition s_is_rw (x : sitem) : bool := match si_perm x with SRW => true | _ => false end.
(** A rule of Rust: no counterpart in /repo. *)
Definition s_disable (x : sitem) : sitem := if s_is_uniq x then SItem (si_tag x) SDis (si_prot x) else x.
(** The uppermost item of tag [t] that grants the access: what is above it (top first), and it with what
    is below. A rule of Rust: no counterpart in /repo. *)
Fixpoint s_find (w : bool) (t : tag) (s : list sitem) : option (list sitem * sitem * list sitem) :=
  match s with
  | [] => None
  | x :: s' =>
      if bool_decide (si_tag x = t) && s_grants w (si_perm x) then Some ([], x, s')
      else match s_find w t s' with Some (ab, y, be) => Some (x :: ab, y, be) | None => None end
  end.
(** A read disables the Uniques above. A rule of Rust: no counterpart in /repo. *)
Definition s_read (t : tag) (s : list sitem) : option (list sitem) :=
  match s_find false t s with
  | Some (ab, x, be) =>
      if existsb (λ y, si_prot y && s_is_uniq y) ab then None else Some ((s_disable <$> ab) ++ x :: be)
  | None => None
  end.
(** A write removes what is above, but for SharedReadWrites next to a SharedReadWrite.
    A rule of Rust: no counterpart in /repo. *)
Fixpoint s_keep (ab : list sitem) : list sitem :=
  match ab with
  | [] => []
  | x :: ab' => if forallb s_is_rw ab then ab else s_keep ab'
  end.
(** A rule of Rust: no counterpart in /repo. *)
Definition s_write (t : tag) (s : list sitem) : option (list sitem) :=
  match s_find true t s with
  | Some (ab, x, be) =>
      let keep := if s_is_rw x then s_keep ab else [] in
      if existsb si_prot (take (length ab - length keep) ab) then None else Some (keep ++ x :: be)
  | None => None
  end.
(** A rule of Rust: no counterpart in /repo. *)
Definition s_do (s : list sitem) (e : bev) : option (list sitem) :=
  match e with
  | BRead t => s_read t s
  | BWrite t => s_write t s
  | BRef KShr t t' prot => s1 ← s_read t s; Some (SItem t' SRO prot :: s1)
  | BRef (KUni _) t t' prot => s1 ← s_write t s; Some (SItem t' SUniq prot :: s1)
  | BRef KCell t t' _ =>
      match s_find true t s with
      | Some (ab, x, be) => Some (ab ++ SItem t' SRW false :: x :: be)
      | None => None
      end
  | BEnd t => Some ((λ x, if bool_decide (si_tag x = t) then SItem t (si_perm x) false else x) <$> s)
  | BFree t => s1 ← s_write t s; if existsb si_prot s1 then None else Some []
  end.
(** A rule of Rust: no counterpart in /repo. *)
Definition stacked : machine := Machine (list sitem) [SItem [] SRW false] s_do.

(** ** Tree Borrows.  [TRes c]: reserved; [c]: there was a foreign read while it was protected. *)
(** A rule of Rust: no counterpart in /repo. *)
Inductive tperm := TRes (c : bool) | TResIM | TAct | TFro | TDis | TCell.
(** A rule of Rust: no counterpart in /repo. *)
Record tnode := TNode { tn_tag : tag; tn_perm : tperm; tn_prot : bool }.

(** An access through the tag itself or one derived from it.
    A rule of Rust: no counterpart in /repo. *)
Definition t_local (w : bool) (x : tnode) : option tperm :=
  match tn_perm x with
  | TRes c => if w then if c && tn_prot x then None else Some TAct else Some (TRes c)
  | TResIM => if w then Some TAct else Some TResIM
  | TAct => Some TAct
  | TFro => if w then None else Some TFro
  | TDis => None
  | TCell => Some TCell
  end.
(** An access through another tag. A rule of Rust: no counterpart in /repo. *)
Definition t_foreign (w : bool) (x : tnode) : option tperm :=
  match tn_perm x with
  | TCell => Some TCell
  | TDis => Some TDis
  | TRes c => if w then if tn_prot x then None else Some TDis else Some (TRes (c || tn_prot x))
  | TResIM => if w && tn_prot x then None else Some TResIM
  | TAct => if tn_prot x then None else Some (if w then TDis else TFro)
  | TFro => if w then if tn_prot x then None else Some TDis else Some TFro
  end.
(** A rule of Rust: no counterpart in /repo. *)
Definition t_touch (w : bool) (t : tag) (x : tnode) : option tnode :=
  p ← (if bool_decide (tn_tag x `suffix_of` t) then t_local w x else t_foreign w x);
  Some (TNode (tn_tag x) p (tn_prot x)).
(** A rule of Rust: no counterpart in /repo. *)
Fixpoint t_all (f : tnode -> option tnode) (s : list tnode) : option (list tnode) :=
  match s with
  | [] => Some []
  | x :: s' => match f x, t_all f s' with Some y, Some r => Some (y :: r) | _, _ => None end
  end.
(** A rule of Rust: no counterpart in /repo. *)
Definition t_access (w : bool) (t : tag) (s : list tnode) : option (list tnode) :=
  if existsb (λ x, bool_decide (tn_tag x = t)) s then t_all (t_touch w t) s else None.
(** When a function returns, its protected argument is used once more; what was derived from it does not
    notice. A rule of Rust: no counterpart in /repo. *)
Definition t_release (w : bool) (t : tag) (s : list tnode) : option (list tnode) :=
  if existsb (λ x, bool_decide (tn_tag x = t)) s
  then t_all (λ x, if bool_decide (t `suffix_of` tn_tag x /\ tn_tag x <> t) then Some x else t_touch w t x) s
  else None.
(** A rule of Rust: no counterpart in /repo. *)
Definition t_init (k : bkind) (prot : bool) : tperm :=
  match k with KShr => TFro | KUni im => if im && negb prot then TResIM else TRes false | KCell => TCell end.
(** A rule of Rust: no counterpart in /repo. *)
Definition t_active (t : tag) (x : tnode) : bool :=
  bool_decide (tn_tag x = t) && match tn_perm x with TAct => true | _ => false end.
(** A rule of Rust: no counterpart in /repo. *)
Definition t_unprot (t : tag) (x : tnode) : tnode :=
  if bool_decide (tn_tag x = t) then TNode t (tn_perm x) false else x.
(** A rule of Rust: no counterpart in /repo. *)
Definition t_do (s : list tnode) (e : bev) : option (list tnode) :=
  match e with
  | BRead t => t_access false t s
  | BWrite t => t_access true t s
  | BRef KCell t t' _ => if existsb (λ x, bool_decide (tn_tag x = t)) s then Some (TNode t' TCell false :: s) else None
  | BRef k t t' prot => s1 ← t_access false t s; Some (TNode t' (t_init k prot) prot :: s1)
  | BEnd t =>
      match t_release (existsb (t_active t) s) t s with Some s1 => Some (t_unprot t <$> s1) | None => None end
  | BFree t => s1 ← t_access true t s; if existsb tn_prot s1 then None else Some []
  end.
(** A rule of Rust: no counterpart in /repo. *)
Definition trees : machine := Machine (list tnode) [TNode [] TAct false] t_do.

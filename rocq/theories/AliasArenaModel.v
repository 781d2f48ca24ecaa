(** What the code of [Arena] (/repo/src/arena.rs, /repo/src/boxedset.rs) does with the pointers to its
    boxes, as far as the aliasing models of Rust are concerned: [ArenaModel] with an aliasing machine
    for every block that is not zero-sized.

    Simplified: the types have no interior mutability; a block is one location; a search of a table is
    one step; what clients do with references is to make further ones and read through them. *)
From stdpp Require Import gmap list numbers.
From Verif Require Import Base InternModel ArenaModel AliasModel.

(** [bo_box]: the tag of the Box (in a call, then in the table); [bo_ptr]: of the raw pointer [p] of the
    call that stores it (arena.rs:127, 150, 169, 419); [bo_hands]: of the references handed out. *)
Record bobj (M : machine) := BObj {
  bo_m : mst M;
  bo_next : nat;
  bo_box : tag;
  bo_ptr : tag;
  bo_hands : list tag;
}.
Global Arguments BObj {M}.
Global Arguments bo_m {M}.
Global Arguments bo_next {M}.
Global Arguments bo_box {M}.
Global Arguments bo_ptr {M}.
Global Arguments bo_hands {M}.

(** What a step does to a block. *)
Inductive bop :=
| OAlloc             (* the block is allocated and put into a Box *)
| OLook              (* a reference to its contents is passed to Hash or Eq: boxedset.rs:58-66 *)
| OPoint             (* [let p = b.as_ref() as *const T]: arena.rs:127, 150, 169, 419 *)
| OInsert            (* [m.insert(b)]: arena.rs:128, 151, 170, 420, boxedset.rs:81-83 *)
| ODeref             (* [unsafe { &*p }]: arena.rs:130, 153, 172, 422 *)
| OHit               (* [b.as_ref() as *const T], [&*p]: arena.rs:121-124, 144-147, 163-166, 413-416 *)
| OUse (j : nat)     (* a client copies the [j]th reference and reads through it: arena.rs:434-447, 510-512 *)
| OKill.             (* the Box is dropped *)

Section alias.
  Context (M : machine).
  (** How often the Box is retagged as it is passed by value: [n], into the table, by [m.insert(b)]
      (at least the entries of boxedset.rs:81 and of hashbrown's insert, if Box is retagged at all);
      [m], anywhere else. *)
  Context (n m : nat).
  Implicit Types (x : bobj M).

  (** Bookkeeping of the model, no counterpart in /repo. *)
  Definition b_ev (e : bev) x : option (bobj M) :=
    match m_do M (bo_m x) e with
    | Some s => Some (BObj s (bo_next x) (bo_box x) (bo_ptr x) (bo_hands x))
    | None => None
    end.
  (** A new pointer made from [t].
      By [as_ref], [&*p] or passing it: arena.rs:121-130, boxedset.rs:81-82. *)
  Definition b_ref (k : bkind) (t : tag) (prot : bool) x : option (bobj M * tag) :=
    let t' := bo_next x :: t in
    match m_do M (bo_m x) (BRef k t t' prot) with
    | Some s => Some (BObj s (S (bo_next x)) (bo_box x) (bo_ptr x) (bo_hands x), t')
    | None => None
    end.
  (** Bookkeeping of the model, no counterpart in /repo. *)
  Definition b_set_box x t : bobj M := BObj (bo_m x) (bo_next x) t (bo_ptr x) (bo_hands x).
  (** Bookkeeping of the model, no counterpart in /repo. *)
  Definition b_set_ptr x t : bobj M := BObj (bo_m x) (bo_next x) (bo_box x) t (bo_hands x).
  (** Bookkeeping of the model, no counterpart in /repo. *)
  Definition b_hand x t : bobj M := BObj (bo_m x) (bo_next x) (bo_box x) (bo_ptr x) (bo_hands x ++ [t]).

  (** The Box is an argument of [i] functions calling each other; then they return.
      [m.insert(b)]: arena.rs:128, boxedset.rs:81-82; [Box::new], [into]: arena.rs:126, 149, 168. *)
  Fixpoint b_enter (i : nat) x : option (bobj M) :=
    match i with
    | 0 => Some x
    | S i' => match b_ref (KUni false) (bo_box x) true x with
              | Some (x1, t) => b_enter i' (b_set_box x1 t)
              | None => None
              end
    end.
  (** The same functions return: arena.rs:128, boxedset.rs:81-83. *)
  Fixpoint b_leave (i : nat) (t : tag) x : option (bobj M) :=
    match i with
    | 0 => Some x
    | S i' => match b_ev (BEnd t) x with Some x1 => b_leave i' (tail t) x1 | None => None end
    end.
  (** boxedset.rs:58-66, 82. *)
  Definition b_look x : option (bobj M) :=
    match b_ref KShr (bo_box x) true x with
    | Some (x1, k) => match b_ev (BRead k) x1 with Some x2 => b_ev (BEnd k) x2 | None => None end
    | None => None
    end.

  (** arena.rs:126, 149, 168. *)
  Definition b_new : option (bobj M) :=
    match b_ref (KUni false) [] false (BObj (m_new M) 0 [] [] []) with
    | Some (x, t) => Some (BObj (bo_m x) (bo_next x) t t [])
    | None => None
    end.
  (** arena.rs:118-174, 434-447; boxedset.rs:53-83; drop of arena.rs:51-56. *)
  Definition b_do (o : bop) x : option (bobj M) :=
    match o with
    | OAlloc => b_new
    | OLook => b_look x
    | OPoint =>
        match b_enter m x with
        | Some x1 =>
            match b_leave m (bo_box x1) x1 with
            | Some x2 => match b_ref KShr (bo_box x2) false x2 with
                         | Some (x3, k) => Some (b_set_ptr x3 k)
                         | None => None
                         end
            | None => None
            end
        | None => None
        end
    | OInsert =>
        match b_enter n x with
        | Some x1 => match b_look x1 with Some x2 => b_leave n (bo_box x2) x2 | None => None end
        | None => None
        end
    | ODeref =>
        match b_ref KShr (bo_ptr x) false x with
        | Some (x1, k) => Some (b_hand x1 k)
        | None => None
        end
    | OHit =>
        match b_ref KShr (bo_box x) false x with
        | Some (x1, k) => match b_ref KShr k false x1 with
                          | Some (x2, k') => Some (b_hand x2 k')
                          | None => None
                          end
        | None => None
        end
    | OUse j =>
        match bo_hands x !! Nat.min j (pred (length (bo_hands x))) with
        | Some k =>
            match b_ref KShr k true x with
            | Some (x1, k') =>
                match b_ev (BRead k') x1 with
                | Some x2 => match b_ev (BEnd k') x2 with Some x3 => Some (b_hand x3 k') | None => None end
                | None => None
                end
            | None => None
            end
        | None => Some x
        end
    | OKill => (* drop_in_place, then dealloc *)
        match b_enter m x with
        | Some x1 =>
            match b_leave m (bo_box x1) x1 with
            | Some x2 =>
                match b_ref (KUni false) (bo_box x2) true x2 with
                | Some (x3, k) =>
                    match b_ev (BWrite k) x3 with
                    | Some x4 => match b_ev (BEnd k) x4 with Some x5 => b_ev (BFree (bo_box x5)) x5 | None => None end
                    | None => None
                    end
                | None => None
                end
            | None => None
            end
        | None => None
        end
    end.

  (** Blocks that are not there are zero-sized (or the step is undefined anyway).
      arena.rs:118-174. *)
  Definition b_apply (g : gmap nat (bobj M)) (y : nat * bop) : option (gmap nat (bobj M)) :=
    match y.2, g !! y.1 with
    | OAlloc, _ => match b_new with Some x => Some (<[y.1:=x]> g) | None => None end
    | OKill, Some x => match b_do OKill x with Some _ => Some (delete y.1 g) | None => None end
    | o, Some x => match b_do o x with Some x' => Some (<[y.1:=x']> g) | None => None end
    | _, None => Some g
    end.
  (** Several in a row: arena.rs:118-174. *)
  Fixpoint b_applys (ys : list (nat * bop)) (g : gmap nat (bobj M)) : option (gmap nat (bobj M)) :=
    match ys with
    | [] => Some g
    | y :: ys' => match b_apply g y with Some g1 => b_applys ys' g1 | None => None end
    end.

  Context {V Q : Type} (E : ienv V Q).
  Implicit Types (st : astate V Q).

  (** Bookkeeping of the model, no counterpart in /repo. *)
  Definition b_at (o : bop) (p : iptr) : nat * bop := (ip_ser p, o).
  (** Bookkeeping of the model, no counterpart in /repo. *)
  Definition b_opt (o : bop) (b : option iptr) : list (nat * bop) :=
    match b with Some p => [b_at o p] | None => [] end.
  (** arena.rs:126, 149, 168; boxes of zero-sized values have no block. *)
  Definition b_alloc (s : nat) (v : V) (more : list (nat * bop)) : list (nat * bop) :=
    if is_zst E v then [] else (s, OAlloc) :: more.

  (** The operations of a step of [ArenaModel], in order; [j] is used by [LRead] only.
      arena.rs:118-174, 434-447; drop of arena.rs:51-56. *)
  Definition b_ops st (l : alabel V Q) (j : nat) : list (nat * bop) :=
    match l with
    | LArena _ _ | LConv _ _ | LDrop _ _ => []
    | LCall _ _ o _ => match o with AOwned v | ABox v => b_alloc (a_next st) v [] | _ => [] end
    | LRead _ p => [b_at (OUse j) p]
    | LPanic t =>
        match a_stack st t with
        | AGet r _ b :: _ => (b_at OLook <$> a_set st r) ++ b_opt OLook b
        | AIns r _ _ p :: _ => (b_at OLook <$> a_set st r) ++ [b_at OInsert p]
        | ADead _ (p :: _) :: _ => [b_at OKill p]
        | _ => []
        end
    | LStep t _ i =>
        match a_stack st t with
        | AGet r o b :: _ =>
            (b_at OLook <$> a_set st r) ++ b_opt OLook b ++
            match ipick i (a_cands st (a_match E o) (a_set st r)), o with
            | Some p, _ => [b_at OHit p]
            | None, ABox _ => b_opt OPoint b
            | None, _ => []
            end
        | AStore _ _ _ (Some q) :: _ => [b_at OKill q]
        | AStore _ _ v None :: _ => b_alloc (a_next st) v [(a_next st, OPoint)]
        | AIns r _ _ p :: _ => (b_at OLook <$> a_set st r) ++ [b_at OInsert p]
        | AKill _ _ _ p _ :: _ => [b_at OKill p]
        | AMake _ _ _ p :: _ => [b_at ODeref p]
        | AArg _ _ b mine _ :: _ => if mine then b_opt OKill b else []
        | ADead _ (p :: _) :: _ => [b_at OKill p]
        | _ => []
        end
    end.

  (** [ArenaModel]'s state (arena.rs:51-56) and the machines of the blocks. *)
  Record bstate := BState { bs_arena : astate V Q; bs_objs : gmap nat (bobj M) }.
  (** No arena yet: arena.rs:103-110. *)
  Definition binit : bstate := BState ainit ∅.
  (** A step of arena.rs:103-174 with what it does to the pointers. *)
  Definition bstep (bs : bstate) (l : alabel V Q * nat) : outcome bstate :=
    match astep E (bs_arena bs) l.1 with
    | Next st => match b_applys (b_ops (bs_arena bs) l.1 l.2) (bs_objs bs) with
                 | Some g => Next (BState st g)
                 | None => UB
                 end
    | Blocked => Blocked | Illegal => Illegal | UB => UB
    end.
End alias.
Global Arguments BState {M V Q}.
Global Arguments bs_arena {M V Q}.
Global Arguments bs_objs {M V Q}.
Global Arguments binit {M V Q}.

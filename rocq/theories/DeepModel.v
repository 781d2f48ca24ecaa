(** Memory accounting with deepsize 0.2: /repo/src/boxedset.rs:26-50, /repo/src/intern.rs:72-86,
    /repo/src/arc.rs:58-79, /repo/src/arena.rs:71-90.

    A value's own [DeepSizeOf] impl is taken to be what deepsize derives: it adds up what its
    fields report.  Owned memory counts in full; an [Arc]/[Rc] counts what it points to unless
    the context has met it before.  Numbers are unbounded: usize overflow of a sum is not
    modelled. *)
From stdpp Require Import gmap list numbers.
From Verif Require Import Base ArcModel InternModel ArenaModel.
Local Open Scope N_scope.

(** What one field of a value contributes to [deep_size_of_children].
    The last three: intern.rs:73-77, arc.rs:59-64, arena.rs:86-90. *)
Inductive piece :=
| POwn (n : N)          (* [n] bytes of memory owned by the field alone *)
| PShared (a : nat)     (* an Arc or Rc; [a] identifies the allocation *)
| PIntern               (* an Intern handle *)
| PArcIntern            (* an ArcIntern handle *)
| PArenaIntern (fat : bool). (* an ArenaIntern handle; [fat]: T is unsized *)

(** [size_of_val] and the fields of values of the user's types; the memory behind the Arcs:
    size and fields of what is inside; [size_of::<usize>()]. Parameters, no counterpart in /repo. *)
Record denv (V : Type) := DEnv {
  d_size : V -> N;
  d_fields : V -> list piece;
  d_shared : gmap nat (N * list piece);
  d_word : N;
}.
Global Arguments DEnv {V}.
Global Arguments d_size {V}.
Global Arguments d_fields {V}.
Global Arguments d_shared {V}.
Global Arguments d_word {V}.

Section deep.
  Context {V : Type} (D : denv V).

  (** [size_of::<&T>()]. (arena.rs:88, boxedset.rs:29, 42). *)
  Definition ptr_size (fat : bool) : N := if fat then 2 * d_word D else d_word D.

  (** [deep_size_of_children] of fields, in order, threading the context [c] (the Arcs met).
      deepsize's Arc: if the context contains it 0, otherwise add it, then its contents' size
      and children.  Recursion into Arcs need not be well founded, so there is fuel; [None]
      means that it did not suffice (or a dangling Arc). *)
  Fixpoint fields_size (fuel : nat) (c : gset nat) (w : list piece) : option (gset nat * N) :=
    match fuel with
    | O => None
    | S fuel' =>
        match w with
        | [] => Some (c, 0)
        | POwn n :: w' => prod_map id (N.add n) <$> fields_size fuel' c w'
        | PShared a :: w' =>
            if decide (a ∈ c) then fields_size fuel' c w'
            else match d_shared D !! a with
                 | Some (n, k) => prod_map id (N.add n) <$> fields_size fuel' ({[a]} ∪ c) (k ++ w')
                 | None => None
                 end
        | PIntern :: w' => prod_map id (N.add 0) <$> fields_size fuel' c w'      (* intern.rs:73-77 *)
        | PArcIntern :: w' => prod_map id (N.add 0) <$> fields_size fuel' c w'   (* arc.rs:59-64 *)
        | PArenaIntern fat :: w' =>                                              (* arena.rs:86-90 *)
            prod_map id (N.add (ptr_size fat)) <$> fields_size fuel' c w'
        end
    end.
  (** Enough fuel: every Arc is entered at most once.
      Bookkeeping of the model, no counterpart in /repo. *)
  Definition enough (w : list piece) : nat :=
    S (length w + map_fold (λ _ x s, length x.2 + s)%nat O (d_shared D)).
  (** Called at boxedset.rs:33 and 46. *)
  Definition children (c : gset nat) (w : list piece) : option (gset nat * N) := fields_size (enough w) c w.

  (** [v.deep_size_of()]: a new context. (arc.rs:76). *)
  Definition deep_size_of (v : V) : option N := (λ r, r.2 + d_size D v) <$> children ∅ (d_fields D v).

  (** [HashSet::deep_size_of_children]: boxedset.rs:28-36 and 41-49 (for a sized type [size_of]
      and [size_of_val] agree); [cap] is the table's capacity, [psz] the size of a key. *)
  Fixpoint keys_size (c : gset nat) (vs : list V) : option (gset nat * N) :=
    match vs with
    | [] => Some (c, 0)
    | v :: vs' =>
        match children c (d_fields D v) with
        | Some (c', n) => prod_map id (N.add (n + d_size D v)) <$> keys_size c' vs'
        | None => None
        end
    end.
  (** boxedset.rs:28-36, 41-49. *)
  Definition set_children (cap psz : N) (c : gset nat) (vs : list V) : option (gset nat * N) :=
    prod_map id (N.add (cap * psz)) <$> keys_size c vs.

  (** The values a table's keys point to, in iteration order; [None] if one dangles.
      (boxedset.rs:30-34, 43-47, arc.rs:74-77). *)
  Definition values {P} (rd : P -> option V) (ps : list P) : option (list V) := mapM rd ps.

  (** [deep_size_of_interned::<ty>()] (intern.rs:82-86), the lock being held throughout:
      [ks] are the table's keys, [set_of E st ty], in the order of iteration; [hdr] is the size
      of the HashSet itself; keys are thin. *)
  Definition deep_size_of_interned {Q} (st : istate V Q) (ks : list iptr) (hdr cap : N) : option N :=
    match values (iread st) ks with
    | Some vs => (λ r, r.2 + hdr) <$> set_children cap (d_word D) ∅ vs
    | None => None
    end.
  (** [arena.deep_size_of()] (arena.rs:72-77); [ks] as above; [hdr] is the size of the Arena
      itself. *)
  Definition deep_size_of_arena {Q} (st : astate V Q) (ks : list iptr) (fat : bool) (hdr cap : N) : option N :=
    match values (a_read st) ks with
    | Some vs => (λ y, y.2 + hdr) <$> set_children cap (ptr_size fat) ∅ vs
    | None => None
    end.

  (** [deep_size_of_arc_interned::<ty>()] (arc.rs:69-79), when nobody changes the table
      meanwhile (DashMap's iterator locks one shard after the other): [ks] are the keys of the
      table of [ty], see [key_of_type], in the order of iteration. *)
  Fixpoint arc_keys_size (vs : list V) : option N :=
    match vs with
    | [] => Some 0
    | v :: vs' =>
        match deep_size_of v, arc_keys_size vs' with
        | Some n, Some m => Some (d_word D + n + m)
        | _, _ => None
        end
    end.
  (** The container of a type: arc.rs:72. *)
  Definition key_of_type (E : tyenv V) (st : state V) (ty : nat) (p : ptr) : bool :=
    match data st p with Some d => (te_ty E d =? ty)%nat | None => false end.
  (** arc.rs:69-79. *)
  Definition deep_size_of_arc_interned (st : state V) (ks : list ptr) (fat : bool) (cap : N) : option N :=
    match values (data st) ks with
    | Some vs => N.add (cap * ptr_size fat) <$> arc_keys_size vs
    | None => None
    end.
End deep.

(** [deep_size_of] of a handle itself: its [size_of_val] plus its children.
    (intern.rs:73-77, arc.rs:59-64, arena.rs:86-90). *)
Definition handle_size {V} (D : denv V) (h : piece) (fat : bool) : option N :=
  (λ r, r.2 + ptr_size D fat) <$> children D ∅ [h].

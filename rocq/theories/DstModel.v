(** Executable model of [RefCount::<[T]>::from_slice] and [RefCount::<str>::from_str]
    (/repo/src/arc_dst.rs:24-65) with the parts of [core::alloc::Layout] they use, on a
    memory of bytes.

    [j]: a usize has [2^j] bytes ([j = 2], [3] for 32 and 64 bits); [esz] and [2^k] are size
    and alignment of [T].  Numbers are in [N]; where the code computes without a check the
    result is taken modulo [2^bits]. *)
From stdpp Require Import gmap list numbers.
From Verif Require Import Base.
Local Open Scope N_scope.

Section layout.
  Context (j : N).
  (** arc.rs:86. *)
  Definition word : N := 2 ^ j.             (* size_of::<usize>() *)
  (** A machine word, as in arc.rs:86. *)
  Definition bits : N := 8 * word.
  (** Of the standard library; used by arc_dst.rs:27-31. *)
  Definition wrap (x : N) : N := x mod 2 ^ bits.
  (** Of the standard library; used by arc_dst.rs:27-31. *)
  Definition isize_max : N := 2 ^ (bits - 1) - 1.

  (** A [Layout]: size and alignment. *)
  Notation lay := (N * N)%type.
  (** [Layout::max_size_for_align] Of the standard library; used by arc_dst.rs:27-31. *)
  Definition max_size_for_align (a : N) : N := isize_max + 1 - a.
  (** [Layout::from_size_align] (the alignment is a power of two)
      Of the standard library; used by arc_dst.rs:27-31. *)
  Definition from_size_align (size a : N) : option lay :=
    if size <=? max_size_for_align a then Some (size, a) else None.
  (** [Layout::array::<T>(n)] (arc_dst.rs:28). *)
  Definition array_layout (esz a n : N) : option lay :=
    if negb (esz =? 0) && (max_size_for_align a / esz <? n) then None
    else from_size_align (wrap (esz * n)) a.
  (** [Layout::size_rounded_up_to_custom_align]: (size + (a - 1)) & !(a - 1), unchecked
      Of the standard library; used by arc_dst.rs:27-31. *)
  Definition round_up_bits (size a : N) : N := N.ldiff (wrap (size + (a - 1))) (a - 1).
  (** [Layout::extend]; the sum is a checked_add (arc_dst.rs:28). *)
  Definition extend (l next : lay) : option (lay * N) :=
    let a := N.max l.2 next.2 in
    let offset := round_up_bits l.1 next.2 in
    if offset + next.1 <? 2 ^ bits then
      match from_size_align (offset + next.1) a with Some l' => Some (l', offset) | None => None end
    else None.
  (** [Layout::pad_to_align] (arc_dst.rs:31). *)
  Definition pad_to_align (l : lay) : lay := (round_up_bits l.1 l.2, l.2).

  (** The layout that [from_slice] computes: arc_dst.rs:27-31.  [None]: unwrap() panics.
      [Layout::new::<RefCount<()>>()] is that of an AtomicUsize. *)
  Definition slice_layout (esz k n : N) : option lay :=
    match array_layout esz (2 ^ k) n with
    | Some arr => match extend (word, word) arr with Some (l, _) => Some (pad_to_align l) | None => None end
    | None => None
    end.
End layout.

(** What rustc uses for the struct { count: AtomicUsize, data: [T] } of arc.rs:85-88: the
    unsized field is last, every field is at the next multiple of its alignment, the
    alignment is the largest of the fields', the size the next multiple of it.  (RefCount is
    not repr(C), but with one field before the unsized one there is nothing to reorder.) *)
Definition next_multiple (x a : N) : N := (x + (a - 1)) / a * a.
(** arc.rs:87. *)
Definition data_offset (j k : N) : N := next_multiple (word j) (2 ^ k).
(** arc.rs:84-88. *)
Definition dst_align (j k : N) : N := N.max (word j) (2 ^ k).
(** arc.rs:84-88. *)
Definition dst_size (j esz k n : N) : N := next_multiple (data_offset j k + esz * n) (dst_align j k).

(** ** Memory: the bytes that may be accessed, each initialised or not, and the live
    allocations with their layouts. *)
Notation mbyte := (option N).
(** The machine's memory: no counterpart in /repo. *)
Record bmem := BMem { b_bytes : gmap N mbyte; b_allocs : gmap N (N * N) }.
(** Bookkeeping of the model, no counterpart in /repo. *)
Definition span (a n : N) : list N := (λ i, a + N.of_nat i) <$> seq 0 (N.to_nat n).
(** Used for arc_dst.rs:49. *)
Definition load (m : bmem) (a n : N) : option (list mbyte) := mapM (λ x, b_bytes m !! x) (span a n).
(** Used for arc_dst.rs:44 and 49. *)
Definition store (m : bmem) (a : N) (bs : list mbyte) : option bmem :=
  let xs := span a (N.of_nat (length bs)) in
  if forallb (λ x, bool_decide (is_Some (b_bytes m !! x))) xs
  then Some (BMem (list_to_map (zip xs bs) ∪ b_bytes m) (b_allocs m)) else None.

(** May the allocator return [base] for a layout? (arc_dst.rs:33). *)
Definition may_alloc (j : N) (m : bmem) (base size a : N) : bool :=
  negb (base =? 0) && (base mod a =? 0) && (base + size <=? 2 ^ bits j) && bool_decide (b_allocs m !! base = None) &&
  forallb (λ x, bool_decide (b_bytes m !! x = None)) (span base size).
(** arc_dst.rs:33. *)
Definition add_alloc (m : bmem) (base size a : N) : bmem :=
  BMem (list_to_map ((λ x, (x, None)) <$> span base size) ∪ b_bytes m) (<[base:=(size, a)]> (b_allocs m)).
(** dealloc: undefined unless a live allocation with that layout.
    When the Box of arc.rs:105 is dropped. *)
Definition dealloc (m : bmem) (base size a : N) : option bmem :=
  if bool_decide (b_allocs m !! base = Some (size, a))
  then Some (BMem (foldr delete (b_bytes m) (span base size)) (delete base (b_allocs m))) else None.

(** The bytes of a usize (least significant first). (arc_dst.rs:44). *)
Fixpoint le_bytes (n : nat) (x : N) : list mbyte :=
  match n with O => [] | S n' => Some (x mod 256) :: le_bytes n' (x / 256) end.

(** Of arc_dst.rs:25-52. *)
Inductive dst_result :=
| DPanic                       (* a Layout unwrap() panicked *)
| DUB                          (* undefined behaviour *)
| DIllegal                     (* the allocator cannot return that *)
| DBox (m : bmem) (base : N).  (* a Box<RefCount<[T]>> at [base]; its length is [n] *)

(** [from_slice] for the [n] elements at [src].  [ans]: what alloc returns, [None] is null.
    The fields of [*this] are where rustc puts them. *)
Definition from_slice (j esz k n : N) (m : bmem) (src : N) (ans : option N) : dst_result :=
  match slice_layout j esz k n with
  | None => DPanic
  | Some (size, a) =>
      match ans with
      | None => DUB          (* line 42: Box::from_raw(null); line 44 writes through it *)
      | Some base =>
          if may_alloc j m base size a then
            let m1 := add_alloc m base size a in
            (* line 44: write the count, in place *)
            if negb (base mod dst_align j k =? 0) then DUB else
            match store m1 base (le_bytes (N.to_nat (word j)) 1) with
            | Some m2 =>
                (* lines 48-49: copy the elements *)
                let dst := base + data_offset j k in
                if negb (dst mod 2 ^ k =? 0) || negb (src mod 2 ^ k =? 0) then DUB else
                match load m2 src (esz * n) with
                | Some bs => match store m2 dst bs with Some m3 => DBox m3 base | None => DUB end
                | None => DUB
                end
            | None => DUB
            end
          else DIllegal
      end
  end.
(** [from_str]: from_slice of the bytes (lines 56-63); the cast changes nothing. *)
Definition from_str (j n : N) (m : bmem) (src : N) (ans : option N) : dst_result := from_slice j 1 0 n m src ans.
(** Dropping the box; [T] is Copy, so nothing to drop but the memory, with the layout of
    the value. (arc.rs:105, 320-322). *)
Definition drop_box (j esz k n : N) (m : bmem) (base : N) : option bmem :=
  dealloc m base (dst_size j esz k n) (dst_align j k).

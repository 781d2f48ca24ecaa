(** Boxes of RefCount<[T]> and RefCount<str>: properties C43 and C44.  Statements only;
    proofs in DstFinal.v. *)
From stdpp Require Import gmap list numbers.
From Verif Require Import Base DstModel DstFinal.
Local Open Scope N_scope.

(** C43.  [2^j] bytes per usize, elements of size [esz] and alignment [2^k], [n] of them.
    What [from_slice] computes with the checked and wrapping operations of
    [core::alloc::Layout] is the layout of the type, or a panic if that exceeds isize::MAX. *)
Theorem C43_layout_is_the_types j esz k n : k < bits j ->
  slice_layout j esz k n =
    if dst_size j esz k n <=? isize_max j then Some (dst_size j esz k n, dst_align j k) else None.
Proof. exact (layout_exact j k esz n). Qed.
Print Assumptions C43_layout_is_the_types.
(** In other words: the data is at the first aligned offset after the count, the size is the
    first multiple of the alignment that is enough. *)
Theorem C43_layout_is_the_least j esz k n size a :
  k < bits j -> slice_layout j esz k n = Some (size, a) ->
  a = N.max (word j) (2 ^ k) /\ size <= isize_max j /\
  exists off, ((2 ^ k | off) /\ word j <= off /\ forall x, (2 ^ k | x) -> word j <= x -> off <= x) /\
    ((a | size) /\ off + esz * n <= size /\ forall x, (a | x) -> off + esz * n <= x -> size <= x).
Proof. exact (layout_least j esz k n size a). Qed.
Print Assumptions C43_layout_is_the_least.
(** No smaller request panics, no larger one wraps. *)
Theorem C43_panics_iff_too_large j esz k n :
  k < bits j -> (slice_layout j esz k n = None <-> isize_max j < dst_size j esz k n).
Proof. exact (layout_panics j esz k n). Qed.
Print Assumptions C43_panics_iff_too_large.
(** Every element is aligned, after the count, and inside the allocation. *)
Theorem C43_elements_in_bounds j k esz n i :
  esz mod 2 ^ k = 0 -> i < n ->
  (data_offset j k + esz * i) mod 2 ^ k = 0 /\ word j <= data_offset j k + esz * i /\
  data_offset j k + esz * i + esz <= dst_size j esz k n.
Proof. exact (element_place j k esz n i). Qed.
Print Assumptions C43_elements_in_bounds.
(** 64 bits: three u16; two elements of size and alignment 32; no elements; the
    largest string, and one too large.  32 bits: five bytes. *)
Example C43_example :
  slice_layout 3 2 1 3 = Some (16, 8) /\ slice_layout 3 32 5 2 = Some (96, 32) /\ slice_layout 3 32 5 0 = Some (32, 32) /\
  data_offset 3 5 = 32 /\ slice_layout 3 1 0 (2 ^ 63 - 8) = None /\ slice_layout 3 1 0 (2 ^ 63 - 16) = Some (2 ^ 63 - 8, 8) /\
  slice_layout 3 8 3 (2 ^ 61) = None /\ slice_layout 2 1 0 5 = Some (12, 4) /\ 5 < bits 3.
Proof. by vm_compute. Qed.

(** C44.  For every memory, source slice and allocator choice: the box holds the count 1 and
    the bytes of the slice, no other memory changed, and dropping the box is defined and
    gives back exactly the memory before. *)
Theorem C44_contents (j k esz n : N) (m : bmem) (src base : N) (bs : list mbyte) :
  k < bits j -> dst_size j esz k n <= isize_max j ->
  may_alloc j m base (dst_size j esz k n) (dst_align j k) = true ->
  src mod 2 ^ k = 0 -> load m src (esz * n) = Some bs ->
  exists m', from_slice j esz k n m src (Some base) = DBox m' base /\
    load m' base (word j) = Some (le_bytes (N.to_nat (word j)) 1) /\
    load m' (base + data_offset j k) (esz * n) = Some bs /\
    (forall x, ~ (base <= x < base + dst_size j esz k n) -> b_bytes m' !! x = b_bytes m !! x) /\
    b_allocs m' = <[base := (dst_size j esz k n, dst_align j k)]> (b_allocs m) /\
    drop_box j esz k n m' base = Some m.
Proof. exact (slice_ok j k esz n m src base bs). Qed.
Print Assumptions C44_contents.
(** Element by element. *)
Theorem C44_elements (j k esz n : N) (m : bmem) (src base : N) (bs : list mbyte) (i : N) :
  k < bits j -> dst_size j esz k n <= isize_max j ->
  may_alloc j m base (dst_size j esz k n) (dst_align j k) = true ->
  src mod 2 ^ k = 0 -> load m src (esz * n) = Some bs -> i < n ->
  exists m', from_slice j esz k n m src (Some base) = DBox m' base /\
    load m' (base + data_offset j k + esz * i) esz = load m (src + esz * i) esz.
Proof. exact (λ H1 H2 H3 H4 H5, slice_element j k esz n m src base bs H1 H2 H3 H4 H5 i). Qed.
Print Assumptions C44_elements.
(** Strings. *)
Theorem C44_str_contents (j n : N) (m : bmem) (src base : N) (bs : list mbyte) :
  dst_size j 1 0 n <= isize_max j -> may_alloc j m base (dst_size j 1 0 n) (word j) = true ->
  load m src n = Some bs ->
  exists m', from_str j n m src (Some base) = DBox m' base /\
    load m' base (word j) = Some (le_bytes (N.to_nat (word j)) 1) /\ load m' (base + word j) n = Some bs.
Proof. exact (str_ok j n m src base bs). Qed.
Print Assumptions C44_str_contents.
(** If the allocator returns null, the behaviour is undefined, for every slice. *)
Theorem C44_null_is_not_checked j k esz n m src :
  k < bits j -> dst_size j esz k n <= isize_max j -> from_slice j esz k n m src None = DUB.
Proof. exact (slice_null j k esz n m src). Qed.
Print Assumptions C44_null_is_not_checked.

(** Three u16 at address 1000 (the last byte uninitialised), boxed at 4096. *)
Definition ex_mem : bmem := BMem (list_to_map (zip (span 1000 6) [Some 1; Some 0; Some 2; Some 0; Some 3; None])) ∅.
Example C44_example :
  dst_size 3 2 1 3 <= isize_max 3 /\ may_alloc 3 ex_mem 4096 (dst_size 3 2 1 3) (dst_align 3 1) = true /\
  load ex_mem 1000 (2 * 3) = Some [Some 1; Some 0; Some 2; Some 0; Some 3; None] /\
  match from_slice 3 2 1 3 ex_mem 1000 (Some 4096) with
  | DBox m' 4096 => load m' 4096 16 =
      Some [Some 1; Some 0; Some 0; Some 0; Some 0; Some 0; Some 0; Some 0; Some 1; Some 0; Some 2; Some 0; Some 3; None; None; None]
  | _ => False
  end.
Proof. split; [by vm_compute|]. by vm_compute. Qed.

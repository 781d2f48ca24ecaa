(** The type hasher and the container index: /repo/src/container.rs:85-123 and
    /repo/src/typearena.rs:29-62. *)
From stdpp Require Import list numbers.
From Verif Require Import Base.
Local Open Scope N_scope.

(** What [TypeId::hash] may call on the hasher.  [write_u8], [write_u32], [write_u128],
    [write_usize], ... are not overridden: their default is [write] of the bytes.
    (container.rs:94-112, 115.) *)
Inductive hcall := HWrite (bytes : list N) | HU64 (v : N).

(** [HasherForTypeId::write] (container.rs:95-103): wrapping u64 arithmetic. *)
Definition tid_byte (h b : N) : N := ((h * 31) mod 2 ^ 64 + b) mod 2 ^ 64.
(** [write_u64] (container.rs:105-107) overwrites. *)
Definition tid_call (h : N) (c : hcall) : N :=
  match c with HWrite bs => fold_left tid_byte bs h | HU64 v => v end.
(** [hash_of_type] (container.rs:85-117): starts from 0. *)
Definition tid_hash (cs : list hcall) : N := fold_left tid_call cs 0.

(** [hash as usize % 32] (container.rs:120, typearena.rs:60, 64) with [W]-bit usize. *)
Definition tid_index (W : N) (cs : list hcall) : N := (tid_hash cs mod 2 ^ W) mod 32.

(** Arguments are machine values. (container.rs:95, 105.) *)
Definition hcall_ok (c : hcall) : Prop :=
  match c with HWrite bs => Forall (λ b, b < 2 ^ 8) bs | HU64 v => v < 2 ^ 64 end.

(** C24: the container index.  [W] is the width of usize, [cs] the calls that [TypeId::hash]
    makes on the hasher. *)
From stdpp Require Import list numbers.
From Verif Require Import Base TidModel TidFinal InternModel.
Local Open Scope N_scope.

Theorem C24_index_in_range {A} (containers : list A) W cs :
  length containers = 32%nat -> is_Some (containers !! N.to_nat (tid_index W cs)).
Proof. exact (index_in_range containers W cs). Qed.
Print Assumptions C24_index_in_range.
Example C24_example :
  tid_index 64 [HWrite [255; 254; 253; 252; 251; 250; 249; 248; 1; 2; 3; 4; 5; 6; 7; 8]] = 0
  /\ tid_index 64 [HU64 (2 ^ 64 - 1)] = 31 /\ tid_index 16 [HU64 (2 ^ 64 - 1)] = 31.
Proof. split_and!; vm_compute; reflexivity. Qed.

(** The same on every platform (with at least 8-bit, here 5-bit, usize). *)
Theorem C24_index_stable W W' cs : 5 <= W -> 5 <= W' -> tid_index W cs = tid_index W' cs.
Proof. exact (index_width W W' cs). Qed.
Print Assumptions C24_index_stable.

(** The hash fits in a u64: the wrapping arithmetic does not overflow. *)
Theorem C24_hash_fits cs : Forall hcall_ok cs -> tid_hash cs < 2 ^ 64.
Proof. exact (tid_hash_lt cs). Qed.
Print Assumptions C24_hash_fits.
Example C24_fits_example :
  Forall hcall_ok [HU64 (2 ^ 64 - 1); HWrite [255; 255]] /\
  tid_hash [HU64 (2 ^ 64 - 1); HWrite [255; 255]] = 7199.
Proof. split; [repeat constructor|vm_compute; reflexivity]. Qed.

(** What the index is: the last u64 modulo 32, or the alternating sum of the bytes. *)
Theorem C24_index_of_u64 W v : 5 <= W -> tid_index W [HU64 v] = v mod 32.
Proof. exact (index_u64 W v). Qed.
Print Assumptions C24_index_of_u64.

Theorem C24_index_of_bytes W bs : 5 <= W -> (Z.of_N (tid_index W [HWrite bs]) = alternating bs mod 32)%Z.
Proof. exact (index_bytes W bs). Qed.
Print Assumptions C24_index_of_bytes.
Example C24_bytes_example :
  alternating [1; 2; 3] = 2%Z /\ tid_index 64 [HWrite [1; 2; 3]] = 2.
Proof. split; vm_compute; reflexivity. Qed.

(** It is the index that the model of Intern uses. *)
Theorem C24_index_used {V Q} (E : ienv V Q) ty W cs :
  ie_cells E = 32 -> ie_usize E = 2 ^ W -> ie_tid E ty = tid_hash cs -> slot E ty = N.to_nat (tid_index W cs).
Proof. exact (slot_index E ty W cs). Qed.
Print Assumptions C24_index_used.

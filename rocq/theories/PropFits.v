(** Fits64 for [Intern]: properties C40-C42.  Statements only; proofs in FitsFinal.v. *)
From stdpp Require Import gmap list numbers.
From Verif Require Import Base FitsModel FitsFinal.
Local Open Scope N_scope.

(** C40.  In every execution, the code that any thread computed for a handle (an address
    that is a multiple of the alignment) decodes to that handle in any thread; [None] would
    be an overflow. *)
Theorem C40_decodes ls s t1 a p x t2 r :
  run hstep hinit ls = Some s ->
  HvTo t1 a p x ∈ h_log s -> HvFrom t2 a x r ∈ h_log s -> (a | p) -> r = Some p.
Proof. exact (heap_decodes ls s t1 a p x t2 r). Qed.
Print Assumptions C40_decodes.
(** Codes of handles of one type are equal iff the handles are, and are [u64]s. *)
Theorem C40_injective ls s t1 a p1 x1 t2 p2 x2 :
  run hstep hinit ls = Some s ->
  HvTo t1 a p1 x1 ∈ h_log s -> HvTo t2 a p2 x2 ∈ h_log s -> (a | p1) -> (a | p2) ->
  (x1 = x2 <-> p1 = p2) /\ x1 < 2 ^ 64.
Proof. exact (heap_inj ls s t1 a p1 x1 t2 p2 x2). Qed.
Print Assumptions C40_injective.
(** The formulas alone, whatever the heap location. *)
Theorem C40_round_trip a h p :
  (a | p) -> a <> 0 -> p < 2 ^ 64 -> from_code a h (to_code a h p) = Some p.
Proof. exact (code_decodes a h p). Qed.
Print Assumptions C40_round_trip.

(** Threads 1 and 2 race for the first use; thread 1 wins with 0x7000, thread 3 then reads a
    stale null and loses, too. *)
Definition ex_heap : list hlabel :=
  [HCall 1 (HTo 8 0x7ff8); HCall 2 HHeap; HStep 1 false 0; HStep 2 false 0; HStep 2 false 0x9000; HStep 1 false 0x7000;
   HStep 1 false 0; HStep 2 false 0; HStep 1 false 0; HStep 2 false 0;
   HCall 3 (HFrom 8 0x1ff); HStep 3 true 0; HStep 3 true 0xa000; HStep 3 true 0; HStep 3 true 0;
   HCall 2 (HTo 8 0x7008); HStep 2 false 0; HStep 2 false 0].
Definition hafter (ls : list hlabel) : hstate := default hinit (run hstep hinit ls).
Example C40_example :
  run hstep hinit ex_heap = Some (hafter ex_heap) /\ (8 | 0x7ff8) /\ (8 | 0x7008) /\
  h_log (hafter ex_heap) = [HvTo 2 8 0x7008 1; HvFrom 3 8 0x1ff (Some 0x7ff8); HvHeap 2 0x7000; HvTo 1 8 0x7ff8 0x1ff].
Proof. split_and!; [by vm_compute|by exists 0xfff|by exists 0xe01|by vm_compute]. Qed.
(** A number that is no code of the type may overflow: from_u64 is rightly unsafe. *)
Example C40_overflow_example : from_code 8 0x7000 (2 ^ 62) = None.
Proof. by vm_compute. Qed.

(** C41.  All calls of heap_location, in all threads, return the same value, not null. *)
Theorem C41_heap_location_agrees ls s t1 h1 t2 h2 :
  run hstep hinit ls = Some s -> HvHeap t1 h1 ∈ h_log s -> HvHeap t2 h2 ∈ h_log s ->
  h1 = h2 /\ h1 <> 0 /\ h1 < 2 ^ 64.
Proof. exact (heap_agree ls s t1 h1 t2 h2). Qed.
Print Assumptions C41_heap_location_agrees.
(** Every execution is defined, and a call completes in at most four steps of its own,
    whatever the other threads are doing. *)
Theorem C41_wait_free ls s t o q b :
  run hstep hinit ls = Some s -> h_threads s !! t = None ->
  match o with HHeap => True | HTo a p => a <> 0 /\ p < 2 ^ 64 | HFrom a x => a <> 0 /\ x < 2 ^ 64 end ->
  q <> 0 -> q < 2 ^ 64 ->
  exists n s', (n <= 4)%nat /\ run hstep s (HCall t o :: replicate n (HStep t b q)) = Some s' /\
    h_threads s' !! t = None /\ length (h_log s') = S (length (h_log s)).
Proof. exact (heap_waitfree ls s t o q b). Qed.
Print Assumptions C41_wait_free.
(** Thread 2 is between its load and its compare_exchange when thread 1 stores. *)
Example C41_example :
  run hstep hinit (take 6 ex_heap) = Some (hafter (take 6 ex_heap)) /\
  map_to_list (h_threads (hafter (take 6 ex_heap))) = [(1%nat, HCas (HTo 8 0x7ff8) 0x7000); (2%nat, HCas HHeap 0x9000)] /\
  h_threads (hafter (take 6 ex_heap)) !! 3%nat = None.
Proof. split_and!; by vm_compute. Qed.

(** C42.  The code of a handle has at most [k] bits iff the address and the heap location,
    both divided by the alignment, agree on all bits from [k] upwards. *)
Theorem C42_small_codes ls s t a p x t' h k :
  run hstep hinit ls = Some s -> HvTo t a p x ∈ h_log s -> HvHeap t' h ∈ h_log s ->
  (x < 2 ^ k <-> N.shiftr (p / a) k = N.shiftr (h / a) k).
Proof. exact (heap_small ls s t a p x t' h k). Qed.
Print Assumptions C42_small_codes.
(** Handles within 4096 bytes of the heap location, at alignment 8: codes below 512. *)
Example C42_example :
  HvTo 1 8 0x7ff8 0x1ff ∈ h_log (hafter ex_heap) /\ HvHeap 2 0x7000 ∈ h_log (hafter ex_heap) /\
  N.shiftr (0x7ff8 / 8) 9 = N.shiftr (0x7000 / 8) 9.
Proof. split_and!; [apply elem_of_list_In; vm_compute; tauto..|by vm_compute]. Qed.

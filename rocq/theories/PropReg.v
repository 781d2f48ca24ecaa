(** C16: one container per type.  [common] are the types with a static of their own,
    [shard] the shard of a type in the type map; both arbitrary. *)
From stdpp Require Import gmap list numbers.
From Verif Require Import Base RegModel RegInv RegFinal.

(** All calls return; same type iff same container. *)
Theorem C16_one_container_per_type (common : list nat) (shard : nat -> nat) ls st t1 ty1 c1 t2 ty2 c2 :
  run (gstep common shard) ginit ls = Some st ->
  EvGot t1 ty1 c1 ∈ g_log st -> EvGot t2 ty2 c2 ∈ g_log st ->
  c1 = c2 <-> ty1 = ty2.
Proof. exact (reg_one common shard ls st t1 ty1 c1 t2 ty2 c2). Qed.
Print Assumptions C16_one_container_per_type.
(** Threads 1 and 2 race on type 7 (both find the map empty), thread 3 uses type 0, a
    common one. *)
Example C16_example :
  let ls := [GCall 1 7; GCall 2 7; GStep 1; GStep 2; GStep 1; GStep 2; GStep 1; GStep 2; GStep 2;
             GStep 1; GStep 2; GStep 2; GStep 2; GStep 1; GStep 1; GStep 1; GStep 1; GStep 1;
             GCall 3 0; GStep 3; GStep 3] in
  g_log <$> run (gstep [0; 1] (λ ty, ty mod 4)) ginit ls = Some [EvGot 3 0 1; EvGot 1 7 0; EvGot 2 7 0].
Proof. vm_compute. reflexivity. Qed.

(** The downcast never fails, nothing undefined happens, and no container is ever made
    twice for a type. *)
Theorem C16_no_panic_no_duplicate (common : list nat) (shard : nat -> nat) ls :
  exists st, run (gstep common shard) ginit ls = Some st /\
    (forall t ty, EvPanic t ty ∉ g_log st) /\ NoDup (g_boxes st).
Proof. exact (reg_safe common shard ls). Qed.
Print Assumptions C16_no_panic_no_duplicate.

(** From every reachable state the running calls can all be completed. *)
Theorem C16_calls_can_finish (common : list nat) (shard : nat -> nat) ls st :
  run (gstep common shard) ginit ls = Some st ->
  exists ts st', run (gstep common shard) st (map GStep ts) = Some st' /\
    forall t, get_gpc st' t = GFree.
Proof. exact (reg_finish common shard ls st). Qed.
Print Assumptions C16_calls_can_finish.
(** Thread 2 is blocked by thread 1, which holds the write lock. *)
Example C16_finish_example :
  let ls := [GCall 1 7; GCall 2 3; GStep 1; GStep 1; GStep 2; GStep 1; GStep 1] in
  match run (gstep [0; 1] (λ ty, ty mod 4)) ginit ls with
  | Some st => get_gpc st 1 = GVac 7 /\ get_gpc st 2 = GGet 3
               /\ gstep [0; 1] (λ ty, ty mod 4) st (GStep 2) = Blocked
  | None => False
  end.
Proof. vm_compute. auto. Qed.

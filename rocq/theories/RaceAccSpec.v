(** Vocabulary to say that the operations given to a step of RaceModel account for everything
    that the step does (C51). *)
From stdpp Require Import gmap list numbers.
From Verif Require Import Base ArcModel ArcSpec RaceModel RaceSpec.

Definition touches (ms : list mop) (k : nat) (w : how) : Prop := exists m, m ∈ ms /\ (k, w) ∈ touched m.

Section acc.
  Context {V : Type} (E : tyenv V).
  Implicit Types (s : rstate V) (ms : list mop).

  (** The state with other data, or another count, in object [k]. *)
  Definition poke_data (k : nat) (v : V) (c : cell V) : cell V :=
    if c_ser c =? k then match c_data c with Some _ => Cell (c_ser c) (c_count c) (Some v) | None => c end else c.
  Definition poke_count (k : nat) (n : N) (c : cell V) : cell V :=
    if c_ser c =? k then Cell (c_ser c) n (c_data c) else c.
  Definition poke (f : cell V -> cell V) s : rstate V := set_st s (set_heap (r_st s) (f <$> st_heap (r_st s))).

  (** What a step changes in the heap it is said to write: objects are created and destroyed by
      writes, counts changed by read-modify-writes, and nothing else changes. *)
  Definition heap_written s ms s' : Prop :=
    (forall a c, st_heap (r_st s) !! a = Some c ->
       (forall c', st_heap (r_st s') !! a = Some c' -> c_ser c' <> c_ser c) -> touches ms (c_ser c) TWrite) /\
    (forall a c', st_heap (r_st s') !! a = Some c' -> st_heap (r_st s) !! a <> Some c' ->
       touches ms (c_ser c') TWrite \/
       exists c o, st_heap (r_st s) !! a = Some c /\ c_ser c = c_ser c' /\ c_data c = c_data c' /\ MRmw (c_ser c') o ∈ ms).

  (** The shard locks are taken and released by thread [t] as said. *)
  Definition locks_moved s (t : nat) ms s' : Prop :=
    (forall l, MAcq l ∈ ms -> st_locks (r_st s) !! l = None) /\
    (forall l, MRel l ∈ ms -> (st_locks (r_st s) !! l = Some t \/ MAcq l ∈ ms) /\ st_locks (r_st s') !! l = None) /\
    (forall l, st_locks (r_st s') !! l <> st_locks (r_st s) !! l ->
       MAcq l ∈ ms /\ st_locks (r_st s') !! l = Some t \/ MRel l ∈ ms /\ st_locks (r_st s) !! l = Some t).

  (** An entry belongs to shard [l] of the table. *)
  Definition of_shard s (l : nat * nat) (q : ptr) : bool := in_shard E (r_st s) l.1 l.2 q.
  (** The state without the entries [P] of the table. *)
  Definition less (P : ptr -> bool) s : rstate V :=
    set_st s (set_table (r_st s) (List.filter (λ q, negb (P q)) (st_table (r_st s)))).
  (** Thread [t] has shard [l] locked for a step: it holds or takes the (write) lock, or it is
      counting the entries of the shard with the read lock. *)
  Definition has_shard s (t : nat) ms (l : nat * nat) : Prop :=
    st_locks (r_st s) !! l = Some t \/ MAcq l ∈ ms \/
    exists n, get_pc (r_st s) t = PLen l.1 l.2 n /\ st_locks (r_st s) !! l = None.
End acc.

(** [refcount()] (arc.rs:207-209) under the memory model of C++20 and Rust: the load of the count
    need not return the latest value.

    Wraps RaceModel.  The values an atomic variable has had are its initial value and what the
    read-modify-writes wrote, in the order in which they happened; they are numbered from 0.  A
    load may read any of them, unless the thread knows of a later one: the write itself, or some
    load that returned it, happens before the load (write-read and read-read coherence).  An
    acquiring load synchronises with the releasing operations up to the one it reads from (all
    of them are in whose release sequence that one is, since there are only
    read-modify-writes); with the initial value, with nothing.

    The log of ArcModel inside has the latest value for each load; what is returned here is in
    [w_got].

    Simplification: were the load [SeqCst], fewer values would be allowed than here, and the
    fence of arc.rs:314 may exclude some too. *)
From stdpp Require Import gmap list numbers.
From Verif Require Import Base ArcModel RaceModel.

(** A write of a count: the object, the value written, what a load reading it synchronises
    with, and the position of the access in the trace. (arc.rs:231, 241, 245, 279, 299.) *)
Record write := Write { w_obj : nat; w_val : N; w_pub : gset nat; w_at : nat }.
(** A load: the object, the number of the value returned, the position of the access.
    (arc.rs:208.) *)
Record rread := Read { e_obj : nat; e_no : nat; e_at : nat }.

(** RaceModel's state (arc.rs:84-88), and the history of the counts. *)
Record wstate (V : Type) := WState {
  w_race : rstate V;
  w_writes : list write;              (* oldest first *)
  w_reads : list rread;
  w_got : list (nat * ptr * N);       (* results of refcount(): thread, object, value *)
}.
Global Arguments WState {V}.
Global Arguments w_race {V}.
Global Arguments w_writes {V}.
Global Arguments w_reads {V}.
Global Arguments w_got {V}.

(** Everything of RaceModel except [RRef], and [refcount()] returning value number [w].
    (arc.rs:207-209.) *)
Inductive wlabel (V : Type) :=
| WL (l : rlabel V)
| WRef (t h : nat) (ks : list ptr) (w : nat).
Global Arguments WL {V}.
Global Arguments WRef {V}.

Section weak.
  Context {V : Type} (E : tyenv V) (O : orders).
  Implicit Types (s : rstate V) (x : wstate V).

  (** Empty containers: arc.rs:157, 167, 175. *)
  Definition winit : wstate V := WState rinit [] [] [].

  (** The object whose count the step changes: fetch_add in clone (arc.rs:279) and in new
      (arc.rs:231, arc_dst.rs:83), fetch_sub in new (arc.rs:241, arc_dst.rs:93) and in drop
      (arc.rs:299). *)
  Definition rmw_obj s (l : rlabel V) : option ptr :=
    match l with
    | RClone t h ks _ => match r_hands s !! h with Some y => Some (target (h_ptr y) ks) | None => None end
    | RStep t _ _ _ =>
        match get_pc (r_st s) t with
        | PHit _ _ _ p => Some p
        | PInc _ _ _ p old => if (old =? 0)%N then Some p else None
        | PWork (IDrop p :: _) _ => Some p
        | _ => None
        end
    | _ => None
    end.
  (** arc.rs:86. *)
  Definition new_count s p : N := match deref (r_st s) p with Some c => c_count c | None => 0%N end.
  (** It is the last access of its step. Bookkeeping of the model, no counterpart in /repo. *)
  Definition record s l s' : list write :=
    match rmw_obj s l with
    | Some p => [Write (p_ser p) (new_count s' p) (countv s' (p_ser p)) (pred (length (r_trace s')))]
    | None => []
    end.

  (** Bookkeeping of the model, no counterpart in /repo. *)
  Definition writes_of x (k : nat) : list write := List.filter (λ z, w_obj z =? k) (w_writes x).
  (** Bookkeeping of the model, no counterpart in /repo. *)
  Definition reads_of x (k : nat) : list rread := List.filter (λ z, e_obj z =? k) (w_reads x).

  (** Value number [w] of the count of [k] and what a load of it synchronises with:
      [AtomicUsize::new(1)] (arc.rs:245, arc_dst.rs:44) or a later write. *)
  Definition value x (k w : nat) : option (N * gset nat) :=
    match w with
    | 0 => Some (1%N, ∅)
    | S w' => match writes_of x k !! w' with Some z => Some (w_val z, w_pub z) | None => None end
    end.
  (** A thread that has seen [W] may still read value number [w].
      A rule of Rust: no counterpart in /repo. *)
  Definition coherent_read x (k w : nat) (W : gset nat) : bool :=
    forallb (λ z, negb (bool_decide (w_at z ∈ W))) (drop w (writes_of x k)) &&
    forallb (λ z, (e_no z <=? w) || negb (bool_decide (e_at z ∈ W))) (reads_of x k).

  (** arc.rs:207-209. *)
  Definition is_ref (l : rlabel V) : bool := match l with RRef _ _ _ => true | _ => false end.

  (** arc.rs:207-209 for [WRef], otherwise a step of RaceModel. *)
  Definition wstep x (l : wlabel V) : outcome (wstate V) :=
    let s := w_race x in
    match l with
    | WL l =>
        if is_ref l then Illegal else
        match rstep E O s l with
        | Next s' => Next (WState s' (w_writes x ++ record s l s') (w_reads x) (w_got x))
        | Blocked => Blocked
        | Illegal => Illegal
        | UB => UB
        end
    | WRef t h ks w =>
        match may_use s t h with
        | Some y =>
            let p := target (h_ptr y) ks in
            match step E (r_st s) (LRef (h_ptr y) ks) with
            | Next st =>
                match value x (p_ser p) w with
                | Some (n, W) =>
                    if coherent_read x (p_ser p) w (seen s t) then
                      let s1 := apply (set_st s st) t (MTouch ((λ n, (n, TRead)) <$> path (h_ptr y) ks)) in
                      let s2 := if acquires (o_load O) then set_seen s1 t (W ∪ seen s1 t) else s1 in
                      Next (WState (used (add_access s2 t [(p_ser p, TAtomic)]) t h y) (w_writes x)
                              (w_reads x ++ [Read (p_ser p) w (length (r_trace s2))])
                              (w_got x ++ [(t, p, n)]))
                    else Illegal
                | None => Illegal
                end
            | Blocked => Blocked
            | Illegal => Illegal
            | UB => UB
            end
        | None => Illegal
        end
    end.
End weak.

(** Tests of the model, not properties: the unit tests of the crate replayed as executions of
    the model (the assertions become statements about the log), and checks that the model
    reports the undefined behaviour and allows the user-code behaviour that the theorems
    quantify over.  The module names below follow the names of the tests in /repo/src. *)
From stdpp Require Import gmap list numbers.
From Verif Require Import Base.
From Verif Require ArcModel ArcEx InternModel InternEx NewModel NewEx ArenaModel ArenaEx DstModel.

(** ** arc.rs, arc_dst.rs *)
Module arc.
  Import ArcModel ArcEx.
  (** An i32 [n]: Eq of [ArcEx] ignores the last bit. *)
  Definition num (n : nat) : node := Node 0 (2 * n) [].
  Definition mk (a n : nat) : list (label node) := LNew 1 KSized (num n) :: steps 1 a 9.
  Definition mks (a n : nat) : list (label node) := LNew 1 KDst (num n) :: steps 1 a 9.
  Definition rm (a s : nat) : list (label node) := LDrop 1 (Ptr a s) :: steps 1 0 9.
  Definition len : list (label node) := LLen 1 0 :: steps 1 0 9.
  Definition lens (st : state node) : list nat :=
    omap (λ e, match e with EvLen _ _ n => Some n | _ => None end) (reverse (st_log st)).
  Definition refs (st : state node) : list N :=
    omap (λ e, match e with EvRef _ n => Some n | _ => None end) (reverse (st_log st)).
  Definition made (st : state node) : list (nat * nat) :=
    omap (λ e, match e with EvNew _ v p => Some (n_val v / 2, p_addr p) | _ => None end) (reverse (st_log st)).

  (** test_arcintern_freeing: arc.rs:513-537.  The allocator reuses address 10. *)
  Example test_arcintern_freeing :
    let st := after exE (len ++ mk 10 5 ++ mk 20 5 ++ rm 10 0 ++ rm 10 0
      ++ mk 10 6 ++ len ++ rm 10 1 ++ mk 10 6 ++ len ++ rm 10 2 ++ mk 10 7 ++ len ++ rm 10 3
      ++ mk 10 6 ++ mk 20 7 ++ len ++ rm 20 5 ++ mk 30 6) in
    lens st = [0; 1; 1; 1; 2] /\
    made st = [(5, 10); (5, 10); (6, 10); (6, 10); (7, 10); (6, 10); (7, 20); (6, 10)].
  Proof. by vm_compute. Qed.

  (** test_arcintern_nested_drop: arc.rs:539-548.  Both boxes are freed. *)
  Example test_arcintern_nested_drop :
    let st := after exE (LNew 1 KSized (Node 1 0 []) :: steps 1 10 9 ++ LNew 1 KSized (Node 1 2 [Ptr 10 0]) :: steps 1 20 9
      ++ LDrop 1 (Ptr 20 1) :: steps 1 0 15) in
    (map_to_list (st_heap st)).*1 = [] /\ st_table st = [] /\ st_next st = 2.
  Proof. by vm_compute. Qed.

  (** arc_intern_str: arc_dst.rs:388-411. *)
  Example arc_intern_str :
    let x := Ptr 10 0 in
    let st := after exE (mks 10 5 ++ [LRef x []] ++ mks 20 5 ++ [LRef x []; LRef x []] ++ mks 20 5 ++
      [LRef x []; LRef x []; LRef x []] ++ rm 10 0 ++ [LRef x []; LRef x []] ++ rm 10 0 ++ [LRef x []]) in
    refs st = [1; 2; 2; 3; 3; 3; 2; 2; 1]%N /\ made st = [(5, 10); (5, 10); (5, 10)].
  Proof. by vm_compute. Qed.

  (** A use after free, a double drop and a drop of a handle never given are not accepted:
      such labels are no steps of the client; and the code itself touching a freed box is UB. *)
  Example no_double_drop :
    let st := after exE (mk 10 5 ++ rm 10 0) in
    step exE st (LDrop 1 (Ptr 10 0)) = Illegal /\ step exE st (LRef (Ptr 10 0) []) = Illegal.
  Proof. by vm_compute. Qed.
  Example dangling_drop_is_ub :
    step exE (State ∅ [] ∅ [] [] {[1 := PWork [IDrop (Ptr 10 0)] None]} 1 [] []) (LStep 1 0 0) = UB.
  Proof. by vm_compute. Qed.
  (** So is a search in a table with an entry whose box is gone, in each of the three places;
      and any access to such a box. *)
  Example dangling_element_is_ub :
    let st x := State {[20 := Cell 1 1%N (Some (num 7))]} [Ptr 10 0] ∅ [] [] {[1 := x]} 2 [] [] in
    Forall (λ x, step exE (st x) (LStep 1 30 0) = UB)
      [PLookup KSized (num 3) None; PEntry KSized (num 7) (Ptr 20 1); PWork [IRemove (Ptr 20 1)] None].
  Proof. repeat constructor; by vm_compute. Qed.
  Example dangling_access_is_ub :
    let st x := State ∅ [] ∅ [] [] {[1 := x]} 1 [] [] in
    Forall (λ x, step exE (st x) (LStep 1 30 0) = UB)
      [PHit KSized (num 3) None (Ptr 10 0); PInc KSized (num 3) None (Ptr 10 0) 0; PEntry KSized (num 3) (Ptr 10 0);
       POcc KSized (num 3) (Ptr 10 0); PRem (0, 0) (Ptr 10 0) [] None; PWork [IDrop (Ptr 10 0)] None;
       PWork [IRemove (Ptr 10 0)] None; PWork [IFree (Ptr 10 0)] None].
  Proof. repeat constructor; by vm_compute. Qed.
End arc.

(** ** intern.rs *)
Module intern.
  Import InternModel InternEx.
  Definition mk (a n : nat) := icall 1 a (ONew (IV 0 (2 * n) 0)) 9.
  Definition len := icall 1 0 (OLen 0) 9.
  Definition lens (st : istate ival (nat * nat)) : list nat :=
    omap (λ e, match e with EvRet _ _ (RNum n) => Some n | _ => None end) (reverse (i_log st)).
  Definition made (st : istate ival (nat * nat)) : list (nat * nat) :=
    omap (λ e, match e with EvRet _ o (RPtr p) => Some (match o with ONew v | OVia v | OBox v => iv_n v / 2 | ORef _ _ q => q.1 / 2 | _ => 0 end, ip_addr p)
                          | _ => None end) (reverse (i_log st)).

  (** test_intern_num_objects: intern.rs:712-729. *)
  Example test_intern_num_objects :
    let st := iafter toyE (len ++ mk 100 5 ++ mk 101 5 ++ mk 101 6 ++ [IDeref (IPtr 101 0 1)] ++ len ++ mk 102 6 ++ len ++ mk 102 7 ++ len) in
    lens st = [0; 2; 2; 3] /\ made st = [(5, 100); (5, 100); (6, 101); (6, 101); (7, 102)] /\ EvRead (IPtr 101 0 1) (IV 0 12 0) ∈ i_log st.
  Proof. vm_compute. split_and!; [done..|]. apply elem_of_list_In. simpl. tauto. Qed.

  (** test_intern_unsized: intern.rs:180-199, with slices of length 5 and 7. *)
  Example test_intern_unsized :
    let v a n l := icall 1 a (OVia (IV 2 (2 * n) l)) 9 in
    let st := iafter toyE (v 100 4 5 ++ v 101 4 5 ++ icall 1 101 (OBox (IV 2 8 5)) 9 ++ icall 1 101 (OBox (IV 2 10 7)) 9) in
    made st = [(4, 100); (4, 100); (4, 100); (5, 101)].
  Proof. by vm_compute. Qed.

  (** test_benchmarking_only_clear_interns: intern.rs:282-287. *)
  Example test_benchmarking_only_clear_interns :
    let st := iafter toyE (mk 100 5 ++ len ++ icall 1 0 (OClear 0) 9 ++ len) in lens st = [1; 0].
  Proof. by vm_compute. Qed.

  (** A set holding a pointer to nothing: searching it is UB. *)
  Example dangling_element_is_ub :
    istep toyE (IState ∅ {[5 := [(0, [IPtr 100 0 0])]]} {[5 := 1]} ∅ {[1 := [FGet (ONew (IV 0 4 0)) None]]} 1 []) (IStep 1 0 0) = UB.
  Proof. by vm_compute. Qed.
End intern.

(** ** typearena.rs *)
Module newintern.
  Import InternModel InternEx NewModel NewEx.
  Definition mk (a n : nat) : nlabels := ICall 1 (ONew (IV 0 (2 * n) 0)) 0 :: nsteps 1 a 12.
  Definition len : nlabels := ICall 1 (OLen 0) 0 :: nsteps 1 0 12.
  Definition lens (st : nstate ival (nat * nat)) : list nat :=
    omap (λ e, match e with EvRet _ _ (RNum n) => Some n | _ => None end) (reverse (n_log st)).
  (** test_intern_num_objects: typearena.rs:560-577. *)
  Example test_intern_num_objects :
    lens (nafter toyE (len ++ mk 100 5 ++ mk 101 5 ++ mk 101 6 ++ len ++ mk 102 6 ++ len ++ mk 102 7 ++ len)) = [0; 2; 2; 3].
  Proof. by vm_compute. Qed.

  (** After a panic the mutex of type 0 is poisoned.  Thread 3's call panics, and the drop of
      its argument interns another value of type 2 meanwhile. *)
  Example panicking_drop_calls_back :
    let st := nafter toyE (ex_npanic ++ nsteps 3 0 1 ++ [ICall 3 (ONew (IV 2 1 3)) 0]) in
    let st' := nafter toyE (ex_npanic ++ nsteps 3 0 1 ++ ICall 3 (ONew (IV 2 1 3)) 0 :: nsteps 3 400 12) in
    nstack st 3 = [NScan (ONew (IV 2 1 3)) None false; NPanic (ONew (IV 0 4 0)) None] /\
    exists p, EvRet 3 (ONew (IV 2 1 3)) (RPtr p) ∈ n_log st'.
  Proof. vm_compute. split; [done|]. eexists. apply elem_of_list_In. simpl. tauto. Qed.
End newintern.

(** ** arena.rs *)
Module arena.
  Import InternModel InternEx ArenaModel ArenaEx.
  Example dangling_element_is_ub :
    astep toyE (AState ∅ {[0 := Ar 0 [IPtr 100 0 0]]} {[0 := 1]} ∅ {[1 := [AGet 0 (ANew (IV 0 4 0)) None]]} 1 1 []) (LStep 1 0 0) = UB.
  Proof. by vm_compute. Qed.
End arena.

(** ** arc_dst.rs *)
Module dst.
  Import DstModel.
  Local Open Scope N_scope.
  (** Two u16s at an address that is, or is not, even; an unmapped source; null. *)
  Definition mem (src : N) : bmem := BMem (list_to_map ((λ x, (x, Some 7)) <$> span src 4)) ∅.
  Example checks :
    match from_slice 3 2 1 2 (mem 1000) 1000 (Some 4096) with DBox _ b => b = 4096 | _ => False end /\
    from_slice 3 2 1 2 (mem 1001) 1001 (Some 4096) = DUB /\
    from_slice 3 2 1 2 (mem 1000) 1002 (Some 4096) = DUB /\
    from_slice 3 2 1 2 (mem 1000) 1000 None = DUB /\
    from_slice 3 2 1 2 (mem 1000) 1000 (Some 4097) = DIllegal /\
    from_slice 3 2 1 2 (mem 1000) 1000 (Some 1000) = DIllegal.
  Proof. by vm_compute. Qed.

  (** dst_memory_aligned: arc_dst.rs:435-472. *)
  Example dst_memory_aligned :
    Forall (λ k, let a := 2 ^ k in dst_size 3 a k 10 mod dst_align 3 k = 0 /\
                 data_offset 3 k mod a = 0 /\ slice_layout 3 a k 10 = Some (dst_size 3 a k 10, dst_align 3 k)) [0; 1; 2; 3; 4; 5; 6; 7].
  Proof. by repeat constructor. Qed.
  (** zst_for_dst: arc_dst.rs:421-433. *)
  Example zst_for_dst : slice_layout 3 0 0 500 = Some (8, 8).
  Proof. by vm_compute. Qed.
End dst.

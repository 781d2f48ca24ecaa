(** What the threads of an execution of [NewModel] do to memory.  The labels are those of
    [InternModel]; accesses to the sets and values are as in HbModel.v, with one mutex for
    each set. *)
From stdpp Require Import gmap list numbers.
From Verif Require Import Base InternModel NewModel HbSpec HbModel.

Section new.
  Context {V Q : Type} (E : ienv V Q).
  Implicit Types (s : nstate V Q) (o : iop V Q) (p : iptr).

  (** A search reads the table and the elements (typearena.rs:214, 227, 262, 280). *)
  Definition n_search s o (i : nat) : list (mloc * bool) :=
    let x := (slot E (op_ty E o), i) in (LSet x, false) :: ((λ p, (val p, false)) <$> nset s x).
  (** Hash, Eq and Drop: typearena.rs:214-219, 227, 262-267, 280. *)
  Definition n_looks s (t : nat) : list (mloc * bool) :=
    match nstack s t with
    | NIn i (FGet o b) :: _ => n_search s o i ++ val_opt b false
    | NIn i (FIns o p) :: _ => n_search s o i ++ [(val p, false)]
    | NIn _ (FDup _ b _) :: _ | NPanic _ b :: _ => val_opt b true     (* Drop *)
    | _ => []
    end.

  (** How many elements the loop looks at (typearena.rs:64-65, 77-78): up to the first that has
      the type; all those below the length that was read if none has. *)
  Definition n_seen s o (again : bool) (j : nat) : nat :=
    let l := nvec s (slot E (op_ty E o)) in
    match find_ty (op_ty E o) l with
    | Some i => if (j =? 0) || again then S i else i - Nat.pred j
    | None => length l - j
    end.

  Definition n_does s (t : nat) (l : ilabel V Q) : list act :=
    match l with
    | ICall _ (OBox _) _ => [ATouch [(LVal (n_next s), true)]]  (* the client makes a box *)
    | ICall _ _ _ | IConv _ _ => []
    | IPanic _ => [ATouch (n_looks s t)]
    | IDeref p => [ARead p]
    | IStep _ _ j =>
        match nstack s t with
        | NScan o _ again :: _ =>
            (* iter(): the length is loaded (Acquire), then each element's type read through its
               vtable, typearena.rs:64-65, 77-78 *)
            let c := slot E (op_ty E o) in let n := n_seen s o again j in
            ((λ i, AAcq (SElt (c, i))) <$> seq 0 n) ++ [ATouch ((λ i, (LElt (c, i), false)) <$> seq 0 n)]
        | NPush o _ :: _ =>
            (* Box::new(Mutex::new(HashSet::new())) and the write of the element: lines 70-71 *)
            let x := (slot E (op_ty E o), nresv s (slot E (op_ty E o))) in [ATouch [(LElt x, true); (LSet x, true)]]
        | NPub o _ i :: _ => [ARel (SElt (slot E (op_ty E o), i))]   (* compare_exchange(.., Release, ..) *)
        | NLock o _ i :: _ =>
            (* lock() reaches the mutex through the element, lines 66 and 79; a poisoned one is
               released at once *)
            let x := (slot E (op_ty E o), i) in
            [ATouch [(LElt x, false)]; AAcq (SLock x);
             if bool_decide (x ∈ n_poison s) then ARel (SLock x) else ATouch [(LSet x, true)]]
        | NIn _ (FStore _ _) :: _ => [ATouch [(LVal (n_next s), true)]]
        | NIn i (FIns o _) :: _ => [ATouch ((LSet (slot E (op_ty E o), i), true) :: n_looks s t)]
        | NIn i (FDone o r) :: _ =>        (* the guard is dropped *)
            ARel (SLock (slot E (op_ty E o), i)) :: match r with RPtr p => [AGot p] | _ => [] end
        | _ => [ATouch (n_looks s t)]
        end
    end.
End new.

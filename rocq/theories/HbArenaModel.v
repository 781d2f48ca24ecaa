(** What the threads of an execution of [ArenaModel] do to memory. *)
From stdpp Require Import gmap list numbers.
From Verif Require Import Base InternModel ArenaModel HbSpec HbModel.

Section arena.
  Context {V Q : Type} (E : ienv V Q).
  Implicit Types (st : astate V Q) (o : aop V Q) (p : iptr) (r : nat).

  (** Bookkeeping of the model, no counterpart in /repo. *)
  Definition a_by (l : alabel V Q) (t : nat) : bool :=
    match l with
    | LArena u _ | LCall u _ _ _ | LStep u _ _ | LConv u _ | LPanic u | LDrop u _ => u =? t
    | LRead _ _ => true
    end.

  (** An arena is a mutex of a set of boxes (arena.rs:51-56). *)
  Definition a_mem r : mloc := LElt (r, 0).
  (** arena.rs:53, boxedset.rs:11. *)
  Definition a_data r : mloc := LSet (r, 0).
  (** arena.rs:53. *)
  Definition a_mutex r : sobj := SLock (r, 0).

  (** A search reads the table and the elements (boxedset.rs:53-67, 78-84). *)
  Definition a_search st r : list (mloc * bool) := (a_data r, false) :: ((λ p, (val p, false)) <$> a_set st r).
  (** Hash, Eq and Drop are called at arena.rs:121, 128, 144, 163 and when an arena or an argument is dropped. *)
  Definition a_looks st (t : nat) : list (mloc * bool) :=
    match a_stack st t with
    | AGet r _ b :: _ => a_search st r ++ val_opt b false
    | AIns r _ _ p :: _ => a_search st r ++ [(val p, false)]
    | AKill _ _ _ p _ :: _ => [(val p, true)]                          (* Drop *)
    | AArg _ _ b mine _ :: _ => if mine then val_opt b true else []    (* Drop *)
    | ADead r (p :: _) :: _ => [(a_data r, false); (val p, true)]      (* Drop *)
    | _ => []
    end.

  Definition a_does st (t : nat) (l : alabel V Q) : list act :=
    match l with
    | LArena _ _ =>                              (* Arena::new: arena.rs:103-110 *)
        let r := a_nextr st in [ATouch [(a_mem r, true); (a_data r, true)]; AMade r; AEnd r]
    | LCall _ r o _ =>
        AUse r :: match o with AOwned _ | ABox _ => [ATouch [(LVal (a_next st), true)]] | _ => [] end
    | LConv _ _ => []
    | LPanic _ =>
        match a_stack st t with
        | ADead r (p :: _) :: _ => [ATouch [(a_data r, true); (val p, true); (a_mem r, true)]]  (* the table is freed *)
        | _ => [ATouch (a_looks st t)]
        end
    | LRead r p => [ARead p; AEnd r]
    | LDrop _ r => [ADrop r; ATouch [(a_mem r, true); (a_data r, false)]]
    | LStep _ _ _ =>
        match a_stack st t with
        | AWait r _ _ :: _ => [ATouch [(a_mem r, false)]; AAcq (a_mutex r)]   (* lock: arena.rs:59-68 *)
        | AStore _ _ _ (Some q) :: _ => [ATouch [(val q, true)]]
        | AStore _ _ _ None :: _ => [ATouch [(LVal (a_next st), true)]]
        | AIns r _ _ _ :: _ => [ATouch ((a_data r, true) :: a_looks st t)]
        | AMake _ _ _ p :: _ => [ATouch [(val p, false)]]           (* [&*p], counted as a read *)
        | ArenaModel.ARel r _ _ _ _ :: _ => [ATouch [(a_mem r, false)]; HbSpec.ARel (a_mutex r)]  (* the guard is dropped *)
        | AArg r _ _ _ x :: _ =>
            ATouch (a_looks st t) :: match x with AP p => [AGot p] | APanic => [] end ++ [AEnd r]
        | ADead r [] :: _ => [ATouch [(a_data r, true); (a_mem r, true)]]
        | _ => [ATouch (a_looks st t)]
        end
    end.
End arena.

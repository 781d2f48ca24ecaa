(** What the code of [ArcIntern] (/repo/src/arc.rs, /repo/src/arc_dst.rs) does with the pointers to its
    boxes, as far as the aliasing models of Rust are concerned: [ArcModel] with two aliasing machines for
    every block, one for the count and one for the data.

    Simplified: the data is one location without interior mutability and without padding; a search of a
    table looks at every entry, and is one step; the reference passed to [m.remove] is protected while the
    entry is taken out (it is one step) and not while another thread runs before that; that of the
    destructor of the box lives only in the step which frees the box. *)
From stdpp Require Import gmap list numbers.
From Verif Require Import Base ArcModel AliasModel.

(** What is done through a pointer, to the count and to the data of a [RefCount<T>] (arc.rs:84-88). *)
Inductive act :=
| XRef (t t' : tag) (prot : bool)    (* [t'] is a [&RefCount<T>] made from [t] *)
| XCnt (t t' : tag)                  (* [t'] is a [&AtomicUsize] to the count *)
| XBox (t t' : tag) (prot : bool)    (* [t'] is a [Box<RefCount<T>>] or [&mut RefCount<T>] *)
| XLoad (t : tag)                    (* the count is loaded *)
| XRmw (t : tag)                     (* fetch_add, fetch_sub *)
| XRead (t : tag)                    (* the data is read *)
| XInit (t : tag)                    (* both are written *)
| XDrop (t : tag)                    (* the destructor of the data *)
| XEnd (t : tag)                     (* the function a [&RefCount<T>] was passed to returns *)
| XEndBox (t : tag)                  (* the same for [XBox] *)
| XFree (t : tag).

(** AtomicUsize is inside an UnsafeCell.  [im]: the Box counts as one with interior mutability where the
    data is, too (the versions of Tree Borrows differ). [count]: arc.rs:86. *)
Definition x_cnt (x : act) : option bev :=
  match x with
  | XRef t t' _ | XCnt t t' => Some (BRef KCell t t' false)
  | XBox t t' b => Some (BRef (KUni true) t t' b)
  | XLoad t => Some (BRead t)
  | XRmw t | XInit t => Some (BWrite t)
  | XEndBox t => Some (BEnd t)
  | XFree t => Some (BFree t)
  | XRead _ | XDrop _ | XEnd _ => None
  end.
(** [data]: arc.rs:87. *)
Definition x_dat (im : bool) (x : act) : option bev :=
  match x with
  | XRef t t' b => Some (BRef KShr t t' b)
  | XBox t t' b => Some (BRef (KUni im) t t' b)
  | XRead t => Some (BRead t)
  | XInit t | XDrop t => Some (BWrite t)
  | XEnd t | XEndBox t => Some (BEnd t)
  | XFree t => Some (BFree t)
  | XCnt _ _ | XLoad _ | XRmw _ => None
  end.

(** A Box is passed by value to functions calling each other, or returned by them; [l]: for every retag,
    whether it is protected.  [x_enter]: the retags; [x_top]: the tag it has in the end; [x_leave]: the
    functions return.
    [m.entry(BoxRefCount(b))], [e.insert(())], [m.remove(..)]: arc.rs:248, 254, 322. *)
Fixpoint x_enter (l : list bool) (nx : nat) (t : tag) : list act :=
  match l with [] => [] | b :: l' => XBox t (nx :: t) b :: x_enter l' (S nx) (nx :: t) end.
(** arc.rs:248, 254, 322. *)
Fixpoint x_top (l : list bool) (nx : nat) (t : tag) : tag :=
  match l with [] => t | _ :: l' => x_top l' (S nx) (nx :: t) end.
(** arc.rs:248, 254, 322. *)
Fixpoint x_leave (l : list bool) (nx : nat) (t : tag) : list act :=
  match l with
  | [] => []
  | b :: l' => x_leave l' (S nx) (nx :: t) ++ (if b then [XEndBox (nx :: t)] else [])
  end.

(** What a step does to a block.  [j] selects one of the pointers handles were made with. *)
Inductive cop :=
| CAlloc (w : bool)        (* the block is allocated and put into a Box; [w]: and written through it *)
| CLook                    (* a reference to its contents is passed to Hash or Eq: arc.rs:90-138 *)
| CPass                    (* the Box is passed by value *)
| CPoint                   (* [NonNull::from(b.0.borrow())]: arc.rs:235, 252, arc_dst.rs:87, 101 *)
| CInsert                  (* [e.insert(())]: arc.rs:254, arc_dst.rs:103 *)
| CBump                    (* [b.0.count.fetch_add/fetch_sub]: arc.rs:231, 241, arc_dst.rs:83, 93 *)
| CUse (j : nat) (w : bool) (* [self.pointer.as_ref().count]: arc.rs:208, 279, 299; [w]: not only loaded *)
| CRead (j : nat)          (* [&self.pointer.as_ref().data], and read: arc.rs:322, 330, 360 *)
| CTake (j : nat)          (* [m.remove(self.pointer.as_ref())] takes the Box out: arc.rs:322 *)
| CMove                    (* [box_ref_count.into_inner()]: arc.rs:259-260, 113-118 *)
| CKill.                   (* the Box is dropped: [_remove] of arc.rs:320-322, [converted] of arc_dst.rs:75 *)

(** [co_c], [co_d]: the machines of count and data; [co_box]: the tag of the Box; [co_hands]: the tags of
    the pointers handles were made with ([clone] copies the pointer: arc.rs:280-282). *)
Record cobj (M : machine) := CObj {
  co_c : mst M;
  co_d : mst M;
  co_next : nat;
  co_box : tag;
  co_hands : list tag;
}.
Global Arguments CObj {M}.
Global Arguments co_c {M}.
Global Arguments co_d {M}.
Global Arguments co_next {M}.
Global Arguments co_box {M}.
Global Arguments co_hands {M}.

Section alias.
  Context (M : machine) (im : bool).
  (** The retags of the Box: [n], by [e.insert(())]; [k], while [m.remove] takes it out of the table; [m],
      anywhere else.  [late]: the pointer of the handle is not taken before [e.insert(())], as in the
      code, but after it. *)
  Context (n m k : list bool) (late : bool).
  Implicit Types (x : cobj M).

  (** The pointer of a handle: arc.rs:55. *)
  Definition c_hand (hs : list tag) (j : nat) : option tag := hs !! Nat.min j (pred (length hs)).
  (** The actions of an operation, and the block's next number, Box and hands.
      arc.rs:207-331; arc_dst.rs:24-117. *)
  Definition c_acts (o : cop) x : option (list act * (nat * tag * list tag)) :=
    let nx := co_next x in let b := co_box x in let hs := co_hands x in
    match o with
    | CAlloc w => Some (XBox [] [0] false :: (if w then [XInit [0]] else []), (1, [0], []))
    | CLook => Some ([XRef b (nx :: b) true; XRead (nx :: b); XEnd (nx :: b)], (S nx, b, hs))
    | CPass => Some (x_enter m nx b ++ x_leave m nx b, (length m + nx, x_top m nx b, hs))
    | CPoint => Some ([XRef b (nx :: b) false], (S nx, b, hs ++ [nx :: b]))
    | CInsert => Some (x_enter n nx b ++ x_leave n nx b, (length n + nx, x_top n nx b, hs))
    | CBump => Some ([XCnt b (nx :: b); XRmw (nx :: b)], (S nx, b, hs))
    | CUse j w =>
        h ← c_hand hs j; let t := nx :: h in let t' := S nx :: t in
        Some ([XRef h t false; XCnt t t'; if w then XRmw t' else XLoad t'], (S (S nx), b, hs))
    | CRead j =>
        h ← c_hand hs j; let t := nx :: h in let t' := S nx :: t in
        Some ([XRef h t false; XRef t t' true; XRead t'; XEnd t'], (S (S nx), b, hs))
    | CTake j =>
        h ← c_hand hs j; let t := nx :: h in
        Some (XRef h t true :: x_enter k (S nx) b ++ x_leave k (S nx) b ++ [XEnd t],
              (length k + S nx, x_top k (S nx) b, hs))
    | CMove =>
        let t := x_top m nx b in
        Some (x_enter m nx b ++ x_leave m nx b ++ [XRead t; XFree t], (length m + nx, t, hs))
    | CKill =>
        let t := x_top m nx b in let t' := length m + nx :: t in
        Some (x_enter m nx b ++ x_leave m nx b ++ [XBox t t' true; XDrop t'; XEndBox t'; XFree t],
              (S (length m + nx), t, hs))
    end.

  (** Bookkeeping of the model, no counterpart in /repo. *)
  Definition m_opt (e : option bev) (s : mst M) : option (mst M) :=
    match e with Some e => m_do M s e | None => Some s end.
  (** Bookkeeping of the model, no counterpart in /repo. *)
  Fixpoint c_run (xs : list act) (cd : mst M * mst M) : option (mst M * mst M) :=
    match xs with
    | [] => Some cd
    | x :: xs' => match m_opt (x_cnt x) cd.1, m_opt (x_dat im x) cd.2 with
                  | Some c, Some d => c_run xs' (c, d)
                  | _, _ => None
                  end
    end.
  (** arc.rs:207-331; arc_dst.rs:24-117. *)
  Definition c_do (o : cop) x : option (cobj M) :=
    match c_acts o x with
    | Some (xs, (nx, b, hs)) =>
        match c_run xs (co_c x, co_d x) with Some (c, d) => Some (CObj c d nx b hs) | None => None end
    | None => None
    end.
  (** Fresh memory, before arc.rs:244 or arc_dst.rs:33-42 makes a Box of it. *)
  Definition c_new : cobj M := CObj (m_new M) (m_new M) 0 [] [].

  (** The blocks, by the serial number of the allocation. arc.rs:207-331. *)
  Definition c_apply (g : gmap nat (cobj M)) (y : nat * cop) : option (gmap nat (cobj M)) :=
    match y.2 with
    | CAlloc _ => match c_do y.2 c_new with Some x => Some (<[y.1:=x]> g) | None => None end
    | _ => match g !! y.1 with
           | Some x => match c_do y.2 x with
                       | Some x' => Some (match y.2 with CMove | CKill => delete y.1 g | _ => <[y.1:=x']> g end)
                       | None => None
                       end
           | None => None
           end
    end.
  (** Several in a row: arc.rs:207-331. *)
  Fixpoint c_applys (ys : list (nat * cop)) (g : gmap nat (cobj M)) : option (gmap nat (cobj M)) :=
    match ys with
    | [] => Some g
    | y :: ys' => match c_apply g y with Some g1 => c_applys ys' g1 | None => None end
    end.

  Context {V : Type} (E : tyenv V).
  Implicit Types (st : state V) (p q : ptr).

  (** Bookkeeping of the model, no counterpart in /repo. *)
  Definition c_at (o : cop) p : nat * cop := (p_ser p, o).
  (** A search calls Hash and Eq of the entries: arc.rs:90-138, 227, 248, 322. *)
  Definition c_looks st : list (nat * cop) := c_at CLook <$> st_table st.
  (** A client follows [ks] from [p] (see [ArcModel.follow]) and uses the last of these handles.
      arc.rs:327-362. *)
  Fixpoint c_path (j : nat -> nat) (o : nat -> cop) p (ks : list ptr) : list (nat * cop) :=
    match ks with
    | [] => [c_at (o (j (p_ser p))) p]
    | q :: ks' => c_at (CRead (j (p_ser p))) p :: c_path j o q ks'
    end.

  (** The operations of a step of [ArcModel], in order; [j]: which pointer of a block is used. *)
  Definition c_ops st (l : label V) (j : nat -> nat) : list (nat * cop) :=
    match l with
    | LNew _ _ _ | LDrop _ _ | LForget _ | LLen _ _ | LShrink _ _ => []
    | LClone p ks => c_path j (λ i, CUse i true) p ks
    | LRef p ks => c_path j (λ i, CUse i false) p ks
    | LDeref p ks => c_path j CRead p ks
    | LPanic t =>
        match get_pc st t with
        | PLookup _ _ _ => c_looks st
        | PEntry _ _ q => c_at CPass q :: c_looks st ++ [c_at CLook q]
        | PWork (IRemove p :: _) _ => c_at (CRead (j (p_ser p))) p :: c_looks st
        | _ => []
        end
    | LStep t _ _ =>
        match get_pc st t with
        | PLookup _ _ _ => c_looks st
        | PHit _ _ _ p => [c_at CBump p]
        | PInc _ _ _ p old => if (old =? 0)%N then [c_at CBump p] else [c_at CPoint p]
        | PAlloc kd _ b =>
            (* Box::new writes the contents before the Box is made; RefCount::from_slice and from_str,
               through it (arc_dst.rs:24-63) *)
            match kd, b with
            | KDst, Some _ => []
            | KDst, None => [(st_next st, CAlloc true)]
            | KSized, _ => [(st_next st, CAlloc false)]
            end
        | PEntry _ _ q => c_at CPass q :: c_looks st ++ [c_at CLook q]
        | PVac _ _ q => if late then [c_at CInsert q; c_at CPoint q] else [c_at CPoint q; c_at CInsert q]
        | POcc KSized _ q => [c_at CMove q]
        | POcc KDst _ q => [c_at CPass q]
        | PRem _ q _ _ => [c_at (CTake (j (p_ser q))) q]
        | PWork (IDrop p :: _) _ => [c_at (CUse (j (p_ser p)) true) p]
        | PWork (IRemove p :: _) _ => c_at (CRead (j (p_ser p))) p :: c_looks st
        | PWork (IFree q :: _) _ => [c_at CKill q]
        | PShrink _ i => if i <? te_shards E then c_looks st else []
        | PFree | PUndo _ _ _ _ | PIns _ _ _ | PWork [] _ | PLen _ _ _ => []
        end
    end.

  (** [ArcModel]'s state (arc.rs:24, 84-88) and the machines of the blocks. *)
  Record cstate := CState { cs_arc : state V; cs_objs : gmap nat (cobj M) }.
  (** Empty containers: arc.rs:157, 167, 175. *)
  Definition cinit : cstate := CState init ∅.
  (** A step of arc.rs:185-331 or arc_dst.rs:68-117 with what it does to the pointers. *)
  Definition cstep (cs : cstate) (l : label V * (nat -> nat)) : outcome cstate :=
    match step E (cs_arc cs) l.1 with
    | Next st => match c_applys (c_ops (cs_arc cs) l.1 l.2) (cs_objs cs) with
                 | Some g => Next (CState st g)
                 | None => UB
                 end
    | Blocked => Blocked | Illegal => Illegal | UB => UB
    end.
End alias.
Global Arguments CState {M V}.
Global Arguments cs_arc {M V}.
Global Arguments cs_objs {M V}.
Global Arguments cinit {M V}.

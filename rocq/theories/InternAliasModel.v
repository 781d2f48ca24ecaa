(** What the code of [Intern] (/repo/src/intern.rs, /repo/src/boxedset.rs) and that of the experimental
    [Intern] of /repo/src/typearena.rs do with the references they make from their boxes, as far as the
    aliasing models of Rust are concerned: [InternModel] and [NewModel] with two aliasing machines for
    every block, one for the part of the value that is inside an UnsafeCell and one for the rest.  The
    operations on a block are those of [ArcAliasModel], whose "count" is here the former part.

    Simplified: each part is one location; a search of a set looks at every entry, and is one step; a box
    of a zero-sized value, too, is a block; which of the references to a value is used is left open (the
    code copies the one in the set, or gives a copy away); a client that writes to a cell does not change
    what Hash and Eq see. *)
From stdpp Require Import gmap list numbers.
From Verif Require Import Base InternModel NewModel AliasModel ArcAliasModel.

(** What a step does to a block; [j] selects one of the references to it, [w]: a cell in it is written,
    and not only read. *)
Inductive jop :=
| JAlloc (w : bool)         (* allocated and put into a Box; [w]: and written through it *)
| JLook                     (* [val.borrow()] of a box is passed to Hash or Eq: intern.rs:170, typearena.rs:227 *)
| JCellBox                  (* these write to a cell in it *)
| JLeak                     (* [let p: &'static T = Box::leak(..)]: intern.rs:160, 173, 215, 233, typearena.rs:217, 230, 265, 283 *)
| JPoint                    (* [Intern { pointer: p }], where [p] is a [&'static mut T]: intern.rs:235, typearena.rs:285 *)
| JPass (j : nat)           (* a reference is passed on: [m.insert(p)], [Some(&b) = m.get(..)], Clone,
                               or to_u64 and from_u64 (intern.rs:328-338, typearena.rs:350-360) *)
| JRead (j : nat)           (* the value is read *)
| JCell (j : nat) (w : bool) (* so is a cell in it, or written *)
| JKill.                    (* a box is dropped: intern.rs:170-172, typearena.rs:227-229 *)

(** A [&T] is passed by value to functions calling each other; [l]: for every retag, whether it is
    protected.  As [x_enter], [x_leave].
    [m.insert(p)], [m.get(..)], Clone: intern.rs:100-105, 157-161, 212-216. *)
Fixpoint y_enter (l : list bool) (nx : nat) (t : tag) : list act :=
  match l with [] => [] | b :: l' => XRef t (nx :: t) b :: y_enter l' (S nx) (nx :: t) end.
(** intern.rs:100-105, 157-161, 212-216. *)
Fixpoint y_leave (l : list bool) (nx : nat) (t : tag) : list act :=
  match l with
  | [] => []
  | b :: l' => y_leave l' (S nx) (nx :: t) ++ (if b then [XEnd (nx :: t)] else [])
  end.

Section alias.
  Context (M : machine) (im : bool).
  (** The retags: [n], of the Box by [Box::leak]; [m], of a Box that is dropped; [r], of a reference that
      is passed on.  [early]: the reference is not made from what [Box::leak] returns, as in the code, but
      from the Box before it is leaked. *)
  Context (n m r : list bool) (early : bool).
  Implicit Types (x : cobj M).
  Local Notation cdo := (c_do M im n m []).

  (** intern.rs:157-162, 212-217; typearena.rs:214-219, 262-267. *)
  Definition j_pass (j : nat) x : option (cobj M) :=
    match c_hand (co_hands x) j with
    | Some h =>
        match c_run M im (y_enter r (co_next x) h ++ y_leave r (co_next x) h) (co_c x, co_d x) with
        | Some (c, d) => Some (CObj c d (length r + co_next x) (co_box x) (co_hands x ++ [x_top r (co_next x) h]))
        | None => None
        end
    | None => None
    end.
  (** intern.rs:151-237; typearena.rs:208-287. *)
  Definition j_do (o : jop) x : option (cobj M) :=
    match o with
    | JAlloc w => cdo (CAlloc w) x
    | JLook => cdo CLook x
    | JCellBox => cdo CBump x
    | JLeak => if early then x1 ← cdo CPoint x; cdo CInsert x1 else x1 ← cdo CInsert x; cdo CPoint x1
    | JPoint => cdo CPoint x
    | JPass j => j_pass j x
    | JRead j => cdo (CRead j) x
    | JCell j w => cdo (CUse j w) x
    | JKill => cdo CKill x
    end.
  (** The blocks, by the serial number of the allocation.
      intern.rs:151-237; typearena.rs:208-287. *)
  Definition j_apply (g : gmap nat (cobj M)) (y : nat * jop) : option (gmap nat (cobj M)) :=
    match y.2 with
    | JAlloc _ => match j_do y.2 (c_new M) with Some x => Some (<[y.1:=x]> g) | None => None end
    | _ => match g !! y.1 with
           | Some x => match j_do y.2 x with
                       | Some x' => Some (match y.2 with JKill => delete y.1 g | _ => <[y.1:=x']> g end)
                       | None => None
                       end
           | None => None
           end
    end.
  (** Several in a row: intern.rs:151-237; typearena.rs:208-287. *)
  Fixpoint j_applys (ys : list (nat * jop)) (g : gmap nat (cobj M)) : option (gmap nat (cobj M)) :=
    match ys with
    | [] => Some g
    | y :: ys' => match j_apply g y with Some g1 => j_applys ys' g1 | None => None end
    end.
End alias.

(** ** The operations of the steps.  [j]: which reference to a block is used; [w]: whether Hash and Eq
    write to the cells of what they are passed. *)
Section ops.
  Context {V Q : Type} (E : ienv V Q).
  Implicit Types (p : iptr) (ps : list iptr) (f : frame V Q).

  (** Bookkeeping of the model, no counterpart in /repo. *)
  Definition j_at (o : jop) p : nat * jop := (ip_ser p, o).
  (** Hash and Eq of an entry: boxedset.rs:58-66, 82. *)
  Definition j_look (j : nat -> nat) (w : bool) p : list (nat * jop) :=
    [j_at (JRead (j (ip_ser p))) p; j_at (JCell (j (ip_ser p)) w) p].
  (** boxedset.rs:58-66, 82. *)
  Definition j_looks (j : nat -> nat) (w : bool) ps : list (nat * jop) := ps ≫= j_look j w.
  (** [m.get(val.borrow())]: intern.rs:170, typearena.rs:227. *)
  Definition j_box (w : bool) (b : option iptr) : list (nat * jop) :=
    match b with Some p => j_at JLook p :: (if w then [j_at JCellBox p] else []) | None => [] end.
  (** intern.rs:170-172, typearena.rs:227-229. *)
  Definition j_kill (b : option iptr) : list (nat * jop) :=
    match b with Some p => [j_at JKill p] | None => [] end.

  (** The step of a frame under the mutex; [mem]: the memory, [ps]: the set, [i]: as in [IStep].
      intern.rs:151-237; typearena.rs:208-287. *)
  Definition f_ops (mem : istate V Q) ps (i : nat) (j : nat -> nat) (w : bool) f : list (nat * jop) :=
    match f with
    | FGet o b =>
        j_box w b ++ j_looks j w ps ++
        match ipick i (candidates mem (key_match E o) ps), o, b with
        | Some p, OIs _ _ _, _ => []
        | Some p, _, _ => [j_at (JPass (j (ip_ser p))) p]
        | None, _, Some p => [j_at JLeak p]
        | None, _, None => []
        end
    | FStore o _ =>
        (* Box::new writes the value before the Box is made, Box::from(&str) through it *)
        [(i_next mem, JAlloc (match o with OVia _ => true | _ => false end)); (i_next mem, JLeak)]
    | FIns o p =>
        j_at (JPass (j (ip_ser p))) p :: j_look j w p ++ j_looks j w ps ++
        match o with ORef _ _ _ => [j_at JPoint p] | _ => [] end
    | FDup _ b _ => j_kill b
    | FWait _ _ | FConv _ _ _ | FDone _ _ => []
    end.
  (** User code panics in it. intern.rs:151-237; typearena.rs:208-287. *)
  Definition f_panic ps (j : nat -> nat) (w : bool) f : list (nat * jop) :=
    match f with
    | FGet _ b => j_box w b ++ j_looks j w ps
    | FIns _ p => j_at (JPass (j (ip_ser p))) p :: j_look j w p ++ j_looks j w ps
    | _ => []
    end.
  (** The [T] of intern.rs:156, 169, 211, 229. *)
  Definition f_ty f : nat :=
    match f with
    | FWait o _ | FGet o _ | FStore o _ | FIns o _ | FDup o _ _ | FDone o _ => op_ty E o
    | FConv ty _ _ => ty
    end.

  (** [Intern] (intern.rs:151-279, 387-393). *)
  Definition i_ops (st : istate V Q) (l : ilabel V Q) (j : nat -> nat) (w : bool) : list (nat * jop) :=
    match l with
    | ICall _ (OBox _) _ => [(i_next st, JAlloc false)]
    | ICall _ _ _ | IConv _ _ => []
    | IStep t _ i => match get_stack st t with f :: _ => f_ops st (set_of E st (f_ty f)) i j w f | [] => [] end
    | IPanic t => match get_stack st t with f :: _ => f_panic (set_of E st (f_ty f)) j w f | [] => [] end
    | IDeref p => [j_at (JRead (j (ip_ser p))) p]
    end.
  (** The one of typearena.rs (lines 208-308). *)
  Definition n_ops (s : nstate V Q) (l : ilabel V Q) (j : nat -> nat) (w : bool) : list (nat * jop) :=
    match l with
    | ICall _ (OBox _) _ => [(n_next s, JAlloc false)]
    | ICall _ _ _ | IConv _ _ => []
    | IStep t _ i =>
        match nstack s t with
        | NIn c f :: _ => f_ops (nmem s) (nset s (slot E (f_ty f), c)) i j w f
        | NPanic _ b :: _ => j_kill b
        | _ => []
        end
    | IPanic t => match nstack s t with NIn c f :: _ => f_panic (nset s (slot E (f_ty f), c)) j w f | _ => [] end
    | IDeref p => [j_at (JRead (j (ip_ser p))) p]
    end.

  (** A program together with the operations of its steps.
      Bookkeeping of the model, no counterpart in /repo. *)
  Record host := Host {
    h_st : Type;
    h_init : h_st;
    h_step : h_st -> ilabel V Q -> outcome h_st;
    h_log : h_st -> list (ievent V Q);
    h_ops : h_st -> ilabel V Q -> (nat -> nat) -> bool -> list (nat * jop);
  }.
  (** intern.rs:151-279. *)
  Definition intern_host : host := Host (istate V Q) iinit (istep E) i_log i_ops.
  (** typearena.rs:23-308. *)
  Definition new_host : host := Host (nstate V Q) ninit (nstep E) n_log n_ops.
End ops.
Global Arguments host : clear implicits.

(** A step of the program; or the client uses a cell in a value it has a handle to; or passes a handle
    on, maybe as an integer. intern.rs:100-105, 328-338, 387-393; typearena.rs:160-165, 350-360. *)
Inductive jlabel (V Q : Type) :=
| JRun (l : ilabel V Q) (j : nat -> nat) (w : bool)
| JUse (p : iptr) (j : nat) (w : bool)
| JCopy (p : iptr) (j : nat).
Global Arguments JRun {V Q}.
Global Arguments JUse {V Q}.
Global Arguments JCopy {V Q}.

Section run.
  Context (M : machine) (im : bool) (n m r : list bool) (early : bool) {V Q : Type} (H : host V Q).

  (** The program's state (container.rs:13-15, typearena.rs:16-21) and the machines of the blocks. *)
  Record jstate := JState { js_st : h_st H; js_objs : gmap nat (cobj M) }.
  (** Empty containers: container.rs:71-77, typearena.rs:20-21. *)
  Definition jinit : jstate := JState (h_init H) ∅.
  (** intern.rs:151-393; typearena.rs:208-308. *)
  Definition j_ops (js : jstate) (l : jlabel V Q) : list (nat * jop) :=
    match l with
    | JRun l j w => h_ops H (js_st js) l j w
    | JUse p j w => [j_at (JCell j w) p]
    | JCopy p j => [j_at (JPass j) p]
    end.
  (** intern.rs:151-393; typearena.rs:208-308. *)
  Definition j_host (st : h_st H) (l : jlabel V Q) : outcome (h_st H) :=
    match l with
    | JRun l _ _ => h_step H st l
    | JUse p _ _ | JCopy p _ => if returned p (h_log H st) then Next st else Illegal
    end.
  (** A step of intern.rs:151-279 or typearena.rs:23-308 with what it does to the pointers. *)
  Definition jstep (js : jstate) (l : jlabel V Q) : outcome jstate :=
    match j_host (js_st js) l with
    | Next st => match j_applys M im n m r early (j_ops js l) (js_objs js) with
                 | Some g => Next (JState st g)
                 | None => UB
                 end
    | Blocked => Blocked | Illegal => Illegal | UB => UB
    end.
End run.
Global Arguments JState {M V Q H}.
Global Arguments js_st {M V Q H}.
Global Arguments js_objs {M V Q H}.
Global Arguments jinit {M V Q H}.

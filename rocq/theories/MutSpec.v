(** Vocabulary for the property about interior mutability. *)
From stdpp Require Import gmap list numbers.
From Verif Require Import Base MutModel.
From Verif Require ArcModel InternModel ArenaModel NewModel.

(** An execution without its stores. *)
Fixpoint plain {L S} (ls : list (mlabel L S)) : list L :=
  match ls with [] => [] | MDo l :: ls' => l :: plain ls' | MSet _ :: ls' => plain ls' end.

Section arc.
  Import ArcModel.
  Context {V : Type} (E : tyenv V).

  (** Eq and Hash cannot tell [d] from [d'], and they contain the same handles. *)
  Record unseen (d d' : V) : Prop := Unseen {
    un_ty : te_ty E d = te_ty E d';
    un_kids : te_kids E d = te_kids E d';
    un_hash : te_hash E d = te_hash E d';
    un_eq : forall u, te_eq E d u = te_eq E d' u /\ te_eq E u d = te_eq E u d';
  }.
  (** All stores of an execution are of this kind. *)
  Definition quiet (ls : list (mlabel (label V) (arc_store V))) : Prop :=
    forall ls1 p ks v ls2 st k d, ls = ls1 ++ MSet (AS p ks v) :: ls2 ->
      run (arc_mstep E) init ls1 = Some st -> borrow E st p ks = Next k -> data st k = Some d -> unseen d v.

  (** The same state but for parts of values that Eq and Hash do not see. *)
  Definition cell_like (c c' : cell V) : Prop :=
    c_ser c = c_ser c' /\ c_count c = c_count c' /\ option_Forall2 unseen (c_data c) (c_data c').
  Definition ret_like (r r' : option (V * ptr)) : Prop :=
    option_Forall2 (λ x y, unseen x.1 y.1 /\ x.2 = y.2) r r'.
  Definition pc_like (x y : pc V) : Prop :=
    match x, y with
    | PFree, PFree => True
    | PLookup k v b, PLookup k' v' b' => k = k' /\ unseen v v' /\ b = b'
    | PHit k v b p, PHit k' v' b' p' => k = k' /\ unseen v v' /\ b = b' /\ p = p'
    | PInc k v b p n, PInc k' v' b' p' n' => k = k' /\ unseen v v' /\ b = b' /\ p = p' /\ n = n'
    | PUndo k v b p, PUndo k' v' b' p' => k = k' /\ unseen v v' /\ b = b' /\ p = p'
    | PAlloc k v b, PAlloc k' v' b' => k = k' /\ unseen v v' /\ b = b'
    | PEntry k v q, PEntry k' v' q' => k = k' /\ unseen v v' /\ q = q'
    | PVac k v q, PVac k' v' q' => k = k' /\ unseen v v' /\ q = q'
    | POcc k v q, POcc k' v' q' => k = k' /\ unseen v v' /\ q = q'
    | PIns k v q, PIns k' v' q' => k = k' /\ unseen v v' /\ q = q'
    | PRem l q w r, PRem l' q' w' r' => l = l' /\ q = q' /\ w = w' /\ ret_like r r'
    | PWork w r, PWork w' r' => w = w' /\ ret_like r r'
    | PLen ty i n, PLen ty' i' n' => ty = ty' /\ i = i' /\ n = n'
    | PShrink ty i, PShrink ty' i' => ty = ty' /\ i = i'
    | _, _ => False
    end.
  Definition event_like (e f : event V) : Prop :=
    match e, f with
    | EvNew t v p, EvNew t' v' p' => t = t' /\ unseen v v' /\ p = p'
    | EvDeref p v, EvDeref p' v' => p = p' /\ unseen v v'
    | EvRef p n, EvRef p' n' => p = p' /\ n = n'
    | EvLen t ty n, EvLen t' ty' n' => t = t' /\ ty = ty' /\ n = n'
    | _, _ => False
    end.
  Record like (st st' : state V) : Prop := Like {
    lk_heap : forall a, option_Forall2 cell_like (st_heap st !! a) (st_heap st' !! a);
    lk_threads : forall t, pc_like (get_pc st t) (get_pc st' t);
    lk_log : Forall2 event_like (st_log st) (st_log st');
    lk_table : st_table st = st_table st';
    lk_locks : st_locks st = st_locks st';
    lk_pool : st_pool st = st_pool st';
    lk_gone : st_gone st = st_gone st';
    lk_next : st_next st = st_next st';
    lk_zombies : st_zombies st = st_zombies st';
  }.

  (** Thread [t] calls [ArcIntern::new(v)] and is not disturbed; the allocator returns [a]. *)
  Definition alone (t a : nat) (v : V) : list (mlabel (label V) (arc_store V)) :=
    MDo (LNew t KSized v) :: replicate 6 (MDo (LStep t a 0)).
  (** let a = ArcIntern::new(v); let b = ArcIntern::new(w); a.set(w'); drop(a); *b *)
  Definition set_and_drop (v w w' : V) : list (mlabel (label V) (arc_store V)) :=
    alone 0 0 v ++ alone 0 1 w ++
    [MSet (AS (Ptr 0 0) [] w'); MDo (LDrop 0 (Ptr 0 0)); MDo (LStep 0 0 0); MDo (LStep 0 0 0);
     MDo (LStep 0 0 0); MDo (LDeref (Ptr 1 1) [])].
End arc.

Section set.
  Import InternModel.
  Context {V Q : Type} (E : ienv V Q).

  (** Eq, Hash and Borrow cannot tell [d] from [d']. *)
  Record iunseen (d d' : V) : Prop := IUnseen {
    iu_ty : ie_ty E d = ie_ty E d';
    iu_meta : ie_meta E d = ie_meta E d';
    iu_hash : ie_hash E d = ie_hash E d';
    iu_eq : forall u, ie_eq E d u = ie_eq E d' u /\ ie_eq E u d = ie_eq E u d';
    iu_borrow : forall w q, ie_qeq E (ie_borrow E w d) q = ie_qeq E (ie_borrow E w d') q;
  }.

  (** Intern *)
  Definition iquiet (ls : list (mlabel (ilabel V Q) (int_store V))) : Prop :=
    forall ls1 p v ls2 st d, ls = ls1 ++ MSet (IS p v) :: ls2 ->
      run (int_mstep E) iinit ls1 = Some st -> iread st p = Some d -> iunseen d v.
  Definition iobj_like (x y : iobj V) : Prop :=
    io_addr x = io_addr y /\ io_leaked x = io_leaked y /\ iunseen (io_val x) (io_val y).
  Definition ievent_like (e f : ievent V Q) : Prop :=
    match e, f with
    | EvIns t o p v, EvIns t' o' p' v' => t = t' /\ o = o' /\ p = p' /\ iunseen v v'
    | EvRead p v, EvRead p' v' => p = p' /\ iunseen v v'
    | EvClr _, EvClr _ | EvRet _ _ _, EvRet _ _ _ => e = f
    | _, _ => False
    end.
  Record ilike (st st' : istate V Q) : Prop := ILike {
    il_objs : forall s, option_Forall2 iobj_like (i_objs st !! s) (i_objs st' !! s);
    il_log : Forall2 ievent_like (i_log st) (i_log st');
    il_slots : i_slots st = i_slots st';
    il_locks : i_locks st = i_locks st';
    il_poison : i_poison st = i_poison st';
    il_threads : i_threads st = i_threads st';
    il_next : i_next st = i_next st';
  }.

  (** The Intern of typearena.rs *)
  Definition nquiet (ls : list (mlabel (ilabel V Q) (int_store V))) : Prop :=
    forall ls1 p v ls2 s d, ls = ls1 ++ MSet (IS p v) :: ls2 ->
      run (new_mstep E) NewModel.ninit ls1 = Some s -> iread (NewModel.nmem s) p = Some d -> iunseen d v.
  Record nlike (s s' : NewModel.nstate V Q) : Prop := NLike {
    nl_objs : forall j, option_Forall2 iobj_like (NewModel.n_objs s !! j) (NewModel.n_objs s' !! j);
    nl_log : Forall2 ievent_like (NewModel.n_log s) (NewModel.n_log s');
    nl_vecs : NewModel.n_vecs s = NewModel.n_vecs s';
    nl_resv : NewModel.n_resv s = NewModel.n_resv s';
    nl_sets : NewModel.n_sets s = NewModel.n_sets s';
    nl_locks : NewModel.n_locks s = NewModel.n_locks s';
    nl_poison : NewModel.n_poison s = NewModel.n_poison s';
    nl_threads : NewModel.n_threads s = NewModel.n_threads s';
    nl_next : NewModel.n_next s = NewModel.n_next s';
  }.

  (** Arena *)
  Import ArenaModel.
  Definition aquiet (ls : list (mlabel (alabel V Q) (are_store V))) : Prop :=
    forall ls1 r p v ls2 st d, ls = ls1 ++ MSet (RS r p v) :: ls2 ->
      run (are_mstep E) ainit ls1 = Some st -> a_read st p = Some d -> iunseen d v.
  Definition aobj_like (x y : aobj V) : Prop :=
    ao_addr x = ao_addr y /\ iunseen (ao_val x) (ao_val y).
  Definition aevent_like (e f : aevent V Q) : Prop :=
    match e, f with
    | AvIns t r o p v, AvIns t' r' o' p' v' => t = t' /\ r = r' /\ o = o' /\ p = p' /\ iunseen v v'
    | AvRead r p v, AvRead r' p' v' => r = r' /\ p = p' /\ iunseen v v'
    | AvIns _ _ _ _ _, _ | AvRead _ _ _, _ | _, AvIns _ _ _ _ _ | _, AvRead _ _ _ => False
    | _, _ => e = f
    end.
  Record alike (st st' : astate V Q) : Prop := ALike {
    al_objs : forall s, option_Forall2 aobj_like (a_objs st !! s) (a_objs st' !! s);
    al_log : Forall2 aevent_like (a_log st) (a_log st');
    al_arenas : a_arenas st = a_arenas st';
    al_locks : a_locks st = a_locks st';
    al_poison : a_poison st = a_poison st';
    al_threads : a_threads st = a_threads st';
    al_next : a_next st = a_next st';
    al_nextr : a_nextr st = a_nextr st';
  }.

  (** let arena = Arena::new(); let a = arena.intern(v); then, while another thread is in
      arena.intern(w) and has not found a value: a.set(w') *)
  Definition set_between (ty : nat) (v w w' : V) : list (mlabel (alabel V Q) (are_store V)) :=
    [MDo (LArena 0 ty)] ++ (MDo (LCall 0 0 (ANew v) 0) :: replicate 7 (MDo (LStep 0 0 0))) ++
    [MDo (LCall 1 0 (ANew w) 1); MDo (LStep 1 1 0); MDo (LStep 1 1 0); MDo (LStep 1 1 0);
     MSet (RS 0 (IPtr 0 (ie_meta E v) 0) w');
     MDo (LStep 1 1 0); MDo (LStep 1 1 0); MDo (LStep 1 1 0)].
End set.

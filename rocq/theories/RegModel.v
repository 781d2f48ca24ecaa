(** Executable model of [ArcIntern::get_container] (/repo/src/arc.rs:145-180): how the
    process-wide container of each type is created on first use.

    One label is one atomic access to the shared statics: entering / leaving the
    initialiser of a [OnceCell], taking a shard lock of the type map and searching it,
    inserting, downgrading, releasing.  A container is identified by the serial number of
    its creation. *)
From stdpp Require Import gmap list numbers.
From Verif Require Import Base.

(** [once_cell::sync::OnceCell]: empty, its initialiser being run by a thread, or full.
    (arc.rs:147, 157). *)
Inductive once := ORun (t : nat) | ODone (c : nat).

(** [dashmap]'s shard lock: [n] readers or one writer. (arc.rs:169-177). *)
Inductive rwlock := LRead (n : nat) | LWrite (t : nat).

(** Program counter of a thread inside [get_container::<ty>()]. *)
Inductive gpc :=
| GFree
| GOnce (ty i : nat)      (* ty is the i-th common type: CONTAINER.get_or_init: arc.rs:158 *)
| GOnceRun (ty i : nat)   (* running the closure of arc.rs:158 *)
| GMap (ty : nat)         (* ARC_CONTAINERS.get_or_init: arc.rs:167 *)
| GMapRun (ty : nat)      (* running the closure of arc.rs:167 *)
| GGet (ty : nat)         (* type_map.get: arc.rs:169 *)
| GEntry (ty : nat)       (* get found nothing: type_map.entry: arc.rs:172-173 *)
| GVac (ty : nat)         (* vacant, write guard held: or_insert_with: arc.rs:174-176 *)
| GOcc (ty c : nat)       (* occupied or just inserted, write guard held: downgrade: arc.rs:177 *)
| GRead (ty c : nat).     (* read guard [boxed] held: downcast_ref, return: arc.rs:179 *)

Inductive gevent :=
| EvGot (t ty c : nat)    (* get_container::<ty>() returned container c *)
| EvPanic (t ty : nat).   (* downcast_ref().unwrap() panicked *)

Record gstate := GState {
  g_statics : gmap nat once;     (* the [CONTAINER] static of each common type: arc.rs:157 *)
  g_map : option once;           (* ARC_CONTAINERS: arc.rs:147 *)
  g_entries : list (nat * nat);  (* contents of the type map: (TypeId, container) *)
  g_locks : gmap nat rwlock;     (* shard locks of the type map *)
  g_boxes : list nat;            (* element type of container 0, 1, 2, ... *)
  g_threads : gmap nat gpc;
  g_log : list gevent;
}.

(** arc.rs:145-180. *)
Inductive glabel :=
| GCall (t ty : nat)      (* thread t calls get_container::<ty>() *)
| GStep (t : nat).        (* thread t takes its next step *)

Section model.
  (** [common] are the types listed at arc.rs:165 (str, String); [shard] is the type map's
      shard of a TypeId. *)
  Context (common : list nat) (shard : nat -> nat).

  (** Both statics empty: arc.rs:147, 157. *)
  Definition ginit : gstate := GState ∅ None [] ∅ [] ∅ [].

  (** Bookkeeping of the model, no counterpart in /repo. *)
  Definition get_gpc st t : gpc := default GFree (g_threads st !! t).
  (** Bookkeeping of the model, no counterpart in /repo. *)
  Definition set_gpc st t x : gstate :=
    GState (g_statics st) (g_map st) (g_entries st) (g_locks st) (g_boxes st)
      (<[t:=x]> (g_threads st)) (g_log st).
  (** arc.rs:157-158. *)
  Definition set_static st i o : gstate :=
    GState (<[i:=o]> (g_statics st)) (g_map st) (g_entries st) (g_locks st) (g_boxes st)
      (g_threads st) (g_log st).
  (** arc.rs:167. *)
  Definition set_map st o : gstate :=
    GState (g_statics st) (Some o) (g_entries st) (g_locks st) (g_boxes st)
      (g_threads st) (g_log st).
  (** arc.rs:169, 172-177. *)
  Definition set_glock st s (l : option rwlock) : gstate :=
    GState (g_statics st) (g_map st) (g_entries st)
      (match l with Some x => <[s:=x]> (g_locks st) | None => delete s (g_locks st) end)
      (g_boxes st) (g_threads st) (g_log st).
  (** arc.rs:174-176. *)
  Definition add_entry st ty c : gstate :=
    GState (g_statics st) (g_map st) ((ty, c) :: g_entries st) (g_locks st) (g_boxes st)
      (g_threads st) (g_log st).
  (** [Container::with_hasher(RandomState::new())] for element type [ty]. (arc.rs:158, 175). *)
  Definition make st ty : gstate :=
    GState (g_statics st) (g_map st) (g_entries st) (g_locks st) (g_boxes st ++ [ty])
      (g_threads st) (g_log st).
  (** Bookkeeping of the model, no counterpart in /repo. *)
  Definition add_ev st e : gstate :=
    GState (g_statics st) (g_map st) (g_entries st) (g_locks st) (g_boxes st)
      (g_threads st) (e :: g_log st).
  (** Bookkeeping of the model, no counterpart in /repo. *)
  Definition fresh st : nat := length (g_boxes st).

  (** The chain of [if TypeId::of::<T>() == TypeId::of::<$t>()] (arc.rs:156-162): position of
      the first match. *)
  Fixpoint position (ty : nat) (l : list nat) : option nat :=
    match l with
    | [] => None
    | x :: l' => if x =? ty then Some 0 else S <$> position ty l'
    end.

  (** First entry of the map under key [ty]. (arc.rs:169, 173). *)
  Fixpoint find_entry (ty : nat) (l : list (nat * nat)) : option nat :=
    match l with
    | [] => None
    | (x, c) :: l' => if x =? ty then Some c else find_entry ty l'
    end.

  (** arc.rs:169, 177. *)
  Definition read_lock st s : option gstate :=
    match g_locks st !! s with
    | None => Some (set_glock st s (Some (LRead 1)))
    | Some (LRead n) => Some (set_glock st s (Some (LRead (S n))))
    | Some (LWrite _) => None
    end.
  (** [boxed] goes out of scope: arc.rs:180. *)
  Definition read_unlock st s : gstate :=
    match g_locks st !! s with
    | Some (LRead (S (S n))) => set_glock st s (Some (LRead (S n)))
    | _ => set_glock st s None
    end.

  (** arc.rs:145-180. *)
  Definition gstep_thread st t : outcome gstate :=
    match get_gpc st t with
    | GFree => Illegal
    | GOnce ty i =>
        match g_statics st !! i with
        | None => Next (set_gpc (set_static st i (ORun t)) t (GOnceRun ty i))
        | Some (ORun _) => Blocked
        | Some (ODone c) => Next (add_ev (set_gpc st t GFree) (EvGot t ty c))
        end
    | GOnceRun ty i =>
        let c := fresh st in
        match common !! i with
        | Some u => Next (add_ev (set_gpc (set_static (make st u) i (ODone c)) t GFree) (EvGot t ty c))
        | None => Illegal
        end
    | GMap ty =>
        match g_map st with
        | None => Next (set_gpc (set_map st (ORun t)) t (GMapRun ty))
        | Some (ORun _) => Blocked
        | Some (ODone _) => Next (set_gpc st t (GGet ty))
        end
    | GMapRun ty => Next (set_gpc (set_map st (ODone 0)) t (GGet ty))
    | GGet ty =>
        (* shared lock and search; released at once when nothing is found *)
        match read_lock st (shard ty) with
        | None => Blocked
        | Some st' =>
            match find_entry ty (g_entries st) with
            | Some c => Next (set_gpc st' t (GRead ty c))
            | None => Next (set_gpc st t (GEntry ty))
            end
        end
    | GEntry ty =>
        match g_locks st !! shard ty with
        | Some _ => Blocked
        | None =>
            let st' := set_glock st (shard ty) (Some (LWrite t)) in
            match find_entry ty (g_entries st) with
            | Some c => Next (set_gpc st' t (GOcc ty c))
            | None => Next (set_gpc st' t (GVac ty))
            end
        end
    | GVac ty =>
        let c := fresh st in
        Next (set_gpc (add_entry (make st ty) ty c) t (GOcc ty c))
    | GOcc ty c => Next (set_gpc (set_glock st (shard ty) (Some (LRead 1))) t (GRead ty c))
    | GRead ty c =>
        (* downcast_ref() succeeds iff the container was made for this type *)
        let st' := set_gpc (read_unlock st (shard ty)) t GFree in
        match g_boxes st !! c with
        | Some u => Next (add_ev st' (if u =? ty then EvGot t ty c else EvPanic t ty))
        | None => UB
        end
    end.

  (** arc.rs:145-180. *)
  Definition gstep st (l : glabel) : outcome gstate :=
    match l with
    | GStep t => gstep_thread st t
    | GCall t ty =>
        match get_gpc st t with
        | GFree =>
            match position ty common with
            | Some i => Next (set_gpc st t (GOnce ty i))
            | None => Next (set_gpc st t (GMap ty))
            end
        | _ => Illegal
        end
    end.
End model.

(** Text types and the conversions between handles' contents: [AsRef<OsStr>] and [AsRef<Path>] of interned
    [str], [OsStr] and [Path] (intern.rs:366-385, typearena.rs:385-400, arc.rs:334-354).

    A [str], [OsStr] or [Path] is a string of bytes (std, on Unix).  [as_ref] of std converts the reference
    and leaves the bytes alone.  Eq and Hash of [str] and [OsStr] go by the bytes, those of [Path] by its
    components.  This part of std is written down from its documentation and not checked. *)
From stdpp Require Import list numbers.
From Verif Require Import Base InternModel.
From Verif Require ArcModel.

(** The types of intern.rs:379-385. *)
Inductive text := TStr | TOs | TPath.
Global Instance text_eq_dec : EqDecision text.
Proof. solve_decision. Defined.
(** A value of one of these types: intern.rs:379-385. *)
Record str := Str { s_ty : text; s_bytes : list N }.

(** [Path::components] (std; Eq and Hash of the [Path] of intern.rs:133, 381-385): the bytes between separators, 47... *)
Fixpoint split_at_sep (b : list N) : list (list N) :=
  match b with
  | [] => [[]]
  | x :: b => if (x =? 47)%N then [] :: split_at_sep b
              else match split_at_sep b with c :: cs => (x :: c) :: cs | [] => [[x]] end
  end.
(** ... but nothing is between repeated ones (intern.rs:133), and the component "." counts only at the start. *)
Definition counts (c : list N) : bool := bool_decide (c <> []) && bool_decide (c <> [46%N]).
(** As above (intern.rs:133). The Boolean: does the path start at the root? *)
Definition comps (b : list N) : bool * list (list N) :=
  (match b with x :: _ => (x =? 47)%N | [] => false end,
   match split_at_sep b with
   | c :: cs => (if bool_decide (c = []) then [] else [c]) ++ List.filter counts cs
   | [] => []
   end).

(** Eq of the three types: std; used at intern.rs:157, 170 for those of intern.rs:379-385. *)
Definition str_eqb (u v : str) : bool :=
  match s_ty u, s_ty v with
  | TPath, TPath => bool_decide (comps (s_bytes u) = comps (s_bytes v))
  | x, y => bool_decide (x = y) && bool_decide (s_bytes u = s_bytes v)
  end.
(** What std's hashers, table, allocator and [TypeId] do with them is arbitrary: intern.rs:118, container.rs:85-117. *)
Record os := Os {
  os_hash : text -> list N -> nat;               (* of the bytes *)
  os_phash : bool * list (list N) -> nat;        (* of the components *)
  os_sees : nat -> nat -> bool;
  os_dangle : nat -> nat -> nat;
  os_tid : nat -> N;
  os_usize : N;
  os_cells : N;
  os_shards : nat;
}.
(** Hash: by components for Path, by bytes else (std; intern.rs:157, 170). *)
Definition str_hash (x : os) (v : str) : nat :=
  match s_ty v with TPath => os_phash x (comps (s_bytes v)) | y => os_hash x y (s_bytes v) end.
(** The number of a type, for the container: container.rs:85-117. *)
Definition text_no (y : text) : nat := match y with TStr => 0 | TOs => 1 | TPath => 2 end.
(** The types of intern.rs:379-385 as users of Intern: the pointer of an empty string points nowhere; borrowed forms are
    the values (intern.rs:154: [I: Borrow<T>]). *)
Definition str_env (x : os) : ienv str str :=
  IEnv (λ v, text_no (s_ty v)) str_eqb (str_hash x) (λ _ v, v) str_eqb (str_hash x) (λ _ q v, bool_decide (s_ty v = s_ty q /\ s_bytes v = s_bytes q))
    (os_sees x) (λ v, length (s_bytes v)) (λ _ m, m =? 0) (os_dangle x) (os_tid x) (os_usize x) (os_cells x).
(** The same for ArcIntern; a text contains no handles: arc.rs:348-354. *)
Definition str_tyenv (x : os) : ArcModel.tyenv str :=
  ArcModel.TyEnv _ str_eqb (str_hash x) (λ v, text_no (s_ty v)) (λ _, []) (os_sees x) (os_shards x) (os_usize x).

(** [AsRef<to>] of a handle: [self.pointer.as_ref()], intern.rs:372, typearena.rs:391, arc.rs:340-341; [rd] dereferences. *)
Definition view {P} (rd : P -> option str) (to : text) (p : P) : option str :=
  (λ d, Str to (s_bytes d)) <$> rd p.

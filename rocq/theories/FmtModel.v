(** Display, Debug and Pointer of handles: /repo/src/intern.rs:395-407, 705-710,
    /repo/src/arc.rs:364-376, 550-554, /repo/src/typearena.rs:410-422, 554-558, /repo/src/arena.rs:538-550
    (no Pointer there).

    A text is the list of its characters' code points.  [core::fmt] is modelled as far as the impls
    use it: the options of a [Formatter], [Formatter::pad_integral], [LowerHex for usize],
    [Pointer for *const T].  Errors of the underlying writer are not modelled. *)
From stdpp Require Import gmap list numbers.
From Verif Require Import Base ArcModel InternModel.
Local Open Scope N_scope.

(** The options in braces, [{:*<+#018p}] say, that are passed on at intern.rs:398, 405.  The precision has
    no influence on integers. *)
Inductive falign := FNone | FLeft | FCenter | FRight.
(** The same: intern.rs:398, 405. *)
Record fopts := FOpts {
  f_fill : N;             (* a space unless given *)
  f_align : falign;
  f_plus : bool;          (* + *)
  f_alt : bool;           (* # *)
  f_zero : bool;          (* 0 *)
  f_width : option nat;
}.

(** Display and Debug of a handle: [self.deref().fmt(f)], [self.as_ref().fmt(f)] (intern.rs:398, 708,
    arc.rs:367, 552, arena.rs:541, 548): the value's own impl [show], with the same Formatter, on the value the
    handle points to.  [None]: there is none, undefined behaviour. *)
Definition fmt_value {P V T} (rd : P -> option V) (show : fopts -> V -> T) (o : fopts) (p : P) : option T :=
  show o <$> rd p.

(** The digits of [LowerHex] (core::fmt; used by intern.rs:405, arc.rs:374). *)
Definition hex_digit (d : N) : N := if d <? 10 then 48 + d else 87 + d.
(** The loop of core::fmt's GenericRadix::fmt_int: intern.rs:405, arc.rs:374. *)
Fixpoint hex_loop (fuel : nat) (x : N) (acc : list N) : list N :=
  match fuel with
  | O => acc
  | S fuel' =>
      let acc' := hex_digit (x mod 16) :: acc in
      if x / 16 =? 0 then acc' else hex_loop fuel' (x / 16) acc'
  end.
(** As many rounds as there are digits suffice: intern.rs:405, arc.rs:374. *)
Definition hex (x : N) : list N := hex_loop (S (N.to_nat (N.size x))) x [].

(** [Formatter::padding]: what is written before and after; right-aligned unless said otherwise
    (intern.rs:405, arc.rs:374). *)
Definition pads (o : fopts) (n : nat) : list N * list N :=
  let pre := match f_align o with FLeft => O | FCenter => Nat.div2 n | FNone | FRight => n end in
  (replicate pre (f_fill o), replicate (n - pre)%nat (f_fill o)).
(** [Formatter::pad_integral(true, prefix, buf)], the # option being on (intern.rs:405, arc.rs:374). *)
Definition pad_integral (o : fopts) (prefix buf : list N) : list N :=
  let head := (if f_plus o then [43] else []) ++ prefix in
  let n := length (head ++ buf) in
  match f_width o with
  | None => head ++ buf
  | Some w =>
      if (w <=? n)%nat then head ++ buf
      else if f_zero o then head ++ replicate (w - n) 48 ++ buf
      else let '(pre, post) := pads o (w - n) in pre ++ head ++ buf ++ post
  end.
(** [core::fmt::pointer_fmt_inner]: # means to fill up with zeros to the length of an address ([W] bits);
    the prefix 0x is always there (intern.rs:405, arc.rs:374). *)
Definition pointer_fmt (W : nat) (o : fopts) (a : N) : list N :=
  let o' := if f_alt o
            then FOpts (f_fill o) (f_align o) (f_plus o) true true
                   (match f_width o with None => Some (W / 4 + 2)%nat | w => w end)
            else o in
  pad_integral o' [48; 120] (hex a).

(** [Pointer::fmt(&self.get_pointer(), f)] for Intern (intern.rs:402-407, typearena.rs:417-422).  For a fat pointer
    older versions of the standard library write the address only, newer ones the metadata as well ([full]);
    simplification: the words around the two are left out, and the metadata is not made a text. *)
Definition ptr_text (full : bool) (W : nat) (o : fopts) (p : iptr) : list N * list nat :=
  (pointer_fmt W o (N.of_nat (ip_addr p)), if full then [ip_meta p] else []).
(** The same for ArcIntern (arc.rs:371-376): the address is that of the RefCount; [ptr] has no metadata. *)
Definition arc_ptr_text (W : nat) (o : fopts) (p : ptr) : list N := pointer_fmt W o (N.of_nat (p_addr p)).

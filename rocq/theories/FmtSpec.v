(** Vocabulary for C77. *)
From stdpp Require Import gmap list numbers.
From Verif Require Import Base FmtModel.
Local Open Scope N_scope.

(** 0-9, a-f. *)
Definition is_hex (c : N) : bool := (48 <=? c) && (c <=? 57) || (97 <=? c) && (c <=? 102).
(** Options under which an address can be read off the text: unless something that looks like a digit may
    be written after the digits. *)
Definition legible (o : fopts) : Prop :=
  f_alt o = true \/ f_zero o = true \/ f_align o = FNone \/ f_align o = FRight \/ is_hex (f_fill o) = false \/
  match f_width o with None => True | Some w => (w <= (if f_plus o then 4 else 3))%nat end.
(** The options of {:p} and {:#p}. *)
Definition plain : fopts := FOpts 32 FNone false false false None.
Definition sharp : fopts := FOpts 32 FNone false true false None.

(** [l] is the number [n] written in base 16. *)
Definition digit_chars : list N := [48; 49; 50; 51; 52; 53; 54; 55; 56; 57; 97; 98; 99; 100; 101; 102].
Inductive numeral : list N -> N -> Prop :=
  | numeral_nil : numeral [] 0
  | numeral_snoc l n d c : numeral l n -> digit_chars !! d = Some c -> numeral (l ++ [c]) (16 * n + N.of_nat d).
(** The width asked for: {:#p} asks for that of an address of [W] bits. *)
Definition asked_width (W : nat) (o : fopts) : nat :=
  match f_width o with Some w => w | None => if f_alt o then (W / 4 + 2)%nat else O end.
(** [l] is the address [a] laid out as the options say: fill, sign, 0x, zeros, digits, fill. *)
Definition laid_out (W : nat) (o : fopts) (a : N) (l : list N) : Prop :=
  exists pre zeros ds post,
    l = pre ++ (if f_plus o then [43] else []) ++ [48; 120] ++ zeros ++ ds ++ post /\
    numeral ds a /\ (ds <> [] /\ (head ds = Some 48 -> ds = [48])) /\
    Forall (eq 48) zeros /\ Forall (eq (f_fill o)) (pre ++ post) /\
    (if f_alt o || f_zero o then pre = [] /\ post = [] else zeros = []) /\
    length l = max (asked_width W o) (length ((if f_plus o then [43] else []) ++ [48; 120] ++ ds)) /\
    match f_align o with
    | FLeft => pre = []
    | FNone | FRight => post = []
    | FCenter => (length pre <= length post <= S (length pre))%nat
    end.

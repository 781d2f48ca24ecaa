(** Vocabulary of property C73 for [Arena]: what is left of an execution of the Arena model when
    some of the arenas are not used. *)
From stdpp Require Import gmap list numbers.
From Verif Require Import Base InternModel ArenaModel ArenaSpec IsolSpec.

Section rename.
  Context {V Q : Type} (ρ : nat -> nat).
  Definition ren_ares (x : ares) : ares := match x with AP p => AP (ren_ptr ρ p) | APanic => APanic end.
  Definition ren_aframe (f : aframe V Q) : aframe V Q :=
    match f with
    | AWait r o b => AWait r o (ren_ptr ρ <$> b)
    | AGet r o b => AGet r o (ren_ptr ρ <$> b)
    | AConv r w q => AConv r w q
    | AStore r o v b => AStore r o v (ren_ptr ρ <$> b)
    | AIns r o b p => AIns r o (ren_ptr ρ <$> b) (ren_ptr ρ p)
    | AKill r o b p panic => AKill r o (ren_ptr ρ <$> b) (ren_ptr ρ p) panic
    | AMake r o b p => AMake r o (ren_ptr ρ <$> b) (ren_ptr ρ p)
    | ARel r o b mine x => ARel r o (ren_ptr ρ <$> b) mine (ren_ares x)
    | AArg r o b mine x => AArg r o (ren_ptr ρ <$> b) mine (ren_ares x)
    | ADead r ps => ADead r (map (ren_ptr ρ) ps)
    end.
  Definition ren_aevent (e : aevent V Q) : aevent V Q :=
    match e with
    | AvIns t r o p v => AvIns t r o (ren_ptr ρ p) v
    | AvRet t r o b x => AvRet t r o (ren_ptr ρ <$> b) (ren_ares x)
    | AvRead r p v => AvRead r (ren_ptr ρ p) v
    | AvFree w p => AvFree w (ren_ptr ρ p)
    | AvNew r ty => AvNew r ty
    | AvDrop r => AvDrop r
    | AvGone r => AvGone r
    | AvLeak r ps => AvLeak r (map (ren_ptr ρ) ps)
    end.
  Definition ren_alabel (l : alabel V Q) : alabel V Q :=
    match l with LRead r p => LRead r (ren_ptr ρ p) | _ => l end.
End rename.

Section isolate.
  Context {V Q : Type}.
  (** Is the event about an arena in [keep]?  A box freed by a call is told by its serial; arenas
      are created in both executions. *)
  Definition aev_kept (keep : nat -> bool) (ours : nat -> bool) (e : aevent V Q) : bool :=
    match e with
    | AvIns _ r _ _ _ | AvRet _ r _ _ _ | AvRead r _ _ | AvDrop r | AvGone r | AvLeak r _ => keep r
    | AvFree (Some r) _ => keep r
    | AvFree None p => ours (ip_ser p)
    | AvNew _ _ => true
    end.
  (** The label uses only arenas in [keep]. *)
  Definition uses_only (keep : nat -> bool) (l : alabel V Q) : Prop :=
    match l with LCall _ r _ _ | LRead r _ | LDrop _ r => keep r = true | _ => True end.
End isolate.

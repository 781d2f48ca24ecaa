(** The registry lemmas in the form of the properties. *)
From stdpp Require Import gmap list numbers.
From Verif Require Import Base RegModel RegInv.

Section final.
  Context (common : list nat) (shard : nat -> nat).
  Notation step := (gstep common shard).

  Lemma reg_inv ls st : run step ginit ls = Some st -> GInv common shard st.
  Proof. intros H. destruct (greach common shard ls) as (st'&H'&?). congruence. Qed.

  Lemma reg_one ls st t1 ty1 c1 t2 ty2 c2 :
    run step ginit ls = Some st ->
    EvGot t1 ty1 c1 ∈ g_log st -> EvGot t2 ty2 c2 ∈ g_log st -> c1 = c2 <-> ty1 = ty2.
  Proof. intros H. apply (ginv_one common shard). by eapply reg_inv. Qed.

  Lemma reg_safe ls :
    exists st, run step ginit ls = Some st /\ (forall t ty, EvPanic t ty ∉ g_log st) /\ NoDup (g_boxes st).
  Proof.
    destruct (greach common shard ls) as (st&Hr&HI). exists st. split_and!; [done| |].
    - intros t ty Hin. exact (gi_log _ _ _ HI _ Hin).
    - by eapply ginv_boxes_nodup.
  Qed.

  Lemma reg_finish ls st :
    run step ginit ls = Some st ->
    exists ts st', run step st (map GStep ts) = Some st' /\ forall t, get_gpc st' t = GFree.
  Proof.
    intros H%reg_inv. destruct (gfinish common shard _ st H (le_n _)) as (ts&st'&?&?&?). by exists ts, st'.
  Qed.
End final.

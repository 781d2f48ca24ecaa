(** Proofs about the type hasher. *)
From stdpp Require Import list numbers.
From Verif Require Import Base TidModel InternModel.
Require Import ZifyBool ZifyNat ZifyN.
Local Open Scope N_scope.

Lemma tid_byte_lt h b : tid_byte h b < 2 ^ 64.
Proof. apply N.mod_upper_bound. done. Qed.
Lemma tid_bytes_lt bs h : h < 2 ^ 64 -> fold_left tid_byte bs h < 2 ^ 64.
Proof. revert h. induction bs as [|b bs IH]; intros h Hh; [done|]. simpl. apply IH, tid_byte_lt. Qed.
Lemma tid_calls_lt cs h : Forall hcall_ok cs -> h < 2 ^ 64 -> fold_left tid_call cs h < 2 ^ 64.
Proof.
  revert h. induction cs as [|c cs IH]; intros h Hc Hh; [done|]. inversion Hc as [|? ? Hc0 Hcs]; subst.
  simpl. apply IH; [done|]. destruct c; simpl; [by apply tid_bytes_lt|exact Hc0].
Qed.
Lemma tid_hash_lt cs : Forall hcall_ok cs -> tid_hash cs < 2 ^ 64.
Proof. intros H. by apply tid_calls_lt. Qed.

Lemma index_in_range {A} (containers : list A) W cs :
  length containers = 32%nat -> is_Some (containers !! N.to_nat (tid_index W cs)).
Proof.
  intros Hl. apply lookup_lt_is_Some. rewrite Hl. unfold tid_index.
  pose proof (N.mod_upper_bound (tid_hash cs mod 2 ^ W) 32 ltac:(done)). lia.
Qed.

Lemma mod_pow_32 x W : 5 <= W -> (x mod 2 ^ W) mod 32 = x mod 32.
Proof.
  intros HW. change 32 with (2 ^ 5). apply N.bits_inj. intros n.
  destruct (N.lt_ge_cases n 5).
  - rewrite !N.mod_pow2_bits_low by lia. done.
  - rewrite !N.mod_pow2_bits_high by lia. done.
Qed.
Lemma index_width W W' cs : 5 <= W -> 5 <= W' -> tid_index W cs = tid_index W' cs.
Proof. intros. unfold tid_index. by rewrite !mod_pow_32. Qed.
Lemma index_u64 W v : 5 <= W -> tid_index W [HU64 v] = v mod 32.
Proof. intros. unfold tid_index. by rewrite mod_pow_32. Qed.

(** 31 = -1 modulo 32: the index of a byte string is its alternating sum. *)
Fixpoint alternating (bs : list N) : Z :=
  match bs with [] => 0 | b :: bs' => (if Nat.even (length bs') then Z.of_N b else - Z.of_N b) + alternating bs' end.
Lemma mod_le_64 x : (x mod 2 ^ 64) mod 32 = x mod 32.
Proof. by apply mod_pow_32. Qed.
Lemma tid_byte_mod h b : (Z.of_N (tid_byte h b) mod 32 = (- Z.of_N h + Z.of_N b) mod 32)%Z.
Proof.
  assert (tid_byte h b mod 32 = (h * 31 + b) mod 32) as H.
  { unfold tid_byte. rewrite mod_le_64. rewrite <- (N.add_mod_idemp_l ((h * 31) mod 2 ^ 64)) by done.
    rewrite mod_le_64. by rewrite N.add_mod_idemp_l. }
  apply (f_equal Z.of_N) in H. rewrite !N2Z.inj_mod in H. rewrite N2Z.inj_add, N2Z.inj_mul in H.
  change (Z.of_N 32) with 32%Z in H. change (Z.of_N 31) with 31%Z in H. rewrite H.
  replace (Z.of_N h * 31 + Z.of_N b)%Z with (- Z.of_N h + Z.of_N b + Z.of_N h * 32)%Z by lia.
  by rewrite Z.mod_add.
Qed.
Lemma bytes_alternating bs h :
  (Z.of_N (fold_left tid_byte bs h) mod 32 =
   ((if Nat.even (length bs) then Z.of_N h else - Z.of_N h) + alternating bs) mod 32)%Z.
Proof.
  revert h. induction bs as [|b bs IH]; intros h; [simpl; by rewrite Z.add_0_r|].
  simpl fold_left. rewrite IH. pose proof (tid_byte_mod h b) as H. simpl length. rewrite Nat.even_succ.
  rewrite <- Nat.negb_even. simpl alternating. destruct (Nat.even (length bs)) eqn:He; simpl negb; cbv iota.
  - rewrite <- Z.add_mod_idemp_l, H, Z.add_mod_idemp_l by done. f_equal. lia.
  - rewrite <- Z.add_mod_idemp_l by done.
    assert ((- Z.of_N (tid_byte h b)) mod 32 = (Z.of_N h - Z.of_N b) mod 32)%Z as ->.
    { replace (- Z.of_N (tid_byte h b))%Z with (0 - Z.of_N (tid_byte h b))%Z by lia.
      rewrite <- Zminus_mod_idemp_r, H, Zminus_mod_idemp_r. f_equal. lia. }
    rewrite Z.add_mod_idemp_l by done. f_equal. lia.
Qed.
Lemma index_bytes W bs : 5 <= W -> (Z.of_N (tid_index W [HWrite bs]) = alternating bs mod 32)%Z.
Proof.
  intros HW. unfold tid_index. rewrite mod_pow_32 by done. rewrite N2Z.inj_mod.
  change (tid_hash [HWrite bs]) with (fold_left tid_byte bs 0). change (Z.of_N 32) with 32%Z.
  rewrite bytes_alternating. by destruct (Nat.even (length bs)).
Qed.

(** The index used by the Intern model. *)
Lemma slot_index {V Q} (E : ienv V Q) ty W cs :
  ie_cells E = 32 -> ie_usize E = 2 ^ W -> ie_tid E ty = tid_hash cs -> slot E ty = N.to_nat (tid_index W cs).
Proof. intros H0 H1 H2. unfold slot, tid_index. by rewrite H0, H1, H2. Qed.
